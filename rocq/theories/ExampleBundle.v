(** A bundle of two one-conductor lines, one inside the other, with a transfer impedance. *)
From Coq Require Import String List Arith ZArith Bool Lia Reals Lra.
From Verif Require Import Num Py Arr ArrFacts NumR RFacts LinAlg LapackR Probes Dispersive Line LineFacts Bundle Networks Mtln
  SpecLine SpecR SpecBundle SpecDisp HistoryFacts StepTotal TotalFacts LineEqFacts SpecCore CoreEq DispFacts BundleFacts BlockFacts
  MemFacts ConnFacts FitFacts DispProps DispR DispTotal BundleR PropGeom ExampleLine SymExample ConvFacts SpecConv DispExample.
Import ListNotations.
Local Open Scope R_scope.

Definition inward (dir : string) : ratmodel NumR := @RatModel NumR 0 0 [-1] [0] [1] [0] None dir.

Record pair (m : mtl NumR) (b : bundle NumR) : Prop := {
  pr_built : built LR m; pr_phys : physical m; pr_und : undispersed m;
  pr_new : mtld_new [[m]; [m]] "b" = Ok b;
  pr_n : b_conductors b = 2%nat; pr_N : b_cells b = 3%nat; pr_dt : k_dt (b_core b) = 1;
  pr_one : one_line m 3 4 (1/4) 0 0 1 1 1;
  pr_u : m_u m = [[0; 0; 0]; [0; 0; 1]; [0; 0; 2]; [0; 0; 3]];
  pr_len : forall k, (k < 3)%nat -> klen (b_core b) k = 1;
  pr_L : forall k i j, (k < 3)%nat -> (i < 2)%nat -> (j < 2)%nat -> kL (b_core b) k i j = 4 * @delta NumR i j /\ kR (b_core b) k i j = 0;
  pr_C : forall k i j, (k <= 3)%nat -> (i < 2)%nat -> (j < 2)%nat -> kC (b_core b) k i j = 1/4 * @delta NumR i j /\ kG (b_core b) k i j = 0
}.

Lemma pair_exists : exists m b, pair m b.
Proof.
  destruct (one_conductor LR LR_ok LR_complete (fun _ => []) (fun _ => []) 4 (1/4) 0 0 3 1 1 3 "m") as
    (m & Hm & P & O & Edt & Hu & _); try lra; try lia.
  replace (Rabs 3 / INR 3) with 1 in * by (rewrite Rabs_right by lra; simpl; lra).
  assert (B : built LR m) by (do 12 eexists; exact Hm).
  assert (U : undispersed m) by (exists (m_u m), (step_dt m); exact (built_disp LR m B)).
  assert (Hb : exists b, mtld_new [[m]; [m]] "b" = Ok b).
  { unfold mtld_new. cbn [concat app foldM bind]. rewrite u_eqb_refl. cbn [passert bind]. eauto. }
  destruct Hb as [b Hb]. exists m, b.
  assert (R : Forall (Forall (reachable LR)) [[m]; [m]]).
  { repeat constructor; exists m; now constructor. }
  destruct (new_frame _ _ _ Hb) as (outer & rest & E & En & EN & Hh & Hv & Hi & HeL & HeT & Hdt & _).
  injection E as <- <-.
  assert (N2 : b_conductors b = 2%nat).
  { unfold b_conductors. rewrite En, count_sum. cbn [concat app map list_sum fold_right]. rewrite (ol_n _ _ _ _ _ _ _ _ _ O). reflexivity. }
  assert (N3 : b_cells b = 3%nat).
  { unfold b_cells. rewrite EN, (sh_u _ (ph_shape _ P)). pose proof (ol_N _ _ _ _ _ _ _ _ _ O) as X. unfold cells in X. rewrite X. reflexivity. }
  assert (Dt : step_dt m = 1).
  { rewrite Edt. replace (4 * (1/4)) with 1 by lra. rewrite sqrt_1. lra. }
  destruct (new_cdiag LR _ _ _ R Hb) as (Cd & Hl & _).
  assert (X : forall i, (i < 2)%nat -> i = (@off NumR [m; m] i + 0)%nat).
  { intros i Hi'. assert (i = 0 \/ i = 1)%nat as [-> | ->] by lia; [reflexivity|].
    unfold off. cbn [firstn]. rewrite count_one, (ol_n _ _ _ _ _ _ _ _ _ O). reflexivity. }
  assert (Y : forall i, (i < 2)%nat -> nth i [m; m] no_line = m).
  { intros i Hi'. assert (i = 0 \/ i = 1)%nat as [-> | ->] by lia; reflexivity. }
  assert (Ent : forall k i j, (i < 2)%nat -> (j < 2)%nat ->
     ((k < 3)%nat -> kL (b_core b) k i j = (if (i =? j)%nat then 4 else 0) /\ kR (b_core b) k i j = 0) /\
     ((k <= 3)%nat -> kC (b_core b) k i j = (if (i =? j)%nat then 1/4 else 0) /\ kG (b_core b) k i j = 0)).
  { intros k i j Hi' Hj'.
    destruct (new_entries _ _ _ i j 0 0 k Hb) as (A1 & A2 & A3 & A4);
      cbn [concat app length]; try lia; try (rewrite Y by auto; rewrite (ol_n _ _ _ _ _ _ _ _ _ O); lia).
    cbn [concat app] in *. rewrite <- (X i Hi'), <- (X j Hj') in A1, A2, A3, A4. rewrite (Y i Hi') in A1, A2, A3, A4. unfold b_cells in N3.
    rewrite N3 in A1, A2, A3, A4. unfold kL, kR, kC, kG.
    destruct O as [o1 o2 o3 o4 o5 o6 o7 o8 o9].
    split; intros Hk; (split; [rewrite ?A1, ?A3 by lia|rewrite ?A2, ?A4 by lia]);
      destruct (i =? j)%nat; rewrite ?o4, ?o5, ?o6, ?o7 by auto; reflexivity. }
  split; auto.
  - rewrite Hdt. cbn [concat app fold_left]. unfold step_dt in Dt. rewrite Dt.
    assert (T : @nltb NumR 1 n1e10 = true). { apply Rltb_true. unfold n1e10. rsimpl. lra. }
    rewrite T. assert (T2 : @nltb NumR 1 1 = false). { apply Rltb_false. lra. }
    rewrite T2. reflexivity.
  - assert (Hlen : @length (vec NumR) (m_u m) = 4%nat) by (pose proof (sh_u _ (ph_shape _ P)) as Y'; pose proof (ol_N _ _ _ _ _ _ _ _ _ O) as X'; unfold cells in X'; rewrite X' in Y'; exact Y').
    apply nth_ext with (d := []) (d' := []); [exact Hlen|]. intros k Hk. change (k < @length (vec NumR) (m_u m))%nat in Hk. rewrite Hlen in Hk. rewrite Hu by lia.
    do 4 (destruct k as [|k]; [cbn [nth]; repeat f_equal; simpl; lra|]). lia.
  - intros k Hk. rewrite Hl by (unfold b_cells in N3; lia). cbn [concat app hd]. apply (ol_h _ _ _ _ _ _ _ _ _ O). auto.
  - intros k i j Hk Hi' Hj'. destruct (Ent k i j Hi' Hj') as [A _]. destruct (A Hk) as [-> ->]. split; [|reflexivity].
    unfold delta. destruct (i =? j)%nat; rsimpl; lra.
  - intros k i j Hk Hi' Hj'. destruct (Ent k i j Hi' Hj') as [_ A]. destruct (A Hk) as [-> ->]. split; [|reflexivity].
    unfold delta. destruct (i =? j)%nat; rsimpl; lra.
Qed.

Lemma pair_reach m b : pair m b -> bundle_history LR b b /\ reachable_bundle LR b /\ level_offset b 0 = 0%nat /\ level_offset b 1 = 1%nat.
Proof.
  intros P. assert (H : bundle_history LR b b).
  { constructor. exists [[m]; [m]], "b"%string. split; [|apply (pr_new _ _ P)].
    repeat constructor; exists m; constructor; apply (pr_built _ _ P). }
  split; [exact H|]. split; [now exists b|].
  destruct (mtld_new_inv _ _ _ (pr_new _ _ P)) as (o & r & _ & _ & E & _). unfold level_offset. rewrite E.
  cbn [firstn concat app map list_sum fold_right]. rewrite (ol_n _ _ _ _ _ _ _ _ _ (pr_one _ _ P)). split; reflexivity.
Qed.
Lemma pair_couples m b dir i j : pair m b -> couples b dir 0 [0%nat] 1 [0%nat] i j <->
  (dir = "in"%string /\ i = 1%nat /\ j = 0%nat) \/ (dir = "out"%string /\ i = 0%nat /\ j = 1%nat).
Proof.
  intros P. destruct (pair_reach _ _ P) as (_ & _ & E0 & E1). unfold couples. rewrite E0, E1. split.
  - intros (co & ci & [<-|[]] & [<-|[]] & [H|H]); [left|right]; exact H.
  - intros H. exists 0%nat, 0%nat. split; [now left|]. split; [now left|]. exact H.
Qed.
Lemma divisor_1 (m : ratmodel NumR) : rm_factor m = None -> @neqb NumR (divisor m) n0 = false.
Proof. intros H. unfold divisor. rewrite H. apply Reqb_false. rsimpl. lra. Qed.
Lemma pair_accepts m b (md : ratmodel NumR) : pair m b -> rm_factor md = None -> consistent md ->
  rm_direction md = "in"%string \/ rm_direction md = "out"%string ->
  (n_poles md = 0 \/ n_poles md = 1 \/ n_poles md = 3)%nat ->
  exists b', bundle_add_transfer_impedance b 0 [0%nat] 1 [0%nat] md = Ok b'.
Proof.
  intros P Hf Hc Hd Hp. destruct (pair_reach _ _ P) as (_ & R & _). apply (transfer_accepted LR); auto.
  - now right.
  - now apply divisor_1.
  - intros i j C. apply (pair_couples m b _ i j P) in C. rewrite (pr_n _ _ P). destruct C as [(_ & -> & ->)|(_ & -> & ->)]; lia.
  - now rewrite (pr_N _ _ P).
Qed.

(** pole number 0 of the model weighs [-e^-1] on the new current *)
Lemma inward_w1 dir : @w1 NumR 1 (residue (inward dir) (divisor (inward dir)) 0) (pole (inward dir) 0) = (- exp (-1), 0).
Proof.
  assert (RE : @residue NumR (inward dir) (divisor (inward dir)) 0 = (1, 0)) by (unfold residue, inward, divisor, get; cbn; unfold Rdiv; now rewrite Rinv_1, !Rmult_1_r).
  assert (PE : @pole NumR (inward dir) 0 = (-1, 0)) by reflexivity. rewrite RE, PE.
  unfold w1, cmul, cdiv, csub, cexp, cscal, c1, nsq. cbn. rewrite !Rmult_0_r, cos_0, sin_0.
  replace (1 * -1) with (-1) by ring. set (e := exp (-1)). f_equal; field.
Qed.

Lemma inward_active dir : active (inward dir).
Proof. right; right. cbn. lia. Qed.

(** the inner conductor feels the current of the outer one *)
Lemma pair_loaded m b : pair m b -> exists b1, bundle_add_transfer_impedance b 0 [0%nat] 1 [0%nat] (inward "in") = Ok b1 /\
  one_way LR (fun i => i = 1%nat) b b1 /\ fit (fun _ => 1%nat) (b_disp b1) /\
  (forall k i j, (k < 3)%nat -> kQ1 (b_core b1) k i j = if ((i =? 1) && (j =? 0))%nat then - exp (-1) else 0) /\
  (forall k i j, (k < 3)%nat -> kD (b_core b1) k i j = 0 /\ kE (b_core b1) k i j = 0) /\
  exists d, b1 = b_set_core b (set_disp (b_core b) d).
Proof.
  intros P. destruct (pair_accepts m b (inward "in") P) as [b1 Hb1]; [reflexivity|repeat split|now left|now right; left|].
  exists b1. split; [exact Hb1|].
  destruct (pair_reach _ _ P) as (H & R & _).
  assert (OW : one_way LR (fun i => i = 1%nat) b b1).
  { eapply ow_transfer; [| | | |exact Hb1].
    - eapply ow_new; [| |apply (pr_new _ _ P)].
      + repeat constructor; exists m; constructor; apply (pr_built _ _ P).
      + repeat constructor; apply (pr_und _ _ P).
    - constructor; [intros []|constructor].
    - constructor; [intros []|constructor].
    - intros i j C. apply (pair_couples m b _ i j P) in C. destruct C as [(_ & -> & ->)|(E & _)]; [split; lia|discriminate E]. }
  split; [exact OW|].
  destruct (transfer_exact LR b 0 [0%nat] 1 [0%nat] (inward "in") b1 R Hb1) as (_ & _ & (d & Ed & Ephi & _) & _ & Hx);
    try (constructor; [intros []|constructor]); auto using inward_active.
  rewrite (pr_N _ _ P) in Hx.
  assert (UU : Forall (Forall undispersed) [[m]; [m]]) by (repeat constructor; apply (pr_und _ _ P)).
  destruct (new_zero _ _ _ UU (pr_new _ _ P)) as (Z1 & Z2 & Z3).
  assert (RB : reachable_bundle LR b1) by (exists b; eapply bh_transfer; eauto).
  pose proof (reachable_binv LR _ RB) as Bi.
  assert (V : forall k i j, (k < 3)%nat ->
    (i = 1%nat /\ j = 0%nat -> lowered (inward "in") 0 (b_disp b) (b_disp b1) k i j) /\
    (~ (i = 1%nat /\ j = 0%nat) -> same_entry (b_disp b) (b_disp b1) k i j)).
  { intros k i j Hk. destruct (Hx k i j Hk) as [X1 X2]. split; intros E.
    - apply X1. apply (pair_couples m b _ i j P). left. tauto.
    - apply X2. intros C. apply (pair_couples m b _ i j P) in C. destruct C as [(_ & C)|(C & _)]; [tauto|discriminate C]. }
  assert (Ddt : ds_dt (b_disp b) = 1).
  { transitivity (k_dt (b_core b)); [|apply P]. pose proof (pr_new _ _ P) as X. unfold mtld_new in X. inv_bind X. injection X as <-. reflexivity. }
  assert (In : forall k i j, (k < 3)%nat ->
     dP1 (b_disp b1) k i j = (if ((i =? 1) && (j =? 0))%nat then [@cadd NumR c0 (- exp (-1), 0)] else qzero) /\
     length (dP2 (b_disp b1) k i j) = 1%nat /\ length (dP3 (b_disp b1) k i j) = 1%nat /\
     dD (b_disp b1) k i j = 0 /\ dE (b_disp b1) k i j = 0).
  { intros k i j Hk. destruct (V k i j Hk) as [V1 V2]. destruct (Z1 k i j) as (A1 & A2 & A3). destruct (Z2 k i j) as (A4 & A5).
    destruct ((i =? 1) && (j =? 0))%nat eqn:C.
    - apply andb_true_iff in C as [C1 C2]. apply Nat.eqb_eq in C1, C2.
      destruct (V1 (conj C1 C2)) as (B1 & B2 & _ & B3). destruct B3 as (B3 & B4 & B5); [cbn; lia|].
      rewrite Ddt, inward_w1, A1 in B3. rewrite B3, B4, B5, A2, A3, B1, B2, A4, A5. cbn [map length qzero inward rm_cte rm_prop rm_factor divisor].
      repeat split; rsimpl; field.
    - destruct V2 as (B1 & B2 & B3 & B4 & B5).
      { intros [-> ->]. discriminate C. }
      rewrite B1, B2, B3, B4, B5, A1, A2, A3, A4, A5. repeat split. }
  destruct (bi_disp _ Bi) as [_ _ cu1 cu2 cu3]. rewrite (bi_nx _ Bi) in cu1, cu2, cu3.
  assert (C3 : b_cells b1 = 3%nat) by (rewrite Ed; apply P). rewrite C3 in cu1, cu2, cu3.
  split; [|split; [|split]].
  - split; intros k i.
    + intros j. left. destruct (lt_dec k 3) as [Hk|Hk].
      * destruct (In k i j Hk) as [-> _]. destruct (_ && _)%nat; reflexivity.
      * unfold dP1, qget3, qget2. erewrite (cube_over qzero); [reflexivity|exact cu1|tauto].
    + intros j. left. destruct (lt_dec k 3) as [Hk|Hk].
      * apply (In k i j Hk).
      * unfold dP2, qget3, qget2. erewrite (cube_over qzero); [reflexivity|exact cu2|tauto].
    + intros j. left. destruct (lt_dec k 3) as [Hk|Hk].
      * apply (In k i j Hk).
      * unfold dP3, qget3, qget2. erewrite (cube_over qzero); [reflexivity|exact cu3|tauto].
    + left. rewrite Ed. unfold dPhi, b_disp. cbn [b_core b_set_core b_set k_disp set_disp set_i_disp]. rewrite Ephi.
      destruct (Z3 k i) as [E _]. unfold dPhi in E. now rewrite E.
  - intros k i j Hk. unfold kQ1. fold (b_disp b1). rewrite (bi_s1 _ Bi), qsum3_get. fold (dP1 (b_disp b1) k i j).
    destruct (In k i j Hk) as [-> _]. destruct (_ && _)%nat; unfold qsum, qzero, cadd, c0; cbn; rsimpl; lra.
  - intros k i j Hk. apply (In k i j Hk).
  - exists d. exact Ed.
Qed.

Lemma pair_marches m b : pair m b -> exists b1 b2 b3 b4,
  bundle_add_transfer_impedance b 0 [0%nat] 1 [0%nat] (inward "in") = Ok b1 /\ one_way LR (fun i => i = 1%nat) b b1 /\
  bundle_prepare LR 5 b1 = Ok b2 /\ b3 = @put_end NumR b2 0 false 1 /\ @bundle_advance_current NumR 0 1 b3 = Ok b4.
Proof.
  intros P. destruct (pair_loaded m b P) as (b1 & Hb1 & OW & Ft & HQ & HD & d & Ed).
  pose proof (history_cdiag LR _ _ (one_way_history LR _ _ _ OW)) as Cd.
  assert (E0 : k_n (b_core b1) = 2%nat /\ k_N (b_core b1) = 3%nat /\ k_dt (b_core b1) = 1 /\
    (forall k, klen (b_core b1) k = klen (b_core b) k) /\
    (forall k i j, kL (b_core b1) k i j = kL (b_core b) k i j /\ kR (b_core b1) k i j = kR (b_core b) k i j /\
       kC (b_core b1) k i j = kC (b_core b) k i j /\ kG (b_core b1) k i j = kG (b_core b) k i j)).
  { rewrite Ed. cbn. split; [apply (pr_n _ _ P)|]. split; [apply (pr_N _ _ P)|]. split; [apply (pr_dt _ _ P)|]. auto. }
  destruct E0 as (En & EN & Edt & Eh & Em).
  destruct (core_prepare LR LR_complete (b_core b1)) as (s1 & s2 & E1 & E2); auto.
  - rewrite Edt. lra.
  - intros k Hk. rewrite Eh, (pr_len _ _ P) by lia. lra.
  - intros k Hk. rewrite En. rewrite EN in Hk. split.
    + apply pd_ext with (A := fun i j => 1/4 * @delta NumR i j).
      { intros i j Hi Hj. destruct (Em k i j) as (_ & _ & -> & _). now destruct (pr_C _ _ P k i j Hk Hi Hj) as [-> _]. }
      intros x [i [Hi Hx]]. unfold quad. rewrite !sumR_S, !sumR_0. unfold delta. cbn [Nat.eqb]. rsimpl.
      assert (i = 0 \/ i = 1)%nat as [-> | ->] by lia; nra.
    + apply psd_ext with (A := fun _ _ => 0); [|apply psd_zero].
      intros i j Hi Hj. destruct (Em k i j) as (_ & _ & _ & ->). now destruct (pr_C _ _ P k i j Hk Hi Hj) as [_ ->].
  - intros k Hk. rewrite En. rewrite EN in Hk.
    apply pd_ext with (A := fun i j => 4 * @delta NumR i j + (if ((i =? 1) && (j =? 0))%nat then - exp (-1) else 0)).
    { intros i j Hi Hj. destruct (Em k i j) as (-> & -> & _). destruct (pr_L _ _ P k i j Hk Hi Hj) as [-> ->].
      destruct (HD k i j Hk) as [-> ->]. rewrite (HQ k i j Hk), Edt. rsimpl. field. }
    intros x [i [Hi Hx]]. unfold quad. rewrite !sumR_S, !sumR_0. unfold delta. cbn [Nat.eqb andb]. rsimpl. pose proof exp_m1.
    set (e := exp (-1)) in *.
    match goal with |- 0 < ?y => replace y with ((2 - e) * (x 0%nat * x 0%nat + x 1%nat * x 1%nat) + (2 * (x 0%nat * x 0%nat) + 2 * (x 1%nat * x 1%nat))
       + e * (x 0%nat * x 0%nat + x 1%nat * x 1%nat - x 0%nat * x 1%nat)) by ring end.
    assert (0 <= e * (x 0%nat * x 0%nat + x 1%nat * x 1%nat - x 0%nat * x 1%nat)) by (apply Rmult_le_pos; [lra|nra]).
    assert (0 <= (2 - e) * (x 0%nat * x 0%nat + x 1%nat * x 1%nat)) by (apply Rmult_le_pos; [lra|nra]).
    assert (i = 0 \/ i = 1)%nat as [-> | ->] by lia; nra.
  - assert (Hp : exists b2, bundle_prepare LR 5 b1 = Ok b2 /\ k_lr (b_core b2) <> None /\ k_disp (b_core b2) = k_disp (b_core b1)).
    { unfold bundle_prepare. rewrite E1. cbn [bind]. rewrite E2. cbn [bind]. eexists. split; [reflexivity|]. cbn [b_core b_set].
      destruct (update_lr_inv LR _ _ E1) as [t ->]. destruct (update_cg_inv LR _ _ E2) as [t' ->]. cbn. split; [discriminate|reflexivity]. }
    destruct Hp as (b2 & Hp & Hlr & Hd).
    assert (Hc : exists b4, @bundle_advance_current NumR 0 1 (@put_end NumR b2 0 false 1) = Ok b4).
    { unfold bundle_advance_current, advance_current. cbn [b_core put_end b_set_core b_set k_disp set_v k_lr].
      destruct (k_lr (b_core b2)) as [[it vd]|] eqn:El; [|congruence].
      rewrite Hd. destruct (update_q3_fit (fun _ => 1%nat) _ Ft) as (d1 & F1 & F2). unfold b_disp in F1. rewrite F1. cbn [bind].
      destruct (update_phi_fit (fun _ => 1%nat) d1 (mk2 (k_n (b_core b2)) (k_N (b_core b2)) (fun c k => cell_current
         (set_disp (set_v (b_core b2) (upd2 (k_v (b_core b2)) 0 0 (1 : NumR))) d1) (@eval_fields NumR (k_eL (b_core b2)) (k_eT (b_core b2)) 0 1) it vd c k))
         (mk2 (k_n (b_core b2)) (k_N (b_core b2)) (fun c k => cell_current
         (set_disp (set_v (b_core b2) (upd2 (k_v (b_core b2)) 0 0 (1 : NumR))) d1) (@eval_fields NumR (k_eL (b_core b2)) (k_eT (b_core b2)) 0 1) it vd c k)) F2) as (d2 & G1 & _).
      cbn [k_n k_N set_v k_eL k_eT]. cbv zeta. match goal with |- context [update_phi d1 ?x ?y] => change x with y in *; change (update_phi d1 x y) with (update_phi d1 y y) end.
      rewrite G1. cbn [bind]. eauto. }
    destruct Hc as [b4 Hc]. exists b1, b2, (@put_end NumR b2 0 false 1), b4. auto.
Qed.

Lemma pair_no_poles m b : pair m b -> kQ1 (b_core b) 0 1 0 = 0.
Proof.
  intros P. assert (UU : Forall (Forall undispersed) [[m]; [m]]) by (repeat constructor; apply (pr_und _ _ P)).
  destruct (new_zero _ _ _ UU (pr_new _ _ P)) as (Z1 & _).
  unfold kQ1. fold (b_disp b). rewrite (bi_s1 _ (mtld_new_binv _ _ _ (pr_new _ _ P))), qsum3_get. fold (dP1 (b_disp b) 0 1 0).
  destruct (Z1 0%nat 1%nat 0%nat) as [-> _]. unfold qsum, qzero, cadd, c0; cbn; rsimpl; lra.
Qed.
Lemma pair_same_poles m b b1 k i j : pair m b -> bundle_add_transfer_impedance b 0 [0%nat] 1 [0%nat] (inward "in") = Ok b1 ->
  dP1 (b_disp b1) k i j = dP1 (b_disp b) k i j -> kQ1 (b_core b1) k i j = kQ1 (b_core b) k i j.
Proof.
  intros P H E. destruct (pair_reach _ _ P) as (Hh & R & _).
  assert (RB : reachable_bundle LR b1) by (exists b; eapply bh_transfer; eauto).
  unfold kQ1. fold (b_disp b) (b_disp b1). rewrite (bi_s1 _ (reachable_binv LR _ R)), (bi_s1 _ (reachable_binv LR _ RB)), !qsum3_get.
  f_equal. exact E.
Qed.
Lemma pair_prepared m b b1 b2 : pair m b -> bundle_add_transfer_impedance b 0 [0%nat] 1 [0%nat] (inward "in") = Ok b1 ->
  bundle_prepare LR 5 b1 = Ok b2 -> k_n (b_core b2) = 2%nat /\ k_v (b_core b2) = @zeros2 NumR 2 4.
Proof.
  intros P H1 H2. destruct (pair_loaded m b P) as (b1' & H1' & _ & _ & _ & _ & d & Ed). rewrite H1 in H1'. injection H1' as <-.
  unfold bundle_prepare in H2. inv_bind H2. inv_bind H2. apply OkI in H2. subst b2. apply update_lr_inv in Ha as [t ->]. apply update_cg_inv in Ha0 as [t' ->].
  destruct (new_frame _ _ _ (pr_new _ _ P)) as (o & r & _ & _ & _ & _ & Hv & _). rewrite Ed. cbn.
  rewrite Hv. pose proof (pr_n _ _ P) as E1. pose proof (pr_N _ _ P) as E2. unfold b_conductors, b_cells in *. rewrite E1, E2. split; reflexivity.
Qed.
