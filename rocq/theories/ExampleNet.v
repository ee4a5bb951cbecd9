(** Networks of one-conductor lines for the examples. *)
From Coq Require Import String List Arith ZArith Bool Permutation Sorted Lia Reals Lra.
From Verif Require Import Num Py Arr ArrFacts NumR RFacts LinAlg LapackR Utils Probes Dispersive Line Bundle Networks Mtln
  SpecLine SpecBundle SpecNet SpecR HistoryFacts TotalFacts NetFacts NetBuild CoreEq BundleMore NetR NetStamp NetStamp2 NetRLC NetPlace NetTotal NetMore ExampleLine SpecRLC.
Import ListNotations.
Local Open Scope R_scope.

Section S.
Variable LA : lapack NumR.
Hypothesis LAc : lapack_complete LA.
(** a step succeeds when the system of node voltages and states can be solved *)
Lemma advance_exists (w : network NumR) (dt t : NumR) : Forall (fun V => exists f, V = TFun f) (w_vsrc w) -> fresh_terms w dt ->
  (forall r : nat -> R, exists v x : nat -> R,
     (forall i, (i < w_nodes w)%nat -> sumR (w_nodes w) (fun j => (nLen w i * nCap w i j / dt - nG w i j - nQ w i j / dt) * v j) - sumR (w_ns w) (fun j => nO w i j * x j) = r i) /\
     (forall i, (i < w_ns w)%nat -> sumR (w_nodes w) (fun j => - dt * nB w i j * v j) + sumR (w_ns w) (fun j => (@delta NumR i j - dt * nM w i j) * x j) = r (w_nodes w + i)%nat)) /\
  (forall v x : nat -> R,
     (forall i, (i < w_nodes w)%nat -> sumR (w_nodes w) (fun j => (nLen w i * nCap w i j / dt - nG w i j - nQ w i j / dt) * v j) - sumR (w_ns w) (fun j => nO w i j * x j) = 0) ->
     (forall i, (i < w_ns w)%nat -> sumR (w_nodes w) (fun j => - dt * nB w i j * v j) + sumR (w_ns w) (fun j => (@delta NumR i j - dt * nM w i j) * x j) = 0) ->
     (forall i, (i < w_nodes w)%nat -> v i = 0) /\ (forall i, (i < w_ns w)%nat -> x i = 0)) ->
  exists w', nw_advance_voltage LA w t dt = Ok w'.
Proof.
  intros Hs (wt & Ht & Eab) [Sol Uni]. unfold nw_advance_voltage.
  destruct (eval_total _ t Hs) as [a Ea]. destruct (eval_total _ (t - dt) Hs) as [b Eb]. destruct (eval_total _ (t - n2 * dt)%num Hs) as [c Ec].
  unfold w_sources. setoid_rewrite Ea. cbn [bind]. setoid_rewrite Eb. cbn [bind]. setoid_rewrite Ec. cbn [bind]. cbv zeta.
  unfold compute_v_terms in Ht. destruct (negb _); [discriminate Ht|]. cbv zeta in Ht. apply OkI in Ht. rewrite <- Eab, <- Ht. cbn [w_AB].
  match goal with |- exists w', bind (of_option _ (la_solve LA ?n ?A ?r)) _ = _ => destruct (solve_complete LA LAc n A r) as [x Ex]; [| |rewrite Ex; cbn [bind of_option]; eauto] end.
  all: set (n := w_nodes w) in *; set (s := w_ns w) in *.
  2: { intros y Hy. assert (Sp : forall (f : nat -> R), @sumn NumR (n + s) f = sumR n f + sumR s (fun j => f (n + j)%nat)) by (intros f; exact (sumR_split n s f)).
    destruct (Uni y (fun j => y (n + j)%nat)) as [U1 U2].
    - intros i L. specialize (Hy i ltac:(lia)). rewrite Sp in Hy. eapply eq_trans; [|exact Hy]. unfold Rminus. rewrite <- sumR_opp. f_equal; apply sumR_ext; intros j Hj.
      + rewrite get2_mk2 by lia. rewrite (proj2 (Nat.ltb_lt i n) L), (proj2 (Nat.ltb_lt j n) Hj).
        unfold w_dxc. fold n. rewrite get2_mk2 by assumption. unfold nLen, nCap, nG, nQ. rsimpl. rring.
      + rewrite get2_mk2 by lia. rewrite (proj2 (Nat.ltb_lt i n) L), !(proj2 (Nat.ltb_ge (n + j) n)) by lia.
        replace (n + j - n)%nat with j by lia. unfold nO. rsimpl. rring.
    - intros i L. specialize (Hy (n + i)%nat ltac:(lia)). rewrite Sp in Hy. eapply eq_trans; [|exact Hy]. f_equal; apply sumR_ext; intros j Hj.
      + rewrite get2_mk2 by lia. rewrite (proj2 (Nat.ltb_ge (n + i) n)), (proj2 (Nat.ltb_lt j n) Hj) by lia. replace (n + i - n)%nat with i by lia. reflexivity.
      + rewrite get2_mk2 by lia. rewrite !(proj2 (Nat.ltb_ge (n + _) n)) by lia.
        replace (n + i - n)%nat with i by lia. replace (n + j - n)%nat with j by lia. reflexivity.
    - intros k Hk. destruct (Nat.lt_ge_cases k n) as [L|L]; [exact (U1 k L)|]. replace k with (n + (k - n))%nat by lia. apply U2. lia. }
  match goal with |- exists x : vec NumR, forall i, (i < n + s)%nat -> _ = get ?r i => destruct (Sol (get r)) as (v & x & Hv & Hx); set (rr := r) in * end.
  exists (@mk NumR (n + s) (fun j => if (j <? n)%nat then v j else x (j - n)%nat)). intros i Hi.
  assert (Sp : forall (f : nat -> R), @sumn NumR (n + s) f = sumR n f + sumR s (fun j => f (n + j)%nat)) by (intros f; exact (sumR_split n s f)).
  rewrite Sp. destruct (Nat.lt_ge_cases i n) as [L|L].
  - rewrite <- (Hv i L). unfold Rminus. rewrite <- sumR_opp. f_equal; apply sumR_ext; intros j Hj.
    + rewrite (@get_mk NumR) by lia. rewrite get2_mk2 by lia. rewrite (proj2 (Nat.ltb_lt i n) L), (proj2 (Nat.ltb_lt j n) Hj).
      unfold w_dxc. fold n. rewrite get2_mk2 by assumption. unfold nLen, nCap, nG, nQ. rsimpl. rring.
    + rewrite (@get_mk NumR) by lia. rewrite get2_mk2 by lia. rewrite (proj2 (Nat.ltb_lt i n) L), !(proj2 (Nat.ltb_ge (n + j) n)) by lia.
      replace (n + j - n)%nat with j by lia. unfold nO. rsimpl. rring.
  - assert (Hi' : (i - n < s)%nat) by lia. replace (get rr i) with (get rr (n + (i - n))%nat) by (f_equal; lia). rewrite <- (Hx (i - n)%nat Hi'). f_equal; apply sumR_ext; intros j Hj.
    + rewrite (@get_mk NumR) by lia. rewrite get2_mk2 by lia. rewrite (proj2 (Nat.ltb_ge i n) L), (proj2 (Nat.ltb_lt j n) Hj). reflexivity.
    + rewrite (@get_mk NumR) by lia. rewrite get2_mk2 by lia. rewrite (proj2 (Nat.ltb_ge i n) L), !(proj2 (Nat.ltb_ge (n + j) n)) by lia.
      replace (n + j - n)%nat with j by lia. reflexivity.
Qed.
End S.

Definition plain : connector NumR := @Connector NumR "Conn_R" (Some 50) None None [] None None None.
Definition rlc_conn : connector NumR := @Connector NumR "Conn_LCpRs" (Some 1) (Some 1) (Some 1) [] None None None.
(** three ends of lines: start, far end, start; the last one with connector [k] *)
Definition star_descr (m : mtl NumR) (k : connector NumR) : list (descr NumR) :=
  [(m, ("S", ("b0", [(10%Z, 0%nat, plain)]))); (m, ("L", ("b1", [(20%Z, 0%nat, plain)]))); (m, ("S", ("b2", [(30%Z, 0%nat, k)])))]%string.
Record star (m : mtl NumR) (k : connector NumR) (s : nat) (w : network NumR) : Prop := {
  st_built : SpecLine.built LR m; st_phys : physical m; st_one : one_line m 3 4 (1/4) 0 0 1 1 1;
  st_eT : forall j i, eTran m j i = (fun _ => 0);
  st_conn : all_connected (star_descr m k); st_new : network_new (star_descr m k) = Ok w;
  st_ids : numbered w 10 0 /\ numbered w 20 1 /\ numbered w 30 2; st_n : w_nodes w = 3%nat; st_ns : w_ns w = s;
  st_well : Forall well_described (star_descr m k);
  st_state : exists nd, find_node w 30 = Some nd /\ nd_index nd = 2%nat /\ nd_state nd = seq 0 s
}.
Lemma star_exists k s : state_vars 0 k = Ok s -> exists m w, star m k s w.
Proof.
  intros Hk. destruct (one_conductor LR LR_ok LR_complete (fun _ => []) (fun _ => []) 4 (1/4) 0 0 3 1 1 3 "m") as
    (m & Hm & P & O & Edt & Hu & _ & _ & _ & _ & _ & HeT & _); try lra; try lia.
  replace (Rabs 3 / INR 3) with 1 in * by (rewrite Rabs_right by lra; simpl; lra).
  assert (B : SpecLine.built LR m) by (do 12 eexists; exact Hm).
  assert (C1 : k_n (m_core m) = 1%nat) by exact (ol_n _ _ _ _ _ _ _ _ _ O).
  destruct (mtl_new_inv _ _ _ _ _ _ _ _ _ _ _ _ _ _ Hm) as (_ & _ & _ & _ & _ & _ & _ & _ & _ & _ & _ & _ & _ & ET). rewrite C1 in ET.
  assert (Ek : k_eT (m_core m) = [mk (S (k_N (m_core m))) (fun _ _ => @n0 NumR)]) by exact ET. clear ET.
  assert (HW : exists w, network_new (star_descr m k) = Ok w /\ (numbered w 10 0 /\ numbered w 20 1 /\ numbered w 30 2) /\ w_nodes w = 3%nat /\ w_ns w = s /\
    exists nd, find_node w 30 = Some nd /\ nd_index nd = 2%nat /\ nd_state nd = seq 0 s).
  { unfold network_new, star_descr. cbn [foldM]. unfold add_nodes_in_line. cbn [bind String.eqb Ascii.eqb Bool.eqb orb negb passert sort_conns fold_left insert_conn foldM app map].
    unfold add_node. rewrite Ek. cbn [bind Z.leb Z.compare passert dmem dget negb Z.eqb py_get nth_error length app Pos.eqb].
    change (state_vars 0 plain) with (@Ok nat 0%nat). cbn [bind]. rewrite Hk. cbn [bind]. eexists. split; [reflexivity|].
    unfold numbered, find_node. cbn [w_conns w_nodes w_ns dget Z.eqb Pos.eqb length plus]. 
    repeat split; eexists; repeat split. }
  destruct HW as (w & Hw & I & En & Es & St). exists m, w. split; auto.
  2: { unfold star_descr. assert (X : forall sd bn id k0 s0, (sd = "S" \/ sd = "L")%string -> state_vars 0 k0 = Ok s0 -> @well_described NumR (m, (sd, (bn, [(id, 0%nat, k0)])))).
       { intros sd bn id k0 s0 Hs H0. split; [exact Hs|]. cbn [d_conns d_line snd fst]. intros x [<-|[]]. unfold c_cond, c_mat. cbn [fst snd]. rewrite Ek. split; [cbn; lia|eauto]. }
       constructor; [eapply X; [now left|reflexivity]|]. constructor; [eapply X; [now right|reflexivity]|]. constructor; [eapply X; [now left|exact Hk]|constructor]. }
  unfold all_connected, star_descr, d_conns, d_line, c_cond, conductors. repeat constructor; cbn [fst snd map]; rewrite C1; apply Permutation_refl.
Qed.
Lemma star_3 : exists m w, star m plain 0 w. Proof. now apply star_exists. Qed.
Lemma star_rlc : exists m w, star m rlc_conn 2 w. Proof. now apply star_exists. Qed.

(** a circuit on it: resistor with a source and capacitor to ground, then a branch with a source and a short *)
Definition star_grounds : list (call NumR) := [@GroundR NumR 10 50 (@TFun NumR sin); @GroundC NumR 20 (1/8) (@TInt NumR 0)].
Definition star_branches : list (call NumR) := [@Branch NumR 10 20 2 (@TFun NumR cos); @Short NumR 20 30].
Lemma star_known m k s w : star m k s w -> forall id, In id [10; 20; 30]%Z -> exists nd, find_node w id = Some nd.
Proof. intros S id H. destruct (st_ids _ _ _ _ S) as ((a & A & _) & (b & B & _) & (c & C & _)). cbn in H. destruct H as [<-|[<-|[<-|[]]]]; eauto. Qed.
Lemma star_ok : Forall to_ground star_grounds /\ Forall between_nodes star_branches.
Proof.
  split.
  - constructor; [split; [rsimpl; lra|right; eauto]|]. constructor; [split; [rsimpl; lra|now left]|constructor].
  - constructor; [cbn; rsimpl; lra|]. constructor; [exact I|constructor].
Qed.
Lemma star_accept m k s w l : star m k s w -> Forall (fun c => to_ground c \/ between_nodes c) l -> (forall c id, In c l -> In id (c_ids c) -> In id [10; 20; 30]%Z) ->
  exists w', do_calls w l = Ok w' /\ w_conns w' = w_conns w /\ net_history LR (star_descr m k) w'.
Proof.
  intros S F K. destruct (calls_total l w (new_shape _ _ (st_new _ _ _ _ S)) F) as (w' & E & C). { intros c id Hc Hi. eapply star_known; eauto. }
  exists w'. repeat split; auto. eapply calls_history; [apply nh_new; exact (st_new _ _ _ _ S)|exact E].
Qed.
Lemma star_phys m k s w : star m k s w -> Forall (fun d : descr NumR => physical (d_line d)) (star_descr m k).
Proof. intros S. pose proof (st_phys _ _ _ _ S). unfold star_descr, d_line. constructor; [assumption|]. constructor; [assumption|]. constructor; [assumption|constructor]. Qed.
Record star_case (m : mtl NumR) (w0 w1 w2 w3 : network NumR) : Prop := {
  sc_star : star m plain 0 w0; sc_calls : do_calls w0 (star_grounds ++ star_branches) = Ok w1; sc_conns : w_conns w1 = w_conns w0;
  sc_terms : compute_v_terms w1 (1/2) = Ok w2; sc_step : nw_advance_voltage LR w2 (1/2) (1/2) = Ok w3;
  sc_hist : net_history LR (star_descr m plain) w1; sc_run : net_run LR (star_descr m plain) (1/2) w2; sc_after : after LR no_call w1 w2
}.
Lemma star_run : exists m w0 w1 w2 w3, star_case m w0 w1 w2 w3.
Proof.
  destruct star_3 as (m & w0 & S). destruct star_ok as [G B].
  destruct (star_accept m plain 0 w0 (star_grounds ++ star_branches) S) as (w1 & E & C & H).
  { apply Forall_app. split; [revert G|revert B]; apply Forall_impl; auto. }
  { intros c id Hc Hi. cbn in Hc. destruct Hc as [<-|[<-|[<-|[<-|[]]]]]; cbn in Hi |- *; tauto. }
  pose proof (rc_total LR LR_complete (star_descr m plain) w0 star_grounds star_branches w1 w1 (1/2) (star_phys _ _ _ _ S) (st_conn _ _ _ _ S) (st_new _ _ _ _ S)
    (st_ns _ _ _ _ S) G B E (af_refl _ _ _) ltac:(lra)) as [(w2 & E2) _].
  assert (A2 : after LR (@no_call NumR) w1 w2) by (eapply af_terms; [apply af_refl|exact E2]).
  assert (R2 : net_run LR (star_descr m plain) (1/2) w2) by (eapply nr_terms; eauto).
  pose proof (rc_total LR LR_complete (star_descr m plain) w0 star_grounds star_branches w1 w2 (1/2) (star_phys _ _ _ _ S) (st_conn _ _ _ _ S) (st_new _ _ _ _ S)
    (st_ns _ _ _ _ S) G B E A2 ltac:(lra)) as [_ X]. destruct (X R2 (1/2)) as [w3 E3].
  exists m, w0, w1, w2, w3. split; auto.
Qed.

(** a series-R parallel-LC termination *)
Record rlc_case (m : mtl NumR) (w0 w1 w2 w3 : network NumR) : Prop := {
  rl_star : star m rlc_conn 2 w0; rl_call : connect_to_ground_LCpRs w0 30 (1 : NumR) (1 : NumR) (1 : NumR) (@TFun NumR sin) = Ok w1;
  rl_terms : compute_v_terms w1 1 = Ok w2; rl_run : net_run LR (star_descr m rlc_conn) 1 w2; rl_step : nw_advance_voltage LR w2 1 1 = Ok w3;
  rl_after : after LR (fun c => ~ is_LCpRs 30 c) w1 w2
}.
Lemma rlc_run : exists m w0 w1 w2 w3, rlc_case m w0 w1 w2 w3.
Proof.
  destruct star_rlc as (m & w0 & S). pose proof (new_shape _ _ (st_new _ _ _ _ S)) as Sh. destruct (st_state _ _ _ _ S) as (nd & Hn & Hi & Hst). cbn [seq] in Hst.
  assert (E : exists w1, connect_to_ground_LCpRs w0 30 (1 : NumR) (1 : NumR) (1 : NumR) (@TFun NumR sin) = Ok w1 /\ w1 = 
     set_stamps w0 (upd2 (w_P1 w0) 2 2 (-1 / 1)) (upd2 (w_Ps w0) 2 2 (1 / 1))
       (upd2 (upd2 (upd2 (upd2 (w_M w0) 0 0 (1 / (1 * 1))) 0 1 (1 / 1)) 1 0 (-1 / 1)) 1 1 0) (upd2 (upd2 (w_N1 w0) 0 2 (-1 / (1 * 1))) 1 2 0)
       (upd2 (upd2 (w_Ns w0) 0 2 (1 / (1 * 1))) 1 2 0) (upd2 (upd2 (w_O w0) 2 0 (1 / 1)) 2 1 0) (w_Q1 w0) (w_Qs w0) (lset (w_vsrc w0) 2 (@TFun NumR sin))).
  { unfold connect_to_ground_LCpRs. rewrite Hn. cbn [of_option bind]. cbv zeta. rewrite Hst, Hi. eexists. split; [|reflexivity].
    assert (L1 : @nleb NumR n0 1 = true) by (apply Rleb_true; rsimpl; lra). assert (L2 : @nltb NumR 1 n1e22 = true) by (apply Rltb_true; unfold n1e22; rsimpl; lra).
    rewrite L1, L2. cbn [andb passert bind]. unfold pinv, pninv. rewrite !inv_R by (rsimpl; lra). cbn [bind tf_nonzero]. reflexivity. }
  destruct E as (w1 & E & W1). exists m, w0, w1.
  assert (H1 : net_history LR (star_descr m rlc_conn) w1) by (eapply (nh_call _ _ w0 (@GroundLCpRs NumR 30 1 1 1 (@TFun NumR sin))); [apply nh_new; exact (st_new _ _ _ _ S)|exact E]).
  destruct (rc_terms LR _ _ 1 H1 (st_conn _ _ _ _ S) (star_phys _ _ _ _ S)) as [w2 E2]. exists w2.
  assert (R2 : net_run LR (star_descr m rlc_conn) 1 w2) by (eapply nr_terms; eauto).
  assert (W2 : exists AB, w2 = {| w_nodes := w_nodes w1; w_ns := w_ns w1; w_conns := w_conns w1; w_csize := w_csize w1;
        w_c := w_c w1; w_dx := w_dx w1; w_eT := w_eT w1; w_v := w_v w1; w_vprev := w_vprev w1;
        w_i := w_i w1; w_X := w_X w1; w_H := w_H w1; w_P1 := w_P1 w1; w_Ps := w_Ps w1;
        w_M := w_M w1; w_N1 := w_N1 w1; w_Ns := w_Ns w1; w_O := w_O w1; w_Q1 := w_Q1 w1;
        w_Qs := w_Qs w1; w_vsrc := w_vsrc w1; w_AB := AB |}).
  { unfold compute_v_terms in E2. destruct (negb _); [discriminate E2|]. cbv zeta in E2. apply OkI in E2. subst w2. eexists. reflexivity. }
  destruct W2 as [AB W2].
  assert (X : exists w3, nw_advance_voltage LR w2 1 1 = Ok w3).
  { apply advance_exists; [exact LR_complete| |exact (run_terms _ _ _ _ R2)|].
    - rewrite W2, W1. cbn [w_vsrc set_stamps]. apply lset_Forall; [|eauto]. exact (rd_rc _ (new_diag _ _ (st_new _ _ _ _ S))).
    - assert (Nn : w_nodes w2 = 3%nat) by (rewrite W2, W1; exact (st_n _ _ _ _ S)). assert (Ns : w_ns w2 = 2%nat) by (rewrite W2, W1; exact (st_ns _ _ _ _ S)).
      pose proof (sh_P1 _ Sh) as SP. pose proof (sh_M _ Sh) as SM. pose proof (sh_N1 _ Sh) as SN. pose proof (sh_O _ Sh) as SO.
      rewrite (st_n _ _ _ _ S) in *. rewrite (st_ns _ _ _ _ S) in *.
      destruct (new_zero _ _ (st_new _ _ _ _ S)) as (ZG & _ & _). destruct (new_diag _ _ (st_new _ _ _ _ S)) as [_ _ _ _ _].
      destruct (new_built _ _ (st_new _ _ _ _ S)) as (aa & nds & _ & _ & _ & _ & _ & _ & _ & _ & _ & _ & _ & _ & _ & _ & ZQ & _ & ZM & ZN & _ & ZO & _).
      assert (EG : forall i j, nG w2 i j = if ((2 =? i) && (2 =? j))%nat then -1 else 0).
      { intros i j. unfold nG. rewrite W2, W1. cbn [w_P1 set_stamps]. rewrite (get2_upd2 3 3) by (auto; lia). destruct (_ && _)%bool; [lra|exact (ZG i j)]. }
      assert (EQ : forall i j, nQ w2 i j = 0).
      { intros i j. unfold nQ. rewrite W2, W1. cbn [w_Q1 set_stamps]. rewrite ZQ. exact (get2_zeros _ _ _ _). }
      assert (EO : forall i j, nO w2 i j = if ((2 =? i) && (0 =? j))%nat then 1 else 0).
      { intros i j. unfold nO. rewrite W2, W1. cbn [w_O set_stamps]. rewrite (get2_upd2 3 2) by (auto using rectm_upd; lia).
        rewrite (get2_upd2 3 2) by (auto; lia). rewrite ZO. rewrite (get2_zeros _ _ _ _). destruct (Nat.eqb_spec 2 i), (Nat.eqb_spec 1 j), (Nat.eqb_spec 0 j); cbn [andb]; try (exfalso; lia); rsimpl; lra. }
      assert (EM : nM w2 0 0 = 1 /\ nM w2 0 1 = 1 /\ nM w2 1 0 = -1 /\ nM w2 1 1 = 0).
      { unfold nM. rewrite W2, W1. cbn [w_M set_stamps]. rewrite !(get2_upd2 2 2) by (auto using rectm_upd; lia). cbn [Nat.eqb andb]. rsimpl. repeat split; lra. }
      assert (EB : forall j, (j < 3)%nat -> nB w2 0 j = (if (2 =? j)%nat then -1 else 0) /\ nB w2 1 j = 0).
      { intros j Hj. unfold nB. rewrite W2, W1. cbn [w_N1 set_stamps]. rewrite !(get2_upd2 2 3) by (auto using rectm_upd; lia). rewrite ZN, !(get2_zeros _ _ _ _).
        destruct (2 =? j)%nat; cbn [Nat.eqb andb]; rsimpl; split; lra. }
      assert (EC : forall i j, (i < 3)%nat -> (j < 3)%nat -> nLen w2 i * nCap w2 i j = 1/4 * @delta NumR i j).
      { assert (H2 : net_history LR (star_descr m rlc_conn) w2) by (eapply nh_terms; eauto). pose proof (st_one _ _ _ _ S) as O.
        pose proof (st_conn _ _ _ _ S) as AC. set (ds := star_descr m rlc_conn) in *.
        assert (D : forall q, (q < 3)%nat -> exists d, nth_error ds q = Some d /\ d_line d = m /\ first_node ds q = q).
        { intros q Hq. assert (q = 0 \/ q = 1 \/ q = 2)%nat as [-> |[-> | ->]] by lia; eexists; repeat split. }
        intros i j Hi0 Hj0. destruct (D i Hi0) as (d & D1 & D2 & D3). destruct (D j Hj0) as (d' & D1' & D2' & D3').
        assert (C0 : (0 < conductors (d_line d))%nat) by (rewrite D2, (ol_n _ _ _ _ _ _ _ _ _ O); lia). assert (C0' : (0 < conductors (d_line d'))%nat) by (rewrite D2', (ol_n _ _ _ _ _ _ _ _ _ O); lia).
        destruct (node_ends LR ds w2 i d 0 H2 AC D1 C0) as (_ & N1 & _ & N2 & N3). cbv zeta in N1, N2, N3. rewrite D3, !Nat.add_0_r in *.
        assert (En : (end_node d <= 3)%nat /\ (end_cell d < 3)%nat).
        { unfold end_node, end_cell. rewrite D2, (ol_N _ _ _ _ _ _ _ _ _ O). destruct (d_end d); lia. }
        rewrite N1, D2, (ol_h _ _ _ _ _ _ _ _ _ O) by apply En. destruct (Nat.eq_dec i j) as [<-|Nij].
        - specialize (N2 0%nat C0). rewrite Nat.add_0_r in N2. rewrite N2, D2, (ol_C _ _ _ _ _ _ _ _ _ O) by apply En. rewrite deltaR_eq. rring.
        - specialize (N3 j d' 0%nat D1' C0' Nij). rewrite D3', Nat.add_0_r in N3. rewrite N3, deltaR_neq by exact Nij. rring. }
      destruct EM as (M1 & M2 & M3 & M4).
      destruct (EB 0%nat ltac:(lia)) as [B00 B10]. destruct (EB 1%nat ltac:(lia)) as [B01 B11]. destruct (EB 2%nat ltac:(lia)) as [B02 B12].
      split; [intros r|].
      2: { rewrite Nn, Ns. intros v x Hv Hx.
        pose proof (Hv 0%nat ltac:(lia)) as K0. pose proof (Hv 1%nat ltac:(lia)) as K1. pose proof (Hv 2%nat ltac:(lia)) as K2.
        pose proof (Hx 0%nat ltac:(lia)) as K3. pose proof (Hx 1%nat ltac:(lia)) as K4. clear Hv Hx.
        rewrite !sumR_S, !sumR_0, !EG, !EQ, !EO in K0, K1, K2. unfold Rdiv in K0, K1, K2. rewrite !EC in K0, K1, K2 by lia.
        rewrite !sumR_S, !sumR_0 in K3, K4. rewrite M1, M2, B00, B01, B02 in K3. rewrite M3, M4, B10, B11, B12 in K4.
        cbn [Nat.eqb andb] in K0, K1, K2, K3, K4. unfold delta in K0, K1, K2, K3, K4. cbn [Nat.eqb] in K0, K1, K2, K3, K4. revert K0 K1 K2 K3 K4. rsimpl. rty. intros K0 K1 K2 K3 K4.
        assert (V : v 0%nat = 0 /\ v 1%nat = 0 /\ v 2%nat = 0 /\ x 0%nat = 0 /\ x 1%nat = 0) by (repeat split; lra).
        destruct V as (V0 & V1 & V2 & X0 & X1). split; intros i Hi0.
        - assert (i = 0 \/ i = 1 \/ i = 2)%nat as [-> |[-> | ->]] by lia; assumption.
        - assert (i = 0 \/ i = 1)%nat as [-> | ->] by lia; assumption. }
      pose (y := (r 2%nat + r 4%nat - 5/4 * r 3%nat) / (9/4)).
      exists (fun j => if (j =? 0)%nat then 4 * r 0%nat else if (j =? 1)%nat then 4 * r 1%nat else r 3%nat + y), (fun j => if (j =? 0)%nat then r 4%nat - y else y).
      rewrite Nn, Ns. split; intros i Hi0.
      + rewrite !sumR_S, !sumR_0. rewrite !EG, !EQ, !EO. unfold Rdiv. rewrite !EC by lia.
        assert (i = 0 \/ i = 1 \/ i = 2)%nat as [-> |[-> | ->]] by lia; cbn [Nat.eqb andb]; unfold delta; cbn [Nat.eqb]; rsimpl; unfold y; rty; field.
      + rewrite !sumR_S, !sumR_0.
        assert (i = 0 \/ i = 1)%nat as [-> | ->] by lia.
        * rewrite M1, M2, B00, B01, B02. cbn [Nat.eqb plus]. unfold delta; cbn [Nat.eqb]; rsimpl. unfold y. rty. field.
        * rewrite M3, M4, B10, B11, B12. cbn [Nat.eqb plus]. unfold delta; cbn [Nat.eqb]; rsimpl. unfold y. rty. field. }
  destruct X as [w3 E3]. exists w3. split; auto. eapply af_terms; [apply af_refl|exact E2].
Qed.
