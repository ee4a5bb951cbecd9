(** The state-variable termination of a network node. *)
From Coq Require Import String List Arith ZArith Bool Permutation Sorted Lia Reals Lra.
From Verif Require Import Num Py Arr ArrFacts NumR RFacts Utils Probes Dispersive Line Bundle Networks Mtln SpecLine SpecBundle SpecNet SpecRLC SpecR LinAlg NetFacts NetBuild NetR CoreEq BundleMore NetStamp NetStamp2.
Import ListNotations.
Local Open Scope R_scope.

Section After.
Context {N : num}.
Variable LA : lapack N.
Implicit Types w : network N.

Lemma in_concat_disjoint {A B} (f : A -> list B) l a b x : NoDup (concat (map f l)) -> In a l -> In b l -> a <> b -> In x (f a) -> ~ In x (f b).
Proof.
  induction l as [|c l IH]; intros ND Ha Hb Hn Hx Hy; [destruct Ha|]. cbn [map concat] in ND.
  assert (D : forall z, In z (f c) -> ~ In z (concat (map f l))).
  { intros z H1 H2. apply in_split in H1 as (p & q & E). rewrite E, <- app_assoc in ND. apply NoDup_remove_2 in ND. apply ND. apply in_or_app. right. apply in_or_app. now right. }
  assert (ND' : NoDup (concat (map f l))) by (clear - ND; induction (f c) as [|z r IHr]; [exact ND|]; cbn [app] in ND; inversion ND; auto).
  assert (I : forall z, In z l -> forall y, In y (f z) -> In y (concat (map f l))) by (intros z Hz y H; apply in_concat; exists (f z); split; [now apply in_map|exact H]).
  destruct Ha as [<-|Ha], Hb as [<-|Hb]; [congruence| | |].
  - eapply D; eauto.
  - eapply D; eauto.
  - eapply IH; eauto.
Qed.
Lemma states_disjoint w id id' nd nd' x : nshape w -> find_node w id = Some nd -> find_node w id' = Some nd' -> id <> id' ->
  In x (nd_state nd) -> ~ In x (nd_state nd').
Proof.
  intros S H H' Hn Hx Hy. apply dget_in in H, H'.
  refine (in_concat_disjoint (fun kn : Z * node => nd_state (snd kn)) (w_conns w) (id, nd) (id', nd') x _ H H' _ Hx Hy); [|congruence].
  rewrite (sh_st _ S). apply seq_NoDup.
Qed.
Lemma states_nodup w id nd : nshape w -> find_node w id = Some nd -> NoDup (nd_state nd).
Proof.
  intros S H. apply dget_in in H. assert (ND : NoDup (concat (map (fun kn : Z * node => nd_state (snd kn)) (w_conns w)))) by (rewrite (sh_st _ S); apply seq_NoDup).
  apply in_split in H as (p & q & E). rewrite E, map_app, concat_app in ND. cbn [map concat] in ND.
  clear - ND. induction (concat (map (fun kn : Z * node => nd_state (snd kn)) p)) as [|a l IH]; cbn [app snd] in ND; [|inversion ND; auto].
  revert ND. generalize (concat (map (fun kn : Z * node => nd_state (snd kn)) q)). intros r ND. induction (nd_state nd) as [|a l IH]; [constructor|].
  cbn [app] in ND. inversion ND as [|? ? Hin Hnd]; subst. constructor; [intros X; apply Hin, in_or_app; now left|auto].
Qed.

(** the rows of a state variable and the node of an identifier *)
Definition same_row w w' x : Prop := forall j, nM w' x j = nM w x j /\ nB w' x j = nB w x j /\ nBs w' x j = nBs w x j.
Definition same_node w w' id : Prop := forall nd, find_node w id = Some nd -> exists nd', find_node w' id = Some nd' /\ nd_index nd' = nd_index nd /\ nd_state nd' = nd_state nd.

Lemma call_rows w c w' id nd x : nshape w -> do_call w c = Ok w' -> ~ is_LCpRs id c -> find_node w id = Some nd -> In x (nd_state nd) -> same_row w w' x.
Proof.
  intros S H Hc Hf Hx.
  assert (P : forall P1 Ps vs, w' = set_P w P1 Ps vs -> same_row w w' x) by (intros P1 Ps vs ->; repeat split).
  assert (Q : forall P1 Ps vs, w' = set_Q w P1 Ps vs -> same_row w w' x) by (intros P1 Ps vs ->; repeat split).
  destruct c as [id' R V|id' R L C V|id' C V|id'|id1 id2 R V|id1 id2]; cbn [do_call is_LCpRs] in *.
  - unfold connect_to_ground in H. inv_bind H. cbv zeta in H. inv_bind H. destruct (tf_nonzero V); [inv_bind H|];
      apply (f_equal (fun r => match r with Ok a => a | _ => w' end)) in H; eapply P; symmetry; exact H.
  - unfold connect_to_ground_LCpRs in H. inv_bind H. cbv zeta in H. apply of_option_Ok in Ha. rename a into nd'.
    destruct (nd_state nd') as [|x0 [|x1 [|]]] eqn:Es; try (inv_bind H; discriminate H). do 7 inv_bind H.
    assert (D : ~ In x (nd_state nd')) by (eapply states_disjoint; eauto).
    assert (D0 : x0 <> x) by (intros ->; apply D; rewrite Es; now left). assert (D1 : x1 <> x) by (intros ->; apply D; rewrite Es; right; now left).
    assert (L0 : (x0 < w_ns w)%nat) by (apply (find_states w id' nd'); auto; rewrite Es; now left).
    assert (L1 : (x1 < w_ns w)%nat) by (apply (find_states w id' nd'); auto; rewrite Es; right; now left).
    pose proof (find_index _ _ _ S Ha) as Lk.
    assert (F0 : (x0 =? x)%nat = false) by now apply Nat.eqb_neq. assert (F1 : (x1 =? x)%nat = false) by now apply Nat.eqb_neq.
    destruct (tf_nonzero V); apply (f_equal (fun r => match r with Ok a => a | _ => w' end)) in H; subst w'; intros j; unfold nM, nB, nBs, set_stamps; cbn [w_M w_N1 w_Ns];
    rewrite ?(get2_upd2 (w_ns w) (w_ns w)), ?(get2_upd2 (w_ns w) (w_nodes w)), ?F0, ?F1 by (auto; repeat apply rectm_upd; auto; apply S); cbn [andb]; auto.
  - unfold connect_to_ground_C in H. inv_bind H. cbv zeta in H. destruct (tf_nonzero V);
      apply (f_equal (fun r => match r with Ok a => a | _ => w' end)) in H; eapply Q; symmetry; exact H.
  - unfold short_to_ground in H. inv_bind H. cbv zeta in H. apply (f_equal (fun r => match r with Ok a => a | _ => w' end)) in H; eapply P; symmetry; exact H.
  - unfold connect_nodes in H. do 3 inv_bind H. cbv zeta in H. do 2 inv_bind H. destruct (tf_nonzero V);
      apply (f_equal (fun r => match r with Ok a => a | _ => w' end)) in H; eapply P; symmetry; exact H.
  - unfold short_nodes in H. do 2 inv_bind H. apply (f_equal (fun r => match r with Ok a => a | _ => w' end)) in H; eapply P; symmetry; exact H.
Qed.
Lemma dget_map_fst (l l' : list (Z * node)) id nd :
  map fst l' = map fst l -> map (fun kn => nd_index (snd kn)) l' = map (fun kn => nd_index (snd kn)) l ->
  map (fun kn => nd_state (snd kn)) l' = map (fun kn => nd_state (snd kn)) l -> dget Z.eqb id l = Some nd ->
  exists nd', dget Z.eqb id l' = Some nd' /\ nd_index nd' = nd_index nd /\ nd_state nd' = nd_state nd.
Proof.
  revert l'. induction l as [|[i x] l IH]; intros [|[i' x'] l'] E1 E2 E3 H; cbn [map fst snd] in *; try discriminate.
  injection E1 as -> E1. injection E2 as E2 E2'. injection E3 as E3 E3'. cbn [dget] in *. destruct (id =? i)%Z.
  - injection H as ->. eauto.
  - eauto.
Qed.
Lemma kept_node w w' id : nkept w w' -> same_node w w' id.
Proof. intros [] nd H. eapply dget_map_fst; eauto. Qed.
Lemma after_rows (P : call N -> Prop) id w : (forall c, P c -> ~ is_LCpRs id c) -> nshape w -> forall w', after LA P w w' ->
  nshape w' /\ same_node w w' id /\ forall nd x, find_node w id = Some nd -> In x (nd_state nd) -> same_row w w' x.
Proof.
  intros HP S. induction 1 as [|x c w' _ (Sx & Nx & Rx) Hc H|x bs level conns _ (Sx & Nx & Rx) H|x dt w' _ (Sx & Nx & Rx) H|x t dt w' _ (Sx & Nx & Rx) H|x bs w' _ (Sx & Nx & Rx) H].
  - split; [exact S|]. split; [intros nd H; eauto|]. intros nd x _ _ j. auto.
  - destruct (call_shape _ _ _ Sx H) as [S' _]. pose proof (call_kept _ _ _ Sx H) as K. split; [exact S'|]. split.
    + intros nd Hf. apply Nx in Hf as (n1 & F & E1 & E2). apply (kept_node _ _ _ K) in F as (n2 & F & E3 & E4). exists n2. repeat split; congruence.
    + intros nd y Hf Hy. specialize (Rx nd y Hf Hy). apply Nx in Hf as (nd1 & F & E1 & E2).
      pose proof (call_rows _ _ _ id nd1 y Sx H (HP _ Hc) F ltac:(congruence)) as Q. intros j. destruct (Rx j) as (? & ? & ?), (Q j) as (? & ? & ?). repeat split; congruence.
  - destruct (register_shape _ _ _ _ Sx H) as [S' K]. split; [exact S'|]. split.
    + intros nd Hf. apply Nx in Hf as (n1 & F & E1 & E2). apply (kept_node _ _ _ K) in F as (n2 & F & E3 & E4). exists n2. repeat split; congruence.
    + exact Rx.
  - destruct (terms_shape _ _ _ Sx H) as [S' K]. split; [exact S'|]. split.
    + intros nd Hf. apply Nx in Hf as (n1 & F & E1 & E2). apply (kept_node _ _ _ K) in F as (n2 & F & E3 & E4). exists n2. repeat split; congruence.
    + unfold compute_v_terms in H. destruct (negb _); [discriminate H|]. cbv zeta in H. apply (f_equal (fun r => match r with Ok a => a | _ => w' end)) in H.
      cbn [bind] in H. subst w'. exact Rx.
  - destruct (volt_shape LA _ _ _ _ Sx H) as [S' K]. split; [exact S'|]. split.
    + intros nd Hf. apply Nx in Hf as (n1 & F & E1 & E2). apply (kept_node _ _ _ K) in F as (n2 & F & E3 & E4). exists n2. repeat split; congruence.
    + unfold nw_advance_voltage in H. inv_bind H. cbv zeta in H. destruct (w_AB x) as [[[A B1] B2]|]; [|discriminate H]. inv_bind H.
      apply (f_equal (fun r => match r with Ok a => a | _ => w' end)) in H. subst w'. exact Rx.
  - destruct (curr_shape _ _ _ Sx H) as [S' K]. split; [exact S'|]. split.
    + intros nd Hf. apply Nx in Hf as (n1 & F & E1 & E2). apply (kept_node _ _ _ K) in F as (n2 & F & E3 & E4). exists n2. repeat split; congruence.
    + unfold nw_update_currents in H. inv_bind H. apply (f_equal (fun r => match r with Ok a => a | _ => w' end)) in H. subst w'. exact Rx.
Qed.
Lemma after_run P ds w w' : net_history LA ds w -> after LA P w w' -> net_history LA ds w'.
Proof. intros H. induction 1; [exact H|eapply nh_call|eapply nh_register|eapply nh_terms|eapply nh_volt|eapply nh_curr]; eauto. Qed.
End After.

Section RLC.
Variable LA : lapack NumR.
Hypothesis LAok : lapack_ok LA.
Implicit Types w : network NumR.

Lemma new_rows ds w : network_new ds = Ok w -> forall x j, nM w x j = 0 /\ nB w x j = 0 /\ nBs w x j = 0.
Proof.
  intros H. apply new_built in H as (a & nds & _ & _ & _ & _ & _ & _ & _ & _ & _ & _ & _ & _ & _ & _ & _ & _ & M & N1 & Ns & _ & _ & _).
  intros x j. unfold nM, nB, nBs. rewrite M, N1, Ns. repeat split; exact (get2_zeros _ _ x j).
Qed.
Lemma rlc_rows w id k (R L C : NumR) V w' nd : nshape w -> connect_to_ground_LCpRs w id R L C V = Ok w' -> find_node w id = Some nd -> nd_index nd = k ->
  R <> 0 /\ L <> 0 /\ C <> 0 /\ find_node w' id = Some nd /\ exists x y, x <> y /\ nd_state nd = [x; y] /\ (x < w_ns w)%nat /\ (y < w_ns w)%nat /\ (k < w_nodes w)%nat /\
  (forall j, nM w' x j = if (j =? x)%nat then 1 / (R * C) else if (j =? y)%nat then 1 / C else nM w x j) /\
  (forall j, nM w' y j = if (j =? x)%nat then - (1 / L) else if (j =? y)%nat then 0 else nM w y j) /\
  (forall j, nB w' x j = if (j =? k)%nat then - (1 / (R * C)) else nB w x j) /\ (forall j, nB w' y j = if (j =? k)%nat then 0 else nB w y j) /\
  (forall j, nBs w' x j = if (tf_nonzero V && (j =? k))%nat then 1 / (R * C) else nBs w x j) /\
  (forall j, nBs w' y j = if (tf_nonzero V && (j =? k))%nat then 0 else nBs w y j).
Proof.
  intros S H Hf Hk. unfold connect_to_ground_LCpRs in H. rewrite Hf in H. cbn [of_option bind] in H. cbv zeta in H.
  pose proof (states_nodup _ _ _ S Hf) as ND.
  destruct (nd_state nd) as [|x [|y [|]]] eqn:Es; try (inv_bind H; discriminate H). do 7 inv_bind H.
  apply pinv_R in Ha0 as [Hrc ->]. apply pinv_R in Ha1 as [Hc ->]. apply pninv_R in Ha2 as [HL ->]. apply pninv_R in Ha3 as [_ ->].
  apply pinv_R in Ha4 as [HR ->]. apply pninv_R in Ha5 as [_ ->].
  split; [exact HR|]. split; [exact HL|]. split; [exact Hc|].
  assert (D : x <> y) by (inversion ND as [|? ? Hi _]; subst; intros ->; apply Hi; now left).
  assert (L0 : (x < w_ns w)%nat) by (apply (find_states w id nd); auto; rewrite Es; now left).
  assert (L1 : (y < w_ns w)%nat) by (apply (find_states w id nd); auto; rewrite Es; right; now left).
  pose proof (find_index _ _ _ S Hf) as Lk. rewrite Hk in *.
  assert (F0 : (x =? y)%nat = false) by now apply Nat.eqb_neq. assert (F1 : (y =? x)%nat = false) by (apply Nat.eqb_neq; auto).
  split; [destruct (tf_nonzero V); injection H as <-; exact Hf|]. exists x, y.
  do 5 (split; [auto|]).
  destruct (tf_nonzero V); apply (f_equal (fun r => match r with Ok a => a | _ => w' end)) in H; subst w'; unfold nM, nB, nBs, set_stamps; cbn [w_M w_N1 w_Ns andb];
    repeat split; intros j; rewrite ?(get2_upd2 (w_ns w) (w_ns w)), ?(get2_upd2 (w_ns w) (w_nodes w)), ?F0, ?F1, ?Nat.eqb_refl by (auto; repeat apply rectm_upd; auto; apply S); cbn [andb];
    rewrite ?(Nat.eqb_sym _ j); destruct (Nat.eqb_spec j x) as [->|]; rewrite ?F0, ?F1; try reflexivity;
    destruct (Nat.eqb_spec j y) as [->|]; try reflexivity; try congruence.
Qed.

Lemma rlc_step ds w0 w1 w2 w w' id k (R L C : NumR) V (dt t : NumR) : let others c := ~ is_LCpRs id c in
  network_new ds = Ok w0 -> after LA others w0 w1 -> connect_to_ground_LCpRs w1 id R L C V = Ok w2 -> after LA others w2 w ->
  net_run LA ds dt w -> nw_advance_voltage LA w t dt = Ok w' -> numbered w0 id k ->
  exists x y nd, find_node w id = Some nd /\ nd_state nd = [x; y] /\
    let s := if tf_nonzero V then nSrc w k t else 0 in
    nX w' x = nX w x - dt * vc_rate R C (nV w' k) s (nX w' x) (nX w' y) /\ nX w' y = nX w y - dt * il_rate L (nX w' x).
Proof.
  intros others H0 A1 H1 A2 Hr Hst (nd0 & Hf0 & Hk). pose proof (new_shape _ _ H0) as S0.
  assert (HP : forall c : call NumR, others c -> ~ is_LCpRs id c) by (intros c X; exact X).
  destruct (after_rows LA others id w0 HP S0 _ A1) as (S1 & N1 & R1). destruct (N1 _ Hf0) as (nd1 & Hf1 & Ei1 & Es1).
  assert (Hk1 : nd_index nd1 = k) by congruence.
  assert (S2 : nshape w2) by (destruct (call_shape w1 (GroundLCpRs id R L C V) w2 S1 H1); assumption).
  destruct (rlc_rows _ _ k _ _ _ _ _ _ S1 H1 Hf1 Hk1) as (HR & HL & HC & Hf2 & x & y & D & Es & Lx & Ly & Lk & Mx & My & Bx & By & Sx & Sy).
  destruct (after_rows LA others id w2 HP S2 _ A2) as (S3 & N3 & R3). destruct (N3 _ Hf2) as (nd3 & Hf3 & Ei3 & Es3).
  assert (Ix : In x (nd_state nd1)) by (rewrite Es; now left). assert (Iy : In y (nd_state nd1)) by (rewrite Es; right; now left).
  pose proof (R3 _ _ Hf2 Ix) as Rx. pose proof (R3 _ _ Hf2 Iy) as Ry.
  assert (Ix0 : In x (nd_state nd0)) by congruence. assert (Iy0 : In y (nd_state nd0)) by congruence.
  pose proof (R1 _ _ Hf0 Ix0) as Qx. pose proof (R1 _ _ Hf0 Iy0) as Qy. pose proof (new_rows _ _ H0) as Z.
  exists x, y, nd3. split; [exact Hf3|]. split; [congruence|]. intros s.
  assert (Lx' : (x < w_ns w)%nat) by (apply (find_states w id nd3); auto; congruence).
  assert (Ly' : (y < w_ns w)%nat) by (apply (find_states w id nd3); auto; congruence).
  assert (Lk' : (k < w_nodes w)%nat) by (replace k with (nd_index nd3) by congruence; eapply find_index; eauto).
  assert (two : forall n f a b, a <> b -> (a < n)%nat -> (b < n)%nat -> (forall j, j <> a -> j <> b -> f j = 0) -> sumR n f = f a + f b).
  { intros n f a b Hab La Lb Hz. transitivity (sumR n (fun j => @delta NumR a j * f a) + sumR n (fun j => @delta NumR b j * f b)).
    - rewrite <- sumR_plus. apply sumR_ext. intros j Hj. destruct (Nat.eq_dec j a) as [->|Na]; [rewrite deltaR_eq, deltaR_neq by auto; rring|].
      destruct (Nat.eq_dec j b) as [->|Nb]; [rewrite deltaR_eq, deltaR_neq by auto; rring|]. rewrite Hz, !deltaR_neq by auto. rring.
    - rewrite (sumR_single n _ a La), (sumR_single n _ b Lb), !deltaR_eq; [rring| |]; intros j _ Hj; rewrite deltaR_neq by auto; rring. }
  pose proof (net_states LA LAok ds dt w w' t x Hr Hst Lx') as Ex. pose proof (net_states LA LAok ds dt w w' t y Hr Hst Ly') as Ey.
  rewrite (two (w_ns w) _ x y) in Ex; auto.
  2:{ intros j Ha Hb. rewrite (proj1 (Rx j)), Mx, (proj2 (Nat.eqb_neq j x) Ha), (proj2 (Nat.eqb_neq j y) Hb), (proj1 (Qx j)), (proj1 (Z x j)). apply Rmult_0_l. }
  rewrite (two (w_ns w) _ x y) in Ey; auto.
  2:{ intros j Ha Hb. rewrite (proj1 (Ry j)), My, (proj2 (Nat.eqb_neq j x) Ha), (proj2 (Nat.eqb_neq j y) Hb), (proj1 (Qy j)), (proj1 (Z y j)). apply Rmult_0_l. }
  rewrite (sumR_single (w_nodes w) (fun j => nB w x j * nV w' j) k Lk'), (sumR_single (w_nodes w) (fun j => nBs w x j * nSrc w j t) k Lk') in Ex.
  2:{ intros j _ Hj. rewrite (proj2 (proj2 (Rx j))), Sx, (proj2 (Nat.eqb_neq j k) Hj), andb_false_r, (proj2 (proj2 (Qx j))), (proj2 (proj2 (Z x j))). apply Rmult_0_l. }
  2:{ intros j _ Hj. rewrite (proj1 (proj2 (Rx j))), Bx, (proj2 (Nat.eqb_neq j k) Hj), (proj1 (proj2 (Qx j))), (proj1 (proj2 (Z x j))). apply Rmult_0_l. }
  rewrite (sumR_single (w_nodes w) (fun j => nB w y j * nV w' j) k Lk'), (sumR_single (w_nodes w) (fun j => nBs w y j * nSrc w j t) k Lk') in Ey.
  2:{ intros j _ Hj. rewrite (proj2 (proj2 (Ry j))), Sy, (proj2 (Nat.eqb_neq j k) Hj), andb_false_r, (proj2 (proj2 (Qy j))), (proj2 (proj2 (Z y j))). apply Rmult_0_l. }
  2:{ intros j _ Hj. rewrite (proj1 (proj2 (Ry j))), By, (proj2 (Nat.eqb_neq j k) Hj), (proj1 (proj2 (Qy j))), (proj1 (proj2 (Z y j))). apply Rmult_0_l. }
  assert (F1 : (y =? x)%nat = false) by (apply Nat.eqb_neq; auto).
  rewrite (proj1 (Rx x)), (proj1 (Rx y)), (proj1 (proj2 (Rx k))), (proj2 (proj2 (Rx k))), !Mx, Bx, Sx, !Nat.eqb_refl, F1, andb_true_r in Ex.
  rewrite (proj1 (Ry x)), (proj1 (Ry y)), (proj1 (proj2 (Ry k))), (proj2 (proj2 (Ry k))), !My, By, Sy, !Nat.eqb_refl, F1, andb_true_r in Ey.
  rewrite (proj2 (proj2 (Qx k))), (proj2 (proj2 (Z x k))) in Ex. rewrite (proj2 (proj2 (Qy k))), (proj2 (proj2 (Z y k))) in Ey.
  split.
  - rewrite Ex at 1. unfold vc_rate, s. rty. destruct (tf_nonzero V); field; auto.
  - rewrite Ey at 1. unfold il_rate. rty. destruct (tf_nonzero V); field; auto.
Qed.
End RLC.

(** the real circuit loses energy *)
Lemma circuit_dissipates h r l c vc il vc' il' : 0 < h -> 0 < r -> 0 < l -> 0 < c -> implicit_step h r l c 0 0 vc il vc' il' ->
  stored l c vc' il' <= stored l c vc il.
Proof.
  intros Hh Hr Hl Hc [E1 E2]. unfold vc_rate, il_rate, stored in *.
  assert (A : c * vc = c * vc' + h * (vc' / r + il')) by (rewrite E1 at 1; field; lra).
  assert (B : l * il = l * il' - h * vc') by (rewrite E2 at 1; field; lra).
  assert (C1 : c * vc ^ 2 = c * vc' ^ 2 + 2 * vc' * h * (vc' / r + il') + (h * (vc' / r + il')) ^ 2 / c).
  { replace (c * vc ^ 2) with ((c * vc) ^ 2 / c) by (field; lra). rewrite A. field. lra. }
  assert (C2 : l * il ^ 2 = l * il' ^ 2 - 2 * il' * h * vc' + (h * vc') ^ 2 / l).
  { replace (l * il ^ 2) with ((l * il) ^ 2 / l) by (field; lra). rewrite B. field. lra. }
  assert (P1 : 0 <= (h * (vc' / r + il')) ^ 2 / c) by (apply Rmult_le_pos; [apply pow2_ge_0|left; now apply Rinv_0_lt_compat]).
  assert (P2 : 0 <= (h * vc') ^ 2 / l) by (apply Rmult_le_pos; [apply pow2_ge_0|left; now apply Rinv_0_lt_compat]).
  assert (P3 : 0 <= 2 * vc' * h * (vc' / r)).
  { replace (2 * vc' * h * (vc' / r)) with (2 * h * (vc' ^ 2 / r)) by (field; lra). apply Rmult_le_pos; [lra|]. apply Rmult_le_pos; [apply pow2_ge_0|left; now apply Rinv_0_lt_compat]. }
  rewrite C1, C2. lra.
Qed.
(** the steps of length [-h] blow up *)
Lemma reversed_area h r l c vc il vc' il' uc jl uc' jl' : 0 < r -> 0 < l -> 0 < c ->
  implicit_step (- h) r l c 0 0 vc il vc' il' -> implicit_step (- h) r l c 0 0 uc jl uc' jl' ->
  (1 - h / (r * c) + h ^ 2 / (l * c)) * (vc' * jl' - il' * uc') = vc * jl - il * uc.
Proof.
  intros Hr Hl Hc [E1 E2] [F1 F2]. unfold vc_rate, il_rate in *.
  assert (A1 : vc = vc' + h * ((0 - 0 - vc') / r - il') / c) by (rewrite E1 at 1; field; lra).
  assert (A2 : il = il' + h * (vc' / l)) by (rewrite E2 at 1; field; lra).
  assert (B1 : uc = uc' + h * ((0 - 0 - uc') / r - jl') / c) by (rewrite F1 at 1; field; lra).
  assert (B2 : jl = jl' + h * (uc' / l)) by (rewrite F2 at 1; field; lra).
  rewrite A1, A2, B1, B2. field. lra.
Qed.
Lemma reversed_grows h r l c (vc il uc jl : nat -> R) : 0 < r -> 0 < l -> 0 < c -> 0 < h -> h < l / r -> h < r * c ->
  (forall n, implicit_step (- h) r l c 0 0 (vc n) (il n) (vc (S n)) (il (S n))) ->
  (forall n, implicit_step (- h) r l c 0 0 (uc n) (jl n) (uc (S n)) (jl (S n))) ->
  vc 0%nat * jl 0%nat <> il 0%nat * uc 0%nat ->
  forall B, exists n, B < Rabs (vc n) \/ B < Rabs (il n) \/ B < Rabs (uc n) \/ B < Rabs (jl n).
Proof.
  intros Hr Hl Hc Hh H1 H2 E F D B. set (d := 1 - h / (r * c) + h ^ 2 / (l * c)).
  assert (Hd0 : 0 < d).
  { unfold d. assert (h / (r * c) < 1) by (apply (Rmult_lt_reg_r (r * c)); [nra|]; unfold Rdiv; rewrite Rmult_assoc, Rinv_l by nra; lra).
    assert (0 < h ^ 2 / (l * c)) by (apply Rmult_lt_0_compat; [nra|apply Rinv_0_lt_compat; nra]). lra. }
  assert (Hd1 : d < 1).
  { unfold d. assert (h ^ 2 / (l * c) < h / (r * c)); [|lra].
    replace (h ^ 2 / (l * c)) with (h / c * (h / l)) by (field; lra). replace (h / (r * c)) with (h / c * / r) by (field; lra).
    apply Rmult_lt_compat_l; [apply Rmult_lt_0_compat; [lra|now apply Rinv_0_lt_compat]|].
    apply (Rmult_lt_reg_r l); [lra|]. unfold Rdiv. rewrite Rmult_assoc, Rinv_l by lra. unfold Rdiv in H1. lra. }
  set (W := fun n => vc n * jl n - il n * uc n).
  assert (HW : forall n, d ^ n * W n = W 0%nat).
  { induction n as [|n IH]; [cbn; ring|]. rewrite <- IH. cbn [pow]. rewrite <- (reversed_area h r l c _ _ _ _ _ _ _ _ Hr Hl Hc (E n) (F n) : _ = W n). fold d. unfold W. ring. }
  assert (W0 : 0 < Rabs (W 0%nat)) by (apply Rabs_pos_lt; unfold W; lra).
  set (B' := Rabs B + 1). assert (HB : 0 < B') by (unfold B'; pose proof (Rabs_pos B); lra).
  assert (exists n, d ^ n * (2 * B' ^ 2) < Rabs (W 0%nat)) as (n & Hn).
  { assert (Rabs d < 1) by (rewrite Rabs_pos_eq; lra). destruct (pow_lt_1_zero d H (Rabs (W 0%nat) / (2 * B' ^ 2))) as (n & Hn).
    { apply Rmult_lt_0_compat; [lra|]. apply Rinv_0_lt_compat. nra. }
    exists n. specialize (Hn n (le_n n)). rewrite Rabs_pos_eq in Hn by (apply pow_le; lra).
    apply (Rmult_lt_compat_r (2 * B' ^ 2)) in Hn; [|nra]. unfold Rdiv in Hn. rewrite Rmult_assoc, Rinv_l in Hn by nra. lra. }
  exists n. destruct (Rlt_le_dec B (Rabs (vc n))) as [|L1]; [auto|]. destruct (Rlt_le_dec B (Rabs (il n))) as [|L2]; [auto|].
  destruct (Rlt_le_dec B (Rabs (uc n))) as [|L3]; [auto|]. destruct (Rlt_le_dec B (Rabs (jl n))) as [|L4]; [auto|]. exfalso.
  pose proof (Rle_abs B) as HBB. rewrite <- (HW n), Rabs_mult, Rabs_pos_eq in Hn by (apply pow_le; lra).
  apply Rmult_lt_reg_l in Hn; [|apply pow_lt; lra].
  assert (Rabs (W n) <= 2 * B' ^ 2); [|lra]. unfold W. unfold Rminus. eapply Rle_trans; [apply Rabs_triang|]. rewrite Rabs_Ropp, !Rabs_mult.
  pose proof (Rabs_pos (vc n)). pose proof (Rabs_pos (il n)). pose proof (Rabs_pos (uc n)). pose proof (Rabs_pos (jl n)).
  assert (Rabs (vc n) * Rabs (jl n) <= B' * B') by (apply Rmult_le_compat; unfold B'; lra).
  assert (Rabs (il n) * Rabs (uc n) <= B' * B') by (apply Rmult_le_compat; unfold B'; lra). lra.
Qed.
