(** Connections to ground, sources between nodes, and the state-variable termination. *)
From Coq Require Import String List Arith ZArith Bool Permutation Sorted Lia Reals Lra.
From Verif Require Import Num Py Arr ArrFacts NumR RFacts Utils Probes Dispersive Line Bundle Networks Mtln SpecLine SpecBundle SpecNet SpecRLC SpecR LinAlg NetFacts NetBuild NetR CoreEq BundleMore NetStamp.
Import ListNotations.
Local Open Scope R_scope.

Implicit Types w : network NumR.
Implicit Types c : call NumR.

Lemma numbered_num w id k : numbered w id k -> num_of w id = k /\ exists nd, find_node w id = Some nd /\ nd_index nd = k.
Proof. intros (nd & H & E). unfold num_of. rewrite H. eauto. Qed.
Lemma numbered_lt w id k : nshape w -> numbered w id k -> (k < w_nodes w)%nat.
Proof. intros S (nd & H & <-). eapply find_index; eauto. Qed.

Record grounded w k (R : NumR) (V : tfun NumR) w' : Prop := {
  gd_same : same_but_resistors w w';
  gd_G : forall i j, nG w' i j = if ((k =? i) && (k =? j))%nat then - (1 / R) else nG w i j;
  gd_Gs : forall i j, nGs w' i j = if (tf_nonzero V && (k =? i) && (k =? j))%nat then 1 / R else nGs w i j;
  gd_src : forall i t, nSrc w' i t = if (tf_nonzero V && (k =? i))%nat then tval V t else nSrc w i t
}.
Lemma ground_effect w id k (R : NumR) V : nshape w -> numbered w id k -> R <> 0 ->
  exists w', connect_to_ground w id R V = Ok w' /\ grounded w k R V w'.
Proof.
  intros S Hn HR. pose proof (numbered_lt _ _ _ S Hn) as Hk. destruct Hn as (nd & Hf & <-).
  unfold connect_to_ground. rewrite Hf. cbn [of_option bind]. cbv zeta.
  assert (E : @neqb NumR R n0 = false) by (apply Reqb_false; exact HR). unfold pninv, pinv. rewrite E. cbn [negb bind].
  assert (G : forall i j, get2 (upd2 (w_P1 w) (nd_index nd) (nd_index nd) (- n1 / R)%num) i j = if ((nd_index nd =? i) && (nd_index nd =? j))%nat then - (1 / R) else nG w i j).
  { intros i j. rewrite (get2_upd2 (w_nodes w) (w_nodes w)) by (auto; apply S). destruct (_ && _); [|reflexivity]. rsimpl. field. exact HR. }
  destruct (tf_nonzero V) eqn:Et; cbn [bind]; eexists; (split; [reflexivity|]); split; try (do 3 eexists; reflexivity); try exact G; rewrite Et; cbn [andb].
  - intros i j. unfold nGs, set_P, set_stamps. cbn [w_Ps]. rewrite (get2_upd2 (w_nodes w) (w_nodes w)) by (auto; apply S). reflexivity.
  - intros i t. unfold nSrc, set_P, set_stamps. cbn [w_vsrc]. rewrite nth_lset, (sh_vs _ S), (proj2 (Nat.ltb_lt _ _) Hk), andb_true_r.
    destruct (_ =? _)%nat; reflexivity.
  - reflexivity.
  - reflexivity.
Qed.
Lemma same_numbered w w' id k : same_but_resistors w w' -> numbered w id k -> numbered w' id k.
Proof. intros (P1 & Ps & vs & ->) H. exact H. Qed.

(** C53 *)
Lemma ground_overwrites w id k (R : NumR) V w' : nshape w -> numbered w id k -> R <> 0 -> connect_to_ground w id R V = Ok w' ->
  nG w' k k = - (1 / R) /\ (forall i j, (i <> k \/ j <> k) -> nG w' i j = nG w i j) /\ same_but_resistors w w'.
Proof.
  intros S Hn HR H. destruct (ground_effect w id k R V S Hn HR) as (w2 & E & G). rewrite E in H. injection H as ->. destruct G as [G1 G2 _ _].
  split; [|split; [|exact G1]].
  - rewrite G2, !Nat.eqb_refl. reflexivity.
  - intros i j Hij. rewrite G2. destruct (Nat.eqb_spec k i) as [->|]; [|reflexivity]. destruct (Nat.eqb_spec i j) as [->|]; [|reflexivity]. lia.
Qed.
Lemma two_calls w c1 c2 w' : do_calls w [c1; c2] = Ok w' -> exists w1, do_call w c1 = Ok w1 /\ do_call w1 c2 = Ok w'.
Proof. unfold do_calls. cbn [foldM]. intros H. inv_bind H. inv_bind H. injection H as <-. eauto. Qed.
Lemma ground_after w id k id2 k2 (R R2 : NumR) V V2 w' : nshape w -> numbered w id k -> numbered w id2 k2 -> R <> 0 -> 0 < R2 ->
  do_calls w [Branch id id2 R2 V2; GroundR id R V] = Ok w' -> nG w' k k = - (1 / R).
Proof.
  intros S Hn Hn2 HR HR2 H. apply two_calls in H as (w1 & H1 & H2). assert (Bc : between_nodes (Branch id id2 R2 V2)) by exact HR2.
  destruct (branch_effect _ _ _ S Bc H1) as [_ _ Es _ _ _]. destruct (call_shape _ _ _ S H1) as [S1 _].
  eapply ground_overwrites; eauto. eapply same_numbered; eauto.
Qed.
Lemma dl_first a b : a <> b -> dl a b a = 1.
Proof. intros H. unfold dl. rewrite deltaR_eq, deltaR_neq by exact H. rsimpl. ring. Qed.
Lemma dl_second a b : a <> b -> dl a b b = -1.
Proof. intros H. unfold dl. rewrite deltaR_eq, deltaR_neq by auto. rsimpl. ring. Qed.
Lemma dl_other a b i : i <> a -> i <> b -> dl a b i = 0.
Proof. intros H1 H2. unfold dl. rewrite !deltaR_neq by auto. rsimpl. ring. Qed.
Lemma sm_first a b : a <> b -> sm a b a = 1.
Proof. intros H. unfold sm. rewrite deltaR_eq, deltaR_neq by exact H. rsimpl. ring. Qed.
Lemma sm_second a b : a <> b -> sm a b b = 1.
Proof. intros H. unfold sm. rewrite deltaR_eq, deltaR_neq by auto. rsimpl. ring. Qed.
Lemma sm_other a b i : i <> a -> i <> b -> sm a b i = 0.
Proof. intros H1 H2. unfold sm. rewrite !deltaR_neq by auto. rsimpl. ring. Qed.
Lemma ground_before w id k id2 k2 (R R2 : NumR) V V2 w' : nshape w -> numbered w id k -> numbered w id2 k2 -> k <> k2 -> R <> 0 -> 0 < R2 ->
  do_calls w [GroundR id R V; Branch id id2 R2 V2] = Ok w' -> nG w' k k = - (1 / R) - 1 / R2.
Proof.
  intros S Hn Hn2 Hd HR HR2 H. apply two_calls in H as (w1 & H1 & H2). cbn [do_call] in H1.
  destruct (ground_overwrites _ _ _ _ _ _ S Hn HR H1) as (E & _ & Es). destruct (call_shape w (GroundR id R V) w1 S H1) as [S1 _].
  assert (Bc : between_nodes (Branch id id2 R2 V2)) by exact HR2.
  destruct (branch_effect _ _ _ S1 Bc H2) as [_ _ _ EG _ _]. rewrite EG, E. cbn [c_a c_b c_g].
  destruct (numbered_num _ _ _ (same_numbered _ _ _ _ Es Hn)) as [-> _]. destruct (numbered_num _ _ _ (same_numbered _ _ _ _ Es Hn2)) as [-> _].
  rewrite dl_first by exact Hd. rsimpl. ring.
Qed.
Lemma ground_twice w id k (R R2 : NumR) V V2 w' : nshape w -> numbered w id k -> R <> 0 -> R2 <> 0 ->
  do_calls w [GroundR id R V; GroundR id R2 V2] = Ok w' -> nG w' k k = - (1 / R2).
Proof.
  intros S Hn HR HR2 H. apply two_calls in H as (w1 & H1 & H2). cbn [do_call] in H1, H2.
  destruct (ground_overwrites _ _ _ _ _ _ S Hn HR H1) as (_ & _ & Es). destruct (call_shape w (GroundR id R V) w1 S H1) as [S1 _].
  eapply ground_overwrites; eauto. eapply same_numbered; eauto.
Qed.

(** C54 *)
Lemma new_zero ds w : network_new ds = Ok w -> (forall i j, nG w i j = 0) /\ (forall i j, nGs w i j = 0) /\ (forall i t, nSrc w i t = 0).
Proof.
  intros H. apply new_built in H as (a & nds & _ & _ & _ & _ & _ & _ & _ & _ & _ & _ & _ & _ & P1 & Ps & _ & _ & _ & _ & _ & _ & Vs & _).
  split; [|split].
  - intros. unfold nG. rewrite P1. exact (get2_zeros _ _ i j).
  - intros. unfold nGs. rewrite Ps. exact (get2_zeros _ _ i j).
  - intros i t. unfold nSrc. rewrite Vs. destruct (Nat.lt_ge_cases i (w_nodes w)) as [L|L]; [now rewrite nth_mk|now rewrite nth_mk_over].
Qed.
Lemma source_diag w i t : (i < w_nodes w)%nat -> (forall j, j <> i -> nGs w i j = 0) -> source_current w i t = nGs w i i * nSrc w i t.
Proof.
  intros Hi H. unfold source_current. change (@sumn NumR) with sumR. rewrite (sumR_single _ _ i Hi); [reflexivity|].
  intros j Hj Hn. rewrite H by auto. apply Rmult_0_l.
Qed.
Lemma branches_sources ds w0 l w : network_new ds = Ok w0 -> Forall between_nodes l -> do_calls w0 l = Ok w -> forall i t, (i < w_nodes w0)%nat ->
  source_current w i t = lsum (fun c => c_s c * dl (c_a w0 c) (c_b w0 c) i) l * lsum (fun c => sm (c_a w0 c) (c_b w0 c) i * tval (c_V c) t) l.
Proof.
  intros Hn Hb H i t Hi. pose proof (new_shape _ _ Hn) as S. destruct (new_zero _ _ Hn) as (_ & Z2 & Z3).
  destruct (calls_effect _ _ _ S Hb H) as [_ Es _ EGs Esr]. destruct (same_conns _ _ Es) as [_ En].
  rewrite source_diag.
  - rewrite EGs, Esr, Z2, Z3, deltaR_eq. rsimpl. ring.
  - now rewrite En.
  - intros j Hj. rewrite EGs, Z2, deltaR_neq by auto. rsimpl. ring.
Qed.
Lemma one_source ds w0 id1 k1 id2 k2 (R : NumR) V w t i : network_new ds = Ok w0 -> numbered w0 id1 k1 -> numbered w0 id2 k2 -> k1 <> k2 -> 0 < R ->
  do_calls w0 [Branch id1 id2 R (TFun V)] = Ok w -> (i < w_nodes w0)%nat ->
  source_current w i t = if (i =? k1)%nat then V t / R else if (i =? k2)%nat then - (V t / R) else 0.
Proof.
  intros Hn N1 N2 Hd HR H Hi. assert (B : Forall between_nodes [Branch id1 id2 R (TFun V)]) by (repeat constructor; assumption).
  rewrite (branches_sources _ _ _ _ Hn B H i t Hi).
  cbn [lsum c_a c_b c_V tval]. unfold c_s. cbn [c_V tf_nonzero c_g]. destruct (numbered_num _ _ _ N1) as [-> _]. destruct (numbered_num _ _ _ N2) as [-> _].
  destruct (Nat.eqb_spec i k1) as [->|H1]; [rewrite dl_first, sm_first by auto; rsimpl; field; lra|].
  destruct (Nat.eqb_spec i k2) as [->|H2]; [rewrite dl_second, sm_second by auto; rsimpl; field; lra|].
  rewrite dl_other by auto. rsimpl. ring.
Qed.
Lemma two_sources ds w0 id1 k1 id2 k2 id3 k3 (R1 R2 : NumR) V1 V2 w t : network_new ds = Ok w0 ->
  numbered w0 id1 k1 -> numbered w0 id2 k2 -> numbered w0 id3 k3 -> k1 <> k2 -> k1 <> k3 -> k2 <> k3 -> 0 < R1 -> 0 < R2 ->
  do_calls w0 [Branch id1 id2 R1 (TFun V1); Branch id1 id3 R2 (TFun V2)] = Ok w ->
  source_current w k1 t = (1 / R1 + 1 / R2) * (V1 t + V2 t) /\ source_current w k2 t = - (V1 t / R1) /\ source_current w k3 t = - (V2 t / R2).
Proof.
  intros Hn N1 N2 N3 H12 H13 H23 HR1 HR2 H. pose proof (new_shape _ _ Hn) as S.
  assert (B : Forall between_nodes [Branch id1 id2 R1 (TFun V1); Branch id1 id3 R2 (TFun V2)]) by (repeat constructor; assumption).
  pose proof (branches_sources _ _ _ _ Hn B H) as F. pose proof (numbered_lt _ _ _ S N1). pose proof (numbered_lt _ _ _ S N2). pose proof (numbered_lt _ _ _ S N3).
  rewrite !F by auto. cbn [lsum c_a c_b c_V tval]. unfold c_s. cbn [c_V tf_nonzero c_g].
  destruct (numbered_num _ _ _ N1) as [-> _]. destruct (numbered_num _ _ _ N2) as [-> _]. destruct (numbered_num _ _ _ N3) as [-> _].
  rewrite !dl_first, !sm_first, !dl_second, !sm_second, (dl_other k1 k3 k2), (dl_other k1 k2 k3), (sm_other k1 k3 k2), (sm_other k1 k2 k3) by auto.
  rsimpl. repeat split; field; lra.
Qed.
Lemma two_sources_opposed ds w0 id1 k1 id2 k2 id3 k3 (R1 R2 : NumR) V1 V2 w t : network_new ds = Ok w0 ->
  numbered w0 id1 k1 -> numbered w0 id2 k2 -> numbered w0 id3 k3 -> k1 <> k2 -> k1 <> k3 -> k2 <> k3 -> 0 < R1 -> 0 < R2 ->
  do_calls w0 [Branch id1 id2 R1 (TFun V1); Branch id3 id1 R2 (TFun V2)] = Ok w ->
  source_current w k1 t = (1 / R1 - 1 / R2) * (V1 t + V2 t).
Proof.
  intros Hn N1 N2 N3 H12 H13 H23 HR1 HR2 H. pose proof (new_shape _ _ Hn) as S.
  assert (B : Forall between_nodes [Branch id1 id2 R1 (TFun V1); Branch id3 id1 R2 (TFun V2)]) by (repeat constructor; assumption).
  pose proof (branches_sources _ _ _ _ Hn B H) as F. pose proof (numbered_lt _ _ _ S N1).
  rewrite !F by auto. cbn [lsum c_a c_b c_V tval]. unfold c_s. cbn [c_V tf_nonzero c_g].
  destruct (numbered_num _ _ _ N1) as [-> _]. destruct (numbered_num _ _ _ N2) as [-> _]. destruct (numbered_num _ _ _ N3) as [-> _].
  rewrite !dl_first, !sm_first, !dl_second, !sm_second by auto.
  rsimpl. field; lra.
Qed.

(** C55 *)
Lemma ground_zero_source {N : num} (w : network N) id nd R f : find_node w id = Some nd -> neqb R n0 = true ->
  connect_to_ground w id R (TFun f) = Err ZeroDivisionError.
Proof. intros H E. unfold connect_to_ground. rewrite H. cbn [of_option bind]. cbv zeta. unfold pinv. now rewrite E. Qed.
Lemma ground_zero_nothing {N : num} (w : network N) id nd R : find_node w id = Some nd -> neqb R n0 = true ->
  connect_to_ground w id R (TInt 0) = Ok w.
Proof. intros H E. unfold connect_to_ground. rewrite H. cbn [of_option bind]. cbv zeta. rewrite E. cbn. now destruct w. Qed.
Lemma ground_unknown {N : num} (w : network N) id R V : find_node w id = None -> connect_to_ground w id R V = Err AssertionError.
Proof. intros H. unfold connect_to_ground. now rewrite H. Qed.
