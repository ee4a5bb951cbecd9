(** Consequences of the dispersive lemmas used by the property statements, and an executable
    example of clashing pole counts. *)
From Coq Require Import String List Arith ZArith Bool Lia QArith Reals Lra.
From Verif Require Import Num Py Arr ArrFacts NumR NumQ RFacts LapackR LapackQ Probes Dispersive Line LineFacts Bundle Networks Mtln SpecLine SpecR SpecBundle SpecDisp
  SpecConv SpecLoad HistoryFacts ConnFacts FitFacts DispProps DispR ConvFacts DispTotal ExampleQ.
Import ListNotations.
Local Open Scope R_scope.

Lemma connector_weights (LA : lapack NumR) m0 m p c (model : ratmodel NumR) m' :
  history LA m0 m -> 0 < step_dt m0 -> mtl_add_dispersive_connector m p c model = Ok m' ->
  let k := node_of m p in
  forall l, (l < n_poles model)%nat -> pole model l <> c0 ->
    exact_step (step_dt m0) (residue model (node_gap m k) l) (pole model l)
      (nth l (dP1 (m_disp m') k c c) c0) (nth l (dP2 (m_disp m') k c c) c0) (nth l (dP3 (m_disp m') k c c) c0).
Proof.
  intros H Hdt Hc k l Hl Hp.
  destruct (connector_exact_line LA _ _ _ _ _ _ H Hc) as (_ & _ & _ & Fr & Hcon & _). fold k in Fr, Hcon.
  destruct Hcon as (_ & _ & z1 & z2 & z3 & Z1 & Z2 & Z3 & Q1 & Q2 & Q3).
  destruct Fr as (_ & _ & (y1 & Y1 & A1 & B1) & (y2 & Y2 & A2 & B2) & (y3 & Y3 & A3 & B3)).
  rewrite Z1 in Y1. rewrite Z2 in Y2. rewrite Z3 in Y3. injection Y1 as <-. injection Y2 as <-. injection Y3 as <-.
  apply Reqb_true in A1, A2, A3, B1, B2, B3.
  assert (E1 : z1 = c0) by (destruct z1; cbn in *; subst; reflexivity).
  assert (E2 : z2 = c0) by (destruct z2; cbn in *; subst; reflexivity).
  assert (E3 : z3 = c0) by (destruct z3; cbn in *; subst; reflexivity).
  assert (A0 : forall z : cplx NumR, cadd c0 z = z) by (intros [x y]; unfold cadd, c0; cbn; f_equal; rring).
  assert (T : forall f : nat -> cplx NumR, nth l (map f (seq 0 (n_poles model))) c0 = f l).
  { intros f. rewrite (nth_indep _ c0 (f 0%nat)) by (rewrite map_length, seq_length; exact Hl).
    rewrite map_nth, seq_nth by exact Hl. reflexivity. }
  rewrite Q1, Q2, Q3, !T, E1, E2, E3, !A0. now apply step_exact.
Qed.

Lemma pole_per_cell (N : num) (LA : lapack N) b ol oc il ic m b' : reachable_bundle LA b ->
  bundle_add_transfer_impedance b ol oc il ic m = Ok b' ->
  NoDup oc -> NoDup ic -> rm_direction m = "in"%string \/ rm_direction m = "out"%string -> (1 < n_poles m)%nat ->
  forall k i j, (k < b_cells b)%nat -> couples b (rm_direction m) ol oc il ic i j ->
    n_poles m = b_cells b /\ lowered m k (b_disp b) (b_disp b') k i j.
Proof.
  intros R H D1 D2 D Hp k i j Hk C.
  destruct (transfer_exact LA b ol oc il ic m b' R H D1 D2 D) as (_ & _ & _ & X & Y); [right; right; lia|].
  destruct (X i j C) as (_ & _ & P). destruct (Y k i j Hk) as [Z _]. specialize (Z C).
  destruct (Nat.eqb_spec (n_poles m) 1); [lia|]. split; [lia|exact Z].
Qed.

Lemma zero_model (b : bundle NumR) side ol oc il ic (m : ratmodel NumR) : rm_cte m = 0 -> rm_prop m = 0 -> n_poles m = 0%nat ->
  neighbours ol il -> consistent m -> divisor m <> 0 -> side = "initial"%string \/ side = "end"%string ->
  bundle_add_transfer_impedance b ol oc il ic m = Ok b /\
  set_connector_transfer_impedance b side ol oc il ic m = Ok b.
Proof.
  intros H1 H2 H3 H4 H5 H6 H7. apply transfer_null; auto.
  - intros [A|[A|A]]; [| |lia].
    + apply Reqb_false in A. apply A. rewrite H1. rsimpl. unfold Rdiv. apply Rmult_0_l.
    + apply Reqb_false in A. apply A. rewrite H2. rsimpl. unfold Rdiv. apply Rmult_0_l.
  - apply Reqb_false. exact H6.
Qed.

Lemma connector_step (LA : lapack NumR) m0 m NDT (T : NumR) p c (model : ratmodel NumR) m' :
  history LA m0 m -> mtl_add_dispersive_connector (set_time_step m NDT T) p c model = Ok m' ->
  step_dt m' = T / IZR NDT /\
  connected model (step_dt m0) (node_gap m (node_of m p)) (m_disp m) (m_disp m') (node_of m p) c.
Proof.
  intros H Hc. assert (H' : history LA m0 (set_time_step m NDT T)) by now constructor.
  destruct (connector_exact_line LA _ _ _ _ _ _ H' Hc) as (_ & _ & _ & _ & Hcon & _ & d & Ed & _).
  split; [|exact Hcon]. rewrite Ed. reflexivity.
Qed.

(** *** clash of pole counts, computed *)
Definition q_two : ratmodel NumQ := @RatModel NumQ 1%Q 0%Q [-1; -2]%Q [0; 0]%Q [1; 1]%Q [0; 0]%Q None ""%string.
Definition q_three : ratmodel NumQ := @RatModel NumQ 1%Q 0%Q [-1; -2; -3]%Q [0; 0; 0]%Q [1; 1; 1]%Q [0; 0; 0]%Q None ""%string.
Definition is_ValueError {A} (r : res A) : bool := match r with Err ValueError => true | _ => false end.
Definition steps_is (k : nat) (r : res nat) : bool := match r with Ok n => (n =? k)%nat | _ => false end.
Definition clash_test : bool := okb (fun m : mtl NumQ => okb (fun m1 : mtl NumQ => okb (fun m2 : mtl NumQ =>
    steps_is 3 (time_range_len (3%Q : NumQ) (k_dt (m_core m2))) &&
    okb (fun p : mtl NumQ => okb (fun b : mtl NumQ => is_ValueError (mtl_step b)) (mtl_step p)) (mtl_prepare LQ m2 3))
  (mtl_add_dispersive_connector m1 [0; 0; 1]%Q 1 q_three)) (mtl_add_dispersive_connector m [0; 0; 1]%Q 0 q_two)) q2_new.
Lemma clash_test_ok : clash_test = true.
Proof. vm_compute. reflexivity. Qed.
Local Opaque mtl_new run_until add_probe mtl_step mtl_prepare mtl_add_dispersive_connector time_range_len.
Lemma clash_example : exists m0 m m1 m2 a b : mtl NumQ, history LQ m0 m /\
  mtl_add_dispersive_connector m [0; 0; 1]%Q 0 q_two = Ok m1 /\ mtl_add_dispersive_connector m1 [0; 0; 1]%Q 1 q_three = Ok m2 /\
  n_poles q_two = 2%nat /\ n_poles q_three = 3%nat /\ run_step LQ m2 (3%Q : NumQ) 0 a b /\ mtl_step b = Err ValueError.
Proof.
  pose proof clash_test_ok as H. unfold clash_test in H. okb_step H m E. okb_step H m1 X1. okb_step H m2 X2. split_andb H.
  okb_step T p X3. okb_step T b X4. exists m, m, m1, m2, p, b.
  split; [constructor; now apply q2_new_built|]. split; [exact X1|]. split; [exact X2|]. split; [reflexivity|]. split; [reflexivity|]. split.
  - exists 3%nat, p. unfold steps_is in H. destruct (time_range_len _ _) as [n|] eqn:F; [|discriminate H]. apply Nat.eqb_eq in H. subst n.
    split; [reflexivity|]. split; [lia|]. split; [exact X3|]. split; [reflexivity|exact X4].
  - unfold is_ValueError in T. revert T. generalize (mtl_step b). intros [x|[]] T; first [discriminate T|reflexivity].
Qed.
