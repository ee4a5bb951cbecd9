(** Executable examples in exact rational arithmetic: a coupled two-conductor lossy line and a
    one-conductor lossless one, both driven at their first node, with voltage and current
    probes.  Everything here is computed. *)
From Coq Require Import String List Arith ZArith Bool Lia QArith.
From Verif Require Import Num Py Arr NumQ LapackQ Probes Dispersive Line SpecLine SpecProbe.
Import ListNotations.

Definition junk : nat -> vec NumQ := fun _ => [].
Definition ustep (t : NumQ) : NumQ := if Qltb t 0 then 0%Q else 1%Q.

(** L C = identity: both modes travel one cell (length 1) per unit of time *)
Definition q2_new : res (mtl NumQ) :=
  mtl_new LQ junk junk (@PArr NumQ 2 2 [[2#1; 1#1]; [1#1; 2#1]]%Q) (@PArr NumQ 2 2 [[2#3; -1#3]; [-1#3; 2#3]]%Q)
    (@PArr NumQ 2 2 [[1#2; 0]; [0; 1#4]]%Q) (@PArr NumQ 2 2 [[1#1; -1#1]; [-1#1; 1#1]]%Q) (4%Q : NumQ) [] [4%nat]
    (@ZVec NumQ 2 [1%Q; 0%Q]) (@ZVec NumQ 2 [1%Q; 2%Q]) "q2"%string.
(** one lossless conductor, l = c = 1, open at the far end but for 3 ohm *)
Definition q1_new (zs zl : Q) : res (mtl NumQ) :=
  mtl_new LQ junk junk (@PFloat NumQ 1%Q) (@PFloat NumQ 1%Q) (@PFloat NumQ 0%Q) (@PFloat NumQ 0%Q) (4%Q : NumQ) [] [4%nat]
    (@ZScal NumQ zs) (@ZScal NumQ zl) "q1"%string.

Definition drive (r : res (mtl NumQ)) (z : Q) (f : NumQ -> NumQ) : res (mtl NumQ) :=
  m <- r ;; add_voltage_source m (@PosF NumQ z) 0 f.
Definition watch (r : res (mtl NumQ)) (z : Q) (ty : string) : res (mtl NumQ) :=
  m <- r ;; add_probe m (@PosF NumQ z) ty.
Definition get_ok {A} (d : A) (r : res A) : A := match r with Ok a => a | Err _ => d end.

Definition q2_ready : res (mtl NumQ) :=
  watch (watch (drive q2_new 0 ustep) 0 "voltage") 4 "current".

(** [okb f r]: the computation succeeded and its result passes the test [f] *)
Definition okb {A} (f : A -> bool) (r : res A) : bool := match r with Ok a => f a | Err _ => false end.
Lemma okb_inv {A} f (r : res A) : okb f r = true -> exists a, r = Ok a /\ f a = true.
Proof. destruct r; cbn; [eauto|discriminate]. Qed.

Local Opaque mtl_new run_until add_probe mtl_step.
Lemma q2_new_built m : q2_new = Ok m -> built LQ m.
Proof. intros E0. unfold q2_new in E0. do 12 eexists. exact E0. Qed.
Lemma q1_new_built zs zl m : q1_new zs zl = Ok m -> built LQ m.
Proof. intros E0. unfold q1_new in E0. do 12 eexists. exact E0. Qed.
Lemma drive_inv r z f m : drive r z f = Ok m -> (forall x, r = Ok x -> reachable LQ x) -> reachable LQ m.
Proof.
  unfold drive. destruct r as [x|]; [|intros H; discriminate H]. cbn [bind]. intros H R. destruct (R x eq_refl) as [m0 HH].
  exists m0. eapply h_source; eauto.
Qed.
Lemma watch_inv r z ty m : watch r z ty = Ok m -> (forall x, r = Ok x -> reachable LQ x) -> reachable LQ m.
Proof.
  unfold watch. destruct r as [x|]; [|intros H; discriminate H]. cbn [bind]. intros H R. destruct (R x eq_refl) as [m0 HH].
  exists m0. eapply h_probe; eauto.
Qed.
Lemma built_reachable {N} (LA : lapack N) m : built LA m -> reachable LA m.
Proof. intros H. exists m. now constructor. Qed.
Lemma q2_ready_reachable m : q2_ready = Ok m -> reachable LQ m.
Proof.
  intros H. apply (watch_inv _ _ _ _ H). intros x1 H1. apply (watch_inv _ _ _ _ H1). intros x2 H2.
  apply (drive_inv _ _ _ _ H2). intros x3 H3. apply built_reachable. now apply q2_new_built.
Qed.

(** boolean comparisons of computed data *)
Fixpoint leqb {A} (e : A -> A -> bool) (x y : list A) : bool :=
  match x, y with [], [] => true | a :: x, b :: y => e a b && leqb e x y | _, _ => false end.
Lemma leqb_eq {A} (e : A -> A -> bool) : (forall a b, e a b = true -> a = b) -> forall x y, leqb e x y = true -> x = y.
Proof.
  intros H x. induction x; intros [|b y] E; cbn in E; try discriminate; auto.
  apply andb_true_iff in E as [E1 E2]. f_equal; auto.
Qed.
Definition veqb : list Q -> list Q -> bool := leqb Qsame.
Definition reqb : list (list Q) -> list (list Q) -> bool := leqb veqb.
Lemma veqb_eq x y : veqb x y = true -> x = y.
Proof. apply leqb_eq, Qsame_eq. Qed.
Lemma reqb_eq x y : reqb x y = true -> x = y.
Proof. apply leqb_eq, veqb_eq. Qed.
(** time stamps and rows of every probe *)
Definition stamps (m : mtl NumQ) : list (list Q) := map (fun p => p_t p) (m_probes m).
Definition tables (m : mtl NumQ) : list (list (list Q)) := map (fun p => rows_of m p) (m_probes m).
Definition teqb := leqb reqb.
Lemma teqb_eq x y : teqb x y = true -> x = y.
Proof. apply leqb_eq, reqb_eq. Qed.
Ltac split_andb H := repeat match type of H with (_ && _)%bool = true =>
  let H' := fresh "T" in apply andb_true_iff in H as [H H'] end.
Ltac okb_step H x E := apply okb_inv in H as (x & E & H).

(** the driven coupled line, run for three steps with a voltage probe at the driven end and a
    current probe at the other *)
Definition q2_test : bool := okb (fun m : mtl NumQ => okb (fun m' : mtl NumQ =>
    (conductors m =? 2)%nat && (cells m =? 4)%nat && Qsame (step_dt m) 1 &&
    reqb (stamps m') [[1; 2; 3]; [3#2; 5#2; 7#2]]%Q &&
    teqb (tables m') [[[6#13; 0]; [10350#20449; 0]; [13846422#32166277; 0]]; [[0; 0]; [0; 0]; [0; 0]]]%Q)
  (run_until LQ m 3%Q)) q2_ready.
Lemma q2_test_ok : q2_test = true.
Proof. vm_compute. reflexivity. Qed.
Lemma q2_run : exists m m', reachable LQ m /\ q2_ready = Ok m /\ run_until LQ m 3%Q = Ok m' /\
  conductors m = 2%nat /\ cells m = 4%nat /\ step_dt m = 1%Q /\
  stamps m' = [[1; 2; 3]; [3#2; 5#2; 7#2]]%Q /\
  tables m' = [[[6#13; 0]; [10350#20449; 0]; [13846422#32166277; 0]]; [[0; 0]; [0; 0]; [0; 0]]]%Q.
Proof.
  pose proof q2_test_ok as H. unfold q2_test in H. okb_step H m E. okb_step H m' E'. split_andb H.
  exists m, m'. split; [now apply q2_ready_reachable|]. split; [exact E|]. split; [exact E'|].
  apply Nat.eqb_eq in H. apply Nat.eqb_eq in T2. apply Qsame_eq in T1. apply reqb_eq in T0. apply teqb_eq in T. auto.
Qed.

(** *** a probe that was never resized: its first row changes under later steps *)
Definition live_line : res (mtl NumQ) :=
  m <- drive (q1_new 0 3) 0 (fun t => t) ;; m1 <- run_until LQ m 0%Q ;; add_probe m1 (@PosF NumQ 0%Q) "voltage".
Definition live_test : bool := okb (fun m1 : mtl NumQ => okb (fun m2 : mtl NumQ => okb (fun m3 : mtl NumQ =>
    teqb (tables m2) [[[-1]]]%Q && teqb (tables m3) [[[2]; [2]]]%Q) (mtl_step m2)) (mtl_step m1)) live_line.
Lemma live_test_ok : live_test = true.
Proof. vm_compute. reflexivity. Qed.
Lemma live_row_changes : exists (m1 m2 m3 : mtl NumQ), reachable LQ m1 /\
  mtl_step m1 = Ok m2 /\ mtl_step m2 = Ok m3 /\ tables m2 = [[[-1]]]%Q /\ tables m3 = [[[2]; [2]]]%Q.
Proof.
  pose proof live_test_ok as H. unfold live_test in H. okb_step H m1 E. okb_step H m2 E2. okb_step H m3 E3. split_andb H.
  exists m1, m2, m3. split; [|apply teqb_eq in H; apply teqb_eq in T; auto].
  unfold live_line in E. destruct (drive _ _ _) as [m|] eqn:E0; [|discriminate E]. cbn [bind] in E.
  destruct (run_until _ _ _) as [m4|] eqn:E1; [|discriminate E]. cbn [bind] in E.
  destruct (drive_inv _ _ _ _ E0) as [m0 HH]; [intros; eapply built_reachable, q1_new_built; eauto|].
  exists m0. eapply h_probe; [|exact E]. eapply h_run; eauto.
Qed.

(** *** sources at an interior and at an end node *)
Definition source_test : bool := okb (fun m : mtl NumQ => okb (fun _ => true) (add_voltage_source m (@PosF NumQ 2%Q) 1 ustep) &&
    (nearest (m_u m) (pos_vec (@PosF NumQ 2%Q)) =? 2)%nat && (cells m =? 4)%nat &&
    okb (fun _ => true) (add_voltage_source m (@PosF NumQ 4%Q) 1 ustep) && (nearest (m_u m) (pos_vec (@PosF NumQ 4%Q)) =? 4)%nat) q2_ready.
Lemma source_test_ok : source_test = true.
Proof. vm_compute. reflexivity. Qed.
Lemma q2_sources : exists (m m1 m2 : mtl NumQ), reachable LQ m /\
  add_voltage_source m (@PosF NumQ 2%Q) 1 ustep = Ok m1 /\ (0 < nearest (m_u m) (pos_vec (@PosF NumQ 2%Q)) < cells m)%nat /\
  add_voltage_source m (@PosF NumQ 4%Q) 1 ustep = Ok m2 /\ nearest (m_u m) (pos_vec (@PosF NumQ 4%Q)) = cells m.
Proof.
  pose proof source_test_ok as H. unfold source_test in H. okb_step H m E. split_andb H.
  okb_step H m1 E1. okb_step T0 m2 E2. apply Nat.eqb_eq in T, T1, T2.
  exists m, m1, m2. split; [now apply q2_ready_reachable|]. rewrite T, T1, T2. repeat split; auto; lia.
Qed.

(** *** two probes, one of an unknown type, on a line ready to be stepped *)
Definition stepping_test : bool := okb (fun m : mtl NumQ => okb (fun _ => true) (mtl_step m) &&
    okb (fun _ => true) (add_probe m (@PosF NumQ 1%Q) "current") && okb (fun _ => true) (add_probe m (@PosF NumQ 1%Q) "power"))
  (m <- q2_ready ;; run_until LQ m 2%Q).
Lemma stepping_test_ok : stepping_test = true.
Proof. vm_compute. reflexivity. Qed.
Lemma q2_stepping : exists (m m1 m2 m3 : mtl NumQ), reachable LQ m /\ mtl_step m = Ok m1 /\
  add_probe m (@PosF NumQ 1%Q) "current" = Ok m2 /\ add_probe m (@PosF NumQ 1%Q) "power" = Ok m3.
Proof.
  pose proof stepping_test_ok as H. unfold stepping_test in H. okb_step H m E. split_andb H.
  okb_step H m1 E1. okb_step T0 m2 E2. okb_step T m3 E3. exists m, m1, m2, m3. split; auto.
  destruct q2_ready as [x|] eqn:E0; [|discriminate E]. cbn [bind] in E. destruct (q2_ready_reachable _ E0) as [m0 HH].
  exists m0. eapply h_run; eauto.
Qed.
