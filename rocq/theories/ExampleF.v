(** A binary64 execution: eleven steps requested over T = 0.1, ten performed. *)
From Coq Require Import String List Arith ZArith Bool Lia SpecFloat.
From Verif Require Import Num Py Arr NumF Probes Dispersive Line SpecLine.
Import ListNotations.

(** enough of LAPACK for one conductor: 1x1 systems are divisions *)
Definition LF : lapack NumF := {|
  la_inv := fun n (A : mat NumF) => match n with 1%nat => Some [[fdiv (fofZ 1) (get2 A 0 0)]] | _ => None end;
  la_solve := fun n (A : mat NumF) (b : vec NumF) => match n with 1%nat => Some [fdiv (get b 0) (get2 A 0 0)] | _ => None end;
  la_eig := fun n (A : mat NumF) => mk n (fun i => get2 A i i) |}.

Definition tenth : NumF := fdiv (fofZ 1) (fofZ 10).

Definition f1_new : res (mtl NumF) :=
  m <- mtl_new LF (fun _ => []) (fun _ => []) (@PFloat NumF (fofZ 1)) (@PFloat NumF (fofZ 1)) (@PFloat NumF (fofZ 0))
    (@PFloat NumF (fofZ 0)) (fofZ 1 : NumF) [] [2%nat] (@ZScal NumF (fofZ 1)) (@ZScal NumF (fofZ 1)) "f1"%string ;;
  add_probe m (@PosF NumF (fofZ 0)) "voltage".
Definition f1_run : res (mtl NumF) := m <- f1_new ;; run_until LF (set_time_step m 11 tenth) tenth.

Lemma float_range : time_range_len tenth (fdiv tenth (fofZ 11)) = Ok 10%nat.
Proof. vm_compute. reflexivity. Qed.

Lemma float_steps (LA : lapack NumF) (m m' : mtl NumF) :
  run_until LA (set_time_step m 11 tenth) tenth = Ok m' -> run_state LA (set_time_step m 11 tenth) tenth 10 m'.
Proof.
  intros H. unfold run_until in H. change (k_dt (m_core (set_time_step m 11 tenth))) with (fdiv tenth (fofZ 11)) in H.
  rewrite float_range in H. cbn [bind] in H. destruct (mtl_prepare _ _ _) as [p|e] eqn:E; [|discriminate].
  exists 10%nat, p. split; [exact float_range|]. auto.
Qed.

Definition ten_frames (r : res (mtl NumF)) : bool :=
  match r with Ok m => match m_probes m with [p] => (length (p_t p) =? 10)%nat | _ => false end | Err _ => false end.
Lemma f1_run_ten : ten_frames f1_run = true.
Proof. vm_compute. reflexivity. Qed.

Local Opaque mtl_new run_until add_probe.
Lemma float_run : exists (LA : lapack NumF) (m m' : mtl NumF) (p : probe NumF), reachable LA m /\
  run_until LA (set_time_step m 11 tenth) tenth = Ok m' /\ m_probes m' = [p] /\ length (p_t p) = 10%nat.
Proof.
  pose proof f1_run_ten as H. unfold f1_run in H. destruct f1_new as [m|e] eqn:E; [|discriminate H].
  cbn [bind] in H. destruct (run_until _ _ _) as [m'|e] eqn:E2; [|discriminate H].
  unfold ten_frames in H. destruct (m_probes m') as [|p [|]] eqn:E3; try discriminate H. apply Nat.eqb_eq in H.
  exists LF, m, m', p. split; [|auto]. unfold f1_new in E.
  match type of E with bind ?x _ = _ => destruct x as [m0|e] eqn:E0; [|discriminate E] end. cbn [bind] in E.
  exists m0. eapply h_probe; [|exact E]. constructor. do 12 eexists. exact E0.
Qed.
