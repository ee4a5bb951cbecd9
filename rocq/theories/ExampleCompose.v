(** A driven line between two networks, with a probe, in exact rational arithmetic: two steps and
    then three give the state that five steps give, and the probe holds three rows, not five. *)
From Coq Require Import String List Arith ZArith Bool Lia QArith.
From Verif Require Import Num Py Arr ArrFacts NumQ LapackQ Utils Probes Dispersive Line Bundle Networks Mtln SpecLine SpecBundle SpecNet SpecMtln SpecCompose ExampleQ ExampleStretch.
Import ListNotations.

Definition qc_rows (x : mtln NumQ) : nat := match bundle_of x "b0" with Some b => match b_probes b with [p] => length (p_t p) | _ => 0%nat end | None => 0%nat end.
Definition qc_test : bool :=
  okb (fun m : mtl NumQ => okb (fun a : bundle NumQ => okb (fun b : bundle NumQ =>
  okb (fun p => okb (fun x1 : mtln NumQ => okb (fun x2 : mtln NumQ => okb (fun z : mtln NumQ =>
    String.eqb (b_name b) "b0" && (qc_rows x2 =? 3)%nat && (qc_rows z =? 5)%nat && qs_named x2 (fun a' => negb (Qsame (b_volt a' 0 2) 0)))
   (mtln_run_until LQ (last5 p) (5#2)%Q (1#2)%Q)) (mtln_run_until LQ x1 (3#2)%Q (1#2)%Q)) (mtln_run_until LQ (last5 p) 1%Q (1#2)%Q))
   (qs_build m ustep b))
   (bundle_add_probe a (@PosL NumQ [0%Q; 0%Q; 2%Q]) "voltage"%string))
   (mtld_new [[m]] "b0"%string))
   (qs_line 4%Q 4).
Lemma qc_test_ok : qc_test = true.
Proof. vm_compute. reflexivity. Qed.
Local Opaque mtl_new mtld_new mtln_prepare mtln_step mtln_run_until network_new do_call time_range_len.
Lemma compose_example : exists (x x1 x2 z : mtln NumQ) b, lines_net LQ x /\ mtln_run_until LQ x 1%Q (1#2)%Q = Ok x1 /\ mtln_run_until LQ x1 (3#2)%Q (1#2)%Q = Ok x2 /\
  mtln_run_until LQ x (5#2)%Q (1#2)%Q = Ok z /\ bundle_of x2 "b0" = Some b /\ b_volt b 0 2 <> 0%Q /\ qc_rows x2 = 3%nat /\ qc_rows z = 5%nat.
Proof.
  pose proof qc_test_ok as H. unfold qc_test in H. okb_step H m Em. okb_step H a Ea. okb_step H b Eb. okb_step H p Ep. okb_step H x1 E1. okb_step H x2 E2. okb_step H z Ez.
  apply andb_true_iff in H as [H H4]. apply andb_true_iff in H as [H H3]. apply andb_true_iff in H as [H1 H2]. apply Nat.eqb_eq in H2, H3.
  assert (Rm : reachable LQ m) by (apply built_reachable; unfold qs_line in Em; do 12 eexists; exact Em).
  assert (Rb : reachable_bundle LQ b).
  { exists a. eapply bh_probe; [|exact Eb]. constructor. exists [[m]], "b0"%string. split; [repeat constructor; exact Rm|exact Ea]. }
  destruct (qs_net _ _ _ _ Rm Rb Ep) as [Lx _]. unfold qs_named in H4. destruct (bundle_of x2 "b0") as [b'|] eqn:Bb; [|discriminate H4].
  exists (last5 p), x1, x2, z, b'. do 5 (split; [assumption || reflexivity|]). split; [|split; assumption].
  intros E. rewrite E in H4. vm_compute in H4. discriminate H4.
Qed.
