(** Splitting a run of a network of lines in two, in real arithmetic. *)
From Coq Require Import String List Arith ZArith Bool Lia Reals Lra.
From Verif Require Import Num Py Arr ArrFacts NumR RFacts Utils Probes Dispersive Line Bundle Networks Mtln SpecLine SpecBundle SpecNet SpecMtln SpecCompose NetCompose RunProps.
Local Open Scope R_scope.

Lemma runs_durations (LA : lapack NumR) (x : mtln NumR) (dt : R) (n1 n2 : nat) x1 x2 : 0 < dt ->
  mtln_run_until LA x (INR n1 * dt) dt = Ok x1 -> mtln_run_until LA x1 (INR n2 * dt) 0 = Ok x2 ->
  exists z, mtln_run_until LA x (INR n1 * dt + INR n2 * dt) dt = Ok z /\ net_but_probes x2 z.
Proof.
  intros D H1 H2.
  assert (E : t_dt (override_dt x dt) = dt) by (unfold override_dt; destruct (@neqb NumR dt n0) eqn:Q; [apply Reqb_true in Q; change (dt = 0) in Q; lra|reflexivity]).
  assert (F : forall n, INR n * dt <= INR n * dt < INR (S n) * dt) by (intros n; split; [apply Rle_refl|]; apply Rmult_lt_compat_r; [exact D|]; rewrite S_INR; lra).
  apply (runs_join LA x _ dt x1 _ 0 x2 _ n1 n2 H1 H2); rewrite ?E.
  - right. apply Reqb_true. reflexivity.
  - apply floor_range; auto.
  - apply floor_range; auto.
  - apply floor_range; [exact D|]. rewrite <- Rmult_plus_distr_r, <- plus_INR. apply F.
Qed.
