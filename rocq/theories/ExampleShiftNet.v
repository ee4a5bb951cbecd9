(** The line of ExampleSuper with a source that is switched on now, or two steps later. *)
From Coq Require Import String List Arith ZArith Bool Lia Reals Lra.
From Verif Require Import Num Py Arr ArrFacts NumR RFacts LapackR Utils Probes Dispersive Line Bundle Networks Mtln SpecLine SpecBundle SpecNet SpecMtln SpecTele SpecCore SpecDyn SpecSuper
  SpecEnergy SpecShiftNet CoreEq NetPlace MtlnFacts ExampleMtln SuperNet SuperNet2 ExampleSuper ShiftNet.
Import ListNotations.
Local Open Scope R_scope.

Definition switched_on (t : R) : R := if Rlt_dec t 0 then 0 else 1.

Lemma bundle_state_refl b : bundle_same_state b b.
Proof. split; reflexivity. Qed.
Lemma lone_alike m b f g tau (seen : R -> Prop) w1 w2 x v1 v2 y : one m b -> (forall t, seen t -> g (t + tau) = f t) -> lone m b f 0 w1 w2 x -> lone m b g 0 v1 v2 y -> driven_alike tau seen x y.
Proof.
  intros S E [(a & A1 & A2 & A3) (a' & A1' & A2' & A3') An _ _ _] [(b1 & B1 & B2 & B3) (b' & B1' & B2' & B3') Bn _ _ _].
  assert (b1 = a) by congruence. assert (b' = a') by congruence. subst.
  refine (new_alike tau seen _ _ _ _ x y _ _ An Bn).
  - constructor; [|constructor]. split; [reflexivity|]. split; [reflexivity|]. split; [split; reflexivity|apply bundle_state_refl| |].
    + intros j k t _ Hj Hk. change (kTran (b_core b) j k (t + tau) = kTran (b_core b) j k t). change (j < b_conductors b)%nat in Hj. change (k <= b_cells b)%nat in Hk.
      rewrite (on_n _ _ S) in Hj. rewrite (on_N _ _ S) in Hk. rewrite !(on_T _ _ S) by assumption. reflexivity.
    + intros j k t _ Hj Hk. change (j < b_conductors b)%nat in Hj. change (k < b_cells b)%nat in Hk. rewrite (on_n _ _ S) in Hj. rewrite (on_N _ _ S) in Hk. rewrite !(loaded_long m) by assumption. reflexivity.
  - (constructor; [|constructor; [|constructor]]); (constructor; [|constructor]); (split; [reflexivity|]).
    + cbn [snd]. apply (calls_alike tau seen (s_descr m) a (s_calls (@TFun NumR f)) (s_calls (@TFun NumR g))); auto. constructor; [|constructor]. constructor. constructor. exact E.
    + cbn [snd]. apply (calls_alike tau seen (l_descr m) a' l_calls l_calls); auto. constructor; [|constructor]. constructor. constructor.
Qed.
Lemma lone_off m b f t1 w1 w2 x : one m b -> (forall t, t < t1 -> f t = 0) -> lone m b f 0 w1 w2 x -> lines_still x /\ lines_off t1 x.
Proof.
  intros S E X. destruct (lone_exists m b (fun _ => 0) 0 S) as (u1 & u2 & z & Z). destruct (rest_still _ (lone_rest _ _ _ _ _ S Z)) as [S0 O0].
  destruct (driven_off 0 t1 z x (lone_alike m b (fun _ => 0) f 0 (fun t => t < t1) _ _ _ _ _ _ S (fun t L => eq_trans (f_equal f (Rplus_0_r t)) (E t L)) Z X) S0 (O0 t1)) as [S1 O1].
  rewrite Rplus_0_r in O1. auto.
Qed.
Lemma lone_single m b f w1 w2 x : one m b -> lone m b f 0 w1 w2 x -> Forall (fun kb => single_poled (snd kb)) (t_bundles x).
Proof.
  intros S X. apply Forall_forall. intros [k c] Hk. cbn [snd].
  pose proof (rn_bundles _ _ (lo_run _ _ _ _ _ _ _ X)) as P. assert (G : exists name, dget String.eqb name (t_bundles x) = Some c).
  { destruct (lines_ninv LR x (lo_net _ _ _ _ _ _ _ X)) as [Ky _ _ _]. exists k. apply sget_in; assumption. }
  destruct G as [name G]. specialize (P name c G). split; [exact (pb_q _ P)|exact (pb_phi _ P)].
Qed.
Lemma new_time bs ws (x : mtln NumR) : mtln_new bs ws = Ok x -> t_time x = 0.
Proof.
  unfold mtln_new. intros H. inv_bind H.
  assert (A : t_time a = 0).
  { apply (foldM_inv (fun y : mtln NumR => t_time y = 0) _ _ _ _) with (3 := Ha); [|reflexivity]. intros c p q _ Hp E. unfold add_bundle in E. inv_bind E. apply OkI in E. subst q. exact Hp. }
  apply (foldM_inv (fun y : mtln NumR => t_time y = 0) _ _ _ _) with (3 := H); [|exact A]. intros c p q _ Hp E. unfold add_network in E. inv_bind E. apply OkI in E. subst q. exact Hp.
Qed.
(** ten steps of the run are possible *)
Lemma lone_reaches m b f w1 w2 x k : lone m b f 0 w1 w2 x -> (k <= 10)%nat -> exists y, reaches LR x 5 (1/2) k y.
Proof.
  intros X Hk. destruct (lone_total _ _ _ _ _ _ _ 5 X) as [y Ey]. apply run_reaches in Ey as (n & En & Rn).
  assert (D : t_dt (override_dt x (1/2)) = 1/2) by (unfold override_dt; destruct (@neqb NumR (1/2) n0) eqn:Q; [apply Reqb_true in Q; change (1/2 = 0) in Q; lra|reflexivity]).
  rewrite D in En. pose proof ten as E10. assert (n = 10%nat) as -> by congruence. eapply reaches_less; eauto.
Qed.
Definition later (t : R) : R := switched_on (t - 1).
Definition doubled (t : R) : R := switched_on t + switched_on (t - 1).
Lemma half_step (x : mtln NumR) : t_dt (override_dt x (1/2)) = 1/2.
Proof. unfold override_dt. destruct (@neqb NumR (1/2) n0) eqn:Q; [apply Reqb_true in Q; change (1/2 = 0) in Q; lra|reflexivity]. Qed.
Lemma off_0 t : t < 0 -> switched_on t = 0.
Proof. intros L. unfold switched_on. destruct (Rlt_dec t 0); lra. Qed.
Lemma shift_net_example : exists m b w1 w2 x v1 v2 y a c, one m b /\ lone m b switched_on 0 w1 w2 x /\ lone m b later 0 v1 v2 y /\
  lapack_ok LR /\ regular LR /\ lines_net LR x /\ lines_net LR y /\ (forall w, In w (nets x) -> exists ds, rc_circuit LR ds w) /\
  t_dt (override_dt x (1/2)) = 1/2 /\ t_time x = 0 /\ lines_still x /\ lines_off 0 x /\ lines_still y /\ lines_off 1 y /\ Forall (fun kb => single_poled (snd kb)) (t_bundles y) /\
  lines_delayed (INR 2 * (1/2)) x y /\ alike_before 0 x y /\ reaches LR x 5 (1/2) 3 a /\ reaches LR y 5 (1/2) (2 + 3) c /\ same_state a c.
Proof.
  destruct one_exists as (m & b & S). destruct (lone_exists m b switched_on 0 S) as (w1 & w2 & x & X). destruct (lone_exists m b later 0 S) as (v1 & v2 & y & Y).
  destruct (lone_reaches _ _ _ _ _ _ 3 X ltac:(lia)) as [a A]. destruct (lone_reaches _ _ _ _ _ _ 5 Y ltac:(lia)) as [c C].
  destruct (lone_off m b switched_on 0 _ _ _ S off_0 X) as [S0 O0].
  assert (Z1 : forall t, t < 1 -> later t = 0) by (intros t L; apply off_0; lra). destruct (lone_off m b later 1 _ _ _ S Z1 Y) as [S1 O1].
  pose proof (lo_net _ _ _ _ _ _ _ X) as Nx. pose proof (lo_net _ _ _ _ _ _ _ Y) as Ny.
  pose proof (new_time _ _ _ (lo_new _ _ _ _ _ _ _ X)) as Tx. pose proof (lone_single _ _ _ _ _ _ S Y) as Sg.
  assert (Dl : lines_delayed (INR 2 * (1/2)) x y).
  { apply (lone_alike m b switched_on later _ _ _ _ _ _ _ _ S) with (2 := X) (3 := Y). intros t _. unfold later. f_equal. cbn [INR]. lra. }
  exists m, b, w1, w2, x, v1, v2, y, a, c. do 3 (split; [assumption|]). split; [exact LR_ok|]. split; [exact LR_regular|]. do 2 (split; [assumption|]). split; [exact (rn_nets _ _ (lo_run _ _ _ _ _ _ _ X))|]. split; [apply half_step|].
  do 7 (split; [assumption|]). split; [|split; [assumption|]; split; [assumption|]].
  - apply (lone_alike m b switched_on later _ _ _ _ _ _ _ _ S) with (2 := X) (3 := Y). intros t L. rewrite Rplus_0_r. unfold later. rewrite !off_0 by lra. reflexivity.
  - refine (proj1 (lines_delay LR LR_ok x y 5 5 (1/2) 2 3 a c Nx Ny (or_introl LR_regular) _ S0 _ Sg _ A C)); rewrite ?half_step, ?Tx; auto. lra.
Qed.
Lemma causal_net_example : exists m b w1 w2 x v1 v2 y a c, one m b /\ lone m b switched_on 0 w1 w2 x /\ lone m b doubled 0 v1 v2 y /\
  lapack_ok LR /\ regular LR /\ lines_net LR x /\ lines_net LR y /\ t_dt (override_dt x (1/2)) = 1/2 /\ t_time x = 0 /\
  alike_before 1 x y /\ reaches LR x 5 (1/2) 2 a /\ reaches LR y 5 (1/2) 2 c.
Proof.
  destruct one_exists as (m & b & S). destruct (lone_exists m b switched_on 0 S) as (w1 & w2 & x & X). destruct (lone_exists m b doubled 0 S) as (v1 & v2 & y & Y).
  destruct (lone_reaches _ _ _ _ _ _ 2 X ltac:(lia)) as [a A]. destruct (lone_reaches _ _ _ _ _ _ 2 Y ltac:(lia)) as [c C].
  exists m, b, w1, w2, x, v1, v2, y, a, c. do 3 (split; [assumption|]). split; [exact LR_ok|]. split; [exact LR_regular|]. split; [exact (lo_net _ _ _ _ _ _ _ X)|]. split; [exact (lo_net _ _ _ _ _ _ _ Y)|]. split; [apply half_step|].
  split; [exact (new_time _ _ _ (lo_new _ _ _ _ _ _ _ X))|]. split; [|auto].
  apply (lone_alike m b switched_on doubled _ _ _ _ _ _ _ _ S) with (2 := X) (3 := Y). intros t L. rewrite Rplus_0_r. unfold doubled. rewrite (off_0 (t - 1)) by lra. lra.
Qed.
