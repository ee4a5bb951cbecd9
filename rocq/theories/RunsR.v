(** The step a second run without a step uses, over the reals. *)
From Coq Require Import String List Arith ZArith Bool Lia Reals Lra.
From Verif Require Import Num Py Arr ArrFacts NumR Utils Probes Dispersive Line Bundle Networks Mtln SpecLine SpecBundle SpecNet SpecMtln RunFields SpecRun MtlnFacts MtlnProps NetPlace CoreEq RFacts Runs.
Import ListNotations.
Local Open Scope R_scope.

Lemma r_zero : @zero_is_zero NumR.
Proof. apply Reqb_true. reflexivity. Qed.
Lemma least_all (l : list (bundle NumR)) dt : (forall b, In b l -> k_dt (b_core b) = dt) -> least l dt = dt.
Proof.
  induction l as [|b l IH]; intros H; cbn [least]; [reflexivity|]. rewrite (H b) by now left. destruct (@nltb NumR dt dt); apply IH; intros; apply H; now right.
Qed.
Lemma twice_same_step (LA : lapack NumR) (bs : list (bundle NumR)) ws T1 dt1 T2 : level_0_only ws -> Forall (reachable_bundle LA) bs -> bs <> [] -> dt1 <> 0 -> dt1 <= 10000000000 ->
  parser_run_twice LA bs ws T1 dt1 T2 0 = (x <- parser_run LA bs ws T1 dt1 ;; mtln_run_until LA (rewound x) T2 0).
Proof.
  intros L0 RB Ne D0 D1. pose proof r_zero as Z. unfold parser_run_twice. destruct (parser_run LA bs ws T1 dt1) as [x|e] eqn:H; cbn [bind]; [|reflexivity].
  rewrite (run_is_run_until LA _ _ _ _ Z), (second_new LA _ _ _ _ _ Z L0 RB H). cbn [bind]. destruct (first_run LA _ _ _ _ _ Z H) as (_ & _ & K & x0 & H0 & _ & D).
  assert (E1 : @neqb NumR dt1 (@n0 NumR) = false) by (apply Reqb_false; exact D0). unfold override_dt in D. rewrite E1 in D, K. cbn [negb t_dt] in D, K.
  replace (least (left_bundles x) n1e10) with (t_dt x); [reflexivity|]. rewrite D. symmetry.
  assert (A : forall b, In b (left_bundles x) -> k_dt (b_core b) = dt1) by (intros b Hb; destruct (F2_In_r _ _ _ _ K Hb) as (b0 & _ & _ & _ & _ & Q); exact Q).
  destruct (left_bundles x) as [|b l] eqn:El; [inversion K; subst; congruence|]. cbn [least]. rewrite (A b) by now left.
  assert (A' : forall c, In c l -> k_dt (b_core c) = dt1) by (intros; apply A; now right). destruct (@nltb NumR dt1 (@n1e10 NumR)) eqn:E.
  - now apply least_all.
  - apply Rltb_false in E. assert (dt1 = @n1e10 NumR) as -> by (change (@n1e10 NumR) with (IZR 10000000000) in *; lra). apply least_all. intros c Hc. rewrite (A' c Hc). reflexivity.
Qed.
