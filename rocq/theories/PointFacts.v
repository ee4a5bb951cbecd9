(** A conductance at a point of a line (C34). *)
From Coq Require Import List Arith ZArith Bool Lia Reals Lra.
From Verif Require Import Num Py Arr ArrFacts NumR RFacts Utils Line LineFacts SpecLine SpecR HistoryFacts GeomProps4 GeomProps5.
Import ListNotations.
Local Open Scope R_scope.

Lemma point_ge (p : posarg NumR) : assert_ge p p = Ok tt \/ assert_ge p p = Err ValueError /\ exists v, p = PosA v.
Proof.
  destruct p as [z|v|v]; cbn [assert_ge].
  - left. change (passert (Rleb z z) = Ok tt). destruct (Rleb_spec z z); [reflexivity|lra].
  - left. rewrite list_ge_refl. reflexivity.
  - right. eauto.
Qed.
Lemma conductance_others LA (m : mtl NumR) (p : posarg NumR) c (x : R) : (1 <= c)%nat ->
  exists e, add_conductance_at_point LA m p c x = Err e /\ (e = IndexError \/ exists v, p = PosA v).
Proof.
  intros Hc. unfold add_conductance_at_point, add_conductance_in_region.
  destruct (point_ge p) as [->|[-> Hv]]; cbn [bind]; [|exists ValueError; auto]. exists IndexError. split; [|auto].
  rewrite Nat.eqb_refl. cbn [negb]. unfold py_get. destruct (nth_error (m_du m) _) as [d|]; cbn [bind]; [|reflexivity].
  unfold region_assign. assert (Z : (c <? Nat.min (S (flat_argmin (m_u m) (pos_vec p))) (length (k_g (m_core m))) - flat_argmin (m_u m) (pos_vec p))%nat = false) by (apply Nat.ltb_ge; lia).
  rewrite Z. reflexivity.
Qed.
