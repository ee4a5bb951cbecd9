(** Vocabulary of time invariance: the same line driven later.  No proofs here. *)
From Coq Require Import List Arith Reals.
From Verif Require Import Num Arr NumR Line SpecLine SpecDyn.
Import ListNotations.
Local Open Scope R_scope.

(** [m'] is [m] with other generators and another external field *)
Definition other_drive (m m' : mtl NumR) : Prop :=
  exists vs eL eT, m' = m_set_core (m_set_vsrc m vs) (set_fields (m_core m) eL eT).

(** everything that drives [m'] is what drives [m], [tau] later *)
Record delayed (tau : R) (m m' : mtl NumR) : Prop := {
  de_other : other_drive m m';
  de_near : forall c t, (c < conductors m)%nat -> source m' c 0 t = source m c 0 (t - tau);
  de_far : forall c t, (c < conductors m)%nat -> source m' c (cells m) t = source m c (cells m) (t - tau);
  de_T : forall c k t, (c < conductors m)%nat -> (k <= cells m)%nat -> eTran m' c k t = eTran m c k (t - tau);
  de_L : forall c k t, (c < conductors m)%nat -> (k < cells m)%nat -> eLong m' c k t = eLong m c k (t - tau)
}.

(** nothing acts on the line before [t0] *)
Record off_before (t0 : R) (m : mtl NumR) : Prop := {
  ob_near : forall c t, (c < conductors m)%nat -> t < t0 -> source m c 0 t = 0;
  ob_far : forall c t, (c < conductors m)%nat -> t < t0 -> source m c (cells m) t = 0;
  ob_T : forall c k t, (c < conductors m)%nat -> (k <= cells m)%nat -> t < t0 -> eTran m c k t = 0;
  ob_L : forall c k t, (c < conductors m)%nat -> (k < cells m)%nat -> t < t0 -> eLong m c k t = 0
}.
