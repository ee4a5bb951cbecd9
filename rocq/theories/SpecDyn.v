(** Vocabulary of the theorems that compare runs of the same line.  No proofs here. *)
From Coq Require Import String List Arith ZArith Bool Reals.
From Verif Require Import Num Py Arr NumR Probes Dispersive Line SpecLine.
Import ListNotations.

Section Inputs.
Context {N : num}.

(** everything about a run that is not the line itself: the starting voltages, currents and
    connector memory, the terminal sources, the external field and the probes *)
Record inputs := Inputs {
  in_v : mat N; in_i : mat N; in_phi : list (list (qe N));
  in_src : list (list (N -> N)); in_eL : list (list (N -> N)); in_eT : list (list (N -> N));
  in_probes : list (probe N)
}.
Definition with_phi (d : disp N) (phi : list (list (qe N))) : disp N :=
  {| ds_n := ds_n d; ds_nx := ds_nx d; ds_u := ds_u d; ds_dt := ds_dt d; ds_phi := phi;
     ds_q1 := ds_q1 d; ds_q2 := ds_q2 d; ds_q3 := ds_q3 d; ds_q3phi := ds_q3phi d; ds_d := ds_d d; ds_e := ds_e d;
     ds_q1sum := ds_q1sum d; ds_q2sum := ds_q2sum d |}.
(** the same line, started with other inputs *)
Definition with_inputs (m : mtl N) (x : inputs) : mtl N :=
  m_set (m_set_vsrc m (in_src x))
    (set_i_disp (set_v (set_fields (m_core m) (in_eL x) (in_eT x)) (in_v x)) (in_i x) (with_phi (k_disp (m_core m)) (in_phi x)))
    (m_time m) (in_probes x).
(** the inputs a line holds now *)
Definition inputs_of (m : mtl N) : inputs :=
  {| in_v := k_v (m_core m); in_i := k_i (m_core m); in_phi := ds_phi (k_disp (m_core m)); in_src := m_vsrc m;
     in_eL := k_eL (m_core m); in_eT := k_eT (m_core m); in_probes := m_probes m |}.

(** memory of the dispersive connectors of cell [k], conductor [c]: one complex number per pole *)
Definition memory (m : mtl N) (k c : nat) : qe N := qget2 (ds_phi (k_disp (m_core m))) k c.

(** two lines agree on nodes [lo..hi] and on the cells between them *)
Definition agree (a b : mtl N) (lo hi : nat) : Prop :=
  (forall c k, (c < conductors a)%nat -> (lo <= k <= hi)%nat -> volt a c k = volt b c k) /\
  (forall c k, (c < conductors a)%nat -> (lo <= k < hi)%nat -> curr a c k = curr b c k) /\
  (forall c k, (c < conductors a)%nat -> (lo <= k < hi)%nat -> memory a k c = memory b k c).
(** the external fields are the same there, at all times *)
Definition same_field (a b : mtl N) (lo hi : nat) : Prop :=
  (forall c k t, (c < conductors a)%nat -> (lo <= k <= hi)%nat -> eTran a c k t = eTran b c k t) /\
  (forall c k t, (c < conductors a)%nat -> (lo <= k < hi)%nat -> eLong a c k t = eLong b c k t).
(** the sources at node [k] are the same, at all times *)
Definition same_source (a b : mtl N) (k : nat) : Prop :=
  forall c t, (c < conductors a)%nat -> source a c k t = source b c k t.
End Inputs.
Arguments inputs N : clear implicits.

(** ** Superposition: [z = al x + be y] for numbers, pole-wise lists, states and inputs *)
Section Super.
Local Open Scope R_scope.
Variables al be : R.
Definition lin (x y z : R) : Prop := z = al * x + be * y.
Definition qlin (p q r : qe NumR) : Prop :=
  length p = length r /\ length q = length r /\
  forall k, lin (fst (nth k p c0)) (fst (nth k q c0)) (fst (nth k r c0)) /\ lin (snd (nth k p c0)) (snd (nth k q c0)) (snd (nth k r c0)).
Definition lin_state (a b c : mtl NumR) : Prop :=
  (forall j k, (j < conductors a)%nat -> (k <= cells a)%nat -> lin (volt a j k) (volt b j k) (volt c j k)) /\
  (forall j k, (j < conductors a)%nat -> (k < cells a)%nat -> lin (curr a j k) (curr b j k) (curr c j k)) /\
  (forall j k, (j < conductors a)%nat -> (k < cells a)%nat -> qlin (memory a k j) (memory b k j) (memory c k j)).
(** sources at the two end nodes (the only ones a line uses, C24) and fields *)
Definition lin_drive (a b c : mtl NumR) : Prop :=
  (forall j t, (j < conductors a)%nat -> lin (source a j 0 t) (source b j 0 t) (source c j 0 t)) /\
  (forall j t, (j < conductors a)%nat -> lin (source a j (cells a) t) (source b j (cells a) t) (source c j (cells a) t)) /\
  (forall j k t, (j < conductors a)%nat -> (k <= cells a)%nat -> lin (eTran a j k t) (eTran b j k t) (eTran c j k t)) /\
  (forall j k t, (j < conductors a)%nat -> (k < cells a)%nat -> lin (eLong a j k t) (eLong b j k t) (eLong c j k t)).
End Super.
(** all voltages, currents and connector memories are zero; no source at the ends, no field *)
Definition silent (m : mtl NumR) : Prop :=
  (forall j k, (j < conductors m)%nat -> (k <= cells m)%nat -> volt m j k = 0%R) /\
  (forall j k, (j < conductors m)%nat -> (k < cells m)%nat -> curr m j k = 0%R) /\
  (forall j k, (j < conductors m)%nat -> (k < cells m)%nat -> forall p, In p (memory m k j) -> p = (0%R, 0%R)).
Definition undriven (m : mtl NumR) : Prop :=
  (forall j t, (j < conductors m)%nat -> source m j 0 t = 0%R /\ source m j (cells m) t = 0%R) /\
  (forall j k t, (j < conductors m)%nat -> (k <= cells m)%nat -> eTran m j k t = 0%R) /\
  (forall j k t, (j < conductors m)%nat -> (k < cells m)%nat -> eLong m j k t = 0%R).

(** The bounce diagram of a line of [N] cells: [f m] is the wave that leaves the left end at
    step [m], [b m] the one that leaves the right end.  A source behind an impedance [Z] launches
    its share of the voltage divider and reflects what arrives with (Z - Z0)/(Z + Z0). *)
Definition bounce (N : nat) (Z0 Zs Zl dt : R) (Vs Vl : R -> R) (f b : Z -> R) : Prop :=
  (forall m, (m <= 0)%Z -> f m = 0%R /\ b m = 0%R) /\
  (forall m, (1 <= m)%Z ->
     f m = (Z0 / (Z0 + Zs) * Vs (IZR (m - 1) * dt) + (Zs - Z0) / (Zs + Z0) * b (m - Z.of_nat N)%Z)%R /\
     b m = (Z0 / (Z0 + Zl) * Vl (IZR (m - 1) * dt) + (Zl - Z0) / (Zl + Z0) * f (m - Z.of_nat N)%Z)%R).
