(** The values of the lines of a document, in real arithmetic.  No proofs here. *)
From Coq Require Import String List Arith ZArith Bool Reals.
From Verif Require Import Num Py Arr NumR Utils Probes Dispersive Line Bundle Networks SpecLine SpecGeom SpecR Parser SpecParser SpecDoc.
Import ListNotations.
Local Open Scope R_scope.

(** the line has the matrices of the wire in every cell and node: its resistances on the diagonal, no conductance *)
Definition carries (w : wire NumR) (m : mtl NumR) : Prop :=
  (exists x y z, wi_L w = WFloat x /\ wi_C w = WFloat y /\ wi_R w = WFloat z /\ conductors m = 1%nat /\
     forall k, ((k < cells m)%nat -> L_ m k 0 0 = x /\ R_ m k 0 0 = z) /\ ((k <= cells m)%nat -> C_ m k 0 0 = y /\ G_ m k 0 0 = 0)) \/
  (exists L C, wi_L w = WMat L /\ wi_C w = WMat C /\ length L = conductors m /\ length C = conductors m /\
     forall k i j, (i < conductors m)%nat -> (j < conductors m)%nat ->
       ((k < cells m)%nat -> L_ m k i j = get2 L i j /\ (i <> j -> R_ m k i j = 0) /\ (i = j -> conductor_resistance (wi_R w) (conductors m) i (R_ m k i j))) /\
       ((k <= cells m)%nat -> C_ m k i j = get2 C i j /\ G_ m k i j = 0)).
(** cable end e of the cable is in cell k of the line and brings resistance R *)
Definition end_in (D : doc NumR) (cb : cable) (m : mtl NumR) (e : cend) (k : nat) (R : R) : Prop :=
  exists c x far p conn q, end_on D e c x far /\ In x (cb_elems cb) /\ point D c p /\ end_material D e conn /\ cn_R (cm_conn conn) = Some R /\
    closest (m_u m) p q /\ k = cell_at m q.
(** the line m' is the line m but for the resistances of its first conductor in the cells with cable ends: there each entry
    of the first row is the resistance of the last such end divided by the length of the cell *)
Definition resisted (D : doc NumR) (cb : cable) (es : list cend) (m m' : mtl NumR) : Prop :=
  rest_of m m' /\ (forall k i j, G_ m' k i j = G_ m k i j) /\
  (forall k i j, (j < conductors m)%nat -> i <> 0%nat -> R_ m' k i j = R_ m k i j) /\
  forall k, (exists es1 e es2 R, es = es1 ++ e :: es2 /\ end_in D cb m e k R /\ (forall e' R', In e' es2 -> ~ end_in D cb m e' k R') /\
        forall j, (j < conductors m)%nat -> R_ m' k 0 j = R / norm3 (nth k (m_du m) [])) \/
     ((forall e R, In e es -> ~ end_in D cb m e k R) /\ forall j, (j < conductors m)%nat -> R_ m' k 0 j = R_ m k 0 j).
