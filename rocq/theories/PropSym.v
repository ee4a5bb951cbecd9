(** C20, C21, C22: symmetries of the line equations.  [mirrored], [uncoupled], [is_conductor] and
    [relabelled] are in SpecSym.v.  The lines may have any per-cell matrices, fields and sources;
    they carry no dispersive connector. *)
From Coq Require Import String List Arith ZArith Bool Lia Reals Lra.
From Verif Require Import Num Py Arr NumR LapackR Line SpecLine SpecR SpecSym SymProps SymExample.
Import ListNotations.
Local Open Scope R_scope.

(** ** C20 *)
Theorem C20_mirror (LA : lapack NumR) : lapack_ok LA ->
  forall (m0 m m0' m' : mtl NumR) T T', history LA m0 m -> undispersed m -> history LA m0' m' -> undispersed m' -> mirrored m0 m m0' m' ->
  (forall c k, (c < conductors m)%nat -> (k <= cells m)%nat -> volt m' c k = volt m c (cells m - k)) ->
  (forall c k, (c < conductors m)%nat -> (k < cells m)%nat -> curr m' c k = - curr m c (cells m - 1 - k)) ->
  forall n a a', run_state LA m T n a -> run_state LA m' T' n a' ->
  (forall c k, (c < conductors m)%nat -> (k <= cells m)%nat -> volt a' c k = volt a c (cells m - k)) /\
  (forall c k, (c < conductors m)%nat -> (k < cells m)%nat -> curr a' c k = - curr a c (cells m - 1 - k)).
Proof. exact (mirror_runs LA). Qed.
Print Assumptions C20_mirror.
Example C20_example : exists m0 m m0' m' : mtl NumR,
  lapack_ok LR /\ history LR m0 m /\ undispersed m /\ history LR m0' m' /\ undispersed m' /\ mirrored m0 m m0' m' /\
  (forall c k, (c < conductors m)%nat -> (k <= cells m)%nat -> volt m' c k = volt m c (cells m - k)) /\
  (forall c k, (c < conductors m)%nat -> (k < cells m)%nat -> curr m' c k = - curr m c (cells m - 1 - k)) /\
  Zs_ m 0 0 <> Zl_ m 0 0 /\ source m 0 0 1 = 1 /\
  (forall T, exists n a, run_state LR m T n a) /\ (forall T, exists n a, run_state LR m' T n a).
Proof. exact mirror_example. Qed.

(** ** C21 *)
Theorem C21_uncoupled (LA : lapack NumR) : lapack_ok LA ->
  forall c (m0 m m0' m' : mtl NumR) T T', history LA m0 m -> undispersed m -> history LA m0' m' -> undispersed m' ->
  (c < conductors m)%nat -> uncoupled m0 m -> is_conductor c m0 m m0' m' ->
  (forall k, (k <= cells m)%nat -> volt m' 0 k = volt m c k) -> (forall k, (k < cells m)%nat -> curr m' 0 k = curr m c k) ->
  forall n a a', run_state LA m T n a -> run_state LA m' T' n a' ->
  (forall k, (k <= cells m)%nat -> volt a' 0 k = volt a c k) /\ (forall k, (k < cells m)%nat -> curr a' 0 k = curr a c k).
Proof. exact (conductor_runs LA). Qed.
Print Assumptions C21_uncoupled.
Example C21_example : exists m0 m m0' m' : mtl NumR,
  lapack_ok LR /\ history LR m0 m /\ undispersed m /\ history LR m0' m' /\ undispersed m' /\
  conductors m = 2%nat /\ uncoupled m0 m /\ is_conductor 0 m0 m m0' m' /\
  (forall k, (k <= cells m)%nat -> volt m' 0 k = volt m 0 k) /\ (forall k, (k < cells m)%nat -> curr m' 0 k = curr m 0 k) /\
  L_ m 0 0 0 = 4 /\ L_ m 0 1 1 = 1 /\ source m 0 0 1 = 1 /\
  (forall T, exists n a, run_state LR m T n a) /\ (forall T, exists n a, run_state LR m' T n a).
Proof. exact conductor_example. Qed.

(** ** C22 *)
Theorem C22_relabel (LA : lapack NumR) : lapack_ok LA ->
  forall s (m0 m m0' m' : mtl NumR) T T', history LA m0 m -> undispersed m -> history LA m0' m' -> undispersed m' ->
  permutes (conductors m) s -> relabelled s m0 m m0' m' ->
  (forall c k, (c < conductors m)%nat -> (k <= cells m)%nat -> volt m' c k = volt m (s c) k) ->
  (forall c k, (c < conductors m)%nat -> (k < cells m)%nat -> curr m' c k = curr m (s c) k) ->
  forall n a a', run_state LA m T n a -> run_state LA m' T' n a' ->
  (forall c k, (c < conductors m)%nat -> (k <= cells m)%nat -> volt a' c k = volt a (s c) k) /\
  (forall c k, (c < conductors m)%nat -> (k < cells m)%nat -> curr a' c k = curr a (s c) k).
Proof. exact (relabel_runs LA). Qed.
Print Assumptions C22_relabel.
Example C22_example : exists m0 m m0' m' : mtl NumR,
  lapack_ok LR /\ history LR m0 m /\ undispersed m /\ history LR m0' m' /\ undispersed m' /\
  conductors m = 2%nat /\ permutes (conductors m) swap2 /\ relabelled swap2 m0 m m0' m' /\
  (forall c k, (c < conductors m)%nat -> (k <= cells m)%nat -> volt m' c k = volt m (swap2 c) k) /\
  (forall c k, (c < conductors m)%nat -> (k < cells m)%nat -> curr m' c k = curr m (swap2 c) k) /\
  L_ m 0 0 1 = 1 /\ R_ m 0 0 0 <> R_ m 0 1 1 /\ source m 0 0 1 = 1 /\
  (forall T, exists n a, run_state LR m T n a) /\ (forall T, exists n a, run_state LR m' T n a).
Proof. exact relabel_example. Qed.
