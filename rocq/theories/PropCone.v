(** Property C14: disturbances travel at most one cell per step, in any arithmetic.
    [with_inputs m x]: line [m] started with the state, sources, fields and probes [x];
    [agree a b lo hi]: same voltages at nodes lo..hi, same currents and connector memory in the
    cells between them (SpecDyn.v). *)
From Coq Require Import String List Arith ZArith Bool Lia QArith.
From Verif Require Import Num Py Arr NumQ LapackQ Probes Line SpecLine SpecDyn ConeFacts ConeProps ExampleQ.
Import ListNotations.

(** the window shrinks by one node per step and side; a side that is an end of the line does
    not shrink when the sources there are the same *)
Theorem C14_window (N : num) (LA : lapack N) (m : mtl N) (x y : inputs N) T n a b lo hi lo' hi' :
  reachable LA m -> (hi <= cells m)%nat ->
  agree (with_inputs m x) (with_inputs m y) lo hi -> same_field (with_inputs m x) (with_inputs m y) lo hi ->
  (lo' = (lo + n)%nat \/ lo' = 0%nat /\ lo = 0%nat /\ same_source (with_inputs m x) (with_inputs m y) 0) ->
  ((hi' + n)%nat = hi \/ hi' = hi /\ hi = cells m /\ same_source (with_inputs m x) (with_inputs m y) (cells m)) ->
  run_state LA (with_inputs m x) T n a -> run_state LA (with_inputs m y) T n b ->
  agree a b lo' hi'.
Proof. exact (cone_run LA m x y T n a b lo hi lo' hi'). Qed.
Print Assumptions C14_window.

(** replacing one source by another cannot be seen within n steps at n or more cells from it *)
Theorem C14_source (N : num) (LA : lapack N) (m mf mg : mtl N) p c f g T n a b :
  reachable LA m -> add_voltage_source m p c f = Ok mf -> add_voltage_source m p c g = Ok mg ->
  run_state LA mf T n a -> run_state LA mg T n b ->
  let s := nearest (m_u m) (pos_vec p) in
  forall j k, (j < conductors m)%nat -> (k <= cells m)%nat ->
  ((s + n <= k)%nat \/ (k + n <= s)%nat -> volt a j k = volt b j k) /\
  ((k < cells m)%nat -> (s + n <= k)%nat \/ (k + n < s)%nat -> curr a j k = curr b j k).
Proof. exact (cone_source LA m mf mg p c f g T n a b). Qed.
Print Assumptions C14_source.

(** the bound is sharp: after two steps node 1 does see which source was used *)
Example C14_example : exists (m mf mg a b : mtl NumQ), reachable LQ m /\
  add_voltage_source m (@PosF NumQ 0%Q) 0 ustep = Ok mf /\ add_voltage_source m (@PosF NumQ 0%Q) 0 twice = Ok mg /\
  run_state LQ mf 3%Q 2 a /\ run_state LQ mg 3%Q 2 b /\ nearest (m_u m) (pos_vec (@PosF NumQ 0%Q)) = 0%nat /\
  conductors m = 2%nat /\ cells m = 4%nat /\ volt a 0 1 <> volt b 0 1.
Proof. exact cone_example. Qed.
Example C14_window_example : exists (m mf mg a b : mtl NumQ), reachable LQ m /\
  run_state LQ (with_inputs m (inputs_of mf)) 3%Q 2 a /\ run_state LQ (with_inputs m (inputs_of mg)) 3%Q 2 b /\
  agree (with_inputs m (inputs_of mf)) (with_inputs m (inputs_of mg)) 0 4 /\
  same_field (with_inputs m (inputs_of mf)) (with_inputs m (inputs_of mg)) 0 4 /\ cells m = 4%nat /\
  same_source (with_inputs m (inputs_of mf)) (with_inputs m (inputs_of mg)) 4 /\ volt a 0 1 <> volt b 0 1.
Proof. exact window_example. Qed.
