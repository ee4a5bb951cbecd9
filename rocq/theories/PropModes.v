(** Property C115: linear changes of the conductors of a line.  [transformed], [twins], [is_mode], [driven_alike] and
    [rescaled] are in SpecModes.v.  Any per-cell matrices, fields and generators; no dispersive connector.  Real
    arithmetic, any correct LAPACK. *)
From Coq Require Import String List Arith ZArith Bool Lia Reals Lra.
From Verif Require Import Num Py Arr NumR LapackR Line SpecLine SpecR SymExample SpecModes ModesProps ModesMore ExampleModes.
Import ListNotations.
Local Open Scope R_scope.

(** If the parameters of [m'] are those of [m] for the voltages TV V and the currents TI I (TV and TI any rectangular
    matrices), and [m'] starts at and is driven by the combinations of [m], then every run of [m'] gives, step by step,
    the combinations of the run of [m]. *)
Theorem C115_transform (LA : lapack NumR) : lapack_ok LA -> forall TV TI (m0 m m0' m' : mtl NumR) T T',
  history LA m0 m -> undispersed m -> history LA m0' m' -> undispersed m' ->
  transformed TV TI m0 m m0' m' -> combined TV TI m m' ->
  forall k a a', run_state LA m T k a -> run_state LA m' T' k a' -> combined TV TI a a'.
Proof. exact (transform_runs LA). Qed.
Print Assumptions C115_transform.

(** Two equal coupled conductors: their sum (s = 1) and their difference (s = -1) are two lines of one conductor, with
    the self parameters plus or minus the mutual ones. *)
Theorem C115_modes (LA : lapack NumR) : lapack_ok LA -> forall s (m0 m m0' m' : mtl NumR) T T', s * s = 1 ->
  history LA m0 m -> undispersed m -> history LA m0' m' -> undispersed m' -> twins m0 m -> is_mode s m0 m m0' m' ->
  (forall k, (k <= cells m)%nat -> volt m' 0 k = volt m 0 k + s * volt m 1 k) -> (forall k, (k < cells m)%nat -> curr m' 0 k = curr m 0 k + s * curr m 1 k) ->
  forall j a a', run_state LA m T j a -> run_state LA m' T' j a' ->
  (forall k, (k <= cells m)%nat -> volt a' 0 k = volt a 0 k + s * volt a 1 k) /\ (forall k, (k < cells m)%nat -> curr a' 0 k = curr a 0 k + s * curr a 1 k).
Proof. exact (mode_runs LA). Qed.
Print Assumptions C115_modes.

(** Driven differentially (s = -1) such a pair stays balanced; driven alike (s = 1) its conductors stay equal. *)
Theorem C115_balanced (LA : lapack NumR) : lapack_ok LA -> forall s (m0 m : mtl NumR) T, s * s = 1 ->
  history LA m0 m -> undispersed m -> twins m0 m -> driven_alike s m -> forall j a, run_state LA m T j a ->
  (forall k, (k <= cells m)%nat -> volt a 1 k = s * volt a 0 k) /\ (forall k, (k < cells m)%nat -> curr a 1 k = s * curr a 0 k).
Proof. exact (alike_runs LA). Qed.
Print Assumptions C115_balanced.

(** All impedances multiplied by [r]: the same voltages, the currents divided by [r]. *)
Theorem C115_impedance_level (LA : lapack NumR) : lapack_ok LA -> forall r (m0 m m0' m' : mtl NumR) T T', r <> 0 ->
  history LA m0 m -> undispersed m -> history LA m0' m' -> undispersed m' -> rescaled r m0 m m0' m' ->
  (forall c k, (c < conductors m)%nat -> (k <= cells m)%nat -> volt m' c k = volt m c k) -> (forall c k, (c < conductors m)%nat -> (k < cells m)%nat -> curr m' c k = curr m c k / r) ->
  forall j a a', run_state LA m T j a -> run_state LA m' T' j a' ->
  (forall c k, (c < conductors m)%nat -> (k <= cells m)%nat -> volt a' c k = volt a c k) /\ (forall c k, (c < conductors m)%nat -> (k < cells m)%nat -> curr a' c k = curr a c k / r).
Proof. exact (rescale_runs LA). Qed.
Print Assumptions C115_impedance_level.

(** One conductor, as the user writes it; both lines get the same default time step. *)
Theorem C115_impedance_level_single (LA : lapack NumR) : lapack_ok LA -> lapack_complete LA ->
  forall ju jdu (l c r g len zs zl x : R) (N : nat) name name' (Vs Vl : R -> R) (m0 m1 m m0' m1' m' : mtl NumR) T T',
  0 < l -> 0 < c -> 0 <= r -> 0 <= g -> len <> 0 -> (1 <= N)%nat -> 0 <= zs -> 0 <= zl -> 0 < x ->
  mtl_new LA ju jdu (@PFloat NumR l) (@PFloat NumR c) (@PFloat NumR r) (@PFloat NumR g) len [] [N] (@ZScal NumR zs) (@ZScal NumR zl) name = Ok m0 ->
  add_voltage_source m0 (@PosF NumR 0) 0 Vs = Ok m1 -> add_voltage_source m1 (@PosF NumR len) 0 Vl = Ok m ->
  mtl_new LA ju jdu (@PFloat NumR (x * l)) (@PFloat NumR (c / x)) (@PFloat NumR (x * r)) (@PFloat NumR (g / x)) len [] [N] (@ZScal NumR (x * zs)) (@ZScal NumR (x * zl)) name' = Ok m0' ->
  add_voltage_source m0' (@PosF NumR 0) 0 Vs = Ok m1' -> add_voltage_source m1' (@PosF NumR len) 0 Vl = Ok m' ->
  forall j a a', run_state LA m T j a -> run_state LA m' T' j a' ->
  (forall k, (k <= N)%nat -> volt a' 0 k = volt a 0 k) /\ (forall k, (k < N)%nat -> curr a' 0 k = curr a 0 k / x).
Proof. exact (rescale_one LA). Qed.
Print Assumptions C115_impedance_level_single.

(** The pair L = [[2,1],[1,2]], C = [[2,-1],[-1,2]] with a pulse on one conductor: its sum is a line of l = 3, c = 1, its
    difference a line of l = 1, c = 3, all with the same default time step. *)
Example C115_modes_example : forall s l c g : R, s * s = 1 -> l = 2 + s -> c = 2 - s -> g = 1 - s -> exists m0 m m0' m' : mtl NumR,
  pair_new = Ok m0 /\ add_voltage_source m0 (@PosF NumR 0) 0 pulse = Ok m /\ mode_new l c g = Ok m0' /\ add_voltage_source m0' (@PosF NumR (INR 0 * (3 / INR 3))) 0 pulse = Ok m' /\
  history LR m0 m /\ undispersed m /\ history LR m0' m' /\ undispersed m' /\ twins m0 m /\ is_mode s m0 m m0' m' /\
  (forall k, (k <= cells m)%nat -> volt m' 0 k = volt m 0 k + s * volt m 1 k) /\ (forall k, (k < cells m)%nat -> curr m' 0 k = curr m 0 k + s * curr m 1 k) /\
  L_ m 0 0 1 = 1 /\ source m 0 0 1 = 1 /\ (forall T, exists j a, run_state LR m T j a) /\ (forall T, exists j a, run_state LR m' T j a).
Proof. exact mode_example. Qed.
Example C115_transform_example : exists m0 m m0' m' : mtl NumR, history LR m0 m /\ undispersed m /\ history LR m0' m' /\ undispersed m' /\
  transformed (mode_row (-1)) (mode_row (-1)) m0 m m0' m'.
Proof.
  destruct (mode_example (-1) 1 3 2) as (m0 & m & m0' & m' & _ & _ & _ & _ & A & B & C & D & E & F & _); try ring.
  exists m0, m, m0', m'. repeat (split; [assumption|]). apply mode_transformed; auto. ring.
Qed.
Example C115_balanced_example : exists m0 m1 m : mtl NumR,
  pair_new = Ok m0 /\ add_voltage_source m0 (@PosF NumR 0) 0 pulse = Ok m1 /\ add_voltage_source m1 (@PosF NumR 0) 1 (fun t => - pulse t) = Ok m /\
  history LR m0 m /\ undispersed m /\ twins m0 m /\ driven_alike (-1) m /\ source m 0 0 1 = 1 /\ (forall T, exists j a, run_state LR m T j a).
Proof. exact alike_example. Qed.
Example C115_level_example : exists m0 m1 m m0' m1' m' : mtl NumR,
  mtl_new LR (fun _ => []) (fun _ => []) (@PFloat NumR 4) (@PFloat NumR 1) (@PFloat NumR 5) (@PFloat NumR 2) 1 [] [4%nat] (@ZScal NumR 50) (@ZScal NumR 45) "a"%string = Ok m0 /\
  add_voltage_source m0 (@PosF NumR 0) 0 pulse = Ok m1 /\ add_voltage_source m1 (@PosF NumR 1) 0 (fun _ => 0) = Ok m /\
  mtl_new LR (fun _ => []) (fun _ => []) (@PFloat NumR (2 * 4)) (@PFloat NumR (1 / 2)) (@PFloat NumR (2 * 5)) (@PFloat NumR (2 / 2)) 1 [] [4%nat] (@ZScal NumR (2 * 50)) (@ZScal NumR (2 * 45)) "b"%string = Ok m0' /\
  add_voltage_source m0' (@PosF NumR 0) 0 pulse = Ok m1' /\ add_voltage_source m1' (@PosF NumR 1) 0 (fun _ => 0) = Ok m' /\
  (forall T, exists j a, run_state LR m T j a) /\ (forall T, exists j a, run_state LR m' T j a).
Proof. exact rescale_example. Qed.
