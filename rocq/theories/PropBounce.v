(** Properties C16 and C17: the lossless one-conductor line at its default time step is exactly
    the bounce diagram; matched at both ends it is a pure delay.  Real arithmetic. *)
From Coq Require Import String List Arith ZArith Bool Lia Reals Lra.
From Verif Require Import Num Py Arr NumR LapackR Probes Line SpecLine SpecDyn RunProps BounceFacts BounceProps.
Import ListNotations.
Local Open Scope R_scope.

(** ** C16.  [bounce] (SpecDyn.v) is the textbook recursion of the two travelling waves. *)
Theorem C16_bounce_diagram (LA : lapack NumR) : lapack_ok LA -> lapack_complete LA ->
  forall ju jdu (l c len zs zl : R) (N : nat) name (Vs Vl : R -> R) (m0 m1 m : mtl NumR) T n a f b,
  0 < l -> 0 < c -> len <> 0 -> (1 <= N)%nat -> 0 <= zs -> 0 <= zl -> (forall t, t < 0 -> Vs t = 0 /\ Vl t = 0) ->
  mtl_new LA ju jdu (@PFloat NumR l) (@PFloat NumR c) (@PFloat NumR 0) (@PFloat NumR 0) len [] [N]
      (@ZScal NumR zs) (@ZScal NumR zl) name = Ok m0 ->
  add_voltage_source m0 (@PosF NumR 0) 0 Vs = Ok m1 -> add_voltage_source m1 (@PosF NumR len) 0 Vl = Ok m ->
  let Z0 := sqrt (l / c) in let dt := Rabs len / INR N * sqrt (l * c) in
  bounce N Z0 zs zl dt Vs Vl f b -> run_state LA m T n a ->
  (forall k, (k <= N)%nat -> volt a 0 k = f (Z.of_nat n - Z.of_nat k)%Z + b (Z.of_nat n - (Z.of_nat N - Z.of_nat k))%Z) /\
  (forall k, (k < N)%nat -> Z0 * curr a 0 k = f (Z.of_nat n - Z.of_nat k)%Z - b (Z.of_nat n - (Z.of_nat N - Z.of_nat k) + 1)%Z).
Proof. exact (bounce_built LA). Qed.
Print Assumptions C16_bounce_diagram.

(** the same for any line a program can hold, as long as it is uniform, lossless, at rest at time
    zero, and has the default step with which it was constructed *)
Theorem C16_any_uniform_line (LA : lapack NumR) : lapack_ok LA ->
  forall (m0 m : mtl NumR) (N : nat) (l c h : R) T (f b : Z -> R),
  history LA m0 m -> conductors m = 1%nat -> cells m = N -> undispersed m ->
  0 < l -> 0 < c -> 0 < h -> 0 <= Zs_ m 0 0 -> 0 <= Zl_ m 0 0 ->
  (forall k, (k < N)%nat -> cell_len m k = h /\ L_ m k 0 0 = l /\ R_ m k 0 0 = 0) ->
  (forall k, (k <= N)%nat -> C_ m k 0 0 = c /\ G_ m k 0 0 = 0 /\ G_ m0 k 0 0 = 0) ->
  step_dt m = h * sqrt (l * c) -> step_dt m0 = step_dt m ->
  (forall k, (k <= N)%nat -> volt m 0 k = 0) -> (forall k, (k < N)%nat -> curr m 0 k = 0) -> m_time m = 0 ->
  (forall k t, eTran m 0 k t = 0) -> (forall k t, eLong m 0 k t = 0) ->
  (forall t, t < 0 -> source m 0 0 t = 0 /\ source m 0 N t = 0) ->
  bounce N (sqrt (l / c)) (Zs_ m 0 0) (Zl_ m 0 0) (step_dt m) (source m 0 0) (source m 0 N) f b ->
  forall n a, run_state LA m T n a ->
  (forall k, (k <= N)%nat -> volt a 0 k = f (Z.of_nat n - Z.of_nat k)%Z + b (Z.of_nat n - (Z.of_nat N - Z.of_nat k))%Z) /\
  (forall k, (k < N)%nat -> sqrt (l / c) * curr a 0 k = f (Z.of_nat n - Z.of_nat k)%Z - b (Z.of_nat n - (Z.of_nat N - Z.of_nat k) + 1)%Z).
Proof. exact (bounce_run LA). Qed.
Print Assumptions C16_any_uniform_line.

(** the diagram exists and is unique, so the voltages are determined *)
Theorem C16_diagram_exists (N : nat) (Z0 Zs Zl dt : R) (Vs Vl : R -> R) : (1 <= N)%nat -> exists f b, bounce N Z0 Zs Zl dt Vs Vl f b.
Proof. exact (bounce_exists N Z0 Zs Zl dt Vs Vl). Qed.
Print Assumptions C16_diagram_exists.
Theorem C16_diagram_unique (N : nat) (Z0 Zs Zl dt : R) (Vs Vl : R -> R) f b f' b' : (1 <= N)%nat ->
  bounce N Z0 Zs Zl dt Vs Vl f b -> bounce N Z0 Zs Zl dt Vs Vl f' b' -> forall m, f m = f' m /\ b m = b' m.
Proof. exact (bounce_unique N Z0 Zs Zl dt Vs Vl f b f' b'). Qed.
Print Assumptions C16_diagram_unique.

Example C16_example : exists (m0 m1 m : mtl NumR) f b, lapack_ok LR /\ lapack_complete LR /\
  mtl_new LR (fun _ => []) (fun _ => []) (@PFloat NumR 4) (@PFloat NumR 1) (@PFloat NumR 0) (@PFloat NumR 0) 1 [] [4%nat]
      (@ZScal NumR 3) (@ZScal NumR 0) "line" = Ok m0 /\
  add_voltage_source m0 (@PosF NumR 0) 0 unit_step = Ok m1 /\
  add_voltage_source m1 (@PosF NumR 1) 0 (fun t => if Rltb t 0 then 0 else sin t) = Ok m /\
  (forall t, t < 0 -> unit_step t = 0 /\ (if Rltb t 0 then 0 else sin t) = 0) /\
  bounce 4 (sqrt (4 / 1)) 3 0 (Rabs 1 / INR 4 * sqrt (4 * 1)) unit_step (fun t => if Rltb t 0 then 0 else sin t) f b /\ f 1%Z = 2 / 5 /\
  forall T, exists n a, run_state LR m T n a.
Proof. exact bounce_example. Qed.

(** ** C17 *)
Theorem C17_pure_delay (LA : lapack NumR) : lapack_ok LA -> lapack_complete LA ->
  forall ju jdu (l c len : R) (N : nat) name (Vs : R -> R) (m0 m : mtl NumR) T n a,
  0 < l -> 0 < c -> len <> 0 -> (1 <= N)%nat -> (forall t, t < 0 -> Vs t = 0) ->
  mtl_new LA ju jdu (@PFloat NumR l) (@PFloat NumR c) (@PFloat NumR 0) (@PFloat NumR 0) len [] [N]
      (@ZScal NumR (sqrt (l / c))) (@ZScal NumR (sqrt (l / c))) name = Ok m0 ->
  add_voltage_source m0 (@PosF NumR 0) 0 Vs = Ok m -> run_state LA m T n a ->
  let dt := Rabs len / INR N * sqrt (l * c) in
  forall k, (k <= N)%nat -> volt a 0 k = Vs ((INR n - 1 - INR k) * dt) / 2.
Proof. exact (matched_line LA). Qed.
Print Assumptions C17_pure_delay.
Example C17_example : exists (m0 m : mtl NumR), lapack_ok LR /\ lapack_complete LR /\
  mtl_new LR (fun _ => []) (fun _ => []) (@PFloat NumR 4) (@PFloat NumR 1) (@PFloat NumR 0) (@PFloat NumR 0) 1 [] [4%nat]
      (@ZScal NumR (sqrt (4 / 1))) (@ZScal NumR (sqrt (4 / 1))) "line" = Ok m0 /\
  add_voltage_source m0 (@PosF NumR 0) 0 unit_step = Ok m /\ (forall t, t < 0 -> unit_step t = 0) /\
  forall T, exists n a, run_state LR m T n a.
Proof. exact matched_example. Qed.
