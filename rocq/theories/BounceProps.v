(** The bounce diagram for lines as the constructor builds them, and the matched line. *)
From Coq Require Import String List Arith ZArith Bool Lia Reals Lra.
From Verif Require Import Num Py Arr ArrFacts NumR RFacts LapackR Probes Dispersive Line LineFacts SpecLine SpecR SpecDyn HistoryFacts
  NearestFacts TotalFacts RunEqFacts StepProps ExampleLine RunProps SuperProps BounceFacts.
Import ListNotations.
Local Open Scope R_scope.

(** the diagram determines the waves *)
Section Waves.
Variables (N : nat) (Z0 Zs Zl dt : R) (Vs Vl : R -> R).
Fixpoint wave (fuel : nat) (left : bool) (m : Z) : R :=
  match fuel with
  | O => 0
  | S q => if (m <=? 0)%Z then 0
           else if left then Z0 / (Z0 + Zs) * Vs (IZR (m - 1) * dt) + (Zs - Z0) / (Zs + Z0) * wave q false (m - Z.of_nat N)
           else Z0 / (Z0 + Zl) * Vl (IZR (m - 1) * dt) + (Zl - Z0) / (Zl + Z0) * wave q true (m - Z.of_nat N)
  end.
Lemma wave_low q s m : (m <= 0)%Z -> wave q s m = 0.
Proof. intros H. destruct q; cbn [wave]; auto. apply Z.leb_le in H. now rewrite H. Qed.
Lemma wave_fuel : (1 <= N)%nat -> forall q q' s m, (Z.to_nat m <= q)%nat -> (Z.to_nat m <= q')%nat -> wave q s m = wave q' s m.
Proof.
  intros HN. induction q as [|q IH]; intros q' s m H H'.
  - rewrite !wave_low by lia. reflexivity.
  - destruct (Z.leb_spec m 0) as [L|L]; [now rewrite !wave_low by lia|]. destruct q' as [|q']; [lia|].
    cbn [wave]. destruct (m <=? 0)%Z; auto.
    rewrite (IH q' false (m - Z.of_nat N)%Z), (IH q' true (m - Z.of_nat N)%Z) by lia. reflexivity.
Qed.
Lemma bounce_exists : (1 <= N)%nat -> exists f b, bounce N Z0 Zs Zl dt Vs Vl f b.
Proof.
  intros HN. exists (fun m => wave (Z.to_nat m) true m), (fun m => wave (Z.to_nat m) false m). split.
  - intros m Hm. split; now apply wave_low.
  - intros m Hm. rewrite (wave_fuel HN (Z.to_nat (m - Z.of_nat N)) (Z.to_nat m - 1)%nat false), (wave_fuel HN (Z.to_nat (m - Z.of_nat N)) (Z.to_nat m - 1)%nat true) by lia.
    destruct (Z.to_nat m) as [|q] eqn:E; [lia|]. cbn [wave]. replace (S q - 1)%nat with q by lia.
    destruct (Z.leb_spec m 0); [lia|]. auto.
Qed.
Lemma bounce_unique f b f' b' : (1 <= N)%nat -> bounce N Z0 Zs Zl dt Vs Vl f b -> bounce N Z0 Zs Zl dt Vs Vl f' b' -> forall m, f m = f' m /\ b m = b' m.
Proof.
  intros HN (A0 & A1) (B0 & B1).
  assert (H : forall n m, (Z.to_nat m <= n)%nat -> f m = f' m /\ b m = b' m).
  { induction n as [|n IH]; intros m Hm.
    - destruct (A0 m ltac:(lia)) as [-> ->]. destruct (B0 m ltac:(lia)) as [-> ->]. auto.
    - destruct (Z.leb_spec m 0) as [L|L]; [destruct (A0 m L) as [-> ->]; destruct (B0 m L) as [-> ->]; auto|].
      destruct (A1 m ltac:(lia)) as [-> ->]. destruct (B1 m ltac:(lia)) as [-> ->].
      destruct (IH (m - Z.of_nat N)%Z ltac:(lia)) as [-> ->]. auto. }
  intros m. apply (H (Z.to_nat m)). auto.
Qed.
End Waves.

Section Built.
Variable LA : lapack NumR.
Hypothesis LAok : lapack_ok LA.
Hypothesis LAC : lapack_complete LA.

(** a line along z, driven at both ends *)
Lemma two_ends ju jdu (l c r g len zs zl : R) (N : nat) name (Vs Vl : R -> R) :
  0 < l -> 0 < c -> 0 <= r -> 0 <= g -> len <> 0 -> (1 <= N)%nat -> 0 <= zs -> 0 <= zl ->
  exists m0 m1 m : mtl NumR,
    mtl_new LA ju jdu (@PFloat NumR l) (@PFloat NumR c) (@PFloat NumR r) (@PFloat NumR g) len [] [N]
      (@ZScal NumR zs) (@ZScal NumR zl) name = Ok m0 /\
    add_voltage_source m0 (@PosF NumR 0) 0 Vs = Ok m1 /\ add_voltage_source m1 (@PosF NumR len) 0 Vl = Ok m /\ history LA m0 m /\
    physical m /\ one_line m N l c r g (Rabs len / INR N) zs zl /\ undispersed m /\
    step_dt m0 = Rabs len / INR N * sqrt (l * c) /\ step_dt m = step_dt m0 /\
    source m 0 0 = Vs /\ source m 0 N = Vl /\
    (forall j k, volt m j k = 0) /\ (forall j k, curr m j k = 0) /\
    (forall j k, eTran m j k = (fun _ => 0)) /\ (forall j k, eLong m j k = (fun _ => 0)) /\ m_time m = 0 /\
    (forall k i j, G_ m k i j = G_ m0 k i j).
Proof.
  intros Hl Hc Hr Hg Hlen HN Hzs Hzl.
  destruct (one_conductor LA LAok LAC ju jdu l c r g len zs zl N name) as
    (m0 & H0 & P0 & O0 & Edt & Hu & Hs & L1 & L2 & Hv & Hi & HeT & HeL & Ht); auto; try lra.
  assert (HINR : 0 < INR N) by (apply lt_0_INR; lia).
  assert (Hd : len / INR N <> 0) by (unfold Rdiv; apply Rmult_integral_contrapositive; split; auto; apply Rinv_neq_0_compat; lra).
  assert (Lu : length (m_u m0) = S N).
  { pose proof (sh_u _ (ph_shape _ P0)) as E. pose proof (ol_N _ _ _ _ _ _ _ _ _ O0) as F. unfold cells in F. rewrite F in E. exact E. }
  assert (E0 : @nearest NumR (m_u m0) [0; 0; 0] = 0%nat).
  { replace [0; 0; 0] with [0; 0; INR 0 * (len / INR N)] by (simpl; now rewrite Rmult_0_l). apply (nearest_z (m_u m0) N); auto; lia. }
  assert (EN : @nearest NumR (m_u m0) [0; 0; len] = N).
  { replace [0; 0; len] with [0; 0; INR N * (len / INR N)] by (replace (INR N * (len / INR N)) with len by (field; lra); reflexivity). apply (nearest_z (m_u m0) N); auto; lia. }
  pose proof (ol_n _ _ _ _ _ _ _ _ _ O0) as En. unfold conductors in En.
  set (m1 := m_set_vsrc m0 (upd2 (m_vsrc m0) 0 0 Vs)).
  set (m2 := m_set_vsrc m1 (upd2 (m_vsrc m1) 0 N Vl)).
  assert (Ea : add_voltage_source m0 (@PosF NumR 0) 0 Vs = Ok m1).
  { unfold add_voltage_source. rewrite En. cbn [pos_vec]. match goal with |- context [nearest ?u ?p] => change (nearest u p) with (@nearest NumR (m_u m0) [0; 0; 0]) end. rewrite E0. reflexivity. }
  assert (Eb : add_voltage_source m1 (@PosF NumR len) 0 Vl = Ok m2).
  { unfold add_voltage_source. change (k_n (m_core m1)) with (k_n (m_core m0)). rewrite En. cbn [pos_vec].
    match goal with |- context [nearest ?u ?p] => change (nearest u p) with (@nearest NumR (m_u m0) [0; 0; len]) end. rewrite EN. reflexivity. }
  assert (B0 : built LA m0) by (do 12 eexists; exact H0).
  exists m0, m1, m2. split; [exact H0|]. split; [exact Ea|]. split; [exact Eb|].
  split. { eapply h_source; [eapply h_source; [apply h_new; exact B0|exact Ea]|exact Eb]. }
  split; [eapply physical_source; [eapply physical_source; [exact P0|exact Ea]|exact Eb]|].
  split; [destruct O0; split; auto|].
  split. { apply mtl_new_inv in H0 as (_ & _ & _ & _ & Hd' & _). exists (m_u m0), (k_dt (m_core m0)). exact Hd'. }
  split; [exact Edt|]. split; [reflexivity|].
  assert (L1' : length (m_vsrc m1) = 1%nat) by (unfold m1, upd2; cbn [m_vsrc m_set_vsrc]; rewrite length_lset; exact L1).
  assert (L2' : length (nth 0 (m_vsrc m1) []) = S N).
  { unfold m1, upd2; cbn [m_vsrc m_set_vsrc]. rewrite nth_lset_eq by (rewrite L1; lia). rewrite length_lset. exact L2. }
  split. { unfold m2. rewrite upd2_source by (rewrite ?L1', ?L2'; lia). destruct (Nat.eqb_spec 0 N); [lia|]. cbn [andb Nat.eqb].
    unfold m1. rewrite upd2_source by (rewrite ?L1, ?L2; lia). reflexivity. }
  split. { unfold m2. rewrite upd2_source by (rewrite ?L1', ?L2'; lia). rewrite (Nat.eqb_refl N). reflexivity. }
  split; [exact Hv|]. split; [exact Hi|]. split; [exact HeT|]. split; [exact HeL|]. split; [exact Ht|]. reflexivity.
Qed.

Lemma bounce_built ju jdu (l c len zs zl : R) (N : nat) name (Vs Vl : R -> R) (m0 m1 m : mtl NumR) T n a f b :
  0 < l -> 0 < c -> len <> 0 -> (1 <= N)%nat -> 0 <= zs -> 0 <= zl -> (forall t, t < 0 -> Vs t = 0 /\ Vl t = 0) ->
  mtl_new LA ju jdu (@PFloat NumR l) (@PFloat NumR c) (@PFloat NumR 0) (@PFloat NumR 0) len [] [N]
      (@ZScal NumR zs) (@ZScal NumR zl) name = Ok m0 ->
  add_voltage_source m0 (@PosF NumR 0) 0 Vs = Ok m1 -> add_voltage_source m1 (@PosF NumR len) 0 Vl = Ok m ->
  let Z0 := sqrt (l / c) in let dt := Rabs len / INR N * sqrt (l * c) in
  bounce N Z0 zs zl dt Vs Vl f b -> run_state LA m T n a ->
  (forall k, (k <= N)%nat -> volt a 0 k = f (Z.of_nat n - Z.of_nat k)%Z + b (Z.of_nat n - (Z.of_nat N - Z.of_nat k))%Z) /\
  (forall k, (k < N)%nat -> Z0 * curr a 0 k = f (Z.of_nat n - Z.of_nat k)%Z - b (Z.of_nat n - (Z.of_nat N - Z.of_nat k) + 1)%Z).
Proof.
  intros Hl Hc Hlen HN Hzs Hzl HV Em0 Em1 Em Z0 dt B Ha.
  destruct (two_ends ju jdu l c 0 0 len zs zl N name Vs Vl Hl Hc (Rle_refl 0) (Rle_refl 0) Hlen HN Hzs Hzl) as
    (x0 & x1 & x & X0 & X1 & X & HH & P & O & U & D0 & D1 & S0 & SN & V & I & ET & EL & T0 & G).
  assert (x0 = m0) as -> by congruence. assert (x1 = m1) as -> by congruence. assert (x = m) as -> by congruence.
  clear X0 X1 X. destruct O as [On ON Oh OL OR OC OG Ozs Ozl].
  assert (HINR : 0 < INR N) by (apply lt_0_INR; lia).
  assert (Hlen' : 0 < Rabs len / INR N) by (apply Rdiv_lt_0_compat; auto; now apply Rabs_pos_lt).
  assert (Edt : step_dt m = dt) by (rewrite D1; exact D0).
  apply (bounce_run LA LAok m0 m N l c (Rabs len / INR N) T f b); auto; rewrite ?Ozs, ?Ozl, ?Edt, ?S0, ?SN; auto.
  - intros k Hk. rewrite <- G. auto.
  - intros; now rewrite ET.
  - intros; now rewrite EL.
Qed.
(** *** C17 *)
Lemma matched_bounce (N : nat) (Z0 dt : R) (Vs : R -> R) : 0 < Z0 -> 
  bounce N Z0 Z0 Z0 dt Vs (fun _ => 0) (fun m => if (m <=? 0)%Z then 0 else Vs (IZR (m - 1) * dt) / 2) (fun _ => 0).
Proof.
  intros HZ. split; intros m Hm; destruct (Z.leb_spec m 0); try lia.
  - auto.
  - split; field; lra.
Qed.
Lemma matched_line ju jdu (l c len : R) (N : nat) name (Vs : R -> R) (m0 m : mtl NumR) T n a :
  0 < l -> 0 < c -> len <> 0 -> (1 <= N)%nat -> (forall t, t < 0 -> Vs t = 0) ->
  mtl_new LA ju jdu (@PFloat NumR l) (@PFloat NumR c) (@PFloat NumR 0) (@PFloat NumR 0) len [] [N]
      (@ZScal NumR (sqrt (l / c))) (@ZScal NumR (sqrt (l / c))) name = Ok m0 ->
  add_voltage_source m0 (@PosF NumR 0) 0 Vs = Ok m -> run_state LA m T n a ->
  let dt := Rabs len / INR N * sqrt (l * c) in
  forall k, (k <= N)%nat -> volt a 0 k = Vs ((INR n - 1 - INR k) * dt) / 2.
Proof.
  intros Hl Hc Hlen HN HV Em0 Em Ha dt k Hk.
  assert (HZ : 0 < sqrt (l / c)) by (apply sqrt_lt_R0; apply Rdiv_lt_0_compat; auto).
  destruct (driven_line LA ju jdu l c 0 0 len (sqrt (l / c)) (sqrt (l / c)) N name Vs LAok LAC) as
    (x0 & x & X0 & X & HH & P & O & D0 & D1 & S & V & I & ET & EL & T0 & G); auto; try lra.
  assert (x0 = m0) as -> by congruence. assert (x = m) as -> by congruence. clear X0 X.
  destruct O as [On ON Oh OL OR OC OG Ozs Ozl].
  assert (U : undispersed m).
  { unfold add_voltage_source in Em. destruct (_ <? _)%nat; [|discriminate]. injection Em as <-.
    apply mtl_new_inv in Em0 as (_ & _ & _ & _ & Hd' & _). exists (m_u m0), (k_dt (m_core m0)). exact Hd'. }
  assert (HINR : 0 < INR N) by (apply lt_0_INR; lia).
  assert (Hlen' : 0 < Rabs len / INR N) by (apply Rdiv_lt_0_compat; auto; now apply Rabs_pos_lt).
  assert (Pdt : 0 < dt) by (apply Rmult_lt_0_compat; auto; apply sqrt_lt_R0; nra).
  assert (Edt : step_dt m = dt) by (rewrite D1; exact D0).
  assert (SN : source m 0 N = (fun _ => 0)) by (rewrite S; destruct N; [lia|reflexivity]).
  destruct (bounce_run LA LAok m0 m N l c (Rabs len / INR N) T (fun m => if (m <=? 0)%Z then 0 else Vs (IZR (m - 1) * dt) / 2) (fun _ => 0)) with (n := n) (a := a) as [BV _]; auto;
    rewrite ?Ozs, ?Ozl, ?Edt, ?SN, ?S; auto; try lra.
  - intros j Hj. rewrite <- G. auto.
  - intros; now rewrite ET.
  - intros; now rewrite EL.
  - now apply matched_bounce.
  - rewrite BV by auto. rewrite Rplus_0_r. destruct (Z.leb_spec (Z.of_nat n - Z.of_nat k) 0) as [L|L].
    + rewrite HV; [rfield|]. assert (INR n <= INR k) by (apply le_INR; lia).
      assert ((INR n - 1 - INR k) * dt <= (-1) * dt) by (apply Rmult_le_compat_r; lra). lra.
    + replace (IZR (Z.of_nat n - Z.of_nat k - 1)) with (INR n - 1 - INR k); [reflexivity|].
      rewrite !minus_IZR, <- !INR_IZR_INZ. ring.
Qed.
End Built.

(** a one-metre line of four cells, 3 and 0 ohm at its ends, driven by a step and a sine *)
Lemma bounce_example : exists (m0 m1 m : mtl NumR) f b, lapack_ok LR /\ lapack_complete LR /\
  mtl_new LR (fun _ => []) (fun _ => []) (@PFloat NumR 4) (@PFloat NumR 1) (@PFloat NumR 0) (@PFloat NumR 0) 1 [] [4%nat]
      (@ZScal NumR 3) (@ZScal NumR 0) "line" = Ok m0 /\
  add_voltage_source m0 (@PosF NumR 0) 0 unit_step = Ok m1 /\
  add_voltage_source m1 (@PosF NumR 1) 0 (fun t => if Rltb t 0 then 0 else sin t) = Ok m /\
  (forall t, t < 0 -> unit_step t = 0 /\ (if Rltb t 0 then 0 else sin t) = 0) /\
  bounce 4 (sqrt (4 / 1)) 3 0 (Rabs 1 / INR 4 * sqrt (4 * 1)) unit_step (fun t => if Rltb t 0 then 0 else sin t) f b /\ f 1%Z = 2 / 5 /\
  forall T, exists n a, run_state LR m T n a.
Proof.
  destruct (two_ends LR LR_ok LR_complete (fun _ => []) (fun _ => []) 4 1 0 0 1 3 0 4 "line" unit_step (fun t => if Rltb t 0 then 0 else sin t)) as
    (m0 & m1 & m & E0 & E1 & E & HH & P & _); try lra; try lia.
  destruct (bounce_exists 4 (sqrt (4 / 1)) 3 0 (Rabs 1 / INR 4 * sqrt (4 * 1)) unit_step (fun t => if Rltb t 0 then 0 else sin t)) as (f & b & B); [lia|].
  exists m0, m1, m, f, b. split; [exact LR_ok|]. split; [exact LR_complete|]. split; [exact E0|]. split; [exact E1|]. split; [exact E|].
  split. { intros t Ht. unfold unit_step. destruct (Rltb_spec t 0); [auto|lra]. }
  split; [exact B|]. split.
  - destruct B as (B0 & B1). destruct (B1 1%Z ltac:(lia)) as [-> _]. rewrite (proj2 (B0 (1 - Z.of_nat 4)%Z ltac:(lia))).
    replace (4 / 1) with (2 * 2) by field. rewrite sqrt_square by lra. unfold unit_step. replace (IZR (1 - 1) * (Rabs 1 / INR 4 * sqrt (4 * 1))) with 0 by (simpl (1 - 1)%Z; ring).
    destruct (Rltb_spec 0 0); [lra|]. field.
  - intros T. destruct (run_total LR LR_complete m T P) as [a Ha]. destruct (run_until_state LR m T a Ha) as (n & _ & R). exists n, a. exact R.
Qed.
Lemma matched_example : exists (m0 m : mtl NumR), lapack_ok LR /\ lapack_complete LR /\
  mtl_new LR (fun _ => []) (fun _ => []) (@PFloat NumR 4) (@PFloat NumR 1) (@PFloat NumR 0) (@PFloat NumR 0) 1 [] [4%nat]
      (@ZScal NumR (sqrt (4 / 1))) (@ZScal NumR (sqrt (4 / 1))) "line" = Ok m0 /\
  add_voltage_source m0 (@PosF NumR 0) 0 unit_step = Ok m /\ (forall t, t < 0 -> unit_step t = 0) /\
  forall T, exists n a, run_state LR m T n a.
Proof.
  destruct (driven_line LR (fun _ => []) (fun _ => []) 4 1 0 0 1 (sqrt (4 / 1)) (sqrt (4 / 1)) 4 "line" unit_step LR_ok LR_complete) as
    (m0 & m & E0 & E & HH & P & _); try lra; try lia; try apply sqrt_pos.
  exists m0, m. split; [exact LR_ok|]. split; [exact LR_complete|]. split; [exact E0|]. split; [exact E|].
  split. { intros t Ht. unfold unit_step. destruct (Rltb_spec t 0); [auto|lra]. }
  intros T. destruct (run_total LR LR_complete m T P) as [a Ha]. destruct (run_until_state LR m T a Ha) as (n & _ & R). exists n, a. exact R.
Qed.
