(** A pair of equal conductors and its modes. *)
From Coq Require Import String List Arith ZArith Bool Lia Reals Lra.
From Verif Require Import Num Py Arr ArrFacts NumR RFacts LinAlg LapackR Probes Dispersive Line LineFacts SpecLine SpecR HistoryFacts FieldsFacts
  TotalFacts EnergyFacts SpecSym SymProps ExampleLine ExampleRun SymExample BounceProps SpecModes ModesProps ModesMore.
Import ListNotations.
Local Open Scope R_scope.

Ltac idx2 := repeat match goal with H : (?i < 2)%nat |- _ => assert (i = 0 \/ i = 1)%nat as [-> | ->] by lia; clear H end.

Lemma zero_mode (s a b : R) : a = 0 -> b = 0 -> 0 = a + s * b.
Proof. intros -> ->. ring. Qed.
Lemma zero_alike (a b : R) : a = 0 -> b = 0 -> a = -1 * b.
Proof. intros -> ->. ring. Qed.

(** L = [[2,1],[1,2]], C = [[2,-1],[-1,2]], R = 1, G = [[1,-1],[-1,1]], 1 and 2 ohm at the ends *)
Definition exI : mat NumR := [[1; 0]; [0; 1]].
Definition pair_new : res (mtl NumR) := mtl_new LR (fun _ => []) (fun _ => []) (PArr 2 2 exL) (PArr 2 2 exC) (PArr 2 2 exI) (PArr 2 2 exG) (3 : NumR) [] [3%nat]
    (@ZVec NumR 2 [1; 1]) (@ZVec NumR 2 [2; 2]) "pair"%string.
Definition mode_new (l c g : R) : res (mtl NumR) := mtl_new LR (fun _ => []) (fun _ => []) (@PFloat NumR l) (@PFloat NumR c) (@PFloat NumR 1) (@PFloat NumR g) (3 : NumR) [] [3%nat]
    (@ZScal NumR 1) (@ZScal NumR 2) "mode"%string.

Lemma pair_built : exists m : mtl NumR, pair_new = Ok m /\ physical m /\ conductors m = 2%nat /\ cells m = 3%nat /\
  (forall k, (k < 3)%nat -> cell_len m k = 1) /\
  (forall k i j, (k < 3)%nat -> (i < 2)%nat -> (j < 2)%nat -> L_ m k i j = get2 exL i j /\ R_ m k i j = get2 exI i j) /\
  (forall k i j, (k <= 3)%nat -> (i < 2)%nat -> (j < 2)%nat -> C_ m k i j = get2 exC i j /\ G_ m k i j = get2 exG i j) /\
  (forall i j, (i < 2)%nat -> (j < 2)%nat -> Zs_ m i j = (if (i =? j)%nat then @get NumR [1; 1] i else 0) /\ Zl_ m i j = (if (i =? j)%nat then @get NumR [2; 2] i else 0)) /\
  step_dt m = sqrt 3 /\ (forall c k, volt m c k = 0) /\ (forall c k, curr m c k = 0) /\
  (forall c k t, eTran m c k t = 0) /\ (forall c k t, eLong m c k t = 0) /\ (forall c k t, source m c k t = 0) /\ m_time m = 0 /\
  length (m_vsrc m) = 2%nat /\ (forall c, (c < 2)%nat -> length (nth c (m_vsrc m) []) = 4%nat) /\
  nearest (m_u m) [0; 0; 0] = 0%nat.
Proof.
  assert (PL : pos_def 2 (get2 (@mk2 (car NumR) 2 2 (get2 exL)))) by (apply pd2; unfold exL, get2, get, mk2, mk; cbn [seq map nth]; rsimpl; ring).
  assert (PC : pos_def 2 (get2 (@mk2 (car NumR) 2 2 (get2 exC)))) by (apply pd2; unfold exC, get2, get, mk2, mk; cbn [seq map nth]; rsimpl; ring).
  assert (PG : pos_semidef 2 (get2 (@mk2 (car NumR) 2 2 (get2 exG)))).
  { intros x. rewrite quad2. pose proof (Rle_0_sqr (x 0%nat - x 1%nat)). unfold Rsqr, exG, get2, get, mk2, mk in *; cbn [seq map nth]; rsimpl; lra. }
  assert (ELC : mm 2 (@mk2 (car NumR) 2 2 (get2 exL)) (@mk2 (car NumR) 2 2 (get2 exC)) = [[3; 0]; [0; 3]] :> mat NumR) by (rewrite <- exLC; reflexivity).
  apply (two_conductors exL exC exI exG 1 1 2 2 3); auto; try lra. apply psd_diag; lra.
Qed.

Lemma pair_twins (m0 m : mtl NumR) : pair_new = Ok m0 -> conductors m = conductors m0 -> cells m = cells m0 ->
  (forall k i j, L_ m k i j = L_ m0 k i j /\ R_ m k i j = R_ m0 k i j /\ C_ m k i j = C_ m0 k i j /\ G_ m k i j = G_ m0 k i j) -> (forall i j, Zs_ m i j = Zs_ m0 i j /\ Zl_ m i j = Zl_ m0 i j) -> twins m0 m.
Proof.
  intros E Hn HN HP HZ. destruct pair_built as (m0' & E0 & P0 & Bn & BN & H1 & H2 & H3 & H4 & _). rewrite E in E0. injection E0 as <-. rewrite Bn in Hn. rewrite BN in HN.
  constructor; rewrite ?HN; auto.
  - intros k Hk. split; rewrite !(proj1 (HP _ _ _)), !(fun i j Hi Hj => proj1 (H2 k i j Hk Hi Hj)) by lia; reflexivity.
  - intros k Hk. split; rewrite !(proj1 (proj2 (HP _ _ _))), !(fun i j Hi Hj => proj2 (H2 k i j Hk Hi Hj)) by lia; reflexivity.
  - intros k Hk. split; rewrite !(proj1 (proj2 (proj2 (HP _ _ _)))), !(fun i j Hi Hj => proj1 (H3 k i j Hk Hi Hj)) by lia; reflexivity.
  - intros k Hk. split; rewrite !(proj2 (proj2 (proj2 (HP _ _ _)))), !(fun i j Hi Hj => proj2 (H3 k i j Hk Hi Hj)) by lia; reflexivity.
  - split; split; rewrite ?(fun i j Hi Hj => proj2 (H3 0%nat i j ltac:(lia) Hi Hj)), ?(fun i j Hi Hj => proj2 (H3 3%nat i j ltac:(lia) Hi Hj)) by lia; reflexivity.
  - split; split; rewrite ?(proj1 (HZ _ _)), ?(proj2 (HZ _ _)), ?(fun i j Hi Hj => proj1 (H4 i j Hi Hj)), ?(fun i j Hi Hj => proj2 (H4 i j Hi Hj)) by lia; reflexivity.
Qed.

Lemma mode_example (s l c g : R) : s * s = 1 -> l = 2 + s -> c = 2 - s -> g = 1 - s -> exists m0 m m0' m' : mtl NumR,
  pair_new = Ok m0 /\ add_voltage_source m0 (@PosF NumR 0) 0 pulse = Ok m /\ mode_new l c g = Ok m0' /\ add_voltage_source m0' (@PosF NumR (INR 0 * (3 / INR 3))) 0 pulse = Ok m' /\
  history LR m0 m /\ undispersed m /\ history LR m0' m' /\ undispersed m' /\ twins m0 m /\ is_mode s m0 m m0' m' /\
  (forall k, (k <= cells m)%nat -> volt m' 0 k = volt m 0 k + s * volt m 1 k) /\ (forall k, (k < cells m)%nat -> curr m' 0 k = curr m 0 k + s * curr m 1 k) /\
  L_ m 0 0 1 = 1 /\ source m 0 0 1 = 1 /\ (forall T, exists j a, run_state LR m T j a) /\ (forall T, exists j a, run_state LR m' T j a).
Proof.
  intros Hs -> -> ->. assert (S2 : -1 <= s <= 1) by (assert (0 <= (1 - s) * (1 + s)) by lra; split; nra).
  destruct pair_built as (m0 & E0 & P0 & Hn & HN & H1 & H2 & H3 & H4 & H5 & H6 & H7 & H8 & H9 & H10 & H11 & H12 & H13 & H14).
  destruct (drive m0 0 pulse) as (m & Ea & HH & P & Em & Sm); auto; [unfold pair_new in E0; repeat eexists; exact E0|].
  destruct (driven_at LR (fun _ => []) (fun _ => []) (2 + s) (2 - s) 1 (1 - s) 3 1 2 3 0 "mode"%string pulse LR_ok LR_complete) as
    (n0 & n & F0 & F1 & KK & Q & O & D0 & D1 & S & V & I & ET & EL & T0 & G); try lra; try lia. destruct O.
  exists m0, m, n0, n.
  assert (Cn : conductors m = 2%nat) by (rewrite Em; exact Hn). assert (Cm : cells m = 3%nat) by (rewrite Em; exact HN).
  assert (HINR : INR 3 = 3) by (simpl; lra).
  assert (Hdt : step_dt n0 = step_dt m0).
  { rewrite D0, H5, HINR. replace ((2 + s) * (2 - s)) with (4 - s * s) by ring. rewrite Hs. replace (4 - 1) with 3 by ring. rewrite Rabs_right by lra. unfold Rdiv. rewrite Rinv_r by lra. apply Rmult_1_l. }
  assert (W : twins m0 m).
  { apply pair_twins; auto; rewrite Em; [reflexivity|reflexivity|intros; repeat split; reflexivity|intros; split; reflexivity]. }
  split; [exact E0|]. split; [exact Ea|]. split; [exact F0|]. split; [exact F1|]. split; [exact HH|]. split; [apply P|]. split; [exact KK|]. split; [apply Q|]. split; [exact W|]. rewrite Cm.
  assert (X2 : forall k i j, (k < 3)%nat -> (i < 2)%nat -> (j < 2)%nat -> L_ m k i j = get2 exL i j /\ R_ m k i j = get2 exI i j) by (rewrite Em; exact H2).
  assert (X3 : forall k i j, (k <= 3)%nat -> (i < 2)%nat -> (j < 2)%nat -> C_ m k i j = get2 exC i j /\ G_ m k i j = get2 exG i j) by (rewrite Em; exact H3).
  assert (X4 : forall i j, (i < 2)%nat -> (j < 2)%nat -> Zs_ m i j = (if (i =? j)%nat then @get NumR [1; 1] i else 0) /\ Zl_ m i j = (if (i =? j)%nat then @get NumR [2; 2] i else 0)) by (rewrite Em; exact H4).
  split; [|split; [|split; [|split; [|split; [|split]]]]].
  - constructor; [exact ol_n|rewrite Cm; exact ol_N|rewrite Em; exact (eq_trans D1 Hdt)|exact Hdt|rewrite Em; exact (eq_trans T0 (eq_sym H11))|..]; rewrite ?Cm.
    + intros k Hk. rewrite Em. refine (eq_trans (ol_h k Hk) (eq_trans _ (eq_sym (H1 k Hk)))). rewrite HINR, Rabs_right by lra. unfold Rdiv. exact (Rinv_r 3 ltac:(lra)).
    + intros k Hk. rewrite ol_L, !(fun i j Hi Hj => proj1 (X2 k i j Hk Hi Hj)) by (auto; lia). cbn. rsimpl. rty. ring.
    + intros k Hk. rewrite ol_R, !(fun i j Hi Hj => proj2 (X2 k i j Hk Hi Hj)) by (auto; lia). cbn. rsimpl. rty. ring.
    + intros k Hk. rewrite ol_C, !(fun i j Hi Hj => proj1 (X3 k i j Hk Hi Hj)) by (auto; lia). cbn. rsimpl. rty. ring.
    + intros k Hk. rewrite ol_G, !(fun i j Hi Hj => proj2 (X3 k i j Hk Hi Hj)) by (auto; lia). cbn. rsimpl. rty. ring.
    + rewrite <- !G, !ol_G by lia. rewrite !(fun i j Hi Hj => proj2 (H3 0%nat i j ltac:(lia) Hi Hj)), !(fun i j Hi Hj => proj2 (H3 3%nat i j ltac:(lia) Hi Hj)) by lia. cbn. rsimpl. rty. split; ring.
    + rewrite ol_zs, ol_zl, !(fun i j Hi Hj => proj1 (X4 i j Hi Hj)), !(fun i j Hi Hj => proj2 (X4 i j Hi Hj)) by lia. cbn. rsimpl. rty. split; ring.
    + intros t. rewrite !Sm, !S. cbn. rsimpl. rty. split; ring.
    + intros k t Hk. rewrite ET, Em. apply zero_mode; exact (H8 _ _ _).
    + intros k t Hk. rewrite EL, Em. apply zero_mode; exact (H9 _ _ _).
  - intros k _. rewrite V, Em. apply zero_mode; exact (H6 _ _).
  - intros k _. rewrite I, Em. apply zero_mode; exact (H7 _ _).
  - rewrite (proj1 (X2 0 0 1 ltac:(lia) ltac:(lia) ltac:(lia)))%nat. reflexivity.
  - rewrite Sm. cbn. unfold pulse. destruct (Rltb_spec 1 0); lra.
  - now apply runs_of.
  - now apply runs_of.
Qed.

(** the pair driven differentially *)
Lemma alike_example : exists m0 m1 m : mtl NumR,
  pair_new = Ok m0 /\ add_voltage_source m0 (@PosF NumR 0) 0 pulse = Ok m1 /\ add_voltage_source m1 (@PosF NumR 0) 1 (fun t => - pulse t) = Ok m /\
  history LR m0 m /\ undispersed m /\ twins m0 m /\ driven_alike (-1) m /\ source m 0 0 1 = 1 /\ (forall T, exists j a, run_state LR m T j a).
Proof.
  destruct pair_built as (m0 & E0 & P0 & Hn & HN & H1 & H2 & H3 & H4 & H5 & H6 & H7 & H8 & H9 & H10 & H11 & H12 & H13 & H14).
  destruct (drive m0 0 pulse) as (m1 & Ea & HH & P & Em & Sm); auto; [unfold pair_new in E0; repeat eexists; exact E0|].
  set (f := fun t : R => - pulse t).
  assert (Eb : add_voltage_source m1 (@PosF NumR 0) 1 f = Ok (m_set_vsrc m1 (upd2 (m_vsrc m1) 1 0 f))).
  { unfold add_voltage_source. assert (Cn : k_n (m_core m1) = 2%nat) by (rewrite Em; exact Hn). rewrite Cn. cbn [Nat.ltb Nat.leb].
    cbn [pos_vec]. match goal with |- context [nearest ?u ?p] => change (nearest u p) with (@nearest NumR (m_u m1) [0; 0; 0]) end.
    replace (nearest (m_u m1) [0; 0; 0]) with 0%nat by (symmetry; rewrite Em; exact H14). reflexivity. }
  set (m := m_set_vsrc m1 (upd2 (m_vsrc m1) 1 0 f)) in *.
  assert (HHm : history LR m0 m) by (eapply h_source; [exact HH|exact Eb]).
  assert (Pm : physical m) by (eapply physical_source; eauto).
  assert (L2 : length (m_vsrc m1) = 2%nat) by (rewrite Em; cbn [m_vsrc m_set_vsrc]; rewrite (proj1 (upd2_shape _ _ _ _ 0%nat)); exact H12).
  assert (L3 : (0 < length (nth 1 (m_vsrc m1) []))%nat).
  { rewrite Em. cbn [m_vsrc m_set_vsrc]. rewrite (proj2 (upd2_shape _ _ _ _ 1%nat)), H13 by lia. lia. }
  assert (Sb : forall c k t, source m c k t = if ((c =? 1) && (k =? 0))%nat then f t else if ((c =? 0) && (k =? 0))%nat then pulse t else 0).
  { intros c k t. unfold m. rewrite upd2_source by (rewrite ?L2; auto; lia). destruct (_ && _); auto. }
  exists m0, m1, m. split; [exact E0|]. split; [exact Ea|]. split; [exact Eb|]. split; [exact HHm|]. split; [apply Pm|].
  split. { apply pair_twins; auto; unfold m; rewrite Em; [reflexivity|reflexivity|intros; repeat split; reflexivity|intros; split; reflexivity]. }
  assert (CN : cells m = 3%nat) by (unfold m; rewrite Em; exact HN).
  split.
  - constructor; rewrite ?CN.
    + intros t. rewrite !Sb. cbn. unfold f. split; ring.
    + intros k t _. unfold m. rewrite Em. apply zero_alike; exact (H8 _ _ _).
    + intros k t _. unfold m. rewrite Em. apply zero_alike; exact (H9 _ _ _).
    + intros k _. unfold m. rewrite Em. apply zero_alike; exact (H6 _ _).
    + intros k _. unfold m. rewrite Em. apply zero_alike; exact (H7 _ _).
  - split; [rewrite Sb; cbn; unfold pulse; destruct (Rltb_spec 1 0); lra|now apply runs_of].
Qed.

Lemma rescale_example : exists m0 m1 m m0' m1' m' : mtl NumR,
  mtl_new LR (fun _ => []) (fun _ => []) (@PFloat NumR 4) (@PFloat NumR 1) (@PFloat NumR 5) (@PFloat NumR 2) 1 [] [4%nat] (@ZScal NumR 50) (@ZScal NumR 45) "a"%string = Ok m0 /\
  add_voltage_source m0 (@PosF NumR 0) 0 pulse = Ok m1 /\ add_voltage_source m1 (@PosF NumR 1) 0 (fun _ => 0) = Ok m /\
  mtl_new LR (fun _ => []) (fun _ => []) (@PFloat NumR (2 * 4)) (@PFloat NumR (1 / 2)) (@PFloat NumR (2 * 5)) (@PFloat NumR (2 / 2)) 1 [] [4%nat] (@ZScal NumR (2 * 50)) (@ZScal NumR (2 * 45)) "b"%string = Ok m0' /\
  add_voltage_source m0' (@PosF NumR 0) 0 pulse = Ok m1' /\ add_voltage_source m1' (@PosF NumR 1) 0 (fun _ => 0) = Ok m' /\
  (forall T, exists j a, run_state LR m T j a) /\ (forall T, exists j a, run_state LR m' T j a).
Proof.
  destruct (two_ends LR LR_ok LR_complete (fun _ => []) (fun _ => []) 4 1 5 2 1 50 45 4 "a"%string pulse (fun _ => 0)) as (m0 & m1 & m & F0 & F1 & F2 & HH & P & _); try lra; try lia.
  destruct (two_ends LR LR_ok LR_complete (fun _ => []) (fun _ => []) (2 * 4) (1 / 2) (2 * 5) (2 / 2) 1 (2 * 50) (2 * 45) 4 "b"%string pulse (fun _ => 0)) as (m0' & m1' & m' & F0' & F1' & F2' & HH' & P' & _); try lra; try lia.
  exists m0, m1, m, m0', m1', m'. repeat (split; [assumption|]). split; now apply runs_of.
Qed.
