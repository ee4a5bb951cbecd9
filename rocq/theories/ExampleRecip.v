(** Two coupled conductors with impedances at all four terminals: hypotheses of the reciprocity theorems. *)
From Coq Require Import String List Arith ZArith Bool Lia Reals Lra.
From Verif Require Import Num Py Arr ArrFacts NumR RFacts LinAlg LapackR Probes Dispersive Line LineFacts NearestFacts
  SpecLine SpecR SpecDyn HistoryFacts GeometryFacts LineEqFacts StepTotal TotalFacts NewTotal ExampleLine ExampleRun RunProps SuperProps SpecEnergy EnergyFacts SpecRecip.
Import ListNotations.
Local Open Scope R_scope.

Definition rec_new (ju jdu : nat -> vec NumR) : res (mtl NumR) :=
  mtl_new LR ju jdu (PArr 2 2 exL) (PArr 2 2 exC) (PArr 2 2 exR) (PArr 2 2 exG) (3 : NumR) [] [3%nat]
    (@ZVec NumR 2 [1; 3]) (@ZVec NumR 2 [1; 2]) "rec"%string.

Lemma rec_new_ok ju jdu : exists m, rec_new ju jdu = Ok m /\ physical m /\ conductors m = 2%nat /\ cells m = 3%nat /\
  (forall k, (k < 3)%nat -> cell_len m k = 1) /\
  (forall k i j, (k < 3)%nat -> L_ m k i j = get2 exL i j /\ R_ m k i j = get2 exR i j) /\
  (forall k i j, (k <= 3)%nat -> C_ m k i j = get2 exC i j /\ G_ m k i j = get2 exG i j) /\
  m_zs m = mk2 2 2 (fun i j => @get NumR [1; 3] i * @delta NumR i j) /\
  m_zl m = mk2 2 2 (fun i j => @get NumR [1; 2] i * @delta NumR i j) /\
  m_u m = [[0; 0; 0]; [0; 0; 1]; [0; 0; 2]; [0; 0; 3]].
Proof.
  destruct (new_total LR LR_complete ju jdu (PArr 2 2 exL) (PArr 2 2 exC) (PArr 2 2 exR) (PArr 2 2 exG) (3 : NumR) [] 3 1
     (@ZVec NumR 2 [1; 3]) (@ZVec NumR 2 [1; 2]) "rec"%string 2%nat (mk2 2 2 (get2 exL)) (mk2 2 2 (get2 exC))
     (mk2 2 2 (get2 exR)) (mk2 2 2 (get2 exG))
     (mk2 2 2 (fun i j => @get NumR [1; 3] i * @delta NumR i j)) (mk2 2 2 (fun i j => @get NumR [1; 2] i * @delta NumR i j))
     (fun i => @get NumR [1; 3] i) (fun i => @get NumR [1; 2] i))
     as (m & Hm & P & M1 & M2 & M3 & M4 & M5 & M6 & M7 & M8); auto.
  - intros i Hi. assert (i = 0)%nat as -> by lia. exists 2%nat. split; [lia|]. cbn. rsimpl. lra.
  - apply pd2; unfold exL, get2, get, mk2, mk; cbn [seq map nth]; rsimpl; ring.
  - apply pd2; unfold exC, get2, get, mk2, mk; cbn [seq map nth]; rsimpl; ring.
  - intros x. rewrite quad2. pose proof (Rle_0_sqr (x 0%nat)). pose proof (Rle_0_sqr (x 1%nat)).
    unfold Rsqr, exR, get2, get, mk2, mk in *; cbn [seq map nth]; rsimpl; lra.
  - intros x. rewrite quad2. pose proof (Rle_0_sqr (x 0%nat - x 1%nat)).
    unfold Rsqr, exG, get2, get, mk2, mk in *; cbn [seq map nth]; rsimpl; lra.
  - split.
    + intros i j Hi Hj. assert (i = 0 \/ i = 1)%nat as [-> | ->] by lia; assert (j = 0 \/ j = 1)%nat as [-> | ->] by lia; reflexivity.
    + intros i Hi. assert (i = 0 \/ i = 1)%nat as [-> | ->] by lia; cbn; rsimpl; lra.
  - split.
    + intros i j Hi Hj. assert (i = 0 \/ i = 1)%nat as [-> | ->] by lia; assert (j = 0 \/ j = 1)%nat as [-> | ->] by lia; reflexivity.
    + intros i Hi. assert (i = 0 \/ i = 1)%nat as [-> | ->] by lia; cbn; rsimpl; lra.
  - assert (E : mm 2 (mk2 2 2 (get2 exL)) (mk2 2 2 (get2 exC)) = [[3; 0]; [0; 3]] :> mat NumR).
    { rewrite <- exLC. reflexivity. }
    rewrite E. split; [discriminate|]. intros e He.
    assert (e = 3) as -> by (cbn in He; intuition congruence).
    exists (fun _ => 1). split; [exists 0%nat; split; [lia|lra]|].
    intros i Hi. rewrite !sumR_S, sumR_0. assert (i = 0 \/ i = 1)%nat as [-> | ->] by lia; cbn; rsimpl; ring.
  - exists m. rewrite M2 in *. split; [exact Hm|]. split; [exact P|]. split; [exact M1|]. split; [reflexivity|].
    split; [|split; [|split; [|split; [|split]]]].
    + intros k Hk. rewrite M3 by lia. rewrite Nat.div_small by lia.
      unfold seg_du, vdivs, vsub, mk, get. cbn [seq map nth]. rsimpl. change (IZR (Z.of_nat 3)) with 3.
      replace ((0 - 0) / 3) with 0 by field. replace ((3 - 0) / 3) with 1 by field. exact (eq_trans (vnorm_z 1) Rabs_R1).
    + intros k i j Hk. destruct (M4 k i j Hk) as [-> ->]. split.
      * destruct i as [|[|[|]]], j as [|[|[|]]]; reflexivity.
      * destruct i as [|[|[|]]], j as [|[|[|]]]; reflexivity.
    + intros k i j Hk. destruct (M5 k i j Hk) as [-> ->]. split.
      * destruct i as [|[|[|]]], j as [|[|[|]]]; reflexivity.
      * destruct i as [|[|[|]]], j as [|[|[|]]]; reflexivity.
    + exact M6.
    + exact M7.
    + rewrite M8. unfold mk. cbn [seq map Nat.mul Nat.add Nat.eqb nth].
      unfold closed_u, seg_du, vdivs, vsub, vadd, vscal, mk, get.
      cbn [Nat.divmod Nat.div Nat.modulo fst snd Nat.sub seq map nth Z.of_nat Pos.of_succ_nat Pos.succ]. rsimpl.
      replace ((0 - 0) / 3) with 0 by field. replace ((3 - 0) / 3) with 1 by field.
      repeat (apply f_equal2; [repeat (apply f_equal2; [ring|])|]); reflexivity.
Qed.


Lemma symm2 (A : nat -> nat -> R) : A 0%nat 1%nat = A 1%nat 0%nat -> symm 2 A.
Proof. intros H i j Hi Hj. assert (i = 0 \/ i = 1)%nat as [-> | ->] by lia; assert (j = 0 \/ j = 1)%nat as [-> | ->] by lia; auto. Qed.

Lemma rec_line : exists m, rec_new (fun _ => []) (fun _ => []) = Ok m /\ reciprocal_line LR m m /\ undriven m /\ physical m /\
  conductors m = 2%nat /\ cells m = 3%nat /\ m_u m = [[0; 0; 0]; [0; 0; 1]; [0; 0; 2]; [0; 0; 3]] /\ m_time m = 0 /\
  L_ m 0 0 1 = 1 /\ Zs_ m 1 1 = 3 /\ Zl_ m 1 1 = 2 /\ Zs_ m 0 0 = 1.
Proof.
  destruct (rec_new_ok (fun _ => []) (fun _ => [])) as (m & E & P & Hn & HN & HH & HL & HC & Hzs & Hzl & Hu).
  pose proof E as B. unfold rec_new in B. assert (BB : built LR m) by (do 12 eexists; exact B). destruct (new_silent LR m BB) as [S U].
  exists m. split; [exact E|]. split; [split|].
  - now constructor.
  - apply P.
  - now apply undriven_no_field.
  - exact S.
  - intros k Hk. rewrite Hn. apply symm2. rewrite !(fun i j => proj1 (HL k i j ltac:(lia))). reflexivity.
  - intros k Hk. rewrite Hn. apply symm2. rewrite !(fun i j => proj2 (HL k i j ltac:(lia))). reflexivity.
  - intros k Hk. rewrite Hn. apply symm2. rewrite !(fun i j => proj1 (HC k i j ltac:(lia))). reflexivity.
  - intros k Hk. rewrite Hn. apply symm2. unfold node_G. destruct (_ || _)%bool; rewrite !(fun i j => proj2 (HC k i j ltac:(lia))); reflexivity.
  - intros far c Hc. rewrite Hn in Hc. unfold end_Z, Zs_, Zl_. rewrite Hzs, Hzl. assert (c = 0 \/ c = 1)%nat as [-> | ->] by lia; destruct far; cbn; rsimpl; lra.
  - split; [exact U|]. split; [exact P|]. split; [exact Hn|]. split; [exact HN|]. split; [exact Hu|].
    split; [apply mtl_new_inv in B; tauto|].
    rewrite (proj1 (HL 0%nat 0%nat 1%nat ltac:(lia))). split; [reflexivity|]. unfold Zs_, Zl_. rewrite Hzs, Hzl. split; [|split]; cbn; rsimpl; ring.
Qed.

Lemma rec_close k : (k <= 3)%nat -> closest [[0; 0; 0]; [0; 0; 1]; [0; 0; 2]; [0; 0; 3]] (pos_vec (@PosF NumR (INR k))) k.
Proof.
  intros Hk. unfold pos_vec.
  assert (D : forall x y : R, dist3 [0; 0; x] [0; 0; y] = Rabs (x - y)).
  { intros x y. unfold dist3. cbn [nth]. replace ((0 - 0) ^ 2 + (0 - 0) ^ 2 + (x - y) ^ 2) with (Rsqr (x - y)) by (unfold Rsqr; ring). apply sqrt_Rsqr_abs. }
  assert (N : forall j, (j <= 3)%nat -> nth j [[0; 0; 0]; [0; 0; 1]; [0; 0; 2]; [0; 0; 3]] [] = [0; 0; INR j]).
  { intros j Hj. assert (j = 0 \/ j = 1 \/ j = 2 \/ j = 3)%nat as [-> | [-> | [-> | ->]]] by lia; cbn; repeat f_equal; ring. }
  assert (Z : Rabs (INR k - INR k) = 0) by (rewrite Rminus_eq_0; apply Rabs_R0).
  split; [cbn; lia|]. split.
  - intros j Hj. cbn [length] in Hj. rewrite !N by lia. rsimpl. rewrite !D, Z. apply Rabs_pos.
  - intros j Hj. rewrite !N by lia. rsimpl. rewrite !D, Z. apply Rabs_pos_lt. apply lt_INR in Hj. lra.
Qed.

Lemma rec_example : exists m m1 m2 a b T, lapack_ok LR /\ reciprocal_line LR m m /\ undriven m /\ conductors m = 2%nat /\ cells m = 3%nat /\
  add_voltage_source m (@PosF NumR 0) 0 unit_step = Ok m1 /\ closest (m_u m) (pos_vec (@PosF NumR 0)) (end_node m false) /\
  add_voltage_source m (@PosF NumR 3) 1 unit_step = Ok m2 /\ closest (m_u m) (pos_vec (@PosF NumR 3)) (end_node m true) /\
  unit_step (m_time m + INR 0 * step_dt m) + unit_step (m_time m + INR 0 * step_dt m - step_dt m) <> 0 /\
  run_state LR m1 T 4 a /\ run_state LR m2 T 4 b /\
  end_Z m false 0 = 1 /\ end_Z m true 1 = 2 /\ L_ m 0 0 1 = 1.
Proof.
  destruct rec_line as (m & E & RL & U & P & Hn & HN & Hu & Ht & HL & Z1 & Z2 & Z3).
  destruct (source_on m (@PosF NumR 0) 0 unit_step ltac:(lia) P) as (m1 & E1 & P1).
  destruct (source_on m (@PosF NumR 3) 1 unit_step ltac:(lia) P) as (m2 & E2 & P2).
  assert (Dt : step_dt m1 = step_dt m /\ step_dt m2 = step_dt m).
  { unfold add_voltage_source in E1, E2. unfold conductors in Hn. rewrite Hn in *. injection E1 as <-. injection E2 as <-. auto. }
  destruct Dt as [D1 D2]. pose proof (ph_dt _ P) as Hdt.
  assert (ST : (Z.to_nat (Int_part (5.5 * step_dt m / step_dt m)) > 3)%nat).
  { replace (5.5 * step_dt m / step_dt m) with 5.5 by (field; lra).
    assert (X : Int_part 5.5 = 5%Z).
    { unfold Int_part. assert (up 5.5 = 6%Z) as ->; [|reflexivity]. symmetry. apply tech_up; simpl; lra. }
    rewrite X. simpl. lia. }
  destruct (run_step_total LR LR_complete m1 (5.5 * step_dt m) 3 P1) as (a0 & a & A); [rewrite D1; exact ST|].
  destruct (run_step_total LR LR_complete m2 (5.5 * step_dt m) 3 P2) as (b0 & b & B); [rewrite D2; exact ST|].
  exists m, m1, m2, a, b, (5.5 * step_dt m). split; [exact LR_ok|]. split; [exact RL|]. split; [exact U|]. split; [exact Hn|]. split; [exact HN|].
  split; [exact E1|]. split; [rewrite Hu; exact (rec_close 0 ltac:(lia))|]. split; [exact E2|].
  split. { rewrite Hu. unfold end_node. rewrite HN. pose proof (rec_close 3 (le_n 3)) as X. replace (INR 3) with 3 in X by (simpl; ring). exact X. }
  split. { rewrite Ht. simpl INR. unfold unit_step. destruct (Rltb_spec (0 + 0 * step_dt m) 0); [lra|]. destruct (Rltb_spec (0 + 0 * step_dt m - step_dt m) 0); lra. }
  destruct (run_step_states LR _ _ _ _ _ A) as [_ A']. destruct (run_step_states LR _ _ _ _ _ B) as [_ B'].
  split; [exact A'|]. split; [exact B'|]. auto.
Qed.
