(** A coupled two-conductor lossy line, driven at one end: the constructor accepts it, a
    source can be added and run_until can be called.  Used in the examples. *)
From Coq Require Import String List Arith ZArith Bool Lia Reals Lra.
From Verif Require Import Num Py Arr ArrFacts NumR RFacts LinAlg LapackR Probes Dispersive Line LineFacts NearestFacts
  SpecLine SpecR HistoryFacts GeometryFacts LineEqFacts StepTotal TotalFacts NewTotal ExampleLine.
Import ListNotations.
Local Open Scope R_scope.

Definition exL : mat NumR := [[2; 1]; [1; 2]].
Definition exC : mat NumR := [[2; -1]; [-1; 2]].
Definition exR : mat NumR := [[1; 0]; [0; 2]].
Definition exG : mat NumR := [[1; -1]; [-1; 1]].

Lemma quad2 (A : nat -> nat -> R) x : quad 2 A x =
  x 0%nat * (A 0%nat 0%nat * x 0%nat + A 0%nat 1%nat * x 1%nat)
  + x 1%nat * (A 1%nat 0%nat * x 0%nat + A 1%nat 1%nat * x 1%nat).
Proof. unfold quad. rewrite !sumR_S, !sumR_0. rring. Qed.

Lemma pd2 (A : nat -> nat -> R) : A 0%nat 0%nat = 2 -> A 1%nat 1%nat = 2 ->
  A 0%nat 1%nat * A 0%nat 1%nat = 1 -> A 1%nat 0%nat = A 0%nat 1%nat -> pos_def 2 A.
Proof.
  intros H00 H11 H01 H10 x (i & Hi & Hx). rewrite quad2, H00, H11, H10.
  set (b := A 0%nat 1%nat) in *. set (x0 := x 0%nat) in *. set (x1 := x 1%nat) in *.
  assert (Hs : 0 < x0 * x0 + x1 * x1).
  { assert (i = 0 \/ i = 1)%nat as [-> | ->] by lia; [fold x0 in Hx|fold x1 in Hx];
      apply Rlt_0_sqr in Hx; pose proof (Rle_0_sqr x0); pose proof (Rle_0_sqr x1); unfold Rsqr in *; lra. }
  replace (x0 * (2 * x0 + b * x1) + x1 * (b * x0 + 2 * x1)) with
    ((x0 + b * x1) * (x0 + b * x1) + (x0 * x0 + (2 - b * b) * (x1 * x1))) by ring.
  rewrite H01. pose proof (Rle_0_sqr (x0 + b * x1)) as Hq. unfold Rsqr in Hq. lra.
Qed.

Definition ex_new (ju jdu : nat -> vec NumR) : res (mtl NumR) :=
  mtl_new LR ju jdu (PArr 2 2 exL) (PArr 2 2 exC) (PArr 2 2 exR) (PArr 2 2 exG) (3 : NumR) [] [3%nat]
    (@ZVec NumR 2 [1; 0]) (@ZVec NumR 2 [1; 2]) "ex"%string.

Lemma exLC : mm 2 exL exC = [[3; 0]; [0; 3]] :> mat NumR.
Proof.
  unfold mm, mk2, mk, exL, exC, get2, get. cbn [seq map sumn nth]. rsimpl.
  repeat (apply f_equal2; [repeat (apply f_equal2; [ring|])|]); reflexivity.
Qed.

Lemma ex_new_ok ju jdu : exists m, ex_new ju jdu = Ok m /\ physical m /\ conductors m = 2%nat /\ cells m = 3%nat /\
  (forall k, (k < 3)%nat -> cell_len m k = 1) /\
  (forall k i j, (k < 3)%nat -> L_ m k i j = get2 exL i j /\ R_ m k i j = get2 exR i j) /\
  (forall k i j, (k <= 3)%nat -> C_ m k i j = get2 exC i j /\ G_ m k i j = get2 exG i j) /\
  m_zs m = mk2 2 2 (fun i j => @get NumR [1; 0] i * @delta NumR i j) /\
  m_u m = [[0; 0; 0]; [0; 0; 1]; [0; 0; 2]; [0; 0; 3]].
Proof.
  destruct (new_total LR LR_complete ju jdu (PArr 2 2 exL) (PArr 2 2 exC) (PArr 2 2 exR) (PArr 2 2 exG) (3 : NumR) [] 3 1
     (@ZVec NumR 2 [1; 0]) (@ZVec NumR 2 [1; 2]) "ex"%string 2%nat (mk2 2 2 (get2 exL)) (mk2 2 2 (get2 exC))
     (mk2 2 2 (get2 exR)) (mk2 2 2 (get2 exG))
     (mk2 2 2 (fun i j => @get NumR [1; 0] i * @delta NumR i j)) (mk2 2 2 (fun i j => @get NumR [1; 2] i * @delta NumR i j))
     (fun i => @get NumR [1; 0] i) (fun i => @get NumR [1; 2] i))
     as (m & Hm & P & M1 & M2 & M3 & M4 & M5 & M6 & M7 & M8); auto.
  - intros i Hi. assert (i = 0)%nat as -> by lia. exists 2%nat. split; [lia|]. cbn. rsimpl. lra.
  - apply pd2; unfold exL, get2, get, mk2, mk; cbn [seq map nth]; rsimpl; ring.
  - apply pd2; unfold exC, get2, get, mk2, mk; cbn [seq map nth]; rsimpl; ring.
  - intros x. rewrite quad2. pose proof (Rle_0_sqr (x 0%nat)). pose proof (Rle_0_sqr (x 1%nat)).
    unfold Rsqr, exR, get2, get, mk2, mk in *; cbn [seq map nth]; rsimpl; lra.
  - intros x. rewrite quad2. pose proof (Rle_0_sqr (x 0%nat - x 1%nat)).
    unfold Rsqr, exG, get2, get, mk2, mk in *; cbn [seq map nth]; rsimpl; lra.
  - split.
    + intros i j Hi Hj. assert (i = 0 \/ i = 1)%nat as [-> | ->] by lia; assert (j = 0 \/ j = 1)%nat as [-> | ->] by lia; reflexivity.
    + intros i Hi. assert (i = 0 \/ i = 1)%nat as [-> | ->] by lia; cbn; rsimpl; lra.
  - split.
    + intros i j Hi Hj. assert (i = 0 \/ i = 1)%nat as [-> | ->] by lia; assert (j = 0 \/ j = 1)%nat as [-> | ->] by lia; reflexivity.
    + intros i Hi. assert (i = 0 \/ i = 1)%nat as [-> | ->] by lia; cbn; rsimpl; lra.
  - assert (E : mm 2 (mk2 2 2 (get2 exL)) (mk2 2 2 (get2 exC)) = [[3; 0]; [0; 3]] :> mat NumR).
    { rewrite <- exLC. reflexivity. }
    rewrite E. split; [discriminate|]. intros e He.
    assert (e = 3) as -> by (cbn in He; intuition congruence).
    exists (fun _ => 1). split; [exists 0%nat; split; [lia|lra]|].
    intros i Hi. rewrite !sumR_S, sumR_0. assert (i = 0 \/ i = 1)%nat as [-> | ->] by lia; cbn; rsimpl; ring.
  - exists m. rewrite M2 in *. split; [exact Hm|]. split; [exact P|]. split; [exact M1|]. split; [reflexivity|].
    split; [|split; [|split; [|split]]].
    + intros k Hk. rewrite M3 by lia. rewrite Nat.div_small by lia.
      unfold seg_du, vdivs, vsub, mk, get. cbn [seq map nth]. rsimpl. change (IZR (Z.of_nat 3)) with 3.
      replace ((0 - 0) / 3) with 0 by field. replace ((3 - 0) / 3) with 1 by field. exact (eq_trans (vnorm_z 1) Rabs_R1).
    + intros k i j Hk. destruct (M4 k i j Hk) as [-> ->]. split.
      * destruct i as [|[|[|]]], j as [|[|[|]]]; reflexivity.
      * destruct i as [|[|[|]]], j as [|[|[|]]]; reflexivity.
    + intros k i j Hk. destruct (M5 k i j Hk) as [-> ->]. split.
      * destruct i as [|[|[|]]], j as [|[|[|]]]; reflexivity.
      * destruct i as [|[|[|]]], j as [|[|[|]]]; reflexivity.
    + exact M6.
    + rewrite M8. unfold mk. cbn [seq map Nat.mul Nat.add Nat.eqb nth].
      unfold closed_u, seg_du, vdivs, vsub, vadd, vscal, mk, get.
      cbn [Nat.divmod Nat.div Nat.modulo fst snd Nat.sub seq map nth Z.of_nat Pos.of_succ_nat Pos.succ]. rsimpl.
      replace ((0 - 0) / 3) with 0 by field. replace ((3 - 0) / 3) with 1 by field.
      repeat (apply f_equal2; [repeat (apply f_equal2; [ring|])|]); reflexivity.
Qed.

(** driven by a unit step on conductor 0 and asked to run for five and a half steps *)
Lemma ex_run : exists m0 m a b,
  ex_new (fun _ => []) (fun _ => []) = Ok m0 /\
  add_voltage_source m0 (@PosF NumR 0) 0 (fun t => if Rltb t 0 then 0 else 1) = Ok m /\
  history LR m0 m /\ physical m /\ conductors m = 2%nat /\ cells m = 3%nat /\
  step_dt m = step_dt m0 /\ (forall k i j, G_ m k i j = G_ m0 k i j) /\
  run_step LR m (5.5 * step_dt m) 3 a b.
Proof.
  destruct (ex_new_ok (fun _ => []) (fun _ => [])) as (m0 & E0 & P0 & En & EN & _).
  destruct (add_voltage_source m0 (@PosF NumR 0) 0 (fun t => if Rltb t 0 then 0 else 1)) as [m|e] eqn:Em.
  2:{ unfold add_voltage_source in Em. unfold conductors in En. rewrite En in Em. discriminate. }
  assert (Hm : conductors m = 2%nat /\ cells m = 3%nat /\ step_dt m = step_dt m0 /\ (forall k i j, G_ m k i j = G_ m0 k i j)).
  { unfold add_voltage_source in Em. destruct (_ <? _)%nat; [|discriminate]. injection Em as <-. auto. }
  destruct Hm as (Hn & HN & Hdt & HG).
  pose proof (physical_source _ _ _ _ _ P0 Em) as P.
  destruct (run_step_total LR LR_complete m (5.5 * step_dt m) 3 P) as (a & b & H).
  { pose proof (ph_dt _ P). replace (5.5 * step_dt m / step_dt m) with 5.5 by (field; lra).
    assert (E : Int_part 5.5 = 5%Z).
    { unfold Int_part. assert (up 5.5 = 6%Z) as ->; [|reflexivity]. symmetry. apply tech_up; simpl; lra. }
    rewrite E. simpl. lia. }
  exists m0, m, a, b. repeat (split; auto).
  eapply h_source; [|exact Em]. apply h_new. unfold ex_new in E0. repeat eexists. exact E0.
Qed.
