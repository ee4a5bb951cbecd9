(** The lossless uniform one-conductor line at its default step follows the bounce diagram. *)
From Coq Require Import String List Arith ZArith Bool Lia Reals Lra.
From Verif Require Import Num Py Arr ArrFacts NumR RFacts LapackR Probes Dispersive Line LineFacts SpecLine SpecR SpecDyn HistoryFacts
  NearestFacts TotalFacts RunEqFacts StepProps ExampleLine RunProps.
Import ListNotations.
Local Open Scope R_scope.

Lemma mulv_1 A x c : mulv 1 A x c = A c 0%nat * x 0%nat.
Proof. unfold mulv. rewrite sumR_S, sumR_0. rring. Qed.

Section Bounce.
Variable LA : lapack NumR.
Hypothesis LAok : lapack_ok LA.

Lemma bounce_run (m0 m : mtl NumR) (N : nat) (l c h : R) T (f b : Z -> R) :
  history LA m0 m -> conductors m = 1%nat -> cells m = N -> undispersed m ->
  0 < l -> 0 < c -> 0 < h -> 0 <= Zs_ m 0 0 -> 0 <= Zl_ m 0 0 ->
  (forall k, (k < N)%nat -> cell_len m k = h /\ L_ m k 0 0 = l /\ R_ m k 0 0 = 0) ->
  (forall k, (k <= N)%nat -> C_ m k 0 0 = c /\ G_ m k 0 0 = 0 /\ G_ m0 k 0 0 = 0) ->
  step_dt m = h * sqrt (l * c) -> step_dt m0 = step_dt m ->
  (forall k, (k <= N)%nat -> volt m 0 k = 0) -> (forall k, (k < N)%nat -> curr m 0 k = 0) -> m_time m = 0 ->
  (forall k t, eTran m 0 k t = 0) -> (forall k t, eLong m 0 k t = 0) ->
  (forall t, t < 0 -> source m 0 0 t = 0 /\ source m 0 N t = 0) ->
  bounce N (sqrt (l / c)) (Zs_ m 0 0) (Zl_ m 0 0) (step_dt m) (source m 0 0) (source m 0 N) f b ->
  forall n a, run_state LA m T n a ->
  (forall k, (k <= N)%nat -> volt a 0 k = f (Z.of_nat n - Z.of_nat k)%Z + b (Z.of_nat n - (Z.of_nat N - Z.of_nat k))%Z) /\
  (forall k, (k < N)%nat -> sqrt (l / c) * curr a 0 k = f (Z.of_nat n - Z.of_nat k)%Z - b (Z.of_nat n - (Z.of_nat N - Z.of_nat k) + 1)%Z).
Proof.
  intros HH Hn HN HU Hl Hc Hh HZs HZl HL HC Hdt Hdt0 HV HI HT HeT HeL HVs (B0 & B1).
  assert (HR : reachable LA m) by (exists m0; auto).
  assert (N1 : (1 <= N)%nat) by (rewrite <- HN; apply (sh_N _ (reachable_shape _ _ HR))).
  set (Z0 := sqrt (l / c)) in *.
  assert (Slc : 0 < sqrt (l * c)) by (apply sqrt_lt_R0; nra).
  assert (HZ0 : 0 < Z0) by (apply sqrt_lt_R0; apply Rdiv_lt_0_compat; auto).
  assert (E1 : h * c / step_dt m = / Z0).
  { rewrite Hdt. unfold Z0. rewrite sqrt_mult, sqrt_div by lra. pose proof (sqrt_lt_R0 l Hl). pose proof (sqrt_lt_R0 c Hc).
    replace c with (sqrt c * sqrt c) at 1 by (apply sqrt_sqrt; lra). field. lra. }
  assert (E2 : h * l / step_dt m = Z0).
  { rewrite Hdt. unfold Z0. rewrite sqrt_mult, sqrt_div by lra. pose proof (sqrt_lt_R0 l Hl). pose proof (sqrt_lt_R0 c Hc).
    replace l with (sqrt l * sqrt l) at 1 by (apply sqrt_sqrt; lra). field. lra. }
  assert (Pdt : 0 < step_dt m) by (rewrite Hdt; apply Rmult_lt_0_compat; auto).
  induction n as [|n IH]; intros a Ha.
  - destruct Ha as (st & p & _ & _ & Hp & Hi). cbn [iterM] in Hi. injection Hi as <-. apply prepare_inv in Hp as (u1 & u2 & _ & ->).
    split; intros k Hk.
    + change (volt m 0 k = f (Z.of_nat 0 - Z.of_nat k)%Z + b (Z.of_nat 0 - (Z.of_nat N - Z.of_nat k))%Z).
      rewrite HV by auto. rewrite (proj1 (B0 (Z.of_nat 0 - Z.of_nat k)%Z ltac:(lia))), (proj2 (B0 (Z.of_nat 0 - (Z.of_nat N - Z.of_nat k))%Z ltac:(lia))). rring.
    + change (Z0 * curr m 0 k = f (Z.of_nat 0 - Z.of_nat k)%Z - b (Z.of_nat 0 - (Z.of_nat N - Z.of_nat k) + 1)%Z).
      rewrite HI by auto. rewrite (proj1 (B0 (Z.of_nat 0 - Z.of_nat k)%Z ltac:(lia))), (proj2 (B0 (Z.of_nat 0 - (Z.of_nat N - Z.of_nat k) + 1)%Z ltac:(lia))). rring.
  - rename a into b'. assert (Ha' : exists a, run_step LA m T n a b').
    { destruct Ha as (st & p & H1 & H2 & H3 & H4). rewrite iterM_S in H4. inv_bind H4. exists a, st, p. repeat split; auto; lia. }
    destruct Ha' as (a & Hab). clear Ha. destruct (run_step_states LA _ _ _ _ _ Hab) as [Ha _].
    destruct (IH a Ha) as [IV II]. clear IH.
    assert (Hc0 : (0 < conductors m)%nat) by lia.
    assert (V : forall k, (k <= N)%nat -> volt b' 0 k = f (Z.of_nat (S n) - Z.of_nat k)%Z + b (Z.of_nat (S n) - (Z.of_nat N - Z.of_nat k))%Z).
    { intros k Hk. destruct (Nat.eq_dec k 0) as [->|Hk0]; [|destruct (Nat.eq_dec k N) as [->|HkN]].
      - pose proof (left_terminal LA LAok m0 m T n a b' 0%nat HH Hab Hc0) as E. cbv zeta in E.
        rewrite Hn, !mulv_1, HT, Hdt0, !HeT in E.
        destruct (HC 0%nat ltac:(lia)) as (C0 & G0 & G00). destruct (HL 0%nat ltac:(lia)) as (h0 & _).
        rewrite C0, G00, h0, (IV 0%nat ltac:(lia)) in E.
        pose proof (II 0%nat ltac:(lia)) as EI. set (i0 := curr a 0 0) in *. set (v' := volt b' 0 0) in *. clearbody i0 v'.
        set (zs := Zs_ m 0 0) in *. clearbody zs.
        destruct (B1 (Z.of_nat (S n)) ltac:(lia)) as [F1 _].
        replace (Z.of_nat (S n) - 1)%Z with (Z.of_nat n) in F1 by lia. rewrite <- INR_IZR_INZ in F1.
        replace (0 + INR n * step_dt m) with (INR n * step_dt m) in E by ring.
        replace (Z.of_nat (S n) - Z.of_nat 0)%Z with (Z.of_nat (S n)) by lia.
        replace (Z.of_nat (S n) - (Z.of_nat N - Z.of_nat 0))%Z with (Z.of_nat (S n) - Z.of_nat N)%Z by lia.
        replace (Z.of_nat n - Z.of_nat 0)%Z with (Z.of_nat n) in * by lia.
        replace (Z.of_nat n - (Z.of_nat N - Z.of_nat 0))%Z with (Z.of_nat n - Z.of_nat N)%Z in * by lia.
        replace (Z.of_nat n - Z.of_nat N + 1)%Z with (Z.of_nat (S n) - Z.of_nat N)%Z in * by lia.
        assert (FN : f (Z.of_nat n) * (Z0 + zs) = Z0 * source m 0 0 (INR n * step_dt m - step_dt m) + (zs - Z0) * b (Z.of_nat n - Z.of_nat N)%Z).
        { destruct (Nat.eq_dec n 0) as [->|Hn0].
          - rewrite (proj1 (B0 (Z.of_nat 0) ltac:(lia))), (proj2 (B0 (Z.of_nat 0 - Z.of_nat N)%Z ltac:(lia))).
            rewrite (proj1 (HVs (INR 0 * step_dt m - step_dt m) ltac:(simpl; lra))). ring.
          - destruct (B1 (Z.of_nat n) ltac:(lia)) as [F2 _]. rewrite F2.
            replace (IZR (Z.of_nat n - 1) * step_dt m) with (INR n * step_dt m - step_dt m) by (rewrite minus_IZR, <- INR_IZR_INZ; ring).
            field. lra. }
        set (V1 := source m 0 0 (INR n * step_dt m)) in *. set (V0 := source m 0 0 (INR n * step_dt m - step_dt m)) in *. clearbody V1 V0.
        set (fn := f (Z.of_nat n)) in *. set (fs := f (Z.of_nat (S n))) in *. set (bn := b (Z.of_nat n - Z.of_nat N)%Z) in *.
        set (bs := b (Z.of_nat (S n) - Z.of_nat N)%Z) in *. clearbody fn fs bn bs.
        assert (E' : zs * (v' - (fn + bn)) / Z0 + v' + (fn + bn) = V1 + V0 - 2 * zs * i0).
        { replace (zs * (v' - (fn + bn)) / Z0) with (zs * (v' - (fn + bn)) * (h * c / step_dt m)) by (rewrite E1; reflexivity).
          assert (Eh : h * (zs * (c * (v' - (fn + bn))) / step_dt m + zs * (0 * (v' + (fn + bn))) / 2) = zs * (v' - (fn + bn)) * (h * c / step_dt m)) by (field; lra).
          rsimpl. rewrite Eh in E. rewrite E. field. lra. }
        assert (E3 : zs * (v' - (fn + bn)) + Z0 * (v' + (fn + bn)) = Z0 * (V1 + V0) - 2 * zs * (Z0 * i0)).
        { replace (zs * (v' - (fn + bn)) + Z0 * (v' + (fn + bn))) with (Z0 * (zs * (v' - (fn + bn)) / Z0 + v' + (fn + bn))) by (field; lra).
          rewrite E'. ring. }
        rewrite EI in E3. apply (Rmult_eq_reg_l (zs + Z0)); [|lra]. rewrite F1.
        replace ((zs + Z0) * (Z0 / (Z0 + zs) * V1 + (zs - Z0) / (zs + Z0) * bs + bs)) with (Z0 * V1 + 2 * zs * bs) by (field; lra).
        lra.
      - pose proof (right_terminal LA LAok m0 m T n a b' 0%nat HH Hab Hc0) as E. cbv zeta in E.
        rewrite Hn, !mulv_1, HT, Hdt0, !HeT, HN in E.
        destruct (HC N ltac:(lia)) as (C0 & G0 & G00). destruct (HL (N - 1)%nat ltac:(lia)) as (h0 & _).
        rewrite C0, G00, h0, (IV N ltac:(lia)) in E.
        pose proof (II (N - 1)%nat ltac:(lia)) as EI. set (i0 := curr a 0 (N - 1)) in *. set (v' := volt b' 0 N) in *. clearbody i0 v'.
        set (zs := Zl_ m 0 0) in *. clearbody zs.
        destruct (B1 (Z.of_nat (S n)) ltac:(lia)) as [_ F1].
        replace (Z.of_nat (S n) - 1)%Z with (Z.of_nat n) in F1 by lia. rewrite <- INR_IZR_INZ in F1.
        replace (0 + INR n * step_dt m) with (INR n * step_dt m) in E by ring.
        replace (Z.of_nat (S n) - (Z.of_nat N - Z.of_nat N))%Z with (Z.of_nat (S n)) by lia.
        replace (Z.of_nat n - (Z.of_nat N - Z.of_nat N))%Z with (Z.of_nat n) in * by lia.
        replace (Z.of_nat n - (Z.of_nat N - Z.of_nat (N - 1)) + 1)%Z with (Z.of_nat n) in * by lia.
        replace (Z.of_nat n - Z.of_nat (N - 1))%Z with (Z.of_nat (S n) - Z.of_nat N)%Z in * by lia.
        assert (FN : b (Z.of_nat n) * (Z0 + zs) = Z0 * source m 0 N (INR n * step_dt m - step_dt m) + (zs - Z0) * f (Z.of_nat n - Z.of_nat N)%Z).
        { destruct (Nat.eq_dec n 0) as [->|Hn0].
          - rewrite (proj2 (B0 (Z.of_nat 0) ltac:(lia))), (proj1 (B0 (Z.of_nat 0 - Z.of_nat N)%Z ltac:(lia))).
            rewrite (proj2 (HVs (INR 0 * step_dt m - step_dt m) ltac:(simpl; lra))). ring.
          - destruct (B1 (Z.of_nat n) ltac:(lia)) as [_ F2]. rewrite F2.
            replace (IZR (Z.of_nat n - 1) * step_dt m) with (INR n * step_dt m - step_dt m) by (rewrite minus_IZR, <- INR_IZR_INZ; ring).
            field. lra. }
        set (V1 := source m 0 N (INR n * step_dt m)) in *. set (V0 := source m 0 N (INR n * step_dt m - step_dt m)) in *. clearbody V1 V0.
        set (fn := b (Z.of_nat n)) in *. set (fs := b (Z.of_nat (S n))) in *. set (bn := f (Z.of_nat n - Z.of_nat N)%Z) in *.
        set (bs := f (Z.of_nat (S n) - Z.of_nat N)%Z) in *. clearbody fn fs bn bs.
        assert (E' : zs * (v' - (bn + fn)) / Z0 + v' + (bn + fn) = V1 + V0 + 2 * zs * i0).
        { replace (zs * (v' - (bn + fn)) / Z0) with (zs * (v' - (bn + fn)) * (h * c / step_dt m)) by (rewrite E1; reflexivity).
          assert (Eh : h * (zs * (c * (v' - (bn + fn))) / step_dt m + zs * (0 * (v' + (bn + fn))) / 2) = zs * (v' - (bn + fn)) * (h * c / step_dt m)) by (field; lra).
          rsimpl. rewrite Eh in E. rewrite E. field. lra. }
        assert (E3 : zs * (v' - (bn + fn)) + Z0 * (v' + (bn + fn)) = Z0 * (V1 + V0) + 2 * zs * (Z0 * i0)).
        { replace (zs * (v' - (bn + fn)) + Z0 * (v' + (bn + fn))) with (Z0 * (zs * (v' - (bn + fn)) / Z0 + v' + (bn + fn))) by (field; lra).
          rewrite E'. ring. }
        rewrite EI in E3. apply (Rmult_eq_reg_l (zs + Z0)); [|lra]. rewrite F1.
        replace ((zs + Z0) * (bs + (Z0 / (Z0 + zs) * V1 + (zs - Z0) / (zs + Z0) * bs))) with (Z0 * V1 + 2 * zs * bs) by (field; lra).
        lra.
      - pose proof (voltage_eq LA LAok m T n a b' 0%nat k HR Hab Hc0 ltac:(lia) ltac:(lia)) as E. cbv zeta in E.
        rewrite Hn, !mulv_1, !HeT in E. destruct (HC k Hk) as (-> & G0 & _) in E. rewrite G0 in E.
        assert (Ew : width m k = h).
        { unfold width. rewrite HN. destruct (Nat.eqb_spec k 0); [lia|]. destruct (Nat.eqb_spec k N); [lia|].
          rewrite (proj1 (HL (k - 1)%nat ltac:(lia))), (proj1 (HL k ltac:(lia))). lra. }
        rewrite Ew, (IV k Hk) in E. pose proof (II k ltac:(lia)) as I1. pose proof (II (k - 1)%nat ltac:(lia)) as I2.
        set (v' := volt b' 0 k) in *. set (i1 := curr a 0 k) in *. set (i2 := curr a 0 (k - 1)) in *. clearbody v' i1 i2.
        replace (Z.of_nat n - Z.of_nat (k - 1))%Z with (Z.of_nat (S n) - Z.of_nat k)%Z in I2 by lia.
        replace (Z.of_nat n - (Z.of_nat N - Z.of_nat (k - 1)) + 1)%Z with (Z.of_nat n - (Z.of_nat N - Z.of_nat k))%Z in I2 by lia.
        replace (Z.of_nat n - (Z.of_nat N - Z.of_nat k) + 1)%Z with (Z.of_nat (S n) - (Z.of_nat N - Z.of_nat k))%Z in I1 by lia.
        set (p1 := f (Z.of_nat n - Z.of_nat k)%Z) in *. set (p2 := b (Z.of_nat n - (Z.of_nat N - Z.of_nat k))%Z) in *.
        set (p3 := f (Z.of_nat (S n) - Z.of_nat k)%Z) in *. set (p4 := b (Z.of_nat (S n) - (Z.of_nat N - Z.of_nat k))%Z) in *. clearbody p1 p2 p3 p4.
        assert (Eh : h * (c * (v' - (p1 + p2) + (0 - 0)) / step_dt m + 0 * (v' + (p1 + p2) + (0 - 0)) / 2) = (v' - (p1 + p2)) * (h * c / step_dt m)) by (field; lra).
        rsimpl. rewrite Eh, E1 in E.
        assert (E3 : v' - (p1 + p2) + Z0 * i1 - Z0 * i2 = 0).
        { replace (v' - (p1 + p2) + Z0 * i1 - Z0 * i2) with (Z0 * ((v' - (p1 + p2)) * / Z0 + i1 - i2)) by (field; lra). rewrite E. ring. }
        rewrite I1, I2 in E3. lra. }
    split; [exact V|]. intros k Hk.
    pose proof (current_eq_plain LA LAok m T n a b' 0%nat k HR HU Hab Hc0 ltac:(lia)) as E. cbv zeta in E.
    rewrite Hn, !mulv_1, !HeT, !HeL in E. destruct (HL k Hk) as (h0 & L0 & R0). rewrite h0, L0, R0, (V (S k)), (V k) in E by lia.
    pose proof (II k Hk) as I1. set (i' := curr b' 0 k) in *. set (i1 := curr a 0 k) in *. clearbody i' i1.
    replace (Z.of_nat (S n) - Z.of_nat (S k))%Z with (Z.of_nat n - Z.of_nat k)%Z in E by lia.
    replace (Z.of_nat (S n) - (Z.of_nat N - Z.of_nat (S k)))%Z with (Z.of_nat (S n) - (Z.of_nat N - Z.of_nat k) + 1)%Z in E by lia.
    replace (Z.of_nat n - (Z.of_nat N - Z.of_nat k) + 1)%Z with (Z.of_nat (S n) - (Z.of_nat N - Z.of_nat k))%Z in I1 by lia.
    assert (Eh : h * (l * (i' - i1) / step_dt m + 0 * (i' + i1) / 2) = (i' - i1) * (h * l / step_dt m)) by (field; lra).
    rsimpl. rewrite Eh, E2 in E. lra.
Qed.
End Bounce.
