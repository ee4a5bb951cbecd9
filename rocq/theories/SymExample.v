(** Lines that are mirror images, conductors and relabellings of one another; used in the examples. *)
From Coq Require Import String List Arith ZArith Bool Lia Reals Lra.
From Verif Require Import Num Py Arr ArrFacts NumR RFacts LinAlg LapackR Probes Dispersive Line LineFacts NearestFacts SpecLine SpecR HistoryFacts LineEqFacts
  PlainFacts StepTotal TotalFacts NewTotal GeometryFacts TermFacts RunEqFacts RunProps GeomProps2 SpecSym SymFacts SymProps ExampleLine ExampleRun.
Import ListNotations.
Local Open Scope R_scope.

(** a line along z driven at node [q] *)
Lemma driven_at LA ju jdu (l c r g len zs zl : R) (N q : nat) name (f : R -> R) :
  lapack_ok LA -> lapack_complete LA ->
  0 < l -> 0 < c -> 0 <= r -> 0 <= g -> len <> 0 -> (1 <= N)%nat -> (q <= N)%nat -> 0 <= zs -> 0 <= zl ->
  exists m0 m : mtl NumR,
    mtl_new LA ju jdu (@PFloat NumR l) (@PFloat NumR c) (@PFloat NumR r) (@PFloat NumR g) len [] [N]
      (@ZScal NumR zs) (@ZScal NumR zl) name = Ok m0 /\
    add_voltage_source m0 (@PosF NumR (INR q * (len / INR N))) 0 f = Ok m /\ history LA m0 m /\
    physical m /\ one_line m N l c r g (Rabs len / INR N) zs zl /\
    step_dt m0 = Rabs len / INR N * sqrt (l * c) /\ step_dt m = step_dt m0 /\
    (forall j k, source m j k = if ((j =? 0) && (k =? q))%nat then f else (fun _ => 0)) /\
    (forall j k, volt m j k = 0) /\ (forall j k, curr m j k = 0) /\
    (forall j k, eTran m j k = (fun _ => 0)) /\ (forall j k, eLong m j k = (fun _ => 0)) /\ m_time m = 0 /\
    (forall k i j, G_ m k i j = G_ m0 k i j).
Proof.
  intros HA HC Hl Hc Hr Hg Hlen HN Hq Hzs Hzl.
  destruct (one_conductor LA HA HC ju jdu l c r g len zs zl N name) as
    (m0 & H0 & P0 & O0 & Edt & Hu & Hs & L1 & L2 & Hv & Hi & HeT & HeL & Ht); auto.
  assert (HINR : 0 < INR N) by (apply lt_0_INR; lia).
  assert (En : nearest (m_u m0) [0; 0; INR q * (len / INR N)] = q).
  { apply (nearest_z (m_u m0) N); auto; try lia.
    - pose proof (sh_u _ (ph_shape _ P0)) as E. pose proof (ol_N _ _ _ _ _ _ _ _ _ O0) as F.
      unfold cells in F. rewrite F in E. exact E.
    - unfold Rdiv. apply Rmult_integral_contrapositive. split; auto. apply Rinv_neq_0_compat. lra. }
  assert (Ea : add_voltage_source m0 (@PosF NumR (INR q * (len / INR N))) 0 f = Ok (m_set_vsrc m0 (upd2 (m_vsrc m0) 0 q f))).
  { unfold add_voltage_source. pose proof (ol_n _ _ _ _ _ _ _ _ _ O0) as E. unfold conductors in E. rewrite E.
    cbn [pos_vec]. match goal with |- context [nearest ?u ?p] => change (nearest u p) with (@nearest NumR (m_u m0) [0; 0; INR q * (len / INR N)]) end.
    rewrite En. reflexivity. }
  exists m0, (m_set_vsrc m0 (upd2 (m_vsrc m0) 0 q f)).
  split; [exact H0|]. split; [exact Ea|].
  split. { eapply h_source; [|exact Ea]. apply h_new. repeat eexists; exact H0. }
  split; [eapply physical_source; eauto|].
  split; [destruct O0; split; auto|]. split; [exact Edt|]. split; [reflexivity|].
  split. { intros j k. rewrite upd2_source by (rewrite ?L1, ?L2; lia). now rewrite Hs. }
  split; [exact Hv|]. split; [exact Hi|]. split; [exact HeT|]. split; [exact HeL|]. split; [exact Ht|]. reflexivity.
Qed.

Definition pulse (t : R) : R := if Rltb t 0 then 0 else 1.
Ltac idx1 := repeat match goal with H : (?i < 1)%nat |- _ => assert (i = 0)%nat by lia; subst i; clear H end.

Lemma mirror_example : exists m0 m m0' m' : mtl NumR,
  lapack_ok LR /\ history LR m0 m /\ undispersed m /\ history LR m0' m' /\ undispersed m' /\ mirrored m0 m m0' m' /\
  (forall c k, (c < conductors m)%nat -> (k <= cells m)%nat -> volt m' c k = volt m c (cells m - k)) /\
  (forall c k, (c < conductors m)%nat -> (k < cells m)%nat -> curr m' c k = - curr m c (cells m - 1 - k)) /\
  Zs_ m 0 0 <> Zl_ m 0 0 /\ source m 0 0 1 = 1 /\
  (forall T, exists n a, run_state LR m T n a) /\ (forall T, exists n a, run_state LR m' T n a).
Proof.
  destruct (driven_at LR (fun _ => []) (fun _ => []) 2 3 1 1 4 1 5 4 0 "a"%string pulse LR_ok LR_complete) as
    (m0 & m & E0 & E1 & HH & P & O & D0 & D1 & S & V & I & ET & EL & T0 & G); try lra; try lia.
  destruct (driven_at LR (fun _ => []) (fun _ => []) 2 3 1 1 4 5 1 4 4 "b"%string pulse LR_ok LR_complete) as
    (m0' & m' & E0' & E1' & HH' & P' & O' & D0' & D1' & S' & V' & I' & ET' & EL' & T0' & G'); try lra; try lia.
  exists m0, m, m0', m'. destruct O, O'.
  split; [exact LR_ok|]. split; [exact HH|]. split; [apply P|]. split; [exact HH'|]. split; [apply P'|].
  split; [|split; [|split; [|split; [|split]]]].
  - split; try congruence; rewrite ?ol_n, ?ol_N.
    + intros k Hk. rewrite ol_h, ol_h0 by lia. reflexivity.
    + intros k i j Hk Hi Hj. idx1. rewrite ol_L, ol_L0 by lia. reflexivity.
    + intros k i j Hk Hi Hj. idx1. rewrite ol_R, ol_R0 by lia. reflexivity.
    + intros k i j Hk Hi Hj. idx1. rewrite ol_C, ol_C0 by lia. reflexivity.
    + intros k i j Hk Hi Hj. idx1. rewrite ol_G, ol_G0 by lia. reflexivity.
    + intros i j Hi Hj. idx1. rewrite <- !G, <- !G'. rewrite !ol_G, !ol_G0 by lia. auto.
    + intros i j Hi Hj. idx1. rewrite ol_zs, ol_zl, ol_zs0, ol_zl0. auto.
    + intros c t Hc. idx1. rewrite !S, !S'. auto.
    + intros c k t Hc Hk. rewrite EL, EL'. rsimpl. ring.
  - intros c k _ _. now rewrite V, V'.
  - intros c k _ _. rewrite I, I'. rsimpl. ring.
  - rewrite ol_zs, ol_zl. lra.
  - rewrite S. cbn. unfold pulse. destruct (Rltb_spec 1 0); lra.
  - split; intros T.
    + destruct (run_total LR LR_complete m T P) as [a Ha]. destruct (run_until_state LR m T a Ha) as (n & _ & R). exists n, a. exact R.
    + destruct (run_total LR LR_complete m' T P') as [a Ha]. destruct (run_until_state LR m' T a Ha) as (n & _ & R). exists n, a. exact R.
Qed.

(** the default step of a line with equal cells and equal velocities *)
Lemma uniform_dt ju jdu l c r g len np ndiv zs zl name (m : mtl NumR) (h s : R) :
  mtl_new LR ju jdu l c r g len np ndiv zs zl name = Ok m -> (forall k, (k < cells m)%nat -> cell_len m k = h) -> 0 < s ->
  (forall k i, (k < cells m)%nat -> (i < conductors m)%nat -> sumR (conductors m) (fun j => L_ m k i j * C_ m (S k) j i) = s) ->
  step_dt m = h * sqrt s.
Proof.
  intros H Hh Hs He. apply mtl_new_inv in H as (SH & (dt & HD & Edt) & _).
  assert (E : step_dt m = dt) by exact Edt. rewrite E. clear E.
  unfold get_max_timestep in HD. inv_bind HD. inv_bind HD. injection HD as <-.
  assert (a = h) as ->.
  { destruct (vmin_spec (filter (fun x0 : NumR => negb (x0 =? n0)%num) (concat (concat (k_h (m_core m)))))) as (hm & Eh & Ih & Lh).
    { intros E. rewrite E in Ha. discriminate. }
    rewrite Eh in Ha. injection Ha as <-. apply filter_In in Ih as [Ih Nz].
    apply in_concat in Ih as (row & Hrow & Hx). apply in_concat in Hrow as (mt & Hmt & Hrow).
    apply (In_nth _ _ ([] : mat NumR)) in Hmt as (k & Hk & <-). rewrite (sh_hl _ SH) in Hk.
    fold (getm (k_h (m_core m)) k) in Hrow.
    apply (In_nth _ _ ([] : vec NumR)) in Hrow as (i & Hi & <-). apply (In_nth _ _ (0 : NumR)) in Hx as (j & Hj & Ex).
    assert (Eg : get3 (k_h (m_core m)) k i j = hm) by exact Ex.
    assert (B : (i < conductors m)%nat /\ (j < conductors m)%nat).
    { destruct (sh_h _ SH k Hk) as [[y Ey]|Ey]; rewrite Ey in Hi, Hj; unfold mscal, mmap, zeros2, mk2 in Hi, Hj;
        rewrite length_mk in Hi; split; auto; rewrite nth_mk in Hj by auto; now rewrite length_mk in Hj. }
    destruct B as [Bi Bj]. rewrite h_diag in Eg by auto. rewrite Hh in Eg by auto.
    apply negb_true_iff in Nz. rsimpl. apply Reqb_false in Nz. unfold delta in Eg. destruct (i =? j)%nat; rsimpl; lra. }
  assert (V : forall z, In z (concat (get_phase_velocities LR (m_core m))) -> z = 1 / sqrt s).
  { intros z Hz. apply in_concat in Hz as (row & Hrow & Hz). unfold get_phase_velocities, mk in Hrow.
    apply in_map_iff in Hrow as (q & <- & Hq). apply in_seq in Hq. apply in_map_iff in Hz as (ev & <- & Hev).
    cbn [la_eig LR] in Hev. unfold mk in Hev. apply in_map_iff in Hev as (i & <- & Hi). apply in_seq in Hi.
    rewrite get2_mm by (unfold conductors in *; lia).
    rsimpl. apply (f_equal (fun x => 1 / sqrt x)).
    apply (He q i); unfold conductors, cells; lia. }
  assert (a0 = 1 / sqrt s) as ->.
  { assert (Ha1 : @vmax NumR (@concat (car NumR) (get_phase_velocities LR (m_core m))) = Ok a0) by exact Ha0. clear Ha0.
    destruct (concat (get_phase_velocities LR (m_core m))) as [|b l0] eqn:EV.
    - discriminate Ha1.
    - destruct (vmax_spec (b :: l0)) as (vm & Ev & Iv & _); [discriminate|].
      apply V. assert (a0 = vm) as ->; [|exact Iv]. congruence. }
  assert (0 < sqrt s) by (apply sqrt_lt_R0; nra). rsimpl. field. lra.
Qed.

Lemma nth_nth_const n k c j (t : R) : nth j (nth c (mk2 n k (fun _ _ (_ : NumR) => @n0 NumR)) []) (fun _ => @n0 NumR) t = 0.
Proof.
  unfold mk2. destruct (Nat.lt_ge_cases c n); [rewrite nth_mk by auto|rewrite nth_mk_over by auto; now destruct j].
  destruct (Nat.lt_ge_cases j k); [now rewrite nth_mk by auto|now rewrite nth_mk_over by auto].
Qed.

(** two conductors along z, three cells of unit length *)
Lemma two_conductors_u (L C R0 G : mat NumR) (zs0 zs1 zl0 zl1 s : R) name ju jdu :
  pos_def 2 (get2 (@mk2 (car NumR) 2 2 (get2 L))) -> pos_def 2 (get2 (@mk2 (car NumR) 2 2 (get2 C))) ->
  pos_semidef 2 (get2 (@mk2 (car NumR) 2 2 (get2 R0))) -> pos_semidef 2 (get2 (@mk2 (car NumR) 2 2 (get2 G))) ->
  mm 2 (@mk2 (car NumR) 2 2 (get2 L)) (@mk2 (car NumR) 2 2 (get2 C)) = [[s; 0]; [0; s]] :> mat NumR ->
  0 < s -> 0 <= zs0 -> 0 <= zs1 -> 0 <= zl0 -> 0 <= zl1 ->
  exists m : mtl NumR, mtl_new LR ju jdu (PArr 2 2 L) (PArr 2 2 C) (PArr 2 2 R0) (PArr 2 2 G) (3 : NumR) [] [3%nat]
    (@ZVec NumR 2 [zs0; zs1]) (@ZVec NumR 2 [zl0; zl1]) name = Ok m /\ physical m /\ conductors m = 2%nat /\ cells m = 3%nat /\
  (forall k, (k < 3)%nat -> cell_len m k = 1) /\
  (forall k i j, (k < 3)%nat -> (i < 2)%nat -> (j < 2)%nat -> L_ m k i j = get2 L i j /\ R_ m k i j = get2 R0 i j) /\
  (forall k i j, (k <= 3)%nat -> (i < 2)%nat -> (j < 2)%nat -> C_ m k i j = get2 C i j /\ G_ m k i j = get2 G i j) /\
  (forall i j, (i < 2)%nat -> (j < 2)%nat -> Zs_ m i j = (if (i =? j)%nat then @get NumR [zs0; zs1] i else 0) /\ Zl_ m i j = (if (i =? j)%nat then @get NumR [zl0; zl1] i else 0)) /\
  step_dt m = sqrt s /\ (forall c k, volt m c k = 0) /\ (forall c k, curr m c k = 0) /\
  (forall c k t, eTran m c k t = 0) /\ (forall c k t, eLong m c k t = 0) /\ (forall c k t, source m c k t = 0) /\ m_time m = 0 /\
  length (m_vsrc m) = 2%nat /\ (forall c, (c < 2)%nat -> length (nth c (m_vsrc m) []) = 4%nat) /\
  nearest (m_u m) [0; 0; 0] = 0%nat /\
  length (m_u m) = 4%nat /\ (forall j, (j <= 3)%nat -> nth j (m_u m) [] = [0; 0; INR j * 1]).
Proof.
  intros HL HC HR HG HLC Hs H1 H2 H3 H4.
  destruct (new_total LR LR_complete ju jdu (PArr 2 2 L) (PArr 2 2 C) (PArr 2 2 R0) (PArr 2 2 G) (3 : NumR) [] 3 1
     (@ZVec NumR 2 [zs0; zs1]) (@ZVec NumR 2 [zl0; zl1]) name 2%nat (mk2 2 2 (get2 L)) (mk2 2 2 (get2 C))
     (mk2 2 2 (get2 R0)) (mk2 2 2 (get2 G))
     (mk2 2 2 (fun i j => @get NumR [zs0; zs1] i * @delta NumR i j)) (mk2 2 2 (fun i j => @get NumR [zl0; zl1] i * @delta NumR i j))
     (fun i => @get NumR [zs0; zs1] i) (fun i => @get NumR [zl0; zl1] i))
     as (m & Hm & P & M1 & M2 & M3 & M4 & M5 & M6 & M7 & M8); auto.
  - intros i Hi. assert (i = 0)%nat as -> by lia. exists 2%nat. split; [lia|]. cbn. rsimpl. lra.
  - split.
    + intros i j Hi Hj. assert (i = 0 \/ i = 1)%nat as [-> | ->] by lia; assert (j = 0 \/ j = 1)%nat as [-> | ->] by lia; reflexivity.
    + intros i Hi. assert (i = 0 \/ i = 1)%nat as [-> | ->] by lia; cbn; rsimpl; lra.
  - split.
    + intros i j Hi Hj. assert (i = 0 \/ i = 1)%nat as [-> | ->] by lia; assert (j = 0 \/ j = 1)%nat as [-> | ->] by lia; reflexivity.
    + intros i Hi. assert (i = 0 \/ i = 1)%nat as [-> | ->] by lia; cbn; rsimpl; lra.
  - rewrite HLC. split; [discriminate|]. intros e He.
    assert (e = s) as -> by (cbn in He; intuition congruence).
    exists (fun _ => 1). split; [exists 0%nat; split; [lia|lra]|].
    intros i Hi. rewrite !sumR_S, sumR_0. assert (i = 0 \/ i = 1)%nat as [-> | ->] by lia; cbn; rsimpl; ring.
  - exists m. rewrite M2 in *. change (3 * 1)%nat with 3%nat in *.
    assert (X1 : forall k, (k < 3)%nat -> cell_len m k = 1).
    { intros k Hk. rewrite M3 by lia. rewrite Nat.div_small by lia.
      unfold seg_du, vdivs, vsub, mk, get. cbn [seq map nth]. rsimpl. change (IZR (Z.of_nat 3)) with 3.
      replace ((0 - 0) / 3) with 0 by field. replace ((3 - 0) / 3) with 1 by field. exact (eq_trans (vnorm_z 1) Rabs_R1). }
    assert (X2 : forall k i j, (k < 3)%nat -> (i < 2)%nat -> (j < 2)%nat -> L_ m k i j = get2 L i j /\ R_ m k i j = get2 R0 i j).
    { intros k i j Hk Hi Hj. destruct (M4 k i j Hk) as [-> ->]. rewrite !get2_mk2 by auto. auto. }
    assert (X3 : forall k i j, (k <= 3)%nat -> (i < 2)%nat -> (j < 2)%nat -> C_ m k i j = get2 C i j /\ G_ m k i j = get2 G i j).
    { intros k i j Hk Hi Hj. destruct (M5 k i j Hk) as [-> ->]. rewrite !get2_mk2 by auto. auto. }
    split; [exact Hm|]. split; [exact P|]. split; [exact M1|]. split; [reflexivity|]. split; [exact X1|]. split; [exact X2|]. split; [exact X3|].
    split. { intros i j Hi Hj. unfold Zs_, Zl_. rewrite M6, M7. change (@mk2 R) with (@mk2 (car NumR)). rewrite !get2_mk2 by auto. unfold delta. destruct (i =? j)%nat; split; rsimpl; ring. }
    split.
    { rewrite (uniform_dt _ _ _ _ _ _ _ _ _ _ _ _ m 1 s Hm); rewrite ?M1, ?M2; auto; [rring|].
      intros k i Hk Hi. rewrite (sumR_ext 2 _ (fun j => @get2 NumR (mk2 2 2 (get2 L)) i j * @get2 NumR (mk2 2 2 (get2 C)) j i)).
      - change (sumR 2 (fun j => @get2 NumR (mk2 2 2 (get2 L)) i j * @get2 NumR (mk2 2 2 (get2 C)) j i) = s).
        transitivity (@get2 NumR (mm 2 (mk2 2 2 (get2 L)) (mk2 2 2 (get2 C))) i i); [symmetry; now rewrite get2_mm by auto|].
        rewrite HLC. assert (i = 0 \/ i = 1)%nat as [-> | ->] by lia; reflexivity.
      - intros j Hj. rewrite !get2_mk2 by auto. destruct (X2 k i j Hk Hi Hj) as [-> _]. destruct (X3 (S k) j i ltac:(lia) Hj Hi) as [-> _]. reflexivity. }
    apply mtl_new_inv in Hm as (_ & _ & _ & _ & _ & Ev & Ei & Et & _ & _ & _ & Es & Ee & EE).
    unfold conductors, cells in M1, M2. rewrite M1, M2 in *.
    split. { intros. unfold volt. rewrite Ev. exact (@get2_zeros NumR _ _ _ _). }
    split. { intros. unfold curr. rewrite Ei. exact (@get2_zeros NumR _ _ _ _). }
    split. { intros c k t. unfold eTran. rewrite EE. apply nth_nth_const. }
    split. { intros c k t. unfold eLong. rewrite Ee. apply nth_nth_const. }
    split. { intros c k t. unfold source. rewrite Es. apply nth_nth_const. }
    split; [exact Et|]. split; [rewrite Es; reflexivity|].
    split. { intros c Hc. rewrite Es. unfold mk2. rewrite nth_mk by auto. apply length_mk. }
    assert (U : forall j, (j <= 3)%nat -> nth j (m_u m) [] = [0; 0; INR j * 1]).
    { intros j Hj. rewrite M8. change (3 * 1)%nat with 3%nat. rewrite nth_mk by lia.
      assert (j = 0 \/ j = 1 \/ j = 2 \/ j = 3)%nat as [->|[->|[->| ->]]] by lia; cbn [Nat.eqb nth];
      unfold closed_u, seg_du, vdivs, vsub, vadd, vscal, mk, get;
      cbn [Nat.divmod Nat.div Nat.modulo fst snd Nat.sub seq map nth Z.of_nat Pos.of_succ_nat Pos.succ INR]; rsimpl;
      repeat (apply f_equal2; [try field|]); reflexivity. }
    assert (Lu : length (m_u m) = 4%nat) by (rewrite M8; apply length_mk).
    split; [|split; [exact Lu|exact U]].
    replace [0; 0; 0] with [0; 0; INR 0 * 1] by (simpl; now rewrite Rmult_0_l).
    apply (nearest_z _ 3 1); [exact Lu|lra| |lia]. intros j Hj. apply U. lia.
Qed.
Lemma two_conductors (L C R0 G : mat NumR) (zs0 zs1 zl0 zl1 s : R) name ju jdu :
  pos_def 2 (get2 (@mk2 (car NumR) 2 2 (get2 L))) -> pos_def 2 (get2 (@mk2 (car NumR) 2 2 (get2 C))) ->
  pos_semidef 2 (get2 (@mk2 (car NumR) 2 2 (get2 R0))) -> pos_semidef 2 (get2 (@mk2 (car NumR) 2 2 (get2 G))) ->
  mm 2 (@mk2 (car NumR) 2 2 (get2 L)) (@mk2 (car NumR) 2 2 (get2 C)) = [[s; 0]; [0; s]] :> mat NumR ->
  0 < s -> 0 <= zs0 -> 0 <= zs1 -> 0 <= zl0 -> 0 <= zl1 ->
  exists m : mtl NumR, mtl_new LR ju jdu (PArr 2 2 L) (PArr 2 2 C) (PArr 2 2 R0) (PArr 2 2 G) (3 : NumR) [] [3%nat]
    (@ZVec NumR 2 [zs0; zs1]) (@ZVec NumR 2 [zl0; zl1]) name = Ok m /\ physical m /\ conductors m = 2%nat /\ cells m = 3%nat /\
  (forall k, (k < 3)%nat -> cell_len m k = 1) /\
  (forall k i j, (k < 3)%nat -> (i < 2)%nat -> (j < 2)%nat -> L_ m k i j = get2 L i j /\ R_ m k i j = get2 R0 i j) /\
  (forall k i j, (k <= 3)%nat -> (i < 2)%nat -> (j < 2)%nat -> C_ m k i j = get2 C i j /\ G_ m k i j = get2 G i j) /\
  (forall i j, (i < 2)%nat -> (j < 2)%nat -> Zs_ m i j = (if (i =? j)%nat then @get NumR [zs0; zs1] i else 0) /\ Zl_ m i j = (if (i =? j)%nat then @get NumR [zl0; zl1] i else 0)) /\
  step_dt m = sqrt s /\ (forall c k, volt m c k = 0) /\ (forall c k, curr m c k = 0) /\
  (forall c k t, eTran m c k t = 0) /\ (forall c k t, eLong m c k t = 0) /\ (forall c k t, source m c k t = 0) /\ m_time m = 0 /\
  length (m_vsrc m) = 2%nat /\ (forall c, (c < 2)%nat -> length (nth c (m_vsrc m) []) = 4%nat) /\
  nearest (m_u m) [0; 0; 0] = 0%nat.
Proof.
  intros HL HC HR HG HLC Hs H1 H2 H3 H4.
  destruct (two_conductors_u L C R0 G zs0 zs1 zl0 zl1 s name ju jdu HL HC HR HG HLC Hs H1 H2 H3 H4) as (m & H). exists m.
  decompose [and] H. repeat (split; [assumption|]). assumption.
Qed.

Lemma drive (m0 : mtl NumR) d f : built LR m0 -> physical m0 -> conductors m0 = 2%nat -> (d < 2)%nat -> (forall c k t, source m0 c k t = 0) ->
  length (m_vsrc m0) = 2%nat -> (forall c, (c < 2)%nat -> length (nth c (m_vsrc m0) []) = 4%nat) -> nearest (m_u m0) [0; 0; 0] = 0%nat ->
  exists m, add_voltage_source m0 (@PosF NumR 0) d f = Ok m /\ history LR m0 m /\ physical m /\ m = m_set_vsrc m0 (upd2 (m_vsrc m0) d 0 f) /\
    forall c k t, source m c k t = if ((c =? d) && (k =? 0))%nat then f t else 0.
Proof.
  intros B P Hn Hd Hs L1 L2 En.
  assert (Ea : add_voltage_source m0 (@PosF NumR 0) d f = Ok (m_set_vsrc m0 (upd2 (m_vsrc m0) d 0 f))).
  { unfold add_voltage_source. unfold conductors in Hn. rewrite Hn. rewrite (proj2 (Nat.ltb_lt d 2) Hd).
    cbn [pos_vec]. match goal with |- context [nearest ?u ?p] => change (nearest u p) with (@nearest NumR (m_u m0) [0; 0; 0]) end.
    rewrite En. reflexivity. }
  eexists. split; [exact Ea|]. split; [eapply h_source; [apply h_new; exact B|exact Ea]|]. split; [eapply physical_source; eauto|]. split; [reflexivity|].
  intros c k t. rewrite upd2_source by (rewrite ?L1, ?L2; auto; lia). destruct (_ && _); auto.
Qed.

Ltac idx2 := repeat match goal with H : (?i < 2)%nat |- _ => assert (i = 0 \/ i = 1)%nat as [-> | ->] by lia; clear H end.

Lemma runs_of (m : mtl NumR) : physical m -> forall T, exists n a, run_state LR m T n a.
Proof. intros P T. destruct (run_total LR LR_complete m T P) as [a Ha]. destruct (run_until_state LR m T a Ha) as (n & _ & R). exists n, a. exact R. Qed.

Lemma pd_diag (a b : R) : 0 < a -> 0 < b -> pos_def 2 (get2 (@mk2 (car NumR) 2 2 (get2 ([[a; 0]; [0; b]] : mat NumR)))).
Proof.
  intros Ha Hb x (i & Hi & Hx). rewrite quad2. unfold get2, get, mk2, mk; cbn [seq map nth]; rsimpl.
  assert (0 < x 0%nat * x 0%nat \/ 0 < x 1%nat * x 1%nat) by (idx2; [left|right]; nra).
  pose proof (Rle_0_sqr (x 0%nat)). pose proof (Rle_0_sqr (x 1%nat)). unfold Rsqr in *. destruct H; nra.
Qed.
Lemma psd_diag (a b : R) : 0 <= a -> 0 <= b -> pos_semidef 2 (get2 (@mk2 (car NumR) 2 2 (get2 ([[a; 0]; [0; b]] : mat NumR)))).
Proof.
  intros Ha Hb x. rewrite quad2. unfold get2, get, mk2, mk; cbn [seq map nth]; rsimpl.
  pose proof (Rle_0_sqr (x 0%nat)). pose proof (Rle_0_sqr (x 1%nat)). unfold Rsqr in *. nra.
Qed.

Definition swap2 (i : nat) : nat := (1 - i)%nat.
Lemma relabel_example : exists m0 m m0' m' : mtl NumR,
  lapack_ok LR /\ history LR m0 m /\ undispersed m /\ history LR m0' m' /\ undispersed m' /\
  conductors m = 2%nat /\ permutes (conductors m) swap2 /\ relabelled swap2 m0 m m0' m' /\
  (forall c k, (c < conductors m)%nat -> (k <= cells m)%nat -> volt m' c k = volt m (swap2 c) k) /\
  (forall c k, (c < conductors m)%nat -> (k < cells m)%nat -> curr m' c k = curr m (swap2 c) k) /\
  L_ m 0 0 1 = 1 /\ R_ m 0 0 0 <> R_ m 0 1 1 /\ source m 0 0 1 = 1 /\
  (forall T, exists n a, run_state LR m T n a) /\ (forall T, exists n a, run_state LR m' T n a).
Proof.
  assert (PL : pos_def 2 (get2 (@mk2 (car NumR) 2 2 (get2 exL)))) by (apply pd2; unfold exL, get2, get, mk2, mk; cbn [seq map nth]; rsimpl; ring).
  assert (PC : pos_def 2 (get2 (@mk2 (car NumR) 2 2 (get2 exC)))) by (apply pd2; unfold exC, get2, get, mk2, mk; cbn [seq map nth]; rsimpl; ring).
  assert (PG : pos_semidef 2 (get2 (@mk2 (car NumR) 2 2 (get2 exG)))).
  { intros x. rewrite quad2. pose proof (Rle_0_sqr (x 0%nat - x 1%nat)). unfold Rsqr, exG, get2, get, mk2, mk in *; cbn [seq map nth]; rsimpl; lra. }
  assert (ELC : mm 2 (@mk2 (car NumR) 2 2 (get2 exL)) (@mk2 (car NumR) 2 2 (get2 exC)) = [[3; 0]; [0; 3]] :> mat NumR) by (rewrite <- exLC; reflexivity).
  destruct (two_conductors exL exC [[1; 0]; [0; 2]] exG 1 0 1 2 3 "a"%string (fun _ => []) (fun _ => [])) as
    (m0 & E0 & P0 & Hn & HN & H1 & H2 & H3 & H4 & H5 & H6 & H7 & H8 & H9 & H10 & H11 & H12 & H13 & H14); auto; try lra; [apply psd_diag; lra|].
  destruct (two_conductors exL exC [[2; 0]; [0; 1]] exG 0 1 2 1 3 "b"%string (fun _ => []) (fun _ => [])) as
    (n0 & F0 & Q0 & Kn & KN & K1 & K2 & K3 & K4 & K5 & K6 & K7 & K8 & K9 & K10 & K11 & K12 & K13 & K14); auto; try lra; [apply psd_diag; lra|].
  destruct (drive m0 0 pulse) as (m & Ea & HH & P & Em & Sm); auto; [repeat eexists; exact E0|].
  destruct (drive n0 1 pulse) as (n & Fa & KK & Q & En & Sn); auto; [repeat eexists; exact F0|].
  exists m0, m, n0, n. split; [exact LR_ok|]. split; [exact HH|]. split; [apply P|]. split; [exact KK|]. split; [apply Q|].
  assert (Cn : conductors m = 2%nat) by (rewrite Em; exact Hn). assert (Cm : cells m = 3%nat) by (rewrite Em; exact HN).
  split; [exact Cn|]. rewrite Cn, Cm.
  split. { unfold permutes, swap2. split; [intros; lia|]. intros i j Hi Hj. idx2; cbn; auto; discriminate. }
  split; [|split; [|split; [|split; [|split; [|split; [|split]]]]]].
  - constructor; [rewrite Cn, En; exact Kn|rewrite Cm, En; exact KN|rewrite Em, En; exact (eq_trans K5 (eq_sym H5))|congruence|rewrite Em, En; exact (eq_trans K11 (eq_sym H11))|..];
      rewrite ?Cn, ?Cm; rewrite ?Em, ?En.
    + intros k Hk. exact (eq_trans (K1 k Hk) (eq_sym (H1 k Hk))).
    + intros k i j Hk Hi Hj. destruct (K2 k i j Hk Hi Hj) as [E _]. refine (eq_trans E _).
      destruct (H2 k (swap2 i) (swap2 j) Hk) as [E' _]; [unfold swap2; lia|unfold swap2; lia|]. refine (eq_trans _ (eq_sym E')). idx2; reflexivity.
    + intros k i j Hk Hi Hj. destruct (K2 k i j Hk Hi Hj) as [_ E]. refine (eq_trans E _).
      destruct (H2 k (swap2 i) (swap2 j) Hk) as [_ E']; [unfold swap2; lia|unfold swap2; lia|]. refine (eq_trans _ (eq_sym E')). idx2; reflexivity.
    + intros k i j Hk Hi Hj. destruct (K3 k i j Hk Hi Hj) as [E _]. refine (eq_trans E _).
      destruct (H3 k (swap2 i) (swap2 j) Hk) as [E' _]; [unfold swap2; lia|unfold swap2; lia|]. refine (eq_trans _ (eq_sym E')). idx2; reflexivity.
    + intros k i j Hk Hi Hj. destruct (K3 k i j Hk Hi Hj) as [_ E]. refine (eq_trans E _).
      destruct (H3 k (swap2 i) (swap2 j) Hk) as [_ E']; [unfold swap2; lia|unfold swap2; lia|]. refine (eq_trans _ (eq_sym E')). idx2; reflexivity.
    + intros i j Hi Hj. destruct (K3 0%nat i j ltac:(lia) Hi Hj) as [_ A1]. destruct (K3 3%nat i j ltac:(lia) Hi Hj) as [_ A2].
      destruct (H3 0%nat (swap2 i) (swap2 j) ltac:(lia)) as [_ B1]; [unfold swap2; lia|unfold swap2; lia|].
      destruct (H3 3%nat (swap2 i) (swap2 j) ltac:(lia)) as [_ B2]; [unfold swap2; lia|unfold swap2; lia|]. rewrite A1, A2, B1, B2. idx2; split; reflexivity.
    + intros i j Hi Hj. destruct (K4 i j Hi Hj) as [A1 A2]. destruct (H4 (swap2 i) (swap2 j)) as [B1 B2]; [unfold swap2; lia|unfold swap2; lia|].
      split; [refine (eq_trans A1 (eq_trans _ (eq_sym B1)))|refine (eq_trans A2 (eq_trans _ (eq_sym B2)))]; idx2; reflexivity.
    + rewrite <- Em, <- En. intros i t Hi. rewrite !Sm, !Sn. idx2; split; reflexivity.
    + intros i k t Hi Hk. exact (eq_trans (K8 _ _ _) (eq_sym (H8 _ _ _))).
    + intros i k t Hi Hk. exact (eq_trans (K9 _ _ _) (eq_sym (H9 _ _ _))).
  - intros c k _ _. rewrite Em, En. exact (eq_trans (K6 _ _) (eq_sym (H6 _ _))).
  - intros c k _ _. rewrite Em, En. exact (eq_trans (K7 _ _) (eq_sym (H7 _ _))).
  - rewrite Em. exact (proj1 (H2 0 0 1 ltac:(lia) ltac:(lia) ltac:(lia))%nat).
  - rewrite Em. destruct (H2 0 0 0 ltac:(lia) ltac:(lia) ltac:(lia))%nat as [_ A]. destruct (H2 0 1 1 ltac:(lia) ltac:(lia) ltac:(lia))%nat as [_ B].
    intros C. assert (D : (1:R) = 2) by exact (eq_trans (eq_sym A) (eq_trans C B)). lra.
  - rewrite Sm. cbn. unfold pulse. destruct (Rltb_spec 1 0); lra.
  - now apply runs_of.
  - now apply runs_of.
Qed.

Lemma conductor_example : exists m0 m m0' m' : mtl NumR,
  lapack_ok LR /\ history LR m0 m /\ undispersed m /\ history LR m0' m' /\ undispersed m' /\
  conductors m = 2%nat /\ uncoupled m0 m /\ is_conductor 0 m0 m m0' m' /\
  (forall k, (k <= cells m)%nat -> volt m' 0 k = volt m 0 k) /\ (forall k, (k < cells m)%nat -> curr m' 0 k = curr m 0 k) /\
  L_ m 0 0 0 = 4 /\ L_ m 0 1 1 = 1 /\ source m 0 0 1 = 1 /\
  (forall T, exists n a, run_state LR m T n a) /\ (forall T, exists n a, run_state LR m' T n a).
Proof.
  destruct (two_conductors [[4; 0]; [0; 1]] [[1; 0]; [0; 4]] [[1; 0]; [0; 2]] [[3; 0]; [0; 1]] 1 0 1 2 4 "a"%string (fun _ => []) (fun _ => [])) as
    (m0 & E0 & P0 & Hn & HN & H1 & H2 & H3 & H4 & H5 & H6 & H7 & H8 & H9 & H10 & H11 & H12 & H13 & H14); auto; try lra;
    [apply pd_diag; lra|apply pd_diag; lra|apply psd_diag; lra|apply psd_diag; lra| |].
  { unfold mm, mk2, mk, get2, get. cbn [seq map sumn nth]. rsimpl. repeat (apply f_equal2; [repeat (apply f_equal2; [ring|])|]); reflexivity. }
  destruct (drive m0 0 pulse) as (m & Ea & HH & P & Em & Sm); auto; [repeat eexists; exact E0|].
  destruct (driven_at LR (fun _ => []) (fun _ => []) 4 1 1 3 3 1 1 3 0 "b"%string pulse LR_ok LR_complete) as
    (n0 & n & F0 & F1 & KK & Q & O & D0 & D1 & S & V & I & ET & EL & T0 & G); try lra; try lia. destruct O.
  exists m0, m, n0, n. split; [exact LR_ok|]. split; [exact HH|]. split; [apply P|]. split; [exact KK|]. split; [apply Q|].
  assert (Cn : conductors m = 2%nat) by (rewrite Em; exact Hn). assert (Cm : cells m = 3%nat) by (rewrite Em; exact HN).
  split; [exact Cn|]. rewrite Cm.
  assert (HINR : INR 3 = 3) by (simpl; lra).
  assert (Hdt : step_dt n0 = step_dt m0).
  { rewrite D0, H5, HINR, Rmult_1_r. rewrite Rabs_right by lra. unfold Rdiv. rewrite Rinv_r by lra. apply Rmult_1_l. }
  split; [|split; [|split; [|split; [|split; [|split; [|split; [|split]]]]]]].
  - split; rewrite ?Cn, ?Cm, ?Em.
    + intros k Hk i j Hi Hj Hne. refine (eq_trans (proj1 (H2 k i j Hk Hi Hj)) _). idx2; (congruence || reflexivity).
    + intros k Hk i j Hi Hj Hne. refine (eq_trans (proj2 (H2 k i j Hk Hi Hj)) _). idx2; (congruence || reflexivity).
    + intros k Hk i j Hi Hj Hne. refine (eq_trans (proj1 (H3 k i j Hk Hi Hj)) _). idx2; (congruence || reflexivity).
    + intros k Hk i j Hi Hj Hne. refine (eq_trans (proj2 (H3 k i j Hk Hi Hj)) _). idx2; (congruence || reflexivity).
    + split; intros i j Hi Hj Hne; [refine (eq_trans (proj2 (H3 0%nat i j ltac:(lia) Hi Hj)) _)|refine (eq_trans (proj2 (H3 3%nat i j ltac:(lia) Hi Hj)) _)]; idx2; (congruence || reflexivity).
    + split; intros i j Hi Hj Hne; [refine (eq_trans (proj1 (H4 i j Hi Hj)) _)|refine (eq_trans (proj2 (H4 i j Hi Hj)) _)]; idx2; (congruence || reflexivity).
  - constructor; [exact ol_n|rewrite Cm; exact ol_N|rewrite Em; exact (eq_trans D1 Hdt)|exact Hdt|rewrite Em; exact (eq_trans T0 (eq_sym H11))|..];
      rewrite ?Cm; rewrite ?Em.
    + intros k Hk. refine (eq_trans (ol_h k Hk) (eq_trans _ (eq_sym (H1 k Hk)))). rewrite HINR, Rabs_right by lra. unfold Rdiv. exact (Rinv_r 3 ltac:(lra)).
    + intros k Hk. exact (eq_trans (ol_L k Hk) (eq_sym (proj1 (H2 k 0 0 Hk ltac:(lia) ltac:(lia))%nat))).
    + intros k Hk. exact (eq_trans (ol_R k Hk) (eq_sym (proj2 (H2 k 0 0 Hk ltac:(lia) ltac:(lia))%nat))).
    + intros k Hk. exact (eq_trans (ol_C k Hk) (eq_sym (proj1 (H3 k 0 0 Hk ltac:(lia) ltac:(lia))%nat))).
    + intros k Hk. exact (eq_trans (ol_G k Hk) (eq_sym (proj2 (H3 k 0 0 Hk ltac:(lia) ltac:(lia))%nat))).
    + rewrite <- !G. split; [exact (eq_trans (ol_G 0%nat ltac:(lia)) (eq_sym (proj2 (H3 0 0 0 ltac:(lia) ltac:(lia) ltac:(lia))%nat)))|
        exact (eq_trans (ol_G 3%nat ltac:(lia)) (eq_sym (proj2 (H3 3 0 0 ltac:(lia) ltac:(lia) ltac:(lia))%nat)))].
    + split; [exact (eq_trans ol_zs (eq_sym (proj1 (H4 0 0 ltac:(lia) ltac:(lia))%nat)))|exact (eq_trans ol_zl (eq_sym (proj2 (H4 0 0 ltac:(lia) ltac:(lia))%nat)))].
    + rewrite <- Em. intros t. rewrite !Sm, !S. auto.
    + intros k t Hk. refine (eq_trans _ (eq_sym (H8 _ _ _))). now rewrite ET.
    + intros k t Hk. refine (eq_trans _ (eq_sym (H9 _ _ _))). now rewrite EL.
  - intros k _. rewrite Em. exact (eq_trans (V _ _) (eq_sym (H6 _ _))).
  - intros k _. rewrite Em. exact (eq_trans (I _ _) (eq_sym (H7 _ _))).
  - rewrite Em. exact (proj1 (H2 0 0 0 ltac:(lia) ltac:(lia) ltac:(lia))%nat).
  - rewrite Em. exact (proj1 (H2 0 1 1 ltac:(lia) ltac:(lia) ltac:(lia))%nat).
  - rewrite Sm. cbn. unfold pulse. destruct (Rltb_spec 1 0); lra.
  - now apply runs_of.
  - now apply runs_of.
Qed.
