(** One-conductor lines over the reals: the constructor succeeds and what it returns.
    Supplies the concrete lines on which the property theorems' hypotheses are met. *)
From Coq Require Import String List Arith ZArith Bool Lia Reals Lra.
From Verif Require Import Num Py Arr ArrFacts NumR RFacts LinAlg LapackR Probes Dispersive Line LineFacts NearestFacts
  SpecLine SpecR HistoryFacts GeometryFacts LineEqFacts StepTotal TotalFacts NewTotal.
Import ListNotations.
Local Open Scope R_scope.

Lemma pos_def_1 (x : R) (A : nat -> nat -> R) : A 0%nat 0%nat = x -> 0 < x -> pos_def 1 A.
Proof.
  intros HA Hx y (i & Hi & Hy). assert (i = 0)%nat as -> by lia.
  unfold quad. rewrite !sumR_S, !sumR_0, HA. rsimpl.
  replace (0 + y 0%nat * (0 + x * y 0%nat)) with (x * Rsqr (y 0%nat)) by (unfold Rsqr; ring).
  apply Rmult_lt_0_compat; auto. now apply Rlt_0_sqr.
Qed.
Lemma psd_1 (x : R) (A : nat -> nat -> R) : A 0%nat 0%nat = x -> 0 <= x -> pos_semidef 1 A.
Proof. intros HA Hx y. unfold quad. rewrite !sumR_S, !sumR_0, HA. rsimpl.
  replace (0 + y 0%nat * (0 + x * y 0%nat)) with (x * Rsqr (y 0%nat)) by (unfold Rsqr; ring).
  apply Rmult_le_pos; auto. apply Rle_0_sqr. Qed.

Lemma vnorm_z (x : R) : @vnorm NumR [0; 0; x] = Rabs x.
Proof.
  unfold vnorm, get. cbn [sumn nth]. rsimpl.
  replace (0 + 0 * 0 + 0 * 0 + x * x) with (Rsqr x) by (unfold Rsqr; ring). apply sqrt_Rsqr_abs.
Qed.

(** what a one-conductor line along z looks like *)
Record one_line (m : mtl NumR) (N : nat) (l c r g h zs zl : R) : Prop := {
  ol_n : conductors m = 1%nat; ol_N : cells m = N;
  ol_h : forall k, (k < N)%nat -> cell_len m k = h;
  ol_L : forall k, (k < N)%nat -> L_ m k 0 0 = l; ol_R : forall k, (k < N)%nat -> R_ m k 0 0 = r;
  ol_C : forall k, (k <= N)%nat -> C_ m k 0 0 = c; ol_G : forall k, (k <= N)%nat -> G_ m k 0 0 = g;
  ol_zs : Zs_ m 0 0 = zs; ol_zl : Zl_ m 0 0 = zl
}.

Section One.
Variable LA : lapack NumR.
Hypothesis LAok : lapack_ok LA.
Hypothesis LAC : lapack_complete LA.

Lemma one_conductor ju jdu (l c r g len zs zl : R) (N : nat) name :
  0 < l -> 0 < c -> 0 <= r -> 0 <= g -> len <> 0 -> (1 <= N)%nat -> 0 <= zs -> 0 <= zl ->
  exists m : mtl NumR,
    mtl_new LA ju jdu (@PFloat NumR l) (@PFloat NumR c) (@PFloat NumR r) (@PFloat NumR g) len [] [N]
      (@ZScal NumR zs) (@ZScal NumR zl) name = Ok m /\
    physical m /\ one_line m N l c r g (Rabs len / INR N) zs zl /\
    step_dt m = Rabs len / INR N * sqrt (l * c) /\
    (forall k, (k <= N)%nat -> nth k (m_u m) [] = [0; 0; INR k * (len / INR N)]) /\
    (forall j k, source m j k = (fun _ => 0)) /\ length (m_vsrc m) = 1%nat /\ length (nth 0 (m_vsrc m) []) = S N /\
    (forall j k, volt m j k = 0) /\ (forall j k, curr m j k = 0) /\
    (forall j k, eTran m j k = (fun _ => 0)) /\ (forall j k, eLong m j k = (fun _ => 0)) /\ m_time m = 0.
Proof.
  intros Hl Hc Hr Hg Hlen HN Hzs Hzl.
  assert (HINR : 0 < INR N) by (apply lt_0_INR; lia).
  assert (E1 : (1 * N = N)%nat) by lia.
  assert (E0 : [N] = repeat N 1) by reflexivity. rewrite E0.
  assert (HH : vnorm (@seg_du NumR [[0; 0; 0]; [0; 0; len]] N 0) = Rabs len / INR N).
  { unfold seg_du, vdivs, vsub, mk, get. cbn [seq map nth]. rsimpl. rewrite <- INR_IZR_INZ.
    replace ((0 - 0) / INR N) with 0 by (field; lra). rewrite vnorm_z. rewrite Rminus_0_r.
    unfold Rdiv. rewrite Rabs_mult. apply (f_equal (Rmult (Rabs len))). rewrite Rabs_right; auto.
    apply Rle_ge, Rlt_le, Rinv_0_lt_compat; auto. }
  destruct (new_total LA LAC ju jdu (@PFloat NumR l) (@PFloat NumR c) (@PFloat NumR r) (@PFloat NumR g) len [] N 1
     (@ZScal NumR zs) (@ZScal NumR zl) name 1%nat [[l]] [[c]] (mk2 1 1 (fun _ _ => r)) (mk2 1 1 (fun _ _ => g))
     (@mscal NumR 1 zs (eye 1)) (@mscal NumR 1 zl (eye 1)) (fun _ => zs) (fun _ => zl))
     as (m & Hm & P & M1 & M2 & M3 & M4 & M5 & M6 & M7 & M8); auto.
  - intros i Hi. assert (i = 0)%nat as -> by lia. exists 2%nat. split; [lia|]. exact Hlen.
  - rewrite E1. unfold init_RG, init_rg1. rsimpl.
    destruct (negb (Reqb g 0)), (negb (Reqb r 0)); reflexivity.
  - apply pos_def_1 with (x := l); auto.
  - apply pos_def_1 with (x := c); auto.
  - apply psd_1 with (x := r); auto.
  - apply psd_1 with (x := g); auto.
  - split; auto. intros i j Hi Hj. rewrite get2_mscal, get2_eye by auto. reflexivity.
  - split; auto. intros i j Hi Hj. rewrite get2_mscal, get2_eye by auto. reflexivity.
  - now apply real_eigen_1.
  - exists m. split; [exact Hm|]. split; [exact P|]. rewrite E1 in M2. rewrite M2 in *.
    assert (M3' : forall k, (k < N)%nat -> cell_len m k = Rabs len / INR N).
    { intros k Hk. rewrite M3 by auto. rewrite Nat.div_small by auto. exact HH. }
    split; [split; auto|].
    + intros k Hk. now destruct (M4 k 0%nat 0%nat Hk) as [-> _].
    + intros k Hk. now destruct (M4 k 0%nat 0%nat Hk) as [_ ->].
    + intros k Hk. now destruct (M5 k 0%nat 0%nat Hk) as [-> _].
    + intros k Hk. now destruct (M5 k 0%nat 0%nat Hk) as [_ ->].
    + unfold Zs_. rewrite M6. rewrite get2_mscal, get2_eye by auto. rewrite deltaR_eq. rring.
    + unfold Zl_. rewrite M7. rewrite get2_mscal, get2_eye by auto. rewrite deltaR_eq. rring.
    + split; [|split; [|]].
      2:{ intros k Hk. rewrite M8. rewrite nth_mk by lia. rewrite E1.
          destruct (Nat.eqb_spec k N) as [->|Hne].
          - cbn [nth]. replace (INR N * (len / INR N)) with len by (field; lra). reflexivity.
          - unfold closed_u, seg_du. rewrite Nat.div_small, Nat.mod_small by lia.
            unfold vadd, vscal, vdivs, vsub, mk, get. cbn [seq map nth]. rsimpl. rewrite <- !INR_IZR_INZ.
            replace ((0 - 0) / INR N) with 0 by (field; lra).
            replace (0 + INR k * 0) with 0 by ring.
            replace (0 + INR k * ((len - 0) / INR N)) with (INR k * (len / INR N)) by (field; lra). reflexivity. }
      2:{ apply mtl_new_inv in Hm as (_ & _ & _ & _ & _ & Hv & Hi & Ht & _ & _ & _ & Hs & HeL & HeT).
          fold (conductors m) (cells m) in *. rewrite M1, M2 in *.
          assert (F : forall a b j k, nth k (nth j (mk2 a b (fun _ _ _ => 0)) []) (fun _ : R => 0) = (fun _ => 0)).
          { intros a b j k. unfold mk2. destruct (Nat.lt_ge_cases j a).
            - rewrite nth_mk by auto. destruct (Nat.lt_ge_cases k b).
              + rewrite nth_mk by auto. reflexivity.
              + rewrite nth_mk_over by auto. reflexivity.
            - rewrite nth_mk_over by auto. destruct k; reflexivity. }
          split; [intros; unfold source; rewrite Hs; apply F|].
          split; [rewrite Hs; apply length_mk|]. split; [rewrite Hs; unfold mk2; rewrite nth_mk by lia; apply length_mk|].
          split; [intros; unfold volt; rewrite Hv; apply (@get2_zeros NumR)|].
          split; [intros; unfold curr; rewrite Hi; apply (@get2_zeros NumR)|].
          split; [intros; unfold eTran; rewrite HeT; apply F|].
          split; [intros; unfold eLong; rewrite HeL; apply F|]. exact Ht. }
      apply mtl_new_inv in Hm as (Sh & (dt & Hdt & Edt) & _).
      unfold step_dt. rewrite Edt. clear Edt. unfold get_max_timestep in Hdt.
      inv_bind Hdt. rename a into hm. inv_bind Hdt. rename a into vm. injection Hdt as <-.
      assert (Ehm : hm = Rabs len / INR N).
      { match type of Ha with vmin ?l = _ => destruct (vmin_spec l) as (x & Ex & Hx & _) end.
        { intros E. rewrite E in Ha. discriminate. }
        rewrite Ex in Ha. injection Ha as <-. apply filter_In in Hx as [Hx Hnz].
        apply in_concat in Hx as (row & Hrow & Hx). apply in_concat in Hrow as (mt & Hmt & Hrow).
        apply In_nth with (d := []) in Hmt as (k & Hk & Ek). 
        assert (Hk' : (k < cells m)%nat) by (unfold cells; rewrite <- (sh_hl _ Sh); exact Hk).
        clear Hk; rename Hk' into Hk.
        change (getm (k_h (m_core m)) k = mt) in Ek.
        destruct (sh_h _ Sh k Hk) as [[y Ey]|Ey]; fold (conductors m) in Ey; rewrite M1 in Ey;
          rewrite <- Ek, Ey in Hrow.
        - unfold mscal, mmap, mk2, mk in Hrow. destruct Hrow as [<-|[]]. cbn in Hx. destruct Hx as [<-|[]].
          rewrite <- (M3' k) by lia. unfold cell_len, get3. rewrite Ey. reflexivity.
        - destruct Hrow as [<-|[]]. destruct Hx as [<-|[]]. rsimpl. apply negb_true_iff, Reqb_false in Hnz. congruence. }
      assert (Evm : vm = 1 / sqrt (l * c)).
      { match type of Ha0 with vmax ?l = _ => destruct (vmax_spec l) as (x & Ex & Hx & _) end.
        { intros E. rewrite E in Ha0. discriminate. }
        rewrite Ex in Ha0. injection Ha0 as <-. unfold get_phase_velocities in Hx.
        apply in_concat in Hx as (row & Hrow & Hx). unfold mk in Hrow.
        apply in_map_iff in Hrow as (k & <- & Hk). apply in_seq in Hk. fold (cells m) in Hk.
        fold (conductors m) in Hx. rewrite M1 in Hx. rewrite (eig_ok _ LAok) in Hx. destruct Hx as [<-|[]].
        rewrite get2_mm, sumR_S, sumR_0 by auto.
        destruct (M4 k 0%nat 0%nat ltac:(lia)) as [X _]. destruct (M5 (S k) 0%nat 0%nat ltac:(lia)) as [Y _].
        unfold L_, C_, get3 in X, Y. rewrite X, Y. cbn. rsimpl. now rewrite Rplus_0_l. }
      rewrite Ehm, Evm. rsimpl.
      assert (0 < sqrt (l * c)) by (apply sqrt_lt_R0; nra). field. split; lra.
Qed.

End One.

(** ** Changes that keep a line physical *)
Lemma physical_source m p c f m' : physical m -> add_voltage_source m p c f = Ok m' -> physical m'.
Proof.
  intros P H. unfold add_voltage_source in H. destruct (c <? k_n (m_core m))%nat; [|discriminate].
  injection H as <-. destruct P as [Sh]. split; auto. destruct Sh. split; auto.
Qed.
Lemma physical_time_step m NDT T : physical m -> 0 < T / IZR NDT -> physical (set_time_step m NDT T).
Proof. intros P H. destruct P as [Sh]. split; auto. destruct Sh. split; auto. Qed.
Lemma physical_probe m p ty m' : physical m -> add_probe m p ty = Ok m' ->
  ty = "voltage"%string \/ ty = "current"%string -> physical m'.
Proof.
  intros P H Hty. unfold add_probe in H. destruct (out_of_box _ _); [discriminate|].
  injection H as <-. destruct P as [Sh]. split; auto; [destruct Sh; split; auto|].
  unfold probes_known. cbn. apply Forall_app. split; auto. constructor; [|constructor].
  split; [exact Hty|]. cbn. pose proof (nearest_lt (m_u m) (pos_vec p)) as L.
  rewrite (sh_u _ Sh) in L. unfold cells. cbn. apply Nat.lt_succ_r, L. intros E.
  pose proof (sh_u _ Sh) as F. rewrite E in F. discriminate.
Qed.


(** the node at [k] cells from the start of a line along z is its own nearest node *)
Lemma nearest_z (u : list (list R)) (N : nat) (d : R) k : length u = S N -> d <> 0 ->
  (forall j, (j <= N)%nat -> nth j u [] = [0; 0; INR j * d]) -> (k <= N)%nat ->
  @nearest NumR u [0; 0; INR k * d] = k.
Proof.
  intros Hl Hd Hu Hk. rewrite nearest_dist. apply argmin_unique.
  - rewrite map_length. lia.
  - intros j Hj. rewrite map_length in Hj.
    assert (E : forall i, (i <= N)%nat -> nth i (map (fun x => dist3 x [0; 0; INR k * d]) u) 0 = Rabs ((INR i - INR k) * d)).
    { intros i Hi. rewrite nth_indep with (d' := dist3 [] [0; 0; INR k * d]) by (rewrite map_length; lia).
      rewrite (map_nth (fun x => dist3 x [0; 0; INR k * d])). rewrite Hu by auto. unfold dist3. cbn [nth].
      replace ((0 - 0) ^ 2 + (0 - 0) ^ 2 + (INR i * d - INR k * d) ^ 2) with (Rsqr ((INR i - INR k) * d)) by (unfold Rsqr; ring).
      apply sqrt_Rsqr_abs. }
    rewrite !E by lia. replace ((INR k - INR k) * d) with 0 by ring. rewrite Rabs_R0. apply Rabs_pos.
  - intros j Hj.
    assert (E : forall i, (i <= N)%nat -> nth i (map (fun x => dist3 x [0; 0; INR k * d]) u) 0 = Rabs ((INR i - INR k) * d)).
    { intros i Hi. rewrite nth_indep with (d' := dist3 [] [0; 0; INR k * d]) by (rewrite map_length; lia).
      rewrite (map_nth (fun x => dist3 x [0; 0; INR k * d])). rewrite Hu by auto. unfold dist3. cbn [nth].
      replace ((0 - 0) ^ 2 + (0 - 0) ^ 2 + (INR i * d - INR k * d) ^ 2) with (Rsqr ((INR i - INR k) * d)) by (unfold Rsqr; ring).
      apply sqrt_Rsqr_abs. }
    rewrite !E by lia. replace ((INR k - INR k) * d) with 0 by ring. rewrite Rabs_R0. apply Rabs_pos_lt.
    apply Rmult_integral_contrapositive. split; auto. apply lt_INR in Hj. lra.
Qed.

Lemma upd2_source (m : mtl NumR) c k (f : R -> R) j i :
  (c < length (m_vsrc m))%nat -> (k < length (nth c (m_vsrc m) []))%nat ->
  source (m_set_vsrc m (upd2 (m_vsrc m) c k f)) j i =
  if ((j =? c) && (i =? k))%nat then f else source m j i.
Proof.
  intros Hc Hk. unfold source, upd2. cbn [m_vsrc m_set_vsrc]. rewrite nth_lset.
  rewrite (proj2 (Nat.ltb_lt _ _) Hc), andb_true_r, (Nat.eqb_sym c j).
  destruct (Nat.eqb_spec j c) as [->|E]; [|reflexivity].
  cbn [andb]. rewrite nth_lset. rewrite (proj2 (Nat.ltb_lt _ _) Hk), andb_true_r, (Nat.eqb_sym k i).
  destruct (Nat.eqb_spec i k); reflexivity.
Qed.

(** a line along z driven at its first node *)
Lemma driven_line LA ju jdu (l c r g len zs zl : R) (N : nat) name (f : R -> R) :
  lapack_ok LA -> lapack_complete LA ->
  0 < l -> 0 < c -> 0 <= r -> 0 <= g -> len <> 0 -> (1 <= N)%nat -> 0 <= zs -> 0 <= zl ->
  exists m0 m : mtl NumR,
    mtl_new LA ju jdu (@PFloat NumR l) (@PFloat NumR c) (@PFloat NumR r) (@PFloat NumR g) len [] [N]
      (@ZScal NumR zs) (@ZScal NumR zl) name = Ok m0 /\
    add_voltage_source m0 (@PosF NumR 0) 0 f = Ok m /\ history LA m0 m /\
    physical m /\ one_line m N l c r g (Rabs len / INR N) zs zl /\
    step_dt m0 = Rabs len / INR N * sqrt (l * c) /\ step_dt m = step_dt m0 /\
    (forall j k, source m j k = if ((j =? 0) && (k =? 0))%nat then f else (fun _ => 0)) /\
    (forall j k, volt m j k = 0) /\ (forall j k, curr m j k = 0) /\
    (forall j k, eTran m j k = (fun _ => 0)) /\ (forall j k, eLong m j k = (fun _ => 0)) /\ m_time m = 0 /\
    (forall k i j, G_ m k i j = G_ m0 k i j).
Proof.
  intros HA HC Hl Hc Hr Hg Hlen HN Hzs Hzl.
  destruct (one_conductor LA HA HC ju jdu l c r g len zs zl N name) as
    (m0 & H0 & P0 & O0 & Edt & Hu & Hs & L1 & L2 & Hv & Hi & HeT & HeL & Ht); auto.
  assert (HINR : 0 < INR N) by (apply lt_0_INR; lia).
  assert (En : nearest (m_u m0) [0; 0; 0] = 0%nat).
  { replace [0; 0; 0] with [0; 0; INR 0 * (len / INR N)] by (simpl; now rewrite Rmult_0_l).
    apply (nearest_z (m_u m0) N); auto; try lia.
    - pose proof (sh_u _ (ph_shape _ P0)) as E. pose proof (ol_N _ _ _ _ _ _ _ _ _ O0) as F.
      unfold cells in F. rewrite F in E. exact E.
    - unfold Rdiv. apply Rmult_integral_contrapositive. split; auto. apply Rinv_neq_0_compat. lra. }
  assert (Ea : add_voltage_source m0 (@PosF NumR 0) 0 f = Ok (m_set_vsrc m0 (upd2 (m_vsrc m0) 0 0 f))).
  { unfold add_voltage_source. pose proof (ol_n _ _ _ _ _ _ _ _ _ O0) as E. unfold conductors in E. rewrite E.
    cbn [pos_vec]. match goal with |- context [nearest ?u ?p] => change (nearest u p) with (@nearest NumR (m_u m0) [0; 0; 0]) end.
    rewrite En. reflexivity. }
  exists m0, (m_set_vsrc m0 (upd2 (m_vsrc m0) 0 0 f)).
  split; [exact H0|]. split; [exact Ea|].
  split. { eapply h_source; [|exact Ea]. apply h_new. repeat eexists; exact H0. }
  split; [eapply physical_source; eauto|].
  split; [destruct O0; split; auto|]. split; [exact Edt|]. split; [reflexivity|].
  split. { intros j k. rewrite upd2_source by (rewrite ?L1, ?L2; lia). now rewrite Hs. }
  split; [exact Hv|]. split; [exact Hi|]. split; [exact HeT|]. split; [exact HeL|]. split; [exact Ht|]. reflexivity.
Qed.
