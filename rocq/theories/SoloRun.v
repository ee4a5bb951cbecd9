(** A line in a bundle with both ends connected to ground runs as the stand-alone line. *)
From Coq Require Import String List Arith ZArith Bool Permutation Lia Reals Lra.
From Verif Require Import Num Py Arr ArrFacts NumR RFacts LinAlg Utils Probes Dispersive Line LineFacts Bundle Networks Mtln
  SpecLine SpecR SpecBundle SpecNet SpecDisp SpecMtln SpecCore SpecTele SpecSuper SpecSolo HistoryFacts LineEqFacts TermFacts RunEqFacts StepProps BlockFacts BundleFacts BundleR BundleMore CoreEq CoreUnique SymFacts DispR
  AloneFacts AloneRun NetFacts NetBuild NetR NetStamp NetStamp2 NetPlace NetMore MtlnFacts MtlnProps MtlnR SuperNet SuperNet2 SoloNet SoloNet2.
Import ListNotations.
Local Open Scope R_scope.

Section S.
Variable LA : lapack NumR.
Hypothesis LAok : lapack_ok LA.

(** *** the terminal terms determine the end voltages *)
Lemma port_kernel n (z c g : mat NumR) (h dt : R) tt (x : nat -> R) : port_terms LA n z c g h dt = Ok tt ->
  (forall i, (i < n)%nat -> h * (mulv n (get2 z) (mulv n (get2 c) x) i / dt + mulv n (get2 z) (mulv n (get2 g) x) i / 2) + x i = 0) ->
  forall i, (i < n)%nat -> x i = 0.
Proof.
  intros HP H. unfold port_terms in HP. inv_bind HP. rename a into A. unfold inv, of_option in Ha.
  destruct (la_inv LA n _) as [A'|] eqn:EI in Ha; [|discriminate]. injection Ha as ->. apply (inv_ok LA LAok) in EI.
  eapply (inverse_kernel n _ A (fun i j => h * (mulv n (get2 z) (fun q => get2 c q j) i / dt + mulv n (get2 z) (fun q => get2 g q j) i / 2) + @delta NumR i j) x EI).
  - intros i j Hi Hj. rewrite get2_madd, get2_madd by auto. rewrite !get2_mdivs, !get2_mscal, !get2_mm, get2_eye by auto. unfold mulv. rsimpl. unfold n2, nb. rsimpl. unfold Rdiv. ring.
  - intros i Hi. etransitivity; [|exact (H i Hi)]. unfold mulv at 1.
    rewrite (sumR_ext n _ (fun j => h / dt * (mulv n (get2 z) (fun q => get2 c q j) i * x j) + (h / 2 * (mulv n (get2 z) (fun q => get2 g q j) i * x j) + @delta NumR i j * x j))).
    + rewrite !sumR_plus, !sumR_scal, sumR_delta_l by exact Hi.
      assert (W : forall B : mat NumR, sumR n (fun j => mulv n (get2 z) (fun q => get2 B q j) i * x j) = mulv n (get2 z) (mulv n (get2 B) x) i).
      { intros B. unfold mulv. rewrite (sumR_ext n _ (fun j => sumR n (fun q => get2 z i q * get2 B q j * x j))).
        - rewrite sumR_swap. apply sumR_ext. intros q Hq. rewrite <- sumR_scal. apply sumR_ext. intros j Hj. rring.
        - intros j Hj. rewrite Rmult_comm, <- sumR_scal. apply sumR_ext. intros q Hq. rring. }
      rewrite !W. unfold Rdiv. ring.
    + intros j Hj. rsimpl. unfold Rdiv. ring.
Qed.

(** *** what a run leaves unchanged in a bundle *)
Lemma marches_static (b b' : bundle NumR) : marches LA b b' -> dyn_same (b_core b) (b_core b') /\ k_eL (b_core b') = k_eL (b_core b) /\ k_eT (b_core b') = k_eT (b_core b).
Proof.
  induction 1 as [|x dt Hx IH|x steps x' Hx IH H|x t dt x' Hx IH H|x c last v Hx IH Hc|x t dt x' Hx IH H|x t x' Hx IH H]; try destruct IH as (D & EL & ET).
  - split; [apply dyn_refl|auto].
  - split; [|auto]. eapply dyn_trans; [exact D|]. split; reflexivity.
  - destruct (ready_prep LA _ _ _ H) as (D' & _ & _ & EL' & ET' & _). split; [eapply dyn_trans; eauto|split; congruence].
  - unfold bundle_advance_voltage in H. inv_bind H. apply OkI in H. subst x'. destruct (advv_dyn _ _ _ Ha) as (D' & _ & _ & EL' & ET' & _). cbn [b_set_core b_set b_core].
    split; [eapply dyn_trans; eauto|split; congruence].
  - split; [eapply dyn_trans; [exact D|apply put_dyn]|]. auto.
  - unfold bundle_advance_current in H. inv_bind H. apply OkI in H. subst x'. destruct (advi_dyn _ _ _ Ha) as (D' & _ & _ & EL' & ET' & _). cbn [b_set_core b_set b_core].
    split; [eapply dyn_trans; eauto|split; congruence].
  - unfold bundle_update_probes in H. inv_bind H. apply OkI in H. subst x'. auto.
Qed.
Record carries (m : mtl NumR) (b : bundle NumR) : Prop := {
  ca_n : b_conductors b = conductors m; ca_N : b_cells b = cells m;
  ca_h : forall k, (k < cells m)%nat -> klen (b_core b) k = cell_len m k;
  ca_L : forall k i j, (k < cells m)%nat -> (i < conductors m)%nat -> (j < conductors m)%nat -> kL (b_core b) k i j = L_ m k i j /\ kR (b_core b) k i j = R_ m k i j;
  ca_C : forall k i j, (k <= cells m)%nat -> (i < conductors m)%nat -> (j < conductors m)%nat -> kC (b_core b) k i j = C_ m k i j /\ kG (b_core b) k i j = G_ m k i j;
  ca_D : forall k i j, kD (b_core b) k i j = 0 /\ kE (b_core b) k i j = 0 /\ kQ1 (b_core b) k i j = 0 /\ kQ2 (b_core b) k i j = 0;
  ca_T : forall c k t, kTran (b_core b) c k t = 0; ca_E : forall c k t, kLong (b_core b) c k t = 0;
  ca_one : exists b0, one_way LA (fun _ => False) b0 b
}.
Lemma carries_mem m b k c : carries m b -> (k < cells m)%nat -> (c < conductors m)%nat -> kmem (b_core b) k c = 0.
Proof. intros C Hk Hc. destruct (ca_one _ _ C) as [b0 O]. apply (one_way_memory LA _ _ _ O k c); [rewrite (ca_N _ _ C)|rewrite (ca_n _ _ C)]; assumption. Qed.
Lemma carries_march m b b' : carries m b -> marches LA b b' -> carries m b'.
Proof.
  intros [] M. destruct (marches_static _ _ M) as (D & EL & ET). destruct D. split; unfold b_conductors, b_cells, klen, kL, kR, kC, kG, kD, kE, kQ1, kQ2, kTran, kLong in *.
  - congruence.
  - congruence.
  - intros k Hk. rewrite dy_h. auto.
  - intros k i j Hk Hi Hj. rewrite dy_l, dy_r. auto.
  - intros k i j Hk Hi Hj. rewrite dy_c, dy_g. auto.
  - intros k i j. rewrite dy_d, dy_e, dy_1, dy_2. auto.
  - intros c k t. rewrite ET. auto.
  - intros c k t. rewrite EL. auto.
  - destruct ca_one0 as [b0 O]. exists b0. eapply ow_march; eauto.
Qed.
Lemma carries_new m name b : reachable LA m -> undispersed m -> mtld_new [[m]] name = Ok b -> carries m b /\ (forall c k, b_volt b c k = 0) /\ (forall c k, b_curr b c k = 0) /\
  (step_dt m < 10000000000 -> k_dt (b_core b) = step_dt m).
Proof.
  intros RM UM H. assert (RA : Forall (Forall (reachable LA)) [[m]]) by (repeat constructor; exact RM).
  assert (UA : Forall (Forall undispersed) [[m]]) by (repeat constructor; exact UM).
  destruct (new_cdiag LA _ _ _ RA H) as (Ca & La & Fa). rewrite Forall_forall in Fa. pose proof (Fa m (or_introl eq_refl)) as Na. unfold b_cells in Na.
  destruct (new_frame _ _ _ H) as (outer & rest & E & En & _ & _ & Ev & Ei & EL & ET & Ed & _). cbn [concat app] in *. rewrite count_one in En.
  assert (Y : forall k c c', (c < conductors m)%nat -> (c' < conductors m)%nat -> _) by
    (intros k c c' Hc Hc'; pose proof (new_entries _ _ _ 0 0 c c' k H) as Y; cbn [concat app length nth Nat.eqb] in Y; cbv zeta in Y; specialize (Y ltac:(lia) ltac:(lia) Hc Hc');
     change (@off NumR [m] 0 + c)%nat with c in Y; change (@off NumR [m] 0 + c')%nat with c' in Y; rewrite <- Na in Y; exact Y).
  split; [split|split; [|split]].
  - exact En.
  - symmetry. exact Na.
  - intros k Hk. rewrite La by (rewrite <- Na; exact Hk). reflexivity.
  - intros k i j Hk Hi Hj. destruct (Y k i j Hi Hj) as (Y1 & Y2 & _). split; [apply Y1|apply Y2]; exact Hk.
  - intros k i j Hk Hi Hj. destruct (Y k i j Hi Hj) as (_ & _ & Y1 & Y2). split; [apply Y1|apply Y2]; exact Hk.
  - intros k i j. exact (new_no_disp _ _ _ UA H k i j).
  - intros c k t. unfold kTran. rewrite ET. apply fun_zero.
  - intros c k t. unfold kLong. rewrite EL. apply fun_zero.
  - exists b. eapply ow_new; eauto.
  - intros c k. unfold b_volt. rewrite Ev. apply (@get2_zeros NumR).
  - intros c k. unfold b_curr. rewrite Ei. apply (@get2_zeros NumR).
  - intros Hs. rewrite Ed. cbn [fold_left]. replace (@nltb NumR (k_dt (m_core m)) n1e10) with true; [reflexivity|]. symmetry. apply Rltb_true. exact Hs.
Qed.

Section Run.
Variables (m0 m : mtl NumR) (name : string) (x : mtln NumR).
Hypothesis P : plain_line LA m0 m.
Hypothesis HX : soloed m name x.
Notation n := (conductors m).
Notation N := (cells m).
Notation together := (synced LA n N name (cell_len m 0) (cell_len m (N - 1)) (C_ m 0) (C_ m N) (fun i => Zs_ m i i) (fun i => Zl_ m i i) (fun c => source m c 0) (fun c => source m c N)).

Lemma solo_start : lines_net LA x /\ t_dt x = step_dt m /\ t_time x = 0 /\ (forall b0, bundle_of x name = Some b0 -> k_dt (b_core b0) = step_dt m) /\
  forall T y, reaches LA x T 0 0 y -> exists b w1 w2, together y b w1 w2 /\ carries m b /\ (forall c k, b_volt b c k = 0) /\ (forall c k, b_curr b c k = 0).
Proof.
  destruct HX as (b0 & conns & conns' & w1 & w2 & Hb & HS & HL & Hx).
  assert (RM : reachable LA m) by (exists m0; exact (pl_hist _ _ _ P)).
  destruct (carries_new m name b0 RM (pl_und _ _ _ P) Hb) as (Cb & V0 & I0 & Dt). specialize (Dt (pl_small _ _ _ P)).
  assert (Nm : b_name b0 = name) by (destruct (mtld_new_inv _ _ _ Hb) as (o & r & _ & _ & _ & _ & _ & _ & _ & _ & _); unfold mtld_new in Hb; inv_bind Hb; apply OkI in Hb; rewrite <- Hb; reflexivity).
  unfold mtln_new in Hx. cbn [foldM] in Hx. inv_bind Hx. rename a into x1. inv_bind Ha. apply OkI in Ha. subst a. inv_bind Hx. rename a into x2. inv_bind Hx. apply OkI in Hx. subst a.
  rename Ha0 into A1. rename Ha into A2. rename Ha1 into A3.
  pose proof A1 as E1. apply add_bundle_inv in E1 as [_ E1]. pose proof A2 as E2. pose proof A3 as E3. unfold add_network in E2, E3. inv_bind E2. inv_bind E3. rename Ha into B1. rename Ha0 into B2. apply OkI in E2, E3.
  assert (U : forall (bs : bdict NumR) w d, update_index_numbers [(0%nat, w)] bs = Ok d -> exists w', d = [(0%nat, w')]).
  { intros bs w d H. unfold update_index_numbers in H. cbn [mapM] in H. inv_bind H. inv_bind Ha. cbn [fst snd] in *. apply OkI in H. apply OkI in Ha. subst. eauto. }
  destruct (U _ _ _ B1) as [w1' ->]. destruct (U _ _ _ B2) as [w2' ->]. clear U.
  destruct (each_shore LA m "S" name conns _ _ _ _ _ HS (pl_Zs0 _ _ _ P) (pl_eT _ _ _ P) B1) as (S1 & H1 & H1' & V1 & I1).
  destruct (each_shore LA m "L" name conns' _ _ _ _ _ HL (pl_Zl0 _ _ _ P) (pl_eT _ _ _ P) B2) as (S2 & H2 & H2' & V2 & I2).
  assert (Ln : lines_net LA x).
  { eapply ln_network; [eapply ln_network; [eapply ln_bundle; [apply ln_empty| |exact A1]| |exact A2]| |exact A3].
    - exists b0. apply bh_new. exists [[m]], name. split; [repeat constructor; exact RM|exact Hb].
    - constructor; [|constructor]. eexists. exact H1.
    - constructor; [|constructor]. eexists. exact H2. }
  assert (Ex : t_networks x = [[(0%nat, w1')]; [(0%nat, w2')]]) by (rewrite <- E3, <- E2, E1; reflexivity).
  assert (Ed : t_dt x = step_dt m).
  { rewrite <- E3, <- E2, E1. cbn [t_set t_dt mtln_empty]. rewrite Dt. replace (@nltb NumR (step_dt m) n1e10) with true; [reflexivity|]. symmetry. apply Rltb_true. exact (pl_small _ _ _ P). }
  assert (Et : t_time x = 0) by (rewrite <- E3, <- E2, E1; reflexivity).
  assert (Bx : bundle_of x name = Some b0).
  { unfold bundle_of. rewrite <- E3, <- E2, E1. cbn [t_set t_bundles mtln_empty app dget]. rewrite Nm, String.eqb_refl. reflexivity. }
  split; [exact Ln|]. split; [exact Ed|]. split; [exact Et|]. split; [intros b1 Hb1; assert (b1 = b0) by congruence; now subst b1|]. intros T y R.
  pose proof (reaches_ninv LA _ _ _ _ _ (lines_ninv LA _ Ln) R) as Iy.
  destruct (run_clock LA _ _ _ _ _ R) as [Edt _]. rewrite (proj2 (Reqb_true 0 0) eq_refl) in Edt.
  destruct (run_start LA _ _ _ _ _ R) as (ws & steps & p & T1 & _ & _ & T4 & T5 & _ & _ & _ & T9 & _). cbn [iterM] in T4. injection T4 as ->.
  destruct (T9 name b0 Bx) as (b & Pb & By). replace (negb (@neqb NumR 0 n0)) with false in Pb by (symmetry; apply Bool.negb_false_iff; apply Reqb_true; reflexivity).
  destruct (prepare_core LA _ _ _ Pb) as (Pv & Pi & PN & Pn & _). assert (Cb' : carries m b) by (eapply carries_march; [exact Cb|eapply ma_prepare; [apply ma_refl|exact Pb]]).
  assert (C1 : forall w d, nwd_compute_v_terms [(0%nat, w)] (t_dt y) = Ok d -> exists u, d = [(0%nat, u)] /\ compute_v_terms w (t_dt y) = Ok u).
  { intros w d H. unfold nwd_compute_v_terms in H. cbn [mapM fst snd] in H. inv_bind H. inv_bind Ha. apply OkI in Ha, H. subst. eauto. }
  rewrite Ex in T1. cbn [mapM] in T1. inv_bind T1. inv_bind T1. inv_bind Ha0. destruct (C1 _ _ Ha) as (u1 & -> & Ha2). destruct (C1 _ _ Ha1) as (u2 & -> & Ha5). apply OkI in Ha0, T1. rewrite <- T1, <- Ha0 in T5.
  destruct (terms_fields _ _ _ Ha2) as (Q1 & R1 & _ & R2 & _ & R3 & R4). destruct (terms_fields _ _ _ Ha5) as (Q2 & R1' & _ & R2' & _ & R3' & R4').
  destruct (terms_shape _ _ _ (so_shape _ _ _ _ _ _ _ _ S1) Ha2) as [Sh1 _]. destruct (terms_shape _ _ _ (so_shape _ _ _ _ _ _ _ _ S2) Ha5) as [Sh2 _].
  assert (Vb : forall c k, b_volt b c k = 0) by (intros; unfold b_volt; rewrite Pv; apply V0). assert (Ib : forall c k, b_curr b c k = 0) by (intros; unfold b_curr; rewrite Pi; apply I0).
  exists b, u1, u2. split; [|auto]. split.
  - exact Iy.
  - exact By.
  - unfold nets. rewrite T5. reflexivity.
  - exact (ca_n _ _ Cb').
  - exact (ca_N _ _ Cb').
  - exact (shore_keep _ _ _ _ _ _ _ _ _ S1 Sh1 Q1 R3 R4).
  - exact (shore_keep _ _ _ _ _ _ _ _ _ S2 Sh2 Q2 R3' R4').
  - eexists. eapply nr_terms; [exact H1'|exact Ha2].
  - eexists. eapply nr_terms; [exact H2'|exact Ha5].
  - intros i Hi. unfold nV. rewrite R1. rewrite Vb. exact (V1 i).
  - intros i Hi. unfold nV. rewrite R1'. rewrite Vb. exact (V2 i).
  - intros i Hi. unfold nI. rewrite R2. rewrite Ib. exact (I1 i).
  - intros i Hi. unfold nI. rewrite R2'. rewrite Ib, Ropp_0. exact (I2 i).
Qed.

Definition level_ (b : bundle NumR) (a : mtl NumR) : Prop := (forall c k, (c < n)%nat -> (k <= N)%nat -> b_volt b c k = volt a c k) /\ (forall c k, (c < n)%nat -> (k < N)%nat -> b_curr b c k = curr a c k).
Lemma diag_mulv (Z : nat -> nat -> R) y i : (i < n)%nat -> (forall j, (j < n)%nat -> i <> j -> Z i j = 0) -> mulv n Z y i = Z i i * y i.
Proof. intros Hi D. unfold mulv. rewrite (sumR_single n (fun j => Z i j * y j) i Hi); [reflexivity|]. intros j Hj Hne. rewrite D by congruence. rring. Qed.
Lemma diff_end (Z C G : nat -> nat -> R) (h dt i0 s : R) (v v' u u' : nat -> R) i : (i < n)%nat -> (forall j, (j < n)%nat -> i <> j -> Z i j = 0) -> (forall j, (j < n)%nat -> G i j = 0) ->
  (forall j, (j < n)%nat -> u j = v j) ->
  Z i i * (h * (sumR n (fun j => C i j * (u' j - u j)) / dt) + 2 * i0) + u' i + u i = s ->
  h * (Z i i * (mulv n C (fun p => v' p - v p + 0) i / dt + mulv n G (fun p => v' p + v p) i / 2)) + v' i + v i = s - 2 * (Z i i * i0) ->
  h * (mulv n Z (mulv n C (fun p => u' p - v' p)) i / dt + mulv n Z (mulv n G (fun p => u' p - v' p)) i / 2) + (u' i - v' i) = 0.
Proof.
  intros Hi D HG E A B. rewrite !(diag_mulv Z) by assumption. assert (K : forall y, mulv n G y i = 0) by (intros y; unfold mulv; apply sumR_zero; intros j Hj; rewrite HG by exact Hj; rring). rewrite K in *.
  rewrite E in A by exact Hi.
  replace (mulv n C (fun p => u' p - v' p) i) with (sumR n (fun j => C i j * (u' j - u j)) - mulv n C (fun p => v' p - v p + 0) i).
  - unfold Rdiv in *. lra.
  - unfold mulv. rewrite <- sumR_minus. apply sumR_ext. intros j Hj. rewrite E by exact Hj. rring.
Qed.
Lemma solo_together T k : forall y, reaches LA x T 0 k y -> exists b w1 w2, together y b w1 w2 /\ carries m b.
Proof.
  destruct solo_start as (Ln & Ed & Et & Eb & S0). destruct (HistoryFacts.history_shape LA _ _ (pl_hist _ _ _ P)) as [Sh Kp]. assert (HN : (1 <= N)%nat) by exact (sh_N _ Sh).
  induction k as [|k IH]; intros y R.
  - destruct (S0 T y R) as (b & w1 & w2 & W & C & _). eauto.
  - destruct (reaches_step LA _ _ _ _ _ R) as (s & Rs & St & _). destruct (IH s Rs) as (b & w1 & w2 & W & C).
    destruct (synced_step LA LAok n N name _ _ _ _ _ _ _ _ (pl_Zs0 _ _ _ P) (pl_Zl0 _ _ _ P) HN s y b w1 w2 W St) as (b' & w1' & w2' & W' & _).
    pose proof (sy_b _ _ _ _ _ _ _ _ _ _ _ _ _ _ _ _ W) as Hb. pose proof (sy_b _ _ _ _ _ _ _ _ _ _ _ _ _ _ _ _ W') as Hb'.
    destruct (step_marches LA _ _ _ _ St Hb) as (b'' & Hb'' & M). assert (b'' = b') by congruence. subst b''. exists b', w1', w2'. split; [exact W'|]. eapply carries_march; eauto.
Qed.
(** two solutions of the same end equations, one with conductance, differ by the leakage *)
Lemma leak_end (Z C G : nat -> nat -> R) (h dt i0 s : R) (v v' u u' : nat -> R) i : (i < n)%nat -> Z i i <> 0 ->
  (forall j, (j < n)%nat -> u j = v j) -> (forall j, (j < n)%nat -> u' j = v' j) ->
  Z i i * (h * (sumR n (fun j => C i j * (u' j - u j)) / dt) + 2 * i0) + u' i + u i = s ->
  h * (Z i i * (mulv n C (fun p => v' p - v p + 0) i / dt + mulv n G (fun p => v' p + v p) i / 2)) + v' i + v i = s - 2 * (Z i i * i0) ->
  h * mulv n G (fun p => v' p + v p) i = 0.
Proof.
  intros Hi HZ E E' A B. rewrite E, E' in A by exact Hi. replace (mulv n C (fun p => v' p - v p + 0) i) with (sumR n (fun j => C i j * (u' j - u j))) in B.
  - apply (Rmult_eq_reg_l (Z i i)); [|exact HZ]. rewrite Rmult_0_r. unfold Rdiv in *. lra.
  - unfold mulv. apply sumR_ext. intros j Hj. rewrite E, E' by exact Hj. rring.
Qed.
Lemma solo_leak T T' k a a' y z b b' : run_step LA m T k a a' -> steps_to LA x T' 0 k y z -> bundle_of y name = Some b -> bundle_of z name = Some b' -> level_ b a -> level_ b' a' ->
  forall i, (i < n)%nat -> cell_len m 0 * mulv n (G_ m 0) (fun p => volt a' p 0 + volt a p 0) i = 0 /\ cell_len m (N - 1) * mulv n (G_ m N) (fun p => volt a' p N + volt a p N) i = 0.
Proof.
  intros HR HS Hb Hb' [Lv Li] [Lv' Li'] i Hi. destruct solo_start as (Ln & Ed & Et & Eb & _). pose proof HS as (Ry & St & Rz).
  destruct (HistoryFacts.history_shape LA _ _ (pl_hist _ _ _ P)) as [Sh Kp]. assert (HN : (1 <= N)%nat) by exact (sh_N _ Sh).
  destruct (run_clock LA _ _ _ _ _ Ry) as [Edt Tm]. rewrite (proj2 (Reqb_true 0 0) eq_refl), Ed in Edt. rewrite Et, Edt in Tm.
  destruct (solo_together T' k y Ry) as (b1 & w1 & w2 & W & _). assert (b1 = b) by (pose proof (sy_b _ _ _ _ _ _ _ _ _ _ _ _ _ _ _ _ W); congruence). subst b1.
  destruct (synced_step LA LAok n N name _ _ _ _ _ _ _ _ (pl_Zs0 _ _ _ P) (pl_Zl0 _ _ _ P) HN y z b w1 w2 W St) as (b1 & w1' & w2' & W' & E1 & E2). cbv zeta in E1, E2. rewrite Edt, Tm in E1, E2.
  assert (b1 = b') by (pose proof (sy_b _ _ _ _ _ _ _ _ _ _ _ _ _ _ _ _ W'); congruence). subst b1. set (dt := step_dt m) in *. set (t := 0 + INR k * dt) in *.
  assert (eT0 : forall c j s, (c < n)%nat -> eTran m c j s = 0) by exact (pl_eT _ _ _ P). split.
  - pose proof (left_thevenin LA LAok m0 m a a' T k i (pl_hist _ _ _ P) HR Hi (pl_dt _ _ _ P) (pl_G0 _ _ _ P)) as Th. unfold thevenin in Th. fold dt in Th. rewrite (pl_t _ _ _ P) in Th. fold t in Th.
    rewrite !(diag_mulv (Zs_ m)) in Th by (try exact Hi; intros j Hj Hne; now apply (pl_Zs _ _ _ P)).
    rewrite (mulv_ext n (C_ m 0) _ (fun p => volt a' p 0 - volt a p 0 + 0) i) in Th by (intros p Hp; rewrite !eT0 by exact Hp; ring).
    specialize (E1 i Hi). rewrite Li in E1 by (try exact Hi; lia).
    exact (leak_end (Zs_ m) (C_ m 0) (G_ m 0) (cell_len m 0) dt (curr a i 0) (source m i 0 t + source m i 0 (t - dt)) (fun p => volt a p 0) (fun p => volt a' p 0) (fun p => b_volt b p 0) (fun p => b_volt b' p 0) i Hi
      (pl_Zs0 _ _ _ P i Hi) (fun j Hj => Lv j 0%nat Hj (Nat.le_0_l _)) (fun j Hj => Lv' j 0%nat Hj (Nat.le_0_l _)) E1 Th).
  - pose proof (right_thevenin LA LAok m0 m a a' T k i (pl_hist _ _ _ P) HR Hi (pl_dt _ _ _ P) (pl_GN _ _ _ P)) as Th. unfold thevenin in Th. fold dt in Th. rewrite (pl_t _ _ _ P) in Th. fold t in Th.
    rewrite !(diag_mulv (Zl_ m)) in Th by (try exact Hi; intros j Hj Hne; now apply (pl_Zl _ _ _ P)).
    rewrite (mulv_ext n (C_ m N) _ (fun p => volt a' p N - volt a p N + 0) i) in Th by (intros p Hp; rewrite !eT0 by exact Hp; ring).
    specialize (E2 i Hi). rewrite Li in E2 by (try exact Hi; lia).
    apply (leak_end (Zl_ m) (C_ m N) (G_ m N) (cell_len m (N - 1)) dt (- curr a i (N - 1)) (source m i N t + source m i N (t - dt)) (fun p => volt a p N) (fun p => volt a' p N) (fun p => b_volt b p N) (fun p => b_volt b' p N) i Hi
      (pl_Zl0 _ _ _ P i Hi) (fun j Hj => Lv j N Hj (le_n _)) (fun j Hj => Lv' j N Hj (le_n _))); [rewrite <- E2; ring|exact Th].
Qed.
Hypothesis HO : open_ends m.
Lemma solo_step T T' k a a' y z b w1 w2 : run_step LA m T k a a' -> steps_to LA x T' 0 k y z -> together y b w1 w2 -> carries m b -> level_ b a ->
  exists b' w1' w2', together z b' w1' w2' /\ carries m b' /\ level_ b' a'.
Proof.
  intros HR HS W Ca [Lv Li]. destruct solo_start as (Ln & Ed & Et & Eb & _). pose proof HS as (Ry & St & Rz).
  assert (RM : reachable LA m) by (exists m0; exact (pl_hist _ _ _ P)). destruct (HistoryFacts.history_shape LA _ _ (pl_hist _ _ _ P)) as [Sh Kp]. assert (HN : (1 <= N)%nat) by exact (sh_N _ Sh).
  destruct (run_clock LA _ _ _ _ _ Ry) as [Edt Tm]. rewrite (proj2 (Reqb_true 0 0) eq_refl), Ed in Edt. rewrite Et, Edt in Tm.
  destruct (synced_step LA LAok n N name _ _ _ _ _ _ _ _ (pl_Zs0 _ _ _ P) (pl_Zl0 _ _ _ P) HN y z b w1 w2 W St) as (b' & w1' & w2' & W' & E1 & E2). cbv zeta in E1, E2. rewrite Edt, Tm in E1, E2.
  pose proof (sy_b _ _ _ _ _ _ _ _ _ _ _ _ _ _ _ _ W) as Hb. pose proof (sy_b _ _ _ _ _ _ _ _ _ _ _ _ _ _ _ _ W') as Hb'.
  destruct (step_marches LA _ _ _ _ St Hb) as (b'' & Hb'' & M). assert (b'' = b') by congruence. subst b''.
  pose proof (carries_march _ _ _ Ca M) as Ca'. exists b', w1', w2'. split; [exact W'|]. split; [exact Ca'|].
  destruct (run_ready LA _ _ _ _ _ _ _ Ln Ry Hb) as ([Rl Rc] & b0 & Hb0 & Kd). rewrite (proj2 (Reqb_true 0 0) eq_refl), (Eb _ Hb0) in Kd.
  pose proof (run_telegraph LA LAok _ _ _ _ _ _ _ _ _ Ln HS Hb Hb') as (Te1 & Te2). rewrite Kd in Te1, Te2. cbv zeta in Te1, Te2. rewrite (ca_n _ _ Ca), (ca_N _ _ Ca) in Te1, Te2.
  assert (Cd : cdiag (b_core b)) by (apply (bundle_cdiag LA); exact (proj1 (bundle_in LA y name b (sy_inv _ _ _ _ _ _ _ _ _ _ _ _ _ _ _ _ W) Hb))).
  pose proof (ca_n _ _ Ca) as Cn. pose proof (ca_N _ _ Ca) as CN. unfold b_conductors, b_cells in Cn, CN. set (dt := step_dt m) in *. set (t := 0 + INR k * dt) in *.
  assert (Wd : forall j, (j <= N)%nat -> kwidth (b_core b) j = width m j).
  { intros j Hj. unfold kwidth, width. rewrite CN. destruct (j =? 0)%nat eqn:J0; [apply (ca_h _ _ Ca); lia|]. apply Nat.eqb_neq in J0. destruct (Nat.eqb_spec j N); rewrite !(ca_h _ _ Ca) by lia; reflexivity. }
  destruct (built_ports LA m0 (history_built LA _ _ (pl_hist _ _ _ P))) as [HP1 HP2].
  assert (Kn : conductors m0 = n) by (symmetry; exact (kp_n _ _ Kp)). assert (KN : cells m0 = N) by (symmetry; exact (kp_N _ _ Kp)).
  assert (Kc : forall j i p, C_ m j i p = C_ m0 j i p) by (intros; unfold C_; now rewrite (kp_c _ _ Kp)).
  assert (Kh : forall j, cell_len m0 j = cell_len m j) by (intros; unfold cell_len; now rewrite (kp_h _ _ Kp)).
  rewrite Kn, Kh, <- (pl_dt _ _ _ P) in HP1. rewrite Kn, KN, Kh, <- (pl_dt _ _ _ P) in HP2. fold dt in HP1, HP2.
  assert (eT0 : forall c j s, (c < n)%nat -> eTran m c j s = 0) by exact (pl_eT _ _ _ P). assert (eL0 : forall c j s, (c < n)%nat -> eLong m c j s = 0) by exact (pl_eL _ _ _ P).
  assert (V0 : forall c, (c < n)%nat -> b_volt b' c 0 = volt a' c 0).
  { intros c Hc. apply Rminus_diag_uniq. revert c Hc. apply (port_kernel n _ _ _ _ _ _ (fun c => b_volt b' c 0 - volt a' c 0) HP1). intros i Hi.
    pose proof (left_thevenin LA LAok m0 m a a' T k i (pl_hist _ _ _ P) HR Hi (pl_dt _ _ _ P) (pl_G0 _ _ _ P)) as Th. unfold thevenin in Th. fold dt in Th. rewrite (pl_t _ _ _ P) in Th. fold t in Th.
    rewrite !(diag_mulv (Zs_ m)) in Th by (try exact Hi; intros j Hj Hne; now apply (pl_Zs _ _ _ P)).
    rewrite (mulv_ext n (C_ m 0) _ (fun p => volt a' p 0 - volt a p 0 + 0) i) in Th by (intros p Hp; rewrite !eT0 by exact Hp; ring).
    specialize (E1 i Hi). rewrite Li in E1 by (try exact Hi; lia).
    pose proof (diff_end (Zs_ m) (C_ m 0) (G_ m 0) (cell_len m 0) dt (curr a i 0) (source m i 0 t + source m i 0 (t - dt)) (fun p => volt a p 0) (fun p => volt a' p 0) (fun p => b_volt b p 0) (fun p => b_volt b' p 0) i Hi) as X.
    specialize (X (fun j Hj Hne => pl_Zs _ _ _ P i j Hi Hj Hne) (fun j Hj => proj1 (HO i j Hi Hj)) (fun j Hj => Lv j 0%nat Hj (Nat.le_0_l _)) E1 Th). cbv beta in X. etransitivity; [|exact X].
    unfold Zs_. rewrite <- (kp_zs _ _ Kp). f_equal. f_equal. f_equal; f_equal; apply mulv_ext; intros q Hq; apply mulv_ext2; intros p Hp; try reflexivity; [symmetry; apply Kc|symmetry; apply (pl_G0 _ _ _ P)]. }
  assert (VN : forall c, (c < n)%nat -> b_volt b' c N = volt a' c N).
  { intros c Hc. apply Rminus_diag_uniq. revert c Hc. apply (port_kernel n _ _ _ _ _ _ (fun c => b_volt b' c N - volt a' c N) HP2). intros i Hi.
    pose proof (right_thevenin LA LAok m0 m a a' T k i (pl_hist _ _ _ P) HR Hi (pl_dt _ _ _ P) (pl_GN _ _ _ P)) as Th. unfold thevenin in Th. fold dt in Th. rewrite (pl_t _ _ _ P) in Th. fold t in Th.
    rewrite !(diag_mulv (Zl_ m)) in Th by (try exact Hi; intros j Hj Hne; now apply (pl_Zl _ _ _ P)).
    rewrite (mulv_ext n (C_ m N) _ (fun p => volt a' p N - volt a p N + 0) i) in Th by (intros p Hp; rewrite !eT0 by exact Hp; ring).
    specialize (E2 i Hi). rewrite Li in E2 by (try exact Hi; lia).
    pose proof (diff_end (Zl_ m) (C_ m N) (G_ m N) (cell_len m (N - 1)) dt (- curr a i (N - 1)) (source m i N t + source m i N (t - dt)) (fun p => volt a p N) (fun p => volt a' p N) (fun p => b_volt b p N) (fun p => b_volt b' p N) i Hi) as X.
    specialize (X (fun j Hj Hne => pl_Zl _ _ _ P i j Hi Hj Hne) (fun j Hj => proj2 (HO i j Hi Hj)) (fun j Hj => Lv j N Hj (le_n _))). cbv beta in X.
    etransitivity; [|apply X; [rewrite <- E2; ring|exact Th]].
    unfold Zl_. rewrite <- (kp_zl _ _ Kp). f_equal. f_equal. f_equal; f_equal; apply mulv_ext; intros q Hq; apply mulv_ext2; intros p Hp; try reflexivity; [symmetry; apply Kc|symmetry; apply (pl_GN _ _ _ P)]. }
  assert (V : forall c j, (c < n)%nat -> (j <= N)%nat -> b_volt b' c j = volt a' c j).
  { intros c j Hc Hj. destruct (Nat.eq_dec j 0) as [->|J0]; [now apply V0|]. destruct (Nat.eq_dec j N) as [->|J1]; [now apply VN|].
    apply Rminus_diag_uniq. revert c Hc. rewrite <- Cn. apply (volt_kernel LA LAok (b_core b) j (fun c => b_volt b' c j - volt a' c j) Cd Rc); [lia|]. rewrite Cn, Kd. intros c Hc.
    pose proof (voltage_eq LA LAok m T k a a' c j RM HR Hc ltac:(lia) ltac:(lia)) as F. cbv zeta in F. specialize (Te1 c j Hc ltac:(lia) ltac:(lia)). rewrite Wd in * by lia. fold dt in F.
    rewrite !Li in Te1 by lia. unfold mulv in F.
    rewrite (sumR_ext n (fun p => kC (b_core b) j c p * _) (fun p => kC (b_core b) j c p * (b_volt b' p j - volt a' p j) + C_ m j c p * (volt a' p j - volt a p j))) in Te1
      by (intros p Hp; rewrite !(ca_T _ _ Ca), (Lv p j) by (auto; lia); rewrite (proj1 (ca_C _ _ Ca j c p ltac:(lia) Hc Hp)); rring).
    rewrite (sumR_ext n (fun p => kG (b_core b) j c p * _) (fun p => kG (b_core b) j c p * (b_volt b' p j - volt a' p j) + G_ m j c p * (volt a' p j + volt a p j))) in Te1
      by (intros p Hp; rewrite !(ca_T _ _ Ca), (Lv p j) by (auto; lia); rewrite (proj2 (ca_C _ _ Ca j c p ltac:(lia) Hc Hp)); rring).
    rewrite (sumR_ext n (fun p => C_ m j c p * _) (fun p => C_ m j c p * (volt a' p j - volt a p j))) in F by (intros p Hp; rewrite !eT0 by exact Hp; rring).
    rewrite (sumR_ext n (fun p => G_ m j c p * _) (fun p => G_ m j c p * (volt a' p j + volt a p j))) in F by (intros p Hp; rewrite !eT0 by exact Hp; rring).
    rewrite !sumR_plus in Te1. unfold Rdiv in *. lra. }
  split; [exact V|]. intros c j Hc Hj.
  apply Rminus_diag_uniq. revert c Hc. rewrite <- Cn. apply (curr_kernel LA LAok (b_core b) j (fun c => b_curr b' c j - curr a' c j) Cd Rl); [lia|]. rewrite Cn, Kd. intros c Hc.
  pose proof (current_eq_plain LA LAok m T k a a' c j RM (pl_und _ _ _ P) HR Hc Hj) as F. cbv zeta in F. specialize (Te2 c j Hc Hj). rewrite (ca_h _ _ Ca) in * by exact Hj. fold dt in F.
  rewrite !V in Te2 by lia. unfold mulv in F. rewrite (carries_mem _ _ _ _ Ca' Hj Hc) in Te2. rewrite !(ca_T _ _ Ca), !(ca_E _ _ Ca) in Te2. rewrite !eT0, !eL0 in F by exact Hc.
  rewrite (sumR_zero n (fun p => kD _ _ _ p * _)) in Te2 by (intros p Hp; destruct (ca_D _ _ Ca j c p) as (-> & _); rring).
  rewrite (sumR_zero n (fun p => kE _ _ _ p * _)) in Te2 by (intros p Hp; destruct (ca_D _ _ Ca j c p) as (_ & -> & _); rring).
  rewrite (sumR_zero n (fun p => kQ1 _ _ _ p * _)) in Te2 by (intros p Hp; destruct (ca_D _ _ Ca j c p) as (_ & _ & -> & _); rring).
  rewrite (sumR_zero n (fun p => kQ2 _ _ _ p * _)) in Te2 by (intros p Hp; destruct (ca_D _ _ Ca j c p) as (_ & _ & _ & ->); rring).
  rewrite (sumR_zero n (fun p => kD _ _ _ p * _)) by (intros p Hp; destruct (ca_D _ _ Ca j c p) as (-> & _); rring).
  rewrite (sumR_zero n (fun p => kE _ _ _ p * _)) by (intros p Hp; destruct (ca_D _ _ Ca j c p) as (_ & -> & _); rring).
  rewrite (sumR_zero n (fun p => kQ1 _ _ _ p * _)) by (intros p Hp; destruct (ca_D _ _ Ca j c p) as (_ & _ & -> & _); rring).
  rewrite (sumR_ext n (fun p => kL (b_core b) j c p * (b_curr b' p j - b_curr b p j)) (fun p => kL (b_core b) j c p * (b_curr b' p j - curr a' p j) + L_ m j c p * (curr a' p j - curr a p j))) in Te2
    by (intros p Hp; rewrite (Li p j) by (auto; lia); rewrite (proj1 (ca_L _ _ Ca j c p ltac:(lia) Hc Hp)); rring).
  rewrite (sumR_ext n (fun p => kR (b_core b) j c p * (b_curr b' p j + b_curr b p j)) (fun p => kR (b_core b) j c p * (b_curr b' p j - curr a' p j) + R_ m j c p * (curr a' p j + curr a p j))) in Te2
    by (intros p Hp; rewrite (Li p j) by (auto; lia); rewrite (proj2 (ca_L _ _ Ca j c p ltac:(lia) Hc Hp)); rring).
  rewrite !sumR_plus in Te2. unfold Rdiv in *. lra.
Qed.

Lemma solo_same T T' k : forall a y, run_state LA m T k a -> reaches LA x T' 0 k y -> exists b w1 w2, together y b w1 w2 /\ carries m b /\ level_ b a.
Proof.
  destruct solo_start as (Ln & Ed & Et & Eb & S0). induction k as [|k IH]; intros a y Ha Ry.
  - destruct (S0 T' y Ry) as (b & w1 & w2 & W & C & V & I). exists b, w1, w2. split; [exact W|]. split; [exact C|]. destruct Ha as (st & p & _ & _ & Hp & Hi). cbn [iterM] in Hi. apply OkI in Hi. subst p.
    apply prepare_inv in Hp as (t1 & t2 & _ & ->). split; intros c j Hc Hj; [rewrite V; symmetry; exact (pl_v _ _ _ P c j)|rewrite I; symmetry; exact (pl_i _ _ _ P c j)].
  - destruct Ha as (st & p & H1 & H2 & H3 & H4). rewrite iterM_S in H4. inv_bind H4. rename a0 into a0.
    assert (Hs : run_step LA m T k a0 a) by (exists st, p; repeat split; auto).
    destruct (reaches_step LA _ _ _ _ _ Ry) as (s & Rs & St & Rz). destruct (IH a0 s (proj1 (run_step_states LA _ _ _ _ _ Hs)) Rs) as (b & w1 & w2 & W & C & L).
    eapply solo_step; [exact Hs|split; [exact Rs|split; [exact St|exact Rz]]|exact W|exact C|exact L].
Qed.
End Run.
Lemma level_signals m0 m (b : bundle NumR) T k a : plain_line LA m0 m -> carries m b -> run_state LA m T k a -> level_ m b a <-> same_signals b a.
Proof.
  intros P C Ha. destruct (HistoryFacts.history_shape LA _ _ (pl_hist _ _ _ P)) as [Sh _]. destruct (run_state_inv LA _ _ _ _ Sh Ha) as (_ & _ & S & _ & _).
  assert (En : conductors a = conductors m) by exact (rs_n _ _ S). assert (EN : cells a = cells m) by exact (rs_N _ _ S). unfold level_, same_signals. rewrite En, EN, (ca_n _ _ C), (ca_N _ _ C). tauto.
Qed.
Lemma same_start m0 m name x T T' a y : plain_line LA m0 m -> soloed m name x -> run_state LA m T 0 a -> reaches LA x T' 0 0 y -> exists b, bundle_of y name = Some b /\ same_signals b a.
Proof.
  intros P X Ha Ry. destruct (solo_start m0 m name x P X) as (_ & _ & _ & _ & S0). destruct (S0 T' y Ry) as (b & w1 & w2 & W & C & V & I). exists b. split; [exact (sy_b _ _ _ _ _ _ _ _ _ _ _ _ _ _ _ _ W)|].
  eapply (level_signals m0 m b T 0 a P C Ha). destruct Ha as (st & p & _ & _ & Hp & Hi). cbn [iterM] in Hi. apply OkI in Hi. subst p.
  apply prepare_inv in Hp as (t1 & t2 & _ & ->). split; intros c j Hc Hj; [rewrite V; symmetry; exact (pl_v _ _ _ P c j)|rewrite I; symmetry; exact (pl_i _ _ _ P c j)].
Qed.
Lemma same_as_alone m0 m name x T T' k a y : plain_line LA m0 m -> open_ends m -> soloed m name x -> run_state LA m T k a -> reaches LA x T' 0 k y ->
  t_time y = m_time a /\ exists b, bundle_of y name = Some b /\ same_signals b a.
Proof.
  intros P O X Ha R. destruct (solo_start m0 m name x P X) as (_ & Ed & Et & _ & _). destruct (solo_same m0 m name x P X O T T' k a y Ha R) as (b & w1 & w2 & W & C & L). split.
  - destruct (HistoryFacts.history_shape LA _ _ (pl_hist _ _ _ P)) as [Sh _]. rewrite (run_time LA _ _ _ _ Sh Ha), (pl_t _ _ _ P). destruct (run_clock LA _ _ _ _ _ R) as [E1 E2].
    rewrite (proj2 (Reqb_true 0 0) eq_refl) in E1. now rewrite E2, E1, Ed, Et.
  - exists b. split; [exact (sy_b _ _ _ _ _ _ _ _ _ _ _ _ _ _ _ _ W)|]. eapply level_signals; eauto.
Qed.
Lemma same_no_leak m0 m name x T T' k a a' y z b b' : plain_line LA m0 m -> soloed m name x -> run_step LA m T k a a' -> steps_to LA x T' 0 k y z ->
  bundle_of y name = Some b -> bundle_of z name = Some b' -> same_signals b a -> same_signals b' a' ->
  forall i, (i < conductors m)%nat -> cell_len m 0 * mulv (conductors m) (G_ m 0) (fun p => volt a' p 0 + volt a p 0) i = 0 /\
    cell_len m (cells m - 1) * mulv (conductors m) (G_ m (cells m)) (fun p => volt a' p (cells m) + volt a p (cells m)) i = 0.
Proof.
  intros P X Hs St Hb Hb' E E'. destruct (run_step_states LA _ _ _ _ _ Hs) as [Ha Ha']. pose proof St as (Ry & _ & Rz).
  destruct (solo_together m0 m name x P X T' k y Ry) as (b1 & w1 & w2 & W & C). assert (b1 = b) by (pose proof (sy_b _ _ _ _ _ _ _ _ _ _ _ _ _ _ _ _ W); congruence). subst b1.
  destruct (solo_together m0 m name x P X T' (S k) z Rz) as (b1 & w1' & w2' & W' & C'). assert (b1 = b') by (pose proof (sy_b _ _ _ _ _ _ _ _ _ _ _ _ _ _ _ _ W'); congruence). subst b1.
  apply (solo_leak m0 m name x P X T T' k a a' y z b b' Hs St Hb Hb'); eapply level_signals; eauto.
Qed.
End S.
