(** A line in a bundle and alone: the run. *)
From Coq Require Import String List Arith ZArith Bool Lia Reals Lra.
From Verif Require Import Num Py Arr ArrFacts NumR RFacts LinAlg Probes Dispersive Line LineFacts Bundle Networks Mtln
  SpecLine SpecR SpecBundle SpecDisp SpecCore SpecAlone HistoryFacts CoreEq BundleFacts BlockFacts DispR DispTotal BundleR SymFacts CoreUnique AloneFacts.
Import ListNotations.
Local Open Scope R_scope.

Lemma u_eqb_ext (u w : mat NumR) : u_eqb u w = true -> length u = length w /\ forall k, (k < length u)%nat -> nth k u [] = nth k w [].
Proof.
  unfold u_eqb. intros H. apply andb_prop in H as [H1 H2]. apply Nat.eqb_eq in H1. split; [exact H1|]. intros k Hk.
  rewrite forallb_forall in H2. specialize (H2 k). rewrite in_seq in H2. specialize (H2 ltac:(lia)). unfold vec_eqb in H2.
  apply andb_prop in H2 as [H3 H4]. apply Nat.eqb_eq in H3. apply (nth_ext _ _ (@n0 NumR) (@n0 NumR)); [exact H3|]. intros j Hj.
  rewrite forallb_forall in H4. specialize (H4 j). rewrite in_seq in H4. specialize (H4 ltac:(lia)). now apply Reqb_true in H4.
Qed.
Lemma u_eqb_eq (u w : mat NumR) : u_eqb u w = true -> u = w.
Proof. intros H. destruct (u_eqb_ext u w H) as [H1 H2]. apply (nth_ext _ _ [] []); auto. Qed.


Lemma first_row_off (ls : list (mtl NumR)) q : first_row ls q = off ls q.
Proof. unfold first_row, off. now rewrite count_sum. Qed.

Lemma new_no_disp levels name (b : bundle NumR) : Forall (Forall undispersed) levels -> mtld_new levels name = Ok b ->
  forall k i j, kD (b_core b) k i j = 0 /\ kE (b_core b) k i j = 0 /\ kQ1 (b_core b) k i j = 0 /\ kQ2 (b_core b) k i j = 0.
Proof.
  intros U H k i j. destruct (new_zero _ _ _ U H) as (Z1 & Z2 & _). destruct (Z2 k i j) as [A1 A2]. destruct (Z1 k i j) as (B1 & B2 & _).
  pose proof (mtld_new_binv _ _ _ H) as Bi.
  assert (Z : qsum (@qzero NumR) = 0) by (unfold qsum, qzero, cadd, c0; cbn; lra).
  split; [exact A1|]. split; [exact A2|]. unfold kQ1, kQ2. fold (b_disp b). rewrite (bi_s1 _ Bi), (bi_s2 _ Bi), !qsum3_get.
  fold (dP1 (b_disp b) k i j) (dP2 (b_disp b) k i j). rewrite B1, B2. auto.
Qed.

Section AloneRun.
Variable LA : lapack NumR.
Hypothesis LAok : lapack_ok LA.
Variable levels : list (list (mtl NumR)).
Variable q : nat.
Variable m : mtl NumR.
Hypothesis HR : Forall (Forall (reachable LA)) levels.
Hypothesis HU : Forall (Forall undispersed) levels.
Hypothesis Hm : nth_error (concat levels) q = Some m.
Let r0 := first_row (concat levels) q.
Let n := conductors m.

Lemma m_in : In m (concat levels). Proof. eapply nth_error_In; eauto. Qed.
Lemma m_reach : reachable LA m.
Proof.
  pose proof m_in as I. apply in_concat in I as (l & I1 & I2). rewrite Forall_forall in HR.
  specialize (HR l I1). rewrite Forall_forall in HR. auto.
Qed.
Lemma m_und : undispersed m.
Proof.
  pose proof m_in as I. apply in_concat in I as (l & I1 & I2). rewrite Forall_forall in HU.
  specialize (HU l I1). rewrite Forall_forall in HU. auto.
Qed.
Lemma m_nth : (q < length (concat levels))%nat /\ nth q (concat levels) no_line = m.
Proof.
  split; [apply nth_error_Some; congruence|]. now apply nth_error_nth.
Qed.

Record lock (b a : bundle NumR) : Prop := {
  lk_b : exists b0, one_way LA (fun _ => False) b0 b;
  lk_a : exists a0, one_way LA (fun _ => False) a0 a;
  lk_blk : block r0 n (b_core b) (b_core a);
  lk_lr : both_lr LA (b_core b) (b_core a); lk_cg : both_cg LA (b_core b) (b_core a);
  lk_agr : agree r0 n (b_core b) (b_core a); lk_fld : same_fields r0 n (b_core b) (b_core a);
  lk_g : grid (b_core b); lk_g' : grid (b_core a)
}.

Hypothesis HC : own_cells levels m.
Lemma block_new name name' b a : mtld_new levels name = Ok b -> mtld_new [[m]] name' = Ok a -> block r0 n (b_core b) (b_core a).
Proof.
  intros Hb Ha. pose proof m_reach as RM. pose proof m_und as UM. destruct m_nth as [Hq Eq].
  assert (RA : Forall (Forall (reachable LA)) [[m]]) by (repeat constructor; exact RM).
  assert (UA : Forall (Forall undispersed) [[m]]) by (repeat constructor; exact UM).
  destruct (new_cdiag LA _ _ _ HR Hb) as (Cb & Lb & Fb). destruct (new_cdiag LA _ _ _ RA Ha) as (Ca & La & Fa).
  rewrite Forall_forall in Fb, Fa. pose proof (Fb m m_in) as Nb. pose proof (Fa m (or_introl eq_refl)) as Na. unfold b_cells in Nb, Na.
  destruct (new_frame _ _ _ Hb) as (outer & rest & E & Enb & _). destruct (new_frame _ _ _ Ha) as (outer' & rest' & E' & Ena & _).
  cbn [concat app] in *. rewrite count_one in Ena.
  assert (O : r0 = off (concat levels) q) by apply first_row_off.
  pose proof (off_S (concat levels) q no_line Hq) as OS. rewrite Eq in OS. pose proof (off_le (concat levels) (S q)) as OL.
  assert (X : forall k c c', (c < n)%nat -> (c' < n)%nat ->
    ((k < k_N (b_core b))%nat -> kL (b_core b) k (r0 + c) (r0 + c') = kL (b_core a) k c c' /\ kR (b_core b) k (r0 + c) (r0 + c') = kR (b_core a) k c c') /\
    ((k <= k_N (b_core b))%nat -> kC (b_core b) k (r0 + c) (r0 + c') = kC (b_core a) k c c' /\ kG (b_core b) k (r0 + c) (r0 + c') = kG (b_core a) k c c')).
  { intros k c c' Hc Hc'.
    pose proof (new_entries _ _ _ q q c c' k Hb Hq Hq) as Y. cbv zeta in Y. rewrite Eq in Y. specialize (Y Hc Hc'). rewrite Nat.eqb_refl, <- O in Y.
    pose proof (new_entries _ _ _ 0 0 c c' k Ha) as Y'. cbn [concat app length nth Nat.eqb] in Y'. cbv zeta in Y'. specialize (Y' ltac:(lia) ltac:(lia) Hc Hc').
    change (@off NumR [m] 0 + c)%nat with c in Y'. change (@off NumR [m] 0 + c')%nat with c' in Y'. rewrite <- Na, Nb in Y'.
    destruct Y as (Y1 & Y2 & Y3 & Y4). destruct Y' as (Z1 & Z2 & Z3 & Z4). unfold kL, kR, kC, kG.
    split; intros Hk; split; [rewrite Y1, Z1|rewrite Y2, Z2|rewrite Y3, Z3|rewrite Y4, Z4]; auto. }
  assert (X0 : forall k c j, (c < n)%nat -> (j < k_n (b_core b))%nat -> (j < r0 \/ r0 + n <= j)%nat ->
    ((k < k_N (b_core b))%nat -> kL (b_core b) k (r0 + c) j = 0 /\ kR (b_core b) k (r0 + c) j = 0) /\
    ((k <= k_N (b_core b))%nat -> kC (b_core b) k (r0 + c) j = 0 /\ kG (b_core b) k (r0 + c) j = 0)).
  { intros k c j Hc Hj Hout. rewrite Enb in Hj. destruct (locate _ no_line j Hj) as (q' & c' & Hq' & Hc' & Ej).
    assert (Hne : (q =? q')%nat = false).
    { apply Nat.eqb_neq. intros <-. rewrite Eq in Hc'. subst j. rewrite <- O in Hout. fold n in Hc'. lia. }
    pose proof (new_entries _ _ _ q q' c c' k Hb Hq Hq') as Y. cbv zeta in Y. rewrite Eq in Y. specialize (Y Hc Hc'). rewrite Hne, <- O, <- Ej in Y.
    destruct Y as (Y1 & Y2 & Y3 & Y4). unfold kL, kR, kC, kG. split; intros Hk; split; auto. }
  split; auto.
  - rewrite Enb. subst r0 n. rewrite O. lia.
  - congruence.
  - intros k Hk. rewrite Lb by exact Hk. rewrite La by (rewrite <- Na, Nb; exact Hk). rewrite E. cbn [concat app hd]. symmetry. apply (HC outer rest E). lia.
  - intros. now apply X.
  - intros. now apply X.
  - intros. now apply X0.
  - intros. now apply X0.
  - intros. now apply (new_no_disp levels name).
  - intros. now apply (new_no_disp _ _ _ UA Ha).
Qed.

Lemma rows_zero x y (i j : nat) : @get2 NumR (zeros2 x y) i j = 0.
Proof. exact (get2_zeros x y i j). Qed.
Lemma fun_zero x y c k (t : R) : nth k (nth c (mk2 x y (fun _ _ (_ : R) => 0)) []) (fun _ => 0) t = 0.
Proof.
  unfold mk2. destruct (Nat.lt_ge_cases c x); [rewrite nth_mk by auto|rewrite nth_mk_over by auto; destruct k; reflexivity].
  destruct (Nat.lt_ge_cases k y); [rewrite nth_mk by auto|rewrite nth_mk_over by auto]; reflexivity.
Qed.
Lemma grid_zeros x y : length (@zeros2 NumR x y) = x /\ forall c, (c < x)%nat -> length (nth c (@zeros2 NumR x y) []) = y.
Proof. unfold zeros2, mk2. split; [apply length_mk|]. intros c Hc. rewrite nth_mk by auto. apply length_mk. Qed.

Lemma lock_new name name' b a : mtld_new levels name = Ok b -> mtld_new [[m]] name' = Ok a ->
  lock b (b_set_core a (set_dt (b_core a) (k_dt (b_core b)))).
Proof.
  intros Hb Ha. pose proof (block_new _ _ _ _ Hb Ha) as B.
  destruct (new_frame _ _ _ Hb) as (o & r & _ & _ & _ & _ & Ev & Ei & EL & ET & _ & Elr & Ecg & _).
  destruct (new_frame _ _ _ Ha) as (o' & r' & _ & _ & _ & _ & Ev' & Ei' & EL' & ET' & _ & Elr' & Ecg' & _).
  split.
  - exists b. eapply ow_new; eauto.
  - exists a. eapply ow_march; [eapply ow_new; [| |exact Ha]; repeat constructor; [apply m_reach|apply m_und]|]. apply ma_dt, ma_refl.
  - eapply block_dyn; [apply dyn_refl| |exact B]. split; reflexivity.
  - left. split; [exact Elr|exact Elr'].
  - left. split; [exact Ecg|exact Ecg'].
  - intros c k Hc. unfold kv, ki. cbn [b_set_core b_core b_set set_dt k_v k_i]. rewrite Ev, Ei, Ev', Ei', !rows_zero. split; auto.
  - intros c k t Hc. unfold kLong, kTran. cbn [b_set_core b_core b_set set_dt k_eL k_eT]. rewrite EL, ET, EL', ET'. split; now rewrite !fun_zero.
  - unfold grid. rewrite Ev. apply grid_zeros.
  - unfold grid. cbn [b_set_core b_core b_set set_dt k_v k_n k_N]. rewrite Ev'. apply grid_zeros.
Qed.

Lemma upd_row (s : core NumR) c k x i j : grid s -> (c < k_n s)%nat -> (k <= k_N s)%nat ->
  get2 (upd2 (k_v s) c k x) i j = if ((c =? i) && (k =? j))%nat then x else get2 (k_v s) i j.
Proof.
  intros [G1 G2] Hc Hk. unfold get2, upd2, get. rewrite nth_lset, G1, (proj2 (Nat.ltb_lt _ _) Hc), andb_true_r.
  destruct (Nat.eqb_spec c i) as [->|Hn]; [|reflexivity]. cbn [andb]. rewrite nth_lset, G2 by exact Hc.
  rewrite (proj2 (Nat.ltb_lt k (S (k_N s)))) by lia. now rewrite andb_true_r.
Qed.
Lemma grid_upd (s : core NumR) c k x : grid s -> grid (set_v s (upd2 (k_v s) c k x)).
Proof.
  intros [G1 G2]. unfold grid. cbn [set_v k_v k_n k_N]. unfold upd2. split; [now rewrite length_lset|].
  intros i Hi. rewrite nth_lset. destruct (_ && _) eqn:E; [|auto]. apply andb_prop in E as [E _]. apply Nat.eqb_eq in E. subst i.
  rewrite length_lset. auto.
Qed.
Lemma put_kv b c last x i j : grid (b_core b) -> (c < k_n (b_core b))%nat ->
  kv (b_core (put_end b c last x)) i j = if ((c =? i) && ((if last then k_N (b_core b) else 0) =? j))%nat then x else kv (b_core b) i j.
Proof.
  intros G Hc. unfold kv, put_end. cbn [b_set_core b_set b_core set_v k_v]. apply upd_row; auto. destruct last; lia.
Qed.
Lemma put_dyn b c last x : dyn_same (b_core b) (b_core (put_end b c last x)).
Proof. split; reflexivity. Qed.

Lemma ready_prep steps (b b' : bundle NumR) : bundle_prepare LA steps b = Ok b' ->
  dyn_same (b_core b) (b_core b') /\ k_v (b_core b') = k_v (b_core b) /\ k_i (b_core b') = k_i (b_core b) /\
  k_eL (b_core b') = k_eL (b_core b) /\ k_eT (b_core b') = k_eT (b_core b) /\ k_dt (b_core b') = k_dt (b_core b) /\
  lr_ready LA (b_core b') /\ cg_ready LA (b_core b').
Proof.
  unfold bundle_prepare. intros H. inv_bind H. inv_bind H. apply OkI in H. subst b'. cbn [b_set b_core].
  pose proof (update_lr_ready LA _ _ Ha) as R1. pose proof (update_cg_ready LA _ _ Ha0) as R2.
  apply update_lr_inv in Ha as [t1 ->]. apply update_cg_inv in Ha0 as [t2 ->].
  split; [split; reflexivity|]. do 5 (split; [reflexivity|]). split; [now apply lr_ready_set_cg|exact R2].
Qed.
Lemma set_dt_id (s : core NumR) : set_dt s (k_dt s) = s. Proof. now destruct s. Qed.

(** equal steps *)
Lemma beside_dt b a : beside LA levels q m b a -> k_dt (b_core b) = k_dt (b_core a).
Proof.
  induction 1 as [name name' b a Hb Ha|b a dt H IH|b a st st' b' a' H IH Hb Ha|b a t dt b' a' H IH Hb Ha|b a t dt b' a' H IH Hb Ha
    |b a c last x H IH Hc|b a r last x H IH Hr Ho|b a eL eT eL' eT' H IH b' a' F|b a t b' H IH Hb|b a t a' H IH Ha].
  - reflexivity.
  - reflexivity.
  - destruct (ready_prep _ _ _ Hb) as (_ & _ & _ & _ & _ & -> & _). destruct (ready_prep _ _ _ Ha) as (_ & _ & _ & _ & _ & -> & _). exact IH.
  - unfold bundle_advance_voltage in *. inv_bind Hb. inv_bind Ha. apply OkI in Hb, Ha. subst b' a'. cbn [b_set_core b_set b_core].
    destruct (advv_dyn _ _ _ Ha0) as (_ & _ & -> & _). destruct (advv_dyn _ _ _ Ha1) as (_ & _ & -> & _). exact IH.
  - unfold bundle_advance_current in *. inv_bind Hb. inv_bind Ha. apply OkI in Hb, Ha. subst b' a'. cbn [b_set_core b_set b_core].
    destruct (advi_dyn _ _ _ Ha0) as (_ & _ & -> & _). destruct (advi_dyn _ _ _ Ha1) as (_ & _ & -> & _). exact IH.
  - exact IH.
  - exact IH.
  - exact IH.
  - unfold bundle_update_probes in Hb. inv_bind Hb. apply OkI in Hb. subst b'. exact IH.
  - unfold bundle_update_probes in Ha. inv_bind Ha. apply OkI in Ha. subst a'. exact IH.
Qed.

Lemma beside_lock b a : beside LA levels q m b a -> lock b a.
Proof.
  induction 1 as [name name' b a Hb Ha|b a dt H IH|b a st st' b' a' H IH Hb Ha|b a t dt b' a' H IH Hb Ha|b a t dt b' a' H IH Hb Ha
    |b a c last x H IH Hc|b a r last x H IH Hr Ho|b a eL eT eL' eT' H IH b' a' F|b a t b' H IH Hb|b a t a' H IH Ha].
  - now apply (lock_new name name').
  - destruct IH as [(b0 & Ob) (a0 & Oa) B Lr Cg A Fl G G']. split; auto.
    + exists b0. eapply ow_march; [exact Ob|apply ma_dt, ma_refl].
    + exists a0. eapply ow_march; [exact Oa|apply ma_dt, ma_refl].
    + eapply block_dyn; [| |exact B]; split; reflexivity.
  - pose proof (beside_dt _ _ H) as Ed. destruct IH as [(b0 & Ob) (a0 & Oa) B Lr Cg A Fl G G'].
    destruct (ready_prep _ _ _ Hb) as (D & Ev & Ei & EL & ET & Et & R1 & R2).
    destruct (ready_prep _ _ _ Ha) as (D' & Ev' & Ei' & EL' & ET' & Et' & R1' & R2'). split.
    + exists b0. eapply ow_march; [exact Ob|]. eapply ma_prepare; [apply ma_refl|exact Hb].
    + exists a0. eapply ow_march; [exact Oa|]. eapply ma_prepare; [apply ma_refl|exact Ha].
    + eapply block_dyn; eauto.
    + right. exists (k_dt (b_core b')). rewrite set_dt_id. split; [exact R1|]. replace (k_dt (b_core b')) with (k_dt (b_core a')) by congruence. now rewrite set_dt_id.
    + right. exists (k_dt (b_core b')). rewrite set_dt_id. split; [exact R2|]. replace (k_dt (b_core b')) with (k_dt (b_core a')) by congruence. now rewrite set_dt_id.
    + intros c k Hc. unfold kv, ki. rewrite Ev, Ei, Ev', Ei', (dy_N _ _ D). now apply A.
    + intros c k t Hc. unfold kLong, kTran. rewrite EL, ET, EL', ET'. now apply Fl.
    + unfold grid. rewrite Ev, (dy_n _ _ D), (dy_N _ _ D). exact G.
    + unfold grid. rewrite Ev', (dy_n _ _ D'), (dy_N _ _ D'). exact G'.
  - destruct IH as [(b0 & Ob) (a0 & Oa) B Lr Cg A Fl G G'].
    assert (M1 : marches LA b b') by (eapply ma_volt; [apply ma_refl|exact Hb]).
    assert (M2 : marches LA a a') by (eapply ma_volt; [apply ma_refl|exact Ha]).
    unfold bundle_advance_voltage in Hb, Ha. inv_bind Hb. inv_bind Ha. apply OkI in Hb, Ha. subst b' a'. rename a1 into s1, a2 into s2.
    destruct (advv_dyn _ _ _ Ha0) as (D & Ei & Et & EL & ET & El & Ec & Ed & Gr).
    destruct (advv_dyn _ _ _ Ha1) as (D' & Ei' & Et' & EL' & ET' & El' & Ec' & Ed' & Gr').
    split; cbn [b_set_core b_set b_core]; auto.
    + exists b0. eapply ow_march; eauto.
    + exists a0. eapply ow_march; eauto.
    + eapply block_dyn; eauto.
    + destruct Lr as [[X Y]|(d & X & Y)]; [left; rewrite El, El'; auto|]. right. exists d. split; eapply lr_keep; eauto.
    + destruct Cg as [[X Y]|(d & X & Y)]; [left; rewrite Ec, Ec'; auto|]. right. exists d. split; eapply cg_keep; eauto.
    + eapply (block_volt LA LAok); eauto.
    + intros c k t' Hc. unfold kLong, kTran. rewrite EL, ET, EL', ET'. now apply Fl.
  - destruct IH as [(b0 & Ob) (a0 & Oa) B Lr Cg A Fl G G'].
    assert (M1 : marches LA b b') by (eapply ma_curr; [apply ma_refl|exact Hb]).
    assert (M2 : marches LA a a') by (eapply ma_curr; [apply ma_refl|exact Ha]).
    assert (Ob' : one_way LA (fun _ => False) b0 b') by (eapply ow_march; eauto).
    assert (Oa' : one_way LA (fun _ => False) a0 a') by (eapply ow_march; eauto).
    pose proof (one_way_memory LA _ _ _ Ob') as Mb. pose proof (one_way_memory LA _ _ _ Oa') as Ma.
    unfold bundle_advance_current in Hb, Ha. inv_bind Hb. inv_bind Ha. apply OkI in Hb, Ha. subst b' a'. rename a1 into s1, a2 into s2.
    destruct (advi_dyn _ _ _ Ha0) as (D & Ev & Et & EL & ET & El & Ec).
    destruct (advi_dyn _ _ _ Ha1) as (D' & Ev' & Et' & EL' & ET' & El' & Ec').
    split; cbn [b_set_core b_set b_core]; auto.
    + exists b0; auto.
    + exists a0; auto.
    + eapply block_dyn; eauto.
    + destruct Lr as [[X Y]|(d & X & Y)]; [left; rewrite El, El'; auto|]. right. exists d. split; eapply lr_keep; eauto.
    + destruct Cg as [[X Y]|(d & X & Y)]; [left; rewrite Ec, Ec'; auto|]. right. exists d. split; eapply cg_keep; eauto.
    + eapply (block_curr LA LAok); eauto.
      * intros k c Hk Hc. apply (Mb k c); unfold b_cells, b_conductors; cbn [b_set_core b_set b_core]; [now rewrite (dy_N _ _ D)|now rewrite (dy_n _ _ D)].
      * intros k c Hk Hc. apply (Ma k c); unfold b_cells, b_conductors; cbn [b_set_core b_set b_core]; [now rewrite (dy_N _ _ D')|now rewrite (dy_n _ _ D')].
    + intros c k t' Hc. unfold kLong, kTran. rewrite EL, ET, EL', ET'. now apply Fl.
    + unfold grid. rewrite Ev, (dy_n _ _ D), (dy_N _ _ D). exact G.
    + unfold grid. rewrite Ev', (dy_n _ _ D'), (dy_N _ _ D'). exact G'.
  - destruct IH as [(b0 & Ob) (a0 & Oa) B Lr Cg A Fl G G'].
    pose proof (bl_in _ _ _ _ B) as Hin. pose proof (bl_n _ _ _ _ B) as En. pose proof (bl_N _ _ _ _ B) as EN. fold n in Hc. fold r0.
    assert (C1 : (r0 + c < k_n (b_core b))%nat) by lia. assert (C2 : (c < k_n (b_core a))%nat) by lia.
    split; auto.
    + exists b0. eapply ow_march; [exact Ob|]. apply ma_end; [apply ma_refl|exact C1].
    + exists a0. eapply ow_march; [exact Oa|]. apply ma_end; [apply ma_refl|exact C2].
    + eapply block_dyn; [apply put_dyn|apply put_dyn|exact B].
    + destruct Lr as [X|(d & X & Y)]; [left; exact X|]. right. exists d. split; [eapply lr_keep; [apply put_dyn|reflexivity|exact X]|eapply lr_keep; [apply put_dyn|reflexivity|exact Y]].
    + destruct Cg as [X|(d & X & Y)]; [left; exact X|]. right. exists d. split; [eapply cg_keep; [apply put_dyn|reflexivity|exact X]|eapply cg_keep; [apply put_dyn|reflexivity|exact Y]].
    + intros i k Hi. split; intros Hk; [|apply (A i k Hi); exact Hk]. rewrite !put_kv by auto.
      destruct (A i k Hi) as [A1 _]. rewrite A1 by exact Hk. rewrite EN.
      replace (r0 + c =? r0 + i)%nat with (c =? i)%nat; [reflexivity|]. destruct (Nat.eqb_spec c i), (Nat.eqb_spec (r0 + c) (r0 + i)); auto; lia.
    + now apply grid_upd.
    + now apply grid_upd.
  - destruct IH as [(b0 & Ob) (a0 & Oa) B Lr Cg A Fl G G']. unfold b_conductors in Hr.
    split; auto.
    + exists b0. eapply ow_march; [exact Ob|]. apply ma_end; [apply ma_refl|exact Hr].
    + exists a0; auto.
    + eapply block_dyn; [apply put_dyn|apply dyn_refl|exact B].
    + destruct Lr as [X|(d & X & Y)]; [left; exact X|]. right. exists d. split; [eapply lr_keep; [apply put_dyn|reflexivity|exact X]|exact Y].
    + destruct Cg as [X|(d & X & Y)]; [left; exact X|]. right. exists d. split; [eapply cg_keep; [apply put_dyn|reflexivity|exact X]|exact Y].
    + intros i k Hi. split; intros Hk; [|apply (A i k Hi); exact Hk]. rewrite put_kv by auto.
      specialize (Ho i Hi). fold r0 in Ho. rewrite (proj2 (Nat.eqb_neq r (r0 + i))) by exact Ho. cbn [andb]. now apply A.
    + now apply grid_upd.
  - destruct IH as [(b0 & Ob) (a0 & Oa) B Lr Cg A Fl G G']. split; auto.
    + exists b0. now apply ow_field.
    + exists a0. now apply ow_field.
    + eapply block_dyn; [| |exact B]; split; reflexivity.
    + destruct Lr as [X|(d & X & Y)]; [left; exact X|]. right. exists d. split; [apply (lr_keep LA (b_core b)); [split; reflexivity|reflexivity|exact X]|apply (lr_keep LA (b_core a)); [split; reflexivity|reflexivity|exact Y]].
    + destruct Cg as [X|(d & X & Y)]; [left; exact X|]. right. exists d. split; [apply (cg_keep LA (b_core b)); [split; reflexivity|reflexivity|exact X]|apply (cg_keep LA (b_core a)); [split; reflexivity|reflexivity|exact Y]].
  - destruct IH as [(b0 & Ob) (a0 & Oa) B Lr Cg A Fl G G'].
    assert (M1 : marches LA b b') by (eapply ma_probes; [apply ma_refl|exact Hb]).
    unfold bundle_update_probes in Hb. inv_bind Hb. apply OkI in Hb. subst b'. split; auto.
    + exists b0. eapply ow_march; eauto.
    + exists a0; auto.
  - destruct IH as [(b0 & Ob) (a0 & Oa) B Lr Cg A Fl G G'].
    assert (M1 : marches LA a a') by (eapply ma_probes; [apply ma_refl|exact Ha]).
    unfold bundle_update_probes in Ha. inv_bind Ha. apply OkI in Ha. subst a'. split; auto.
    + exists b0; auto.
    + exists a0. eapply ow_march; eauto.
Qed.

Lemma beside_rows b a : beside LA levels q m b a ->
  forall c k, (c < conductors m)%nat ->
    ((k <= b_cells b)%nat -> b_volt b (first_row (concat levels) q + c) k = b_volt a c k) /\
    ((k < b_cells b)%nat -> b_curr b (first_row (concat levels) q + c) k = b_curr a c k).
Proof. intros H. exact (lk_agr _ _ (beside_lock _ _ H)). Qed.
End AloneRun.
