(** Networks of lines over the reals: steps, stamps, telegrapher's equations. *)
From Coq Require Import String List Arith ZArith Bool Permutation Lia Reals Lra.
From Verif Require Import Num Py Arr ArrFacts NumR RFacts LinAlg Utils Probes Dispersive Line LineFacts Bundle Networks Mtln SpecLine SpecR SpecBundle SpecNet SpecMtln SpecProbe SpecCore SpecTele
  ProbeFacts RecordFacts RunProps BundleFacts BundleR BundleMore CoreEq CoreUnique AloneFacts AloneRun NetFacts NetBuild NetPlace MtlnFacts MtlnProps MtlnPerm.
Import ListNotations.
Local Open Scope R_scope.

Implicit Types x y : mtln NumR.
Implicit Types b : bundle NumR.

(** *** the step of a network of lines *)
Lemma fold_step (l : list (bundle NumR)) : forall x x', foldM add_bundle l x = Ok x' ->
  t_dt x' <= t_dt x /\ (forall b, In b l -> t_dt x' <= k_dt (b_core b)) /\ (t_dt x' = t_dt x \/ exists b, In b l /\ t_dt x' = k_dt (b_core b)).
Proof.
  induction l as [|b l IH]; intros x x' H; cbn [foldM] in H; [injection H as <-; split; [lra|]; split; [intros b []|now left]|].
  inv_bind H. apply add_bundle_inv in Ha as [_ ->]. destruct (IH _ _ H) as (H1 & H2 & H3). cbn [t_dt] in *.
  destruct (@nltb NumR (k_dt (b_core b)) (t_dt x)) eqn:E.
  - change (Rltb (k_dt (b_core b)) (t_dt x) = true) in E. apply Rltb_true in E. split; [lra|]. split.
    + intros c [Ec|Hc]; [subst c; exact H1|auto].
    + right. destruct H3 as [H3|(c & Hc & H3)]; [exists b; split; [now left|exact H3]|exists c; split; [now right|exact H3]].
  - change (Rltb (k_dt (b_core b)) (t_dt x) = false) in E. apply Rltb_false in E. split; [exact H1|]. split.
    + intros c [Ec|Hc]; [subst c; lra|auto].
    + destruct H3 as [H3|(c & Hc & H3)]; [now left|right; exists c; split; [now right|exact H3]].
Qed.
Lemma new_dt (l : list (bundle NumR)) ws x : mtln_new l ws = Ok x -> (exists b, In b l /\ k_dt (b_core b) < 10000000000) ->
  (forall b, In b l -> t_dt x <= k_dt (b_core b)) /\ exists b, In b l /\ t_dt x = k_dt (b_core b).
Proof.
  unfold mtln_new. intros H (b & Hb & Lb). inv_bind H. destruct (fold_step _ _ _ Ha) as (H1 & H2 & H3). apply fold_networks in H as (_ & E & _). rewrite E.
  split; [exact H2|]. destruct H3 as [H3|H3]; [|exact H3]. exfalso. specialize (H2 b Hb). rewrite H3 in H2. cbn [mtln_empty t_dt] in H2.
  change (10000000000 <= k_dt (b_core b)) in H2. lra.
Qed.
Lemma new_dt_unique (l l' : list (bundle NumR)) x x' : Permutation l l' -> foldM add_bundle l mtln_empty = Ok x -> foldM add_bundle l' mtln_empty = Ok x' -> t_dt x' = t_dt x.
Proof.
  intros Q H H'. destruct (fold_step _ _ _ H) as (A1 & A2 & A3). destruct (fold_step _ _ _ H') as (B1 & B2 & B3).
  apply Rle_antisym.
  - destruct A3 as [A3|(b & Hb & A3)]; rewrite A3; [exact B1|]. apply B2. eapply Permutation_in; eauto.
  - destruct B3 as [B3|(b & Hb & B3)]; rewrite B3; [exact A1|]. apply A2. apply Permutation_sym in Q. eapply Permutation_in; eauto.
Qed.
Lemma shift_perm {N : num} (bs bs' : bdict N) level kn : NoDup (map fst bs) -> Permutation bs bs' -> shift_node bs' level kn = shift_node bs level kn.
Proof. intros ND Q. unfold shift_node. destruct kn as [id nd]. now rewrite (sget_perm _ _ _ ND Q). Qed.
Lemma register_perm {N : num} (bs bs' : bdict N) (d : networkd N) : NoDup (map fst bs) -> Permutation bs bs' -> update_index_numbers d bs' = update_index_numbers d bs.
Proof.
  intros ND Q. unfold update_index_numbers. apply mapM_same. intros [l w]. cbn [fst snd]. f_equal. apply mapM_same. intros kn. now apply shift_perm.
Qed.
Lemma fold_networks_map {N : num} (ws : list (networkd N)) : forall (x x' : mtln N), foldM add_network ws x = Ok x' <->
  exists ws', mapM (fun d => update_index_numbers d (t_bundles x)) ws = Ok ws' /\ x' = t_set x (t_bundles x) (t_networks x ++ ws').
Proof.
  induction ws as [|d ws IH]; intros x x'; cbn [foldM mapM].
  - split.
    + intros H. injection H as <-. exists []. split; [reflexivity|]. rewrite app_nil_r. now destruct x.
    + intros (ws' & E & ->). injection E as <-. rewrite app_nil_r. now destruct x.
  - unfold add_network at 1. split.
    + intros H. inv_bind H. inv_bind Ha. injection Ha as <-. apply IH in H as (ws' & E & ->). cbn [t_set t_bundles t_networks] in *. rewrite Ha0. cbn [bind]. rewrite E. cbn [bind].
      exists (a0 :: ws'). split; [reflexivity|]. unfold t_set. cbn [t_networks t_dt t_time]. rewrite <- app_assoc. reflexivity.
    + intros (ws' & E & ->). inv_bind E. inv_bind E. injection E as <-. rewrite Ha. cbn [bind]. apply IH. exists a0. cbn [t_set t_bundles t_networks]. split; [exact Ha0|].
      unfold t_set. cbn [t_networks t_dt t_time]. rewrite <- app_assoc. reflexivity.
Qed.
Lemma new_reordered (l l' : list (bundle NumR)) ws ws' x : Permutation l l' -> Permutation ws ws' -> mtln_new l ws = Ok x -> exists x', mtln_new l' ws' = Ok x' /\ reordered x x'.
Proof.
  intros Q QW H. unfold mtln_new in *. inv_bind H. pose proof (fold_add _ _ _ Ha) as (Eb & En & Et). cbn [mtln_empty t_bundles t_networks t_time app] in *.
  assert (ND : NoDup (map (@b_name NumR) l)) by (apply (proj1 (fold_add_iff l mtln_empty (NoDup_nil _))); eauto).
  assert (ND' : NoDup (map (@b_name NumR) l')) by (eapply Permutation_NoDup; [apply Permutation_map; exact Q|exact ND]).
  destruct (proj2 (proj1 (fold_add_iff l' (@mtln_empty NumR) (NoDup_nil _))) ND') as [a' Ha']. rewrite Ha'. cbn [bind]. pose proof (fold_add _ _ _ Ha') as (Eb' & En' & Et'). cbn [mtln_empty t_bundles t_networks t_time app] in *.
  apply fold_networks_map in H as (vs & Hv & ->). rewrite En in *.
  assert (QB : Permutation (t_bundles a) (t_bundles a')) by (rewrite Eb, Eb'; unfold named; now apply Permutation_map).
  destruct (mapM_perm _ _ _ _ Hv QW) as (vs' & Hv' & QV).
  exists (t_set a' (t_bundles a') (t_networks a' ++ vs')). split.
  - apply fold_networks_map. exists vs'. split; [|reflexivity]. rewrite <- Hv'. apply mapM_same. intros d. apply register_perm; [|exact QB]. rewrite Eb, named_keys. exact ND.
  - split; [exact QB|]. cbn [t_set t_bundles t_networks t_dt t_time]. split; [rewrite En'; exact QV|]. split; [exact (new_dt_unique _ _ _ _ Q Ha Ha')|congruence].
Qed.

Section WithLA.
Variable LA : lapack NumR.

(** *** clocks *)
Lemma steps_clock n : forall x y, iterM n (mtln_step LA) x = Ok y -> t_dt y = t_dt x /\ t_time y = t_time x + INR n * t_dt x.
Proof.
  induction n as [|n IH]; intros x y H; cbn [iterM] in H; [injection H as <-; split; [reflexivity|]; cbn [INR]; lra|]. inv_bind H.
  destruct (step_clock LA _ _ Ha) as [E1 E2]. destruct (IH _ _ H) as [F1 F2]. split; [congruence|]. rewrite F2, E1, E2, S_INR. rring.
Qed.
Lemma run_clock x T dt n y : reaches LA x T dt n y -> t_dt y = (if Reqb dt 0 then t_dt x else dt) /\ t_time y = t_time x + INR n * t_dt y.
Proof.
  intros R. destruct (run_start LA _ _ _ _ _ R) as (ws & steps & p & H1 & H2 & H3 & H4 & H5 & H6 & H7 & _). destruct (steps_clock _ _ _ H4) as [E1 E2].
  assert (E : t_dt (override_dt x dt) = (if Reqb dt 0 then t_dt x else dt)) by (unfold override_dt; change (@neqb NumR dt n0) with (Reqb dt 0); destruct (Reqb dt 0); reflexivity).
  split; [congruence|]. rewrite E2, H6, E1. reflexivity.
Qed.

(** *** one step in detail *)
Lemma step_detail x y name b : ninv LA x -> mtln_step LA x = Ok y -> bundle_of x name = Some b ->
  exists b1 b2 b3 b', bundle_advance_voltage (t_time x) (t_dt x) b = Ok b1 /\ only_voltages b1 b2 /\ vgrid b2 /\
    (forall r k, (0 < k)%nat -> (k < b_cells b)%nat -> b_volt b2 r k = b_volt b1 r k) /\
    bundle_advance_current (t_time x) (t_dt x) b2 = Ok b3 /\ bundle_update_probes (t_time y) b3 = Ok b' /\ bundle_of y name = Some b'.
Proof.
  intros I H Hb. pose proof (proj1 (bundle_in LA x name b I Hb)) as Rb. pose proof (reachable_vgrid LA _ Rb) as G.
  apply step_split in H as (bs1 & ws & bs2 & bs3 & [H1 H2 H3 H4 H5 H6 H7 H8]).
  destruct (map_bundles_get _ _ _ _ _ H1 Hb) as (b1 & V & G1).
  assert (M1 : marches LA b b1) by (eapply ma_volt; [constructor|exact V]).
  pose proof (marches_vgrid LA b b1 G M1) as Gv1. destruct (marches_binv LA b b1 M1 (reachable_binv LA _ Rb)) as [_ K1].
  destruct (put_all_val _ _ _ H3) as [_ F]. destruct (F name b1 G1 Gv1) as (b2 & G2 & O & Gv2 & Val).
  destruct (map_bundles_get _ _ _ _ _ H4 G2) as (b3 & C & G3). destruct (map_bundles_get _ _ _ _ _ H6 G3) as (b4 & U & G4).
  exists b1, b2, b3, b4. rewrite H8. repeat (split; [assumption|]). split; [|repeat (split; [assumption|]); exact G4].
  intros r k K0 KN. rewrite Val. assert (NH : forall nv : node * NumR, hits b1 name (fst nv) r k = false).
  { intros nv. destruct (hits b1 name (fst nv) r k) eqn:E; [|reflexivity]. unfold hits in E. apply andb_true_iff in E as [_ E]. apply Nat.eqb_eq in E.
    exfalso. rewrite (bk_N _ _ K1) in E. destruct (nd_end (fst nv)); lia. }
  clear - NH. generalize (b_volt b1 r k). induction (puts ws) as [|nv l IH]; intros v; cbn [fold_left]; [reflexivity|]. rewrite (NH nv). apply IH.
Qed.
(** coefficients computed with the bundle's own step *)
Definition ready b : Prop := lr_ready LA (b_core b) /\ cg_ready LA (b_core b).
Lemma ready_keep b b' : dyn_same (b_core b) (b_core b') -> k_dt (b_core b') = k_dt (b_core b) -> k_lr (b_core b') = k_lr (b_core b) -> k_cg (b_core b') = k_cg (b_core b) -> ready b -> ready b'.
Proof.
  intros D Ed El Ec [R1 R2]. rewrite <- (set_dt_id (b_core b)) in R1, R2. split; rewrite <- (set_dt_id (b_core b')), Ed; [eapply lr_keep|eapply cg_keep]; eauto.
Qed.
Lemma step_frame x y name b b' : ninv LA x -> mtln_step LA x = Ok y -> bundle_of x name = Some b -> bundle_of y name = Some b' ->
  dyn_same (b_core b) (b_core b') /\ k_dt (b_core b') = k_dt (b_core b) /\ k_lr (b_core b') = k_lr (b_core b) /\ k_cg (b_core b') = k_cg (b_core b) /\
  k_eL (b_core b') = k_eL (b_core b) /\ k_eT (b_core b') = k_eT (b_core b).
Proof.
  intros I H Hb Hb'. destruct (step_detail _ _ _ _ I H Hb) as (b1 & b2 & b3 & b4 & V & (v & O) & _ & _ & C & U & G).
  assert (b4 = b') by (unfold bundle_of in *; congruence). subst b4. apply probes_core in U. rewrite U.
  unfold bundle_advance_voltage in V. inv_bind V. apply OkI in V. subst b1. destruct (advv_dyn _ _ _ Ha) as (D1 & _ & A2 & A3 & A4 & A5 & A6 & _).
  unfold bundle_advance_current in C. inv_bind C. apply OkI in C. subst b3. destruct (advi_dyn _ _ _ Ha0) as (D2 & _ & B2 & B3 & B4 & B5 & B6).
  subst b2. cbn [b_set_core b_set b_core set_v k_dt k_lr k_cg k_eL k_eT] in *.
  assert (D3 : dyn_same a (set_v a v)) by (split; reflexivity).
  split; [eapply dyn_trans; [exact D1|eapply dyn_trans; [exact D3|exact D2]]|]. repeat split; congruence.
Qed.
Lemma bundle_cdiag b : reachable_bundle LA b -> cdiag (b_core b).
Proof. intros [b0 H]. eapply history_cdiag; eauto. Qed.

Hypothesis LAok : lapack_ok LA.
Lemma step_telegraph x y name b b' : ninv LA x -> mtln_step LA x = Ok y -> bundle_of x name = Some b -> bundle_of y name = Some b' -> ready b ->
  telegraph (k_dt (b_core b)) (t_dt x) (t_time x) b b'.
Proof.
  intros I H Hb Hb' [Rl Rc]. pose proof (proj1 (bundle_in LA x name b I Hb)) as Rb. pose proof (bundle_cdiag _ Rb) as Cd.
  destruct (step_detail _ _ _ _ I H Hb) as (b1 & b2 & b3 & b4 & V & (v & O) & _ & Int & C & U & G).
  assert (b4 = b') by (unfold bundle_of in *; congruence). subst b4.
  pose proof (curr_volt _ _ _ _ C) as [Cv _]. pose proof (probes_core _ _ _ U) as Uc.
  unfold bundle_advance_voltage in V. inv_bind V. apply OkI in V. subst b1. rename a into s1. cbn [b_set_core b_set b_core] in *.
  destruct (advv_dyn _ _ _ Ha) as (D1 & A1 & A2 & A3 & A4 & A5 & A6 & A7 & _).
  unfold bundle_advance_current in C. inv_bind C. apply OkI in C. subst b3. rename a into s3. cbn [b_set_core b_set b_core] in *.
  assert (D2 : dyn_same (b_core b) (set_v s1 v)) by (eapply dyn_trans; [exact D1|split; reflexivity]).
  subst b2. cbn [b_set_core b_set b_core] in *.
  split.
  - intros c k Hc Hk0 Hk. pose proof (core_volt LA LAok (b_core b) s1 (t_time x) (t_dt x) c k Cd Rc Ha Hc Hk0 Hk) as E. cbv zeta in E. cbv zeta.
    assert (EV : forall p, b_volt b' p k = kv s1 p k).
    { intros p. unfold b_volt. rewrite Uc, Cv. cbn [set_v k_v]. specialize (Int p k Hk0 Hk). unfold b_volt in Int. cbn [b_set_core b_set b_core set_v k_v] in Int. exact Int. }
    unfold b_conductors. rewrite (sumR_ext _ _ (fun p => kC (b_core b) k c p * (kv s1 p k - kv (b_core b) p k + (kTran (b_core b) p k (t_time x) - kTran (b_core b) p k (t_time x - t_dt x)))))
      by (intros p Hp; rewrite EV; reflexivity).
    rewrite (sumR_ext _ (fun p => kG (b_core b) k c p * _) (fun p => kG (b_core b) k c p * (kv s1 p k + kv (b_core b) p k + (kTran (b_core b) p k (t_time x) - kTran (b_core b) p k (t_time x - t_dt x)))))
      by (intros p Hp; rewrite EV; reflexivity).
    exact E.
  - intros c k Hc Hk.
    assert (R2 : lr_ready LA (set_v s1 v)).
    { rewrite <- (set_dt_id (b_core b)) in Rl. pose proof (lr_keep LA _ (set_v s1 v) _ D2 A5 Rl) as R2. rewrite <- A2 in R2. exact (eq_ind _ (fun s => lr_ready LA s) R2 _ (set_dt_id (set_v s1 v))). }
    assert (Cd2 : cdiag (set_v s1 v)) by (eapply cdiag_dyn; eauto).
    pose proof (core_curr LA LAok (set_v s1 v) s3 (t_time x) (t_dt x) c k Cd2 R2 Ha0) as E. cbv zeta in E.
    assert (En : k_n (set_v s1 v) = k_n (b_core b)) by apply (dy_n _ _ D2). assert (EN : k_N (set_v s1 v) = k_N (b_core b)) by apply (dy_N _ _ D2).
    rewrite En, EN in E. specialize (E Hc Hk).
    assert (Ek : forall p q, ki (set_v s1 v) p q = b_curr b p q) by (intros p q; unfold ki, b_curr; cbn [set_v k_i]; now rewrite A1).
    assert (Ei : forall p q, ki s3 p q = b_curr b' p q) by (intros p q; unfold b_curr; now rewrite Uc).
    assert (Ev : forall p q, kv (set_v s1 v) p q = b_volt b' p q) by (intros p q; unfold b_volt; rewrite Uc, Cv; reflexivity).
    assert (EL : kL (set_v s1 v) = kL (b_core b)) by (unfold kL; now rewrite (dy_l _ _ D2)).
    assert (ER : kR (set_v s1 v) = kR (b_core b)) by (unfold kR; now rewrite (dy_r _ _ D2)).
    assert (ED : kD (set_v s1 v) = kD (b_core b)) by (unfold kD; now rewrite (dy_d _ _ D2)).
    assert (EE : kE (set_v s1 v) = kE (b_core b)) by (unfold kE; now rewrite (dy_e _ _ D2)).
    assert (E1 : kQ1 (set_v s1 v) = kQ1 (b_core b)) by (unfold kQ1; now rewrite (dy_1 _ _ D2)).
    assert (E2 : kQ2 (set_v s1 v) = kQ2 (b_core b)) by (unfold kQ2; now rewrite (dy_2 _ _ D2)).
    assert (ET : kTran (set_v s1 v) = kTran (b_core b)) by (unfold kTran; cbn [set_v k_eT]; now rewrite A4).
    assert (EO : kLong (set_v s1 v) = kLong (b_core b)) by (unfold kLong; cbn [set_v k_eL]; now rewrite A3).
    assert (Ed : k_dt (set_v s1 v) = k_dt (b_core b)) by exact A2.
    rewrite (klen_dyn _ _ k D2), EL, ER, ED, EE, E1, E2, ET, EO, Ed, !Ev in E. unfold b_conductors. rewrite Uc.
    rewrite <- E. f_equal. f_equal. f_equal. rewrite (sumR_ext _ (fun p => kL (b_core b) k c p * _) (fun p => kL (b_core b) k c p * (ki s3 p k - ki (set_v s1 v) p k))) by (intros; now rewrite Ek, Ei).
    rewrite (sumR_ext _ (fun p => kR (b_core b) k c p * (b_curr b' p k + b_curr b p k)) (fun p => kR (b_core b) k c p * (ki s3 p k + ki (set_v s1 v) p k))) by (intros; now rewrite Ek, Ei).
    rewrite (sumR_ext _ (fun p => kD (b_core b) k c p * (b_curr b' p k + b_curr b p k)) (fun p => kD (b_core b) k c p * (ki s3 p k + ki (set_v s1 v) p k))) by (intros; now rewrite Ek, Ei).
    rewrite (sumR_ext _ (fun p => kE (b_core b) k c p * (b_curr b' p k - b_curr b p k)) (fun p => kE (b_core b) k c p * (ki s3 p k - ki (set_v s1 v) p k))) by (intros; now rewrite Ek, Ei).
    rewrite (sumR_ext _ (fun p => kQ1 (b_core b) k c p * b_curr b' p k) (fun p => kQ1 (b_core b) k c p * ki s3 p k)) by (intros; now rewrite Ei).
    rewrite (sumR_ext _ (fun p => kQ2 (b_core b) k c p * b_curr b p k) (fun p => kQ2 (b_core b) k c p * ki (set_v s1 v) p k)) by (intros; now rewrite Ek).
    reflexivity.
Qed.
Lemma run_ready x T dt n y name b' : lines_net LA x -> reaches LA x T dt n y -> bundle_of y name = Some b' ->
  ready b' /\ exists b, bundle_of x name = Some b /\ k_dt (b_core b') = (if Reqb dt 0 then k_dt (b_core b) else dt).
Proof.
  intros L. pose proof (lines_ninv LA x L) as I. revert y b'. induction n as [|n IH]; intros y b' R Hb'.
  - destruct (run_start LA _ _ _ _ _ R) as (ws & steps & p & H1 & H2 & H3 & H4 & H5 & H6 & H7 & H8 & H9 & _). cbn [iterM] in H4. injection H4 as ->.
    destruct (proj2 (keys_get (t_bundles x) (t_bundles y) name H8) (ex_intro _ _ Hb')) as [b Hb]. destruct (H9 name b Hb) as (b1 & P & G).
    assert (b1 = b') by (unfold bundle_of in *; congruence). subst b1. destruct (ready_prep LA _ _ _ P) as (_ & _ & _ & _ & _ & Ed & R1 & R2).
    split; [split; assumption|]. exists b. split; [exact Hb|]. rewrite Ed. change (@neqb NumR dt n0) with (Reqb dt 0). destruct (Reqb dt 0); reflexivity.
  - destruct (reaches_step LA _ _ _ _ _ R) as (z & Rz & St & _). pose proof (reaches_ninv LA _ _ _ _ _ I Rz) as Iz.
    destruct (proj2 (keys_get (t_bundles z) (t_bundles y) name (step_keys LA _ _ St)) (ex_intro _ _ Hb')) as [b1 Hb1].
    destruct (IH z b1 Rz Hb1) as (Rd & b & Hb & Ed). destruct (step_frame _ _ _ _ _ Iz St Hb1 Hb') as (D & E1 & E2 & E3 & _).
    split; [eapply ready_keep; eauto|]. exists b. split; [exact Hb|congruence].
Qed.
Lemma run_telegraph x T dt n y z name b b' : lines_net LA x -> steps_to LA x T dt n y z -> bundle_of y name = Some b -> bundle_of z name = Some b' ->
  telegraph (k_dt (b_core b)) (t_dt y) (t_time y) b b'.
Proof.
  intros L (R & St & _) Hb Hb'. eapply step_telegraph; [|exact St|exact Hb|exact Hb'|].
  - eapply reaches_ninv; [apply lines_ninv; exact L|exact R].
  - eapply run_ready; eauto.
Qed.
Lemma two_steps d d' dt t b b' : reachable_bundle LA b -> d <> d' -> d <> 0 -> d' <> 0 -> sound_bundle b -> telegraph d dt t b b' -> telegraph d' dt t b b' -> frozen dt t b b'.
Proof.
  intros Rb Nd D0 D0' (Hh & HC & HL & HE) [V1 C1] [V2 C2]. pose proof (bundle_cdiag _ Rb) as Cd. cbv zeta in *.
  assert (Nz : / d - / d' <> 0) by (intros E; apply Nd; rewrite <- (Rinv_inv d), <- (Rinv_inv d'); f_equal; lra).
  assert (cancel : forall a u v w, a <> 0 -> a * (u / d + v) + w = 0 -> a * (u / d' + v) + w = 0 -> u = 0).
  { intros a u v w Ha E1 E2. assert (E : a * (u * (/ d - / d')) = 0) by (unfold Rdiv in *; lra).
    apply Rmult_integral in E as [E|E]; [contradiction|]. apply Rmult_integral in E as [E|E]; [exact E|contradiction]. }
  split.
  - intros c k Hc Hk. apply Rminus_diag_uniq. apply (pd_kernel (b_conductors b) (kL (b_core b) k) (fun p => b_curr b' p k - b_curr b p k)); [exact (HL k Hk)| |exact Hc].
    intros i Hi. unfold mulv. specialize (C1 i k Hi Hk). specialize (C2 i k Hi Hk).
    rewrite (sumR_zero _ (fun p => kE (b_core b) k i p * _)) in C1, C2 by (intros; rewrite HE; ring).
    revert C1 C2. set (SL := sumR _ (fun p => kL (b_core b) k i p * _)). intros C1 C2.
    pose proof (Hh k Hk) as Hp. assert (E : klen (b_core b) k * (SL * (/ d - / d')) = 0).
    { assert (E0 : 0 / d = 0 /\ 0 / d' = 0) by (split; unfold Rdiv; ring). destruct E0 as [E0 E0']. unfold Rdiv in *. rewrite E0 in C1. rewrite E0' in C2. lra. }
    apply Rmult_integral in E as [E|E]; [lra|]. apply Rmult_integral in E as [E|E]; [exact E|contradiction].
  - intros c k Hc Hk0 Hk.
    assert (E : (fun p => b_volt b' p k - b_volt b p k + (kTran (b_core b) p k t - kTran (b_core b) p k (t - dt))) c = 0).
    { apply (pd_kernel (b_conductors b) (kC (b_core b) k) (fun p => b_volt b' p k - b_volt b p k + (kTran (b_core b) p k t - kTran (b_core b) p k (t - dt)))); [apply HC; lia| |exact Hc]. intros i Hi. unfold mulv.
      specialize (V1 i k Hi Hk0 Hk). specialize (V2 i k Hi Hk0 Hk). cbv beta in V1, V2.
      apply (cancel (kwidth (b_core b) k) _ (sumR (b_conductors b) (fun p => kG (b_core b) k i p * (b_volt b' p k + b_volt b p k + (kTran (b_core b) p k t - kTran (b_core b) p k (t - dt)))) / 2) (b_curr b i k - b_curr b i (k - 1))).
      - unfold kwidth. destruct (Nat.eqb_spec k 0); [lia|]. destruct (Nat.eqb_spec k (k_N (b_core b))); [unfold b_cells in Hk; lia|].
        pose proof (Hh (k - 1)%nat ltac:(lia)). pose proof (Hh k Hk). lra.
      - lra.
      - lra. }
    cbv beta in E. lra.
Qed.
(** *** consequences used in the statements *)
Lemma explicit_telegraph x T dt n y z name b b' : lines_net LA x -> dt <> 0 -> steps_to LA x T dt n y z -> bundle_of y name = Some b -> bundle_of z name = Some b' ->
  t_dt y = dt /\ t_time y = t_time x + INR n * dt /\ telegraph dt dt (t_time y) b b'.
Proof.
  intros L D St Hb Hb'. pose proof St as (R & _ & _). destruct (run_clock _ _ _ _ _ R) as [E1 E2]. destruct (run_ready _ _ _ _ _ _ _ L R Hb) as (_ & b0 & _ & Ek).
  rewrite (proj2 (Reqb_false dt 0) D) in E1, Ek. rewrite E1 in E2. split; [exact E1|]. split; [exact E2|].
  pose proof (run_telegraph _ _ _ _ _ _ _ _ _ L St Hb Hb') as X. rewrite Ek, E1 in X. exact X.
Qed.
Lemma own_telegraph x T n y z name b b' : lines_net LA x -> steps_to LA x T 0 n y z -> bundle_of y name = Some b -> bundle_of z name = Some b' ->
  t_dt y = t_dt x /\ t_time y = t_time x + INR n * t_dt x /\ exists b0, bundle_of x name = Some b0 /\ telegraph (k_dt (b_core b0)) (t_dt x) (t_time y) b b'.
Proof.
  intros L St Hb Hb'. pose proof St as (R & _ & _). destruct (run_clock _ _ _ _ _ R) as [E1 E2]. destruct (run_ready _ _ _ _ _ _ _ L R Hb) as (_ & b0 & H0 & Ek).
  rewrite (proj2 (Reqb_true 0 0) eq_refl) in E1, Ek. rewrite E1 in E2. split; [exact E1|]. split; [exact E2|]. exists b0. split; [exact H0|].
  pose proof (run_telegraph _ _ _ _ _ _ _ _ _ L St Hb Hb') as X. rewrite Ek, E1 in X. exact X.
Qed.
Lemma own_frozen x T n y z name b0 b b' : lines_net LA x -> steps_to LA x T 0 n y z -> bundle_of x name = Some b0 -> bundle_of y name = Some b -> bundle_of z name = Some b' -> sound_bundle b ->
  k_dt (b_core b0) <> t_dt x -> k_dt (b_core b0) <> 0 -> t_dt x <> 0 -> telegraph (t_dt x) (t_dt x) (t_time y) b b' -> frozen (t_dt x) (t_time y) b b'.
Proof.
  intros L St H0 Hb Hb' Sb D1 D2 D3 Te. destruct (own_telegraph _ _ _ _ _ _ _ _ L St Hb Hb') as (_ & _ & c & Hc & Te'). assert (c = b0) by congruence. subst c.
  eapply (two_steps (k_dt (b_core b0)) (t_dt x)); eauto. apply (bundle_in LA y name b); [|exact Hb]. eapply reaches_ninv; [apply lines_ninv; exact L|]. exact (proj1 St).
Qed.
End WithLA.

Lemma new_dt_large (l : list (bundle NumR)) ws x : mtln_new l ws = Ok x -> (forall b, In b l -> 10000000000 <= k_dt (b_core b)) -> t_dt x = 10000000000.
Proof.
  intros H A. unfold mtln_new in H. inv_bind H. apply fold_networks_map in H as (ws' & _ & ->). cbn [t_set t_dt].
  revert a Ha. assert (G : forall l (x0 a : mtln NumR), (forall b, In b l -> t_dt x0 <= k_dt (b_core b)) -> foldM add_bundle l x0 = Ok a -> t_dt a = t_dt x0).
  { clear. induction l as [|b l IH]; intros x0 a A H; cbn [foldM] in H; [injection H as <-; reflexivity|]. inv_bind H. apply add_bundle_inv in Ha as [_ ->].
    assert (E : @nltb NumR (k_dt (b_core b)) (t_dt x0) = false) by (apply Rltb_false; apply A; now left). rewrite E in H. apply IH in H; [exact H|]. cbn [t_dt]. intros c Hc. apply A. now right. }
  intros a Ha. rewrite (G l mtln_empty a); [reflexivity| |exact Ha]. exact A.
Qed.
Section Runs.
Variable LA : lapack NumR.
Lemma reaches_bundle x T dt n y name b : reaches LA x T dt n y -> bundle_of x name = Some b -> exists b', bundle_of y name = Some b'.
Proof.
  revert y. induction n as [|n IH]; intros y R Hb.
  - destruct (run_start LA _ _ _ _ _ R) as (ws & steps & p & _ & _ & _ & E & _ & _ & _ & _ & H & _). cbn [iterM] in E. injection E as ->. destruct (H name b Hb) as (b' & _ & G). eauto.
  - destruct (reaches_step LA _ _ _ _ _ R) as (s & R' & St & _). destruct (IH s R' Hb) as [c Hc]. destruct (step_marches LA _ _ _ _ St Hc) as (b' & G & _). eauto.
Qed.
Lemma run_stamps x T dt y name b : mtln_run_until LA x T dt = Ok y -> bundle_of x name = Some b ->
  exists b' steps, bundle_of y name = Some b' /\ forall j p, nth_error (b_probes b) j = Some p ->
    exists q, nth_error (b_probes b') j = Some q /\ length (p_t q) = steps /\ p_dt q = p_dt p /\
      forall k, (k < steps)%nat -> let d := if Reqb dt 0 then t_dt x else dt in
        (p_type p = "voltage"%string -> nth k (p_t q) 0 = t_time x + INR (S k) * d) /\
        (p_type p = "current"%string -> nth k (p_t q) 0 = t_time x + INR (S k) * d + p_dt p / 2).
Proof.
  intros H Hb. destruct (run_recorded LA x T dt y name b H Hb) as (b' & steps & G & Es & _ & F). exists b', steps. split; [exact G|].
  intros j p Hp. destruct (F j p Hp) as (q & Hq & (_ & _ & Kd) & Lt & _ & Fr). exists q. repeat (split; [assumption|]). intros k Hk. cbv zeta.
  apply run_reaches in H as (n & En & R). assert (n = steps) by congruence. subst n.
  destruct (reaches_less LA _ _ _ _ (S k) _ R Hk) as [z Rz]. destruct (reaches_step LA _ _ _ _ _ Rz) as (s & St). destruct (reaches_bundle _ _ _ _ _ _ _ Rz Hb) as [c Hc].
  destruct (run_clock LA _ _ _ _ _ Rz) as [C1 C2]. rewrite C1 in C2. destruct (Fr k s z c St Hc) as (_ & _ & [(Ty & E & _)|(Ty & E & _)]); (split; intros Ty'; [|]); try congruence.
  - rewrite <- C2. exact E.
  - rewrite <- C2. exact E.
Qed.
End Runs.
