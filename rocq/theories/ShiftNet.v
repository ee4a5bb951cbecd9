(** Causality and time invariance of networks of lines (real arithmetic). *)
From Coq Require Import String List Arith ZArith Bool Lia Reals Lra.
From Verif Require Import Num Py Arr ArrFacts NumR RFacts Utils Probes Dispersive DispR Line LineFacts Bundle Networks Mtln
  SpecLine SpecBundle SpecNet SpecMtln SpecTele SpecCore SpecDyn SpecSuper SpecShiftNet HistoryFacts ConeFacts SuperFacts BundleFacts BundleMore CoreEq
  NetFacts NetBuild NetPlace NetR MtlnFacts MtlnProps MtlnPerm MtlnR SuperNet SuperNet2 NetEnergyRun StepTotal.
Import ListNotations.
Local Open Scope R_scope.

(** *** lists *)
Lemma F3_12 {A} (P : A -> A -> A -> Prop) l n : Forall3 P l l n -> Forall2 (fun x z => P x x z) l n.
Proof. revert n. induction l as [|x l IH]; intros n H; inversion H; subst; constructor; auto. Qed.
Lemma F2_13 {A} (P : A -> A -> Prop) (Q : A -> A -> A -> Prop) l n : (forall x z, In x l -> In z n -> P x z -> Q x x z) -> Forall2 P l n -> Forall3 Q l l n.
Proof.
  intros H F. induction F as [|x z l n p F IH]; constructor; [apply H; auto; now left|]. apply IH. intros x' z' Hx Hz. apply H; now right.
Qed.
Lemma matched_3 {A B} (P : B -> B -> Prop) (Q : B -> B -> B -> Prop) (l n : list (A * B)) : (forall k x z, In (k, x) l -> In (k, z) n -> P x z -> Q x x z) -> matched P l n -> Forall3 (named_sum Q) l l n.
Proof.
  intros H. apply F2_13. intros [k x] [k' z] Hx Hz (E & p). cbn [fst snd] in *. subst k'. split; [reflexivity|]. split; [reflexivity|]. eapply H; eauto.
Qed.
Lemma matched_2 {A B} (P : B -> B -> Prop) (Q : B -> B -> B -> Prop) (l n : list (A * B)) : (forall x z, Q x x z -> P x z) -> Forall3 (named_sum Q) l l n -> matched P l n.
Proof. intros H F. apply F3_12 in F. eapply F2_impl; [|exact F]. intros p q (_ & E & K). auto. Qed.
Lemma in_nets (x : mtln NumR) d k w : In d (t_networks x) -> In (k, w) d -> In w (nets x).
Proof. intros H1 H2. unfold nets. apply in_flat_map. exists d. split; [exact H1|]. unfold tiers. apply in_map_iff. exists (k, w). auto. Qed.

(** *** state as a combination *)
Lemma lin_10 (x z : R) : lin 1 0 x x z <-> z = x.
Proof. unfold lin. split; intros H; lra. Qed.
Lemma lin_z (x y z : R) : lin 0 0 x y z <-> z = 0.
Proof. unfold lin. split; intros H; lra. Qed.
Lemma qlin_10 (p r : qe NumR) : qlin 1 0 p p r <-> r = p.
Proof.
  split.
  - intros (L & _ & H). apply (nth_ext r p c0 c0); [symmetry; exact L|]. intros k _. destruct (H k) as [H1 H2]. unfold lin in *.
    destruct (nth k r c0) as [u v], (nth k p c0) as [u' v']. cbn [fst snd] in *. f_equal; [rewrite H1|rewrite H2]; rring.
  - intros ->. split; [reflexivity|]. split; [reflexivity|]. intros k. unfold lin. split; rring.
Qed.
Lemma same_bundle_refl b : same_bundle b b.
Proof. split; reflexivity. Qed.
Lemma same_circuit_refl w : same_circuit w w.
Proof. split; reflexivity. Qed.
Lemma same_bundle_trans a b c : same_bundle a b -> same_bundle b c -> same_bundle a c.
Proof. intros [] []; split; congruence. Qed.
Lemma bdriven_sum tau seen a c : bundle_driven tau seen a c <-> bsum 1 0 0 tau seen a a c.
Proof.
  split.
  - intros [S [n N v i q] T L]. split; auto using same_bundle_refl; intros.
    + apply lin_10; auto. + apply lin_10; auto. + apply qlin_10; auto.
    + subst ty tz. rewrite Rplus_0_r. apply lin_10. auto.
    + subst ty tz. rewrite Rplus_0_r. apply lin_10. auto.
  - intros [_ S v i q T L]. split; [exact S| | |].
    + split; [exact (sb_n _ _ S)|exact (sb_N _ _ S)| | |]; intros; [apply lin_10|apply lin_10|apply qlin_10]; auto.
    + intros. apply lin_10. apply T; auto; ring.
    + intros. apply lin_10. apply L; auto; ring.
Qed.
Lemma cdriven_sum tau seen u w : circuit_driven tau seen u w <-> csum 1 0 0 tau seen u u w.
Proof.
  split.
  - intros [S [n N v p i x] T L]. split; auto using same_circuit_refl; intros; try (apply lin_10; solve [auto]).
    + assert (ty = t) as -> by (subst ty; apply Rplus_0_r). subst tz. exact (proj2 (lin_10 _ _) (T i0 t H H2)).
    + assert (ty = t) as -> by (subst ty; apply Rplus_0_r). subst tz. exact (proj2 (lin_10 _ _) (L i0 t H H2)).
  - intros [_ S v p i x T L]. split; [exact S| | |].
    + split; [exact (sc_nodes _ _ S)|exact (sc_ns _ _ S)| | | |]; intros; apply lin_10; auto.
    + intros. apply lin_10. apply T; auto; rsimpl; ring.
    + intros. apply lin_10. apply L; auto; rsimpl; ring.
Qed.
Lemma still_b_sum t1 b : bundle_still b /\ bundle_off t1 b <-> bsum 0 0 0 0 (fun t => t < t1) b b b.
Proof.
  split.
  - intros [[v i q] [T L]]. split; auto using same_bundle_refl; intros; try (apply lin_z; subst; rewrite ?Rplus_0_r; auto).
    apply q_rest. intros p Hp. eapply q; eauto.
  - intros [_ _ v i q T L]. split; split; intros.
    + eapply lin_z. apply v; auto. + eapply lin_z. apply i; auto. + eapply q_rest; [apply q; eauto|assumption].
    + eapply lin_z. apply (T j k t t t); auto; ring. + eapply lin_z. apply (L j k t t t); auto; ring.
Qed.
Lemma still_w_sum t1 w : circuit_still w /\ circuit_off t1 w <-> csum 0 0 0 0 (fun t => t < t1) w w w.
Proof.
  split.
  - intros [[v p i x] [T L]]. split; auto using same_circuit_refl; intros; try (apply lin_z; subst; rewrite ?Rplus_0_r; auto).
  - intros [_ _ v p i x T L]. split; split; intros; eapply lin_z.
    + apply v; auto. + apply p; auto. + apply i; auto. + apply x; auto.
    + apply (T i0 t t t); auto; rsimpl; ring. + apply (L i0 t t t); auto; rsimpl; ring.
Qed.
Lemma driven_sum tau seen x y : driven_alike tau seen x y -> t_time y = t_time x -> lsum 1 0 0 0 (fun _ => False) x x y.
Proof.
  intros [B W D _] T. split.
  - apply (matched_3 (bundle_driven tau seen)); [|exact B]. intros _ a c _ _ [S St _ _]. apply bdriven_sum. split; auto; intros; contradiction.
  - eapply F2_13; [|exact W]. intros d e _ _. apply matched_3. intros _ u w _ _ [S St _ _]. apply cdriven_sum. split; auto; intros; contradiction.
  - auto.
  - rewrite T, Rplus_0_r. auto.
Qed.
Lemma sum_same_state tau seen x y : lsum 1 0 0 tau seen x x y -> same_state x y.
Proof.
  intros [B W _ _]. split.
  - revert B. apply matched_2. intros a c H. apply bdriven_sum in H. exact (bd_state _ _ _ _ H).
  - apply F3_12 in W. eapply F2_impl; [|exact W]. intros d e. apply matched_2. intros u w H. apply cdriven_sum in H. exact (cd_state _ _ _ _ H).
Qed.
Lemma still_sum t1 x : lines_still x /\ lines_off t1 x <-> lsum 0 0 0 0 (fun t => t < t1) x x x.
Proof.
  unfold lines_still, lines_off. split.
  - intros [[B W] [B' W']]. rewrite Forall_forall in B, W, B', W'. split; rewrite ?Rplus_0_r; auto.
    + apply F3_refl. intros kb Hk. split; [reflexivity|]. split; [reflexivity|]. apply still_b_sum. split; [now apply B|now apply B'].
    + apply F3_refl. intros d Hd. apply F3_refl. intros [k w] Hw. split; [reflexivity|]. split; [reflexivity|]. apply still_w_sum. split; [apply W|apply W']; eapply in_nets; eauto.
  - intros [B W _ _]. apply F3_diag in B, W. rewrite Forall_forall in B, W.
    assert (X : forall kb, In kb (t_bundles x) -> bundle_still (snd kb) /\ bundle_off t1 (snd kb)) by (intros kb Hk; apply still_b_sum; apply (B kb Hk)).
    assert (Y : forall w, In w (nets x) -> circuit_still w /\ circuit_off t1 w).
    { intros w Hw. apply in_flat_map in Hw as (d & Hd & Hw). apply in_map_iff in Hw as (lw & <- & Hl). apply still_w_sum. specialize (W d Hd). cbv beta in W. apply F3_diag in W. rewrite Forall_forall in W. apply (W lw Hl). }
    split; split; apply Forall_forall; intros z Hz; first [apply (X z Hz)|apply (Y z Hz)].
Qed.
Lemma alike_sum tau seen x y : driven_alike tau seen x y -> tau = 0 -> lsum 1 0 0 0 seen x x y.
Proof.
  intros [B W D T] ->. split.
  - apply (matched_3 (bundle_driven 0 seen)); [|exact B]. intros _ a c _ _ H. now apply bdriven_sum.
  - eapply F2_13; [|exact W]. intros d e _ _. apply matched_3. intros _ u w _ _ H. now apply cdriven_sum.
  - auto.
  - rewrite T, Rplus_0_r. auto.
Qed.
Lemma sum_alike seen x y : lsum 1 0 0 0 seen x x y -> driven_alike 0 seen x y.
Proof.
  intros [B W [_ D] [_ T]]. rewrite Rplus_0_r in T. split; auto.
  - revert B. apply matched_2. intros a c H. now apply bdriven_sum.
  - apply F3_12 in W. eapply F2_impl; [|exact W]. intros d e. apply matched_2. intros u w H. now apply cdriven_sum.
Qed.

(** *** what the steps of a run keep *)
Record bstays (b b' : bundle NumR) : Prop := {
  by_same : same_bundle b b'; by_lr : k_lr (b_core b') = k_lr (b_core b); by_cg : k_cg (b_core b') = k_cg (b_core b);
  by_eL : k_eL (b_core b') = k_eL (b_core b); by_eT : k_eT (b_core b') = k_eT (b_core b); by_flat : flat (b_disp b) -> flat (b_disp b')
}.
Record wstays (w w' : network NumR) : Prop := {
  wy_same : same_circuit w w'; wy_AB : w_AB w' = w_AB w; wy_vs : w_vsrc w' = w_vsrc w; wy_eT : w_eT w' = w_eT w
}.
Lemma bstays_trans a b c : bstays a b -> bstays b c -> bstays a c.
Proof. intros [A ? ? ? ? ?] [B ? ? ? ? ?]. split; try congruence; auto. eapply same_bundle_trans; eauto. Qed.
Lemma wstays_trans a b c : wstays a b -> wstays b c -> wstays a c.
Proof. intros [A ? ? ?] [B ? ? ?]. split; try congruence. eapply same_circuit_trans; eauto. Qed.
Lemma matched_trans {A B} (P Q S : B -> B -> Prop) (l m n : list (A * B)) : (forall a b c, P a b -> Q b c -> S a c) -> matched P l m -> matched Q m n -> matched S l n.
Proof.
  intros H F. revert n. induction F as [|p q l m [E K] F IH]; intros n G; inversion G as [|q' r m' n' [E' K'] G']; subst; [constructor|].
  constructor; [split; [congruence|eauto]|now apply IH].
Qed.
Definition stays (x y : mtln NumR) : Prop :=
  matched bstays (t_bundles x) (t_bundles y) /\ Forall2 (matched wstays) (t_networks x) (t_networks y) /\ t_dt y = t_dt x.
Lemma F2_trans {A} (P : A -> A -> Prop) l m n : (forall a b c, P a b -> P b c -> P a c) -> Forall2 P l m -> Forall2 P m n -> Forall2 P l n.
Proof. intros H F. revert n. induction F as [|p q l m K F IH]; intros n G; inversion G; subst; constructor; eauto. Qed.
Lemma stays_trans x y z : stays x y -> stays y z -> stays x z.
Proof.
  intros (B & W & D) (B' & W' & D'). split; [|split; [|congruence]].
  - eapply matched_trans; [apply bstays_trans|exact B|exact B'].
  - eapply F2_trans; [|exact W|exact W']. intros a b c. apply matched_trans. apply wstays_trans.
Qed.
Lemma stays_refl x : stays x x.
Proof.
  split; [|split; [|reflexivity]].
  - unfold matched. induction (t_bundles x); constructor; auto. split; [reflexivity|]. split; auto using same_bundle_refl.
  - induction (t_networks x) as [|d l IH]; constructor; auto. unfold matched. clear. induction d; constructor; auto. split; [reflexivity|]. split; auto using same_circuit_refl.
Qed.
Lemma map_matched {A B} (f : B -> res B) (P : B -> B -> Prop) (l l' : list (A * B)) : (forall b b', f b = Ok b' -> P b b') ->
  mapM (fun kb => b <- f (snd kb) ;; Ok (fst kb, b)) l = Ok l' -> matched P l l'.
Proof.
  intros H E. apply mapM_F2 in E. eapply F2_impl; [|exact E]. intros [k b] [k' b'] K. cbn [fst snd] in *. inv_bind K. apply OkI in K. injection K as <- <-. auto.
Qed.
Lemma tier_matched (f : network NumR -> res (network NumR)) (P : network NumR -> network NumR -> Prop) (l l' : list (networkd NumR)) : (forall b b', f b = Ok b' -> P b b') ->
  mapM (fun d : networkd NumR => mapM (fun lw => w <- f (snd lw) ;; Ok (fst lw, w)) d) l = Ok l' -> Forall2 (matched P) l l'.
Proof. intros H E. apply mapM_F2 in E. eapply F2_impl; [|exact E]. intros d d' K. eapply map_matched; eauto. Qed.

Section Runs.
Variables (LA : lapack NumR) (LAok : lapack_ok LA).
Lemma bstays_set b v : bstays b (b_set_core b (set_v (b_core b) v)).
Proof. split; try reflexivity; auto. split; reflexivity. Qed.
Lemma bstays_volt t dt b b' : bundle_advance_voltage t dt b = Ok b' -> bstays b b'.
Proof.
  intros H. unfold bundle_advance_voltage in H. cbv zeta in H. inv_bind H. apply OkI in H. unfold advance_voltage in Ha. destruct (k_cg (b_core b)) as [[vt idf]|] eqn:E; [|discriminate Ha]. apply OkI in Ha. subst a b'. apply bstays_set.
Qed.
Lemma bstays_curr t dt b b' : bundle_advance_current t dt b = Ok b' -> bstays b b'.
Proof.
  intros H. unfold bundle_advance_current in H. cbv zeta in H. inv_bind H. apply OkI in H. unfold advance_current in Ha. inv_bind Ha. rename a0 into d1, Ha0 into D1.
  destruct (k_lr (b_core b)) as [[it vd]|] eqn:E; [|discriminate Ha]. inv_bind Ha. rename a0 into d2, Ha0 into D2. apply OkI in Ha. subst a b'.
  pose proof (proj1 (update_q3_phi_same _ _ D1)) as S1. pose proof (proj1 (update_phi_same _ _ _ _ D2)) as S2. pose proof (same_disp_trans _ _ _ S1 S2) as S3.
  split; try reflexivity.
  - destruct S3. split; first [reflexivity|assumption].
  - intros F. destruct (update_q3_total _ F) as (e1 & E1 & F1). unfold b_disp in *. rewrite D1 in E1. injection E1 as <-.
    match type of D2 with update_phi _ ?i ?i' = _ => destruct (update_phi_total _ i i' F1) as (e2 & E2 & F2) end. rewrite D2 in E2. injection E2 as <-. exact F2.
Qed.
Lemma bstays_probes t b b' : bundle_update_probes t b = Ok b' -> bstays b b'.
Proof. intros H. unfold bundle_update_probes in H. inv_bind H. apply OkI in H. subst b'. split; try reflexivity; auto. split; reflexivity. Qed.
Lemma dset_matched (d : bdict NumR) k b b' : dget String.eqb k d = Some b -> bstays b b' -> matched bstays d (dset String.eqb k b' d).
Proof.
  intros G K. assert (Rf : forall l : bdict NumR, matched bstays l l) by (unfold matched; induction l; constructor; auto; split; [reflexivity|]; split; auto using same_bundle_refl).
  induction d as [|[a c] d IH]; cbn [dget dset] in *; [discriminate G|]. destruct (String.eqb_spec k a) as [->|N].
  - injection G as ->. constructor; [split; [reflexivity|exact K]|apply Rf].
  - constructor; [split; [reflexivity|]; split; auto using same_bundle_refl|]. now apply IH.
Qed.
Lemma puts_matched l : forall d d' : bdict NumR, put_all l d = Ok d' -> matched bstays d d'.
Proof.
  unfold put_all. induction l as [|nv l IH]; intros d d' H; cbn [foldM] in H.
  - apply OkI in H. subst. unfold matched. induction d' as [|a d' IHd]; constructor; auto. split; [reflexivity|]. split; auto using same_bundle_refl.
  - inv_bind H. apply put_voltage_spec in Ha as (b & G & _ & ->). eapply matched_trans; [apply bstays_trans| |apply IH; exact H].
    eapply dset_matched; [exact G|]. unfold put_end. cbv zeta. apply bstays_set.
Qed.
Lemma stays_step x y : mtln_step LA x = Ok y -> stays x y.
Proof.
  intros H. apply step_split in H as (bs1 & ws & bs2 & bs3 & [H1 H2 H3 H4 H5 H6 H7 H8]). split; [|split; [|exact H7]].
  - eapply matched_trans; [apply bstays_trans|apply (map_matched _ bstays _ _ (bstays_volt _ _) H1)|].
    eapply matched_trans; [apply bstays_trans|apply (puts_matched _ _ _ H3)|].
    eapply matched_trans; [apply bstays_trans|apply (map_matched _ bstays _ _ (bstays_curr _ _) H4)|]. apply (map_matched _ bstays _ _ (bstays_probes _) H6).
  - assert (W1 : Forall2 (matched wstays) (t_networks x) ws).
    { apply (tier_matched (fun w => nw_advance_voltage LA w (t_time x) (t_dt x)) wstays); [|exact H2]. intros w w' E. destruct (volt_fields LA _ _ _ _ E) as (A & B & _ & _ & C & D). split; auto. }
    assert (W2 : Forall2 (matched wstays) ws (t_networks y)).
    { apply (tier_matched (fun w => nw_update_currents w bs3) wstays); [|exact H5]. intros w w' E. unfold nw_update_currents in E. inv_bind E. apply OkI in E. subst w'. split; try reflexivity. split; reflexivity. }
    eapply F2_trans; [|exact W1|exact W2]. intros a b c. apply matched_trans. apply wstays_trans.
Qed.
Lemma stays_steps k : forall x y, iterM k (mtln_step LA) x = Ok y -> stays x y.
Proof.
  induction k as [|k IH]; intros x y H; cbn [iterM] in H; [apply OkI in H; subst; apply stays_refl|]. inv_bind H. eapply stays_trans; [eapply stays_step; eauto|eauto].
Qed.

(** *** runs *)
Notation solvable x dt := (regular LA \/ (forall w, In w (nets x) -> exists ds, rc_circuit LA ds w) /\ (0 < dt \/ dt = 0 /\ 0 < t_dt x)).
Lemma solvable_det (x : mtln NumR) (dt : R) : solvable x dt -> regular LA \/ (forall w, In w (nets x) -> determined w (t_dt (override_dt x dt))).
Proof. intros [D|[D Hd]]; [now left|right]. intros w Hw. destruct (D w Hw) as [ds C]. eapply circuit_det; [exact C|]. now apply step_pos. Qed.
Lemma looks_before (t dt t1 : R) k : 0 < dt -> t + INR k * dt <= t1 -> forall i, (i < k)%nat -> looks (fun s => s < t1) (t + INR i * dt) dt.
Proof.
  intros Hd H i Hi. assert (I : INR i + 1 <= INR k) by (rewrite <- S_INR; apply le_INR; lia).
  assert (M : (INR i + 1) * dt <= INR k * dt) by (apply Rmult_le_compat_r; lra). unfold looks. repeat split; lra.
Qed.
Lemma quiet_rel (x : mtln NumR) (T dt t1 : R) k x' : lines_net LA x -> solvable x dt -> 0 < t_dt (override_dt x dt) -> lines_still x -> lines_off t1 x ->
  t_time x + INR k * t_dt (override_dt x dt) <= t1 -> reaches LA x T dt k x' -> lrel 0 0 0 0 (fun t => t < t1) LA x' x' x'.
Proof.
  intros L D Hd S O H R. pose proof (lines_ninv LA x L) as I.
  refine (start_rel 0 0 0 0 (fun t => t < t1) LA LAok x x x T T T dt k x' x' x' I I I (proj1 (still_sum t1 x) (conj S O)) (solvable_det _ _ D) _ R R R). now apply looks_before.
Qed.
Lemma lines_quiet (x : mtln NumR) (T dt t1 : R) k x' : lines_net LA x -> solvable x dt -> 0 < t_dt (override_dt x dt) -> lines_still x -> lines_off t1 x ->
  t_time x + INR k * t_dt (override_dt x dt) <= t1 -> reaches LA x T dt k x' -> lines_still x'.
Proof. intros L D Hd S O H R. apply (proj1 (proj2 (still_sum t1 x') (lrel_sum _ _ _ _ _ _ _ _ _ (quiet_rel x T dt t1 k x' L D Hd S O H R)))). Qed.
Lemma lines_causal (x y : mtln NumR) (T T' dt t1 : R) k a b : lines_net LA x -> lines_net LA y -> solvable x dt -> 0 < t_dt (override_dt x dt) -> alike_before t1 x y ->
  t_time x + INR k * t_dt (override_dt x dt) <= t1 -> reaches LA x T dt k a -> reaches LA y T' dt k b -> alike_before t1 a b.
Proof.
  intros Lx Ly D Hd A H Rx Ry. pose proof (lines_ninv LA x Lx) as Ix. pose proof (lines_ninv LA y Ly) as Iy. apply sum_alike. apply (lrel_sum 1 0 0 0 (fun t => t < t1) LA).
  refine (start_rel 1 0 0 0 (fun t => t < t1) LA LAok x x y T T T' dt k a a b Ix Ix Iy (alike_sum 0 _ x y A eq_refl) (solvable_det _ _ D) _ Rx Rx Ry). now apply looks_before.
Qed.

Lemma lines_causal' (x y : mtln NumR) (T T' dt t1 : R) k a b : lines_net LA x -> lines_net LA y -> solvable x dt -> 0 < t_dt (override_dt x dt) -> alike_before t1 x y ->
  t_time x + INR k * t_dt (override_dt x dt) <= t1 -> reaches LA x T dt k a -> reaches LA y T' dt k b -> same_state a b /\ alike_before t1 a b.
Proof.
  intros Lx Ly D Hd A H Rx Ry. pose proof (lines_causal x y T T' dt t1 k a b Lx Ly D Hd A H Rx Ry) as K. split; [|exact K]. exact (sum_same_state _ _ _ _ (alike_sum 0 _ _ _ K eq_refl)).
Qed.

(** the same network with another clock *)
Definition at_time (x : mtln NumR) (t : R) : mtln NumR := {| t_bundles := t_bundles x; t_networks := t_networks x; t_dt := t_dt x; t_time := t |}.
Lemma at_time_ninv x t : ninv LA x -> ninv LA (at_time x t).
Proof. intros [A B C D]. split; assumption. Qed.
Lemma at_time_start x t T dt p : reaches LA x T dt 0 p -> reaches LA (at_time x t) T dt 0 (at_time p t).
Proof.
  intros (ws & steps & q & H1 & H2 & H3 & H4 & H5). cbn [iterM] in H5. apply OkI in H5. subst q.
  assert (E : override_dt (at_time x t) dt = at_time (override_dt x dt) t) by (unfold override_dt; destruct (negb _); reflexivity).
  exists ws, steps, (at_time p t). cbv zeta. rewrite E. cbn [at_time t_dt t_networks t_bundles]. split; [exact H1|]. split; [exact H2|]. split; [exact H3|]. split; [|reflexivity].
  unfold mtln_prepare in *. cbn [t_set t_bundles t_networks at_time t_dt t_time] in *. inv_bind H4. rewrite Ha. cbn [bind]. apply OkI in H4. subst p. reflexivity.
Qed.
Lemma F3_join {A} (P Q S : A -> A -> A -> Prop) (U : A -> A -> Prop) l n m : (forall x z y, In x l -> P x x z -> U z y -> Q y y y -> S x x y) ->
  Forall3 P l l n -> Forall2 U n m -> Forall3 Q m m m -> Forall3 S l l m.
Proof.
  revert n m. induction l as [|x l IH]; intros n m H F G K; inversion F; subst; inversion G; subst; inversion K; subst; constructor; [eapply H; eauto; now left|].
  eapply IH; eauto. intros x' z' y' Hx. apply H. now right.
Qed.
Lemma F2_in_right {A B} (P : A -> B -> Prop) l m b : Forall2 P l m -> In b m -> exists a, In a l /\ P a b.
Proof. intros F. induction F as [|x y l m H F IH]; intros []; [subst; exists x; split; [now left|assumption]|]. destruct IH as (a & Ha & K); auto. exists a. split; [now right|exact K]. Qed.
Definition plain (x : mtln NumR) : Prop := Forall (fun kb => flat (b_disp (snd kb))) (t_bundles x).
Lemma plain_prepared x T dt p : plain x -> reaches LA x T dt 0 p -> plain p.
Proof.
  intros P (ws & steps & q & H1 & H2 & H3 & H4 & H5). cbn [iterM] in H5. apply OkI in H5. subst q.
  assert (P0 : plain (override_dt x dt)).
  { unfold override_dt. destruct (negb _); [|exact P]. unfold plain, set_all_dt in *. cbn [t_bundles]. apply Forall_map. exact P. }
  unfold mtln_prepare in H4. cbn [t_set t_bundles] in H4. inv_bind H4. apply OkI in H4. subst p. unfold plain in *. cbn [t_set t_bundles]. apply mapM_F2 in Ha. rewrite Forall_forall in *.
  intros kb Hk. destruct (F2_in_right _ _ _ _ Ha Hk) as (ka & Hka & E). cbv beta in E. inv_bind E. apply OkI in E. subst kb. cbn [snd]. apply (sd_flat _ (prepared_steady _ _ _ _ Ha0 (P0 _ Hka))).
Qed.
Lemma plain_stays x y : plain x -> stays x y -> plain y.
Proof.
  intros P (B & _ & _). unfold plain, matched in *. induction B as [|p q l m [_ K] B IH]; [constructor|]. inversion P; subst. constructor; [apply (by_flat _ _ K); assumption|auto].
Qed.
(** a prepared network, and another one that has been still since it was prepared *)
(** a prepared network, and another one that has been still since it was prepared *)
Lemma still_rel (x p y : mtln NumR) (tau t1 t2 : R) : lrel 0 0 0 0 (fun t => t < t1) LA x x x -> lrel 1 0 0 tau always LA x x p -> plain p -> stays p y -> lrel 0 0 0 0 (fun t => t < t2) LA y y y ->
  t_time y = t_time p -> lrel 1 0 0 tau always LA x x y.
Proof.
  intros [Bx Wx _ _] [Bp Wp [_ Dp] [T0 Tp]] Pp Sy0 [B0 W0 _ _] T. pose proof (plain_stays _ _ Pp Sy0) as Py. destruct Sy0 as (By & Wy & Dy). split; [| |split; [reflexivity|congruence]|split; [exact T0|congruence]].
  - assert (By' : Forall2 (fun p q => (fst q = fst p /\ bstays (snd p) (snd q)) /\ flat (b_disp (snd p)) /\ flat (b_disp (snd q))) (t_bundles p) (t_bundles y)).
    { unfold plain, matched in *. clear -Pp Py By. induction By as [|a b l m K By IH]; [constructor|]. inversion Pp; inversion Py; subst. constructor; auto. }
    apply F3_diag in Bx. rewrite Forall_forall in Bx. eapply F3_join; [|exact Bp|exact By'|exact B0].
    intros [k x0] [k1 p0] [k2 y0] Hx (E1 & E2 & Rp) ((E3 & [Sy Lr Cg EL ET _]) & Fp & Fy) (_ & _ & R0). destruct (Bx _ Hx) as (_ & _ & Rx). cbn [fst snd] in *. subst k1 k2. split; [reflexivity|]. split; [reflexivity|]. cbn [snd].
    pose proof (r_sum _ _ _ _ _ _ _ _ Rp) as [_ Sp _ _ Qp Tp' Lp']. pose proof (r_sum _ _ _ _ _ _ _ _ Rx) as [_ _ Vx Ix Qx _ _]. pose proof (r_sum _ _ _ _ _ _ _ _ R0) as [_ _ V0 I0 Q0 _ _].
    assert (Sxy : same_bundle x0 y0) by (eapply same_bundle_trans; eauto).
    split; try (first [exact (r_N _ _ _ _ _ _ _ _ Rp)|exact (r_dn _ _ _ _ _ _ _ _ Rp)|exact (r_dx _ _ _ _ _ _ _ _ Rp)|exact (r_va _ _ _ _ _ _ _ _ Rp)|exact (r_vc _ _ _ _ _ _ _ _ R0)|reflexivity]).
    + split; [apply same_bundle_refl|exact Sxy| | | | |].
      * intros j q Hj Hq. unfold lin. rewrite (proj1 (lin_z _ _ _) (Vx j q Hj Hq)). rewrite <- (sb_n _ _ Sxy) in Hj. rewrite <- (sb_N _ _ Sxy) in Hq. rewrite (proj1 (lin_z _ _ _) (V0 j q Hj Hq)). ring.
      * intros j q Hj Hq. unfold lin. rewrite (proj1 (lin_z _ _ _) (Ix j q Hj Hq)). rewrite <- (sb_n _ _ Sxy) in Hj. rewrite <- (sb_N _ _ Sxy) in Hq. rewrite (proj1 (lin_z _ _ _) (I0 j q Hj Hq)). ring.
      * intros j q Hj Hq. apply qlin_10. pose proof (proj1 (qlin_10 _ _) (Qp j q Hj Hq)) as Ep.
        pose proof (fl_phi _ Fp q j) as L1. pose proof (fl_phi _ Fy q j) as L2. fold (dPhi (b_disp p0) q j) in L1. fold (dPhi (b_disp y0) q j) in L2. rewrite Ep in L1.
        pose proof (proj1 (q_rest _) (Qx j q Hj Hq)) as Z1. rewrite <- (sb_n _ _ Sxy) in Hj. rewrite <- (sb_N _ _ Sxy) in Hq. pose proof (proj1 (q_rest _) (Q0 j q Hj Hq)) as Z2.
        destruct (dPhi (b_disp x0) q j) as [|e1 [|? ?]]; try discriminate L1. destruct (dPhi (b_disp y0) q j) as [|e2 [|? ?]]; try discriminate L2.
        rewrite (Z1 e1), (Z2 e2) by (now left). reflexivity.
      * intros j q t ty tz Ht Ey Ez Hj Hq. unfold kTran in *. rewrite ET. apply Tp'; auto.
      * intros j q t ty tz Ht Ey Ez Hj Hq. unfold kLong in *. rewrite EL. apply Lp'; auto.
    + rewrite Lr. exact (r_lrc _ _ _ _ _ _ _ _ Rp).
    + rewrite Cg. exact (r_cgc _ _ _ _ _ _ _ _ Rp).
  - apply F3_diag in Wx. rewrite Forall_forall in Wx. eapply F3_join; [|exact Wp|exact Wy|exact W0]. intros d e f Hd K1 K2 K3. specialize (Wx _ Hd). cbv beta in Wx. apply F3_diag in Wx. rewrite Forall_forall in Wx.
    eapply F3_join; [|exact K1|exact K2|exact K3].
    intros [k x0] [k1 p0] [k2 y0] Hx (E1 & E2 & Rp) (E3 & [Sy AB Vs ET]) (_ & _ & R0). destruct (Wx _ Hx) as (_ & _ & Rx). cbn [fst snd] in *. subst k1 k2. split; [reflexivity|]. split; [reflexivity|]. cbn [snd].
    destruct Rp as [[_ Sp _ _ _ _ Sr Fl] A1 A2 A3 A4 A5 A6 A7]. destruct Rx as [[_ _ Vx Px Ix Xx _ _] _ _ _ _ _ _ _]. destruct R0 as [[_ _ V0 P0 I0 X0 _ _] B1 B2 B3 B4 B5 B6 B7].
    assert (Sxy : same_circuit x0 y0) by (eapply same_circuit_trans; eauto).
    split; auto; [|exact (fresh_keep _ _ _ Sy AB A6)].
    split; [apply same_circuit_refl|exact Sxy| | | | | |].
    + intros i Hi. apply lin_10. rewrite (proj1 (lin_z _ _ _) (Vx i Hi)). rewrite <- (sc_nodes _ _ Sxy) in Hi. exact (proj1 (lin_z _ _ _) (V0 i Hi)).
    + intros i Hi. apply lin_10. rewrite (proj1 (lin_z _ _ _) (Px i Hi)). rewrite <- (sc_nodes _ _ Sxy) in Hi. exact (proj1 (lin_z _ _ _) (P0 i Hi)).
    + intros i Hi. apply lin_10. rewrite (proj1 (lin_z _ _ _) (Ix i Hi)). rewrite <- (sc_nodes _ _ Sxy) in Hi. exact (proj1 (lin_z _ _ _) (I0 i Hi)).
    + intros i Hi. apply lin_10. rewrite (proj1 (lin_z _ _ _) (Xx i Hi)). rewrite <- (sc_ns _ _ Sxy) in Hi. exact (proj1 (lin_z _ _ _) (X0 i Hi)).
    + intros i t ty tz Ht Ey Ez Hi. unfold nSrc in *. rewrite Vs. apply (Sr i t ty tz); auto.
    + intros i t ty tz Ht Ey Ez Hi. unfold nField in *. rewrite ET. apply (Fl i t ty tz); auto.
Qed.

Lemma driven_off tau t1 x y : driven_alike tau (fun t => t < t1) x y -> lines_still x -> lines_off t1 x -> lines_still y /\ lines_off (t1 + tau) y.
Proof.
  intros [B W _ _] [S1 S2] [O1 O2].
  assert (X : Forall (fun kb => bundle_still (snd kb) /\ bundle_off (t1 + tau) (snd kb)) (t_bundles y)).
  { unfold matched in B. clear W S2 O2. induction B as [|[k a] [k' b] l m [_ K] B IH]; [constructor|]. inversion S1 as [|? ? S S1']; inversion O1 as [|? ? O O1']; subst. constructor; [|auto].
    cbn [snd] in *. clear -K S O. destruct K as [Sm [n N v i q] T L], S as [v0 i0 q0], O as [T0 L0]. split; split.
    - intros j k Hj Hk. rewrite n in Hj. rewrite N in Hk. rewrite v; auto.
    - intros j k Hj Hk. rewrite n in Hj. rewrite N in Hk. rewrite i; auto.
    - intros j k p Hj Hk Hp. rewrite n in Hj. rewrite N in Hk. rewrite q in Hp by auto. eapply q0; eauto.
    - intros j k t Ht Hj Hk. rewrite n in Hj. rewrite N in Hk. replace t with (t - tau + tau) by ring. rewrite T by (auto; lra). apply T0; auto; lra.
    - intros j k t Ht Hj Hk. rewrite n in Hj. rewrite N in Hk. replace t with (t - tau + tau) by ring. rewrite L by (auto; lra). apply L0; auto; lra. }
  assert (Y : forall w, In w (nets y) -> circuit_still w /\ circuit_off (t1 + tau) w).
  { intros w Hw. apply in_flat_map in Hw as (d & Hd & Hw). apply in_map_iff in Hw as ([kw w'] & <- & Hl). destruct (F2_in_right _ _ _ _ W Hd) as (d0 & Hd0 & M). destruct (F2_in_right _ _ _ _ M Hl) as ([ku u] & Hu & _ & K). cbn [snd] in *.
    rewrite Forall_forall in S2, O2. pose proof (S2 u (in_nets _ _ _ _ Hd0 Hu)) as S. pose proof (O2 u (in_nets _ _ _ _ Hd0 Hu)) as O. clear -K S O. destruct K as [Sm [n N v p i q] T L], S as [v0 p0 i0 q0], O as [T0 L0]. split; split.
    - intros j Hj. rewrite n in Hj. rewrite v; auto. - intros j Hj. rewrite n in Hj. rewrite p; auto. - intros j Hj. rewrite n in Hj. rewrite i; auto. - intros j Hj. rewrite N in Hj. rewrite q; auto.
    - intros j t Ht Hj. rewrite n in Hj. pose proof (T j (t - tau) ltac:(lra) Hj) as E. replace (t - tau + tau) with t in E by ring. rewrite E. apply T0; auto; lra.
    - intros j t Ht Hj. rewrite n in Hj. pose proof (L j (t - tau) ltac:(lra) Hj) as E. replace (t - tau + tau) with t in E by ring. rewrite E. apply L0; auto; lra. }
  rewrite Forall_forall in X. split; split; apply Forall_forall; intros z Hz; first [apply (X z Hz)|apply (Y z Hz)].
Qed.
Lemma driven_less tau (P Q : R -> Prop) x y : (forall t, Q t -> P t) -> driven_alike tau P x y -> driven_alike tau Q x y.
Proof.
  intros H [B W D T]. split; auto.
  - eapply F2_impl; [|exact B]. intros p q [E [S St K L]]. split; [exact E|]. split; auto.
  - eapply F2_impl; [|exact W]. intros d e M. eapply F2_impl; [|exact M]. intros p q [E [S St K L]]. split; [exact E|]. split; auto.
Qed.
Lemma rest_still x : lines_rest x -> lines_still x /\ forall t1, lines_off t1 x.
Proof.
  intros [B W]. split; [|intros t1]; (split; [eapply Forall_impl; [|exact B]; intros kb []; split; auto|eapply Forall_impl; [|exact W]; intros w []; split; auto]).
Qed.
Lemma delayed_sum tau x y : lines_delayed tau x y -> lsum 1 0 0 tau always x x (at_time y (t_time x + tau)).
Proof.
  intros [B W D T]. split; cbn [at_time t_bundles t_networks t_dt t_time].
  - apply (matched_3 (bundle_driven tau (fun _ => True))); [|exact B]. intros _ a c _ _ H. now apply bdriven_sum.
  - eapply F2_13; [|exact W]. intros d e _ _. apply matched_3. intros _ u w _ _ H. now apply cdriven_sum.
  - auto.
  - rewrite Rplus_0_r. auto.
Qed.
Lemma single_flat b : single_poled b -> flat (b_disp b).
Proof. intros [Q P]. split; intros; try apply Q. apply P. Qed.
Lemma run_prepared x T dt k y : reaches LA x T dt k y -> exists p, reaches LA x T dt 0 p /\ iterM k (mtln_step LA) p = Ok y /\ t_time p = t_time x /\ t_dt p = t_dt (override_dt x dt).
Proof.
  intros (ws & steps & p & H1 & H2 & H3 & H4 & H5). exists p. split; [|split; [exact H5|]].
  - exists ws, steps, p. split; [exact H1|]. split; [exact H2|]. split; [lia|]. split; [exact H4|reflexivity].
  - destruct (prepare_rest LA _ _ _ H4) as (P1 & P2 & P3 & _). split.
    + etransitivity; [exact P3|]. unfold t_set, override_dt. cbn [t_time]. destruct (negb _); reflexivity.
    + exact P2.
Qed.
Lemma steps_clock k : forall x y : mtln NumR, iterM k (mtln_step LA) x = Ok y -> t_dt y = t_dt x /\ t_time y = t_time x + INR k * t_dt x.
Proof.
  induction k as [|k IH]; intros x y H; [cbn [iterM] in H; apply OkI in H; subst; cbn [INR]; split; [reflexivity|rewrite Rmult_0_l; symmetry; apply Rplus_0_r]|]. cbn [iterM] in H. inv_bind H.
  destruct (step_clock LA _ _ Ha) as [Cd Ct]. destruct (IH _ _ H) as [Ed Et]. rewrite Ed, Et, Cd, Ct, S_INR. split; [reflexivity|]. set (u := t_time x). set (v := t_dt x). change (u + v + INR k * v = u + (INR k + 1) * v)%R. clearbody u v. change R in u, v. ring.
Qed.
Lemma lines_delay (x y : mtln NumR) (T T' dt : R) k n a b : lines_net LA x -> lines_net LA y -> solvable x dt -> 0 < t_dt (override_dt x dt) ->
  lines_still x -> lines_off (t_time x) x -> Forall (fun kb => single_poled (snd kb)) (t_bundles y) -> lines_delayed (INR k * t_dt (override_dt x dt)) x y ->
  reaches LA x T dt n a -> reaches LA y T' dt (k + n) b -> same_state a b /\ t_time b = t_time a + INR k * t_dt (override_dt x dt).
Proof.
  intros Lx Ly D Hd S O F Dl Rx Ry. set (h := t_dt (override_dt x dt)) in *. set (tau := INR k * h) in *.
  assert (Eh : t_dt (override_dt y dt) = h). { unfold h, override_dt. destruct (negb _); [reflexivity|]. exact (da_dt _ _ _ _ Dl). }
  assert (Et : t_time y = t_time x) by exact (da_time _ _ _ _ Dl).
  destruct (driven_off _ _ _ _ (driven_less _ _ (fun t => t < t_time x) _ _ (fun _ _ => I) Dl) S O) as [Sy Oy].
  pose proof (lines_ninv LA x Lx) as Ix. pose proof (lines_ninv LA y Ly) as Iy.
  destruct (run_prepared _ _ _ _ _ Rx) as (px & Px & Hx & Tx & Dx). destruct (run_prepared _ _ _ _ _ Ry) as (py & Py & Hy & Ty & Dy).
  rewrite iterM_add in Hy. inv_bind Hy. rename a0 into yk, Ha into Hk.
  assert (Rk : reaches LA y T' dt k yk).
  { destruct Ry as (ws & steps & p & H1 & H2 & H3 & H4 & H5). exists ws, steps, p. split; [exact H1|]. split; [exact H2|]. split; [lia|]. split; [exact H4|].
    destruct Py as (ws' & steps' & p' & G1 & G2 & G3 & G4 & G5). cbv zeta in *. cbn [iterM] in G5. apply OkI in G5. subst p'. rewrite H1 in G1. injection G1 as <-. rewrite H2 in G2. injection G2 as <-. rewrite H4 in G4. injection G4 as <-. exact Hk. }
  assert (Dy' : regular LA \/ (forall w, In w (nets y) -> determined w (t_dt (override_dt y dt)))).
  { rewrite Eh. destruct (solvable_det _ _ D) as [Hr|Hr]; [now left|right]. intros w Hw. apply in_flat_map in Hw as (d & Hd' & Hw). apply in_map_iff in Hw as ([kw w'] & <- & Hl).
    destruct (F2_in_right _ _ _ _ (da_nets _ _ _ _ Dl) Hd') as (d0 & Hd0 & M). destruct (F2_in_right _ _ _ _ M Hl) as ([ku u] & Hu & _ & K). cbn [snd] in *. eapply det_keep; [exact (cd_same _ _ _ _ K)|]. apply Hr. eapply in_nets; eauto. }
  assert (Q : lrel 0 0 0 0 (fun t => t < t_time x + tau) LA yk yk yk).
  { refine (start_rel 0 0 0 0 (fun t => t < t_time x + tau) LA LAok y y y T' T' T' dt k yk yk yk Iy Iy Iy (proj1 (still_sum _ y) (conj Sy Oy)) Dy' _ Rk Rk Rk). rewrite Eh, Et. apply looks_before; [exact Hd|unfold tau; lra]. }
  assert (Qx : lrel 0 0 0 0 (fun t => t < t_time x) LA px px px).
  { refine (start_rel 0 0 0 0 (fun t => t < t_time x) LA LAok x x x T T T dt 0 px px px Ix Ix Ix (proj1 (still_sum _ x) (conj S O)) (solvable_det _ _ D) _ Px Px Px). intros i Hi. lia. }
  pose proof (start_rel 1 0 0 tau always LA LAok x x (at_time y (t_time x + tau)) T T T' dt 0 px px (at_time py (t_time x + tau)) Ix Ix (at_time_ninv _ _ Iy) (delayed_sum _ _ _ Dl) (solvable_det _ _ D)
    ltac:(intros i Hi; lia) Px Px (at_time_start _ _ _ _ _ Py)) as Rp.
  assert (Pl : plain py).
  { eapply plain_prepared; [|exact Py]. unfold plain. eapply Forall_impl; [|exact F]. intros kb. apply single_flat. }
  assert (St : stays py yk) by (eapply stays_steps; eauto).
  assert (St' : stays (at_time py (t_time x + tau)) yk) by exact St.
  destruct (steps_clock _ _ _ Hk) as [Ck Ct].
  pose proof (still_rel px (at_time py (t_time x + tau)) yk tau (t_time x) (t_time x + tau) Qx Rp Pl St' Q) as Sr. cbn [at_time t_time] in Sr.
  specialize (Sr ltac:(rewrite Ct, Ty, Dy, Eh, Et; reflexivity)).
  pose proof (lrel_steps 1 0 0 tau always LA LAok n px px yk a a b ltac:(intros i Hi; apply looks_always) Sr Hx Hx Hy) as Fin.
  pose proof (lrel_sum _ _ _ _ _ _ _ _ _ Fin) as G. split; [exact (sum_same_state _ _ _ _ G)|exact (proj2 (lg_time _ _ _ _ _ _ _ _ G))].
Qed.
End Runs.

(** *** how networks driven alike arise *)
Lemma call_alike_3 tau seen c d : call_alike tau seen c d -> call3 1 0 0 tau seen c c d.
Proof.
  assert (D : forall f g, drive_alike tau seen f g -> srel 1 0 0 tau seen f f g).
  { intros f g []; constructor. intros t ty tz Ht -> ->. rewrite Rplus_0_r. apply lin_10. auto. }
  intros []; constructor; auto.
Qed.
Lemma calls_alike tau seen ds (w0 : network NumR) a b u v : network_new ds = Ok w0 -> (forall i t, (i < w_nodes w0)%nat -> nField w0 i t = 0) -> Forall2 (call_alike tau seen) a b ->
  do_calls w0 a = Ok u -> do_calls w0 b = Ok v -> circuit_driven tau seen u v.
Proof.
  intros H F K A B. apply cdriven_sum. refine (calls_csum 1 0 0 tau seen ds w0 a a b u u v H F _ A A B). eapply F2_13; [|exact K]. intros. now apply call_alike_3.
Qed.
Lemma new_alike tau seen a b d e x y : Forall2 (bundle_alike tau seen) a b -> Forall2 (matched (circuit_driven tau seen)) d e ->
  mtln_new a d = Ok x -> mtln_new b e = Ok y -> driven_alike tau seen x y.
Proof.
  intros B W H1 H2.
  assert (F : frel 1 0 0 tau seen x x y).
  { refine (new_frel 1 0 0 tau seen a a b d d e x x y _ _ H1 H1 H2).
    - eapply F2_13; [|exact B]. intros p q _ _ (E1 & E2 & K). split; [reflexivity|]. split; [exact E1|]. split; [reflexivity|]. split; [exact E2|]. now apply bdriven_sum.
    - eapply F2_13; [|exact W]. intros p q _ _. apply matched_3. intros _ u w _ _ K. now apply cdriven_sum. }
  destruct F as [W' [_ D] [_ T] B']. split; auto.
  - revert B'. apply matched_2. intros p q (K & _). now apply bdriven_sum.
  - apply F3_12 in W'. eapply F2_impl; [|exact W']. intros p q. apply matched_2. intros u w K. now apply cdriven_sum.
Qed.
