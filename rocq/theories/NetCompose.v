(** Splitting a run of a network of lines in two (any [num]). *)
From Coq Require Import String List Arith ZArith Bool Lia.
From Verif Require Import Num Py Arr ArrFacts Utils Probes Dispersive Line LineFacts Bundle Networks Mtln
  SpecLine SpecBundle SpecNet SpecMtln SpecProbe SpecCompose StepTotal ProbeFacts CoreEq MtlnFacts.
Import ListNotations.

Section NetCompose.
Context {N : num}.
Local Open Scope num_scope.
Variable LA : lapack N.
Implicit Types (x y z : mtln N) (b c : bundle N) (bs cs : bdict N) (w : network N).

(** *** bundles that differ in their probes only *)
Definition like_d bs cs : Prop := Forall2 (fun p q => fst q = fst p /\ bundle_but_probes (snd p) (snd q)) bs cs.
Lemma bp_refl b : bundle_but_probes b b. Proof. split; reflexivity. Qed.
Lemma bp_sym b c : bundle_but_probes b c -> bundle_but_probes c b. Proof. intros []; split; congruence. Qed.
Lemma bp_trans a b c : bundle_but_probes a b -> bundle_but_probes b c -> bundle_but_probes a c.
Proof. intros [] []; split; congruence. Qed.
Lemma like_refl bs : like_d bs bs.
Proof. induction bs; constructor; auto. split; [reflexivity|apply bp_refl]. Qed.
Lemma like_sym bs cs : like_d bs cs -> like_d cs bs.
Proof. induction 1 as [|p q l m [E H] _ IH]; constructor; auto. split; [auto|now apply bp_sym]. Qed.
Lemma like_trans bs cs ds : like_d bs cs -> like_d cs ds -> like_d bs ds.
Proof.
  intros H. revert ds. induction H as [|p q l m [E H] _ IH]; intros ds K; inversion K as [|? r ? ? [E' H'] K']; subst; constructor; [|now apply IH].
  split; [congruence|]. eapply bp_trans; eauto.
Qed.
Lemma np_refl x : net_but_probes x x.
Proof. split; auto. apply like_refl. Qed.
Lemma np_sym x y : net_but_probes x y -> net_but_probes y x.
Proof. intros [H H1 H2 H3]. split; auto. now apply like_sym. Qed.
Lemma np_trans x y z : net_but_probes x y -> net_but_probes y z -> net_but_probes x z.
Proof. intros [H H1 H2 H3] [K K1 K2 K3]. split; try congruence. eapply like_trans; eauto. Qed.

(** probes that the next step can update *)
Definition oks_b b : Prop := Forall (probe_ok (k_N (b_core b))) (b_probes b).
Definition oks bs : Prop := Forall (fun kb => oks_b (snd kb)) bs.

(** a phase that works on the core only *)
Definition core_phase (f : core N -> res (core N)) b : res (bundle N) := s <- f (b_core b) ;; Ok (b_set_core b s).
Lemma core_phase_like f bs cs bs' : (forall s s', f s = Ok s' -> k_N s' = k_N s) -> like_d bs cs -> oks cs -> map_bundles (core_phase f) bs = Ok bs' ->
  exists cs', map_bundles (core_phase f) cs = Ok cs' /\ like_d bs' cs' /\ oks cs'.
Proof.
  intros KN H. revert bs'. unfold map_bundles. induction H as [|[k b] [k' c] l m [E H] _ IH]; intros bs' O R; cbn [mapM fst snd] in *.
  - injection R as <-. exists []. repeat split; constructor.
  - inversion O as [|? ? O1 O2]; subst. inv_bind R. inv_bind R. apply OkI in R. subst bs'. inv_bind Ha. apply OkI in Ha. subst a.
    destruct (IH _ O2 Ha0) as (cs' & -> & L & O'). unfold core_phase in Ha1 |- *. inv_bind Ha1. apply OkI in Ha1. subst a1.
    pose proof (bp_core _ _ H) as Ec. cbn [snd] in O1. unfold oks_b in O1. rewrite Ec in *. rewrite Ha. cbn [bind]. eexists. split; [reflexivity|]. split.
    + constructor; [|exact L]. cbn [fst snd]. split; [reflexivity|]. destruct H. split; cbn [b_set_core b_set b_name b_u b_du b_core b_levels b_cil]; auto.
    + constructor; [|exact O']. cbn [snd]. unfold oks_b. cbn [b_set_core b_set b_core b_probes]. rewrite (KN _ _ Ha). exact O1.
Qed.
Lemma advv_N (s s' : core N) f : advance_voltage s f = Ok s' -> k_N s' = k_N s.
Proof. unfold advance_voltage. destruct (k_cg s) as [[vt idf]|]; [|discriminate]. intros H. apply OkI in H. now subst s'. Qed.
Lemma advi_N (s s' : core N) f : advance_current s f = Ok s' -> k_N s' = k_N s.
Proof. unfold advance_current. intros H. inv_bind H. destruct (k_lr s) as [[it vd]|]; [|discriminate]. inv_bind H. apply OkI in H. now subst s'. Qed.

(** *** networks writing to and reading from bundles *)
Lemma like_get bs cs name b : like_d bs cs -> dget String.eqb name bs = Some b -> exists c, dget String.eqb name cs = Some c /\ bundle_but_probes b c.
Proof.
  induction 1 as [|[k b0] [k' c0] l m [E H] _ IH]; cbn [dget]; intros G; [discriminate|]. cbn [fst snd] in *. subst k'.
  destruct (String.eqb name k); [injection G as <-; eauto|auto].
Qed.
Lemma like_get_none bs cs name : like_d bs cs -> dget String.eqb name bs = None -> dget String.eqb name cs = None.
Proof.
  induction 1 as [|[k b0] [k' c0] l m [E H] _ IH]; cbn [dget]; intros G; [reflexivity|]. cbn [fst snd] in *. subst k'.
  destruct (String.eqb name k); [discriminate|auto].
Qed.
Lemma like_set bs cs name b c : like_d bs cs -> bundle_but_probes b c -> like_d (dset String.eqb name b bs) (dset String.eqb name c cs).
Proof.
  intros L P. induction L as [|[k b0] [k' c0] l m [E H] L IH]; cbn [dset]; [constructor; [split; auto|constructor]|]. cbn [fst snd] in *. subst k'.
  destruct (String.eqb name k); constructor; auto.
Qed.
Lemma oks_set cs name c : oks cs -> oks_b c -> oks (dset String.eqb name c cs).
Proof.
  intros O P. induction O as [|[k c0] l O1 O IH]; cbn [dset]; [constructor; [exact P|constructor]|].
  destruct (String.eqb name k); constructor; auto.
Qed.
Lemma oks_get cs name c : oks cs -> dget String.eqb name cs = Some c -> oks_b c.
Proof. intros O G. apply sget_some in G. unfold oks in O. rewrite Forall_forall in O. exact (O _ G). Qed.
Lemma put_like bs cs nd v bs' : like_d bs cs -> oks cs -> put_voltage bs nd v = Ok bs' -> exists cs', put_voltage cs nd v = Ok cs' /\ like_d bs' cs' /\ oks cs'.
Proof.
  intros L O H. unfold put_voltage in *. inv_bind H. destruct (dget String.eqb (nd_bundle nd) bs) as [b|] eqn:G; [|discriminate Ha]. apply OkI in Ha. subst a.
  destruct (like_get _ _ _ _ L G) as (c & Gc & P). rewrite Gc. cbn [of_option bind]. pose proof (bp_core _ _ P) as Ec. rewrite Ec.
  destruct (nd_row nd <? k_n (b_core b))%nat; [|discriminate]. apply OkI in H. subst bs'. eexists. split; [reflexivity|]. split.
  - apply like_set; [exact L|]. destruct P. split; cbn [b_set_core b_set b_name b_u b_du b_core b_levels b_cil]; auto.
  - apply oks_set; [exact O|]. pose proof (oks_get _ _ _ O Gc) as Oc. unfold oks_b in *. cbn [b_set_core b_set b_core b_probes set_v k_N]. now rewrite <- Ec.
Qed.
Lemma put_all_like l : forall bs cs bs', like_d bs cs -> oks cs -> put_all l bs = Ok bs' -> exists cs', put_all l cs = Ok cs' /\ like_d bs' cs' /\ oks cs'.
Proof.
  unfold put_all. induction l as [|nv l IH]; intros bs cs bs' L O H; cbn [foldM] in *; [apply OkI in H; subst; eauto|].
  inv_bind H. destruct (put_like _ _ _ _ _ L O Ha) as (cs1 & -> & L1 & O1). cbn [bind]. eapply IH; eauto.
Qed.
Lemma read_like bs cs nd : like_d bs cs -> read_current cs nd = read_current bs nd.
Proof.
  intros L. unfold read_current. destruct (dget String.eqb (nd_bundle nd) bs) as [b|] eqn:G.
  - destruct (like_get _ _ _ _ L G) as (c & -> & P). cbn [of_option bind]. now rewrite (bp_core _ _ P).
  - now rewrite (like_get_none _ _ _ L G).
Qed.
Lemma foldM_ext {A S} (f g : S -> A -> res S) l : (forall s a, f s a = g s a) -> forall s, foldM f l s = foldM g l s.
Proof. intros H. induction l as [|a l IH]; intros s; cbn [foldM]; [reflexivity|]. rewrite H. destruct (g s a); cbn [bind]; auto. Qed.
Lemma back_like (d : networkd N) bs cs : like_d bs cs -> nwd_update_currents d cs = nwd_update_currents d bs.
Proof.
  intros L. unfold nwd_update_currents. apply mapM_ext. intros lw _. unfold nw_update_currents.
  rewrite (foldM_ext _ (fun i kn => x <- read_current bs (snd kn) ;; Ok (lset i (nd_index (snd kn)) x))); [reflexivity|].
  intros s a. now rewrite (read_like _ _ _ L).
Qed.

(** *** probes *)
Lemma probes_like t bs cs bs' : like_d bs cs -> oks cs -> map_bundles (bundle_update_probes t) bs = Ok bs' ->
  exists cs', map_bundles (bundle_update_probes t) cs = Ok cs' /\ like_d bs' cs' /\ oks cs'.
Proof.
  unfold map_bundles. intros L. revert bs'. induction L as [|[k b] [k' c] l m [E H] _ IH]; intros bs' O R; cbn [mapM fst snd] in *.
  - injection R as <-. exists []. repeat split; constructor.
  - inversion O as [|? ? O1 O2]; subst. inv_bind R. inv_bind R. apply OkI in R. subst bs'. inv_bind Ha. apply OkI in Ha. subst a.
    destruct (IH _ O2 Ha0) as (cs' & -> & L & O'). unfold bundle_update_probes in Ha1 |- *. inv_bind Ha1. apply OkI in Ha1. subst a1.
    destruct (update_probes_total (b_core c) t (b_probes c) O1) as (ps' & -> & F). cbn [bind]. eexists. split; [reflexivity|]. split.
    + constructor; [|exact L]. cbn [fst snd]. split; [reflexivity|]. destruct H. split; cbn [b_set b_name b_u b_du b_core b_levels b_cil]; auto.
    + constructor; [|exact O']. exact F.
Qed.

(** *** one step, many steps *)
Lemma step_like x x' y : net_but_probes x x' -> oks (t_bundles x') -> mtln_step LA x = Ok y ->
  exists y', mtln_step LA x' = Ok y' /\ net_but_probes y y' /\ oks (t_bundles y').
Proof.
  intros [L W D T] O H. apply step_split in H as (bs1 & ws & bs2 & bs3 & [H1 H2 H3 H4 H5 H6 H7 H8]).
  destruct (core_phase_like (fun s => advance_voltage s (eval_fields (k_eL s) (k_eT s) (t_time x) (t_dt x))) _ _ _ (fun s s' E => advv_N _ _ _ E) L O H1) as (cs1 & C1 & L1 & O1).
  destruct (put_all_like _ _ _ _ L1 O1 H3) as (cs2 & C2 & L2 & O2).
  destruct (core_phase_like (fun s => advance_current s (eval_fields (k_eL s) (k_eT s) (t_time x) (t_dt x))) _ _ _ (fun s s' E => advi_N _ _ _ E) L2 O2 H4) as (cs3 & C3 & L3 & O3).
  destruct (probes_like _ _ _ _ L3 O3 H6) as (cs4 & C4 & L4 & O4).
  exists {| t_bundles := cs4; t_networks := t_networks y; t_dt := t_dt y; t_time := t_time y |}. split; [|split; [split; auto|exact O4]].
  apply step_split. exists cs1, ws, cs2, cs3. split; cbn [t_bundles t_networks t_dt t_time]; rewrite ?D, ?T, ?W; auto.
  rewrite <- H5. apply mapM_ext. intros d _. exact (back_like d _ _ L3).
Qed.
Lemma steps_like n : forall x x' y, net_but_probes x x' -> oks (t_bundles x') -> iterM n (mtln_step LA) x = Ok y ->
  exists y', iterM n (mtln_step LA) x' = Ok y' /\ net_but_probes y y' /\ oks (t_bundles y').
Proof.
  induction n as [|n IH]; intros x x' y L O H; cbn [iterM] in *; [apply OkI in H; subst; eauto|].
  inv_bind H. destruct (step_like _ _ _ L O Ha) as (x1 & -> & L1 & O1). cbn [bind]. eapply IH; eauto.
Qed.

(** *** coefficients are computed already *)
Definition ready (s : core N) : Prop := lr_ready LA s /\ cg_ready LA s.
Definition cores (P : core N -> Prop) bs : Prop := Forall (fun kb => P (b_core (snd kb))) bs.
Definition all_ready x : Prop := cores ready (t_bundles x) /\ Forall (Forall (fun lw => compute_v_terms (snd lw) (t_dt x) = Ok (snd lw))) (t_networks x).
Definition lasting (P : core N -> Prop) : Prop := forall s s', same_static s s' -> same_disp (k_disp s) (k_disp s') -> P s -> P s'.
Lemma ready_lasting : lasting ready.
Proof. intros s s' S D [H1 H2]. split; [eapply lr_ready_same; eauto|eapply cg_ready_same; eauto]. Qed.
Lemma dt_lasting d : lasting (fun s => k_dt s = d).
Proof. intros s s' S D H. now rewrite (ss_dt _ _ S). Qed.
Lemma advv_lasting P (s s' : core N) f : lasting P -> advance_voltage s f = Ok s' -> P s -> P s'.
Proof.
  unfold advance_voltage. intros K. destruct (k_cg s) as [[vt idf]|] eqn:E; [|discriminate]. intros H. apply OkI in H. subst s'.
  apply K; [split; cbn; auto|apply same_disp_refl].
Qed.
Lemma advi_lasting P (s s' : core N) f : lasting P -> advance_current s f = Ok s' -> P s -> P s'.
Proof.
  unfold advance_current. intros K H. inv_bind H. destruct (k_lr s) as [[it vd]|] eqn:E; [|discriminate]. inv_bind H. apply OkI in H. subst s'.
  apply K; [split; cbn; auto|]. cbn [set_i_disp k_disp]. eapply same_disp_trans; [exact (proj1 (update_q3_phi_same _ _ Ha))|exact (proj1 (update_phi_same _ _ _ _ Ha0))].
Qed.
Lemma map_cores (P : core N -> Prop) f bs bs' : (forall b b', f b = Ok b' -> P (b_core b) -> P (b_core b')) -> map_bundles f bs = Ok bs' -> cores P bs -> cores P bs'.
Proof.
  intros K H R. apply map_bundles_F2 in H. induction H as [|p q l m [_ E] _ IH]; [constructor|]. inversion R; subst. constructor; [eapply K; eauto|]. now apply IH.
Qed.
Lemma put_cores P l : lasting P -> forall bs bs', put_all l bs = Ok bs' -> cores P bs -> cores P bs'.
Proof.
  intros K. unfold put_all. induction l as [|nv l IH]; intros bs bs' H R; cbn [foldM] in H; [apply OkI in H; now subst|]. inv_bind H. eapply IH; [exact H|].
  clear - Ha R K. unfold put_voltage in Ha. inv_bind Ha. destruct (dget String.eqb (nd_bundle (fst nv)) bs) as [b|] eqn:G; [|discriminate]. apply OkI in Ha0. subst a0.
  destruct (_ <? _)%nat; [|discriminate]. apply OkI in Ha. subst a.
  assert (Rb : P (b_core b)) by (apply sget_some in G; unfold cores in R; rewrite Forall_forall in R; exact (R _ G)).
  match goal with |- cores P (dset _ _ ?c _) => assert (Rb' : P (b_core c)); [|generalize dependent c] end.
  { cbn [b_set_core b_set b_core]. eapply K; [| |exact Rb]; [split; cbn; auto|apply same_disp_refl]. }
  intros b' Rb'. revert R. clear - Rb'. induction bs as [|[k c] bs IH]; intros R; cbn [dset]; [constructor; [exact Rb'|constructor]|]. inversion R; subst.
  destruct (String.eqb (nd_bundle (fst nv)) k); constructor; try assumption. now apply IH.
Qed.
Lemma step_cores P x y : lasting P -> mtln_step LA x = Ok y -> cores P (t_bundles x) -> cores P (t_bundles y).
Proof.
  intros K H R. apply step_split in H as (bs1 & ws & bs2 & bs3 & [H1 H2 H3 H4 H5 H6 H7 H8]).
  assert (R1 : cores P bs1).
  { eapply map_cores; [|exact H1|exact R]. intros b b' E. unfold bundle_advance_voltage in E. inv_bind E. apply OkI in E. subst b'. exact (advv_lasting _ _ _ _ K Ha). }
  pose proof (put_cores P _ K _ _ H3 R1) as R2.
  assert (R3 : cores P bs3).
  { eapply map_cores; [|exact H4|exact R2]. intros b b' E. unfold bundle_advance_current in E. inv_bind E. apply OkI in E. subst b'. exact (advi_lasting _ _ _ _ K Ha). }
  eapply map_cores; [|exact H6|exact R3]. intros b b' E. unfold bundle_update_probes in E. inv_bind E. apply OkI in E. subst b'. exact (fun R => R).
Qed.
Lemma steps_cores P n : lasting P -> forall x y, iterM n (mtln_step LA) x = Ok y -> cores P (t_bundles x) -> cores P (t_bundles y).
Proof. intros K. induction n as [|n IH]; intros x y H R; cbn [iterM] in H; [apply OkI in H; now subst|]. inv_bind H. eapply IH; [exact H|]. eapply step_cores; eauto. Qed.
Lemma terms_kept w w' t dt dt' (bs : bdict N) w2 : nw_advance_voltage LA w t dt = Ok w' -> nw_update_currents w' bs = Ok w2 -> compute_v_terms w dt' = Ok w -> compute_v_terms w2 dt' = Ok w2.
Proof.
  unfold nw_advance_voltage, nw_update_currents. intros H K E. inv_bind H. inv_bind K. apply OkI in K.
  destruct (w_AB w) as [[[A B1] B2]|] eqn:EA; [|discriminate]. inv_bind H. apply OkI in H. subst w'. subst w2.
  unfold compute_v_terms in *. cbn [set_wi w_nodes w_ns w_csize w_dx w_c w_P1 w_Q1 w_O w_N1 w_M w_Ps w_Qs w_Ns] in *.
  destruct (negb (w_csize w =? w_nodes w)%nat); [discriminate|]. apply OkI in E.
  apply (f_equal w_AB) in E. cbn [w_AB] in E. rewrite EA in E. unfold set_wi. cbn. f_equal. f_equal. exact E.
Qed.
Lemma step_ready x y : mtln_step LA x = Ok y -> all_ready x -> all_ready y.
Proof.
  intros H [Rb Rw]. split; [exact (step_cores ready x y ready_lasting H Rb)|].
  apply step_split in H as (bs1 & ws & bs2 & bs3 & [H1 H2 H3 H4 H5 H6 H7 H8]).
  rewrite H7. apply mapM_Ok in H2, H5. revert H5 Rw. generalize (t_networks y). clear - H2. induction H2 as [|d d1 l l1 E _ IH]; intros l2 F R; inversion F as [|? d2 ? m2 E2 F2]; subst; constructor.
  - inversion R as [|? ? Rd _]; subst. clear - E E2 Rd. unfold nwd_advance_voltage, nwd_update_currents in *. apply mapM_Ok in E, E2. revert d2 E2 Rd.
      induction E as [|lw lw1 d d1 E _ IH]; intros d2 F R; inversion F as [|? lw2 ? m2 E2 F2]; subst; constructor.
      * inversion R as [|? ? R1 _]; subst. inv_bind E. apply OkI in E. subst lw1. inv_bind E2. apply OkI in E2. subst lw2. cbn [snd] in *. eapply terms_kept; eauto.
      * inversion R; subst. now apply IH.
  - inversion R; subst. now apply IH.
Qed.
Lemma steps_ready n : forall x y, iterM n (mtln_step LA) x = Ok y -> all_ready x -> all_ready y.
Proof. induction n as [|n IH]; intros x y H R; cbn [iterM] in H; [apply OkI in H; now subst|]. inv_bind H. eapply IH; [exact H|]. eapply step_ready; eauto. Qed.

(** *** preparation *)
Lemma terms_idem w w' dt : compute_v_terms w dt = Ok w' -> compute_v_terms w' dt = Ok w'.
Proof.
  unfold compute_v_terms. destruct (negb (w_csize w =? w_nodes w)%nat) eqn:E; [discriminate|]. intros H. apply OkI in H. subst w'.
  cbn [w_nodes w_csize]. rewrite E. reflexivity.
Qed.
Lemma prepare_readies n x p : mtln_prepare LA x n = Ok p -> Forall (Forall (fun lw => compute_v_terms (snd lw) (t_dt x) = Ok (snd lw))) (t_networks x) -> all_ready p.
Proof.
  unfold mtln_prepare. intros H W. inv_bind H. apply OkI in H. subst p. split; [|exact W]. cbn [t_set t_bundles]. apply map_bundles_F2 in Ha. clear - Ha.
  induction Ha as [|p q l m [_ E] _ IH]; constructor; [|exact IH]. unfold bundle_prepare in E. inv_bind E. inv_bind E. apply OkI in E.
  unfold ready. rewrite <- E. cbn [b_set b_core]. split; [|eapply update_cg_ready; eauto]. pose proof (update_lr_ready LA _ _ Ha) as R. apply update_cg_inv in Ha0 as [t ->]. now apply lr_ready_set_cg.
Qed.
Lemma terms_readies dt (ws ws' : list (networkd N)) : mapM (fun d => nwd_compute_v_terms d dt) ws = Ok ws' -> Forall (Forall (fun lw => compute_v_terms (snd lw) dt = Ok (snd lw))) ws'.
Proof.
  intros H. apply mapM_Ok in H. induction H as [|d d' l l' E _ IH]; constructor; [|exact IH]. unfold nwd_compute_v_terms in E. apply mapM_Ok in E.
  clear - E. induction E as [|lw lw' d d' E _ IH]; constructor; [|exact IH]. inv_bind E. apply OkI in E. subst lw'. cbn [snd]. eapply terms_idem; eauto.
Qed.
(** preparing what is ready changes the probes only *)
Lemma again_terms dt (ws : list (networkd N)) : Forall (Forall (fun lw => compute_v_terms (snd lw) dt = Ok (snd lw))) ws -> mapM (fun d => nwd_compute_v_terms d dt) ws = Ok ws.
Proof.
  induction 1 as [|d ws Hd _ IH]; cbn [mapM]; [reflexivity|]. assert (E : nwd_compute_v_terms d dt = Ok d).
  { unfold nwd_compute_v_terms. clear - Hd. induction Hd as [|[l w] d Hw _ IH]; cbn [mapM]; [reflexivity|]. cbn [fst snd] in *. rewrite Hw. cbn [bind]. rewrite IH. reflexivity. }
  rewrite E. cbn [bind]. rewrite IH. reflexivity.
Qed.
Lemma again_prepare n x p : all_ready x -> mtln_prepare LA x n = Ok p -> net_but_probes x p.
Proof.
  intros [R _] H. unfold mtln_prepare in H. inv_bind H. apply OkI in H. subst p. split; auto. cbn [t_set t_bundles]. apply map_bundles_F2 in Ha. revert R. clear - Ha.
  induction Ha as [|[k b] [k' c] l m [E H] _ IH]; intros R; constructor; [|inversion R; subst; now apply IH]. inversion R as [|? ? [R1 R2] _]; subst. cbn [fst snd] in *. split; [exact E|].
  unfold bundle_prepare in H. rewrite R1 in H. cbn [bind] in H. rewrite R2 in H. cbn [bind] in H. apply OkI in H. subst c. split; reflexivity.
Qed.
(** the number of steps announced to the probes matters to the probes only *)
Lemma prepare_other n n' x p : mtln_prepare LA x n = Ok p -> exists p', mtln_prepare LA x n' = Ok p' /\ net_but_probes p p' /\
  Forall2 (fun kb kb' => exists ps, b_probes (snd kb) = map (fun q => resize_frames q n (k_n (b_core (snd kb)))) ps /\ b_probes (snd kb') = map (fun q => resize_frames q n' (k_n (b_core (snd kb)))) ps) (t_bundles p) (t_bundles p').
Proof.
  unfold mtln_prepare. intros H. inv_bind H. apply OkI in H. subst p. rename a into bs. apply map_bundles_F2 in Ha.
  assert (K : exists cs, map_bundles (bundle_prepare LA n') (t_bundles x) = Ok cs /\ like_d bs cs /\
    Forall2 (fun kb kb' => exists ps, b_probes (snd kb) = map (fun q => resize_frames q n (k_n (b_core (snd kb)))) ps /\ b_probes (snd kb') = map (fun q => resize_frames q n' (k_n (b_core (snd kb)))) ps) bs cs).
  { unfold map_bundles. induction Ha as [|[k b] [k' c] l m [E H] _ (cs & Ecs & L & F)]; cbn [mapM]; [exists []; repeat split; constructor|]. cbn [fst snd] in *. subst k'.
    unfold bundle_prepare in *. inv_bind H. inv_bind H. apply OkI in H. subst c. rewrite Ha. cbn [bind]. rewrite Ha0. cbn [bind]. rewrite Ecs. cbn [bind].
    eexists. split; [reflexivity|]. split; constructor; auto; cbn [fst snd]; [split; [reflexivity|]; split; reflexivity|]. exists (b_probes b). split; reflexivity. }
  destruct K as (cs & -> & L & F). cbn [bind]. eexists. split; [reflexivity|]. split; [split; auto|exact F].
Qed.
(** a step that succeeds shows that the probes can record *)
Lemma update_shows n (c : nat) t k v i (p p' : probe N) : probe_update p t c n v i = Ok p' -> k = n -> (p_type p = "voltage"%string \/ p_type p = "current"%string) /\ (p_index p <= k)%nat.
Proof.
  intros H ->. unfold probe_update in H. destruct (String.eqb (p_type p) "voltage") eqn:E1.
  - apply String.eqb_eq in E1. destruct (p_index p <? S n)%nat eqn:L; [|discriminate]. apply Nat.ltb_lt in L. split; [now left|lia].
  - destruct (String.eqb (p_type p) "current") eqn:E2; [|discriminate]. apply String.eqb_eq in E2. destruct (p_index p =? n)%nat eqn:L; [apply Nat.eqb_eq in L; split; [now right|lia]|].
    destruct (p_index p <? n)%nat eqn:L'; [|discriminate]. apply Nat.ltb_lt in L'. split; [now right|lia].
Qed.
Lemma step_shows x y : mtln_step LA x = Ok y -> Forall (fun kb => Forall (fun p => (p_type p = "voltage"%string \/ p_type p = "current"%string) /\ (p_index p <= k_N (b_core (snd kb)))%nat) (b_probes (snd kb))) (t_bundles x).
Proof.
  intros H. apply step_split in H as (bs1 & ws & bs2 & bs3 & [H1 H2 H3 H4 H5 H6 H7 H8]).
  set (P := fun kb : string * bundle N => Forall (fun p => (p_type p = "voltage"%string \/ p_type p = "current"%string) /\ (p_index p <= k_N (b_core (snd kb)))%nat) (b_probes (snd kb))).
  assert (P3 : Forall P bs3).
  { apply map_bundles_F2 in H6. clear - H6. induction H6 as [|[k b] q l m [_ E] _ IH]; constructor; [|exact IH]. unfold P. cbn [snd] in *. unfold bundle_update_probes, update_probes in E. inv_bind E. clear E.
    apply mapM_Ok in Ha. induction Ha as [|p p' ps ps' E _ IHp]; constructor; [|exact IHp]. eapply update_shows; eauto. }
  assert (P2 : Forall P bs2).
  { apply map_bundles_F2 in H4. clear - H4 P3. induction H4 as [|[k b] [k' c] l m [_ E] _ IH]; constructor; inversion P3 as [|? ? Q1 Q2]; subst; [|now apply IH]. unfold P in *. cbn [snd] in *.
    unfold bundle_advance_current in E. inv_bind E. apply OkI in E. subst c. cbn [b_set_core b_set b_core b_probes] in Q1. now rewrite (advi_N _ _ _ Ha) in Q1. }
  assert (P1 : Forall P bs1).
  { clear - H3 P2. revert bs1 H3. unfold put_all. induction (puts ws) as [|nv l IH]; intros bs1 H; cbn [foldM] in H; [apply OkI in H; now subst|]. inv_bind H. specialize (IH _ H). clear - Ha IH.
    unfold put_voltage in Ha. inv_bind Ha. destruct (dget String.eqb (nd_bundle (fst nv)) bs1) as [b|] eqn:G; [|discriminate]. apply OkI in Ha0. subst a0. destruct (_ <? _)%nat; [|discriminate]. apply OkI in Ha. subst a.
    match type of IH with context [dset _ _ ?c _] => set (c' := c) in * end. assert (Ec : forall k, P (k, c') -> P (k, b)) by (intros k; unfold P, c'; cbn [snd b_set_core b_set b_core b_probes set_v k_N]; auto). clearbody c'.
    revert G IH. induction bs1 as [|[k d] bs1 IHb]; cbn [dget dset]; [discriminate|]. destruct (String.eqb (nd_bundle (fst nv)) k); intros G F; inversion F as [|? ? F1 F2]; subst; constructor; auto. injection G as ->. now apply Ec. }
  apply map_bundles_F2 in H1. clear - H1 P1. induction H1 as [|[k b] [k' c] l m [_ E] _ IH]; constructor; inversion P1 as [|? ? Q1 Q2]; subst; [|now apply IH]. unfold P in *. cbn [snd] in *.
  unfold bundle_advance_voltage in E. inv_bind E. apply OkI in E. subst c. cbn [b_set_core b_set b_core b_probes] in Q1. now rewrite (advv_N _ _ _ Ha) in Q1.
Qed.
Lemma probes_map (Q : probe N -> Prop) (f : probe N -> probe N) l : (forall p, Q (f p) -> Q p) -> Forall Q (map f l) -> Forall Q l.
Proof. intros H. induction l as [|p l IH]; cbn [map]; intros F; inversion F; subst; constructor; auto. Qed.
Lemma prepare_oks n n' x p p' y : mtln_prepare LA x n = Ok p -> mtln_prepare LA x n' = Ok p' -> mtln_step LA p = Ok y -> oks (t_bundles p').
Proof.
  intros H H' E. destruct (prepare_other n n' x p H) as (q & H'' & L & F). assert (q = p') by congruence. subst q. apply step_shows in E.
  destruct L as [L _ _ _]. revert F E. clear - L. induction L as [|[k b] [k' c] l m [_ Q] _ IH]; intros F E; inversion F as [|? ? ? ? (ps & E1 & E2) F']; subst; inversion E as [|? ? E3 E4]; subst; constructor; [|now apply IH].
  cbn [snd] in *. unfold oks_b. rewrite (bp_core _ _ Q), E2. rewrite E1 in E3. clear - E3. induction ps as [|q ps IH]; cbn [map] in *; constructor; inversion E3 as [|? ? [T I] R]; subst; [|now apply IH].
  apply resize_ok; [exact T|exact I].
Qed.
Lemma prepare_cores (P : core N -> Prop) n x p : (forall s t, P s -> P (set_lr s t)) -> (forall s t, P s -> P (set_cg s t)) -> mtln_prepare LA x n = Ok p -> cores P (t_bundles x) -> cores P (t_bundles p).
Proof.
  intros K1 K2 H. unfold mtln_prepare in H. inv_bind H. apply OkI in H. subst p. cbn [t_set t_bundles]. apply (map_cores P (bundle_prepare LA n)); [|exact Ha].
  intros b b' E R. unfold bundle_prepare in E. inv_bind E. inv_bind E. apply OkI in E. subst b'. cbn [b_set b_core]. apply update_lr_inv in Ha0 as [t1 ->]. apply update_cg_inv in Ha1 as [t2 ->]. auto.
Qed.
Lemma override_same x dt : cores (fun s => k_dt s = dt) (t_bundles x) -> t_dt x = dt -> override_dt x dt = x.
Proof.
  intros R E. unfold override_dt. destruct (negb (dt =? n0)); [|reflexivity]. destruct x as [bs ws d t]. cbn [t_bundles t_networks t_dt t_time] in *. subst d. f_equal.
  unfold set_all_dt. induction R as [|[k b] bs Eb _ IH]; cbn [map]; [reflexivity|]. rewrite IH. f_equal. cbn [fst snd] in *. f_equal. rewrite <- Eb. destruct b as [a1 a2 a3 s a4 a5 a6]. cbn. unfold b_set_core, b_set. cbn. f_equal. now destruct s.
Qed.
Lemma override_cores x dt : (dt =? n0) = false -> cores (fun s => k_dt s = dt) (t_bundles (override_dt x dt)) /\ t_dt (override_dt x dt) = dt.
Proof.
  intros E. unfold override_dt. rewrite E. cbn [negb t_bundles t_dt]. split; [|reflexivity]. unfold set_all_dt. induction (t_bundles x) as [|kb bs IH]; constructor; auto.
Qed.
Lemma iter_clock n : forall x y, iterM n (mtln_step LA) x = Ok y -> t_dt y = t_dt x.
Proof. induction n as [|n IH]; intros x y H; cbn [iterM] in H; [apply OkI in H; now subst|]. inv_bind H. rewrite (IH _ _ H). apply (step_clock LA _ _ Ha). Qed.

(** two runs in a row are one run *)
Lemma runs_join x T1 dt x1 T2 dt2 x2 T n1 n2 : let d := t_dt (override_dt x dt) in
  mtln_run_until LA x T1 dt = Ok x1 -> mtln_run_until LA x1 T2 dt2 = Ok x2 -> dt2 = dt \/ (dt2 =? n0) = true ->
  time_range_len T1 d = Ok n1 -> time_range_len T2 d = Ok n2 -> time_range_len T d = Ok (n1 + n2)%nat ->
  exists z, mtln_run_until LA x T dt = Ok z /\ net_but_probes x2 z.
Proof.
  intros d H1 H2 D E1 E2 E3. unfold mtln_run_until in H1 |- *. cbv zeta in *. fold d in H1 |- *. inv_bind H1. rename a into ws. rewrite Ha. cbn [bind]. rewrite E1 in H1. cbn [bind] in H1. inv_bind H1. rename a into p.
  rewrite E3. cbn [bind]. set (x0 := t_set (override_dt x dt) (t_bundles (override_dt x dt)) ws) in *.
  assert (Dp : t_dt p = d) by (unfold mtln_prepare in Ha0; inv_bind Ha0; apply OkI in Ha0; now subst p).
  pose proof (prepare_readies _ x0 p Ha0 (terms_readies _ _ _ Ha)) as Rp. pose proof (steps_ready _ _ _ H1 Rp) as R1. pose proof (iter_clock _ _ _ H1) as D1. rewrite Dp in D1.
  assert (O : override_dt x1 dt2 = x1).
  { destruct (dt2 =? n0) eqn:Z; [unfold override_dt; now rewrite Z|]. destruct D as [D|D]; [|discriminate]. subst dt2.
    destruct (override_cores x dt Z) as [C0 T0]. fold d in T0. apply override_same; [|congruence].
    apply (steps_cores _ _ (dt_lasting dt) _ _ H1). apply (prepare_cores (fun s => k_dt s = dt) _ _ _ (fun s t E => E) (fun s t E => E) Ha0). exact C0. }
  unfold mtln_run_until in H2. cbv zeta in H2. rewrite O, D1 in H2. inv_bind H2. destruct R1 as [Rb Rw]. rewrite D1 in Rw. rewrite (again_terms _ _ Rw) in Ha1. apply OkI in Ha1. subst a.
  rewrite E2 in H2. cbn [bind] in H2. inv_bind H2. rename a into p2.
  assert (L2 : net_but_probes x1 p2).
  { eapply again_prepare; [|replace x1 with (t_set x1 (t_bundles x1) (t_networks x1)) by (now destruct x1); exact Ha1]. split; [exact Rb|]. now rewrite D1. }
  destruct (prepare_other _ (n1 + n2) _ _ Ha0) as (p' & Hp' & Lp & _). rewrite Hp'. cbn [bind].
  destruct (n1 + n2)%nat as [|n] eqn:En.
  - assert (n1 = 0%nat) by lia. assert (n2 = 0%nat) by lia. subst n1 n2. cbn [iterM] in *. apply OkI in H1, H2. subst x1 x2. exists p'. split; [reflexivity|]. eapply np_trans; [apply np_sym; exact L2|exact Lp].
  - assert (Op : oks (t_bundles p')).
    { destruct n1 as [|n1]; [destruct n2 as [|n2]; [discriminate En|]|].
      - cbn [iterM] in H1. apply OkI in H1. subst x1. cbn [iterM] in H2. inv_bind H2.
        (* the probes of the second run are those of the first, emptied again *)
        assert (K : Forall2 (fun kb kb' => map (fun q => (p_type q, p_index q)) (b_probes (snd kb')) = map (fun q => (p_type q, p_index q)) (b_probes (snd kb))) (t_bundles p) (t_bundles p2)).
        { clear - Ha1. unfold mtln_prepare in Ha1. inv_bind Ha1. apply OkI in Ha1. subst p2. cbn [t_set t_bundles] in *. apply map_bundles_F2 in Ha. induction Ha as [|u v l m [_ E] _ IH]; constructor; [|exact IH].
          unfold bundle_prepare in E. inv_bind E. inv_bind E. apply OkI in E. rewrite <- E. cbn [b_set b_probes]. rewrite map_map. apply map_ext. reflexivity. }
        destruct (prepare_other 0 (S n) x0 p Ha0) as (q & Hq & L & F). assert (q = p') by congruence. subst q. apply step_shows in Ha2.
        destruct L2 as [L2 _ _ _]. destruct L as [L _ _ _]. revert K F Ha2 L2. generalize (t_bundles p2). clear - L.
        induction L as [|[k b] [k' c] l m [_ Q] _ IH]; intros l2 K F E L2; inversion K as [|? [k2 b2] ? ? K1 K2]; subst; inversion F as [|? ? ? ? (ps & F1 & F2) F']; subst; inversion E as [|? ? E3 E4]; subst; inversion L2 as [|? ? ? ? [_ L3] L4]; subst; constructor; [|eapply IH; eauto].
        cbn [snd] in *. unfold oks_b. rewrite (bp_core _ _ Q), F2. rewrite (bp_core _ _ L3) in E3. rewrite F1, map_map in K1. clear - K1 E3.
        revert K1 E3. generalize (b_probes b2). induction ps as [|q ps IH]; intros l K E; cbn [map] in *; [constructor|]. destruct l as [|r l]; [discriminate|]. cbn [map] in K. injection K as K1 K2 K3. inversion E as [|? ? [T I] R]; subst. constructor; [|eapply IH; eauto].
        apply resize_ok; [now rewrite K1 in T|now rewrite K2 in I].
      - cbn [iterM] in H1. inv_bind H1. eapply prepare_oks; [exact Ha0|exact Hp'|exact Ha2]. }
    rewrite <- En, iterM_add. destruct (steps_like n1 _ _ _ Lp Op H1) as (y & -> & Ly & Oy). cbn [bind].
    destruct (steps_like n2 p2 y x2) as (z & Hz & Lz & _); [eapply np_trans; [apply np_sym; exact L2|exact Ly]|exact Oy|exact H2|]. exists z. auto.
Qed.
End NetCompose.
