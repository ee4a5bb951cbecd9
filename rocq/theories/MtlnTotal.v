(** Networks of physical lines joined by resistors and capacitors run without raising. *)
From Coq Require Import String List Arith ZArith Bool Permutation Lia Reals Lra.
From Verif Require Import Num Py Arr ArrFacts NumR RFacts LinAlg LapackR Utils Probes Dispersive Line LineFacts StepTotal Bundle Networks Mtln SpecLine SpecR SpecBundle SpecNet SpecMtln SpecProbe SpecCore SpecTele
  ProbeFacts RecordFacts RunProps BundleFacts BundleR BundleMore CoreEq CoreUnique AloneFacts AloneRun NetFacts NetBuild NetPlace NetTotal NetMore NetR NetStamp NetStamp2 NetRLC MtlnFacts MtlnProps MtlnPerm MtlnR TotalFacts.
Import ListNotations.
Local Open Scope R_scope.

Implicit Types x y : mtln NumR.
Implicit Types b : bundle NumR.

Section T.
Variable LA : lapack NumR.
Hypothesis LAc : lapack_complete LA.

Definition going b : Prop := steady b /\ Forall (probe_ok (b_cells b)) (b_probes b).
Lemma phys_flat b : physical_bundle b -> flat (b_disp b).
Proof. intros P. split; intros k i; try intros j; try apply (pb_q _ P k i j); apply (pb_phi _ P). Qed.
Lemma phys_prepare b steps : reachable_bundle LA b -> physical_bundle b -> 0 < k_dt (b_core b) -> exists b', bundle_prepare LA steps b = Ok b' /\ going b'.
Proof.
  intros R P Hdt. destruct (core_prepare LA LAc (b_core b)) as (s1 & s2 & E1 & E2).
  - exact (bundle_cdiag LA b R).
  - exact Hdt.
  - exact (pb_len _ P).
  - intros k Hk. split; [exact (pb_C _ P k Hk)|exact (pb_G _ P k Hk)].
  - intros k Hk. apply pd_ext with (A := fun i j => / k_dt (b_core b) * kL (b_core b) k i j + / 2 * kR (b_core b) k i j).
    { intros i j _ _. destruct (pb_D _ P k i j) as (D1 & D2 & D3). rewrite D1, D2, D3. unfold Rdiv. rewrite !Rmult_0_l. rring. }
    apply pd_add_psd; [apply pd_scal; [now apply Rinv_0_lt_compat|exact (pb_L _ P k Hk)]|apply psd_scal; [lra|exact (pb_R _ P k Hk)]].
  - assert (Hp : exists b', bundle_prepare LA steps b = Ok b') by (unfold bundle_prepare; rewrite E1; cbn [bind]; rewrite E2; cbn [bind]; eauto).
    destruct Hp as [b' Hp]. exists b'. split; [exact Hp|]. split; [apply (prepared_steady _ _ _ _ Hp); now apply phys_flat|].
    destruct (prepare_core LA _ _ _ Hp) as (_ & _ & EN & _ & _ & ->). rewrite EN. apply Forall_forall. intros q Hq. apply in_map_iff in Hq as (p & <- & Hq).
    pose proof (pb_probes _ P) as F. rewrite Forall_forall in F. destruct (F p Hq). now apply resize_ok.
Qed.
Lemma going_volt b t dt : going b -> exists b', bundle_advance_voltage t dt b = Ok b' /\ going b'.
Proof.
  intros [S P]. destruct (volt_total b t dt S) as (b' & E & S'). exists b'. split; [exact E|]. split; [exact S'|].
  unfold bundle_advance_voltage in E. inv_bind E. apply OkI in E. subst b'. destruct (advv_dyn _ _ _ Ha) as (D & _). unfold b_cells in *. cbn [b_set_core b_set b_core b_probes]. rewrite (dy_N _ _ D). exact P.
Qed.
Lemma going_curr b t dt : going b -> exists b', bundle_advance_current t dt b = Ok b' /\ going b'.
Proof.
  intros [S P]. destruct (curr_total b t dt S) as (b' & E & S'). exists b'. split; [exact E|]. split; [exact S'|].
  unfold bundle_advance_current in E. inv_bind E. apply OkI in E. subst b'. destruct (advi_dyn _ _ _ Ha) as (D & _). unfold b_cells in *. cbn [b_set_core b_set b_core b_probes]. rewrite (dy_N _ _ D). exact P.
Qed.
Lemma going_probes b t : going b -> exists b', bundle_update_probes t b = Ok b' /\ going b'.
Proof.
  intros [S P]. destruct (update_probes_total (b_core b) t (b_probes b) P) as (ps & E & P'). unfold bundle_update_probes. rewrite E. cbn [bind]. eexists. split; [reflexivity|].
  split; [|exact P']. destruct S. split; assumption.
Qed.
Lemma going_only b b' : only_voltages b b' -> going b -> going b'.
Proof. intros [v ->] [S P]. split; [|exact P]. destruct S. split; assumption. Qed.

Lemma map_going (f : bundle NumR -> res (bundle NumR)) (bs : bdict NumR) : (forall b, going b -> exists b', f b = Ok b' /\ going b') -> Forall (fun kb => going (snd kb)) bs ->
  exists bs', map_bundles f bs = Ok bs' /\ Forall (fun kb => going (snd kb)) bs'.
Proof.
  intros F. induction 1 as [|[k b] bs H _ (bs' & E & IH)]; [exists []; split; [reflexivity|constructor]|].
  destruct (F b H) as (b' & Eb & G). exists ((k, b') :: bs'). unfold map_bundles in *. cbn [mapM snd fst]. rewrite Eb. cbn [bind]. rewrite E. split; [reflexivity|]. constructor; assumption.
Qed.
(** the same names and sizes *)
Definition same_places (bs bs' : bdict NumR) : Prop := forall name b, dget String.eqb name bs = Some b -> exists b', dget String.eqb name bs' = Some b' /\ b_conductors b' = b_conductors b.
Lemma places_trans bs1 bs2 bs3 : same_places bs1 bs2 -> same_places bs2 bs3 -> same_places bs1 bs3.
Proof. intros A B name b H. destruct (A name b H) as (b' & H' & E). destruct (B name b' H') as (b'' & H'' & E'). exists b''. split; [exact H''|congruence]. Qed.
Lemma places_resolve bs bs' kn : same_places bs bs' -> resolves bs kn -> resolves bs' kn.
Proof. intros S (b & H & L). destruct (S _ _ H) as (b' & H' & E). exists b'. split; [exact H'|lia]. Qed.
Lemma map_places f bs bs' : (forall b b', f b = Ok b' -> b_conductors b' = b_conductors b) -> map_bundles f bs = Ok bs' -> same_places bs bs'.
Proof. intros F H name b Hb. destruct (map_bundles_get _ _ _ _ _ H Hb) as (b' & E & G). exists b'. split; [exact G|now apply F]. Qed.
Lemma volt_n b t dt b' : bundle_advance_voltage t dt b = Ok b' -> b_conductors b' = b_conductors b.
Proof. intros E. unfold bundle_advance_voltage in E. inv_bind E. apply OkI in E. subst b'. destruct (advv_dyn _ _ _ Ha) as (D & _). exact (dy_n _ _ D). Qed.
Lemma curr_n b t dt b' : bundle_advance_current t dt b = Ok b' -> b_conductors b' = b_conductors b.
Proof. intros E. unfold bundle_advance_current in E. inv_bind E. apply OkI in E. subst b'. destruct (advi_dyn _ _ _ Ha) as (D & _). exact (dy_n _ _ D). Qed.
Lemma put_all_total l bs : Forall (fun kb => going (snd kb)) bs -> (forall nv, In nv l -> exists k, resolves bs (k, fst nv)) -> 
  exists bs', put_all l bs = Ok bs' /\ same_places bs bs' /\ Forall (fun kb => going (snd kb)) bs'.
Proof.
  intros G. induction l as [|nv l IH] using rev_ind; intros H.
  - exists bs. split; [reflexivity|]. split; [intros name b Hb; eauto|exact G].
  - destruct IH as (bs1 & E1 & S1 & G1). { intros nv' H'. apply H, in_or_app. now left. }
    destruct (H nv) as (k & R). { apply in_or_app. right. now left. }
    destruct (places_resolve _ _ _ S1 R) as (b & Hb & L). cbn [snd] in *. pose proof (put_intro bs1 (fst nv) (snd nv) b Hb L) as E2.
    eexists. split; [unfold put_all in *; rewrite foldM_app, E1; cbn [bind foldM]; rewrite E2; reflexivity|]. split.
    + eapply places_trans; [exact S1|]. intros name b' Hb'. rewrite sget_set. destruct (String.eqb_spec name (nd_bundle (fst nv))) as [En|].
      * eexists. split; [reflexivity|]. assert (b' = b) by congruence. subst b'. reflexivity.
      * eauto.
    + apply Forall_forall. intros [k' b'] Hk. pose proof G1 as G1'. rewrite Forall_forall in G1. cbn [snd].
      assert (Q : forall (d : bdict NumR) key v, In (k', b') (dset String.eqb key v d) -> In (k', b') d \/ b' = v).
      { clear. induction d as [|[a c] d IH]; intros key v; cbn [dset]; [intros [E|[]]; injection E as _ <-; now right|]. destruct (String.eqb key a); intros [E|E]; [injection E as _ <-; now right|left; now right|left; now left|].
        destruct (IH _ _ E); [left; now right|now right]. }
      apply Q in Hk as [Hk| ->]; [exact (G1 _ Hk)|]. apply (going_only b); [|exact (G1 _ (sget_some _ _ _ Hb))]. unfold put_end, only_voltages. eexists. reflexivity.
Qed.

(** mapping a network method that succeeds *)
Lemma tier_total (f : network NumR -> res (network NumR)) (ws : list (networkd NumR)) : (forall w, In w (flat_map tiers ws) -> exists w', f w = Ok w') ->
  exists ws', mapM (fun d => mapM (fun lw => w <- f (snd lw) ;; Ok (fst lw, w)) d) ws = Ok ws'.
Proof.
  intros F. apply mapM_accept. intros d Hd. apply mapM_accept. intros [l w] Hl. destruct (F w) as [w' E]. { apply in_flat_map. exists d. split; [exact Hd|]. unfold tiers. apply in_map_iff. exists (l, w). auto. }
  exists (l, w'). cbn [snd fst]. rewrite E. reflexivity.
Qed.
Lemma rc_history ds w : rc_circuit LA ds w -> net_history LA ds w.
Proof.
  intros (_ & _ & w0 & gs & bs & w1 & H0 & _ & _ & _ & E & A). eapply after_run; [|exact A]. eapply calls_history; [apply nh_new; exact H0|exact E].
Qed.
Lemma rc_go ds w (dt : R) : rc_circuit LA ds w -> 0 < dt -> (exists w', compute_v_terms w dt = Ok w') /\ (net_run LA ds dt w -> forall t, exists w', nw_advance_voltage LA w t dt = Ok w').
Proof. intros (P & A & w0 & gs & bs & w1 & H0 & N & G & B & E & Af) Hdt. exact (rc_total LA LAc ds w0 gs bs w1 w dt P A H0 N G B E Af Hdt). Qed.
Lemma rc_after ds w w' : rc_circuit LA ds w -> (forall u, after LA (@no_call NumR) u w -> after LA (@no_call NumR) u w') -> rc_circuit LA ds w'.
Proof. intros (P & A & w0 & gs & bs & w1 & H0 & N & G & B & E & Af) F. split; [exact P|]. split; [exact A|]. exists w0, gs, bs, w1. auto 10. Qed.

Record moving x : Prop := {
  mv_dt : 0 < t_dt x; mv_bundles : Forall (fun kb => going (snd kb)) (t_bundles x);
  mv_nets : forall w, In w (nets x) -> exists ds, rc_circuit LA ds w /\ net_run LA ds (t_dt x) w;
  mv_nodes : forall w kn, In w (nets x) -> In kn (w_conns w) -> resolves (t_bundles x) kn
}.
Lemma F2_back {A B} (P : A -> B -> Prop) l l' (z : B) : Forall2 P l l' -> In z l' -> exists a, In a l /\ P a z.
Proof. induction 1 as [|a c l l' H F IH]; intros E; [destruct E|destruct E as [E|E]]; [subst; exists a; split; [now left|exact H]|]. destruct (IH E) as (a' & I & Q). exists a'. split; [now right|exact Q]. Qed.
Lemma step_moves x : moving x -> exists y, mtln_step LA x = Ok y /\ moving y.
Proof.
  intros M. destruct (map_going (bundle_advance_voltage (t_time x) (t_dt x)) _ (fun b => going_volt b _ _) (mv_bundles _ M)) as (bs1 & E1 & G1).
  pose proof (map_places _ _ _ (fun b b' => volt_n b _ _ b') E1) as S1.
  destruct (tier_total (fun w => nw_advance_voltage LA w (t_time x) (t_dt x)) (t_networks x)) as [ws E2].
  { intros w Hw. destruct (mv_nets _ M w Hw) as (ds & C & R). exact (proj2 (rc_go ds w _ C (mv_dt _ M)) R _). }
  pose proof (nets_F2 (fun w => nw_advance_voltage LA w (t_time x) (t_dt x)) _ _ E2) as F.
  assert (N1 : forall w', In w' (flat_map tiers ws) -> exists w, In w (nets x) /\ nw_advance_voltage LA w (t_time x) (t_dt x) = Ok w' /\ w_conns w' = w_conns w).
  { intros w' Hw. destruct (F2_back _ _ _ _ F Hw) as (w & I & E). exists w. split; [exact I|]. split; [exact E|]. eapply advance_conns; exact E. }
  destruct (put_all_total (puts ws) bs1 G1) as (bs2 & E3 & S2 & G2).
  { intros nv Hn. destruct (in_puts _ _ Hn) as (w' & kn & Hw & Hk & ->). destruct (N1 _ Hw) as (w & I & _ & C). exists (fst kn). apply (places_resolve _ _ _ S1). cbn [fst]. rewrite <- surjective_pairing.
    apply (mv_nodes _ M w kn I). now rewrite <- C. }
  destruct (map_going (bundle_advance_current (t_time x) (t_dt x)) _ (fun b => going_curr b _ _) G2) as (bs3 & E4 & G3).
  pose proof (map_places _ _ _ (fun b b' => curr_n b _ _ b') E4) as S3.
  pose proof (places_trans _ _ _ S1 (places_trans _ _ _ S2 S3)) as S13.
  destruct (tier_total (fun w => nw_update_currents w bs3) ws) as [ws' E5].
  { intros w' Hw. apply update_currents_total. intros kn Hk. destruct (N1 _ Hw) as (w & I & _ & C). apply (places_resolve _ _ _ S13). apply (mv_nodes _ M w kn I). now rewrite <- C. }
  destruct (map_going (@bundle_update_probes NumR (t_time x + t_dt x)) _ (fun b => going_probes b _) G3) as (bs4 & E6 & G4).
  assert (S4 : same_places (t_bundles x) bs4).
  { eapply places_trans; [exact S13|]. eapply map_places; [|exact E6]. intros b b' E. unfold b_conductors. now rewrite (probes_core _ _ _ E). }
  exists (@Mtln.Mtln NumR bs4 ws' (t_dt x) (t_time x + t_dt x)). split.
  - apply step_split. exists bs1, ws, bs2, bs3. split; auto.
  - pose proof (nets_F2 (fun w => nw_update_currents w bs3) _ _ E5) as F'. split; cbn [t_dt t_bundles].
    + exact (mv_dt _ M).
    + exact G4.
    + intros w2 Hw. destruct (F2_back _ _ _ _ F' Hw) as (w1 & I1 & C1). destruct (N1 _ I1) as (w & I & C & _). destruct (mv_nets _ M w I) as (ds & Rc & Rn). exists ds. split.
      * apply (rc_after ds w); [exact Rc|]. intros u A. eapply af_curr; [|exact C1]. eapply af_volt; eauto.
      * eapply nr_curr; [|exact C1]. eapply nr_volt; eauto.
    + intros w2 kn Hw Hk. destruct (F2_back _ _ _ _ F' Hw) as (w1 & I1 & C1). destruct (N1 _ I1) as (w & I & _ & C). apply (places_resolve _ _ _ S4). apply (mv_nodes _ M w kn I).
      rewrite <- C. now rewrite <- (currents_conns _ _ _ C1).
Qed.
Lemma steps_move k : forall x, moving x -> exists y, iterM k (mtln_step LA) x = Ok y /\ moving y.
Proof. induction k as [|k IH]; intros x M; [exists x; split; [reflexivity|exact M]|]. destruct (step_moves x M) as (x1 & E & M1). destruct (IH x1 M1) as (y & Ey & My). exists y. cbn [iterM]. rewrite E. split; [exact Ey|exact My]. Qed.

(** a bundle that has only been marched is still physical *)
Lemma phys_keep b b' : physical_bundle b -> dyn_same (b_core b) (b_core b') -> flat (b_disp b') ->
  Forall (fun p => (p_type p = "voltage"%string \/ p_type p = "current"%string) /\ (p_index p <= b_cells b')%nat) (b_probes b') -> physical_bundle b'.
Proof.
  intros P D F Pr. assert (En : b_conductors b' = b_conductors b) by exact (dy_n _ _ D). assert (EN : b_cells b' = b_cells b) by exact (dy_N _ _ D).
  split; try rewrite En; try rewrite EN.
  - intros k Hk. rewrite (klen_dyn _ _ _ D). exact (pb_len _ P k Hk).
  - intros k Hk. replace (kC (b_core b') k) with (kC (b_core b) k) by (unfold kC; now rewrite (dy_c _ _ D)). exact (pb_C _ P k Hk).
  - intros k Hk. replace (kG (b_core b') k) with (kG (b_core b) k) by (unfold kG; now rewrite (dy_g _ _ D)). exact (pb_G _ P k Hk).
  - intros k Hk. replace (kL (b_core b') k) with (kL (b_core b) k) by (unfold kL; now rewrite (dy_l _ _ D)). exact (pb_L _ P k Hk).
  - intros k Hk. replace (kR (b_core b') k) with (kR (b_core b) k) by (unfold kR; now rewrite (dy_r _ _ D)). exact (pb_R _ P k Hk).
  - intros k i j. destruct (pb_D _ P k i j) as (H1 & H2 & H3). unfold kD, kE, kQ1 in *. rewrite (dy_d _ _ D), (dy_e _ _ D), (dy_1 _ _ D). auto.
  - intros k i j. destruct F. auto.
  - intros k j. apply (fl_phi _ F).
  - rewrite EN in Pr. exact Pr.
Qed.

Lemma dyn_steps k : forall x y name b b', ninv LA x -> iterM k (mtln_step LA) x = Ok y -> bundle_of x name = Some b -> bundle_of y name = Some b' -> dyn_same (b_core b) (b_core b') /\ k_dt (b_core b') = k_dt (b_core b).
Proof.
  induction k as [|k IH]; intros x y name b b' I H Hb Hb'; cbn [iterM] in H; [injection H as <-; assert (b' = b) by congruence; subst b'; split; [apply dyn_refl|reflexivity]|].
  inv_bind H. destruct (step_marches LA _ _ _ _ Ha Hb) as (b1 & E1 & _). destruct (step_frame LA _ _ _ _ _ I Ha Hb E1) as (D1 & T1 & _).
  destruct (IH a y name b1 b' (ninv_step LA _ _ I Ha) H E1 Hb') as [D2 T2]. split; [eapply dyn_trans; eauto|congruence].
Qed.
Lemma dyn_prepare b steps b' : bundle_prepare LA steps b = Ok b' -> dyn_same (b_core b) (b_core b').
Proof.
  unfold bundle_prepare. intros H. inv_bind H. inv_bind H. apply OkI in H. subst b'. destruct (update_lr_inv _ _ _ Ha) as [t ->]. destruct (update_cg_inv _ _ _ Ha0) as [t' ->]. split; reflexivity.
Qed.

Lemma mtln_run_total x (T dt : R) : lines_net LA x -> runnable LA x -> 0 < dt \/ dt = 0 /\ 0 < t_dt x /\ (forall name b, bundle_of x name = Some b -> 0 < k_dt (b_core b)) ->
  exists y, mtln_run_until LA x T dt = Ok y /\ runnable LA y.
Proof.
  intros L R Hdt. pose proof (lines_ninv LA x L) as I. destruct (override_keys x dt) as (K1 & K2 & K3).
  assert (Edt : t_dt (override_dt x dt) = if Reqb dt 0 then t_dt x else dt) by (unfold override_dt; rsimpl; destruct (Reqb dt 0); reflexivity).
  assert (Pdt : 0 < t_dt (override_dt x dt)).
  { rewrite Edt. destruct (Reqb dt 0) eqn:E; [apply Reqb_true in E; destruct Hdt as [Hdt|(_ & Hdt & _)]; [lra|exact Hdt]|]. apply Reqb_false in E. destruct Hdt as [Hdt|(Hdt & _)]; [exact Hdt|contradiction]. }
  set (d := t_dt (override_dt x dt)) in *.
  destruct (tier_total (fun w => compute_v_terms w d) (t_networks x)) as [ws E1].
  { intros w Hw. destruct (rn_nets _ _ R w Hw) as (ds & C). exact (proj1 (rc_go ds w d C Pdt)). }
  assert (E2 : exists steps, @time_range_len NumR T d = Ok steps).
  { unfold time_range_len. rsimpl. destruct (Reqb d 0) eqn:E; [apply Reqb_true in E; lra|eauto]. }
  destruct E2 as [steps E2].
  assert (PB : forall name b, bundle_of (override_dt x dt) name = Some b -> exists b', bundle_prepare LA steps b = Ok b' /\ going b').
  { intros name b Hb. destruct (proj2 (keys_get (t_bundles x) (t_bundles (override_dt x dt)) name K1) (ex_intro _ _ Hb)) as [b0 Hb0].
    pose proof (override_bundle x dt name b0 Hb0) as E0. pose proof (rn_bundles _ _ R name b0 Hb0) as P0. pose proof (proj1 (bundle_in LA x name b0 I Hb0)) as R0.
    rewrite E0 in Hb. injection Hb as <-. rsimpl. destruct (Reqb dt 0) eqn:E; cbn [negb].
    - apply Reqb_true in E. apply phys_prepare; auto. destruct Hdt as [Hdt|(_ & _ & Hdt)]; [lra|]. exact (Hdt name b0 Hb0).
    - apply Reqb_false in E. apply phys_prepare; [exact (proj1 (set_dt_reach LA b0 dt R0))| |destruct Hdt as [Hdt|(Hdt & _)]; [exact Hdt|contradiction]].
      apply (phys_keep b0); [exact P0|split; reflexivity|exact (phys_flat b0 P0)|exact (pb_probes _ P0)]. }
  assert (E3 : exists bs, map_bundles (bundle_prepare LA steps) (t_bundles (override_dt x dt)) = Ok bs /\ Forall (fun kb => going (snd kb)) bs).
  { assert (ND : NoDup (map fst (t_bundles (override_dt x dt)))) by (rewrite K1; exact (nv_keys _ _ I)).
    assert (Q : forall kb, In kb (t_bundles (override_dt x dt)) -> exists b', bundle_prepare LA steps (snd kb) = Ok b' /\ going b').
    { intros [k b] Hk. apply (PB k). now apply sget_in. }
    clear - Q. induction (t_bundles (override_dt x dt)) as [|[k b] l IH]; [exists []; split; [reflexivity|constructor]|]. destruct (Q (k, b) ltac:(now left)) as (b' & Eb & Gb).
    destruct IH as (bs & E & G). { intros kb Hk. apply Q. now right. } exists ((k, b') :: bs). unfold map_bundles in *. cbn [mapM snd fst] in *. rewrite Eb. cbn [bind]. rewrite E. split; [reflexivity|]. constructor; assumption. }
  destruct E3 as (bs & E3 & G3).
  set (p := t_set (t_set (override_dt x dt) (t_bundles (override_dt x dt)) ws) bs ws).
  pose proof (nets_F2 (fun w => compute_v_terms w d) _ _ E1) as F.
  assert (SP : same_places (t_bundles x) bs).
  { eapply places_trans with (bs2 := t_bundles (override_dt x dt)).
    - intros name b Hb. pose proof (override_bundle x dt name b Hb) as E0. eexists. split; [exact E0|]. destruct (negb _); reflexivity.
    - eapply map_places; [|exact E3]. intros b b' E. exact (proj1 (proj2 (proj2 (proj2 (prepare_core LA _ _ _ E))))). }
  assert (M : moving p).
  { split.
    - exact Pdt.
    - exact G3.
    - intros w' Hw. destruct (F2_back _ _ _ _ F Hw) as (w & Iw & E). destruct (rn_nets _ _ R w Iw) as (ds & C). exists ds. split.
      + apply (rc_after ds w); [exact C|]. intros u A. eapply af_terms; [exact A|exact E].
      + eapply nr_terms; [exact (rc_history ds w C)|exact E].
    - intros w' kn Hw Hk. destruct (F2_back _ _ _ _ F Hw) as (w & Iw & E). apply (places_resolve _ _ _ SP). apply (rn_nodes _ _ R w kn Iw). now rewrite <- (terms_conns _ _ _ E). }
  destruct (steps_move steps p M) as (y & Ey & My). exists y.
  assert (Run : mtln_run_until LA x T dt = Ok y).
  { unfold mtln_run_until. cbv zeta. rewrite K2. match goal with |- bind ?e _ = _ => replace e with (Ok ws) by (symmetry; exact E1) end. cbn [bind]. match goal with |- bind ?e _ = _ => replace e with (Ok steps) by (symmetry; exact E2) end. cbn [bind]. unfold mtln_prepare. cbn [t_set t_bundles t_networks]. rewrite E3. cbn [bind]. exact Ey. }
  split; [exact Run|].
  assert (Rp : reaches LA x T dt 0 p).
  { exists ws, steps, p. cbv zeta. rewrite K2. fold d. split; [exact E1|]. split; [exact E2|]. split; [lia|]. split; [|reflexivity]. unfold mtln_prepare. cbn [t_set t_bundles t_networks]. rewrite E3. reflexivity. }
  pose proof (reaches_ninv LA _ _ _ _ _ I Rp) as Ip.
  assert (Kp : map fst (t_bundles p) = map fst (t_bundles x)) by (rewrite <- K1; exact (map_bundles_keys _ _ _ E3)).
  assert (Ky : map fst (t_bundles y) = map fst (t_bundles x)).
  { rewrite <- Kp. clear - Ey. revert Ey. generalize p. induction steps as [|n IH]; intros q H4; cbn [iterM] in H4; [injection H4 as <-; reflexivity|]. inv_bind H4. rewrite (IH _ H4). exact (step_keys LA _ _ Ha). }
  split.
  - intros name b' Hb'. destruct (proj2 (keys_get (t_bundles x) (t_bundles y) name Ky) (ex_intro _ _ Hb')) as [b Hb].
    pose proof (override_bundle x dt name b Hb) as E0. destruct (map_bundles_get _ _ _ _ _ E3 E0) as (b1 & Eb1 & Gb1).
    destruct (dyn_steps steps p y name b1 b' Ip Ey Gb1 Hb') as [D _]. apply dyn_prepare in Eb1.
    pose proof (mv_bundles _ My) as G. rewrite Forall_forall in G. destruct (G _ (sget_some _ _ _ Hb')) as [S Pr]. cbn [snd] in *.
    apply (phys_keep b); [exact (rn_bundles _ _ R name b Hb)| |exact (sd_flat _ S)|].
    + eapply dyn_trans; [|exact D]. eapply dyn_trans; [|exact Eb1]. destruct (negb _); split; reflexivity.
    + revert Pr. apply Forall_impl. intros q (Q1 & Q2 & _). auto.
  - intros w Hw. destruct (mv_nets _ My w Hw) as (ds & C & _). eauto.
  - exact (mv_nodes _ My).
Qed.
Lemma new_physical levels name b : Forall (Forall (reachable LA)) levels -> Forall (Forall physical) levels -> mtld_new levels name = Ok b -> physical_bundle b.
Proof.
  intros R P H. assert (U : Forall (Forall undispersed) levels).
  { rewrite Forall_forall in P |- *. intros l Hl. specialize (P l Hl). rewrite Forall_forall in P |- *. intros m Hm. apply (ph_undisp _ (P m Hm)). }
  assert (PA : forall m, In m (concat levels) -> physical m).
  { intros m Hm. apply in_concat in Hm as (l & Hl & Hm). rewrite Forall_forall in P. specialize (P l Hl). rewrite Forall_forall in P. auto. }
  destruct (new_cdiag LA _ _ _ R H) as (Cd & Hl & Hcells). pose proof (new_no_disp _ _ _ U H) as ND. pose proof (new_flat _ _ _ U H) as Fl.
  destruct (mtld_new_inv _ _ _ H) as (outer & rest & E & _).
  destruct (new_frame _ _ _ H) as (outer' & rest' & E' & En & EN & _). rewrite E in E'. injection E' as <- <-.
  assert (PO : physical outer) by (apply PA; subst levels; cbn; now left). rewrite Forall_forall in Hcells.
  assert (Ec : cells outer = b_cells b) by (apply Hcells; subst levels; cbn; now left).
  assert (Sel : forall k, (k <= b_cells b)%nat -> kC (b_core b) k = get2 (snd (bd_lines (fun m => getm (k_c (m_core m)) k) (concat levels))) /\
                  kG (b_core b) k = get2 (snd (bd_lines (fun m => getm (k_g (m_core m)) k) (concat levels)))).
  { intros k Hk. pose proof H as H'. subst levels. unfold mtld_new in H'. inv_bind H'. injection H' as Hb. unfold b_cells in Hk. unfold kC, kG, get3, getm. rewrite <- Hb in Hk |- *. cbn [b_core k_N k_c k_g] in *.
    rewrite !nth_mk by lia. split; reflexivity. }
  assert (Sel' : forall k, (k < b_cells b)%nat -> kL (b_core b) k = get2 (snd (bd_lines (fun m => getm (k_l (m_core m)) k) (concat levels))) /\
                  kR (b_core b) k = get2 (snd (bd_lines (fun m => getm (k_r (m_core m)) k) (concat levels)))).
  { intros k Hk. pose proof H as H'. subst levels. unfold mtld_new in H'. inv_bind H'. injection H' as Hb. unfold b_cells in Hk. unfold kL, kR, get3, getm. rewrite <- Hb in Hk |- *. cbn [b_core k_N k_l k_r] in *.
    rewrite !nth_mk by lia. split; reflexivity. }
  assert (En' : b_conductors b = count_conductors (concat levels)) by exact En.
  split; try rewrite En'.
  - intros k Hk. rewrite Hl by exact Hk. subst levels. cbn [concat app hd]. apply (ph_h _ PO). rewrite Ec. exact Hk.
  - intros k Hk. destruct (Sel k Hk) as [-> _]. apply bd_pd. intros m Hm. apply (ph_C _ (PA m Hm)). rewrite (Hcells m Hm). exact Hk.
  - intros k Hk. destruct (Sel k Hk) as [_ ->]. apply bd_psd. intros m Hm. apply (ph_G _ (PA m Hm)). rewrite (Hcells m Hm). exact Hk.
  - intros k Hk. destruct (Sel' k Hk) as [-> _]. apply bd_pd. intros m Hm. apply (ph_L _ (PA m Hm)). rewrite (Hcells m Hm). exact Hk.
  - intros k Hk. destruct (Sel' k Hk) as [_ ->]. apply bd_psd. intros m Hm. apply (ph_R _ (PA m Hm)). rewrite (Hcells m Hm). exact Hk.
  - intros k i j. destruct (ND k i j) as (D1 & D2 & D3 & _). auto.
  - intros k i j. destruct Fl. auto.
  - intros k j. apply (fl_phi _ Fl).
  - pose proof H as H'. subst levels. unfold mtld_new in H'. inv_bind H'. apply OkI in H'. rewrite <- H'. constructor.
Qed.
Lemma phys_sound b : physical_bundle b -> sound_bundle b.
Proof. intros P. split; [exact (pb_len _ P)|]. split; [exact (pb_C _ P)|]. split; [exact (pb_L _ P)|]. intros k i j. apply (pb_D _ P k i j). Qed.
End T.
