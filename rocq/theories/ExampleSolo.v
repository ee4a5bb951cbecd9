(** A line of three cells by itself and in a network of lines, for the examples. *)
From Coq Require Import String List Arith ZArith Bool Permutation Sorted Lia Reals Lra.
From Verif Require Import Num Py Arr ArrFacts NumR RFacts LinAlg LapackR Utils Probes Dispersive Line LineFacts StepTotal Bundle Networks Mtln
  SpecLine SpecR SpecBundle SpecNet SpecMtln SpecCore SpecDyn SpecTele SpecDisp SpecSuper SpecSolo HistoryFacts TotalFacts BundleFacts BundleR BundleMore CoreEq AloneFacts
  NetFacts NetBuild NetR NetStamp NetStamp2 NetPlace NetTotal NetMore ExampleLine ExampleNet PropGeom PropDisp WaveProps StepProps
  MtlnFacts MtlnProps MtlnPerm MtlnR MtlnTotal ExampleMtln SuperNet SuperNet2 ExampleSuper SoloRun.
Import ListNotations.
Local Open Scope R_scope.

(** the line: conductance [g] everywhere, a constant source behind 50 ohm at the near end, 25 ohm at the far end *)
Record driven_line (g : R) (m0 m : mtl NumR) (b : bundle NumR) : Prop := {
  dl_plain : plain_line LR m0 m; dl_one : one m b; dl_new : mtld_new [[m]] "b0" = Ok b; dl_N : cells m = 3%nat; dl_phys : physical m; dl_dt : step_dt m = 1;
  dl_h : forall k, (k < 3)%nat -> cell_len m k = 1; dl_G : forall k, (k <= 3)%nat -> G_ m k 0 0 = g; dl_zs : Zs_ m 0 0 = 50; dl_zl : Zl_ m 0 0 = 25;
  dl_src : forall t, source m 0 0 t = 1; dl_srcl : forall t, source m 0 3 t = 0
}.
(** the same, and the network of lines with this line *)
Definition driven (m0 m : mtl NumR) (x : mtln NumR) (g : R) : Prop :=
  plain_line LR m0 m /\ soloed m "b0" x /\ conductors m = 1%nat /\ cells m = 3%nat /\ (forall k, (k <= 3)%nat -> G_ m k 0 0 = g) /\ Zs_ m 0 0 = 50 /\ Zl_ m 0 0 = 25 /\ (forall t, source m 0 0 t = 1).
Lemma driven_of g m0 m b x : driven_line g m0 m b -> soloed m "b0" x -> driven m0 m x g.
Proof.
  intros D S. split; [exact (dl_plain _ _ _ _ D)|]. split; [exact S|]. split; [exact (on_n1 _ _ (dl_one _ _ _ _ D))|]. split; [exact (dl_N _ _ _ _ D)|]. split; [exact (dl_G _ _ _ _ D)|].
  split; [exact (dl_zs _ _ _ _ D)|]. split; [exact (dl_zl _ _ _ _ D)|exact (dl_src _ _ _ _ D)].
Qed.
Lemma driven_exists g : 0 <= g -> exists m0 m b, driven_line g m0 m b.
Proof.
  intros Hg. destruct (one_conductor LR LR_ok LR_complete (fun _ => []) (fun _ => []) 4 (1/4) 0 g 3 50 25 3 "m") as
    (m0 & Hm & P0 & O & Edt & Hu & Hs & Ls1 & Ls2 & Hv0 & Hi0 & HeT & HeL & Tm); try lra; try lia.
  replace (Rabs 3 / INR 3) with 1 in * by (rewrite Rabs_right by lra; simpl; lra).
  assert (S1 : sqrt (4 * (1/4)) = 1) by (replace (4 * (1/4)) with 1 by lra; exact sqrt_1). rewrite S1 in Edt.
  assert (C1 : k_n (m_core m0) = 1%nat) by exact (ol_n _ _ _ _ _ _ _ _ _ O). assert (C3 : k_N (m_core m0) = 3%nat) by exact (ol_N _ _ _ _ _ _ _ _ _ O).
  destruct (mtl_new_inv _ _ _ _ _ _ _ _ _ _ _ _ _ _ Hm) as (_ & _ & _ & _ & _ & _ & _ & _ & _ & _ & _ & _ & _ & ET). rewrite C1, C3 in ET.
  assert (HB : SpecLine.built LR m0) by (do 12 eexists; exact Hm). assert (H0 : history LR m0 m0) by (now constructor). assert (R0 : reachable LR m0) by (exists m0; exact H0).
  destruct (add_voltage_source m0 (@PosF NumR 0) 0 (fun _ => 1)) as [m|e] eqn:Em; [|unfold add_voltage_source in Em; rewrite C1 in Em; discriminate Em].
  pose proof (physical_source _ _ _ _ _ P0 Em) as P. destruct (source_node LR m0 m (@PosF NumR 0) 0 (fun _ => 1) R0 Em) as (k & Kc & Kn & _ & Ks & Ko).
  assert (K0 : k = 0%nat).
  { destruct Kc as (A & B & _). pose proof (sh_u _ (ph_shape _ P0)) as Lu. rewrite C3 in Lu. cbn in Lu. change (length (m_u m0) = 4%nat) in Lu. specialize (B 0%nat ltac:(lia)). change (cells m0) with (k_N (m_core m0)) in Kn. rewrite C3 in Kn.
    rewrite !Hu in B by lia. unfold dist3, pos_vec in B. cbn [nth] in B. destruct k as [|k]; [reflexivity|exfalso].
    match type of B with _ <= sqrt ?e => replace e with 0 in B by (rsimpl; simpl; rring) end. rewrite sqrt_0 in B.
    assert (X : 0 < (INR (S k) * (3 / INR 3)) ^ 2). { apply pow_lt. apply Rmult_lt_0_compat; [apply lt_0_INR; lia|simpl; lra]. }
    match type of B with sqrt ?e <= _ => replace e with ((INR (S k) * (3 / INR 3)) ^ 2) in B by (rsimpl; rring) end. apply sqrt_lt_R0 in X. lra. }
  subst k. assert (H1 : history LR m0 m) by (eapply h_source; eauto). assert (Ec : m_core m = m_core m0 /\ m_zs m = m_zs m0 /\ m_zl m = m_zl m0 /\ m_time m = m_time m0) by (unfold add_voltage_source in Em; rewrite C1 in Em; injection Em as <-; auto).
  destruct Ec as (Ec & Ezs & Ezl & Etm).
  assert (Pl : plain_line LR m0 m).
  { split; try exact H1; try exact (ph_undisp _ P).
    - intros c k. unfold volt. rewrite Ec. apply Hv0.
    - intros c k. unfold curr. rewrite Ec. apply Hi0.
    - rewrite Etm. exact Tm.
    - intros c k t _. unfold eTran. rewrite Ec. exact (f_equal (fun f : NumR -> NumR => f t) (HeT c k)).
    - intros c k t _. unfold eLong. rewrite Ec. exact (f_equal (fun f : NumR -> NumR => f t) (HeL c k)).
    - unfold step_dt. now rewrite Ec.
    - change (step_dt m) with (k_dt (m_core m)). rewrite Ec. change (k_dt (m_core m0)) with (step_dt m0). rewrite Edt. lra.
    - change (step_dt m) with (k_dt (m_core m)). rewrite Ec. change (k_dt (m_core m0)) with (step_dt m0). rewrite Edt. lra.
    - intros i j. unfold G_. now rewrite Ec.
    - intros i j. unfold G_, cells. now rewrite Ec.
    - unfold conductors. rewrite Ec, C1. intros i j Hi Hj Hne. lia.
    - unfold conductors. rewrite Ec, C1. intros i j Hi Hj Hne. lia.
    - unfold conductors. rewrite Ec, C1. intros i Hi. assert (i = 0)%nat as -> by lia. unfold Zs_. rewrite Ezs. change (Zs_ m0 0 0 <> 0). rewrite (ol_zs _ _ _ _ _ _ _ _ _ O). lra.
    - unfold conductors. rewrite Ec, C1. intros i Hi. assert (i = 0)%nat as -> by lia. unfold Zl_. rewrite Ezl. change (Zl_ m0 0 0 <> 0). rewrite (ol_zl _ _ _ _ _ _ _ _ _ O). lra. }
  destruct (bundle_of_one m "b0") as (b0 & Hb0 & _).
  assert (R : Forall (Forall (reachable LR)) [[m]]) by (repeat constructor; exists m0; exact H1).
  pose proof (new_physical LR _ _ _ R (Forall_cons [m] (Forall_cons m P (Forall_nil physical)) (Forall_nil (Forall physical))) Hb0) as Pb.
  destruct (carries_new LR m "b0" b0 (ex_intro _ m0 H1) (ph_undisp _ P) Hb0) as (Ca & V0 & I0 & Dt). specialize (Dt (pl_small _ _ _ Pl)).
  assert (N1 : conductors m = 1%nat) by (unfold conductors; now rewrite Ec). assert (N3 : cells m = 3%nat) by (unfold cells; now rewrite Ec).
  assert (Ed : step_dt m = 1) by (change (k_dt (m_core m) = 1); rewrite Ec; change (step_dt m0 = 1); lra).
  exists m0, m, b0. split; auto.
  - split; auto.
    + rewrite Ec. exact ET.
    + exists b0. constructor. exists [[m]], "b0"%string. split; [exact R|exact Hb0].
    + unfold mtld_new in Hb0. inv_bind Hb0. apply OkI in Hb0. rewrite <- Hb0. reflexivity.
    + rewrite (ca_n _ _ _ Ca). exact N1.
    + rewrite (ca_N _ _ _ Ca). exact N3.
    + rewrite Dt. exact Ed.
    + intros j k. apply (proj2 (proj2 (BundleR.new_zero [[m]] "b0" b0 (Forall_cons [m] (Forall_cons m (ph_undisp _ P) (Forall_nil undispersed)) (Forall_nil (Forall undispersed))) Hb0))).
    + intros j k t _ _. apply (ca_E _ _ _ Ca).
    + intros j k t _ _. apply (ca_T _ _ _ Ca).
  - intros k Hk. unfold cell_len. rewrite Ec. exact (ol_h _ _ _ _ _ _ _ _ _ O k Hk).
  - intros k Hk. unfold G_. rewrite Ec. exact (ol_G _ _ _ _ _ _ _ _ _ O k Hk).
  - unfold Zs_. rewrite Ezs. exact (ol_zs _ _ _ _ _ _ _ _ _ O).
  - unfold Zl_. rewrite Ezl. exact (ol_zl _ _ _ _ _ _ _ _ _ O).
  - intros t. exact (f_equal (fun f => f t) Ks).
  - intros t. rewrite (Ko 0%nat 3%nat) by congruence. exact (f_equal (fun f => f t) (Hs 0%nat 3%nat)).
Qed.
Lemma solo_exists g m0 m b : driven_line g m0 m b -> exists x, soloed m "b0" x /\ lines_net LR x /\ runnable LR x /\ t_dt x = 1 /\ bundle_of x "b0" = Some b /\ (forall nm c, bundle_of x nm = Some c -> c = b).
Proof.
  intros D. pose proof (dl_one _ _ _ _ D) as S. set (d := [("b0", b)]%string).
  destruct (s_new _ _ S) as (wS0 & HS & NsS & PS & IS & FS). destruct (l_new _ _ S) as (wL0 & HL & NsL & PL & IL & FL).
  destruct (circuit (s_descr m) wS0 (s_calls (@TFun NumR (fun _ => 1))) [] [10]%Z d) as (wS & wS' & ES1 & ES2 & RS & RS1 & PS'); auto.
  { constructor; [exact (on_line _ _ S)|constructor]. }
  { unfold all_connected, s_descr, d_conns, d_line, c_cond. repeat constructor; cbn [fst snd map]; rewrite (on_n1 _ _ S); apply Permutation_refl. }
  { constructor; [split; [rsimpl; lra|right; eauto]|constructor]. }
  { intros c id Hc Hi. cbn in Hc. destruct Hc as [<-|[]]; cbn in Hi |- *; tauto. }
  { intros kn Hk. apply in_places in Hk. rewrite PS in Hk. destruct Hk as [E|[]]; injection E as <- _ _; cbn; eauto. }
  destruct (circuit (l_descr m) wL0 l_calls [] [20]%Z d) as (wL & wL' & EL1 & EL2 & RL & RL1 & PL'); auto.
  { constructor; [exact (on_line _ _ S)|constructor]. }
  { unfold all_connected, l_descr, d_conns, d_line, c_cond. repeat constructor; cbn [fst snd map]; rewrite (on_n1 _ _ S); apply Permutation_refl. }
  { constructor; [split; [rsimpl; lra|now left]|constructor]. }
  { intros c id Hc Hi. cbn in Hc. destruct Hc as [<-|[]]; cbn in Hi |- *; tauto. }
  { intros kn Hk. apply in_places in Hk. rewrite PL in Hk. destruct Hk as [E|[]]; injection E as <- _ _; cbn; eauto. }
  rewrite PS in PS'. rewrite PL in PL'. rewrite app_nil_r in ES1, EL1.
  assert (Nm : b_name b = "b0"%string) by exact (on_name _ _ S). assert (Dt : k_dt (b_core b) = 1) by exact (on_dt _ _ S).
  assert (A1 : add_bundle mtln_empty b = Ok (@Mtln.Mtln NumR d [] 1 0)).
  { unfold add_bundle. cbn [mtln_empty t_bundles dmem dget negb passert bind app t_networks t_dt t_time]. rewrite Nm, Dt.
    replace (@nltb NumR 1 n1e10) with true by (symmetry; apply Rltb_true; unfold n1e10; rsimpl; lra). reflexivity. }
  set (x := @Mtln.Mtln NumR d [[(0%nat, wS')]; [(0%nat, wL')]] 1 0).
  assert (X1 : add_network (@Mtln.Mtln NumR d [] 1 0) [(0%nat, wS)] = Ok (@Mtln.Mtln NumR d [[(0%nat, wS')]] 1 0)) by (unfold add_network; cbn [t_bundles]; rewrite ES2; reflexivity).
  assert (X2 : add_network (@Mtln.Mtln NumR d [[(0%nat, wS')]] 1 0) [(0%nat, wL)] = Ok x) by (unfold add_network; cbn [t_bundles]; rewrite EL2; reflexivity).
  exists x. split; [|split; [|split; [|split; [|split]]]].
  - exists b, [(10%Z, 0%nat, plain)], [(20%Z, 0%nat, plain)], wS, wL. split; [exact (dl_new _ _ _ _ D)|]. split; [|split].
    + split; [cbn [d_conns snd fst map c_cond d_line]; rewrite (on_n1 _ _ S); apply Permutation_refl|]. exists wS0, (s_calls (@TFun NumR (fun _ => 1))). split; [exact HS|]. split; [exact ES1|].
      constructor; [|constructor]. exists (@TFun NumR (fun _ => 1)). split; [left; eexists; split; [reflexivity|]|].
      * intros t. symmetry. exact (dl_src _ _ _ _ D t).
      * cbn [c_id c_cond fst snd]. rewrite (dl_zs _ _ _ _ D). reflexivity.
    + split; [cbn [d_conns snd fst map c_cond d_line]; rewrite (on_n1 _ _ S); apply Permutation_refl|]. exists wL0, l_calls. split; [exact HL|]. split; [exact EL1|].
      constructor; [|constructor]. exists (@TInt NumR 0). split; [right; split; [reflexivity|]|].
      * intros t. rewrite (dl_N _ _ _ _ D). exact (dl_srcl _ _ _ _ D t).
      * cbn [c_id c_cond fst snd]. rewrite (dl_zl _ _ _ _ D). reflexivity.
    + unfold mtln_new. cbn [foldM]. rewrite A1. cbn [bind]. rewrite X1. cbn [bind]. rewrite X2. reflexivity.
  - eapply ln_network; [eapply ln_network; [eapply ln_bundle; [apply ln_empty|exact (on_reach _ _ S)|exact A1]| |exact X1]| |exact X2].
    + constructor; [|constructor]. cbn [snd]. eexists. exact (rc_history LR _ _ RS1).
    + constructor; [|constructor]. cbn [snd]. eexists. exact (rc_history LR _ _ RL1).
  - split.
    + intros name c Hb. apply sget_some in Hb. destruct Hb as [E|[]]. injection E as _ <-. exact (on_phys _ _ S).
    + intros w [<-|[<-|[]]]; eexists; [exact RS|exact RL].
    + intros w kn Hw Hk. destruct Hw as [<-|[<-|[]]]; apply in_places in Hk; cbn [snd] in Hk; [rewrite PS' in Hk|rewrite PL' in Hk]; destruct Hk as [E|[]]; injection E as E1 E2 _; unfold resolves; rewrite <- E1, <- E2; eexists; (split; [reflexivity|]);
        rewrite (on_n _ _ S); lia.
  - reflexivity.
  - reflexivity.
  - intros nm c Hc. apply sget_some in Hc. destruct Hc as [E|[]]. now injection E.
Qed.
Lemma steps_one (n : nat) : @time_range_len NumR (INR n) 1 = Ok n.
Proof.
  unfold time_range_len. replace (@neqb NumR 1 n0) with false by (symmetry; apply Reqb_false; rsimpl; lra). f_equal. rsimpl. rewrite INR_IZR_INZ.
  replace (IZR (Z.of_nat n) / 1) with (IZR (Z.of_nat n)) by lra. unfold Int_part. rewrite <- (tech_up (IZR (Z.of_nat n)) (Z.of_nat n + 1)); [lia| |]; rewrite plus_IZR; lra.
Qed.
Lemma solo_runs g m0 m b x n : driven_line g m0 m b -> lines_net LR x -> runnable LR x -> t_dt x = 1 -> bundle_of x "b0" = Some b -> (forall nm c, bundle_of x nm = Some c -> c = b) ->
  exists a y, run_state LR m (INR n) n a /\ reaches LR x (INR n) 0 n y.
Proof.
  intros D Ln Rn Ed Hb Hu.
  destruct (run_total LR LR_complete m (INR n) (dl_phys _ _ _ _ D)) as [a Ea]. unfold run_until in Ea. inv_bind Ea. rename a0 into st. inv_bind Ea. rename a0 into p. pose proof (dl_dt _ _ _ _ D) as Dt. unfold step_dt in Dt.
  assert (st = n) by (rewrite Dt, steps_one in Ha; congruence). subst st.
  destruct (mtln_run_total LR LR_complete x (INR n) 0 Ln Rn) as (y & Ey & _).
  { right. split; [reflexivity|]. split; [lra|]. intros nm c Hc. apply Hu in Hc. subst c. rewrite (on_dt _ _ (dl_one _ _ _ _ D)). lra. }
  destruct (proj1 (run_reaches LR x (INR n) 0 y) Ey) as (k & Ek & Rk).
  assert (O0 : override_dt x (0 : NumR) = x) by (unfold override_dt; replace (@neqb NumR 0 n0) with true by (symmetry; now apply Reqb_true); reflexivity).
  rewrite O0, Ed, steps_one in Ek. injection Ek as <-. exists a, y. split; [|exact Rk]. exists n, p. repeat split; auto.
Qed.
Lemma solo_together_runs n : exists m0 m x a y, driven m0 m x 0 /\ open_ends m /\ run_state LR m (INR n) n a /\ reaches LR x (INR n) 0 n y.
Proof.
  destruct (driven_exists 0 (Rle_refl 0)) as (m0 & m & b & D). destruct (solo_exists 0 m0 m b D) as (x & Sx & Ln & Rn & Ed & Hb & Hu).
  destruct (solo_runs 0 m0 m b x n D Ln Rn Ed Hb Hu) as (a & y & Ha & Hy). exists m0, m, x, a, y. split; [exact (driven_of _ _ _ _ _ D Sx)|]. split; [|split; [exact Ha|exact Hy]].
  intros i j Hi Hj. rewrite (on_n1 _ _ (dl_one _ _ _ _ D)) in Hi, Hj. assert (i = 0)%nat as -> by lia. assert (j = 0)%nat as -> by lia. rewrite (dl_N _ _ _ _ D). split; apply (dl_G _ _ _ _ D); lia.
Qed.
Lemma solo_differs g : 0 < g -> exists m0 m x a y, driven m0 m x g /\ run_state LR m 1 1 a /\ reaches LR x 1 0 1 y /\ forall b, bundle_of y "b0" = Some b -> ~ same_signals b a.
Proof.
  intros Hg. destruct (driven_exists g (Rlt_le _ _ Hg)) as (m0 & m & b & D). destruct (solo_exists g m0 m b D) as (x & Sx & Ln & Rn & Ed & Hb & Hu).
  destruct (solo_runs g m0 m b x 1 D Ln Rn Ed Hb Hu) as (a & y & Ha & Hy). change (INR 1) with 1 in Ha, Hy. exists m0, m, x, a, y. pose proof (dl_plain _ _ _ _ D) as P.
  split; [exact (driven_of _ _ _ _ _ D Sx)|]. split; [exact Ha|]. split; [exact Hy|]. intros b1 Hb1 E1.
  destruct Ha as (st & p & H1 & H2 & H3 & H4). rewrite iterM_S in H4. inv_bind H4. rename a0 into a0. assert (Hs : run_step LR m 1 0 a0 a) by (exists st, p; repeat split; auto).
  destruct (run_step_states LR _ _ _ _ _ Hs) as [Ha0 _]. destruct (reaches_step LR _ _ _ _ _ Hy) as (s & St). destruct (same_start LR m0 m "b0"%string x 1 1 a0 s P Sx Ha0 (proj1 St)) as (b0 & Hb0 & E0).
  assert (N1 : conductors m = 1%nat) by exact (on_n1 _ _ (dl_one _ _ _ _ D)).
  destruct (same_no_leak LR LR_ok m0 m "b0"%string x 1 1 0 a0 a s y b0 b1 P Sx Hs St Hb0 Hb1 E0 E1 0%nat ltac:(lia)) as [K _].
  pose proof (left_thevenin LR LR_ok m0 m a0 a 1 0 0 (pl_hist _ _ _ P) Hs ltac:(lia) (pl_dt _ _ _ P) (pl_G0 _ _ _ P)) as Th. unfold thevenin in Th.
  assert (V0 : volt a0 0 0 = 0 /\ curr a0 0 0 = 0).
  { cbn [iterM] in Ha. apply OkI in Ha. subst p. apply prepare_inv in H3 as (t1 & t2 & _ & ->). split; [exact (pl_v _ _ _ P 0%nat 0%nat)|exact (pl_i _ _ _ P 0%nat 0%nat)]. }
  destruct V0 as [V0 I0]. unfold mulv in K, Th. rewrite N1 in K, Th. rewrite !sumR_S, !sumR_0 in Th. rewrite sumR_S, sumR_0 in K. rewrite V0 in *. rewrite I0 in Th. rewrite (dl_h _ _ _ _ D), (dl_G _ _ _ _ D) in * by lia. rewrite !(pl_eT _ _ _ P) in Th by lia. rewrite !(dl_src _ _ _ _ D), (dl_zs _ _ _ _ D) in Th.
  assert (K1 : volt a 0 0 = 0) by (apply (Rmult_eq_reg_l g); lra). rewrite K1 in Th. unfold Rdiv in Th. lra.
Qed.
