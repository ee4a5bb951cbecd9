(** Three networks of the same line with different sources and fields, for the examples. *)
From Coq Require Import String List Arith ZArith Bool Permutation Sorted Lia Reals Lra.
From Verif Require Import Num Py Arr ArrFacts NumR RFacts LinAlg LapackR Utils Probes Dispersive Line LineFacts StepTotal Bundle Networks Mtln
  SpecLine SpecR SpecBundle SpecNet SpecMtln SpecCore SpecDyn SpecTele SpecDisp SpecSuper HistoryFacts TotalFacts BundleFacts BundleR BundleMore CoreEq AloneFacts
  NetFacts NetBuild NetR NetStamp NetStamp2 NetPlace NetTotal NetMore ExampleLine ExampleNet PropGeom PropDisp WaveProps
  MtlnFacts MtlnProps MtlnPerm MtlnR MtlnTotal ExampleMtln SuperNet SuperNet2.
Import ListNotations.
Local Open Scope R_scope.

Lemma LR_regular : regular LR.
Proof. intros n A b x H. exact (proj2 (pick_ok (fun x : vec NumR => _) _ H)). Qed.

(** a newly built line of three unit cells in a bundle *)
Record one (m : mtl NumR) (b : bundle NumR) : Prop := {
  on_line : physical m; on_n1 : conductors m = 1%nat; on_eT : k_eT (m_core m) = [mk 4 (fun _ _ => @n0 NumR)];
  on_reach : exists b0, bundle_history LR b0 b; on_phys : physical_bundle b; on_name : b_name b = "b0"%string;
  on_n : b_conductors b = 1%nat; on_N : b_cells b = 3%nat; on_dt : k_dt (b_core b) = 1;
  on_v : forall j k, b_volt b j k = 0; on_i : forall j k, b_curr b j k = 0; on_q : forall j k, dPhi (b_disp b) k j = @qzero NumR;
  on_L : forall j k t, (j < 1)%nat -> (k < 3)%nat -> kLong (b_core b) j k t = 0; on_T : forall j k t, (j < 1)%nat -> (k <= 3)%nat -> kTran (b_core b) j k t = 0
}.
Lemma one_exists : exists m b, one m b.
Proof.
  destruct (one_conductor LR LR_ok LR_complete (fun _ => []) (fun _ => []) 4 (1/4) 0 0 3 1 1 3 "m") as
    (m & Hm & P & O & Edt & Hu & _ & _ & _ & _ & _ & HeT & _); try lra; try lia.
  replace (Rabs 3 / INR 3) with 1 in * by (rewrite Rabs_right by lra; simpl; lra).
  assert (S1 : sqrt (4 * (1/4)) = 1) by (replace (4 * (1/4)) with 1 by lra; exact sqrt_1).
  assert (C1 : k_n (m_core m) = 1%nat) by exact (ol_n _ _ _ _ _ _ _ _ _ O).
  assert (C3 : k_N (m_core m) = 3%nat) by exact (ol_N _ _ _ _ _ _ _ _ _ O).
  destruct (mtl_new_inv _ _ _ _ _ _ _ _ _ _ _ _ _ _ Hm) as (_ & _ & _ & _ & _ & _ & _ & _ & _ & _ & _ & _ & _ & ET). rewrite C1, C3 in ET.
  destruct (bundle_of_one m "b0") as (b0 & H0 & Hb0).
  assert (R : Forall (Forall (reachable LR)) [[m]]) by (repeat constructor; exists m; constructor; do 12 eexists; exact Hm).
  pose proof (new_physical LR _ _ _ R (Forall_cons [m] (Forall_cons m P (Forall_nil physical)) (Forall_nil (Forall physical))) H0) as P0.
  destruct (new_frame _ _ _ H0) as (outer & rest & E & En & EN & Hh & Hv & Hi & HEL & HET & Hdt & _ & _ & Hp).
  injection E as <- <-.
  assert (N1 : k_n (b_core b0) = 1%nat) by (rewrite En, count_sum; cbn [concat app map list_sum fold_right]; rewrite (ol_n _ _ _ _ _ _ _ _ _ O); reflexivity).
  assert (N3 : k_N (b_core b0) = 3%nat) by (rewrite EN, (sh_u _ (ph_shape _ P)), C3; reflexivity).
  exists m, b0. split; auto.
  - exists b0. constructor. exists [[m]], "b0"%string. split; [exact R|exact H0].
  - unfold mtld_new in H0. cbn [concat app foldM bind] in H0. inv_bind H0. apply OkI in H0. rewrite <- H0. reflexivity.
  - rewrite Hdt. cbn [concat app fold_left]. unfold step_dt in Edt. rewrite Edt, S1.
    replace (@nltb NumR (1 * 1) n1e10) with true; [rsimpl; lra|]. symmetry. apply Rltb_true. unfold n1e10. rsimpl. lra.
  - intros j k. unfold b_volt. rewrite Hv. apply (@get2_zeros NumR).
  - intros j k. unfold b_curr. rewrite Hi. apply (@get2_zeros NumR).
  - intros j k. apply (proj2 (proj2 (BundleR.new_zero [[m]] "b0" b0 (Forall_cons [m] (Forall_cons m (ph_undisp _ P) (Forall_nil undispersed)) (Forall_nil (Forall undispersed))) H0))).
  - intros j k t Hj Hk. unfold kLong. rewrite HEL, N1, N3. unfold mk2. rewrite nth_mk by lia. rewrite nth_mk by lia. reflexivity.
  - intros j k t Hj Hk. unfold kTran. rewrite HET, N1, N3. unfold mk2. rewrite nth_mk by lia. rewrite nth_mk by lia. reflexivity.
Qed.

(** the bundle with a constant longitudinal field *)
Definition loaded (b : bundle NumR) (e : R) : bundle NumR := b_set_core b (set_fields (b_core b) [[fun _ => e; fun _ => e; fun _ => e]] (k_eT (b_core b))).
Lemma loaded_long m b e j k t : one m b -> (j < 1)%nat -> (k < 3)%nat -> kLong (b_core (loaded b e)) j k t = e.
Proof. intros _ Hj Hk. assert (j = 0)%nat as -> by lia. unfold kLong, loaded. cbn [b_set_core b_set b_core set_fields k_eL nth]. destruct k as [|[|[|k]]]; [reflexivity|reflexivity|reflexivity|lia]. Qed.
Lemma loaded_phys m b e : one m b -> physical_bundle (loaded b e).
Proof.
  intros S. apply (phys_keep b); [exact (on_phys _ _ S)|split; reflexivity| |exact (pb_probes _ (on_phys _ _ S))].
  unfold loaded, b_disp. cbn [b_set_core b_set b_core set_fields k_disp]. exact (phys_flat b (on_phys _ _ S)).
Qed.
Lemma loaded_reach m b e : one m b -> exists b0, bundle_history LR b0 (loaded b e).
Proof. intros S. destruct (on_reach _ _ S) as [b0 H]. exists b0. now apply bh_field. Qed.
Lemma q_zero_lin al be k : lin al be (fst (nth k (@qzero NumR) c0)) (fst (nth k (@qzero NumR) c0)) (fst (nth k (@qzero NumR) c0)) /\
  lin al be (snd (nth k (@qzero NumR) c0)) (snd (nth k (@qzero NumR) c0)) (snd (nth k (@qzero NumR) c0)).
Proof.
  assert (E : nth k (@qzero NumR) c0 = (0, 0)) by (repeat (destruct k; try reflexivity)). rewrite E. unfold lin. cbn [fst snd]. split; ring.
Qed.
Lemma qlin_zero al be : qlin al be (@qzero NumR) (@qzero NumR) (@qzero NumR).
Proof. split; [reflexivity|]. split; [reflexivity|]. apply q_zero_lin. Qed.
Lemma loaded_sum m b al be e e' : one m b -> bundle_sum_named al be (loaded b e) (loaded b e') (loaded b (al * e + be * e')).
Proof.
  intros S. do 4 (split; [reflexivity|]). pose proof (on_n _ _ S) as Hn. pose proof (on_N _ _ S) as HN. unfold b_conductors, b_cells in Hn, HN.
  assert (V : forall x, b_conductors (loaded b x) = 1%nat /\ b_cells (loaded b x) = 3%nat) by (intros x; split; assumption). destruct (V e) as [V1 V2].
  split; try (split; reflexivity); rewrite V1, ?V2.
  - intros j k _ _. change (lin al be (b_volt b j k) (b_volt b j k) (b_volt b j k)). rewrite (on_v _ _ S). unfold lin. ring.
  - intros j k _ _. change (lin al be (b_curr b j k) (b_curr b j k) (b_curr b j k)). rewrite (on_i _ _ S). unfold lin. ring.
  - intros j k _ _. change (qlin al be (dPhi (b_disp b) k j) (dPhi (b_disp b) k j) (dPhi (b_disp b) k j)). rewrite (on_q _ _ S). apply qlin_zero.
  - intros j k t Hj Hk. change (lin al be (kTran (b_core b) j k t) (kTran (b_core b) j k t) (kTran (b_core b) j k t)). rewrite (on_T _ _ S) by assumption. unfold lin. ring.
  - intros j k t Hj Hk. rewrite !(loaded_long m) by assumption. reflexivity.
Qed.

Definition s_descr (m : mtl NumR) : list (descr NumR) := [(m, ("S", ("b0", [(10%Z, 0%nat, plain)])))]%string.
Definition l_descr (m : mtl NumR) : list (descr NumR) := [(m, ("L", ("b0", [(20%Z, 0%nat, plain)])))]%string.
Definition s_calls (f : tfun NumR) : list (call NumR) := [@GroundR NumR 10 50 f].
Definition l_calls : list (call NumR) := [@GroundR NumR 20 25 (@TInt NumR 0)].
Lemma s_new m b : one m b -> exists w, network_new (s_descr m) = Ok w /\ w_ns w = 0%nat /\ places w = [("b0", 0, false)]%string%nat /\
  (forall id, In id [10]%Z -> exists nd, find_node w id = Some nd) /\ (forall i t, (i < w_nodes w)%nat -> nField w i t = 0).
Proof.
  intros S. unfold network_new, s_descr. cbn [foldM]. unfold add_nodes_in_line. cbn [bind String.eqb Ascii.eqb Bool.eqb orb negb passert sort_conns fold_left insert_conn foldM app map].
  unfold add_node. rewrite (on_eT _ _ S). cbn [bind Z.leb Z.compare passert dmem dget negb Z.eqb py_get nth_error length app Pos.eqb].
  change (state_vars 0 plain) with (@Ok nat 0%nat). cbn [bind]. eexists. split; [reflexivity|]. split; [reflexivity|]. split; [reflexivity|]. split.
  - intros id H. unfold find_node. cbn [w_conns]. destruct H as [<-|[]]; cbn; eauto.
  - intros i t Hi. unfold nField. cbn [w_eT w_nodes length] in *. assert (i = 0)%nat as -> by lia. reflexivity.
Qed.
Lemma l_new m b : one m b -> exists w, network_new (l_descr m) = Ok w /\ w_ns w = 0%nat /\ places w = [("b0", 0, true)]%string%nat /\
  (forall id, In id [20]%Z -> exists nd, find_node w id = Some nd) /\ (forall i t, (i < w_nodes w)%nat -> nField w i t = 0).
Proof.
  intros S. unfold network_new, l_descr. cbn [foldM]. unfold add_nodes_in_line. cbn [bind String.eqb Ascii.eqb Bool.eqb orb negb passert sort_conns fold_left insert_conn foldM app map].
  unfold add_node. rewrite (on_eT _ _ S). cbn [bind Z.leb Z.compare passert dmem dget negb Z.eqb py_get nth_error length app Pos.eqb].
  change (state_vars 0 plain) with (@Ok nat 0%nat). cbn [bind]. eexists. split; [reflexivity|]. split; [reflexivity|]. split; [reflexivity|]. split.
  - intros id H. unfold find_node. cbn [w_conns]. destruct H as [<-|[]]; cbn; eauto.
  - intros i t Hi. unfold nField. cbn [w_eT w_nodes length] in *. assert (i = 0)%nat as -> by lia. cbn [nth]. destruct (Nat.lt_ge_cases (k_N (m_core m)) 4) as [L|L]; [rewrite nth_mk by lia|rewrite nth_mk_over by lia]; reflexivity.
Qed.

(** the line with a source behind 50 ohm at the near end, 25 ohm at the far end *)
Record lone (m : mtl NumR) (b : bundle NumR) (f : R -> R) (e : R) (w1 w2 : network NumR) (x : mtln NumR) : Prop := {
  lo_s : exists w0, network_new (s_descr m) = Ok w0 /\ do_calls w0 (s_calls (@TFun NumR f)) = Ok w1 /\ (forall i t, (i < w_nodes w0)%nat -> nField w0 i t = 0);
  lo_l : exists w0, network_new (l_descr m) = Ok w0 /\ do_calls w0 l_calls = Ok w2 /\ (forall i t, (i < w_nodes w0)%nat -> nField w0 i t = 0);
  lo_new : mtln_new [loaded b e] [[(0%nat, w1)]; [(0%nat, w2)]] = Ok x;
  lo_net : lines_net LR x; lo_run : runnable LR x; lo_dt : t_dt x = 1
}.
Lemma lone_exists m b f e : one m b -> exists w1 w2 x, lone m b f e w1 w2 x.
Proof.
  intros S. set (d := [("b0", loaded b e)]%string).
  destruct (s_new _ _ S) as (wS0 & HS & NsS & PS & IS & FS). destruct (l_new _ _ S) as (wL0 & HL & NsL & PL & IL & FL).
  destruct (circuit (s_descr m) wS0 (s_calls (@TFun NumR f)) [] [10]%Z d) as (wS & wS' & ES1 & ES2 & RS & RS1 & PS'); auto.
  { constructor; [exact (on_line _ _ S)|constructor]. }
  { unfold all_connected, s_descr, d_conns, d_line, c_cond. repeat constructor; cbn [fst snd map]; rewrite (on_n1 _ _ S); apply Permutation_refl. }
  { constructor; [split; [rsimpl; lra|right; eauto]|constructor]. }
  { intros c id Hc Hi. cbn in Hc. destruct Hc as [<-|[]]; cbn in Hi |- *; tauto. }
  { intros kn Hk. apply in_places in Hk. rewrite PS in Hk. destruct Hk as [E|[]]; injection E as <- _ _; cbn; eauto. }
  destruct (circuit (l_descr m) wL0 l_calls [] [20]%Z d) as (wL & wL' & EL1 & EL2 & RL & RL1 & PL'); auto.
  { constructor; [exact (on_line _ _ S)|constructor]. }
  { unfold all_connected, l_descr, d_conns, d_line, c_cond. repeat constructor; cbn [fst snd map]; rewrite (on_n1 _ _ S); apply Permutation_refl. }
  { constructor; [split; [rsimpl; lra|now left]|constructor]. }
  { intros c id Hc Hi. cbn in Hc. destruct Hc as [<-|[]]; cbn in Hi |- *; tauto. }
  { intros kn Hk. apply in_places in Hk. rewrite PL in Hk. destruct Hk as [E|[]]; injection E as <- _ _; cbn; eauto. }
  rewrite PS in PS'. rewrite PL in PL'. rewrite app_nil_r in ES1, EL1.
  assert (Nm : b_name (loaded b e) = "b0"%string) by exact (on_name _ _ S). assert (Dt : k_dt (b_core (loaded b e)) = 1) by exact (on_dt _ _ S).
  assert (A1 : add_bundle mtln_empty (loaded b e) = Ok (@Mtln.Mtln NumR d [] 1 0)).
  { unfold add_bundle. cbn [mtln_empty t_bundles dmem dget negb passert bind app t_networks t_dt t_time]. rewrite Nm, Dt.
    replace (@nltb NumR 1 n1e10) with true by (symmetry; apply Rltb_true; unfold n1e10; rsimpl; lra). reflexivity. }
  set (x := @Mtln.Mtln NumR d [[(0%nat, wS')]; [(0%nat, wL')]] 1 0).
  assert (X1 : add_network (@Mtln.Mtln NumR d [] 1 0) [(0%nat, wS)] = Ok (@Mtln.Mtln NumR d [[(0%nat, wS')]] 1 0)) by (unfold add_network; cbn [t_bundles]; rewrite ES2; reflexivity).
  assert (X2 : add_network (@Mtln.Mtln NumR d [[(0%nat, wS')]] 1 0) [(0%nat, wL)] = Ok x) by (unfold add_network; cbn [t_bundles]; rewrite EL2; reflexivity).
  exists wS, wL, x. split.
  - exists wS0. auto.
  - exists wL0. auto.
  - unfold mtln_new. cbn [foldM]. rewrite A1. cbn [bind]. rewrite X1. cbn [bind]. rewrite X2. reflexivity.
  - eapply ln_network; [eapply ln_network; [eapply ln_bundle; [apply ln_empty|exact (loaded_reach m b e S)|exact A1]| |exact X1]| |exact X2].
    + constructor; [|constructor]. cbn [snd]. eexists. exact (rc_history LR _ _ RS1).
    + constructor; [|constructor]. cbn [snd]. eexists. exact (rc_history LR _ _ RL1).
  - split.
    + intros name c Hb. apply sget_some in Hb. destruct Hb as [E|[]]. injection E as _ <-. exact (loaded_phys m b e S).
    + intros w [<-|[<-|[]]]; eexists; [exact RS|exact RL].
    + intros w kn Hw Hk. destruct Hw as [<-|[<-|[]]]; apply in_places in Hk; cbn [snd] in Hk; [rewrite PS' in Hk|rewrite PL' in Hk]; destruct Hk as [E|[]]; injection E as E1 E2 _; unfold resolves; rewrite <- E1, <- E2; eexists; (split; [reflexivity|]);
        change (b_conductors (loaded b e)) with (b_conductors b); rewrite (on_n _ _ S); lia.
  - reflexivity.
Qed.
(** with other sources and fields: the combination *)
Lemma lone_sum m b al be f g e e' w1 w2 x v1 v2 y u1 u2 z : one m b -> lone m b f e w1 w2 x -> lone m b g e' v1 v2 y ->
  lone m b (fun t => al * f t + be * g t) (al * e + be * e') u1 u2 z ->
  circuit_sum al be w1 v1 u1 /\ circuit_sum al be w2 v2 u2 /\ lines_sum al be x y z.
Proof.
  intros S [(a & A1 & A2 & A3) (a' & A1' & A2' & A3') An _ _ _] [(b1 & B1 & B2 & B3) (b' & B1' & B2' & B3') Bn _ _ _] [(c & C1 & C2 & C3) (c' & C1' & C2' & C3') Cn _ _ _].
  assert (b1 = a) by congruence. assert (c = a) by congruence. assert (b' = a') by congruence. assert (c' = a') by congruence. subst.
  assert (S1 : circuit_sum al be w1 v1 u1).
  { apply (calls_sum al be (s_descr m) a _ _ _ w1 v1 u1 A1 A3) with (2 := A2) (3 := B2) (4 := C2). constructor; [|constructor]. constructor. constructor. }
  assert (S2 : circuit_sum al be w2 v2 u2).
  { apply (calls_sum al be (l_descr m) a' _ _ _ w2 v2 u2 A1' A3') with (2 := A2') (3 := B2') (4 := C2'). constructor; [|constructor]. constructor. constructor. }
  split; [exact S1|]. split; [exact S2|]. refine (new_sum al be _ _ _ _ _ _ x y z _ _ An Bn Cn).
  - constructor; [exact (loaded_sum m b al be e e' S)|constructor].
  - repeat (constructor; try (split; [reflexivity|split; [reflexivity|assumption]])).
Qed.
Lemma lone_total m b f e w1 w2 x T : lone m b f e w1 w2 x -> exists y, mtln_run_until LR x T (1/2) = Ok y.
Proof. intros L. destruct (mtln_run_total LR LR_complete x T (1/2) (lo_net _ _ _ _ _ _ _ L) (lo_run _ _ _ _ _ _ _ L)) as (y & E & _); [left; lra|]. eauto. Qed.
(** without source and field: at rest *)
Lemma lone_rest m b w1 w2 x : one m b -> lone m b (fun _ => 0) 0 w1 w2 x -> lines_rest x.
Proof.
  intros S L. apply lines_rest_sum.
  assert (L' : lone m b (fun t => 0 * (fun _ => 0) t + 0 * (fun _ => 0) t) (0 * 0 + 0 * 0) w1 w2 x).
  { replace (0 * 0 + 0 * 0) with 0 by ring. replace (fun t : R => 0 * (fun _ => 0) t + 0 * (fun _ => 0) t) with (fun _ : R => 0); [exact L|].
    apply FunctionalExtensionality.functional_extensionality. intros t. ring. }
  exact (proj2 (proj2 (lone_sum m b 0 0 (fun _ => 0) (fun _ => 0) 0 0 _ _ _ _ _ _ _ _ _ S L L L'))).
Qed.
