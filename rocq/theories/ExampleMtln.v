(** A network of two one-conductor lines of different speed for the examples. *)
From Coq Require Import String List Arith ZArith Bool Permutation Sorted Lia Reals Lra.
From Verif Require Import Num Py Arr ArrFacts NumR RFacts LinAlg LapackR Utils Probes Dispersive Line LineFacts StepTotal Bundle Networks Mtln
  SpecLine SpecR SpecBundle SpecNet SpecMtln SpecCore SpecTele SpecDisp HistoryFacts TotalFacts BundleFacts BundleR BundleMore CoreEq AloneFacts
  NetFacts NetBuild NetR NetStamp NetStamp2 NetPlace NetTotal NetMore ExampleLine ExampleNet PropGeom PropDisp WaveProps
  MtlnFacts MtlnProps MtlnPerm MtlnR MtlnTotal.
Import ListNotations.
Local Open Scope R_scope.

(** one line of three unit cells in a bundle with a current probe at its near end and a constant longitudinal field [e] *)
Record solo (m : mtl NumR) (b : bundle NumR) (l c e : R) (name : string) : Prop := {
  so_built : SpecLine.built LR m; so_line : physical m; so_one : one_line m 3 l c 0 0 1 1 1;
  so_eT : k_eT (m_core m) = [mk 4 (fun _ _ => @n0 NumR)];
  so_reach : reachable_bundle LR b; so_phys : physical_bundle b; so_name : b_name b = name;
  so_n : b_conductors b = 1%nat; so_N : b_cells b = 3%nat; so_dt : k_dt (b_core b) = sqrt (l * c);
  so_len : forall k, (k < 3)%nat -> klen (b_core b) k = 1;
  so_v : forall j k, b_volt b j k = 0; so_i : forall j k, b_curr b j k = 0;
  so_E : forall k, (k < 3)%nat -> kLong (b_core b) 0 k = (fun _ => e);
  so_T : forall k, kTran (b_core b) 0 k = (fun _ => 0);
  so_mem : exists b0, one_way LR (fun _ => False) b0 b;
  so_probe : exists q, b_probes b = [q] /\ p_type q = "current"%string /\ p_dt q = sqrt (l * c) /\ p_index q = 0%nat
}.
Lemma solo_exists l c e name : 0 < l -> 0 < c -> sqrt (l * c) < 10000000000 -> exists m b, solo m b l c e name.
Proof.
  intros Hl Hc Hs. destruct (one_conductor LR LR_ok LR_complete (fun _ => []) (fun _ => []) l c 0 0 3 1 1 3 "m") as
    (m & Hm & P & O & Edt & Hu & _ & _ & _ & _ & _ & HeT & _); try lra; try lia.
  replace (Rabs 3 / INR 3) with 1 in * by (rewrite Rabs_right by lra; simpl; lra).
  assert (B : SpecLine.built LR m) by (do 12 eexists; exact Hm).
  assert (C1 : k_n (m_core m) = 1%nat) by exact (ol_n _ _ _ _ _ _ _ _ _ O).
  assert (C3 : k_N (m_core m) = 3%nat) by exact (ol_N _ _ _ _ _ _ _ _ _ O).
  destruct (mtl_new_inv _ _ _ _ _ _ _ _ _ _ _ _ _ _ Hm) as (_ & _ & _ & _ & _ & _ & _ & _ & _ & _ & _ & _ & _ & ET). rewrite C1, C3 in ET.
  destruct (bundle_of_one m name) as (b0 & H0 & Hb0).
  assert (R : Forall (Forall (reachable LR)) [[m]]) by (repeat constructor; exists m; now constructor).
  pose proof (new_physical LR _ _ _ R (Forall_cons [m] (Forall_cons m P (Forall_nil physical)) (Forall_nil (Forall physical))) H0) as P0.
  destruct (proj2 (C07_accepted_iff LR _ _ _ _ _ _ _ _ 3 1 _ _ _ m [] name b0 (@PosA NumR [0; 0; 0]) "current" Hm H0)) as [b1 H1].
  { left. exists 0%nat. split; [unfold cells; lia|]. rewrite !Hu by lia. cbn [pos_vec]. simpl INR.
    replace [0; 0; 0] with (along [0; 0; 0 * (3 / (1 + 1 + 1))] [0; 0; 1 * (3 / (1 + 1 + 1))] 0) at 1; [apply on_segment; lra|]. unfold along. cbn [nth]. repeat (f_equal; try lra). }
  destruct (new_frame _ _ _ H0) as (outer & rest & E & En & EN & Hh & Hv & Hi & HEL & HET & Hdt & _ & _ & Hp).
  injection E as <- <-.
  assert (N1 : k_n (b_core b0) = 1%nat).
  { rewrite En, count_sum. cbn [concat app map list_sum fold_right]. rewrite (ol_n _ _ _ _ _ _ _ _ _ O). reflexivity. }
  assert (N3 : k_N (b_core b0) = 3%nat) by (rewrite EN, (sh_u _ (ph_shape _ P)), C3; reflexivity).
  assert (Dt : k_dt (b_core b0) = sqrt (l * c)).
  { rewrite Hdt. cbn [concat app fold_left]. unfold step_dt in Edt. rewrite Edt.
    replace (@nltb NumR (1 * sqrt (l * c)) n1e10) with true; [rsimpl; lra|]. symmetry. apply Rltb_true. unfold n1e10. rsimpl. lra. }
  destruct (add_probe_step _ _ _ _ H1) as (q & Eq & Q1 & Q2 & Ec).
  exists m, (b_set_core b1 (set_fields (b_core b1) [[fun _ => e; fun _ => e; fun _ => e]] (k_eT (b_core b1)))).
  assert (Iq : p_index q = 0%nat).
  { unfold bundle_add_probe in H1. destruct (probe_on_cells _ _ _ _); [|discriminate H1]. apply OkI in H1. rewrite <- H1 in Eq. cbn [b_probes b_set] in Eq. rewrite Hp in Eq. cbn [app] in Eq. apply (f_equal (fun l => nth 0 l q)) in Eq. cbn [nth] in Eq.
    rewrite <- Eq. unfold probe_new. cbn [p_index pos_vec]. rewrite Hb0.
    replace [0; 0; 0] with [0; 0; INR 0 * (3 / INR 3)] by (simpl; now rewrite Rmult_0_l). change (p_index _) with (nearest (m_u m) [0; 0; INR 0 * (3 / INR 3)]) || idtac.
    apply (nearest_z (m_u m) 3 (3 / INR 3) 0); [pose proof (sh_u _ (ph_shape _ P)) as X; rewrite C3 in X; exact X|simpl; lra|exact Hu|lia]. }
  assert (Hx : bundle_history LR b0 b0) by (constructor; exists [[m]], name; split; [exact R|exact H0]).
  assert (D : dyn_same (b_core b0) (b_core (b_set_core b1 (set_fields (b_core b1) [[fun _ => e; fun _ => e; fun _ => e]] (k_eT (b_core b1)))))) by (cbn [b_set_core b_set b_core]; rewrite Ec; split; reflexivity). rewrite Ec in D.
  split; auto; unfold b_conductors, b_cells, b_volt, b_curr; cbn [b_set_core b_set b_core set_fields k_n k_N k_v k_i k_dt b_probes b_name]; rewrite ?Ec; auto.
  - exists b0. rewrite <- Ec. apply bh_field. eapply bh_probe; [exact Hx|exact H1].
  - apply (phys_keep b0); [exact P0|exact D| |].
    + unfold b_disp. cbn [b_set_core b_set b_core set_fields k_disp]. exact (phys_flat b0 P0).
    + cbn [b_set_core b_set b_probes]. rewrite Eq, Hp. cbn [app]. constructor; [|constructor]. split; [right; exact Q1|]. rewrite Iq. lia.
  - unfold bundle_add_probe in H1. destruct (probe_on_cells _ _ _ _); [|discriminate H1]. apply OkI in H1. rewrite <- H1. cbn [b_set b_name]. pose proof H0 as H0'. unfold mtld_new in H0'. cbn [concat app foldM bind] in H0'. inv_bind H0'. apply OkI in H0'. rewrite <- H0'. reflexivity.
  - intros k Hk. rewrite (klen_dyn _ _ _ D). destruct (new_cdiag LR _ _ _ R H0) as (_ & Hl' & _). rewrite Hl' by lia. cbn [concat app hd]. apply (ol_h _ _ _ _ _ _ _ _ _ O). exact Hk.
  - intros j k. rewrite Hv. apply (@get2_zeros NumR).
  - intros j k. rewrite Hi. apply (@get2_zeros NumR).
  - intros k Hk. unfold kLong. cbn [b_set_core b_set b_core set_fields k_eL nth]. destruct k as [|[|[|k]]]; [reflexivity|reflexivity|reflexivity|lia].
  - intros k. unfold kTran. cbn [b_set_core b_set b_core set_fields k_eT]. rewrite HET, N1, N3. unfold mk2. rewrite nth_mk by lia. destruct (Nat.lt_ge_cases k 4) as [L|L]; [rewrite nth_mk by lia|rewrite nth_mk_over by lia]; reflexivity.
  - exists b0. rewrite <- Ec. apply ow_field. eapply ow_probe; [|exact H1]. eapply ow_new; [exact R| |exact H0]. constructor; [|constructor]. constructor; [|constructor]. apply (ph_undisp _ P).
  - exists q. rewrite Eq, Hp, Q2, Dt. auto.
Qed.

(** where the nodes of a network are *)
Definition places (w : network NumR) : list (string * nat * bool) := map (fun kn => (nd_bundle (snd kn), nd_row (snd kn), nd_end (snd kn))) (w_conns w).
Lemma in_places w kn : In kn (w_conns w) -> In (nd_bundle (snd kn), nd_row (snd kn), nd_end (snd kn)) (places w).
Proof. intros H. unfold places. apply in_map_iff. exists kn. auto. Qed.

Definition near_descr (mA mB : mtl NumR) : list (descr NumR) := [(mA, ("S", ("b0", [(10%Z, 0%nat, plain)]))); (mB, ("S", ("b1", [(20%Z, 0%nat, plain)])))]%string.
Definition far_descr (mB : mtl NumR) : list (descr NumR) := [(mB, ("L", ("b1", [(30%Z, 0%nat, plain)])))]%string.
Definition near_grounds : list (call NumR) := [@GroundR NumR 10 50 (@TFun NumR sin); @GroundC NumR 20 (1/8) (@TInt NumR 0)].
Definition near_branches : list (call NumR) := [@Branch NumR 10 20 2 (@TFun NumR cos)].
Definition far_grounds : list (call NumR) := [@GroundR NumR 30 50 (@TInt NumR 0)].
Lemma near_new mA mB bA bB l c e l' c' e' nA nB : solo mA bA l c e nA -> solo mB bB l' c' e' nB -> exists w, network_new (near_descr mA mB) = Ok w /\ w_ns w = 0%nat /\
  places w = [("b0", 0, false); ("b1", 0, false)]%string%nat /\ (forall id, In id [10; 20]%Z -> exists nd, find_node w id = Some nd).
Proof.
  intros SA SB. unfold network_new, near_descr. cbn [foldM]. unfold add_nodes_in_line. cbn [bind String.eqb Ascii.eqb Bool.eqb orb negb passert sort_conns fold_left insert_conn foldM app map].
  unfold add_node. rewrite (so_eT _ _ _ _ _ _ SA), (so_eT _ _ _ _ _ _ SB). cbn [bind Z.leb Z.compare passert dmem dget negb Z.eqb py_get nth_error length app Pos.eqb].
  change (state_vars 0 plain) with (@Ok nat 0%nat). cbn [bind]. eexists. split; [reflexivity|]. split; [reflexivity|]. split; [reflexivity|].
  intros id H. unfold find_node. cbn [w_conns]. destruct H as [<-|[<-|[]]]; cbn; eauto.
Qed.
Lemma far_new mB bB l' c' e' nB : solo mB bB l' c' e' nB -> exists w, network_new (far_descr mB) = Ok w /\ w_ns w = 0%nat /\
  places w = [("b1", 0, true)]%string%nat /\ (forall id, In id [30]%Z -> exists nd, find_node w id = Some nd).
Proof.
  intros SB. unfold network_new, far_descr. cbn [foldM]. unfold add_nodes_in_line. cbn [bind String.eqb Ascii.eqb Bool.eqb orb negb passert sort_conns fold_left insert_conn foldM app map].
  unfold add_node. rewrite (so_eT _ _ _ _ _ _ SB). cbn [bind Z.leb Z.compare passert dmem dget negb Z.eqb py_get nth_error length app Pos.eqb].
  change (state_vars 0 plain) with (@Ok nat 0%nat). cbn [bind]. eexists. split; [reflexivity|]. split; [reflexivity|]. split; [reflexivity|].
  intros id H. unfold find_node. cbn [w_conns]. destruct H as [<-|[]]; cbn; eauto.
Qed.
(** the circuit stamped on such a network, registered at level 0 *)
Lemma circuit ds w0 gs brs ids (d : bdict NumR) : Forall (fun d : descr NumR => physical (d_line d)) ds -> all_connected ds -> network_new ds = Ok w0 -> w_ns w0 = 0%nat ->
  Forall to_ground gs -> Forall between_nodes brs -> (forall id, In id ids -> exists nd, find_node w0 id = Some nd) -> (forall c id, In c (gs ++ brs) -> In id (c_ids c) -> In id ids) ->
  (forall kn, In kn (w_conns w0) -> exists b, dget String.eqb (nd_bundle (snd kn)) d = Some b) ->
  exists w1 w2, do_calls w0 (gs ++ brs) = Ok w1 /\ update_index_numbers [(0%nat, w1)] d = Ok [(0%nat, w2)] /\ rc_circuit LR ds w2 /\ rc_circuit LR ds w1 /\ places w2 = places w0.
Proof.
  intros P A H0 Ns G B Hid Hc Hd. destruct (calls_total (gs ++ brs) w0 (new_shape _ _ H0)) as (w1 & E1 & C1).
  { apply Forall_app. split; [revert G|revert B]; apply Forall_impl; auto. }
  { intros c id I1 I2. apply Hid. exact (Hc c id I1 I2). }
  destruct (mapM_accept (shift_node d 0) (w_conns w1)) as [cs Ec].
  { intros [id nd] Hk. rewrite C1 in Hk. destruct (Hd _ Hk) as [b Hb]. cbn [snd] in Hb. unfold shift_node. rewrite Hb. cbn [of_option bind]. eauto. }
  exists w1, (set_conns w1 cs). split; [exact E1|]. split; [unfold update_index_numbers; cbn [mapM fst snd]; rewrite Ec; reflexivity|].
  assert (X : forall w, after LR (@no_call NumR) w1 w -> rc_circuit LR ds w). { intros w Af. split; [exact P|]. split; [exact A|]. exists w0, gs, brs, w1. auto 10. }
  split; [apply X; eapply af_register; [apply af_refl|exact Ec]|]. split; [apply X, af_refl|].
  unfold places. cbn [set_conns w_conns]. rewrite <- C1. clear - Ec. apply mapM_Ok in Ec. induction Ec as [|[id nd] kn l l' H F IH]; cbn [map]; [reflexivity|]. f_equal; [|exact IH].
  unfold shift_node in H. inv_bind H. apply OkI in H. subst kn. cbn [snd nd_bundle nd_row nd_end]. unfold n_before. cbn. rewrite Nat.add_0_r. reflexivity.
Qed.

Record duo (mA mB : mtl NumR) (bA bB : bundle NumR) (wN wF : network NumR) (x : mtln NumR) : Prop := {
  du_A : solo mA bA 4 (1/4) 1 "b0"; du_B : solo mB bB 1 (1/4) 0 "b1";
  du_new : mtln_new [bA; bB] [[(0%nat, wN)]; [(0%nat, wF)]] = Ok x;
  du_bundles : t_bundles x = [("b0", bA); ("b1", bB)]%string;
  du_net : lines_net LR x; du_run : runnable LR x; du_apart : disjoint_ends x;
  du_dt : t_dt x = 1/2; du_time : t_time x = 0;
  du_free : ~ driven_by (nets x) "b0" bA 0 3;
  du_near : driven_by (nets x) "b0" bA 0 0
}.
Lemma duo_exists : exists mA mB bA bB wN wF x, duo mA mB bA bB wN wF x.
Proof.
  assert (S1 : sqrt (4 * (1/4)) = 1) by (replace (4 * (1/4)) with 1 by lra; exact sqrt_1).
  assert (S2 : sqrt (1 * (1/4)) = 1/2) by (replace (1 * (1/4)) with (1/2 * (1/2)) by lra; apply sqrt_square; lra).
  destruct (solo_exists 4 (1/4) 1 "b0") as (mA & bA & SA); [lra|lra|lra|]. destruct (solo_exists 1 (1/4) 0 "b1") as (mB & bB & SB); [lra|lra|lra|].
  set (d := [("b0", bA); ("b1", bB)]%string).
  destruct (near_new _ _ _ _ _ _ _ _ _ _ _ _ SA SB) as (wN0 & HN & NsN & PN & IN). destruct (far_new _ _ _ _ _ _ SB) as (wF0 & HF & NsF & PF & IF).
  assert (CA : conductors mA = 1%nat) by exact (ol_n _ _ _ _ _ _ _ _ _ (so_one _ _ _ _ _ _ SA)).
  assert (CB : conductors mB = 1%nat) by exact (ol_n _ _ _ _ _ _ _ _ _ (so_one _ _ _ _ _ _ SB)).
  destruct (circuit (near_descr mA mB) wN0 near_grounds near_branches [10; 20]%Z d) as (wN & wN' & EN1 & EN2 & RN & RN1 & PN'); auto.
  { constructor; [exact (so_line _ _ _ _ _ _ SA)|]. constructor; [exact (so_line _ _ _ _ _ _ SB)|constructor]. }
  { unfold all_connected, near_descr, d_conns, d_line, c_cond. repeat constructor; cbn [fst snd map]; rewrite ?CA, ?CB; apply Permutation_refl. }
  { constructor; [split; [rsimpl; lra|right; eauto]|]. constructor; [split; [rsimpl; lra|now left]|constructor]. }
  { constructor; [cbn; rsimpl; lra|constructor]. }
  { intros c id Hc Hi. cbn in Hc. destruct Hc as [<-|[<-|[<-|[]]]]; cbn in Hi |- *; tauto. }
  { intros kn Hk. apply in_places in Hk. rewrite PN in Hk. destruct Hk as [E|[E|[]]]; injection E as <- _ _; cbn; eauto. }
  destruct (circuit (far_descr mB) wF0 far_grounds [] [30]%Z d) as (wF & wF' & EF1 & EF2 & RF & RF1 & PF'); auto.
  { constructor; [exact (so_line _ _ _ _ _ _ SB)|constructor]. }
  { unfold all_connected, far_descr, d_conns, d_line, c_cond. repeat constructor; cbn [fst snd map]; rewrite ?CA, ?CB; apply Permutation_refl. }
  { constructor; [split; [rsimpl; lra|now left]|constructor]. }
  { intros c id Hc Hi. cbn in Hc. destruct Hc as [<-|[]]; cbn in Hi |- *; tauto. }
  { intros kn Hk. apply in_places in Hk. rewrite PF in Hk. destruct Hk as [E|[]]; injection E as <- _ _; cbn; eauto. }
  rewrite PN in PN'. rewrite PF in PF'.
  assert (A1 : add_bundle mtln_empty bA = Ok (@Mtln.Mtln NumR [("b0"%string, bA)] [] 1 0)).
  { unfold add_bundle. cbn [mtln_empty t_bundles dmem dget negb passert bind app t_networks t_dt t_time]. rewrite (so_name _ _ _ _ _ _ SA), (so_dt _ _ _ _ _ _ SA), S1.
    replace (@nltb NumR 1 n1e10) with true by (symmetry; apply Rltb_true; unfold n1e10; rsimpl; lra). reflexivity. }
  assert (A2 : add_bundle (@Mtln.Mtln NumR [("b0"%string, bA)] [] 1 0) bB = Ok (@Mtln.Mtln NumR d [] (1/2) 0)).
  { unfold add_bundle. cbn [t_bundles t_networks t_dt t_time]. rewrite (so_name _ _ _ _ _ _ SB), (so_dt _ _ _ _ _ _ SB), S2. cbn [dmem dget String.eqb Ascii.eqb Bool.eqb negb passert bind app].
    replace (@nltb NumR (1/2) 1) with true by (symmetry; apply Rltb_true; rsimpl; lra). reflexivity. }
  set (x := @Mtln.Mtln NumR d [[(0%nat, wN')]; [(0%nat, wF')]] (1/2) 0).
  assert (X1 : add_network (@Mtln.Mtln NumR d [] (1/2) 0) [(0%nat, wN)] = Ok (@Mtln.Mtln NumR d [[(0%nat, wN')]] (1/2) 0)).
  { unfold add_network. cbn [t_bundles]. rewrite EN2. reflexivity. }
  assert (X2 : add_network (@Mtln.Mtln NumR d [[(0%nat, wN')]] (1/2) 0) [(0%nat, wF)] = Ok x).
  { unfold add_network. cbn [t_bundles]. rewrite EF2. reflexivity. }
  exists mA, mB, bA, bB, wN, wF, x.
  assert (Px : forall w kn, In w (nets x) -> In kn (w_conns w) -> In (nd_bundle (snd kn), nd_row (snd kn), nd_end (snd kn)) (match w_conns w with _ => places w end) /\ (w = wN' \/ w = wF')).
  { intros w kn Hw Hk. split; [now apply in_places|]. destruct Hw as [<-|[<-|[]]]; auto. }
  split; auto.
  - unfold mtln_new. cbn [foldM]. rewrite A1. cbn [bind]. rewrite A2. cbn [bind]. rewrite X1. cbn [bind]. rewrite X2. reflexivity.
  - eapply ln_network; [eapply ln_network; [eapply ln_bundle; [eapply ln_bundle; [apply ln_empty|exact (so_reach _ _ _ _ _ _ SA)|exact A1]|exact (so_reach _ _ _ _ _ _ SB)|exact A2]| |exact X1]| |exact X2].
    + constructor; [|constructor]. cbn [snd]. eexists. exact (rc_history LR _ _ RN1).
    + constructor; [|constructor]. cbn [snd]. eexists. exact (rc_history LR _ _ RF1).
  - split.
    + intros name b Hb. apply sget_some in Hb. destruct Hb as [E|[E|[]]]; injection E as _ <-; [exact (so_phys _ _ _ _ _ _ SA)|exact (so_phys _ _ _ _ _ _ SB)].
    + intros w [<-|[<-|[]]]; eexists; [exact RN|exact RF].
    + intros w kn Hw Hk. destruct (Px w kn Hw Hk) as [I [-> | ->]]; cbn in I; [rewrite PN' in I|rewrite PF' in I].
      * destruct I as [E|[E|[]]]; injection E as E1 E2 _; unfold resolves; rewrite <- E1, <- E2; eexists; (split; [reflexivity|]); [rewrite (so_n _ _ _ _ _ _ SA)|rewrite (so_n _ _ _ _ _ _ SB)]; lia.
      * destruct I as [E|[]]; injection E as E1 E2 _; unfold resolves; rewrite <- E1, <- E2; eexists; (split; [reflexivity|]); rewrite (so_n _ _ _ _ _ _ SB); lia.
  - unfold disjoint_ends. constructor; [|constructor; [constructor|constructor]]. constructor; [|constructor]. intros w w' [<-|[]] [<-|[]] kn kn' Hk Hk' (E1 & E2 & E3). cbn [snd] in *.
    apply in_places in Hk, Hk'. rewrite PN' in Hk. rewrite PF' in Hk'. destruct Hk' as [E|[]]. destruct Hk as [E'|[E'|[]]]; congruence.
  - intros (w & kn & Hw & Hk & E1 & E2 & E3). destruct (Px w kn Hw Hk) as [I [-> | ->]]; cbn in I; [rewrite PN' in I|rewrite PF' in I].
    + destruct I as [E|[E|[]]]; injection E as F1 F2 F3; [rewrite <- F3 in E3; discriminate E3|congruence].
    + destruct I as [E|[]]; injection E as F1 F2 F3; congruence.
  - exists wN'. assert (X : In ("b0"%string, 0%nat, false) (places wN')) by (rewrite PN'; now left). unfold places in X. apply in_map_iff in X as (kn & E & Hk). exists kn.
    split; [now left|]. split; [exact Hk|]. injection E as E1 E2 E3. unfold writes. rewrite E1, E2, E3. auto.
Qed.

(** the first step of a run of it without explicit step *)
Lemma duo_first mA mB bA bB wN wF x : duo mA mB bA bB wN wF x -> exists p z y b b', mtln_run_until LR x 1 0 = Ok y /\ steps_to LR x 1 0 0 p z /\ bundle_of p "b0" = Some b /\ bundle_of z "b0" = Some b' /\
  k_dt (b_core b) = 1 /\ t_dt p = 1/2 /\ sound_bundle b /\ ~ frozen (1/2) (t_time p) b b'.
Proof.
  intros D. destruct (mtln_run_total LR LR_complete x 1 0 (du_net _ _ _ _ _ _ _ D) (du_run _ _ _ _ _ _ _ D)) as (y & E & Ry).
  { right. split; [reflexivity|]. rewrite (du_dt _ _ _ _ _ _ _ D). split; [lra|]. intros name b Hb. unfold bundle_of in Hb. rewrite (du_bundles _ _ _ _ _ _ _ D) in Hb. apply sget_some in Hb.
    destruct Hb as [X|[X|[]]]; injection X as _ <-; [rewrite (so_dt _ _ _ _ _ _ (du_A _ _ _ _ _ _ _ D))|rewrite (so_dt _ _ _ _ _ _ (du_B _ _ _ _ _ _ _ D))]; apply sqrt_lt_R0; lra. }
  assert (O0 : override_dt x (0 : NumR) = x) by (unfold override_dt; replace (@neqb NumR 0 n0) with true by (symmetry; now apply Reqb_true); reflexivity).
  destruct (proj1 (run_reaches LR x 1 0 y) E) as (n & En & Rn). rewrite O0, (du_dt _ _ _ _ _ _ _ D) in En.
  assert (N2 : n = 2%nat).
  { unfold time_range_len in En. replace (@neqb NumR (1/2) n0) with false in En by (symmetry; apply Reqb_false; rsimpl; lra). injection En as <-. rsimpl. replace (1 / (1 / 2)) with (IZR 2) by lra.
    replace (Int_part (IZR 2)) with 2%Z; [reflexivity|]. unfold Int_part. rewrite <- (tech_up (IZR 2) 3); [reflexivity|lra|lra]. }
  subst n. destruct (reaches_less LR _ _ _ 2 1 _ Rn ltac:(lia)) as [z Rz]. destruct (reaches_step LR _ _ _ _ _ Rz) as (p & St). pose proof St as (Rp & Sp & _).
  pose proof (du_net _ _ _ _ _ _ _ D) as L. pose proof (lines_ninv LR x L) as I. pose proof (du_A _ _ _ _ _ _ _ D) as SA.
  assert (Hb0 : bundle_of x "b0" = Some bA) by (unfold bundle_of; rewrite (du_bundles _ _ _ _ _ _ _ D); reflexivity).
  destruct (run_start LR _ _ _ _ _ Rp) as (ws & steps & p' & _ & _ & _ & Ep & _ & _ & Edt & _ & H9 & _). cbn [iterM] in Ep. injection Ep as ->.
  destruct (H9 "b0"%string bA Hb0) as (b & Pb & Gb). replace (negb (@neqb NumR 0 n0)) with false in Pb by (replace (@neqb NumR 0 n0) with true by (symmetry; now apply Reqb_true); reflexivity).
  destruct (step_marches LR _ _ _ _ Sp Gb) as (b' & Gb' & Mb). exists p, z, y, b, b'.
  assert (S1 : sqrt (4 * (1/4)) = 1) by (replace (4 * (1/4)) with 1 by lra; exact sqrt_1).
  destruct (prepare_core LR _ _ _ Pb) as (Ev & Ei & EN & Enn & Edt' & _). pose proof (dyn_prepare LR _ _ _ Pb) as Dy.
  assert (Kd : k_dt (b_core b) = 1) by (rewrite Edt', (so_dt _ _ _ _ _ _ SA); exact S1).
  assert (Td : t_dt p = 1/2) by (rewrite Edt, O0; exact (du_dt _ _ _ _ _ _ _ D)).
  assert (Pbb : physical_bundle b).
  { pose proof (so_phys _ _ _ _ _ _ SA) as PA. apply (phys_keep bA); [exact PA|exact Dy| |].
    - pose proof (phys_flat bA PA) as F. unfold bundle_prepare in Pb. inv_bind Pb. inv_bind Pb. apply OkI in Pb. subst b. destruct (update_lr_inv _ _ _ Ha) as [t ->]. destruct (update_cg_inv _ _ _ Ha0) as [t' ->]. exact F.
    - destruct (prepare_core LR _ _ _ Pb) as (_ & _ & _ & _ & _ & ->). rewrite EN. apply Forall_forall. intros q Hq. apply in_map_iff in Hq as (q' & <- & Hq). pose proof (pb_probes _ PA) as F. rewrite Forall_forall in F. exact (F q' Hq). }
  repeat (split; [assumption|]). split; [exact (phys_sound b Pbb)|]. intros [Fi Fv].
  pose proof (run_telegraph LR LR_ok x 1 0 0 p z "b0" b b' L St Gb Gb') as [_ C]. cbv zeta in C. rewrite Kd, Td in C.
  assert (N1 : b_conductors b = 1%nat) by (rewrite Enn; exact (so_n _ _ _ _ _ _ SA)). assert (N3 : b_cells b = 3%nat) by (rewrite EN; exact (so_N _ _ _ _ _ _ SA)).
  rewrite N1, N3 in C, Fi, Fv. specialize (C 0%nat 2%nat ltac:(lia) ltac:(lia)).
  assert (Z : forall k, b_curr b 0 k = 0 /\ b_volt b 0 k = 0) by (intros k; unfold b_curr, b_volt; rewrite Ev, Ei; split; [apply (so_i _ _ _ _ _ _ SA)|apply (so_v _ _ _ _ _ _ SA)]).
  assert (Lg : forall k, (k < 3)%nat -> kLong (b_core b) 0 k = (fun _ => 1)).
  { intros k Hk. rewrite <- (so_E _ _ _ _ _ _ SA k Hk). unfold kLong. unfold bundle_prepare in Pb. inv_bind Pb. inv_bind Pb. apply OkI in Pb. subst b. destruct (update_lr_inv _ _ _ Ha) as [t ->]. destruct (update_cg_inv _ _ _ Ha0) as [t' ->]. reflexivity. }
  assert (Tr : forall k, kTran (b_core b) 0 k = (fun _ => 0)).
  { intros k. rewrite <- (so_T _ _ _ _ _ _ SA k). unfold kTran. unfold bundle_prepare in Pb. inv_bind Pb. inv_bind Pb. apply OkI in Pb. subst b. destruct (update_lr_inv _ _ _ Ha) as [t ->]. destruct (update_cg_inv _ _ _ Ha0) as [t' ->]. reflexivity. }
  assert (V3 : b_volt b' 0 3 = 0).
  { destruct (run_undriven LR x 1 0 1 z "b0" bA 0 3 L Rz Hb0) as (c & Gc & Vc & _); [right; symmetry; exact (so_N _ _ _ _ _ _ SA)|exact (du_free _ _ _ _ _ _ _ D)|].
    assert (c = b') by congruence. subst c. rewrite Vc. apply (so_v _ _ _ _ _ _ SA). }
  assert (V2 : b_volt b' 0 2 = 0) by (rewrite (Fv 0%nat 2%nat) by lia; rewrite Tr; rewrite (proj2 (Z 2%nat)); lra).
  assert (I2 : b_curr b' 0 2 = 0) by (rewrite (Fi 0%nat 2%nat) by lia; apply Z).
  assert (Mem : kmem (b_core b') 2 0 = 0).
  { destruct (so_mem _ _ _ _ _ _ SA) as [b0 W]. assert (W' : one_way LR (fun _ => False) b0 b') by (eapply ow_march; [|exact Mb]; eapply ow_march; [exact W|]; eapply ma_prepare; [constructor|exact Pb]).
    assert (Rb : binv bA) by (apply (reachable_binv LR); exact (so_reach _ _ _ _ _ _ SA)). assert (M2 : marches LR bA b') by (eapply marches_trans; [eapply ma_prepare; [constructor|exact Pb]|exact Mb]).
    destruct (marches_binv LR _ _ M2 Rb) as [_ K]. apply (C45_one_way_has_no_memory LR (fun _ => False) b0 b' W' 2 0).
    - rewrite (bk_N _ _ K), (so_N _ _ _ _ _ _ SA). lia.
    - rewrite (bk_n _ _ K), (so_n _ _ _ _ _ _ SA). lia. }
  assert (Len : klen (b_core b) 2 = 1) by (rewrite (klen_dyn _ _ _ Dy); apply (so_len _ _ _ _ _ _ SA); lia).
  rewrite Mem, Len, V3, V2, !Tr, !(Lg 2%nat) in C by lia. rewrite !sumR_S, !sumR_0, I2, (proj1 (Z 2%nat)) in C. lra.
Qed.

(** ten steps with an explicit step *)
Lemma ten : @time_range_len NumR 5 (1/2) = Ok 10%nat.
Proof.
  unfold time_range_len. replace (@neqb NumR (1/2) n0) with false by (symmetry; apply Reqb_false; rsimpl; lra). f_equal. rsimpl. replace (5 / (1 / 2)) with (IZR 10) by lra.
  replace (Int_part (IZR 10)) with 10%Z; [reflexivity|]. unfold Int_part. rewrite <- (tech_up (IZR 10) 11); [reflexivity|lra|lra].
Qed.
Lemma duo_free : exists mA mB bA bB wN wF x y, duo mA mB bA bB wN wF x /\ lines_net LR x /\ bundle_of x "b0" = Some bA /\ ~ driven_by (nets x) "b0" bA 0 (b_cells bA) /\
  driven_by (nets x) "b0" bA 0 0 /\ mtln_run_until LR x 5 (1/2) = Ok y /\ reaches LR x 5 (1/2) 10 y.
Proof.
  destruct duo_exists as (mA & mB & bA & bB & wN & wF & x & D). destruct (mtln_run_total LR LR_complete x 5 (1/2) (du_net _ _ _ _ _ _ _ D) (du_run _ _ _ _ _ _ _ D)) as (y & E & _); [left; lra|].
  exists mA, mB, bA, bB, wN, wF, x, y. split; [exact D|]. split; [exact (du_net _ _ _ _ _ _ _ D)|]. split; [unfold bundle_of; rewrite (du_bundles _ _ _ _ _ _ _ D); reflexivity|].
  rewrite (so_N _ _ _ _ _ _ (du_A _ _ _ _ _ _ _ D)). split; [exact (du_free _ _ _ _ _ _ _ D)|]. split; [exact (du_near _ _ _ _ _ _ _ D)|]. split; [exact E|].
  apply run_reaches in E as (n & En & R). replace (t_dt (override_dt x (1/2 : NumR))) with (1/2 : NumR) in En.
  - rewrite ten in En. injection En as <-. exact R.
  - unfold override_dt. replace (@neqb NumR (1/2) n0) with false by (symmetry; apply Reqb_false; rsimpl; lra). reflexivity.
Qed.
Lemma duo_inconsistent : exists LA (x : mtln NumR) (T : R) y z name b b', lapack_ok LA /\ lines_net LA x /\ steps_to LA x T 0 0 y z /\
  bundle_of y name = Some b /\ bundle_of z name = Some b' /\ sound_bundle b /\ ~ telegraph (t_dt x) (t_dt x) (t_time y) b b'.
Proof.
  destruct duo_exists as (mA & mB & bA & bB & wN & wF & x & D). destruct (duo_first _ _ _ _ _ _ _ D) as (p & z & y & b & b' & E & St & Gb & Gb' & Kd & Td & Sb & Nf).
  exists LR, x, 1, p, z, "b0"%string, b, b'. split; [exact LR_ok|]. split; [exact (du_net _ _ _ _ _ _ _ D)|]. repeat (split; [assumption|]). intros Te. apply Nf.
  rewrite <- (du_dt _ _ _ _ _ _ _ D). pose proof (so_dt _ _ _ _ _ _ (du_A _ _ _ _ _ _ _ D)) as Ed. replace (4 * (1/4)) with 1 in Ed by lra. rewrite sqrt_1 in Ed.
  eapply (own_frozen LR LR_ok x 1 0 p z "b0" bA b b'); eauto.
  - exact (du_net _ _ _ _ _ _ _ D).
  - unfold bundle_of. rewrite (du_bundles _ _ _ _ _ _ _ D). reflexivity.
  - rewrite Ed, (du_dt _ _ _ _ _ _ _ D). lra.
  - rewrite Ed. lra.
  - rewrite (du_dt _ _ _ _ _ _ _ D). lra.
Qed.
Lemma duo_stamps : exists mA mB bA bB wN wF x y b' q, duo mA mB bA bB wN wF x /\ mtln_run_until LR x 5 (1/2) = Ok y /\ bundle_of x "b0" = Some bA /\ bundle_of y "b0" = Some b' /\
  nth_error (b_probes b') 0 = Some q /\ p_type q = "current"%string /\ nth 0 (p_t q) 0 = 1/2 + 1/2.
Proof.
  destruct duo_free as (mA & mB & bA & bB & wN & wF & x & y & D & L & Hb & _ & _ & R & Rn). destruct (run_recorded LR _ _ _ _ _ _ R Hb) as (c & st & Gc & Es & _ & Fc).
  destruct (run_stamps LR _ _ _ _ _ _ R Hb) as (b' & steps & G & F). destruct (so_probe _ _ _ _ _ _ (du_A _ _ _ _ _ _ _ D)) as (p & Ep & Ty & Pd & _).
  assert (c = b') by congruence. subst c. assert (P0 : nth_error (b_probes bA) 0 = Some p) by (rewrite Ep; reflexivity).
  destruct (F 0%nat p P0) as (q & Hq & Lq & Dq & Sq). destruct (Fc 0%nat p P0) as (q' & Hq' & (Tq & _) & Lq' & _). assert (q' = q) by congruence. subst q'.
  exists mA, mB, bA, bB, wN, wF, x, y, b', q. repeat (split; [assumption|]). split; [congruence|].
  assert (steps = 10%nat).
  { rewrite <- Lq, Lq'. replace (t_dt (override_dt x (1/2 : NumR))) with (1/2 : NumR) in Es; [rewrite ten in Es; congruence|].
    unfold override_dt. replace (@neqb NumR (1/2) n0) with false by (symmetry; apply Reqb_false; rsimpl; lra). reflexivity. }
  subst steps. destruct (Sq 0%nat ltac:(lia)) as [_ S]. cbv zeta in S. rewrite (S Ty), Pd, (du_time _ _ _ _ _ _ _ D), (proj2 (Reqb_false (1/2) 0)) by lra.
  replace (4 * (1/4)) with 1 by lra. rewrite sqrt_1. cbn [INR]. lra.
Qed.
