(** Lines, bundles and networks the parser builds. *)
From Coq Require Import String List Arith ZArith Lia Bool.
From Verif Require Import Num Py Arr ArrFacts Utils Probes Dispersive Line Bundle Networks Mtln SpecLine SpecBundle SpecNet SpecMtln SpecAlone
  CoreEq BundleFacts BundleMore DispProps GeomProps RecordFacts NetPlace Parser SpecParser ParserFacts.
Import ListNotations.

Section Build.
Context {N : num}.
Variable LA : lapack N.
Variables ju jdu : nat -> vec N.
Variable so : list string -> list string.
Variable D : doc N.
Implicit Types (m : mtl N) (b : bundle N) (w : network N).

(** *** Lines *)
Lemma set_resistance_name m p q c R m' : set_resistance_in_region LA m p q c R = Ok m' -> m_name m' = m_name m.
Proof. unfold set_resistance_in_region. intros H. inv_bind H. inv_bind H. inv_bind H. apply OkI in H. subst m'. reflexivity. Qed.
Lemma dispersive_name m p c r m' : mtl_add_dispersive_connector m p c r = Ok m' -> m_name m' = m_name m.
Proof. unfold mtl_add_dispersive_connector. intros H. inv_bind H. apply OkI in H. subst m'. reflexivity. Qed.
Lemma new_name l c r g len np ndiv zs zl name m : mtl_new LA ju jdu l c r g len np ndiv zs zl name = Ok m -> m_name m = name.
Proof.
  intros H. unfold mtl_new in H. inv_bind H. destruct a as [[l' c'] n]. inv_bind H. destruct a as [r' g']. inv_bind H. destruct a as [zs' zl']. inv_bind H. destruct a as [[u du] h].
  inv_bind H. inv_bind H. destruct a0. inv_bind H. destruct a0. apply OkI in H. subst m. reflexivity.
Qed.
Lemma line_from_name name m : buildMTLfromLine LA ju jdu D name = Ok m -> SpecLine.built LA m /\ m_name m = name.
Proof.
  unfold buildMTLfromLine. intros H. inv_bind H. inv_bind H. inv_bind H. inv_bind H. inv_bind H. destruct a3 as [[l c'] r]. split; [repeat eexists; exact H|]. rewrite (new_name _ _ _ _ _ _ _ _ _ _ _ H).
  unfold getCableFromLineName in Ha. destruct (find _ _) as [c|] eqn:E; [|discriminate]. injection Ha as <-. apply find_some in E as [_ E]. now apply String.eqb_eq in E.
Qed.
Lemma foldM_rel {A S} (R : S -> S -> Prop) (f : S -> A -> res S) : (forall s, R s s) -> (forall x y z, R x y -> R y z -> R x z) -> (forall s a s', f s a = Ok s' -> R s s') ->
  forall l s s', foldM f l s = Ok s' -> R s s'.
Proof. intros R0 RT RS. induction l as [|a l IH]; intros s s' H; cbn [foldM] in H; [injection H as <-; apply R0|]. inv_bind H. eapply RT; [eapply RS; exact Ha|]. now apply IH. Qed.
Definition refines m m' : Prop := m_name m' = m_name m /\ forall m0, history LA m0 m -> history LA m0 m'.
Lemma refines_refl m : refines m m. Proof. split; auto. Qed.
Lemma refines_trans x y z : refines x y -> refines y z -> refines x z. Proof. intros [E1 H1] [E2 H2]. split; [congruence|auto]. Qed.
Lemma connectors_refines m m' : addConnectorsResistance LA D m = Ok m' -> refines m m'.
Proof.
  unfold addConnectorsResistance. apply (foldM_rel refines); [apply refines_refl|apply refines_trans|]. intros s c s'. apply (foldM_rel refines); [apply refines_refl|apply refines_trans|]. clear. intros s e s' H.
  inv_bind H. inv_bind H. destruct (memZ _ _); [|injection H as <-; apply refines_refl]. inv_bind H. inv_bind H. inv_bind H. inv_bind H. split; [exact (set_resistance_name _ _ _ _ _ _ H)|]. intros m0 Hm. eapply h_resistance; eassumption.
Qed.
Lemma lumped_refines m m' : addLumpedElement D m = Ok m' -> refines m m'.
Proof.
  unfold addLumpedElement. destruct (_ =? _)%nat; [intros H; injection H as <-; apply refines_refl|]. intros H. inv_bind H. inv_bind H. inv_bind H. inv_bind H. inv_bind H. split; [exact (dispersive_name _ _ _ _ _ H)|]. intros m0 Hm. eapply h_connector; eassumption.
Qed.
Lemma build_line_spec name m : build_line LA ju jdu D name = Ok m -> m_name m = name /\ reachable LA m.
Proof.
  unfold build_line. intros H. inv_bind H. inv_bind H. apply line_from_name in Ha as [B Nm]. apply connectors_refines in Ha0 as [E1 H1]. apply lumped_refines in H as [E2 H2]. split; [congruence|]. exists a. apply H2, H1. now constructor.
Qed.

(** *** Levels *)
Lemma lines_named names ls : mapM (build_line LA ju jdu D) names = Ok ls -> map (@m_name N) ls = names /\ Forall (reachable LA) ls.
Proof.
  intros H. apply mapM_F2 in H. induction H as [|n m names ls E _ [IH1 IH2]]; [now split|]. apply build_line_spec in E as [E R]. cbn [map]. split; [congruence|now constructor].
Qed.
Lemma max_level_ge (vs : list vertex) v : In v vs -> v_level v <= fold_left Nat.max (map v_level vs) 0.
Proof.
  intros I. assert (G : forall (l : list nat) a, a <= fold_left Nat.max l a /\ forall x, In x l -> x <= fold_left Nat.max l a).
  { induction l as [|y l IH]; intros a; cbn [fold_left]; [split; [lia|intros x []]|]. destruct (IH (Nat.max a y)) as [A B]. split; [lia|]. intros x [<-|Ix]; [lia|now apply B]. }
  apply (G (map v_level vs) 0). now apply in_map.
Qed.
Lemma levels_spec g levels : build_levels LA ju jdu so D g = Ok levels ->
  Forall (Forall (reachable LA)) levels /\
  (forall lev ls, nth_error levels lev = Some ls -> map (@m_name N) ls = so (names_at g lev)) /\
  forall v, In v (g_vs g) -> v_level v < length levels.
Proof.
  unfold build_levels. intros H. inv_bind H. assert (HN : forall lev ls, nth_error levels lev = Some ls -> mapM (build_line LA ju jdu D) (so (names_at g lev)) = Ok ls).
  { intros lev ls E. assert (Hl : lev < length levels) by (apply nth_error_Some; congruence). pose proof (mapM_length _ _ _ H) as EL. rewrite seq_length in EL. rewrite (mapM_seq _ _ _ lev [] H) by lia. f_equal. now apply nth_error_nth. }
  split; [|split].
  - apply Forall_forall. intros ls I. apply In_nth_error in I as [lev E]. apply HN in E. apply (lines_named _ _ E).
  - intros lev ls E. apply HN in E. apply (lines_named _ _ E).
  - intros v I. pose proof (mapM_length _ _ _ H) as EL. rewrite seq_length in EL. rewrite EL. pose proof (max_level_ge _ _ I) as G. unfold max_level in Ha. destruct (g_vs g) as [|v0 l]; [destruct I|]. apply OkI in Ha. subst a. cbn [map fold_left] in *.
    apply Nat.lt_succ_r. exact G.
Qed.
Lemma before_split name ls : In name (map (@m_name N) ls) -> exists q m, nth_error ls q = Some m /\ m_name m = name /\ conductors_before name ls = list_sum (map (@conductors N) (firstn q ls)).
Proof.
  induction ls as [|m ls IH]; [intros []|]. cbn [map conductors_before]. intros I. destruct (String.eqb_spec (m_name m) name) as [E|E]; [exists 0, m; now repeat split|]. destruct I as [I|I]; [now destruct E|]. destruct (IH I) as (q & m' & A & B & C). exists (S q), m'. split; [exact A|]. split; [exact B|]. cbn [firstn map]. rewrite C. reflexivity.
Qed.
Lemma level_start (levels : list (list (mtl N))) : forall lev ls q m, nth_error levels lev = Some ls -> nth_error ls q = Some m ->
  let p := length (concat (firstn lev levels)) + q in nth_error (concat levels) p = Some m /\
  first_row (concat levels) p = list_sum (map (@conductors N) (concat (firstn lev levels))) + list_sum (map (@conductors N) (firstn q ls)).
Proof.
  induction levels as [|x levels IH]; intros lev ls q m E Em; [destruct lev; discriminate|]. assert (Hq : q < length ls) by (apply nth_error_Some; congruence). destruct lev as [|lev]; cbn [nth_error] in E.
  - injection E as ->. cbn [firstn concat length Nat.add]. rewrite nth_error_app1 by exact Hq. split; [exact Em|]. unfold first_row. rewrite firstn_app. replace (q - length ls) with 0 by lia. rewrite firstn_O, app_nil_r. reflexivity.
  - destruct (IH lev ls q m E Em) as [A B]. cbn [firstn concat]. rewrite app_length. set (p := length (concat (firstn lev levels)) + q) in *. replace (length x + length (concat (firstn lev levels)) + q) with (length x + p) by (unfold p; lia). cbn zeta. split.
    + rewrite nth_error_app2 by lia. now replace (length x + p - length x) with p by lia.
    + unfold first_row in *. rewrite firstn_app. replace (length x + p - length x) with p by lia. rewrite firstn_all2 by lia. rewrite !map_app, !list_sum_app, B. lia.
Qed.
Lemma number_row g levels v c : set_listing so -> build_levels LA ju jdu so D g = Ok levels -> In v (g_vs g) -> findConductorNumberInLevel D levels v = Ok c ->
  element_row D levels v (list_sum (map (@conductors N) (concat (firstn (v_level v) levels))) + c).
Proof.
  intros SO HL Iv H. destruct (levels_spec _ _ HL) as (_ & HN & _). unfold findConductorNumberInLevel in H. inv_bind H. inv_bind H. inv_bind H. injection H as <-.
  destruct (nth_error levels (v_level v)) as [ls|] eqn:EL; [|discriminate]. injection Ha as <-. assert (Hin : In (v_cable v) (map (@m_name N) ls)). { rewrite (HN _ _ EL). apply (proj2 (SO _)). unfold names_at. apply in_map, filter_In. split; [exact Iv|apply Nat.eqb_refl]. }
  destruct (before_split _ _ Hin) as (q & m & Em & En & Ec). unfold cable_named in Ha0. destruct (find _ _) as [cb|] eqn:Ef; [|discriminate]. injection Ha0 as <-. apply find_some in Ef as [If Ef]. apply String.eqb_eq in Ef. apply indexZ_Ok in Ha1.
  destruct (level_start _ _ _ _ _ EL Em) as [A B]. exists ls, q, m, cb, a1. do 6 (split; [assumption|]). cbn zeta. split; [exact A|]. rewrite Ec. rewrite B. lia.
Qed.
Lemma number_exists g levels v cb : set_listing so -> build_levels LA ju jdu so D g = Ok levels -> In v (g_vs g) -> NoDup (map cb_name (dc_cables D)) ->
  In cb (dc_cables D) -> cb_name cb = v_cable v -> In (v_name v) (cb_elems cb) -> exists c, findConductorNumberInLevel D levels v = Ok c.
Proof.
  intros SO HL Iv ND Ic En Ie. destruct (levels_spec _ _ HL) as (_ & _ & HB). unfold findConductorNumberInLevel. pose proof (HB v Iv) as Hlt. destruct (nth_error levels (v_level v)) as [ls|] eqn:EL; [|apply nth_error_None in EL; lia]. cbn [of_option bind].
  unfold cable_named. destruct (find _ _) as [c|] eqn:Ef.
  - cbn [of_option bind]. apply find_some in Ef as [If Ef]. apply String.eqb_eq in Ef. assert (c = cb).
    { clear - ND If Ic Ef En. induction (dc_cables D) as [|x l IH]; [destruct If|]. cbn [map] in ND. inversion ND as [|y l0 Nx ND']; subst. destruct If as [->|If], Ic as [->|Ic]; [reflexivity| | |now apply IH]; exfalso; apply Nx; [rewrite Ef, <- En|rewrite En, <- Ef]; now apply in_map. }
    subst c. destruct (indexZ_In _ _ Ie) as [k ->]. eexists. reflexivity.
  - exfalso. apply (find_none _ _ Ef) in Ic. rewrite En, String.eqb_refl in Ic. discriminate.
Qed.

(** *** Bundles *)
Definition brefines b b' : Prop := b_levels b' = b_levels b /\ b_name b' = b_name b /\ forall b0, bundle_history LA b0 b -> bundle_history LA b0 b'.
Lemma brefines_refl b : brefines b b. Proof. repeat split; auto. Qed.
Lemma brefines_trans x y z : brefines x y -> brefines y z -> brefines x z. Proof. intros (A & B & C) (A' & B' & C'). repeat split; [congruence|congruence|auto]. Qed.
Lemma transfer_refines b ol oc il ic r b' : bundle_add_transfer_impedance b ol oc il ic r = Ok b' -> brefines b b'.
Proof. intros H. pose proof H as H'. unfold bundle_add_transfer_impedance in H. inv_bind H. apply OkI in H. subst b'. repeat split. intros b0 Hb. exact (bh_transfer LA b0 b ol oc il ic r _ Hb H'). Qed.
Lemma connector_refines b side ol oc il ic r b' : set_connector_transfer_impedance b side ol oc il ic r = Ok b' -> brefines b b'.
Proof. intros H. pose proof H as H'. unfold set_connector_transfer_impedance in H. inv_bind H. inv_bind H. apply OkI in H. subst b'. repeat split. intros b0 Hb. exact (bh_connector LA b0 b side ol oc il ic r _ Hb H'). Qed.
Lemma set_edge_refines g b e b' : set_edge D g b e = Ok b' -> brefines b b'.
Proof. unfold set_edge. intros H. inv_bind H. destruct a as [[[lo co] li] ci]. destruct (snd e) as [z|]; [exact (transfer_refines _ _ _ _ _ _ _ H)|]. destruct (adjacent lo li); discriminate. Qed.
Lemma set_end_refines g b e b' : set_end D g b e = Ok b' -> brefines b b'.
Proof.
  unfold set_end. intros H. inv_bind H. inv_bind H. revert H. apply (foldM_rel brefines); [apply brefines_refl|apply brefines_trans|]. clear. intros s ed s' H. inv_bind H. inv_bind H. inv_bind H. lazymatch goal with X : edge_args _ _ _ _ = Ok ?a |- _ => destruct a as [[[lo co] li] ci] end. exact (connector_refines _ _ _ _ _ _ _ _ H). Qed.
Lemma transfers_refine g b b' : setBundleTransferImpedance D b g = Ok b' -> brefines b b'.
Proof.
  unfold setBundleTransferImpedance. intros H. inv_bind H. eapply brefines_trans; [eapply (foldM_rel brefines); [apply brefines_refl|apply brefines_trans| |exact Ha]; intros s e s'; apply set_edge_refines|].
  eapply (foldM_rel brefines); [apply brefines_refl|apply brefines_trans| |exact H]. intros s e s'. apply set_end_refines.
Qed.
Lemma mtld_levels levels name b : mtld_new levels name = Ok b -> b_levels b = levels /\ b_name b = name.
Proof. intros H. destruct (new_counts levels name b H) as (_ & _ & _ & A & B & _). now split. Qed.
(** an edge couples the rows of its two elements and nothing else *)
Lemma edge_couples g b i j z b' : set_listing so -> build_levels LA ju jdu so D g = Ok (b_levels b) -> reachable_bundle LA b -> set_edge D g b (i, j, Some z) = Ok b' ->
  rm_direction z = "in"%string \/ rm_direction z = "out"%string -> active z ->
  exists (v w : vertex) ro ri, nth_error (g_vs g) i = Some v /\ nth_error (g_vs g) j = Some w /\ element_row D (b_levels b) v ro /\ element_row D (b_levels b) w ri /\
    neighbours (v_level v) (v_level w) /\ only_coefficients b b' /\ (ro < b_conductors b)%nat /\ (ri < b_conductors b)%nat /\
    forall k r c, (k < b_cells b)%nat ->
      let here := (rm_direction z = "in"%string /\ r = ri /\ c = ro) \/ (rm_direction z = "out"%string /\ r = ro /\ c = ri) in
      (here -> lowered z (if (n_poles z =? 1)%nat then 0%nat else k) (b_disp b) (b_disp b') k r c) /\ (~ here -> same_entry (b_disp b) (b_disp b') k r c).
Proof.
  intros SO HL R H Hd Ha. unfold set_edge in H. cbn [snd] in H. inv_bind H. unfold edge_args in Ha0. inv_bind Ha0. inv_bind Ha0. inv_bind Ha0. inv_bind Ha0. apply (f_equal (fun r => match r with Ok x => x | _ => a end)) in Ha0. subst a.
  assert (Vi : nth_error (g_vs g) i = Some a0) by (unfold py_get in Ha1; destruct (nth_error (g_vs g) i); [now injection Ha1 as ->|discriminate]).
  assert (Vj : nth_error (g_vs g) j = Some a1) by (unfold py_get in Ha2; destruct (nth_error (g_vs g) j); [now injection Ha2 as ->|discriminate]).
  pose proof (number_row _ _ _ _ SO HL (nth_error_In _ _ Vi) Ha3) as Ro. pose proof (number_row _ _ _ _ SO HL (nth_error_In _ _ Vj) Ha4) as Ri.
  assert (ND : forall x : nat, NoDup [x]) by (intros x; constructor; [intros []|constructor]).
  destruct (transfer_exact LA b _ _ _ _ _ _ R H (ND _) (ND _) Hd Ha) as (Nb & _ & Oc & Bd & Ex).
  assert (CP : forall r c, couples b (rm_direction z) (v_level a0) [a2] (v_level a1) [a3] r c <->
    ((rm_direction z = "in"%string /\ r = (level_offset b (v_level a1) + a3)%nat /\ c = (level_offset b (v_level a0) + a2)%nat) \/ (rm_direction z = "out"%string /\ r = (level_offset b (v_level a0) + a2)%nat /\ c = (level_offset b (v_level a1) + a3)%nat))).
  { intros r c. unfold couples. split; [intros (co & ci & [<-|[]] & [<-|[]] & X); exact X|]. intros X. exists a2, a3. split; [now left|]. split; [now left|exact X]. }
  exists a0, a1, (level_offset b (v_level a0) + a2)%nat, (level_offset b (v_level a1) + a3)%nat. split; [exact Vi|]. split; [exact Vj|]. split; [exact Ro|]. split; [exact Ri|]. split; [exact Nb|]. split; [exact Oc|].
  assert (BB : (level_offset b (v_level a0) + a2 < b_conductors b)%nat /\ (level_offset b (v_level a1) + a3 < b_conductors b)%nat).
  { destruct Hd as [Hd|Hd]; [destruct (Bd _ _ (proj2 (CP (level_offset b (v_level a1) + a3)%nat (level_offset b (v_level a0) + a2)%nat) (or_introl (conj Hd (conj eq_refl eq_refl))))) as (X & Y & _)|destruct (Bd _ _ (proj2 (CP (level_offset b (v_level a0) + a2)%nat (level_offset b (v_level a1) + a3)%nat) (or_intror (conj Hd (conj eq_refl eq_refl))))) as (X & Y & _)]; now split. }
  split; [apply BB|]. split; [apply BB|]. intros k r c Hk here. destruct (Ex k r c Hk) as [E1 E2]. split; intros X; [apply E1|apply E2; intros Y; apply X]; now apply CP.
Qed.

(** *** Everything the parser returns is reachable *)
Lemma build_one_reachable st bd st' : build_one LA ju jdu so D st bd = Ok st' -> Forall (reachable_bundle LA) (bt_bundles st) -> Forall (reachable_bundle LA) (bt_bundles st').
Proof.
  unfold build_one. intros H F. inv_bind H. inv_bind H. inv_bind H. inv_bind H. apply OkI in H. subst st'. cbn [bt_bundles]. apply Forall_app. split; [exact F|]. constructor; [|constructor].
  destruct (levels_spec _ _ Ha0) as (R & _ & _). destruct (transfers_refine _ _ _ Ha2) as (_ & _ & T). exists a1. apply T. constructor. now exists a0, (fst bd).
Qed.
Lemma buildBundles_reachable st : buildBundles LA ju jdu so D = Ok st -> Forall (reachable_bundle LA) (bt_bundles st).
Proof. unfold buildBundles. intros H. refine (foldM_inv (fun st => Forall (reachable_bundle LA) (bt_bundles st)) _ _ _ _ _ _ H); [intros bd s s' _ F E; exact (build_one_reachable s bd s' E F)|constructor]. Qed.
Lemma Forall_lset {A} (P : A -> Prop) l k x : Forall P l -> P x -> Forall P (lset l k x).
Proof. intros F Px. revert k. induction F as [|y l Py F IH]; intros [|k]; cbn [lset]; constructor; auto. Qed.
Lemma py_get_Forall {A} (P : A -> Prop) l k x : Forall P l -> py_get l k = Ok x -> P x.
Proof. intros F H. unfold py_get in H. destruct (nth_error l k) eqn:E; [|discriminate]. injection H as <-. rewrite Forall_forall in F. apply F. now apply nth_error_In in E. Qed.
Lemma add_source_reachable bs s bs' : add_source D bs s = Ok bs' -> Forall (reachable_bundle LA) bs -> Forall (reachable_bundle LA) bs'.
Proof.
  unfold add_source. intros H F. destruct (negb _); [injection H as <-; exact F|]. inv_bind H. inv_bind H. destruct (_ || _)%bool; [|injection H as <-; exact F].
  do 9 (inv_bind H). apply OkI in H. subst bs'. apply Forall_lset; [exact F|]. destruct (py_get_Forall _ _ _ _ F Ha8) as [b0 Hb]. exists b0. eapply bh_long; eassumption.
Qed.
Lemma addSources_reachable bs bs' : addSources D bs = Ok bs' -> Forall (reachable_bundle LA) bs -> Forall (reachable_bundle LA) bs'.
Proof. unfold addSources. intros H F. refine (foldM_inv (fun bs => Forall (reachable_bundle LA) bs) _ _ _ _ _ _ H); [intros bd s s' _ Fs E; exact (add_source_reachable s bd s' E Fs)|exact F]. Qed.
Lemma addProbes_reachable bs r : addProbes D bs = Ok r -> Forall (reachable_bundle LA) bs -> Forall (reachable_bundle LA) (fst r).
Proof.
  unfold addProbes. intros H F. refine (foldM_inv (fun r => Forall (reachable_bundle LA) (fst r)) _ _ _ _ _ _ H); [|exact F]. intros p s s' _ Fs E. unfold add_probe_desc in E. do 7 (inv_bind E). apply OkI in E. subst s'. cbn [fst].
  apply Forall_lset; [exact Fs|]. destruct (py_get_Forall _ _ _ _ Fs Ha4) as [b0 Hb]. exists b0. eapply bh_probe; eassumption.
Qed.
Definition wrefines w w' : Prop := forall ds, net_history LA ds w -> net_history LA ds w'.
Lemma wrefines_call w c w' : do_call w c = Ok w' -> wrefines w w'. Proof. intros H ds Hw. eapply nh_call; eassumption. Qed.
Lemma wrefines_same w : wrefines w w. Proof. intros ds H. exact H. Qed.
Lemma wrefines_trans x y z : wrefines x y -> wrefines y z -> wrefines x z. Proof. unfold wrefines. auto. Qed.
Lemma ground_single_refines w e w' : ground_single w e = Ok w' -> wrefines w w'.
Proof.
  unfold ground_single. destruct (String.eqb _ _); [intros H; exact (wrefines_call w (GroundShort _) w' H)|]. destruct (_ || _)%bool; [intros H; inv_bind H; exact (wrefines_call w (GroundR _ _ _) w' H)|].
  destruct (String.eqb _ _); [intros H; inv_bind H; exact (wrefines_call w (GroundC _ _ _) w' H)|]. destruct (String.eqb _ _); [intros H; inv_bind H; inv_bind H; inv_bind H; exact (wrefines_call w (GroundLCpRs _ _ _ _ _) w' H)|]. intros H. apply OkI in H. subst. apply wrefines_same.
Qed.
Lemma ground_multi_refines es w e w' : ground_multi es w e = Ok w' -> wrefines w w'.
Proof.
  unfold ground_multi. intros H. inv_bind H. destruct (negb _); [apply OkI in H; subst; apply wrefines_same|]. inv_bind H. inv_bind H. inv_bind H. inv_bind H. revert H.
  destruct (String.eqb _ _); [intros H; exact (wrefines_call w (GroundShort _) w' H)|]. destruct (_ || _)%bool; [intros H; exact (wrefines_call w (GroundR _ _ _) w' H)|].
  destruct (String.eqb _ _); [intros H; exact (wrefines_call w (GroundLCpRs _ _ _ _ _) w' H)|]. destruct (String.eqb _ _); [intros H; exact (wrefines_call w (GroundC _ _ _) w' H)|]. intros H. apply OkI in H. subst. apply wrefines_same.
Qed.
Lemma ground_row_refines w es w' : ground_row w es = Ok w' -> wrefines w w'.
Proof.
  destruct es as [|e [|e' es]]; cbn [ground_row]; intros H; [apply OkI in H; subst; apply wrefines_same|exact (ground_single_refines _ _ _ H)|].
  refine (foldM_rel wrefines _ wrefines_same wrefines_trans _ _ _ _ H). intros s a s'. apply ground_multi_refines.
Qed.
Lemma join_row_refines w es w' : join_row w es = Ok w' -> wrefines w w'.
Proof.
  unfold join_row. destruct es as [|e0 [|e1 [|e2 es]]]; try discriminate. intros H. inv_bind H. inv_bind H. destruct (neqb _ _); [exact (wrefines_call w (Short _ _) w' H)|exact (wrefines_call w (Branch _ _ _ _) w' H)].
Qed.
Lemma termination_reachable st bs t lw : termination_network D st bs t = Ok lw -> exists ds, net_history LA ds (snd lw).
Proof.
  unfold termination_network. intros H. inv_bind H. inv_bind H. inv_bind H. apply OkI in H. subst lw. cbn [snd]. exists (map snd (fst (fst a))). refine (foldM_rel wrefines _ wrefines_same wrefines_trans _ _ _ _ Ha1 _ _); [intros s x s'; apply ground_row_refines|now constructor].
Qed.
Lemma junction_reachable st bs t lw : junction_network D st bs t = Ok lw -> exists ds, net_history LA ds (snd lw).
Proof.
  unfold junction_network. intros H. inv_bind H. inv_bind H. inv_bind H. apply OkI in H. subst lw. cbn [snd]. exists (map snd (fst (fst a))). refine (foldM_rel wrefines _ wrefines_same wrefines_trans _ _ _ _ Ha1 _ _); [intros s x s'; apply join_row_refines|now constructor].
Qed.
Lemma dset_Forall {K V} (eqb : K -> K -> bool) (P : V -> Prop) k v (d : list (K * V)) : P v -> Forall P (map snd d) -> Forall P (map snd (dset eqb k v d)).
Proof. intros Pv. induction d as [|[k0 v0] d IH]; cbn [dset map snd]; intros F; [now constructor|]. inversion F; subst. destruct (eqb k k0); cbn [map snd]; constructor; auto. Qed.
Lemma level_networks_reachable f g d : (forall t lw, f t = Ok lw -> exists ds, net_history LA ds (snd lw)) -> level_networks f g = Ok d -> net_reachable LA d.
Proof.
  intros Hf H. unfold level_networks in H. unfold net_reachable, tiers. refine (foldM_inv (fun d => Forall (fun w => exists ds, net_history LA ds w) (map snd d)) _ _ _ _ _ _ H); [|constructor]. intros t s s' _ Fs E. inv_bind E. apply OkI in E. subst s'. apply dset_Forall; [now apply (Hf t)|exact Fs].
Qed.
Lemma networks_reachable f gs ds : (forall t lw, f t = Ok lw -> exists ds, net_history LA ds (snd lw)) -> mapM (level_networks f) gs = Ok ds -> Forall (net_reachable LA) ds.
Proof. intros Hf H. apply mapM_F2 in H. induction H; constructor; [eapply level_networks_reachable; eassumption|assumption]. Qed.
Lemma parse_reachable p : parse LA ju jdu so D = Ok p -> Forall (reachable_bundle LA) (ps_bundles p) /\ Forall (net_reachable LA) (ps_networks p).
Proof.
  unfold parse. intros H. inv_bind H. inv_bind H. inv_bind H. inv_bind H. inv_bind H. apply OkI in H. subst p. cbn [ps_bundles ps_networks]. split.
  - apply (addProbes_reachable _ _ Ha1). apply (addSources_reachable _ _ Ha0). now apply buildBundles_reachable.
  - unfold buildJunctions in Ha2. unfold buildTerminations in Ha3. inv_bind Ha2. inv_bind Ha3. apply Forall_app. split; [eapply networks_reachable; [|exact Ha2]; apply junction_reachable|eapply networks_reachable; [|exact Ha3]; apply termination_reachable].
Qed.
Lemma parsed_run T dt x : parse_and_run LA ju jdu so D T dt = Ok x -> exists y, lines_net LA y /\ mtln_run_until LA y T n0 = Ok x /\ lines_net LA x.
Proof.
  unfold parse_and_run, parser_run. intros H. inv_bind H. inv_bind H. inv_bind H. destruct (parse_reachable _ Ha) as [FB FN].
  assert (L0 : lines_net LA a0).
  { refine (_ (conj Ha0 I)). intros _. assert (FB' : Forall (reachable_bundle LA) (if negb (neqb dt n0) then map (fun b => b_set_core b (set_dt (b_core b) dt)) (ps_bundles a) else ps_bundles a)).
    { destruct (negb _); [|exact FB]. apply Forall_map. eapply Forall_impl; [|exact FB]. intros b [b0 Hb]. exists b0. eapply bh_march; [exact Hb|]. apply ma_dt, ma_refl. }
    revert Ha0 FB'. match goal with |- foldM _ ?l _ = _ -> _ => generalize l end. intros l. generalize (ln_empty LA). generalize (@mtln_empty N). induction l as [|b l IH]; intros x0 L0 E F; cbn [foldM] in E; [apply OkI in E; now subst|]. inv_bind E. inversion F; subst. eapply IH; [|exact E|assumption]. eapply ln_bundle; eassumption. }
  assert (L1 : lines_net LA a1).
  { revert Ha1 FN L0. generalize a0, (ps_networks a). clear. intros x0 l. revert x0. induction l as [|b l IH]; intros x0 E F L0; cbn [foldM] in E; [apply OkI in E; now subst|]. inv_bind E. inversion F; subst. eapply IH; [exact E|assumption|]. eapply ln_network; eassumption. }
  eexists. split; [|split; [exact H|]]; [|eapply ln_run; [|exact H]]; (destruct (negb _); [apply (ln_dt LA a1 dt L1)|exact L1]).
Qed.
End Build.
