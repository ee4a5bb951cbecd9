(** Facts on the parser's run methods. *)
From Coq Require Import String List Arith ZArith Bool Lia.
From Verif Require Import Num Py Arr ArrFacts Utils Probes Dispersive Line Bundle Networks Mtln SpecLine SpecBundle SpecNet SpecMtln Fields SpecFields RunFields SpecRun
  BundleFacts DispProps NetPlace NetMore MtlnFacts MtlnProps MtlnPerm MtlnR FieldsFacts FieldsProps CoreEq.
Import ListNotations.

Section Runs.
Context {N : num}.
Local Open Scope num_scope.
Variable LA : lapack N.
Implicit Types x y : mtln N.

(** ** equal outcomes *)
Definition rel_res {A B} (R : A -> B -> Prop) (r : res A) (r' : res B) : Prop :=
  match r, r' with Ok a, Ok b => R a b | Err e, Err e' => e = e' | _, _ => False end.
Lemma foldM_rel {A B S S'} (R : S -> S' -> Prop) (P : A -> B -> Prop) (f : S -> A -> res S) (g : S' -> B -> res S') :
  (forall s s' a b, R s s' -> P a b -> rel_res R (f s a) (g s' b)) -> forall l l' s s', Forall2 P l l' -> R s s' -> rel_res R (foldM f l s) (foldM g l' s').
Proof.
  intros H l l' s s' F. revert s s'. induction F as [|a b l l' Hab F IH]; intros s s' Hs; cbn [foldM]; [exact Hs|].
  specialize (H _ _ _ _ Hs Hab). destruct (f s a), (g s' b); cbn [bind rel_res] in *; try contradiction; auto.
Qed.
Definition with_step (dt : N) (b : bundle N) : bundle N := b_set_core b (set_dt (b_core b) dt).
Definition dts (dt : N) x y : Prop := t_bundles y = set_all_dt dt (t_bundles x) /\ t_networks y = t_networks x /\ t_time y = t_time x.
Lemma set_all_keys dt (bs : bdict N) : map fst (set_all_dt dt bs) = map fst bs.
Proof. unfold set_all_dt. rewrite map_map. reflexivity. Qed.
Lemma dget_set_all dt (bs : bdict N) name : dget String.eqb name (set_all_dt dt bs) = match dget String.eqb name bs with Some b => Some (with_step dt b) | None => None end.
Proof. unfold set_all_dt. induction bs as [|[k b] bs IH]; cbn [map dget fst snd]; [reflexivity|]. destruct (String.eqb name k); [reflexivity|exact IH]. Qed.
Lemma dmem_set_all dt (bs : bdict N) name : dmem String.eqb name (set_all_dt dt bs) = dmem String.eqb name bs.
Proof. unfold dmem. rewrite dget_set_all. now destruct (dget String.eqb name bs). Qed.
Lemma shift_dts dt (bs : bdict N) level kn : shift_node (set_all_dt dt bs) level kn = shift_node bs level kn.
Proof. unfold shift_node. destruct kn as [id nd]. rewrite dget_set_all. now destruct (dget String.eqb (nd_bundle nd) bs). Qed.
Lemma register_dts dt (bs : bdict N) (d : networkd N) : update_index_numbers d (set_all_dt dt bs) = update_index_numbers d bs.
Proof. unfold update_index_numbers. apply mapM_same. intros lw. f_equal. apply mapM_same. intros kn. apply shift_dts. Qed.
Lemma add_dts dt x y b b' : dts dt x y -> b' = with_step dt b -> rel_res (dts dt) (add_bundle x b) (add_bundle y b').
Proof.
  intros (B & W & T) ->. unfold add_bundle. change (b_name (with_step dt b)) with (b_name b). rewrite B, dmem_set_all.
  destruct (dmem String.eqb (b_name b) (t_bundles x)); cbn [negb passert bind rel_res]; [reflexivity|]. split; [|split; assumption].
  cbn [t_bundles]. unfold set_all_dt. rewrite map_app. reflexivity.
Qed.
Lemma net_dts dt x y (d d' : networkd N) : dts dt x y -> d' = d -> rel_res (dts dt) (add_network x d) (add_network y d').
Proof.
  intros (B & W & T) ->. unfold add_network. rewrite B, register_dts. destruct (update_index_numbers d (t_bundles x)); cbn [bind rel_res]; [|reflexivity].
  split; [reflexivity|]. split; [|exact T]. cbn [t_set t_networks]. now rewrite W.
Qed.
Lemma F2_map {A B} (f : A -> B) l : Forall2 (fun a b => b = f a) l (map f l).
Proof. induction l; constructor; auto. Qed.
Lemma F2_self {A} (l : list A) : Forall2 (fun a b => b = a) l l.
Proof. induction l; constructor; auto. Qed.
(** what the parser builds is the network of lines of its bundles and networks, with the step overridden *)
Lemma parser_net_new (bs : list (bundle N)) ws dt : parser_net bs ws dt = (x <- mtln_new bs ws ;; Ok (override_dt x dt)).
Proof.
  unfold parser_net, mtln_new, override_dt. cbv zeta. destruct (negb (dt =? n0)) eqn:E.
  - pose proof (foldM_rel (dts dt) _ add_bundle add_bundle (add_dts dt) bs _ mtln_empty mtln_empty (F2_map (with_step dt) bs)) as H.
    change (fun b => b_set_core b (set_dt (b_core b) dt)) with (with_step dt).
    specialize (H (conj eq_refl (conj eq_refl eq_refl))). destruct (foldM add_bundle bs mtln_empty) as [x|e], (foldM add_bundle (map (with_step dt) bs) mtln_empty) as [y|e']; cbn [rel_res bind] in *; try contradiction; [|now subst].
    pose proof (foldM_rel (dts dt) _ add_network add_network (net_dts dt) ws ws x y (F2_self ws) H) as H2.
    destruct (foldM add_network ws x) as [x'|e], (foldM add_network ws y) as [y'|e']; cbn [rel_res bind] in *; try contradiction; [|now subst].
    destruct H2 as (B & W & T). now rewrite B, W, T.
  - destruct (foldM add_bundle bs mtln_empty) as [x|e]; cbn [bind]; [|reflexivity]. destruct (foldM add_network ws x); reflexivity.
Qed.
Lemma parser_run_net (bs : list (bundle N)) ws T dt : parser_run LA bs ws T dt = (x <- parser_net bs ws dt ;; mtln_run_until LA x T n0).
Proof.
  unfold parser_run, parser_net. cbv zeta. match goal with |- bind ?r _ = _ => destruct r as [x|e] end; cbn [bind]; [|reflexivity]. destruct (foldM add_network ws x); reflexivity.
Qed.
Lemma override_twice x dt : @zero_is_zero N -> override_dt (override_dt x dt) n0 = override_dt x dt.
Proof. intros Z. unfold override_dt at 1. unfold zero_is_zero in Z. rewrite Z. reflexivity. Qed.
Lemma run_override x T dt : @zero_is_zero N -> mtln_run_until LA (override_dt x dt) T n0 = mtln_run_until LA x T dt.
Proof. intros Z. unfold mtln_run_until. cbv zeta. now rewrite (override_twice _ _ Z). Qed.
Lemma run_is_run_until (bs : list (bundle N)) ws T dt : @zero_is_zero N -> parser_run LA bs ws T dt = (x <- mtln_new bs ws ;; mtln_run_until LA x T dt).
Proof.
  intros Z. rewrite parser_run_net, parser_net_new. destruct (mtln_new bs ws) as [x|e]; cbn [bind]; [|reflexivity]. now apply run_override.
Qed.

(** ** what a run leaves *)
Definition kin (b b' : bundle N) : Prop := b_name b' = b_name b /\ b_levels b' = b_levels b /\ b_cil b' = b_cil b /\ k_dt (b_core b') = k_dt (b_core b).
Lemma kin_refl b : kin b b. Proof. repeat split. Qed.
Lemma kin_trans a b c : kin a b -> kin b c -> kin a c.
Proof. intros (A1 & A2 & A3 & A4) (B1 & B2 & B3 & B4). repeat split; congruence. Qed.
Lemma kin_set b s ps : k_dt s = k_dt (b_core b) -> kin b (b_set b s ps).
Proof. intros H. repeat split. exact H. Qed.
Lemma volt_dt (s s' : core N) e : advance_voltage s e = Ok s' -> k_dt s' = k_dt s.
Proof. unfold advance_voltage. intros H. destruct (k_cg s) as [[vt idf]|]; [|discriminate H]. apply OkI in H. subst s'. reflexivity. Qed.
Lemma curr_dt (s s' : core N) e : advance_current s e = Ok s' -> k_dt s' = k_dt s.
Proof. unfold advance_current. intros H. inv_bind H. destruct (k_lr s) as [[it vd]|]; [|discriminate H]. cbv zeta in H. inv_bind H. apply OkI in H. subst s'. reflexivity. Qed.
Lemma kin_volt t dt b b' : bundle_advance_voltage t dt b = Ok b' -> kin b b'.
Proof. unfold bundle_advance_voltage. cbv zeta. intros H. inv_bind H. apply OkI in H. subst b'. apply kin_set. now apply volt_dt in Ha. Qed.
Lemma kin_curr t dt b b' : bundle_advance_current t dt b = Ok b' -> kin b b'.
Proof. unfold bundle_advance_current. cbv zeta. intros H. inv_bind H. apply OkI in H. subst b'. apply kin_set. now apply curr_dt in Ha. Qed.
Lemma kin_probes t b b' : bundle_update_probes t b = Ok b' -> kin b b'.
Proof. unfold bundle_update_probes. intros H. inv_bind H. apply OkI in H. subst b'. now apply kin_set. Qed.
Lemma kin_prepare n b b' : bundle_prepare LA n b = Ok b' -> kin b b'.
Proof.
  unfold bundle_prepare. intros H. inv_bind H. inv_bind H. apply OkI in H. subst b'. apply kin_set.
  unfold update_lr_terms in Ha. inv_bind Ha. apply OkI in Ha. subst a. unfold update_cg_terms in Ha0. inv_bind Ha0. apply OkI in Ha0. subst a0. reflexivity.
Qed.

Lemma kin_only b b' : only_voltages b b' -> kin b b'.
Proof. intros [v ->]. now apply kin_set. Qed.
Lemma step_kin x y name b : mtln_step LA x = Ok y -> bundle_of x name = Some b -> exists b', bundle_of y name = Some b' /\ kin b b'.
Proof.
  intros H Hb. destruct (step_bundle LA _ _ _ _ H Hb) as (b1 & b2 & b3 & b' & V & _ & O & _ & C & U & G). exists b'. split; [exact G|].
  eapply kin_trans; [exact (kin_volt _ _ _ _ V)|]. eapply kin_trans; [exact (kin_only _ _ O)|]. eapply kin_trans; [exact (kin_curr _ _ _ _ C)|exact (kin_probes _ _ _ U)].
Qed.
Lemma steps_kin n : forall x y name b, iterM n (mtln_step LA) x = Ok y -> bundle_of x name = Some b -> exists b', bundle_of y name = Some b' /\ kin b b'.
Proof.
  induction n as [|n IH]; intros x y name b H Hb; cbn [iterM] in H; [apply OkI in H; subst; exists b; split; [exact Hb|apply kin_refl]|].
  inv_bind H. destruct (step_kin _ _ _ _ Ha Hb) as (b1 & H1 & K1). destruct (IH _ _ _ _ H H1) as (b2 & H2 & K2). exists b2. split; [exact H2|]. eapply kin_trans; eauto.
Qed.
Lemma steps_keys n : forall x y, iterM n (mtln_step LA) x = Ok y -> map fst (t_bundles y) = map fst (t_bundles x) /\ t_dt y = t_dt x.
Proof.
  induction n as [|n IH]; intros x y H; cbn [iterM] in H; [apply OkI in H; subst; auto|]. inv_bind H. destruct (IH _ _ H) as [E1 E2]. rewrite E1, E2. split; [exact (step_keys LA _ _ Ha)|exact (proj1 (step_clock LA _ _ Ha))].
Qed.
(** the networks keep their levels and nodes *)
Definition like (d d' : networkd N) : Prop := Forall2 (fun lw lw' => fst lw' = fst lw /\ w_conns (snd lw') = w_conns (snd lw)) d d'.
Lemma F2_refl {A} (P : A -> A -> Prop) l : (forall a, P a a) -> Forall2 P l l.
Proof. intros H. induction l; constructor; auto. Qed.
Lemma like_refl d : like d d. Proof. apply F2_refl. auto. Qed.
Lemma like_trans a b c : like a b -> like b c -> like a c.
Proof. apply F2_trans. intros p q r [H1 H2] [H3 H4]. split; congruence. Qed.
Lemma likes_trans ws1 ws2 ws3 : Forall2 like ws1 ws2 -> Forall2 like ws2 ws3 -> Forall2 like ws1 ws3.
Proof. apply F2_trans, like_trans. Qed.
Lemma mapM_like (f : network N -> res (network N)) ws ws' : (forall w w', f w = Ok w' -> w_conns w' = w_conns w) ->
  mapM (fun d => mapM (fun lw => w <- f (snd lw) ;; Ok (fst lw, w)) d) ws = Ok ws' -> Forall2 like ws ws'.
Proof.
  intros Hf H. apply mapM_F2 in H. eapply F2_impl; [|exact H]. intros d d' E. cbv beta in E. apply mapM_F2 in E. eapply F2_impl; [|exact E].
  intros lw lw' G. cbv beta in G. inv_bind G. apply OkI in G. subst lw'. split; [reflexivity|]. cbn [snd]. eauto.
Qed.
Lemma step_like x y : mtln_step LA x = Ok y -> Forall2 like (t_networks x) (t_networks y).
Proof.
  intros H. apply step_split in H as (bs1 & ws & bs2 & bs3 & [H1 H2 H3 H4 H5 H6 H7 H8]). eapply likes_trans.
  - exact (mapM_like _ _ _ (fun w w' => advance_conns LA w (t_time x) (t_dt x) w') H2).
  - exact (mapM_like _ _ _ (fun w w' => currents_conns w bs3 w') H5).
Qed.
Lemma steps_like n : forall x y, iterM n (mtln_step LA) x = Ok y -> Forall2 like (t_networks x) (t_networks y).
Proof.
  induction n as [|n IH]; intros x y H; cbn [iterM] in H; [apply OkI in H; subst; apply F2_refl, like_refl|]. inv_bind H. eapply likes_trans; [exact (step_like _ _ Ha)|eauto].
Qed.
Lemma dict_F2 {V} (P : V -> V -> Prop) (d : list (string * V)) : forall d', NoDup (map fst d) -> map fst d' = map fst d ->
  (forall k v, dget String.eqb k d = Some v -> exists v', dget String.eqb k d' = Some v' /\ P v v') -> Forall2 (fun a b => fst b = fst a /\ P (snd a) (snd b)) d d'.
Proof.
  intros d' ND E H.
  assert (G : forall l l', map fst l' = map fst l -> incl l d -> incl l' d' -> Forall2 (fun a b => fst b = fst a /\ P (snd a) (snd b)) l l').
  { induction l as [|[k v] l IH]; intros [|[k' v'] l'] E' I1 I2; cbn [map fst] in E'; try discriminate E'; constructor.
    - injection E' as -> E'. split; [reflexivity|]. cbn [snd]. assert (X1 : In (k, v) d) by (apply I1; now left). assert (X2 : In (k, v') d') by (apply I2; now left).
      destruct (H k v (sget_in _ _ _ ND X1)) as (v2 & Y & Q). assert (ND' : NoDup (map fst d')) by (rewrite E; exact ND). rewrite (sget_in _ _ _ ND' X2) in Y. congruence.
    - injection E' as _ E'. apply IH; [exact E'|intros z Hz; apply I1; now right|intros z Hz; apply I2; now right]. }
  apply G; [exact E|apply incl_refl|apply incl_refl].
Qed.
(** what a run leaves of the network of lines it was called on *)
Lemma run_leaves x T dt y : NoDup (map fst (t_bundles x)) -> mtln_run_until LA x T dt = Ok y ->
  Forall2 (fun kb kb' => fst kb' = fst kb /\ kin (if negb (dt =? n0) then with_step dt (snd kb) else snd kb) (snd kb')) (t_bundles x) (t_bundles y) /\
  Forall2 like (t_networks x) (t_networks y) /\ t_dt y = t_dt (override_dt x dt).
Proof.
  intros ND H. apply run_reaches in H as (n & _ & R). destruct (run_start LA _ _ _ _ _ R) as (ws & steps & p & H1 & H2 & H3 & H4 & H5 & H6 & H7 & H8 & H9 & _).
  destruct (steps_keys _ _ _ H4) as [K1 K2]. split; [|split; [|congruence]].
  - apply (dict_F2 (fun b b' => kin (if negb (dt =? n0) then with_step dt b else b) b')); [exact ND|congruence|]. intros k b Hb. destruct (H9 k b Hb) as (b' & E & G). destruct (steps_kin _ _ _ _ _ H4 G) as (b2 & G2 & K). exists b2. split; [exact G2|].
    eapply kin_trans; [exact (kin_prepare _ _ _ E)|exact K].
  - eapply likes_trans; [|exact (steps_like _ _ _ H4)]. rewrite H5. exact (mapM_like (fun w => compute_v_terms w (t_dt p)) _ _ (fun w w' => terms_conns w (t_dt p) w') H1).
Qed.
Lemma new_networks bs ws x : mtln_new bs ws = Ok x -> mapM (fun d => update_index_numbers d (named bs)) ws = Ok (t_networks x).
Proof.
  unfold mtln_new. intros H. inv_bind H. destruct (fold_add _ _ _ Ha) as (E1 & E2 & E3). apply fold_networks_map in H as (ws' & M & ->). cbn [mtln_empty t_bundles t_networks app] in *.
  cbn [t_set t_networks]. rewrite E2. cbn [app]. now rewrite E1 in M.
Qed.
Fixpoint least (l : list (bundle N)) (d : N) : N := match l with [] => d | b :: l => least l (if k_dt (b_core b) <? d then k_dt (b_core b) else d) end.
Lemma fold_least l : forall x x', foldM add_bundle l x = Ok x' -> t_dt x' = least l (t_dt x).
Proof.
  induction l as [|b l IH]; intros x x' H; cbn [foldM] in H; [apply OkI in H; now subst|]. inv_bind H. apply add_bundle_inv in Ha as [_ ->]. apply IH in H. exact H.
Qed.
Lemma new_least bs ws x : mtln_new bs ws = Ok x -> t_dt x = least bs n1e10 /\ t_time x = n0.
Proof.
  unfold mtln_new. intros H. inv_bind H. destruct (fold_networks _ _ _ H) as (_ & E & E2). rewrite E, E2. split; [exact (fold_least _ _ _ Ha)|]. exact (proj2 (proj2 (fold_add _ _ _ Ha))).
Qed.
Lemma least_same l l' : Forall2 (fun b b' : bundle N => k_dt (b_core b') = k_dt (b_core b)) l l' -> forall d, least l' d = least l d.
Proof. induction 1 as [|b b' l l' E _ IH]; intros d; cbn [least]; [reflexivity|]. now rewrite E, IH. Qed.

(** registering *)
Lemma named_get (bs : list (bundle N)) name b : dget String.eqb name (named bs) = Some b -> In b bs /\ b_name b = name.
Proof. intros H. apply sget_some in H. unfold named in H. apply in_map_iff in H as (b0 & E & Hb). injection E as E1 E2. subst b. auto. Qed.
Lemma new_shifted bs ws ws' : Forall (reachable_bundle LA) bs -> mapM (fun d => update_index_numbers d (named bs)) ws = Ok ws' -> all_shifted bs 1 ws ws'.
Proof.
  intros R H. apply mapM_F2 in H. eapply F2_impl; [|exact H]. intros d d' E. cbv beta in E. unfold update_index_numbers in E. apply mapM_F2 in E. eapply F2_impl; [|exact E].
  intros lw lw' G. cbv beta in G. inv_bind G. apply OkI in G. subst lw'. split; [reflexivity|]. cbn [snd set_conns w_conns]. apply mapM_F2 in Ha. eapply F2_impl; [|exact Ha].
  intros kn kn' S. cbv beta in S. apply shift_spec in S as (b & Hb & J1 & J2 & J3 & J4 & J5 & J6 & J7). apply named_get in Hb as [Hin Hn]. exists b. rewrite Forall_forall in R. destruct (R b Hin) as [b0 Hb0].
  rewrite (offset_before b (fst lw) (proj1 (history_binv LA _ _ Hb0))) in J2. repeat (split; [assumption|]). rewrite J2. lia.
Qed.
Definition same_rows (bs bs' : list (bundle N)) : Prop := Forall2 (fun b b' => b_name b' = b_name b /\ b_levels b' = b_levels b) bs bs'.
Lemma same_rows_offset bs bs' b b' l : NoDup (map (@b_name N) bs) -> same_rows bs bs' -> In b bs -> In b' bs' -> b_name b' = b_name b -> level_offset b' l = level_offset b l.
Proof.
  intros ND F. induction F as [|c c' bs bs' [E1 E2] F IH]; [intros []|]. cbn [map] in ND. inversion ND as [|? ? X ND']; subst.
  assert (Names : map (@b_name N) bs' = map (@b_name N) bs) by (clear - F; induction F as [|? ? ? ? [] ? IH]; cbn [map]; congruence).
  intros [->|Hb] [->|Hb'] En.
  - unfold level_offset. now rewrite E2.
  - exfalso. apply X. rewrite <- En, <- Names. now apply in_map.
  - exfalso. apply X. rewrite <- E1, En. now apply in_map.
  - now apply IH.
Qed.
Lemma F2_trans3 {A B C} (P : A -> B -> Prop) (Q : B -> C -> Prop) (R : A -> C -> Prop) l1 l2 l3 : (forall a b c, P a b -> Q b c -> R a c) -> Forall2 P l1 l2 -> Forall2 Q l2 l3 -> Forall2 R l1 l3.
Proof. intros H F. revert l3. induction F as [|a b l l' Ha F IH]; intros l3 G; inversion G; subst; constructor; eauto. Qed.
Lemma shifted_like (bs : list (bundle N)) k ws ws1 ws2 : all_shifted bs k ws ws1 -> Forall2 like ws1 ws2 -> all_shifted bs k ws ws2.
Proof.
  apply F2_trans. intros d d1 d2 H L. revert H L. apply F2_trans. intros lw lw1 lw2 [E1 E2] [E3 E4]. split; [congruence|]. now rewrite E4.
Qed.
Lemma shifted_twice (bs bs' : list (bundle N)) i j ws ws1 ws2 : NoDup (map (@b_name N) bs) -> same_rows bs bs' -> all_shifted bs i ws ws1 -> all_shifted bs' j ws1 ws2 -> all_shifted bs (i + j) ws ws2.
Proof.
  intros ND S. apply F2_trans. intros d d1 d2. apply F2_trans. intros lw lw1 lw2 [E1 E2] [E3 E4]. split; [congruence|]. rewrite E1 in E4. eapply F2_trans; [|exact E2|exact E4].
  intros kn kn1 kn2 (b & B1 & B2 & B3 & B4 & B5 & B6 & B7) (b' & C1 & C2 & C3 & C4 & C5 & C6 & C7). exists b. repeat (split; [assumption || congruence|]).
  rewrite C7, B7, (same_rows_offset bs bs' b b' (fst lw) ND S B1 C1); [lia|congruence].
Qed.
Lemma levels_shifted (bs : list (bundle N)) k ws ws' : all_shifted bs k ws ws' -> level_0_only ws -> level_0_only ws'.
Proof.
  intros H L. unfold level_0_only in *. induction H as [|d d' ws ws' E _ IH]; [constructor|]. inversion L as [|? ? A B]; subst. constructor; [|auto]. clear - E A.
  induction E as [|lw lw' d d' [E _] _ IH]; [constructor|]. inversion A; subst. constructor; [congruence|auto].
Qed.
(** on level 0 registering again changes nothing *)
Lemma register_0 (bs : bdict N) (ws : list (networkd N)) : level_0_only ws -> (forall d lw kn, In d ws -> In lw d -> In kn (w_conns (snd lw)) -> exists b, dget String.eqb (nd_bundle (snd kn)) bs = Some b) ->
  mapM (fun d => update_index_numbers d bs) ws = Ok ws.
Proof.
  intros L. induction L as [|d ws Hd _ IH]; intros K; cbn [mapM]; [reflexivity|].
  assert (E : update_index_numbers d bs = Ok d).
  { assert (K' : forall lw kn, In lw d -> In kn (w_conns (snd lw)) -> exists b, dget String.eqb (nd_bundle (snd kn)) bs = Some b) by (intros; eapply K; eauto; now left).
    clear K IH. unfold update_index_numbers. induction Hd as [|lw d Hl _ IH]; cbn [mapM]; [reflexivity|].
    assert (C : mapM (shift_node bs (fst lw)) (w_conns (snd lw)) = Ok (w_conns (snd lw))).
    { specialize (K' lw). assert (Q : forall kn, In kn (w_conns (snd lw)) -> exists b, dget String.eqb (nd_bundle (snd kn)) bs = Some b) by (intros; apply K'; [now left|assumption]).
      rewrite Hl. clear - Q. induction (w_conns (snd lw)) as [|[id nd] c IH]; cbn [mapM]; [reflexivity|]. unfold shift_node at 1. destruct (Q (id, nd) ltac:(now left)) as [b Hb]. cbn [snd] in Hb. rewrite Hb. cbn [of_option bind].
      rewrite (IH ltac:(intros; apply Q; now right)). cbn [bind]. unfold n_before. cbn [firstn fold_left]. rewrite Nat.add_0_r. now destruct nd. }
    rewrite C. cbn [bind]. rewrite (IH ltac:(intros; eapply K'; eauto; now right)). cbn [bind]. destruct lw as [l w]. cbn [fst snd]. now destruct w. }
  rewrite E. cbn [bind]. rewrite (IH ltac:(intros; eapply K; eauto; now right)). reflexivity.
Qed.

(** ** two runs *)
Lemma left_named x : Forall (fun kb => fst kb = b_name (snd kb)) (t_bundles x) -> named (left_bundles x) = t_bundles x.
Proof.
  unfold named, left_bundles. rewrite map_map. intros H. induction H as [|[k b] l E _ IH]; cbn [map fst snd] in *; [reflexivity|]. rewrite IH. now subst.
Qed.
Lemma F2_In_l {A B} (P : A -> B -> Prop) l l' a : Forall2 P l l' -> In a l -> exists b, In b l' /\ P a b.
Proof. induction 1 as [|x y l l' H _ IH]; intros []; [subst; exists y; split; [now left|exact H]|]. destruct (IH H0) as (b & X & Y). exists b. split; [now right|exact Y]. Qed.
Lemma F2_In_r {A B} (P : A -> B -> Prop) l l' b : Forall2 P l l' -> In b l' -> exists a, In a l /\ P a b.
Proof. induction 1 as [|x y l l' H _ IH]; intros []; [subst; exists x; split; [now left|exact H]|]. destruct (IH H0) as (a & X & Y). exists a. split; [now right|exact Y]. Qed.
Lemma first_run (bs : list (bundle N)) ws T dt x : @zero_is_zero N -> parser_run LA bs ws T dt = Ok x ->
  NoDup (map (@b_name N) bs) /\ named (left_bundles x) = t_bundles x /\
  Forall2 (fun b b' => kin (if negb (dt =? n0) then with_step dt b else b) b') bs (left_bundles x) /\
  (exists x0, mtln_new bs ws = Ok x0 /\ Forall2 like (t_networks x0) (t_networks x) /\ t_dt x = t_dt (override_dt x0 dt)).
Proof.
  intros Z H. rewrite (run_is_run_until _ _ _ _ Z) in H. inv_bind H. rename a into x0. destruct (new_order _ _ _ Ha) as [Eb ND]. fold (named bs) in Eb.
  assert (ND' : NoDup (map fst (t_bundles x0))) by (rewrite Eb, named_keys; exact ND).
  destruct (run_leaves _ _ _ _ ND' H) as (F & L & D). rewrite Eb in F. split; [exact ND|]. split; [|split; [|exists x0; auto]].
  - apply left_named. apply Forall_forall. intros kb Hk. destruct (F2_In_r _ _ _ _ F Hk) as (kb0 & Hin & E & K). unfold named in Hin. apply in_map_iff in Hin as (b & <- & _). cbn [fst snd] in *.
    destruct K as [K _]. rewrite E, K. now destruct (negb (dt =? n0)).
  - unfold left_bundles, named in *. revert F. generalize (t_bundles x). clear. intros l. revert l. induction bs as [|b bs IH]; intros l F; cbn [map] in F; inversion F as [|? ? ? ? [_ K] F']; subst; cbn [map]; constructor; [exact K|auto].
Qed.
Lemma kin_rows dt bs bs' : Forall2 (fun b b' => kin (if negb (dt =? n0) then with_step dt b else b) b') bs bs' -> same_rows bs bs'.
Proof. apply F2_impl. intros b b' (K1 & K2 & _). rewrite K1, K2. now destruct (negb (dt =? n0)). Qed.
Lemma run_shifted (bs : list (bundle N)) ws T dt x : @zero_is_zero N -> Forall (reachable_bundle LA) bs -> parser_run LA bs ws T dt = Ok x ->
  all_shifted bs 1 ws (t_networks x) /\ same_rows bs (left_bundles x).
Proof.
  intros Z R H. destruct (first_run _ _ _ _ _ Z H) as (ND & _ & K & x0 & H0 & L & _). split; [|exact (kin_rows _ _ _ K)].
  eapply shifted_like; [|exact L]. apply new_shifted; [exact R|]. exact (new_networks _ _ _ H0).
Qed.
(** the bundles left by a run are reachable *)
Lemma new_ninv (bs : list (bundle N)) ws x : Forall (reachable_bundle LA) bs -> Forall (net_reachable LA) ws -> mtln_new bs ws = Ok x -> ninv LA x.
Proof.
  intros RB RW H. apply lines_ninv. unfold mtln_new in H. inv_bind H. assert (L : lines_net LA a).
  { revert Ha. generalize (ln_empty LA). generalize (@mtln_empty N). clear - RB. induction RB as [|b l Hb _ IH]; intros x0 L0 E; cbn [foldM] in E; [apply OkI in E; now subst|]. inv_bind E. eapply IH; [|exact E]. eapply ln_bundle; eassumption. }
  revert H L. generalize a. clear - RW. induction RW as [|b l Hb _ IH]; intros x0 E L0; cbn [foldM] in E; [apply OkI in E; now subst|]. inv_bind E. eapply IH; [exact E|]. eapply ln_network; eassumption.
Qed.
Lemma run_reachable (bs : list (bundle N)) ws T dt x : @zero_is_zero N -> Forall (reachable_bundle LA) bs -> Forall (net_reachable LA) ws -> parser_run LA bs ws T dt = Ok x ->
  Forall (reachable_bundle LA) (left_bundles x).
Proof.
  intros Z RB RW H. rewrite (run_is_run_until _ _ _ _ Z) in H. inv_bind H. apply run_reaches in H as (n & _ & R). pose proof (reaches_ninv LA _ _ _ _ _ (new_ninv _ _ _ RB RW Ha) R) as I.
  unfold left_bundles. apply Forall_map. exact (nv_reach _ _ I).
Qed.
Lemma twice_shifted (bs : list (bundle N)) ws T1 dt1 T2 dt2 x : @zero_is_zero N -> Forall (reachable_bundle LA) bs -> Forall (net_reachable LA) ws -> parser_run_twice LA bs ws T1 dt1 T2 dt2 = Ok x ->
  all_shifted bs 2 ws (t_networks x).
Proof.
  intros Z RB RW H. unfold parser_run_twice in H. inv_bind H. destruct (run_shifted _ _ _ _ _ Z RB Ha) as [S1 R1]. pose proof (run_reachable _ _ _ _ _ Z RB RW Ha) as RB'.
  destruct (run_shifted _ _ _ _ _ Z RB' H) as [S2 _]. destruct (first_run _ _ _ _ _ Z Ha) as (ND & _). exact (shifted_twice _ _ _ _ _ _ _ ND R1 S1 S2).
Qed.
(** on level 0, a second run goes on from where the first one stopped *)
Lemma second_new (bs : list (bundle N)) ws T dt x : @zero_is_zero N -> level_0_only ws -> Forall (reachable_bundle LA) bs -> parser_run LA bs ws T dt = Ok x ->
  mtln_new (left_bundles x) (left_networks x) = Ok {| t_bundles := t_bundles x; t_networks := t_networks x; t_dt := least (left_bundles x) n1e10; t_time := n0 |}.
Proof.
  intros Z L0 RB H. destruct (first_run _ _ _ _ _ Z H) as (ND & Nm & K & x0 & H0 & L & _). destruct (run_shifted _ _ _ _ _ Z RB H) as [S1 R1].
  assert (Names : map (@b_name N) (left_bundles x) = map (@b_name N) bs) by (clear - R1; induction R1 as [|? ? ? ? [] ? IH]; cbn [map]; congruence).
  destruct (proj1 (fold_add_iff (left_bundles x) mtln_empty ltac:(constructor))) as [_ X]. cbn [mtln_empty t_bundles map app] in X. rewrite Names in X. destruct (X ND) as [y Hy].
  unfold mtln_new. rewrite Hy. cbn [bind]. destruct (fold_add _ _ _ Hy) as (E1 & E2 & E3). cbn [mtln_empty t_bundles t_networks t_time app] in E1, E2, E3. rewrite Nm in E1.
  apply fold_networks_map. exists (left_networks x). split.
  - apply register_0; [exact (levels_shifted _ _ _ _ S1 L0)|]. rewrite E1. intros d lw kn Hd Hl Hk. destruct (F2_In_r _ _ _ _ S1 Hd) as (d0 & _ & S2). destruct (F2_In_r _ _ _ _ S2 Hl) as (lw0 & _ & _ & S3).
    destruct (F2_In_r _ _ _ _ S3 Hk) as (kn0 & _ & b & Hb & Hn & _ & Bn & _). rewrite Bn, <- Hn. apply (keys_get (named bs) (t_bundles x)).
    + rewrite <- Nm, !named_keys. exact Names.
    + exists b. apply sget_in; [rewrite named_keys; exact ND|]. unfold named. apply in_map_iff. exists b. auto.
  - unfold t_set, left_networks. rewrite E1, E2, E3, (fold_least _ _ _ Hy). reflexivity.
Qed.
Lemma twice_continues (bs : list (bundle N)) ws T1 dt1 T2 dt2 : @zero_is_zero N -> level_0_only ws -> Forall (reachable_bundle LA) bs ->
  (dt2 =? n0) = false \/ (dt1 =? n0) = true ->
  parser_run_twice LA bs ws T1 dt1 T2 dt2 = (x <- parser_run LA bs ws T1 dt1 ;; mtln_run_until LA (rewound x) T2 dt2).
Proof.
  intros Z L0 RB C. unfold parser_run_twice. destruct (parser_run LA bs ws T1 dt1) as [x|e] eqn:H; cbn [bind]; [|reflexivity].
  rewrite (run_is_run_until _ _ _ _ Z), (second_new _ _ _ _ _ Z L0 RB H). cbn [bind]. unfold mtln_run_until. cbv zeta.
  destruct (dt2 =? n0) eqn:E2.
  - destruct C as [C|C]; [discriminate C|]. destruct (first_run _ _ _ _ _ Z H) as (_ & _ & K & x0 & H0 & _ & D). unfold override_dt in D. rewrite C in D, K. cbn [negb] in D, K.
    rewrite (proj1 (new_least _ _ _ H0)) in D. replace (least (left_bundles x) n1e10) with (t_dt x); [reflexivity|]. rewrite D. symmetry. apply least_same. eapply F2_impl; [|exact K]. intros b b' (_ & _ & _ & Q). exact Q.
  - unfold override_dt. rewrite E2. cbn [negb t_bundles t_networks t_dt t_time rewound t_set]. reflexivity.
Qed.
End Runs.
