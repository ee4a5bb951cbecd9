(** Facts on the parser's runs with an external field. *)
From Coq Require Import String List Arith ZArith Bool Lia.
From Verif Require Import Num Py Arr ArrFacts Utils Probes Dispersive Line Bundle Networks Mtln SpecLine SpecBundle SpecNet SpecMtln Fields SpecFields RunFields SpecRun
  BundleFacts DispProps NetPlace NetMore MtlnFacts MtlnProps MtlnPerm MtlnR FieldsFacts FieldsProps CoreEq Runs.
Import ListNotations.

Section RunsField.
Context {N : num}.
Local Open Scope num_scope.
Variable LA : lapack N.
Variable integ : (N -> N) -> N -> N -> N.
Implicit Types x y : mtln N.

Lemma light_kin (b : bundle N) f dist loc b' : bundle_add_external_field LA integ b f dist loc = Ok b' -> kin b b'.
Proof. unfold bundle_add_external_field, illuminate. intros H. inv_bind H. inv_bind H. apply OkI in H. subst b'. inv_bind Ha0. inv_bind Ha0. inv_bind Ha0. apply OkI in Ha0. subst a0. now apply kin_set. Qed.
Lemma light_step (b : bundle N) dt f dist loc : bundle_add_external_field LA integ (with_step dt b) f dist loc = (b' <- bundle_add_external_field LA integ b f dist loc ;; Ok (with_step dt b')).
Proof.
  unfold bundle_add_external_field. change (outer_conductors (with_step dt b)) with (outer_conductors b). destruct (outer_conductors b) as [n|e]; cbn [bind]; [|reflexivity].
  unfold illuminate. cbn [with_step b_set_core b_set b_core set_dt k_N k_eL k_eT b_u b_du].
  change (get_phase_velocities LA (set_dt (b_core b) dt)) with (get_phase_velocities LA (b_core b)).
  destruct (passert (has_shape dist n (length (b_u b)))) as [u|e]; cbn [bind]; [|reflexivity]. destruct (lit_cells true (b_u b) (k_N (b_core b)) loc) as [is|e]; cbn [bind]; [|reflexivity].
  destruct (foldM _ _ _) as [st|e]; cbn [bind]; reflexivity.
Qed.
Definition stepped_in (dt : N) (bs : bdict N) : bdict N := if negb (dt =? n0) then set_all_dt dt bs else bs.
Lemma override_bundles x dt : t_bundles (override_dt x dt) = stepped_in dt (t_bundles x).
Proof. unfold override_dt, stepped_in. now destruct (negb (dt =? n0)). Qed.
Lemma light_all dt f dist (bs : list (bundle N)) B : map_bundles (fun b => bundle_add_external_field LA integ b f dist []) (stepped_in dt (named bs)) = Ok B <->
  exists bs', mapM (fun b => bundle_add_external_field LA integ b f dist []) bs = Ok bs' /\ B = stepped_in dt (named bs').
Proof.
  unfold map_bundles, stepped_in, set_all_dt, named. destruct (negb (dt =? n0)); revert B; induction bs as [|b bs IH]; intros B; cbn [map mapM fst snd].
  - split; [intros H; apply OkI in H; subst; exists []; auto|intros (bs' & E & ->); apply OkI in E; subst; reflexivity].
  - change (b_set_core b (set_dt (b_core b) dt)) with (with_step dt b). rewrite light_step. split.
    + intros H. inv_bind H. inv_bind Ha. apply OkI in Ha. subst a. inv_bind H. apply OkI in H. subst B. apply IH in Ha as (bs' & E & ->). inv_bind Ha0. apply OkI in Ha0. subst a0. rewrite Ha, E. cbn [bind]. eexists. split; [reflexivity|]. cbn [map fst snd].
      change (b_set_core a (set_dt (b_core a) dt)) with (with_step dt a). destruct (light_kin _ _ _ _ _ Ha) as [En _]. now rewrite En.
    + intros (bs' & E & ->). inv_bind E. inv_bind E. apply OkI in E. subst bs'. rewrite Ha. cbn [bind]. rewrite (proj2 (IH _) (ex_intro _ a0 (conj Ha0 eq_refl))). cbn [bind map fst snd]. destruct (light_kin _ _ _ _ _ Ha) as [En _]. now rewrite En.
  - split; [intros H; apply OkI in H; subst; exists []; auto|intros (bs' & E & ->); apply OkI in E; subst; reflexivity].
  - split.
    + intros H. inv_bind H. inv_bind Ha. apply OkI in Ha. subst a. inv_bind H. apply OkI in H. subst B. apply IH in Ha as (bs' & E & ->). rewrite Ha0, E. cbn [bind]. eexists. split; [reflexivity|]. cbn [map].
      destruct (light_kin _ _ _ _ _ Ha0) as [En _]. now rewrite En.
    + intros (bs' & E & ->). inv_bind E. inv_bind E. apply OkI in E. subst bs'. rewrite Ha. cbn [bind]. rewrite (proj2 (IH _) (ex_intro _ a0 (conj Ha0 eq_refl))). cbn [bind map fst snd]. destruct (light_kin _ _ _ _ _ Ha) as [En _]. now rewrite En.
Qed.
(** the network of lines of similar bundles *)
Definition alike x y : Prop := Forall2 (fun kb kb' => fst kb' = fst kb /\ kin (snd kb) (snd kb')) (t_bundles x) (t_bundles y) /\ t_networks y = t_networks x /\ t_dt y = t_dt x /\ t_time y = t_time x.
Lemma alike_get x y name : alike x y -> match dget String.eqb name (t_bundles x), dget String.eqb name (t_bundles y) with Some b, Some b' => kin b b' | None, None => True | _, _ => False end.
Proof. intros [F _]. induction F as [|[k b] [k' b'] l l' [E K] _ IH]; cbn [dget fst snd] in *; [exact I|]. subst k'. destruct (String.eqb name k); [exact K|exact IH]. Qed.
Lemma new_alike (bs bs' : list (bundle N)) ws x : Forall2 kin bs bs' -> mtln_new bs ws = Ok x ->
  mtln_new bs' ws = Ok {| t_bundles := named bs'; t_networks := t_networks x; t_dt := t_dt x; t_time := t_time x |}.
Proof.
  intros F H. unfold mtln_new in H |- *.
  assert (A : rel_res alike (foldM add_bundle bs mtln_empty) (foldM add_bundle bs' mtln_empty)).
  { refine (foldM_rel alike kin add_bundle add_bundle _ bs bs' _ _ F _); [|split; [constructor|auto]]. intros s s' b b' Hs K. pose proof (alike_get s s' (b_name b) Hs) as G. destruct Hs as (B & W & D & T). destruct K as (K1 & K2 & K3 & K4).
    unfold add_bundle. rewrite K1, K4, D. unfold dmem. destruct (dget String.eqb (b_name b) (t_bundles s)), (dget String.eqb (b_name b) (t_bundles s')); cbn [negb passert bind rel_res]; try contradiction; auto.
    split; [|split; [exact W|split; [reflexivity|exact T]]]. cbn [t_bundles]. apply Forall2_app; [exact B|]. repeat constructor; auto. }
  inv_bind H. rewrite Ha in A. destruct (foldM add_bundle bs' mtln_empty) as [y|e] eqn:Hy; cbn [rel_res bind] in *; [|contradiction].
  pose proof (proj1 (fold_add _ _ _ Hy)) as Ey. cbn [mtln_empty t_bundles app] in Ey. pose proof A as (_ & W & D & T).
  apply fold_networks_map in H as (ws' & M & ->). apply fold_networks_map. exists ws'. split.
  - rewrite <- M. apply mapM_same. intros d. unfold update_index_numbers. apply mapM_same. intros lw. f_equal. apply mapM_same. intros [id nd]. unfold shift_node. pose proof (alike_get a y (nd_bundle nd) A) as G.
    destruct (dget String.eqb (nd_bundle nd) (t_bundles a)), (dget String.eqb (nd_bundle nd) (t_bundles y)); cbn [of_option bind]; try contradiction; [|reflexivity]. destruct G as (_ & _ & -> & _). reflexivity.
  - unfold t_set. cbn [t_networks t_dt t_time]. now rewrite Ey, W, D, T.
Qed.
Lemma kin_sym (b b' : bundle N) : kin b b' -> kin b' b.
Proof. intros (A1 & A2 & A3 & A4). repeat split; congruence. Qed.
Lemma light_kins (f : field N) dist bs bs' : mapM (fun b => bundle_add_external_field LA integ b f dist []) bs = Ok bs' -> Forall2 kin bs bs'.
Proof. intros H. apply mapM_F2 in H. eapply F2_impl; [|exact H]. intros b b'. apply light_kin. Qed.
Lemma F2_sym {A} (P : A -> A -> Prop) l l' : (forall a b, P a b -> P b a) -> Forall2 P l l' -> Forall2 P l' l.
Proof. intros H. induction 1; constructor; auto. Qed.
(** running with a field is illuminating every bundle first *)
Lemma field_first (bs : list (bundle N)) ws T dt f dist x : @zero_is_zero N -> parser_run_field LA integ bs ws T dt f dist = Ok x <->
  exists bs', mapM (fun b => bundle_add_external_field LA integ b f dist []) bs = Ok bs' /\ parser_run LA bs' ws T dt = Ok x.
Proof.
  intros Z. unfold parser_run_field. rewrite parser_net_new. split.
  - intros H. inv_bind H. inv_bind Ha. rename a0 into x0. apply OkI in Ha. subst a. inv_bind H. unfold mtln_add_external_field in Ha. inv_bind Ha. apply OkI in Ha. subst a. destruct (new_order _ _ _ Ha0) as [Eb _]. fold (named bs) in Eb.
    rewrite override_bundles, Eb in Ha1. apply light_all in Ha1 as (bs' & M & ->). exists bs'. split; [exact M|]. rewrite (run_is_run_until LA _ _ _ _ Z), (new_alike _ _ _ _ (light_kins _ _ _ _ M) Ha0). cbn [bind].
    rewrite <- (run_override LA _ T dt Z). rewrite <- H. f_equal. unfold override_dt, stepped_in, t_set. now destruct (negb (dt =? n0)).
  - intros (bs' & M & H). rewrite (run_is_run_until LA _ _ _ _ Z) in H. inv_bind H. rename a into x1. pose proof (F2_sym _ _ _ kin_sym (light_kins _ _ _ _ M)) as F. pose proof (new_alike _ _ _ _ F Ha) as H0. rewrite H0. cbn [bind].
    unfold mtln_add_external_field. destruct (new_order _ _ _ Ha) as [Eb _]. fold (named bs') in Eb. rewrite override_bundles. cbn [t_bundles]. rewrite (proj2 (light_all dt f dist bs _) (ex_intro _ bs' (conj M eq_refl))). cbn [bind].
    rewrite <- (run_override LA _ T dt Z) in H. rewrite <- H. f_equal. destruct x1 as [B W D Tm]. cbn [t_bundles t_networks t_dt t_time] in *. subst B. unfold override_dt, stepped_in, t_set. now destruct (negb (dt =? n0)).
Qed.
(** what the outermost conductors were driven with before does not matter *)
Lemma illuminate_same n (u du : mat N) (s s' : core N) f dist r : lit_arrays s -> lit_arrays s' -> s' = set_fields s (k_eL s') (k_eT s') -> (0 < n <= k_n s)%nat -> length u = S (k_N s) -> length du = k_N s ->
  (forall c k, (n <= c)%nat -> eLong s' c k = eLong s c k /\ eTran s' c k = eTran s c k) ->
  illuminate LA integ true n u du s f dist [] = Ok r -> illuminate LA integ true n u du s' f dist [] = Ok r.
Proof.
  intros Ar Ar1 Es Hn Lu Ld Out H. assert (En : k_n s' = k_n s) by (rewrite Es; reflexivity). assert (EN : k_N s' = k_N s) by (rewrite Es; reflexivity).
  assert (Ev : get_phase_velocities LA s' = get_phase_velocities LA s) by (rewrite Es; reflexivity).
  destruct (illuminate_spec LA integ true n u du s f dist [] r Ar Hn Lu Ld H) as (_ & [k0 Hk0] & Lt2).
  unfold illuminate in H |- *. inv_bind H. apply passert_Ok' in Ha. rewrite Ha. cbn [passert bind]. inv_bind H. rewrite EN. rewrite Ha0. cbn [bind]. rename a0 into is.
  destruct (lit_cells_in _ _ _ _ _ Ha0) as (NDi & Ii & La). assert (Ne : is <> []) by (intros ->; now apply Ii in Hk0). assert (Nc : ~ In (k_N s) is) by (intros X; apply Ii in X; apply Lt2 in X; lia).
  inv_bind H. apply OkI in H. subst r. rewrite Ev.
  destruct (all_writes integ _ _ _ _ _ _ _ Ne Nc _ _ _ _ _ Ha1) as (wl & wt & -> & P1 & P2 & _ & _ & _ & Q4). rewrite Q4. cbn [bind fst snd].
  assert (Lit : forall k, (k < k_N s)%nat -> is_lit true u (k_N s) [] k) by (intros k Hk; unfold is_lit, first_lit, after_lit; lia).
  assert (Over : forall (A : Type) (d : A) (l : list A) k, (length l <= k)%nat -> nth k l d = d) by (intros; now apply nth_overflow).
  assert (X1 : puts (k_eL s') wl = puts (k_eL s) wl).
  { apply (puts_last wl _ _ (fun _ => n0)).
    - intros c. destruct Ar as (A1 & A2 & A3), Ar1 as (B1 & B2 & B3). split; [congruence|]. destruct (Nat.lt_ge_cases c (k_n s)) as [L|L].
      + rewrite (proj1 (A3 c L)), (proj1 (B3 c ltac:(congruence))). exact EN.
      + rewrite !nth_overflow by lia. reflexivity.
    - intros c k X. rewrite P1, in_spots, in_seq, Ii in X. destruct (Nat.lt_ge_cases c n) as [L|L]; [|exact (proj1 (Out c k L))].
      destruct (Nat.lt_ge_cases k (k_N s)) as [K|K]; [exfalso; apply X; split; [lia|auto]|]. destruct Ar as (_ & _ & A3), Ar1 as (_ & _ & B3).
      rewrite !nth_overflow; [reflexivity|rewrite (proj1 (A3 c ltac:(lia))); exact K|rewrite (proj1 (B3 c ltac:(lia))); lia]. }
  assert (X2 : puts (k_eT s') wt = puts (k_eT s) wt).
  { apply (puts_last wt _ _ (fun _ => n0)).
    - intros c. destruct Ar as (A1 & A2 & A3), Ar1 as (B1 & B2 & B3). split; [congruence|]. destruct (Nat.lt_ge_cases c (k_n s)) as [L|L].
      + rewrite (proj2 (A3 c L)), (proj2 (B3 c ltac:(congruence))). now rewrite EN.
      + rewrite !nth_overflow by lia. reflexivity.
    - intros c k X. rewrite P2, in_spots, in_seq, in_app_iff, Ii in X. destruct (Nat.lt_ge_cases c n) as [L|L]; [|exact (proj2 (Out c k L))].
      destruct (Nat.lt_ge_cases k (k_N s)) as [K|K]; [exfalso; apply X; split; [lia|auto]|]. destruct (Nat.eq_dec k (k_N s)) as [->|K2]; [exfalso; apply X; split; [lia|right; now left]|]. destruct Ar as (_ & _ & A3), Ar1 as (_ & _ & B3).
      rewrite !nth_overflow; [reflexivity|rewrite (proj2 (A3 c ltac:(lia))); lia|rewrite (proj2 (B3 c ltac:(lia))); lia]. }
  rewrite X1, X2. f_equal. rewrite Es. reflexivity.
Qed.
Lemma light_same (b b' : bundle N) f dist r : reachable_bundle LA b -> same_but_outer_fields b b' -> bundle_add_external_field LA integ b f dist [] = Ok r -> bundle_add_external_field LA integ b' f dist [] = Ok r.
Proof.
  intros R (E & A & A' & Out) H. destruct (outer_facts LA b R) as (n & On & Hn & Lu & Ld). unfold bundle_add_external_field in *. rewrite On in H. cbn [bind] in H. inv_bind H. apply OkI in H. subst r.
  assert (On' : outer_conductors b' = Ok n) by (rewrite E; exact On). rewrite On'. cbn [bind].
  assert (Eu : b_u b' = b_u b) by (rewrite E; reflexivity). assert (Ed : b_du b' = b_du b) by (rewrite E; reflexivity). rewrite Eu, Ed.
  rewrite (illuminate_same n (b_u b) (b_du b) (b_core b) (b_core b') f dist a A A'); [cbn [bind]; rewrite E; reflexivity|rewrite E at 1; reflexivity|exact Hn|exact Lu|exact Ld|exact (Out n On)|exact Ha].
Qed.
Lemma field_replaces (bs bs' : list (bundle N)) ws T dt f dist x : @zero_is_zero N -> Forall (reachable_bundle LA) bs -> Forall2 same_but_outer_fields bs bs' ->
  parser_run_field LA integ bs ws T dt f dist = Ok x -> parser_run_field LA integ bs' ws T dt f dist = Ok x.
Proof.
  intros Z R F H. apply (field_first _ _ _ _ _ _ _ Z) in H as (l & M & H). apply (field_first _ _ _ _ _ _ _ Z). exists l. split; [|exact H]. clear H.
  revert l M. induction F as [|b b' bs bs' S F IH]; intros l M; cbn [mapM] in *; [exact M|]. inversion R; subst. inv_bind M. inv_bind M. apply OkI in M. subst l. rewrite (light_same b b' f dist a); auto. cbn [bind]. rewrite (IH ltac:(assumption) _ Ha0). reflexivity.
Qed.
(** one bundle only *)
Lemma dset_named dt name b' (bs : list (bundle N)) : NoDup (map (@b_name N) bs) -> In name (map (@b_name N) bs) -> b_name b' = name ->
  dset String.eqb name (if negb (dt =? n0) then with_step dt b' else b') (stepped_in dt (named bs)) = stepped_in dt (named (replaced bs name b')).
Proof.
  intros ND Hin Hn. unfold stepped_in, set_all_dt, named, replaced. destruct (negb (dt =? n0)); (induction bs as [|b bs IH]; [destruct Hin|]; cbn [map fst snd dset] in *; inversion ND as [|? ? X ND']; subst;
    destruct (String.eqb_spec (b_name b') (b_name b)) as [E|E]; [|rewrite IH; [reflexivity|assumption|destruct Hin; [congruence|assumption]]];
    f_equal; [rewrite E; reflexivity|]; rewrite !map_map; apply map_ext_in; intros c Hc; cbn [fst snd]; destruct (String.eqb_spec (b_name b') (b_name c)) as [E'|]; [|reflexivity]; exfalso; apply X; rewrite <- E, E'; now apply in_map).
Qed.
Lemma nodup_names (bs : list (bundle N)) b c : NoDup (map (@b_name N) bs) -> In b bs -> In c bs -> b_name c = b_name b -> c = b.
Proof.
  induction bs as [|a bs IH]; [intros _ []|]. intros ND [->|Hb] [->|Hc] E; try reflexivity; cbn [map] in ND; inversion ND as [|? ? X ND']; subst; auto; exfalso; apply X; [rewrite <- E|rewrite E]; now apply in_map.
Qed.
Lemma replaced_kin (bs : list (bundle N)) name b b' : NoDup (map (@b_name N) bs) -> In b bs -> b_name b = name -> kin b b' -> Forall2 kin bs (replaced bs name b').
Proof.
  intros ND Hin Hn K. unfold replaced. assert (G : forall l, incl l bs -> Forall2 kin l (map (fun b0 => if String.eqb name (b_name b0) then b' else b0) l)).
  { induction l as [|c l IH]; intros I; cbn [map]; constructor; [|apply IH; intros z Hz; apply I; now right]. destruct (String.eqb_spec name (b_name c)) as [E|]; [|apply kin_refl].
    assert (c = b) by (apply (nodup_names bs); [exact ND|exact Hin|apply I; now left|congruence]). now subst. }
  apply G, incl_refl.
Qed.
Lemma stepped_get dt name (bs : list (bundle N)) : dget String.eqb name (stepped_in dt (named bs)) = match dget String.eqb name (named bs) with Some b => Some (if negb (dt =? n0) then with_step dt b else b) | None => None end.
Proof. unfold stepped_in. destruct (negb (dt =? n0)); [apply dget_set_all|]. now destruct (dget String.eqb name (named bs)). Qed.
Lemma light_maybe dt (b : bundle N) f dist loc : bundle_add_external_field LA integ (if negb (dt =? n0) then with_step dt b else b) f dist loc =
  (b' <- bundle_add_external_field LA integ b f dist loc ;; Ok (if negb (dt =? n0) then with_step dt b' else b')).
Proof. destruct (negb (dt =? n0)); [apply light_step|]. now destruct (bundle_add_external_field LA integ b f dist loc). Qed.
Lemma local_first (bs : list (bundle N)) ws T dt name f dist loc x : @zero_is_zero N -> parser_run_local LA integ bs ws T dt name f dist loc = Ok x <->
  exists b b', In b bs /\ b_name b = name /\ bundle_add_external_field LA integ b f dist loc = Ok b' /\ parser_run LA (replaced bs name b') ws T dt = Ok x.
Proof.
  intros Z. unfold parser_run_local. rewrite parser_net_new. split.
  - intros H. inv_bind H. inv_bind Ha. rename a0 into x0. apply OkI in Ha. subst a. inv_bind H. unfold mtln_add_localized_external_field in Ha. inv_bind Ha. inv_bind Ha. apply OkI in Ha. subst a. destruct (new_order _ _ _ Ha0) as [Eb ND]. fold (named bs) in Eb.
    rewrite override_bundles, Eb, stepped_get in Ha1. destruct (dget String.eqb name (named bs)) as [b|] eqn:G; [|discriminate Ha1]. cbn [of_option] in Ha1. apply OkI in Ha1. subst a0. rewrite light_maybe in Ha2. inv_bind Ha2. apply OkI in Ha2. subst a1.
    apply named_get in G as [Hin Hn]. exists b, a. repeat (split; [assumption|]). pose proof (light_kin _ _ _ _ _ Ha) as K. rewrite (run_is_run_until LA _ _ _ _ Z), (new_alike _ _ _ _ (replaced_kin _ _ _ _ ND Hin Hn K) Ha0). cbn [bind].
    rewrite <- (run_override LA _ T dt Z). rewrite <- H. f_equal. rewrite override_bundles, Eb, dset_named; [|exact ND|rewrite <- Hn; now apply in_map|destruct K as [K _]; congruence]. unfold override_dt, stepped_in, t_set. now destruct (negb (dt =? n0)).
  - intros (b & b' & Hin & Hn & L & H). rewrite (run_is_run_until LA _ _ _ _ Z) in H. inv_bind H. rename a into x1. pose proof (light_kin _ _ _ _ _ L) as K. destruct (new_order _ _ _ Ha) as [Eb ND]. fold (named (replaced bs name b')) in Eb.
    assert (Nm : map (@b_name N) (replaced bs name b') = map (@b_name N) bs).
    { unfold replaced. rewrite map_map. apply map_ext. intros c. destruct (String.eqb_spec name (b_name c)); [|reflexivity]. destruct K as [K _]. congruence. }
    rewrite Nm in ND. pose proof (new_alike _ _ _ _ (F2_sym _ _ _ kin_sym (replaced_kin _ _ _ _ ND Hin Hn K)) Ha) as H0. rewrite H0. cbn [bind].
    unfold mtln_add_localized_external_field. rewrite override_bundles. cbn [t_bundles]. rewrite stepped_get. rewrite (sget_in name (named bs) b); [|rewrite named_keys; exact ND|unfold named; apply in_map_iff; exists b; split; [now rewrite Hn|exact Hin]].
    cbn [of_option bind]. rewrite light_maybe, L. cbn [bind]. rewrite dset_named; [|exact ND|rewrite <- Hn; now apply in_map|destruct K as [K _]; congruence].
    rewrite <- (run_override LA _ T dt Z) in H. rewrite <- H. f_equal. destruct x1 as [B W D Tm]. cbn [t_bundles t_networks t_dt t_time] in *. subst B. unfold override_dt, stepped_in, t_set. now destruct (negb (dt =? n0)).
Qed.
Lemma local_unknown (bs : list (bundle N)) ws T dt name f dist loc x0 : mtln_new bs ws = Ok x0 -> ~ In name (map (@b_name N) bs) -> parser_run_local LA integ bs ws T dt name f dist loc = Err KeyError.
Proof.
  intros H Hn. unfold parser_run_local. rewrite parser_net_new, H. cbn [bind]. unfold mtln_add_localized_external_field. rewrite override_bundles. destruct (new_order _ _ _ H) as [Eb _]. fold (named bs) in Eb. rewrite Eb, stepped_get.
  destruct (dget String.eqb name (named bs)) as [b|] eqn:G; [|reflexivity]. exfalso. apply Hn. apply named_get in G as [G <-]. now apply in_map.
Qed.
End RunsField.
