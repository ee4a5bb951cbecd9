(** A network of lines step by step (any [num]). *)
From Coq Require Import String List Arith ZArith Bool Permutation Lia.
From Verif Require Import Num Py Arr ArrFacts Utils Probes Dispersive Line LineFacts Bundle Networks Mtln SpecLine SpecBundle SpecNet SpecMtln
  BundleFacts NetFacts NetBuild NetPlace.
Import ListNotations.

Section MtlnFacts.
Context {N : num}.
Local Open Scope num_scope.
Variable LA : lapack N.
Implicit Types x y : mtln N.
Implicit Types bs : bdict N.

(** *** dictionaries *)
Lemma sget_some {V} k (d : list (string * V)) v : dget String.eqb k d = Some v -> In (k, v) d.
Proof. induction d as [|[a u] d IH]; cbn [dget]; [discriminate|]. destruct (String.eqb_spec k a) as [Ea|]; [intros H; injection H as <-; subst; now left|right; auto]. Qed.
Lemma sget_in {V} k (d : list (string * V)) v : NoDup (map fst d) -> In (k, v) d -> dget String.eqb k d = Some v.
Proof.
  induction d as [|[a u] d IH]; cbn [dget map fst]; intros ND H; [destruct H|]. inversion ND as [|? ? H1 H2]; subst.
  destruct H as [E|H]; [injection E as -> ->; now rewrite String.eqb_refl|]. destruct (String.eqb_spec k a) as [Ea|]; [|auto].
  exfalso. apply H1. apply in_map_iff. exists (k, v). split; [exact Ea|exact H].
Qed.
Lemma sget_perm {V} k (d d' : list (string * V)) : NoDup (map fst d) -> Permutation d d' -> dget String.eqb k d' = dget String.eqb k d.
Proof.
  intros ND P. assert (ND' : NoDup (map fst d')) by (eapply Permutation_NoDup; [apply Permutation_map; exact P|exact ND]).
  destruct (dget String.eqb k d) as [v|] eqn:E.
  - apply sget_in; [exact ND'|]. eapply Permutation_in; [exact P|]. now apply sget_some.
  - destruct (dget String.eqb k d') as [v|] eqn:E'; [|reflexivity]. apply sget_some in E'. apply Permutation_sym in P.
    rewrite (sget_in k d v ND (Permutation_in _ P E')) in E. discriminate E.
Qed.
Lemma dmem_in {V} k (d : list (string * V)) : dmem String.eqb k d = true <-> In k (map fst d).
Proof.
  unfold dmem. induction d as [|[a u] d IH]; cbn [dget map fst In]; [split; [discriminate|intros []]|].
  destruct (String.eqb_spec k a) as [Ea|]; [split; auto|]. rewrite IH. split; [auto|intros [E|E]; [congruence|exact E]].
Qed.

(** *** map_bundles *)
Lemma map_bundles_F2 f bs bs' : map_bundles f bs = Ok bs' -> Forall2 (fun kb kb' => fst kb' = fst kb /\ f (snd kb) = Ok (snd kb')) bs bs'.
Proof.
  intros H. apply mapM_Ok in H. eapply F2_impl; [|exact H]. intros [k b] [k' b'] E. cbn [fst snd] in *. inv_bind E.
  injection E as <- <-. auto.
Qed.
Lemma map_bundles_intro f bs bs' : Forall2 (fun kb kb' => fst kb' = fst kb /\ f (snd kb) = Ok (snd kb')) bs bs' -> map_bundles f bs = Ok bs'.
Proof.
  intros H. apply mapM_Ok_intro. eapply F2_impl; [|exact H]. intros [k b] [k' b'] [E1 E2]. cbn [fst snd] in *. rewrite E2. cbn [bind]. now subst.
Qed.
Lemma map_bundles_get f bs bs' name b : map_bundles f bs = Ok bs' -> dget String.eqb name bs = Some b ->
  exists b', f b = Ok b' /\ dget String.eqb name bs' = Some b'.
Proof.
  intros H. apply map_bundles_F2 in H. induction H as [|[k c] [k' c'] l l' [E1 E2] _ IH]; cbn [dget fst snd] in *; [discriminate|].
  subst k'. destruct (String.eqb name k); [|exact IH]. intros E. injection E as <-. eauto.
Qed.
Lemma map_bundles_back f bs bs' name b' : map_bundles f bs = Ok bs' -> dget String.eqb name bs' = Some b' ->
  exists b, f b = Ok b' /\ dget String.eqb name bs = Some b.
Proof.
  intros H. apply map_bundles_F2 in H. induction H as [|[k c] [k' c'] l l' [E1 E2] _ IH]; cbn [dget fst snd] in *; [discriminate|].
  subst k'. destruct (String.eqb name k); [|exact IH]. intros E. injection E as <-. eauto.
Qed.
Lemma map_bundles_keys f bs bs' : map_bundles f bs = Ok bs' -> map fst bs' = map fst bs.
Proof. intros H. apply map_bundles_F2 in H. induction H as [|[k c] [k' c'] l l' [E1 E2] _ IH]; cbn [map fst] in *; congruence. Qed.

(** *** the network phase: first all networks advance, then all nodes write *)
Definition puts_of (w : network N) : list (node * N) := map (fun kn => (snd kn, get (w_v w) (nd_index (snd kn)))) (w_conns w).
Definition puts (ws : list (networkd N)) : list (node * N) := flat_map puts_of (flat_map tiers ws).
Definition put_all (l : list (node * N)) bs : res (bdict N) := foldM (fun bs nv => put_voltage bs (fst nv) (snd nv)) l bs.
Lemma foldM_map {A B S} (g : A -> B) (f : S -> B -> res S) l s : foldM f (map g l) s = foldM (fun s a => f s (g a)) l s.
Proof. revert s. induction l as [|a l IH]; intros s; cbn [map foldM]; [reflexivity|]. destruct (f s (g a)); cbn [bind]; [apply IH|reflexivity]. Qed.
Lemma foldM_flat {A B S} (g : A -> list B) (f : S -> B -> res S) l s : foldM f (flat_map g l) s = foldM (fun s a => foldM f (g a) s) l s.
Proof.
  revert s. induction l as [|a l IH]; intros s; cbn [flat_map foldM]; [reflexivity|]. rewrite foldM_app.
  destruct (foldM f (g a) s); cbn [bind]; [apply IH|reflexivity].
Qed.
Lemma nw_puts w bs : nw_update_voltages w bs = put_all (puts_of w) bs.
Proof. unfold nw_update_voltages, put_all, puts_of. rewrite foldM_map. reflexivity. Qed.
Lemma nwd_puts d bs : nwd_update_voltages d bs = put_all (flat_map puts_of (tiers d)) bs.
Proof.
  unfold nwd_update_voltages, put_all, tiers. rewrite foldM_flat, foldM_map. apply foldM_ext. intros s [l w] _. apply nw_puts.
Qed.
Lemma networks_two t dt ws bs ws' bs' : advance_networks_voltage LA t dt ws bs = Ok (ws', bs') <->
  mapM (fun w => nwd_advance_voltage LA w t dt) ws = Ok ws' /\ put_all (puts ws') bs = Ok bs'.
Proof.
  unfold advance_networks_voltage.
  assert (G : forall acc, foldM (fun acc (w : networkd N) => w' <- nwd_advance_voltage LA w t dt ;; b' <- nwd_update_voltages w' (snd acc) ;; Ok (fst acc ++ [w'], b')) ws (acc, bs) = Ok (ws', bs') <->
     exists ws1, ws' = acc ++ ws1 /\ mapM (fun w => nwd_advance_voltage LA w t dt) ws = Ok ws1 /\ put_all (puts ws1) bs = Ok bs').
  { revert bs. induction ws as [|w ws IH]; intros bs acc; cbn [foldM mapM].
    - split.
      + intros H. injection H as <- <-. exists []. rewrite app_nil_r. auto.
      + intros (ws1 & -> & E & H). injection E as <-. cbn in H. injection H as <-. now rewrite app_nil_r.
    - split.
      + intros H. inv_bind H. inv_bind Ha. inv_bind Ha. injection Ha as <-. cbn [snd fst] in *. apply IH in H as (ws1 & E & E1 & E2).
        exists (a0 :: ws1). split; [rewrite E, <- app_assoc; reflexivity|]. rewrite Ha0. cbn [bind]. rewrite E1. cbn [bind]. split; [reflexivity|].
        unfold puts, put_all. cbn [flat_map]. rewrite flat_map_app, foldM_app. fold (put_all (flat_map puts_of (tiers a0)) bs). rewrite <- nwd_puts, Ha1. exact E2.
      + intros (ws1 & -> & E & H). inv_bind E. inv_bind E. injection E as <-. rewrite Ha. cbn [bind snd fst].
        unfold puts, put_all in H. cbn [flat_map] in H. rewrite flat_map_app, foldM_app in H. fold (put_all (flat_map puts_of (tiers a)) bs) in H. rewrite <- nwd_puts in H. inv_bind H.
        rewrite Ha1. cbn [bind]. apply IH. exists a0. rewrite <- app_assoc. auto. }
  rewrite (G []). cbn [app]. split; [intros (ws1 & -> & H); exact H|intros H; eauto].
Qed.

(** *** writes *)
Definition hits (b : bundle N) (bn : string) (nd : node) (r k : nat) : bool :=
  String.eqb (nd_bundle nd) bn && (nd_row nd =? r)%nat && ((if nd_end nd then b_cells b else 0%nat) =? k)%nat.
Lemma hits_iff b bn kn r k : hits b bn (snd kn) r k = true <-> writes b bn kn r k.
Proof. apply writesb_iff. Qed.
Lemma put_all_val l bs bs' : put_all l bs = Ok bs' ->
  map fst bs' = map fst bs /\
  forall bn b, dget String.eqb bn bs = Some b -> vgrid b ->
    exists b', dget String.eqb bn bs' = Some b' /\ only_voltages b b' /\ vgrid b' /\
      forall r k, b_volt b' r k = fold_left (fun acc nv => if hits b bn (fst nv) r k then snd nv else acc) l (b_volt b r k).
Proof.
  revert bs'. induction l as [|nv l IH] using rev_ind; intros bs' H; unfold put_all in H.
  - cbn [foldM] in H. injection H as <-. split; [reflexivity|]. intros bn b Hb G. exists b. split; [exact Hb|]. split; [apply only_refl|]. split; [exact G|reflexivity].
  - rewrite foldM_app in H. inv_bind H. destruct (IH _ Ha) as [K F]. cbn [foldM] in H. inv_bind H. injection H as <-.
    apply put_voltage_spec in Ha0 as (b2 & Hb2 & Hr & ->). split; [erewrite sset_keys; eauto|].
    intros bn b Hb G. destruct (F bn b Hb G) as (b1 & Hb1 & (v & Eb1) & G1 & V). rewrite sget_set. destruct (String.eqb_spec bn (nd_bundle (fst nv))) as [Eb|Nb].
    + subst bn. assert (b2 = b1) by congruence. subst b2.
      eexists. split; [reflexivity|]. split; [|split].
      * rewrite Eb1. unfold put_end. cbn [b_set_core b_set b_core set_v k_v k_N]. eexists. reflexivity.
      * now apply vgrid_put.
      * intros r k. rewrite fold_left_app. cbn [fold_left]. rewrite <- V. unfold b_volt, put_end. cbn [b_set_core b_set b_core set_v k_v].
        assert (EN : k_N (b_core b1) = b_cells b) by (rewrite Eb1; reflexivity).
        rewrite (get2_upd2 _ _ _ _ _ _ _ _ G1); [|exact Hr|destruct (nd_end (fst nv)); lia].
        unfold hits. rewrite String.eqb_refl, EN. cbn [andb]. reflexivity.
    + exists b1. split; [exact Hb1|]. split; [exists v; exact Eb1|]. split; [exact G1|]. intros r k. rewrite fold_left_app. cbn [fold_left]. rewrite <- V.
      unfold hits. destruct (String.eqb_spec (nd_bundle (fst nv)) bn); [congruence|]. reflexivity.
Qed.
Lemma in_puts ws nv : In nv (puts ws) -> exists w kn, In w (flat_map tiers ws) /\ In kn (w_conns w) /\ nv = (snd kn, get (w_v w) (nd_index (snd kn))).
Proof. unfold puts, puts_of. intros H. apply in_flat_map in H as (w & Hw & H). apply in_map_iff in H as (kn & <- & Hk). eauto. Qed.

(** writes preserve any relation closed under writing one end *)
Lemma put_all_marches l bs bs' : put_all l bs = Ok bs' -> forall name b, dget String.eqb name bs = Some b ->
  exists b', dget String.eqb name bs' = Some b' /\ marches LA b b' /\ b_probes b' = b_probes b /\ only_voltages b b'.
Proof.
  revert bs'. induction l as [|nv l IH] using rev_ind; intros bs' H name b Hb; unfold put_all in H.
  - cbn [foldM] in H. injection H as <-. exists b. split; [exact Hb|]. split; [constructor|]. split; [reflexivity|apply only_refl].
  - rewrite foldM_app in H. inv_bind H. destruct (IH _ Ha name b Hb) as (b1 & E1 & M & P & v & O). cbn [foldM] in H. inv_bind H. injection H as <-.
    apply put_voltage_spec in Ha0 as (b2 & Hb2 & Hr & ->). rewrite sget_set. destruct (String.eqb_spec name (nd_bundle (fst nv))) as [En|].
    + assert (b2 = b1) by congruence. subst b2. eexists. split; [reflexivity|]. split; [now apply ma_end|]. split; [exact P|].
      rewrite O. unfold put_end. cbn [b_set_core b_set b_core set_v k_v k_N]. eexists. reflexivity.
    + exists b1. split; [exact E1|]. split; [exact M|]. split; [exact P|exists v; exact O].
Qed.

(** *** one step *)
Record step_of x bs1 (ws : list (networkd N)) bs2 bs3 y : Prop := {
  so_volt : map_bundles (bundle_advance_voltage (t_time x) (t_dt x)) (t_bundles x) = Ok bs1;
  so_nets : mapM (fun w => nwd_advance_voltage LA w (t_time x) (t_dt x)) (t_networks x) = Ok ws;
  so_puts : put_all (puts ws) bs1 = Ok bs2;
  so_curr : map_bundles (bundle_advance_current (t_time x) (t_dt x)) bs2 = Ok bs3;
  so_back : mapM (fun w => nwd_update_currents w bs3) ws = Ok (t_networks y);
  so_probes : map_bundles (bundle_update_probes (t_time x + t_dt x)) bs3 = Ok (t_bundles y);
  so_dt : t_dt y = t_dt x;
  so_time : t_time y = t_time x + t_dt x
}.
Lemma step_split x y : mtln_step LA x = Ok y <-> exists bs1 ws bs2 bs3, step_of x bs1 ws bs2 bs3 y.
Proof.
  unfold mtln_step. cbv zeta. split.
  - intros H. inv_bind H. inv_bind H. destruct a0 as [ws bs2]. apply networks_two in Ha0 as [Hn Hp]. cbn [fst snd] in H. inv_bind H. inv_bind H. inv_bind H.
    apply (f_equal (fun r => match r with Ok a => a | _ => y end)) in H. subst y. exists a, ws, bs2, a0. split; auto.
  - intros (bs1 & ws & bs2 & bs3 & [H1 H2 H3 H4 H5 H6 H7 H8]). rewrite H1. cbn [bind].
    rewrite (proj2 (networks_two (t_time x) (t_dt x) (t_networks x) bs1 ws bs2) (conj H2 H3)). cbn [bind fst snd].
    rewrite H4. cbn [bind]. rewrite H5. cbn [bind]. rewrite H6. cbn [bind]. destruct y as [yb yw yd yt]. cbn [t_dt t_time t_bundles t_networks] in *. now subst.
Qed.
Lemma step_bundle x y name b : mtln_step LA x = Ok y -> bundle_of x name = Some b ->
  exists b1 b2 b3 b', bundle_advance_voltage (t_time x) (t_dt x) b = Ok b1 /\ marches LA b1 b2 /\ only_voltages b1 b2 /\ b_probes b2 = b_probes b1 /\
    bundle_advance_current (t_time x) (t_dt x) b2 = Ok b3 /\ bundle_update_probes (t_time y) b3 = Ok b' /\ bundle_of y name = Some b'.
Proof.
  intros H Hb. apply step_split in H as (bs1 & ws & bs2 & bs3 & [H1 H2 H3 H4 H5 H6 H7 H8]).
  destruct (map_bundles_get _ _ _ _ _ H1 Hb) as (b1 & V & G1). destruct (put_all_marches _ _ _ H3 _ _ G1) as (b2 & G2 & M & P & O).
  destruct (map_bundles_get _ _ _ _ _ H4 G2) as (b3 & C & G3). destruct (map_bundles_get _ _ _ _ _ H6 G3) as (b' & U & G4).
  exists b1, b2, b3, b'. rewrite H8. repeat (split; [assumption|]). exact G4.
Qed.
Lemma step_keys x y : mtln_step LA x = Ok y -> map fst (t_bundles y) = map fst (t_bundles x).
Proof.
  intros H. apply step_split in H as (bs1 & ws & bs2 & bs3 & [H1 H2 H3 H4 H5 H6 H7 H8]).
  rewrite (map_bundles_keys _ _ _ H6), (map_bundles_keys _ _ _ H4), (proj1 (put_all_val _ _ _ H3)), (map_bundles_keys _ _ _ H1). reflexivity.
Qed.
Lemma step_clock x y : mtln_step LA x = Ok y -> t_dt y = t_dt x /\ t_time y = t_time x + t_dt x.
Proof. intros H. apply step_split in H as (bs1 & ws & bs2 & bs3 & [H1 H2 H3 H4 H5 H6 H7 H8]). auto. Qed.
Lemma keys_get {V W} (d : list (string * V)) (d' : list (string * W)) k : map fst d' = map fst d -> (exists v, dget String.eqb k d = Some v) <-> (exists v, dget String.eqb k d' = Some v).
Proof.
  revert d'. induction d as [|[a u] d IH]; intros [|[a' u'] d'] E; cbn [map fst] in E; try discriminate E; [split; intros [v H]; discriminate H|].
  injection E as -> E. cbn [dget]. destruct (String.eqb k a); [split; eauto|]. now apply IH.
Qed.

(** networks of a step, one by one *)
Lemma tiers_F2 (f : network N -> res (network N)) (d d' : networkd N) : mapM (fun lw => w <- f (snd lw) ;; Ok (fst lw, w)) d = Ok d' ->
  Forall2 (fun w w' => f w = Ok w') (tiers d) (tiers d').
Proof.
  intros H. apply mapM_Ok in H. induction H as [|[l w] [l' w'] d d' E _ IH]; cbn [tiers map snd]; constructor; [|exact IH].
  cbn [fst snd] in *. inv_bind E. injection E as <- <-. assumption.
Qed.
Lemma F2_app {A B} (P : A -> B -> Prop) l1 l1' l2 l2' : Forall2 P l1 l1' -> Forall2 P l2 l2' -> Forall2 P (l1 ++ l2) (l1' ++ l2').
Proof. induction 1; cbn; auto. Qed.
Lemma nets_F2 (f : network N -> res (network N)) (ws ws' : list (networkd N)) :
  mapM (fun d : networkd N => mapM (fun lw => w <- f (snd lw) ;; Ok (fst lw, w)) d) ws = Ok ws' ->
  Forall2 (fun w w' => f w = Ok w') (flat_map tiers ws) (flat_map tiers ws').
Proof.
  intros H. apply mapM_Ok in H. induction H as [|d d' ws ws' E _ IH]; cbn [flat_map]; [constructor|]. apply F2_app; [now apply tiers_F2|exact IH].
Qed.
Lemma step_nets x y : mtln_step LA x = Ok y ->
  Forall2 (fun w w' => exists w1 (bs : bdict N), nw_advance_voltage LA w (t_time x) (t_dt x) = Ok w1 /\ nw_update_currents w1 bs = Ok w') (nets x) (nets y).
Proof.
  intros H. apply step_split in H as (bs1 & ws & bs2 & bs3 & [H1 H2 H3 H4 H5 H6 H7 H8]).
  pose proof (nets_F2 (fun w => nw_advance_voltage LA w (t_time x) (t_dt x)) _ _ H2) as F1.
  pose proof (nets_F2 (fun w => nw_update_currents w bs3) _ _ H5) as F2. fold (nets x) in F1. fold (nets y) in F2.
  revert F2. generalize (nets y). induction F1 as [|w w1 l l1 E _ IH]; intros l2 F2; inversion F2; subst; constructor; eauto.
Qed.

(** *** what some program can hold *)
Record ninv x : Prop := {
  nv_keys : NoDup (map fst (t_bundles x));
  nv_name : Forall (fun kb => fst kb = b_name (snd kb)) (t_bundles x);
  nv_reach : Forall (fun kb => reachable_bundle LA (snd kb)) (t_bundles x);
  nv_nets : Forall (fun w => exists ds, net_history LA ds w) (nets x)
}.
Lemma bundle_in x name b : ninv x -> bundle_of x name = Some b -> reachable_bundle LA b /\ b_name b = name.
Proof.
  intros I H. apply sget_some in H. pose proof (nv_name _ I) as A. pose proof (nv_reach _ I) as B. rewrite Forall_forall in A, B.
  specialize (A _ H). specialize (B _ H). cbn [fst snd] in *. auto.
Qed.
Lemma marches_reach b b' : reachable_bundle LA b -> marches LA b b' -> reachable_bundle LA b' /\ b_name b' = b_name b.
Proof.
  intros [b0 H] M. split; [exists b0; eapply bh_march; eauto|]. destruct (history_binv LA _ _ H) as [I _]. destruct (marches_binv LA b b' M I) as [_ K]. apply (bk_name _ _ K).
Qed.
Lemma marches_trans a b c : marches LA a b -> marches LA b c -> marches LA a c.
Proof. intros H. induction 1; [exact H|eapply ma_dt|eapply ma_prepare|eapply ma_volt|eapply ma_end|eapply ma_curr|eapply ma_probes]; eauto. Qed.
Lemma step_marches x y name b : mtln_step LA x = Ok y -> bundle_of x name = Some b -> exists b', bundle_of y name = Some b' /\ marches LA b b'.
Proof.
  intros H Hb. destruct (step_bundle _ _ _ _ H Hb) as (b1 & b2 & b3 & b' & V & M & _ & _ & C & U & G). exists b'. split; [exact G|].
  eapply ma_probes; [|exact U]. eapply ma_curr; [|exact C]. eapply marches_trans; [|exact M]. eapply ma_volt; [constructor|exact V].
Qed.
(** the invariant follows from what happens to each bundle and network *)
Lemma ninv_next x y : ninv x -> map fst (t_bundles y) = map fst (t_bundles x) ->
  (forall name b, bundle_of x name = Some b -> exists b', bundle_of y name = Some b' /\ reachable_bundle LA b' /\ b_name b' = b_name b) ->
  Forall (fun w => exists ds, net_history LA ds w) (nets y) -> ninv y.
Proof.
  intros I K F W. assert (ND : NoDup (map fst (t_bundles y))) by (rewrite K; apply (nv_keys _ I)).
  assert (G : forall kb, In kb (t_bundles y) -> fst kb = b_name (snd kb) /\ reachable_bundle LA (snd kb)).
  { intros [k b'] Hk. pose proof (sget_in k (t_bundles y) b' ND Hk) as E.
    destruct (proj2 (keys_get (t_bundles x) (t_bundles y) k K) (ex_intro _ _ E)) as [b Hb].
    destruct (F k b Hb) as (b2 & E2 & R & En). unfold bundle_of in E2. assert (b2 = b') by congruence. subst b2. cbn [fst snd].
    split; [|exact R]. rewrite En. symmetry. apply (bundle_in x k b I Hb). }
  split; [exact ND| | |exact W]; apply Forall_forall; intros kb Hk; apply (G kb Hk).
Qed.
Lemma ninv_step x y : ninv x -> mtln_step LA x = Ok y -> ninv y.
Proof.
  intros I H. apply (ninv_next x y I (step_keys _ _ H)).
  - intros name b Hb. destruct (step_marches _ _ _ _ H Hb) as (b' & E & M). exists b'. split; [exact E|]. apply (marches_reach b b'); [|exact M]. apply (bundle_in x name b I Hb).
  - pose proof (step_nets _ _ H) as F. pose proof (nv_nets _ I) as W. revert W F. generalize (nets x) (nets y). intros l l' W F.
    induction F as [|w w' l l' (w1 & bs & E1 & E2) _ IH]; inversion W as [|? ? (ds & Hw) W']; subst; constructor; auto.
    exists ds. eapply nh_curr; [|exact E2]. eapply nh_volt; eauto.
Qed.
Lemma F2_Forall {A B} (P : A -> B -> Prop) (Q : A -> Prop) (R : B -> Prop) l l' : Forall2 P l l' -> Forall Q l -> (forall a b, P a b -> Q a -> R b) -> Forall R l'.
Proof. intros F H K. induction F; inversion H; subst; constructor; eauto. Qed.

(** override, terms, prepare *)
Definition started x (ws : list (networkd N)) (dt : N) : mtln N := t_set (override_dt x dt) (t_bundles (override_dt x dt)) ws.
Lemma override_bundle x dt name b : bundle_of x name = Some b ->
  bundle_of (override_dt x dt) name = Some (if negb (dt =? n0) then b_set_core b (set_dt (b_core b) dt) else b).
Proof.
  intros H. unfold override_dt. destruct (negb (dt =? n0)); [|exact H]. unfold bundle_of in *. cbn [t_bundles]. unfold set_all_dt.
  induction (t_bundles x) as [|[k c] l IH]; cbn [map dget fst snd] in *; [discriminate H|]. destruct (String.eqb name k); [congruence|auto].
Qed.
Lemma override_keys x dt : map fst (t_bundles (override_dt x dt)) = map fst (t_bundles x) /\ t_networks (override_dt x dt) = t_networks x /\ t_time (override_dt x dt) = t_time x.
Proof. unfold override_dt. destruct (negb (dt =? n0)); [|auto]. cbn [t_bundles t_networks t_time]. split; [|auto]. unfold set_all_dt. rewrite map_map. reflexivity. Qed.
Lemma set_dt_reach b dt : reachable_bundle LA b -> reachable_bundle LA (b_set_core b (set_dt (b_core b) dt)) /\ marches LA b (b_set_core b (set_dt (b_core b) dt)).
Proof. intros [b0 H]. assert (M : marches LA b (b_set_core b (set_dt (b_core b) dt))) by (apply ma_dt; constructor). split; [exists b0; eapply bh_march; eauto|exact M]. Qed.
Lemma override_marches x dt name b : bundle_of x name = Some b -> exists b', bundle_of (override_dt x dt) name = Some b' /\ marches LA b b' /\ b_probes b' = b_probes b.
Proof.
  intros H. rewrite (override_bundle _ dt _ _ H). destruct (negb (dt =? n0)); eexists; (split; [reflexivity|]).
  - split; [apply ma_dt; constructor|reflexivity].
  - split; [constructor|reflexivity].
Qed.
Lemma prepare_bundle x n y name b : mtln_prepare LA x n = Ok y -> bundle_of x name = Some b -> exists b', bundle_prepare LA n b = Ok b' /\ bundle_of y name = Some b'.
Proof.
  unfold mtln_prepare. intros H Hb. inv_bind H. apply (f_equal (fun r => match r with Ok a => a | _ => y end)) in H. subst y. exact (map_bundles_get _ _ _ _ _ Ha Hb).
Qed.
Lemma prepare_rest x n y : mtln_prepare LA x n = Ok y -> t_networks y = t_networks x /\ t_dt y = t_dt x /\ t_time y = t_time x /\ map fst (t_bundles y) = map fst (t_bundles x).
Proof.
  unfold mtln_prepare. intros H. inv_bind H. apply (f_equal (fun r => match r with Ok a => a | _ => y end)) in H. subst y. cbn [t_set t_bundles t_networks t_dt t_time].
  repeat (split; [reflexivity|]). exact (map_bundles_keys _ _ _ Ha).
Qed.
(** the state from which the steps of a run start *)
Lemma run_start x T dt k y : reaches LA x T dt k y -> exists ws steps p,
  mapM (fun w => nwd_compute_v_terms w (t_dt p)) (t_networks x) = Ok ws /\ time_range_len T (t_dt p) = Ok steps /\ (k <= steps)%nat /\ iterM k (mtln_step LA) p = Ok y /\
  t_networks p = ws /\ t_time p = t_time x /\ t_dt p = t_dt (override_dt x dt) /\ map fst (t_bundles p) = map fst (t_bundles x) /\
  (forall name b, bundle_of x name = Some b -> exists b', bundle_prepare LA steps (if negb (dt =? n0) then b_set_core b (set_dt (b_core b) dt) else b) = Ok b' /\ bundle_of p name = Some b') /\
  mtln_prepare LA (started x ws dt) steps = Ok p /\ reaches LA x T dt 0 p.
Proof.
  intros (ws & steps & p & H1 & H2 & H3 & H4 & H5). exists ws, steps, p. destruct (override_keys x dt) as (K1 & K2 & K3).
  destruct (prepare_rest _ _ _ H4) as (P1 & P2 & P3 & P4). cbn [t_set t_bundles t_networks t_dt t_time] in *.
  rewrite P2. rewrite <- K2 at 1. repeat (split; [assumption|]). split; [congruence|]. split; [reflexivity|]. split; [congruence|]. split; [|split; [exact H4|]].
  2:{ exists ws, steps, p. cbv zeta. repeat (split; [assumption || lia|]). reflexivity. }
  intros name b Hb. apply (prepare_bundle _ _ _ _ _ H4). exact (override_bundle x dt name b Hb).
Qed.
Lemma terms_nets dt (ws ws' : list (networkd N)) : mapM (fun w => nwd_compute_v_terms w dt) ws = Ok ws' ->
  Forall2 (fun w w' => compute_v_terms w dt = Ok w') (flat_map tiers ws) (flat_map tiers ws').
Proof. intros H. exact (nets_F2 (fun w => compute_v_terms w dt) _ _ H). Qed.
Lemma start_ninv x T dt k y : ninv x -> reaches LA x T dt k y -> exists p, ninv p /\ iterM k (mtln_step LA) p = Ok y.
Proof.
  intros I R. destruct (run_start _ _ _ _ _ R) as (ws & steps & p & H1 & H2 & H3 & H4 & H5 & H6 & H7 & H8 & H9 & _). exists p. split; [|exact H4].
  apply (ninv_next x p I H8).
  - intros name b Hb. destruct (H9 name b Hb) as (b' & E & G). exists b'. split; [exact G|]. destruct (bundle_in x name b I Hb) as [Rb _]. apply (marches_reach b b' Rb).
    eapply ma_prepare; [|exact E]. destruct (negb (dt =? n0)); [apply ma_dt|]; constructor.
  - unfold nets. rewrite H5. pose proof (terms_nets _ _ _ H1) as F. eapply F2_Forall; [exact F|exact (nv_nets _ I)|]. intros w w' E (ds & Hw). cbv beta in E. exists ds. eapply nh_terms; [exact Hw|exact E].
Qed.
Lemma steps_ninv k : forall x y, ninv x -> iterM k (mtln_step LA) x = Ok y -> ninv y.
Proof. induction k as [|k IH]; intros x y I H; cbn [iterM] in H; [injection H as <-; exact I|]. inv_bind H. eapply IH; [|exact H]. eapply ninv_step; eauto. Qed.
Lemma reaches_ninv x T dt k y : ninv x -> reaches LA x T dt k y -> ninv y.
Proof. intros I R. destruct (start_ninv _ _ _ _ _ I R) as (p & Ip & H). eapply steps_ninv; eauto. Qed.
Lemma run_reaches x T dt y : mtln_run_until LA x T dt = Ok y <-> exists n, time_range_len T (t_dt (override_dt x dt)) = Ok n /\ reaches LA x T dt n y.
Proof.
  unfold mtln_run_until. cbv zeta. split.
  - intros H. inv_bind H. inv_bind H. inv_bind H. exists a0. split; [exact Ha0|]. exists a, a0, a1. cbv zeta. auto.
  - intros (n & E & ws & steps & p & H1 & H2 & H3 & H4 & H5). rewrite H1. cbn [bind]. assert (steps = n) by congruence. subst steps. rewrite E. cbn [bind]. rewrite H4. exact H5.
Qed.
Lemma reaches_less x T dt k j y : reaches LA x T dt k y -> (j <= k)%nat -> exists z, reaches LA x T dt j z.
Proof.
  intros (ws & steps & p & H1 & H2 & H3 & H4 & H5) Hj. destruct (iterM_prefix k j _ _ _ H5 Hj) as (z & E & _). exists z, ws, steps, p. cbv zeta. repeat (split; [assumption || lia|]). exact E.
Qed.
Lemma reaches_step x T dt k z : reaches LA x T dt (S k) z -> exists y, steps_to LA x T dt k y z.
Proof.
  intros R. pose proof R as (ws & steps & p & H1 & H2 & H3 & H4 & H5). rewrite iterM_S in H5. inv_bind H5. exists a. split; [|split; [exact H5|exact R]].
  exists ws, steps, p. cbv zeta. repeat (split; [assumption || lia|]). exact Ha.
Qed.
Lemma reaches_fun x T dt k y z : reaches LA x T dt k y -> reaches LA x T dt k z -> y = z.
Proof. intros (ws & steps & p & H1 & H2 & H3 & H4 & H5) (ws' & steps' & p' & H1' & H2' & H3' & H4' & H5'). assert (ws' = ws) by congruence. subst. assert (steps' = steps) by congruence. subst. congruence. Qed.

Lemma flat_snoc (l : list (networkd N)) d : flat_map tiers (l ++ [d]) = flat_map tiers l ++ tiers d.
Proof. rewrite flat_map_app. cbn [flat_map]. now rewrite app_nil_r. Qed.
Lemma add_bundle_inv x b x' : add_bundle x b = Ok x' -> ~ In (b_name b) (map fst (t_bundles x)) /\
  x' = {| t_bundles := t_bundles x ++ [(b_name b, b)]; t_networks := t_networks x; t_dt := if k_dt (b_core b) <? t_dt x then k_dt (b_core b) else t_dt x; t_time := t_time x |}.
Proof.
  unfold add_bundle. intros H. inv_bind H. apply passert_Ok' in Ha. apply (f_equal (fun r => match r with Ok a => a | _ => x' end)) in H. subst x'. split; [|reflexivity].
  intros K. apply dmem_in in K. rewrite K in Ha. discriminate Ha.
Qed.
Lemma add_bundle_iff x b : (exists x', add_bundle x b = Ok x') <-> ~ In (b_name b) (map fst (t_bundles x)).
Proof.
  split; [intros [x' H]; apply (add_bundle_inv _ _ _ H)|]. intros H. unfold add_bundle. destruct (dmem String.eqb (b_name b) (t_bundles x)) eqn:E; [apply dmem_in in E; contradiction|].
  cbn [negb passert bind]. eauto.
Qed.
Lemma add_bundle_dup x b : In (b_name b) (map fst (t_bundles x)) -> add_bundle x b = Err AssertionError.
Proof. intros H. unfold add_bundle. rewrite (proj2 (dmem_in _ _) H). reflexivity. Qed.
Lemma register_history bs (d d' : networkd N) : update_index_numbers d bs = Ok d' -> net_reachable LA d -> net_reachable LA d'.
Proof.
  unfold update_index_numbers, net_reachable. intros H. apply mapM_Ok in H. induction H as [|[l w] [l' w'] d d' E _ IH]; intros R; [constructor|].
  cbn [tiers map snd fst] in *. inversion R as [|? ? (ds & Hw) R']; subst. inv_bind E. injection E as <- <-. constructor; [|apply IH; exact R'].
  exists ds. eapply nh_register; eauto.
Qed.
Lemma lines_ninv x : lines_net LA x -> ninv x.
Proof.
  induction 1 as [|x b x' H IH R E|x d x' H IH R E|x ds H IH R|x dt H IH|x name b b' H IH Hb R|x x' H IH E|x T dt x' H IH E].
  - split; constructor.
  - apply add_bundle_inv in E as [F ->]. split; cbn [t_bundles nets t_networks].
    + rewrite map_app. cbn [map fst]. apply (Permutation_NoDup (l := b_name b :: map fst (t_bundles x))); [apply Permutation_cons_append|]. constructor; [exact F|apply (nv_keys _ IH)].
    + apply Forall_app. split; [apply (nv_name _ IH)|]. constructor; [reflexivity|constructor].
    + apply Forall_app. split; [apply (nv_reach _ IH)|]. constructor; [exact R|constructor].
    + apply (nv_nets _ IH).
  - unfold add_network in E. inv_bind E. apply (f_equal (fun r => match r with Ok a => a | _ => x' end)) in E. subst x'. destruct IH as [I1 I2 I3 I4].
    split; try assumption. unfold nets, t_set. cbn [t_networks]. rewrite flat_snoc. apply Forall_app. split; [exact I4|]. exact (register_history _ _ _ Ha R).
  - destruct IH as [I1 I2 I3 I4]. split; try assumption. unfold nets, add_networks, t_set. cbn [t_networks]. rewrite flat_map_app. apply Forall_app. split; [exact I4|].
    clear - R. induction R; cbn [flat_map]; [constructor|]. apply Forall_app. auto.
  - destruct IH; split; assumption.
  - destruct (bundle_in x name b IH Hb) as [[b0 Hh] En]. pose proof (R b0 Hh) as Hh'.
    apply (ninv_next x); [exact IH|unfold with_bundle, t_set; cbn [t_bundles]; eapply sset_keys; exact Hb| |apply (nv_nets _ IH)].
    intros name' c Hc. unfold bundle_of, with_bundle, t_set. cbn [t_bundles]. rewrite sget_set. destruct (String.eqb_spec name' name) as [E|].
    + exists b'. split; [reflexivity|]. split; [exists b0; exact Hh'|]. assert (c = b) by (unfold bundle_of in *; congruence). subst c.
      rewrite (bk_name _ _ (proj2 (history_binv LA _ _ Hh'))), (bk_name _ _ (proj2 (history_binv LA _ _ Hh))). reflexivity.
    + exists c. split; [exact Hc|]. split; [apply (bundle_in x name' c IH Hc)|reflexivity].
  - eapply ninv_step; eauto.
  - apply run_reaches in E as (n & _ & E). eapply reaches_ninv; eauto.
Qed.
End MtlnFacts.
