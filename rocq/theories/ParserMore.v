(** Grouping of networks, lumped elements, sources, transfer impedances. *)
From Coq Require Import String List Arith ZArith Lia Bool Permutation Reals.
From Verif Require Import Num Py Arr ArrFacts Utils Waveforms Probes Dispersive Line Bundle Networks Mtln NumR RFacts SpecLine SpecBundle SpecNet SpecMtln SpecAlone
  CoreEq NetPlace RecordFacts GeomProps3 Parser SpecParser ParserFacts ParserBuild ParserNets.
Import ListNotations.

Section More.
Context {N : num}.
Variable D : doc N.

(** *** Coordinates *)
Lemma coordinates_last l : forall (d : list (Z * vec N)) c p, dget Z.eqb c (fold_left (fun d x => dset Z.eqb (fst x) (snd x) d) l d) = Some p <->
  last_such (fun e => fst e = c) l (c, p) \/ ((forall e, In e l -> fst e <> c) /\ dget Z.eqb c d = Some p).
Proof.
  induction l as [|[x v] l IH]; intros d c p; cbn [fold_left fst snd].
  - split; [intros H; right; split; [intros ? []|exact H]|]. intros [(b & a & E & _)|[_ H]]; [destruct b; discriminate|exact H].
  - rewrite IH. split.
    + intros [(b & a & -> & P & Na)|[Nl H]]; [left; exists ((x, v) :: b), a; now repeat split|]. destruct (Z.eq_dec c x) as [->|Ne].
      * rewrite dget_dset_eq in H. injection H as ->. left. exists [], l. split; [reflexivity|]. split; [reflexivity|exact Nl].
      * rewrite dget_dset_neq in H by exact Ne. right. split; [|exact H]. intros e [<-|I]; [cbn; congruence|now apply Nl].
    + intros [(b & a & E & P & Na)|[Nl H]].
      * destruct b as [|y b]; [cbn in E; injection E as -> -> ->; right; split; [exact Na|apply dget_dset_eq]|]. injection E as <- ->. left. exists b, a. now repeat split.
      * right. split; [intros e I; apply Nl; now right|]. rewrite dget_dset_neq; [exact H|]. intros ->. apply (Nl (x, v)); [now left|reflexivity].
Qed.
Lemma coordinate_point c p : coordinate D c = Ok p <-> point D c p.
Proof.
  unfold coordinate, coordinates, point. pose proof (coordinates_last (dc_coords D) [] c p) as H. destruct (dget Z.eqb c _) as [q|]; cbn [of_option].
  - split; [intros E; apply OkI in E; subst; destruct (proj1 H eq_refl) as [X|[_ X]]; [exact X|discriminate]|]. intros L. destruct H as [_ H]. specialize (H (or_introl L)). now injection H as ->.
  - split; [discriminate|]. intros L. destruct H as [_ H]. discriminate (H (or_introl L)).
Qed.
Lemma group_key_lies t p : group_key D t = Ok p <-> lies_at D t p.
Proof.
  unfold group_key, lies_at. destruct t as [|[|c cs] rest]; cbn; [split; [discriminate|intros (c & cs & rest & E & _); discriminate]|split; [discriminate|intros (c & cs & r & E & _); discriminate]|]. rewrite coordinate_point. split; [intros H; now exists c, cs, rest|intros (c' & cs' & rest' & E & H); injection E as -> -> ->; exact H].
Qed.
(** *** Grouping *)
Lemma dset_concat {K V} (eqb : K -> K -> bool) k (x : V) d : Permutation (concat (map snd (dset eqb k (match dget eqb k d with Some l => l ++ [x] | None => [x] end) d))) (x :: concat (map snd d)).
Proof.
  induction d as [|[k0 l0] d IH]; [apply Permutation_refl|]. cbn [dget dset]. destruct (eqb k k0); cbn [map snd concat].
  - rewrite <- app_assoc. change (l0 ++ [x] ++ concat (map snd d)) with (l0 ++ x :: concat (map snd d)). symmetry. apply Permutation_middle.
  - eapply Permutation_trans; [apply Permutation_app_head; exact IH|]. symmetry. apply Permutation_middle.
Qed.
Lemma groups_perm ts gs : getNetworkList D ts = Ok gs -> Permutation (concat gs) ts /\ forall g, In g gs -> g <> [].
Proof.
  unfold getNetworkList. intros H. inv_bind H. apply OkI in H. subst gs.
  assert (G : forall ts d d', foldM (add_group D) ts d = Ok d' -> Permutation (concat (map snd d')) (concat (map snd d) ++ ts) /\ ((forall kg, In kg d -> snd kg <> []) -> forall kg, In kg d' -> snd kg <> [])).
  { clear. induction ts as [|t ts IH]; intros d d' H; cbn [foldM] in H; [apply OkI in H; subst; rewrite app_nil_r; split; [apply Permutation_refl|auto]|]. inv_bind H. unfold add_group in Ha. inv_bind Ha. apply OkI in Ha. subst a. destruct (IH _ _ H) as [P Q]. split.
    - eapply Permutation_trans; [exact P|]. eapply Permutation_trans; [apply Permutation_app_tail, dset_concat|]. cbn [app]. apply Permutation_middle.
    - intros Nd. apply Q. clear - Nd. set (v := match dget vec_eqb a0 d with Some l => l ++ [t] | None => [t] end). assert (Hv : v <> []) by (unfold v; destruct (dget vec_eqb a0 d) as [[|]|]; discriminate). clearbody v.
      induction d as [|[k g] d IHd]; cbn [dset]; [intros kg [<-|[]]; exact Hv|]. destruct (vec_eqb a0 k); intros kg [<-|I]; [exact Hv|apply Nd; now right|apply (Nd (k, g)); now left|apply IHd; [intros kg' I'; apply Nd; now right|exact I]]. }
  destruct (G _ _ _ Ha) as [P Q]. split; [exact P|]. intros g I. apply in_map_iff in I as (kg & <- & I). apply Q; [intros ? []|exact I].
Qed.
Lemma groups_raise ts e : getNetworkList D ts = Err e -> exists t, In t ts /\ forall p, ~ lies_at D t p.
Proof.
  unfold getNetworkList. generalize (@nil (vec N * list (list (list Z)))). induction ts as [|t ts IH]; intros d H; cbn [foldM] in H; [discriminate|]. unfold add_group in H at 1. destruct (group_key D t) as [k|e'] eqn:Ek; cbn [bind] in H.
  - destruct (IH _ H) as (t' & I & X). exists t'. split; [now right|exact X].
  - exists t. split; [now left|]. intros p L. apply group_key_lies in L. congruence.
Qed.
Lemma groups_accept ts : (forall t, In t ts -> exists p, lies_at D t p) -> exists gs, getNetworkList D ts = Ok gs.
Proof. intros H. destruct (getNetworkList D ts) as [gs|e] eqn:E; [now exists gs|]. destruct (groups_raise _ _ E) as (t & I & X). destruct (H t I) as [p L]. now destruct (X p). Qed.
(** *** One network per level *)
Lemma nget_set {V} k (v : V) d i : dget Nat.eqb i (dset Nat.eqb k v d) = if (i =? k)%nat then Some v else dget Nat.eqb i d.
Proof. induction d as [|[k0 v0] d IH]; cbn [dset dget]; [reflexivity|]. destruct (Nat.eqb_spec k k0) as [->|E]; cbn [dget]; [destruct (i =? k0)%nat; reflexivity|]. rewrite IH. destruct (Nat.eqb_spec i k0) as [->|E']; [|reflexivity]. destruct (Nat.eqb_spec k0 k) as [->|_]; [now destruct E|reflexivity]. Qed.
Lemma nset_keys {V} k (v : V) d x : In x (map fst (dset Nat.eqb k v d)) <-> x = k \/ In x (map fst d).
Proof. induction d as [|[k0 v0] d IH]; cbn [dset map fst]; [split; [intros [->|[]]; now left|intros [->|[]]; now left]|]. destruct (Nat.eqb_spec k k0) as [->|E]; cbn [map fst In]; [|rewrite IH]; intuition congruence. Qed.
Lemma nset_NoDup {V} k (v : V) d : NoDup (map fst d) -> NoDup (map fst (dset Nat.eqb k v d)).
Proof. induction d as [|[k0 v0] d IH]; cbn [dset map fst]; intros ND; [constructor; [intros []|constructor]|]. inversion ND; subst. destruct (Nat.eqb_spec k k0) as [->|E]; cbn [map fst]; constructor; auto. rewrite nset_keys. intros [->|I]; [now destruct E|auto]. Qed.
Lemma level_networks_last f (g : list (list (list Z))) (d : networkd N) : level_networks f g = Ok d -> NoDup (map fst d) /\
  forall lev w, dget Nat.eqb lev d = Some w <-> exists t, last_such (fun t => exists w, f t = Ok (lev, w)) g t /\ f t = Ok (lev, w).
Proof.
  unfold level_networks. assert (G : forall g d0 d, foldM (fun (d : networkd N) t => lw <- f t ;; Ok (dset Nat.eqb (fst lw) (snd lw) d)) g d0 = Ok d -> (NoDup (map fst d0) -> NoDup (map fst d)) /\
    forall lev w, dget Nat.eqb lev d = Some w <-> (exists t, last_such (fun t => exists w, f t = Ok (lev, w)) g t /\ f t = Ok (lev, w)) \/ ((forall t w, In t g -> f t <> Ok (lev, w)) /\ dget Nat.eqb lev d0 = Some w)).
  { clear. induction g as [|t g IH]; intros d0 d H; cbn [foldM] in H.
    - apply OkI in H. subst. split; [auto|]. intros lev w. split; [intros H; right; split; [intros ? ? []|exact H]|]. intros [(t & (b & a & E & _) & _)|[_ H]]; [destruct b; discriminate|exact H].
    - inv_bind H. inv_bind Ha. apply OkI in Ha. subst a. destruct a0 as [l0 w0]. cbn [fst snd] in H. destruct (IH _ _ H) as [A B]. split; [intros ND; apply A; now apply nset_NoDup|]. intros lev w. rewrite B, nget_set. split.
      + intros [(t' & (b & a & -> & P & Na) & E)|[Nt E]]; [left; exists t'; split; [exists (t :: b), a; now repeat split|exact E]|]. destruct (Nat.eqb_spec lev l0) as [->|Ne].
        * injection E as ->. left. exists t. split; [|exact Ha0]. exists [], g. split; [reflexivity|]. split; [now exists w|]. intros t' I [w' X]. now apply (Nt t' w' I).
        * right. split; [|exact E]. intros t' w' [<-|I] X; [congruence|now apply (Nt t' w' I)].
      + intros [(t' & (b & a & E & P & Na) & Ef)|[Nt E]].
        * destruct b as [|y b]; [cbn in E; injection E as -> ->|injection E as <- ->; left; exists t'; split; [exists b, a; now repeat split|exact Ef]]. right. split; [intros t w' I X; apply (Na t I); now exists w'|]. rewrite Ha0 in Ef. injection Ef as -> ->. now rewrite Nat.eqb_refl.
        * right. split; [intros t' w' I; apply Nt; now right|]. destruct (Nat.eqb_spec lev l0) as [->|Ne]; [|exact E]. exfalso. apply (Nt t w0); [now left|exact Ha0]. }
  intros H. destruct (G _ _ _ H) as [A B]. split; [apply A; constructor|]. intros lev w. rewrite B. split; [intros [X|[_ X]]; [exact X|discriminate]|intros X; now left].
Qed.
Lemma level_networks_lost f (g1 g2 g3 : list (list (list Z))) t t' lev w w' (d : networkd N) : f t = Ok (lev, w) -> f t' = Ok (lev, w') -> level_networks f (g1 ++ t :: g2 ++ t' :: g3) = Ok d ->
  exists d', level_networks f (g1 ++ g2 ++ t' :: g3) = Ok d' /\ forall l, dget Nat.eqb l d' = dget Nat.eqb l d.
Proof.
  intros E E' H. unfold level_networks in *. rewrite foldM_app in H. inv_bind H. cbn [foldM] in H. rewrite E in H. cbn [bind fst snd] in H. rewrite foldM_app. rewrite Ha. cbn [bind].
  set (stp := fun (d : networkd N) t => lw <- f t ;; Ok (dset Nat.eqb (fst lw) (snd lw) d)) in *.
  assert (G : forall g (d1 d2 dd : networkd N), foldM stp g d1 = Ok dd -> (forall l, l <> lev -> dget Nat.eqb l d1 = dget Nat.eqb l d2) ->
    exists dd', foldM stp g d2 = Ok dd' /\ (forall l, l <> lev -> dget Nat.eqb l dd = dget Nat.eqb l dd') /\ ((exists x w, In x g /\ f x = Ok (lev, w)) -> dget Nat.eqb lev dd = dget Nat.eqb lev dd')).
  { clear. assert (S : forall g (d1 d2 dd : networkd N), foldM stp g d1 = Ok dd -> (forall l, dget Nat.eqb l d1 = dget Nat.eqb l d2) -> exists dd', foldM stp g d2 = Ok dd' /\ forall l, dget Nat.eqb l dd = dget Nat.eqb l dd').
    { induction g as [|x g IH]; intros d1 d2 dd H Hl; cbn [foldM] in *; [apply OkI in H; subst; now exists d2|]. inv_bind H. unfold stp in Ha. inv_bind Ha. apply OkI in Ha. subst a. unfold stp at 1. rewrite Ha0. cbn [bind]. eapply IH; [exact H|]. intros l. rewrite !nget_set. now rewrite Hl. }
    induction g as [|x g IH]; intros d1 d2 dd H Hl; cbn [foldM] in *; [apply OkI in H; subst; exists d2; split; [reflexivity|]; split; [exact Hl|intros (? & ? & [] & _)]|]. inv_bind H. unfold stp in Ha. inv_bind Ha. apply OkI in Ha. subst a. unfold stp at 1. rewrite Ha0. cbn [bind]. destruct a0 as [l0 w0]. cbn [fst snd] in *.
    destruct (Nat.eq_dec l0 lev) as [->|Ne].
    - destruct (S g _ (dset Nat.eqb lev w0 d2) dd H) as (dd' & A & B); [intros l; rewrite !nget_set; destruct (Nat.eqb_spec l lev); [reflexivity|now apply Hl]|]. exists dd'. split; [exact A|]. split; [intros l _; apply B|intros _; apply B].
    - destruct (IH _ (dset Nat.eqb l0 w0 d2) dd H) as (dd' & A & B & C); [intros l Nl; rewrite !nget_set; destruct (l =? l0)%nat; [reflexivity|now apply Hl]|]. exists dd'. split; [exact A|]. split; [exact B|]. intros (y & w & [<-|I] & Ey); [congruence|]. apply C. now exists y, w. }
  destruct (G (g2 ++ t' :: g3) _ a d H) as (d' & A & B & C); [intros l Nl; rewrite nget_set; destruct (Nat.eqb_spec l lev); [now destruct Nl|reflexivity]|]. exists d'. split; [exact A|]. intros l. symmetry. destruct (Nat.eq_dec l lev) as [->|Nl]; [apply C; exists t', w'; split; [apply in_or_app; right; now left|exact E']|now apply B].
Qed.
(** *** Lumped elements *)
Lemma lumped_missing (m : mtl N) : dc_lumped D <> [] -> (forall l, In l (dc_lumped D) -> lu_cable l <> m_name m) -> addLumpedElement D m = Err IndexError.
Proof.
  intros Hne Hn. unfold addLumpedElement. destruct (dc_lumped D) as [|l0 ls] eqn:E; [now destruct Hne|]. rewrite <- E. rewrite E at 1. cbn [length Nat.eqb]. destruct (find _ _) as [l|] eqn:Ef; [|reflexivity]. apply find_some in Ef as [I X]. apply String.eqb_eq in X. rewrite E in I. now destruct (Hn l I).
Qed.
Lemma lumped_first (m m' : mtl N) : addLumpedElement D m = Ok m' -> (dc_lumped D = [] /\ m' = m) \/
  exists l conn model p, first_such (fun l => lu_cable l = m_name m) (dc_lumped D) l /\ first_such (fun c => cm_id c = lu_mat l) (dc_conns D) conn /\ cm_model conn = Some model /\
    (exists c rest, lu_coords l = c :: rest /\ point D c p) /\ mtl_add_dispersive_connector m p (lu_cond l) model = Ok m'.
Proof.
  unfold addLumpedElement. destruct (Nat.eqb_spec (length (dc_lumped D)) 0) as [E|_]; [intros H; apply OkI in H; left; split; [now apply length_zero_iff_nil|now symmetry]|]. intros H. right. inv_bind H. inv_bind H. inv_bind H. inv_bind H. inv_bind H. destruct (find _ (dc_lumped D)) as [l|] eqn:Ef; [|discriminate]. apply OkI in Ha. subst a.
  unfold connector_with in Ha0. destruct (find _ (dc_conns D)) as [conn|] eqn:Ec; [|discriminate]. apply OkI in Ha0. subst a0. destruct (cm_model conn) as [model|] eqn:Em; [|discriminate]. apply OkI in Ha1. subst a1.
  exists l, conn, model, a3. split; [revert Ef; apply find_first; intros; apply String.eqb_eq|]. split; [revert Ec; apply find_first; intros; apply Z.eqb_eq|]. split; [exact Em|]. split; [|exact H].
  destruct (lu_coords l) as [|c rest]; [cbn [mapM] in Ha2; apply OkI in Ha2; subst a2; discriminate|]. exists c, rest. split; [reflexivity|]. cbn [mapM] in Ha2. inv_bind Ha2. inv_bind Ha2. apply OkI in Ha2. subst a2. cbn in Ha3. apply OkI in Ha3. subst a3. now apply coordinate_point.
Qed.
(** *** Sources *)
Lemma unknown_source (s : source N) t : ~ In (so_mag s) known_magnitudes -> buildSource s t = Ok None.
Proof.
  intros H. unfold buildSource. unfold known_magnitudes in H. cbn [In] in H.
  repeat match goal with |- (if String.eqb (so_mag s) ?k then _ else _) = _ => destruct (String.eqb_spec (so_mag s) k) as [E|_]; [exfalso; apply H; rewrite E; intuition|] end. reflexivity.
Qed.
Lemma unknown_source_raises (s : source N) : ~ In (so_mag s) known_magnitudes -> source_fun s = Err TypeError.
Proof. intros H. unfold source_fun. now rewrite (unknown_source s n0 H). Qed.
(** *** Transfer impedances *)
Lemma zt_of_wires_None id (ws : list (wire N)) : zt_of_wires id ws = None <-> forall wi z, In wi ws -> wi_id wi = id -> wi_Zt wi = Some z -> False.
Proof.
  induction ws as [|x ws IH]; cbn [zt_of_wires]; [split; [intros _ wi z []|reflexivity]|]. destruct (Z.eqb_spec (wi_id x) id) as [E|E].
  - destruct (wi_Zt x) as [z|] eqn:Ez.
    + split; [discriminate|]. intros H. exfalso. exact (H x z (or_introl eq_refl) E Ez).
    + rewrite IH. split; [intros H wi z [<-|I]; [congruence|now apply H]|intros H wi z I; apply H; now right].
  - rewrite IH. split; [intros H wi z [<-|I]; [congruence|now apply H]|intros H wi z I; apply H; now right].
Qed.
Lemma no_transfer_impedance name : getTransferImpedance D name = None <-> ~ has_transfer_impedance D name.
Proof.
  unfold getTransferImpedance, has_transfer_impedance. induction (dc_cables D) as [|c cs IH]; cbn [zt_of_cables]; [split; [intros _ (cb & wi & z & [] & _)|reflexivity]|]. destruct (String.eqb_spec (cb_name c) name) as [E|E].
  - destruct (zt_of_wires (cb_mat c) (dc_wires D)) as [z|] eqn:Ez.
    + split; [discriminate|]. intros H. exfalso. apply H. assert (X : zt_of_wires (cb_mat c) (dc_wires D) <> None) by congruence. 
      assert (Y : exists wi z, In wi (dc_wires D) /\ wi_id wi = cb_mat c /\ wi_Zt wi = Some z).
      { clear - Ez. induction (dc_wires D) as [|x ws IH]; cbn [zt_of_wires] in Ez; [discriminate|]. destruct (Z.eqb_spec (wi_id x) (cb_mat c)) as [E|E]; [destruct (wi_Zt x) as [z'|] eqn:Ex; [exists x, z'; split; [now left|now split]|]|]; (destruct (IH Ez) as (wi & z' & I & P); exists wi, z'; split; [now right|exact P]). }
      destruct Y as (wi & z' & I & P1 & P2). exists c, wi, z'. split; [now left|]. now repeat split.
    + rewrite IH. split; [intros H (cb & wi & z & [<-|I] & P1 & P2 & P3 & P4); [exact (proj1 (zt_of_wires_None _ _) Ez wi z P2 P3 P4)|apply H; now exists cb, wi, z]|intros H (cb & wi & z & I & P); apply H; exists cb, wi, z; split; [now right|exact P]].
  - rewrite IH. split; [intros H (cb & wi & z & [<-|I] & P1 & P); [now destruct E|apply H; now exists cb, wi, z]|intros H (cb & wi & z & I & P); apply H; exists cb, wi, z; split; [now right|exact P]].
Qed.
Variable LA : lapack N.
Variables ju jdu : nat -> vec N.
Variable so : list string -> list string.
Lemma edge_without g (b : bundle N) i j v w cs ct : nth_error (g_vs g) i = Some v -> nth_error (g_vs g) j = Some w -> v_level w = S (v_level v) ->
  findConductorNumberInLevel D (b_levels b) v = Ok cs -> findConductorNumberInLevel D (b_levels b) w = Ok ct -> set_edge D g b (i, j, None) = Err AttributeError.
Proof.
  intros Hi Hj L Hc Ht. unfold set_edge, edge_args, py_get. rewrite Hi, Hj. cbn [bind of_option].
 rewrite Hc. cbn [bind]. rewrite Ht. cbn [bind snd]. unfold adjacent. rewrite L, Nat.eqb_refl, orb_true_r. reflexivity.
Qed.
Lemma set_edge_None g (b b' : bundle N) i j : set_edge D g b (i, j, None) <> Ok b'.
Proof. unfold set_edge. intros H. inv_bind H. destruct a as [[[lo co] li] ci]. cbn [snd] in H. destruct (adjacent lo li); discriminate. Qed.
Lemma foldM_never {A S} (f : S -> A -> res S) l x : In x l -> (forall s s', f s x <> Ok s') -> forall s s', foldM f l s <> Ok s'.
Proof. induction l as [|y l IH]; intros I H s s' E; [destruct I|]. cbn [foldM] in E. inv_bind E. destruct I as [->|I]; [now apply (H s a)|now apply (IH I H a s')]. Qed.
Lemma nested_without bname t x y name st : In (bname, t) (dc_bundles D) -> nests t x y -> cable_of D x name -> ~ has_transfer_impedance D name -> buildBundles LA ju jdu so D <> Ok st.
Proof.
  intros I Ns C Nz. unfold buildBundles. apply (foldM_never _ _ _ I). intros s s' H. unfold build_one in H. cbn [fst snd] in H. inv_bind H. inv_bind H. inv_bind H. inv_bind H.
  destruct (graph_spec D t a Ha) as (_ & _ & GE & GZ & _). destruct (proj2 (GE x y) Ns) as [zt Ed]. destruct (GZ x y zt Ed) as (nm & Cn & Ez). apply name_of_cable in C. apply name_of_cable in Cn. assert (nm = name) by congruence. subst nm. rewrite (proj2 (no_transfer_impedance name) Nz) in Ez. subst zt.
  destruct Ed as (i & j & v & w & Ie & _). unfold setBundleTransferImpedance in Ha2. inv_bind Ha2. revert Ha3. apply (foldM_never _ _ _ Ie). intros b b'. apply set_edge_None.
Qed.
End More.

(** *** Over the reals *)
Section Real.
Variable D : doc NumR.
Lemma vec_eqb_eq (a b : vec NumR) : vec_eqb a b = true <-> a = b.
Proof.
  unfold vec_eqb. rewrite andb_true_iff, Nat.eqb_eq, forallb_forall. split.
  - intros [E H]. apply (nth_ext _ _ (@n0 NumR) (@n0 NumR) E). intros k Hk. apply Reqb_true. apply (H k). apply in_seq. lia.
  - intros <-. split; [reflexivity|]. intros k _. now apply Reqb_true.
Qed.
Lemma vset_keys {V} (k : vec NumR) (v : V) d x : In x (map fst (dset vec_eqb k v d)) <-> x = k \/ In x (map fst d).
Proof.
  induction d as [|[k0 v0] d IH]; cbn [dset map fst]; [split; [intros [->|[]]; now left|intros [->|[]]; now left]|]. destruct (vec_eqb k k0) eqn:E; cbn [map fst In].
  - apply vec_eqb_eq in E. subst. intuition congruence.
  - rewrite IH. intuition congruence.
Qed.
Lemma vset_NoDup {V} (k : vec NumR) (v : V) d : NoDup (map fst d) -> NoDup (map fst (dset vec_eqb k v d)).
Proof.
  induction d as [|[k0 v0] d IH]; cbn [dset map fst]; intros ND; [constructor; [intros []|constructor]|]. inversion ND; subst. destruct (vec_eqb k k0) eqn:E; cbn [map fst]; constructor; auto. rewrite vset_keys. intros [->|I]; [|auto]. pose proof (proj2 (vec_eqb_eq k k) eq_refl). congruence.
Qed.
Lemma groups_real ts gs : getNetworkList D ts = Ok gs ->
  exists ps, NoDup ps /\ Forall2 (fun p g => exists f, (forall t, In t ts -> (f t = true <-> lies_at D t p)) /\ g = filter f ts) ps gs.
Proof.
  unfold getNetworkList. intros H. inv_bind H. apply OkI in H. subst gs.
  pose (key t := group_key D t). pose (f p (t : list (list Z)) := match group_key D t with Ok q => vec_eqb q p | Err _ => false end).
  assert (Hf : forall p t, f p t = true <-> lies_at D t p).
  { intros p t. unfold f. rewrite <- group_key_lies. destruct (group_key D t) as [q|]; [|split; discriminate]. rewrite vec_eqb_eq. split; [now intros ->|intros E; now apply OkI in E]. }
  assert (G : forall ts done d d', foldM (add_group D) ts d = Ok d' -> (NoDup (map fst d) /\ (forall p g, dget vec_eqb p d = Some g -> g = filter (f p) done) /\ (forall p, dget vec_eqb p d = None -> filter (f p) done = [])) ->
    NoDup (map fst d') /\ (forall p g, dget vec_eqb p d' = Some g -> g = filter (f p) (done ++ ts))).
  { clear Ha. induction ts0 as [|t ts0 IH]; intros dn d d' H (A & B & C); cbn [foldM] in H; [apply OkI in H; subst; rewrite app_nil_r; now split|]. inv_bind H. unfold add_group in Ha. inv_bind Ha. apply OkI in Ha. subst a0. rename a1 into k.
    assert (GS : forall V (v : V) dd i, dget vec_eqb i (dset vec_eqb k v dd) = if vec_eqb i k then Some v else dget vec_eqb i dd).
    { intros V v dd i. induction dd as [|[k0 v0] dd IHd]; cbn [dset dget]; [reflexivity|]. destruct (vec_eqb k k0) eqn:E; cbn [dget]; [apply vec_eqb_eq in E; subst; destruct (vec_eqb i k0); reflexivity|]. rewrite IHd. destruct (vec_eqb i k0) eqn:E'; [|reflexivity]. apply vec_eqb_eq in E'. subst. destruct (vec_eqb k0 k) eqn:E''; [|reflexivity]. apply vec_eqb_eq in E''. subst. pose proof (proj2 (vec_eqb_eq k k) eq_refl). congruence. }
    replace (dn ++ t :: ts0) with ((dn ++ [t]) ++ ts0) by (rewrite <- app_assoc; reflexivity). apply (IH (dn ++ [t]) _ _ H).
    assert (FT : forall p, f p t = vec_eqb k p) by (intros p; unfold f; now rewrite Ha0).
    split; [|split].
    - now apply vset_NoDup.
    - intros p g Hg. rewrite GS in Hg. rewrite filter_app. cbn [filter]. rewrite FT. destruct (vec_eqb p k) eqn:E.
      + apply vec_eqb_eq in E. subst p. assert (X : vec_eqb k k = true) by now apply vec_eqb_eq. rewrite X. injection Hg as <-. destruct (dget vec_eqb k d) as [l|] eqn:El; [now rewrite (B _ _ El)|now rewrite (C _ El)].
      + assert (X : vec_eqb k p = false). { apply not_true_iff_false. intros X. apply vec_eqb_eq in X. subst. apply not_true_iff_false in E. apply E. now apply vec_eqb_eq. } rewrite X, app_nil_r. now apply B.
    - intros p Hp. rewrite GS in Hp. rewrite filter_app. cbn [filter]. rewrite FT. destruct (vec_eqb p k) eqn:E; [discriminate|]. assert (X : vec_eqb k p = false). { apply not_true_iff_false. intros X. apply vec_eqb_eq in X. subst. apply not_true_iff_false in E. apply E. now apply vec_eqb_eq. } rewrite X, app_nil_r. now apply C. }
  destruct (G ts [] [] a Ha) as [A B]; [split; [constructor|]; split; [discriminate|reflexivity]|]. exists (map fst a). split; [exact A|]. cbn [app] in B.
  assert (K : forall l, (forall k x, In (k, x) l -> In (k, x) a) -> Forall2 (fun p g => exists f0, (forall t, In t ts -> (f0 t = true <-> lies_at D t p)) /\ g = filter f0 ts) (map fst l) (map snd l)).
  { induction l as [|[k x] l IH]; intros Hl; [constructor|]. cbn [map fst snd]. constructor; [|apply IH; intros; apply Hl; now right]. exists (f k). split; [intros t _; apply Hf|]. apply B. specialize (Hl k x (or_introl eq_refl)). clear - A Hl. induction a as [|[k0 x0] a IH]; [destruct Hl|]. cbn [map fst] in A. inversion A; subst. cbn [dget]. destruct (vec_eqb k k0) eqn:E.
    - apply vec_eqb_eq in E. subst k0. destruct Hl as [X|X]; [now injection X as ->|]. exfalso. apply H1. apply in_map_iff. now exists (k, x).
    - destruct Hl as [X|X]; [injection X as -> ->; pose proof (proj2 (vec_eqb_eq k k) eq_refl); congruence|now apply IH]. }
  apply K. auto.
Qed.
End Real.

(** ** Known magnitudes, lumped elements of documents, silent opens *)
Section Last.
Context {N : num}.
Lemma waveform_built (s : source N) f t : waveform s f -> buildSource s t = Ok (Some (f t)).
Proof.
  unfold has_param. intros H; inversion H; subst; unfold buildSource, param, has_param in *;
    repeat match goal with E : so_mag s = _ |- _ => rewrite E; clear E end; cbn [String.eqb Ascii.eqb Bool.eqb];
    repeat match goal with E : dget _ _ _ = Some _ |- _ => rewrite E; clear E end; reflexivity.
Qed.
Lemma built_waveform (s : source N) t y : buildSource s t = Ok (Some y) -> exists f, waveform s f /\ y = f t.
Proof.
  unfold buildSource, param. cbv zeta. intros H.
  repeat match type of H with (if ?c then _ else _) = _ => destruct c eqn:? end; try discriminate.
  all: repeat match goal with E : String.eqb _ _ = true |- _ => apply String.eqb_eq in E end.
  all: repeat match type of H with bind (of_option _ ?d) _ = _ => destruct d eqn:?; cbn [of_option bind] in H; [|discriminate] end.
  all: injection H as <-; eexists; split; [first [eapply wv_trapezoidal; eassumption | eapply wv_ramp; eassumption | eapply wv_gaussian_2; eassumption | eapply wv_gaussian; eassumption | eapply wv_sin_sq; eassumption | eapply wv_sin; eassumption | eapply wv_exp; eassumption]|reflexivity].
Qed.
Lemma known_raises (s : source N) t : In (so_mag s) known_magnitudes -> (forall f, ~ waveform s f) -> buildSource s t = Err KeyError.
Proof.
  intros Hk Hn. destruct (buildSource s t) as [[y|]|e] eqn:E.
  - apply built_waveform in E as (f & Hf & _). destruct (Hn f Hf).
  - exfalso. unfold buildSource, param in E. cbv zeta in E.
    repeat match type of E with (if ?c then _ else _) = _ => destruct c eqn:? end.
    all: repeat match type of E with bind (of_option _ ?d) _ = _ => destruct d eqn:?; cbn [of_option bind] in E; [|discriminate] end; try discriminate.
    cbn [known_magnitudes In] in Hk. repeat match goal with H : String.eqb _ _ = false |- _ => apply String.eqb_neq in H end. intuition congruence.
  - unfold buildSource, param in E. cbv zeta in E.
    repeat match type of E with (if ?c then _ else _) = _ => destruct c eqn:? end.
    all: repeat match type of E with bind (of_option _ ?d) _ = _ => destruct d eqn:?; cbn [of_option bind] in E; [|congruence] end; try discriminate.
Qed.
Variable LA : lapack N.
Variables ju jdu : nat -> vec N.
Variable so : list string -> list string.
Variable D : doc N.
Lemma built_lines_lumped name m : build_line LA ju jdu D name = Ok m -> dc_lumped D <> [] -> exists l, In l (dc_lumped D) /\ lu_cable l = name.
Proof.
  unfold build_line. intros H Hl. inv_bind H. inv_bind H.
  apply line_from_name in Ha as [_ Hn]. apply connectors_refines in Ha0 as [Hn' _].
  apply lumped_first in H as [[E _]|(l & _ & _ & _ & (b & c & E & En & _) & _)]; [contradiction|].
  exists l. split; [rewrite E; apply in_elt|congruence].
Qed.
Lemma mapM_In {A B} (f : A -> res B) l l' x : mapM f l = Ok l' -> In x l -> exists y, f x = Ok y.
Proof.
  revert l'. induction l as [|a l IH]; intros l' H Hx; [destruct Hx|]. cbn [mapM] in H. inv_bind H. inv_bind H.
  destruct Hx as [->|Hx]; eauto.
Qed.
Lemma levels_lumped g levels v : set_listing so -> build_levels LA ju jdu so D g = Ok levels -> dc_lumped D <> [] -> In v (g_vs g) ->
  exists l, In l (dc_lumped D) /\ lu_cable l = v_cable v.
Proof.
  unfold build_levels, max_level. intros Hs H Hl Hv. destruct (g_vs g) as [|v0 vs] eqn:Ev; [destruct Hv|]. rewrite <- Ev in *. clear Ev v0 vs.
  cbn [bind] in H. pose proof (max_level_ge (g_vs g) v Hv) as Hm.
  destruct (mapM_In _ _ _ (v_level v) H) as (ls & Els).
  { apply in_seq. split; [apply Nat.le_0_l|]. cbn [Nat.add]. apply Nat.lt_succ_r. exact Hm. }
  destruct (mapM_In _ _ _ (v_cable v) Els) as (m & Em).
  { apply Hs. unfold names_at. apply in_map. apply filter_In. split; [exact Hv|apply Nat.eqb_refl]. }
  exact (built_lines_lumped _ _ Em Hl).
Qed.
Lemma document_lumped st bname t d x name : set_listing so -> buildBundles LA ju jdu so D = Ok st -> dc_lumped D <> [] ->
  In (bname, t) (dc_bundles D) -> listed t d x -> cable_of D x name -> exists l, In l (dc_lumped D) /\ lu_cable l = name.
Proof.
  intros Hs H Hl Hb Hx Hc.
  assert (exists s s', build_one LA ju jdu so D s (bname, t) = Ok s') as (s & s' & Es).
  { unfold buildBundles in H. revert H. match goal with |- foldM _ _ ?x = _ -> _ => generalize x end. clear - Hb. intros s0 H. revert s0 H. induction (dc_bundles D) as [|b bs IH]; intros s0 H; [destruct Hb|].
    cbn [foldM] in H. inv_bind H. destruct Hb as [->|Hb]; eauto. }
  unfold build_one in Es. cbn [fst snd] in Es. inv_bind Es. inv_bind Es.
  destruct (graph_spec D t a Ha) as (Hv & Hc' & _). destruct (proj2 (Hv x d) Hx) as (v & Hin & Hn & _).
  destruct (levels_lumped _ _ v Hs Ha0 Hl Hin) as (l & Hi & Hn'). exists l. split; [exact Hi|]. rewrite Hn'.
  specialize (Hc' v Hin). rewrite Hn in Hc'. apply (name_of_cable D) in Hc', Hc. congruence.
Qed.
(** a lone node with a multiwire connector, or a type without grounding, gets no call *)
Lemma silent_single (p : place N) cs : ~ grounding (cn_type (pl_conn p)) -> row_calls [p] cs -> cs = [].
Proof. intros Hn H. inversion H; subst; try reflexivity; exfalso; apply Hn; unfold grounding, resistive in *; tauto. Qed.
Lemma silent_multi (ps : list (place N)) cs : (forall p, In p ps -> cn_type (pl_conn p) <> "MultiwireConnector"%string) -> (2 <= length ps)%nat -> row_calls ps cs -> cs = [].
Proof.
  intros Hn Hl H. destruct ps as [|p [|q ps]]; [cbn in Hl; lia|cbn in Hl; lia|]. cbn [row_calls] in H. destruct H as (css & -> & HF).
  set (l := p :: q :: ps) in *. clearbody l. assert (forall cs, In cs css -> cs = []) as Hall.
  { intros cs Hc. destruct (F2_In_r _ _ _ _ HF Hc) as (a & _ & x & Hx & Hm). inversion Hm; subst; [|reflexivity]. exfalso. exact (Hn x (nth_error_In _ _ Hx) H). }
  clear - Hall. induction css as [|c css IH]; [reflexivity|]. cbn [concat]. rewrite (Hall c (or_introl eq_refl)), IH; [reflexivity|]. intros; apply Hall; now right.
Qed.
(** ** Rows in conductor order *)
Lemma own_entries (ps : list (place N)) : NoDup (map (@pl_node N) ps) ->
  (forall p, In p ps -> nth_error ps (pl_cond p) = Some p) <-> (forall i p, nth_error ps i = Some p -> pl_cond p = i).
Proof.
  intros Hd. split.
  - intros H i p E. pose proof (H p (nth_error_In _ _ E)) as E'.
    assert (NoDup ps) as Hn by (eapply NoDup_map_inv; exact Hd).
    apply (proj1 (NoDup_nth_error ps) Hn); [apply nth_error_Some; congruence|congruence].
  - intros H p Hp. apply In_nth_error in Hp as (i & E). now rewrite (H i p E).
Qed.
Lemma rows_in_order (ps : list (place N)) cs : (2 <= length ps)%nat -> (forall i p, nth_error ps i = Some p -> pl_cond p = i) -> row_calls ps cs ->
  exists css, cs = concat css /\ Forall2 (fun p cs => multi_call (pl_node p) (pl_conn p) (pl_cond p) (pl_src p) cs) ps css.
Proof.
  intros Hl Ho H. destruct ps as [|p [|q ps]]; [cbn in Hl; lia|cbn in Hl; lia|]. cbn [row_calls] in H. destruct H as (css & -> & HF).
  exists css. split; [reflexivity|]. set (l := p :: q :: ps) in *. clearbody l.
  assert (forall a, In a l -> nth_error l (pl_cond a) = Some a) as Hs by (intros a Ha; apply In_nth_error in Ha as (i & E); now rewrite (Ho i a E)).
  clear - HF Hs. revert Hs HF. generalize l at 2 3 as full. revert css. induction l as [|a l IH]; intros css full Hs HF; inversion HF; subst; constructor.
  - destruct H1 as (x & Hx & Hm). rewrite (Hs a (or_introl eq_refl)) in Hx. injection Hx as <-. exact Hm.
  - apply (IH _ full); [intros; apply Hs; now right|assumption].
Qed.
End Last.

(** ** Junctions of anything but resistors *)
Definition no_resistor {N : num} (p : place N) : Prop :=
  ~ resistive (cn_type (pl_conn p)) /\ forall ty, cn_type (pl_conn p) = "MultiwireConnector"%string -> nth_error (cn_conns (pl_conn p)) (pl_cond p) = Some ty -> ~ resistive ty.
Lemma no_resistor_brings {N : num} (p : place N) R : no_resistor p -> brings p R -> R = n0.
Proof.
  intros [Ha Hb] H. inversion H; subst; try reflexivity; exfalso; eauto. exact (Hb ty H0 H1 H2).
Qed.
Lemma junction_shorts (p q : place NumR) cs : no_resistor p -> no_resistor q -> joined_by [p; q] cs -> cs = [Short (pl_node p) (pl_node q)].
Proof.
  intros Hp Hq (p' & q' & R & S & E & HR & HS & ->). injection E as <- <-.
  apply no_resistor_brings in HR; [|exact Hp]. apply no_resistor_brings in HS; [|exact Hq]. subst R S.
  change (neqb (nadd n0 n0) (@n0 NumR)) with (Reqb (0 + 0) 0). destruct (Reqb (0+0) 0) eqn:Eb; [reflexivity|]. apply Reqb_false in Eb. exfalso. apply Eb. apply Rplus_0_l.
Qed.
Lemma junction_branch (p q : place NumR) R S cs : (R + S <> 0)%R -> (forall R', brings p R' -> R' = R) -> (forall S', brings q S' -> S' = S) -> joined_by [p; q] cs ->
  cs = [Branch (pl_node p) (pl_node q) (@nadd NumR R S) (add_t_functions (pl_src p) (pl_src q))].
Proof.
  intros Hn Hp Hq (p' & q' & R' & S' & E & HR & HS & ->). injection E as <- <-. apply Hp in HR. apply Hq in HS. subst R' S'.
  change (neqb (@nadd NumR S R) (@n0 NumR)) with (Reqb (S + R) 0). destruct (Reqb (S + R) 0) eqn:Eb; [|reflexivity]. apply Reqb_true in Eb. exfalso. apply Hn. rewrite Rplus_comm. exact Eb.
Qed.
