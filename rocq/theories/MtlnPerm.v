(** The order in which bundles and networks were added (any [num]). *)
From Coq Require Import String List Arith ZArith Bool Permutation Lia.
From Verif Require Import Num Py Arr ArrFacts Utils Probes Dispersive Line LineFacts Bundle Networks Mtln SpecLine SpecBundle SpecNet SpecMtln
  HistoryFacts BundleFacts NetFacts NetBuild NetPlace MtlnFacts MtlnProps.
Import ListNotations.

Section MtlnPerm.
Context {N : num}.
Local Open Scope num_scope.
Variable LA : lapack N.
Implicit Types x y : mtln N.
Implicit Types bs : bdict N.

Lemma F2_perm {A B} (P : A -> B -> Prop) l m : Forall2 P l m -> forall l', Permutation l l' -> exists m', Forall2 P l' m' /\ Permutation m m'.
Proof.
  intros F l' Q. revert m F. induction Q as [|a l l' _ IH|a b l|l1 l2 l3 _ IH1 _ IH2]; intros m F.
  - inversion F; subst. exists []. split; constructor.
  - inversion F as [|? c ? m0 H H0]; subst. destruct (IH m0 H0) as (m' & F' & Q'). exists (c :: m'). split; constructor; auto.
  - inversion F as [|? c ? m0 H H0]; subst. inversion H0 as [|? c' ? m1 H1 H2]; subst. exists (c' :: c :: m1). split; [constructor; auto|apply perm_swap].
  - destruct (IH1 m F) as (m1 & F1 & Q1). destruct (IH2 m1 F1) as (m2 & F2 & Q2). exists m2. split; [exact F2|]. eapply perm_trans; eauto.
Qed.
Lemma mapM_perm {A B} (f : A -> res B) l l' m : mapM f l = Ok m -> Permutation l l' -> exists m', mapM f l' = Ok m' /\ Permutation m m'.
Proof.
  intros H Q. apply mapM_Ok in H. destruct (F2_perm _ _ _ H l' Q) as (m' & F & Q'). exists m'. split; [now apply mapM_Ok_intro|exact Q'].
Qed.
Lemma FOP_perm {A} (R : A -> A -> Prop) l l' : (forall a b, R a b -> R b a) -> ForallOrdPairs R l -> Permutation l l' -> ForallOrdPairs R l'.
Proof.
  intros Sy F Q. induction Q as [|a l l' Q IH|a b l|l1 l2 l3 _ IH1 _ IH2]; auto.
  - inversion F as [|? ? H1 H2]; subst. constructor; [|auto]. rewrite Forall_forall in *. intros c Hc. apply H1. apply Permutation_sym in Q. eapply Permutation_in; eauto.
  - inversion F as [|? ? H1 H2]; subst. inversion H2 as [|? ? H3 H4]; subst. inversion H1 as [|? ? H5 H6]; subst. constructor; [constructor; [now apply Sy|exact H3]|]. constructor; auto.
Qed.
Lemma FOP_F2 {A B} (P : A -> B -> Prop) (R : A -> A -> Prop) (S : B -> B -> Prop) l m : Forall2 P l m -> (forall a b c d, P a b -> P c d -> R a c -> S b d) -> ForallOrdPairs R l -> ForallOrdPairs S m.
Proof.
  intros F H. induction F as [|a b l m Hab F IH]; intros O; constructor; inversion O as [|? ? H1 H2]; subst; [|auto].
  clear - F H Hab H1. induction F as [|c d l m Hcd _ IH]; inversion H1; subst; constructor; eauto.
Qed.

(** *** dictionaries *)
Lemma dset_perm {V} k (v : V) (d d' : list (string * V)) : NoDup (map fst d) -> Permutation d d' -> (exists u, dget String.eqb k d = Some u) -> Permutation (dset String.eqb k v d) (dset String.eqb k v d').
Proof.
  intros ND Q. induction Q as [|[a u] d d' Q IH|[a u] [b w] d|d1 d2 d3 Q1 IH1 Q2 IH2]; intros [z Hz].
  - discriminate Hz.
  - cbn [dset dget] in *. destruct (String.eqb k a); [now constructor|]. constructor. apply IH; [inversion ND; assumption|eauto].
  - cbn [dset]. cbn [map fst] in ND. inversion ND as [|? ? H1 H2]; subst.
    destruct (String.eqb_spec k a) as [Ea|], (String.eqb_spec k b) as [Eb|].
    + exfalso. apply H1. left. congruence.
    + apply perm_swap.
    + apply perm_swap.
    + apply perm_swap.
  - apply (perm_trans (IH1 ND (ex_intro _ z Hz))). apply IH2.
    + eapply Permutation_NoDup; [apply Permutation_map; exact Q1|exact ND].
    + exists z. rewrite (sget_perm k d1 d2 ND Q1). exact Hz.
Qed.
Lemma dset_comm {V} k k' (v v' : V) (d : list (string * V)) : k <> k' -> (exists u, dget String.eqb k d = Some u) -> (exists u, dget String.eqb k' d = Some u) ->
  dset String.eqb k v (dset String.eqb k' v' d) = dset String.eqb k' v' (dset String.eqb k v d).
Proof.
  intros NE. induction d as [|[a u] d IH]; intros [z Hz] [z' Hz']; [discriminate Hz|]. cbn [dset dget] in *.
  destruct (String.eqb_spec k a) as [Ea|Na], (String.eqb_spec k' a) as [Ea'|Na']; cbn [dset].
  - congruence.
  - subst a. rewrite String.eqb_refl. destruct (String.eqb_spec k' k); [congruence|reflexivity].
  - subst a. rewrite String.eqb_refl. destruct (String.eqb_spec k k'); [congruence|reflexivity].
  - destruct (String.eqb_spec k a); [congruence|]. destruct (String.eqb_spec k' a); [congruence|]. f_equal. eauto.
Qed.
Lemma dset_again {V} k (v v' : V) (d : list (string * V)) : dset String.eqb k v (dset String.eqb k v' d) = dset String.eqb k v d.
Proof.
  induction d as [|[a u] d IH]; cbn [dset]; [now rewrite String.eqb_refl|]. destruct (String.eqb_spec k a) as [Ea|Na]; cbn [dset].
  - subst a. now rewrite String.eqb_refl.
  - destruct (String.eqb_spec k a); [congruence|]. now f_equal.
Qed.
Lemma lset_comm {A} (l : list A) i j a b : i <> j -> lset (lset l i a) j b = lset (lset l j b) i a.
Proof. revert i j. induction l as [|c l IH]; intros [|i] [|j] H; cbn [lset]; try reflexivity; [congruence|]. f_equal. apply IH. lia. Qed.
Lemma lset_twice {A} (l : list A) i a b : lset (lset l i a) i b = lset l i b.
Proof. revert i. induction l as [|c l IH]; intros [|i]; cbn [lset]; try reflexivity. f_equal. apply IH. Qed.
Lemma nth_lset_in {A} (l : list A) i a d : (i < length l)%nat -> nth i (lset l i a) d = a.
Proof. revert i. induction l as [|c l IH]; intros [|i] H; cbn [lset nth length] in *; try lia; [reflexivity|]. apply IH. lia. Qed.
Lemma nth_lset_out {A} (l : list A) i j a d : i <> j -> nth j (lset l i a) d = nth j l d.
Proof. revert i j. induction l as [|c l IH]; intros [|i] [|j] H; cbn [lset nth]; try reflexivity; [congruence|]. apply IH. lia. Qed.
Lemma upd2_comm {A} (m : list (list A)) i j i' j' a b : (i < length m)%nat -> (i' < length m)%nat -> ~ (i = i' /\ j = j') -> upd2 (upd2 m i j a) i' j' b = upd2 (upd2 m i' j' b) i j a.
Proof.
  intros Li Li' H. unfold upd2. destruct (Nat.eq_dec i i') as [E|NE].
  - subst i'. rewrite !nth_lset_in by assumption. rewrite !lset_twice. f_equal. apply lset_comm. intros E. apply H. auto.
  - rewrite (nth_lset_out m i i') by exact NE. rewrite (nth_lset_out m i' i) by auto. apply lset_comm. exact NE.
Qed.

(** *** writes to different places commute *)
Definition wide bs : Prop := forall name b, dget String.eqb name bs = Some b -> vgrid b /\ (1 <= b_cells b)%nat.
Definition elsewhere (n1 n2 : node) : Prop := ~ (nd_bundle n1 = nd_bundle n2 /\ nd_row n1 = nd_row n2 /\ nd_end n1 = nd_end n2).
Lemma wide_put bs nd v bs' : wide bs -> put_voltage bs nd v = Ok bs' -> wide bs'.
Proof.
  intros W H. apply put_voltage_spec in H as (b & Hb & Hr & ->). intros name c Hc. rewrite sget_set in Hc.
  destruct (String.eqb_spec name (nd_bundle nd)) as [E|E]; [|exact (W name c Hc)]. injection Hc as <-. destruct (W _ _ Hb) as [G L]. split; [now apply vgrid_put|exact L].
Qed.
Lemma put_intro bs nd (v : N) (b : bundle N) : dget String.eqb (nd_bundle nd) bs = Some b -> (nd_row nd < b_conductors b)%nat -> put_voltage bs nd v = Ok (dset String.eqb (nd_bundle nd) (put_end b (nd_row nd) (nd_end nd) v) bs).
Proof. intros Hb Hr. unfold put_voltage. rewrite Hb. cbn [of_option bind]. cbv zeta. unfold b_conductors in Hr. rewrite (proj2 (Nat.ltb_lt (nd_row nd) (k_n (b_core b))) Hr). reflexivity. Qed.
Lemma put_end_comm (b : bundle N) r e (v : N) r' e' (v' : N) : vgrid b -> (1 <= b_cells b)%nat -> (r < b_conductors b)%nat -> (r' < b_conductors b)%nat -> ~ (r = r' /\ e = e') ->
  put_end (put_end b r e v) r' e' v' = put_end (put_end b r' e' v') r e v.
Proof.
  intros G L Hr Hr' H. unfold put_end. cbn [b_set_core b_set b_core set_v k_v k_N b_probes b_name b_u b_du b_levels b_cil]. unfold b_set_core, b_set. cbn [b_core b_probes b_name b_u b_du b_levels b_cil].
  unfold set_v. cbn [k_n k_N k_h k_l k_r k_c k_g k_dt k_disp k_v k_i k_eL k_eT k_lr k_cg].
  rewrite (upd2_comm (k_v (b_core b)) r' (if e' then k_N (b_core b) else 0%nat) r (if e then k_N (b_core b) else 0%nat) v' v); [reflexivity| | |].
  - rewrite (proj1 G). exact Hr'.
  - rewrite (proj1 G). exact Hr.
  - intros [E1 E2]. apply H. split; [now symmetry|]. destruct e, e'; auto; exfalso; unfold b_cells in L; lia.
Qed.
Lemma put_comm bs n1 v1 n2 v2 c : wide bs -> elsewhere n1 n2 -> (b <- put_voltage bs n1 v1 ;; put_voltage b n2 v2) = Ok c -> (b <- put_voltage bs n2 v2 ;; put_voltage b n1 v1) = Ok c.
Proof.
  intros W NE H. inv_bind H. apply put_voltage_spec in Ha as (b1 & Hb1 & Hr1 & ->). apply put_voltage_spec in H as (b2 & Hb2 & Hr2 & ->). rewrite sget_set in Hb2.
  destruct (String.eqb_spec (nd_bundle n2) (nd_bundle n1)) as [E|E].
  - injection Hb2 as <-. assert (Hr2' : (nd_row n2 < b_conductors b1)%nat) by exact Hr2. rewrite (put_intro bs n2 v2 b1 ltac:(now rewrite E) Hr2'). cbn [bind].
    rewrite (put_intro _ n1 v1 (put_end b1 (nd_row n2) (nd_end n2) v2)); [|rewrite sget_set, E, String.eqb_refl; reflexivity|exact Hr1].
    rewrite E, !dset_again. destruct (W _ _ Hb1) as [G L]. rewrite (put_end_comm b1 (nd_row n1) (nd_end n1) v1 (nd_row n2) (nd_end n2) v2); auto.
  - rewrite (put_intro bs n2 v2 b2 Hb2 Hr2). cbn [bind].
    rewrite (put_intro _ n1 v1 b1); [|rewrite sget_set; destruct (String.eqb_spec (nd_bundle n1) (nd_bundle n2)); [congruence|exact Hb1]|exact Hr1].
    rewrite dset_comm; eauto.
Qed.
Lemma put_block l : forall bs n v c, wide bs -> (forall nv, In nv l -> elsewhere n (fst nv)) ->
  (b <- put_voltage bs n v ;; put_all l b) = Ok c -> (b <- put_all l bs ;; put_voltage b n v) = Ok c.
Proof.
  unfold put_all. induction l as [|[n1 v1] l IH]; intros bs n v c W NE H; cbn [foldM bind fst snd] in *; [inv_bind H; rewrite Ha; cbn [bind] in *; exact H|].
  inv_bind H. inv_bind H. pose proof (put_comm bs n v n1 v1 a0 W (NE _ (or_introl eq_refl))) as C. rewrite Ha in C. cbn [bind] in C. specialize (C Ha0). inv_bind C.
  rewrite Ha1. cbn [bind]. apply IH.
  - eapply wide_put; eauto.
  - intros nv Hn. apply NE. now right.
  - rewrite C. cbn [bind]. exact H.
Qed.
Lemma wide_all l : forall bs bs', wide bs -> put_all l bs = Ok bs' -> wide bs'.
Proof. unfold put_all. induction l as [|nv l IH]; intros bs bs' W H; cbn [foldM] in H; [injection H as <-; exact W|]. inv_bind H. eapply IH; [|exact H]. eapply wide_put; eauto. Qed.
Lemma put_blocks l1 : forall l2 bs c, wide bs -> (forall a b, In a l1 -> In b l2 -> elsewhere (fst a) (fst b)) -> put_all (l1 ++ l2) bs = Ok c -> put_all (l2 ++ l1) bs = Ok c.
Proof.
  unfold put_all. induction l1 as [|[n v] l1 IH]; intros l2 bs c W NE H; [rewrite app_nil_r; exact H|]. cbn [app foldM fst snd] in H. inv_bind H.
  apply IH in H; [|eapply wide_put; eauto|intros a' b' Ha' Hb'; apply NE; [now right|exact Hb']]. rewrite foldM_app in H. inv_bind H.
  rewrite foldM_app. pose proof (put_block l2 bs n v a0 W) as B. unfold put_all in B. rewrite Ha in B. cbn [bind] in B.
  specialize (B (fun nv Hn => NE (n, v) nv (or_introl eq_refl) Hn) Ha0). inv_bind B. rewrite Ha1. cbn [bind foldM fst snd]. rewrite B. cbn [bind]. exact H.
Qed.
Definition d_apart (d d' : networkd N) : Prop := forall w w', In w (tiers d) -> In w' (tiers d') -> apart w w'.
Lemma d_apart_sym d d' : d_apart d d' -> d_apart d' d.
Proof. intros H w w' Hw Hw' kn kn' Hk Hk' (E1 & E2 & E3). apply (H w' w Hw' Hw kn' kn Hk' Hk). auto. Qed.
Definition dputs (d : networkd N) := flat_map puts_of (tiers d).
Lemma puts_blocks ws : puts ws = flat_map dputs ws.
Proof. unfold puts, dputs. induction ws as [|d ws IH]; cbn [flat_map]; [reflexivity|]. rewrite flat_map_app. now f_equal. Qed.
Lemma dputs_apart d d' : d_apart d d' -> forall a b, In a (dputs d) -> In b (dputs d') -> elsewhere (fst a) (fst b).
Proof.
  intros H a b Ha Hb. unfold dputs, puts_of in *. apply in_flat_map in Ha as (w & Hw & Ha). apply in_map_iff in Ha as (kn & <- & Hk).
  apply in_flat_map in Hb as (w' & Hw' & Hb). apply in_map_iff in Hb as (kn' & <- & Hk'). cbn [fst]. exact (H w w' Hw Hw' kn kn' Hk Hk').
Qed.
Lemma puts_perm ws ws' : Permutation ws ws' -> ForallOrdPairs d_apart ws -> forall bs c, wide bs -> put_all (puts ws) bs = Ok c -> put_all (puts ws') bs = Ok c.
Proof.
  intros Q. rewrite !puts_blocks. induction Q as [|d l l' Q IH|d1 d2 l|l1 l2 l3 Q1 IH1 Q2 IH2]; intros F bs c W H.
  - exact H.
  - cbn [flat_map] in *. inversion F as [|? ? H1 H2]; subst. unfold put_all in *. rewrite foldM_app in *. inv_bind H. rewrite Ha. cbn [bind]. apply IH; auto. eapply wide_all; eauto.
  - cbn [flat_map] in *. inversion F as [|? ? H1 H2]; subst. inversion H1 as [|? ? H3 _]; subst. rewrite app_assoc in *. unfold put_all in *. rewrite foldM_app in *. inv_bind H.
    pose proof (put_blocks (dputs d2) (dputs d1) bs a W (dputs_apart _ _ H3) Ha) as B. unfold put_all in B. rewrite B. cbn [bind]. exact H.
  - apply IH2; auto. eapply FOP_perm; [apply d_apart_sym|exact F|exact Q1].
Qed.
Lemma put_dict nd v bs bs' c : NoDup (map fst bs) -> Permutation bs bs' -> put_voltage bs nd v = Ok c -> exists c', put_voltage bs' nd v = Ok c' /\ Permutation c c' /\ NoDup (map fst c).
Proof.
  intros ND Q H. apply put_voltage_spec in H as (b & Hb & Hr & ->). eexists. split; [apply (put_intro _ _ _ b); [rewrite (sget_perm _ _ _ ND Q); exact Hb|exact Hr]|].
  split; [apply dset_perm; eauto|]. erewrite sset_keys; eauto.
Qed.
Lemma put_all_dict l : forall bs bs' c, NoDup (map fst bs) -> Permutation bs bs' -> put_all l bs = Ok c -> exists c', put_all l bs' = Ok c' /\ Permutation c c'.
Proof.
  unfold put_all. induction l as [|nv l IH]; intros bs bs' c ND Q H; cbn [foldM] in *; [injection H as <-; eauto|]. inv_bind H.
  destruct (put_dict _ _ _ _ _ ND Q Ha) as (a' & E & Q' & ND'). rewrite E. cbn [bind]. eapply IH; eauto.
Qed.

(** *** one step *)
Lemma bundle_cells b : reachable_bundle LA b -> (1 <= b_cells b)%nat.
Proof.
  intros [b0 H]. destruct (history_binv LA _ _ H) as [_ K]. rewrite (bk_N _ _ K). clear K.
  assert (B : bundle_built LA b0) by (induction H; auto).
  destruct B as (levels & name & R & E). destruct (mtld_new_inv _ _ _ E) as (outer & rest & -> & _ & _ & _ & _ & _ & _ & _ & C). rewrite C.
  apply Forall_inv, Forall_inv in R. pose proof (reachable_shape LA _ R) as S. rewrite (sh_u _ S). pose proof (sh_N _ S). lia.
Qed.
Lemma read_perm bs bs' nd : NoDup (map fst bs) -> Permutation bs bs' -> read_current bs' nd = read_current bs nd.
Proof. intros ND Q. unfold read_current. now rewrite (sget_perm _ _ _ ND Q). Qed.
Lemma currents_perm bs bs' w : NoDup (map fst bs) -> Permutation bs bs' -> nw_update_currents w bs' = nw_update_currents w bs.
Proof.
  intros ND Q. unfold nw_update_currents. f_equal. apply foldM_ext. intros i kn _. now rewrite (read_perm _ _ _ ND Q).
Qed.
Lemma mapM_same {A B} (f g : A -> res B) l : (forall a, f a = g a) -> mapM f l = mapM g l.
Proof. intros H. induction l as [|a l IH]; cbn [mapM]; [reflexivity|]. now rewrite H, IH. Qed.
Lemma nwd_currents_perm bs bs' (d : networkd N) : NoDup (map fst bs) -> Permutation bs bs' -> nwd_update_currents d bs' = nwd_update_currents d bs.
Proof. intros ND Q. unfold nwd_update_currents. apply mapM_same. intros lw. now rewrite (currents_perm _ _ _ ND Q). Qed.
Lemma tiers_conns_F2 (f : network N -> res (network N)) (ws ws' : list (networkd N)) : (forall w w', f w = Ok w' -> w_conns w' = w_conns w) ->
  mapM (fun d : networkd N => mapM (fun lw => w <- f (snd lw) ;; Ok (fst lw, w)) d) ws = Ok ws' ->
  Forall2 (fun d d' => map (@w_conns N) (tiers d') = map (@w_conns N) (tiers d)) ws ws'.
Proof.
  intros Hf H. apply mapM_Ok in H. eapply F2_impl; [|exact H]. intros d d' E. cbv beta in E. apply tiers_F2 in E. eapply F2_conns; [exact E|exact Hf].
Qed.
Lemma apart_conns d1 d1' d2 d2' : map (@w_conns N) (tiers d1') = map (@w_conns N) (tiers d1) -> map (@w_conns N) (tiers d2') = map (@w_conns N) (tiers d2) -> d_apart d1 d2 -> d_apart d1' d2'.
Proof.
  intros E1 E2 H w w' Hw Hw'. assert (I1 : In (w_conns w) (map (@w_conns N) (tiers d1))) by (rewrite <- E1; now apply in_map).
  assert (I2 : In (w_conns w') (map (@w_conns N) (tiers d2))) by (rewrite <- E2; now apply in_map).
  apply in_map_iff in I1 as (u & Eu & Hu). apply in_map_iff in I2 as (u' & Eu' & Hu'). specialize (H u u' Hu Hu'). unfold apart in *. now rewrite Eu, Eu' in H.
Qed.
Lemma apart_list (f : network N -> res (network N)) (ws ws' : list (networkd N)) : (forall w w', f w = Ok w' -> w_conns w' = w_conns w) ->
  mapM (fun d : networkd N => mapM (fun lw => w <- f (snd lw) ;; Ok (fst lw, w)) d) ws = Ok ws' -> ForallOrdPairs d_apart ws -> ForallOrdPairs d_apart ws'.
Proof. intros Hf H. eapply FOP_F2; [exact (tiers_conns_F2 f ws ws' Hf H)|]. intros a b c d E1 E2. apply apart_conns; assumption. Qed.

Lemma step_reordered x x' y : ninv LA x -> disjoint_ends x -> reordered x x' -> mtln_step LA x = Ok y ->
  exists y', mtln_step LA x' = Ok y' /\ reordered y y' /\ disjoint_ends y.
Proof.
  intros I D (QB & QW & Ed & Et) H. apply step_split in H as (bs1 & ws & bs2 & bs3 & [H1 H2 H3 H4 H5 H6 H7 H8]).
  destruct (mapM_perm _ _ _ _ H1 QB) as (bs1' & H1' & Q1). destruct (mapM_perm _ _ _ _ H2 QW) as (ws' & H2' & QW').
  assert (ND1 : NoDup (map fst bs1)) by (rewrite (map_bundles_keys _ _ _ H1); apply (nv_keys _ _ I)).
  assert (W1 : wide bs1).
  { intros name b1 Hb1. destruct (map_bundles_back _ _ _ _ _ H1 Hb1) as (b & V & Hb). pose proof (proj1 (bundle_in LA x name b I Hb)) as Rb.
    assert (M : marches LA b b1) by (eapply ma_volt; [constructor|exact V]). destruct (marches_reach LA b b1 Rb M) as [R1 _]. split; [exact (reachable_vgrid LA _ R1)|exact (bundle_cells _ R1)]. }
  assert (DW : ForallOrdPairs d_apart ws).
  { apply (apart_list (fun w => nw_advance_voltage LA w (t_time x) (t_dt x)) (t_networks x)); [intros; eapply advance_conns; eauto|exact H2|exact D]. }
  pose proof (puts_perm _ _ QW' DW _ _ W1 H3) as P. destruct (put_all_dict _ _ _ _ ND1 Q1 P) as (bs2' & P' & Q2).
  destruct (mapM_perm _ _ _ _ H4 Q2) as (bs3' & H4' & Q3).
  assert (ND2 : NoDup (map fst bs2)) by (rewrite (proj1 (put_all_val _ _ _ H3)); exact ND1).
  assert (ND3 : NoDup (map fst bs3)) by (rewrite (map_bundles_keys _ _ _ H4); exact ND2).
  destruct (mapM_perm _ _ _ _ H5 QW') as (wy' & H5' & QY). destruct (mapM_perm _ _ _ _ H6 Q3) as (by' & H6' & QB').
  assert (H5'' : mapM (fun w => nwd_update_currents w bs3') ws' = Ok wy').
  { rewrite <- H5'. apply mapM_same. intros d. now apply nwd_currents_perm. }
  exists {| t_bundles := by'; t_networks := wy'; t_dt := t_dt y; t_time := t_time y |}. split; [|split].
  - apply step_split. exists bs1', ws', bs2', bs3'. rewrite <- Ed, <- Et in *. split; cbn [t_bundles t_networks t_dt t_time]; auto.
  - repeat (split; auto).
  - unfold disjoint_ends. apply (apart_list (fun w => nw_update_currents w bs3) ws); [intros; eapply currents_conns; eauto|exact H5|exact DW].
Qed.
Lemma steps_reordered n : forall x x' y, ninv LA x -> disjoint_ends x -> reordered x x' -> iterM n (mtln_step LA) x = Ok y ->
  exists y', iterM n (mtln_step LA) x' = Ok y' /\ reordered y y'.
Proof.
  induction n as [|n IH]; intros x x' y I D Q H; cbn [iterM] in *; [injection H as <-; eauto|]. inv_bind H.
  destruct (step_reordered _ _ _ I D Q Ha) as (a' & E & Q' & D'). rewrite E. cbn [bind]. exact (IH a a' y (ninv_step LA _ _ I Ha) D' Q' H).
Qed.
Lemma run_reordered x x' T dt n y : lines_net LA x -> disjoint_ends x -> reordered x x' -> reaches LA x T dt n y ->
  exists y', reaches LA x' T dt n y' /\ reordered y y'.
Proof.
  intros L D (QB & QW & Ed & Et) R. pose proof (lines_ninv LA x L) as I.
  destruct (run_start LA _ _ _ _ _ R) as (_ & _ & _ & _ & _ & _ & _ & _ & _ & _ & _ & _ & _ & _).
  pose proof R as (ws & steps & p & H1 & H2 & H3 & H4 & H5).
  assert (QB0 : Permutation (t_bundles (override_dt x dt)) (t_bundles (override_dt x' dt))).
  { unfold override_dt. destruct (negb (dt =? n0)); cbn [t_bundles]; [|exact QB]. unfold set_all_dt. now apply Permutation_map. }
  assert (E0 : t_dt (override_dt x' dt) = t_dt (override_dt x dt)) by (unfold override_dt; destruct (negb (dt =? n0)); [reflexivity|exact Ed]).
  destruct (override_keys x dt) as (_ & K2 & K3). destruct (override_keys x' dt) as (_ & K2' & K3').
  assert (QW0 : Permutation (t_networks (override_dt x dt)) (t_networks (override_dt x' dt))) by (rewrite K2, K2'; exact QW).
  destruct (mapM_perm _ _ _ _ H1 QW0) as (ws' & H1' & QW1).
  unfold mtln_prepare in H4. inv_bind H4. cbn [t_set t_bundles t_networks] in *. apply (f_equal (fun r => match r with Ok a => a | _ => p end)) in H4.
  destruct (mapM_perm _ _ _ _ Ha QB0) as (c & Hc & QC).
  set (p' := t_set (t_set (override_dt x' dt) (t_bundles (override_dt x' dt)) ws') c ws').
  assert (Qp : reordered p p').
  { subst p p'. split; [exact QC|]. split; [exact QW1|]. cbn [t_set t_dt t_time]. split; [exact E0|]. rewrite K3, K3'. exact Et. }
  assert (Rp : reaches LA x T dt 0 p).
  { exists ws, steps, p. cbv zeta. repeat (split; [assumption || lia|]). split; [|reflexivity]. unfold mtln_prepare. cbn [t_set t_bundles t_networks]. rewrite Ha. cbn [bind]. now rewrite <- H4. }
  assert (Dp : disjoint_ends p).
  { unfold disjoint_ends. subst p. cbn [t_set t_networks]. apply (apart_list (fun w => compute_v_terms w (t_dt (override_dt x dt))) (t_networks (override_dt x dt))); [intros; eapply terms_conns; eauto|exact H1|].
    rewrite K2. exact D. }
  destruct (steps_reordered n p p' y (reaches_ninv LA _ _ _ _ _ I Rp) Dp Qp H5) as (y' & E & Q). exists y'. split; [|exact Q].
  exists ws', steps, p'. cbv zeta. rewrite E0. repeat (split; [assumption|]). split; [|exact E].
  unfold mtln_prepare. cbn [t_set t_bundles t_networks]. unfold map_bundles in *. rewrite Hc. reflexivity.
Qed.
Lemma reordered_same x x' name : ninv LA x -> reordered x x' -> bundle_of x' name = bundle_of x name.
Proof. intros I (Q & _). apply (sget_perm name _ _ (nv_keys _ _ I) Q). Qed.
Lemma reordered_nets x x' : reordered x x' -> Permutation (nets x) (nets x').
Proof. intros (_ & Q & _). unfold nets. now apply Permutation_flat_map. Qed.
Lemma whole_reordered x x' T dt y : lines_net LA x -> disjoint_ends x -> reordered x x' -> mtln_run_until LA x T dt = Ok y ->
  exists y', mtln_run_until LA x' T dt = Ok y' /\ reordered y y' /\ (forall name, bundle_of y' name = bundle_of y name) /\ Permutation (nets y) (nets y').
Proof.
  intros L D Q H. apply run_reaches in H as (n & En & R). destruct (run_reordered _ _ _ _ _ _ L D Q R) as (y' & R' & Q'). exists y'. split.
  - apply run_reaches. exists n. split; [|exact R']. destruct Q as (_ & _ & Ed & _).
    replace (t_dt (override_dt x' dt)) with (t_dt (override_dt x dt)); [exact En|]. unfold override_dt. destruct (dt =? n0); cbn [negb]; [now rewrite Ed|reflexivity].
  - split; [exact Q'|]. split; [|exact (reordered_nets _ _ Q')]. intros name. apply reordered_same; [|exact Q']. eapply reaches_ninv; [apply lines_ninv; exact L|exact R].
Qed.
End MtlnPerm.
