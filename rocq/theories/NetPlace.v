(** Where the nodes of a network are: bookkeeping, exchange with the bundles, registration. *)
From Coq Require Import String List Arith ZArith Bool Permutation Sorted Lia.
From Verif Require Import Num Py Arr ArrFacts Utils Probes Dispersive Line Bundle Networks Mtln SpecLine SpecBundle SpecAlone SpecNet BundleFacts DispProps NetFacts NetBuild.
Import ListNotations.

Section Place.
Context {N : num}.
Local Open Scope num_scope.
Implicit Types w : network N.
Implicit Types ds : list (descr N).
Variable LA : lapack N.

(** *** voltages of a bundle are a full array *)
Definition vgrid (b : bundle N) : Prop := rectm (k_n (b_core b)) (S (k_N (b_core b))) (k_v (b_core b)).
Lemma vgrid_put b c last x : vgrid b -> vgrid (put_end b c last x).
Proof. unfold vgrid, put_end. cbn [b_set_core b_set b_core set_v k_v k_n k_N]. apply rectm_upd. Qed.
Lemma marches_vgrid b b' : vgrid b -> marches LA b b' -> vgrid b'.
Proof.
  intros G. induction 1 as [|x dt Hx IH|x steps x' Hx IH H|x t dt x' Hx IH H|x c last v Hx IH Hc|x t dt x' Hx IH H|x t x' Hx IH H].
  - exact G.
  - exact IH.
  - unfold bundle_prepare in H. inv_bind H. inv_bind H. apply (f_equal (fun r => match r with Ok a => a | _ => x' end)) in H. subst x'.
    apply LineFacts.update_lr_inv in Ha as [t1 ->]. apply LineFacts.update_cg_inv in Ha0 as [t2 ->]. exact IH.
  - unfold bundle_advance_voltage in H. inv_bind H. apply (f_equal (fun r => match r with Ok a => a | _ => x' end)) in H. subst x'.
    unfold advance_voltage in Ha. destruct (k_cg (b_core x)) as [[? ?]|]; [|discriminate Ha]. apply (f_equal (fun r => match r with Ok a => a | _ => a end)) in Ha. subst a.
    unfold vgrid. cbn [b_set_core b_set b_core set_v k_v k_n k_N]. apply rectm_mk2.
  - now apply vgrid_put.
  - unfold bundle_advance_current in H. inv_bind H. apply (f_equal (fun r => match r with Ok a => a | _ => x' end)) in H. subst x'.
    unfold advance_current in Ha. inv_bind Ha. destruct (k_lr (b_core x)) as [[? ?]|]; [|discriminate Ha]. inv_bind Ha. cbv zeta in Ha.
    apply (f_equal (fun r => match r with Ok a => a | _ => a end)) in Ha. subst a. exact IH.
  - unfold bundle_update_probes in H. inv_bind H. apply (f_equal (fun r => match r with Ok a => a | _ => x' end)) in H. subst x'. exact IH.
Qed.
Lemma history_vgrid b0 b : bundle_history LA b0 b -> vgrid b.
Proof.
  induction 1 as [H|b b' HH IH H|b eL eT HH IH|b s e c f ty b' HH IH H|b p ty b' HH IH H
    |b ol oc il ic m b' HH IH H|b side ol oc il ic m b' HH IH H|b s e c R b' HH IH H|b s e c G b' HH IH H].
  - destruct H as (levels & name & _ & H). unfold mtld_new in H. destruct levels as [|[|outer [|]] rest]; try discriminate H.
    inv_bind H. injection H as <-. unfold vgrid. cbn [b_core k_n k_N k_v]. apply rectm_mk2.
  - eapply marches_vgrid; eauto.
  - exact IH.
  - unfold add_localized_longitudinal_field in H. destruct (_ || _); [discriminate H|]. inv_bind H. inv_bind H. inv_bind H. injection H as <-. exact IH.
  - unfold bundle_add_probe in H. destruct (probe_on_cells _ _ _ _); [|discriminate H]. injection H as <-. exact IH.
  - unfold bundle_add_transfer_impedance in H. inv_bind H. injection H as <-. exact IH.
  - unfold set_connector_transfer_impedance in H. inv_bind H. inv_bind H. injection H as <-. exact IH.
  - unfold bundle_set_resistance in H. inv_bind H. inv_bind H. inv_bind H. inv_bind H. injection H as <-.
    apply LineFacts.update_lr_inv in Ha2 as [t1 ->]. exact IH.
  - unfold bundle_add_conductance in H. inv_bind H. inv_bind H. inv_bind H. inv_bind H. injection H as <-.
    apply LineFacts.update_cg_inv in Ha2 as [t1 ->]. exact IH.
Qed.
Lemma reachable_vgrid b : reachable_bundle LA b -> vgrid b.
Proof. intros [b0 H]. eapply history_vgrid; eauto. Qed.

(** *** dictionaries by name *)
Lemma sget_set {V} k (v : V) d i : dget String.eqb i (dset String.eqb k v d) = if String.eqb i k then Some v else dget String.eqb i d.
Proof.
  induction d as [|[a x] d IH]; cbn [dset dget].
  - reflexivity.
  - destruct (String.eqb_spec k a) as [->|Hk]; cbn [dget].
    + destruct (String.eqb i a); reflexivity.
    + rewrite IH. destruct (String.eqb_spec i a) as [Ei|]; [|reflexivity]. destruct (String.eqb_spec i k); [congruence|reflexivity].
Qed.
Lemma sset_keys {V} k (v x : V) d : dget String.eqb k d = Some x -> map fst (dset String.eqb k v d) = map fst d.
Proof. induction d as [|[a y] d IH]; cbn [dset dget map fst]; [discriminate|]. destruct (String.eqb_spec k a) as [->|Hk]; cbn [map fst]; [reflexivity|]. intros H. now rewrite IH. Qed.

(** *** voltages *)
Lemma put_voltage_spec (bs bs' : bdict N) nd x : put_voltage bs nd x = Ok bs' ->
  exists b, dget String.eqb (nd_bundle nd) bs = Some b /\ (nd_row nd < b_conductors b)%nat /\ bs' = dset String.eqb (nd_bundle nd) (put_end b (nd_row nd) (nd_end nd) x) bs.
Proof.
  unfold put_voltage. intros H. inv_bind H. apply of_option_Ok in Ha. cbv zeta in H. destruct (Nat.ltb_spec (nd_row nd) (k_n (b_core a))) as [L|L]; [|discriminate H].
  injection H as <-. exists a. auto.
Qed.
Definition writesb (b : bundle N) (bn : string) (kn : Z * node) (r k : nat) : bool :=
  String.eqb (nd_bundle (snd kn)) bn && (nd_row (snd kn) =? r)%nat && ((if nd_end (snd kn) then b_cells b else 0%nat) =? k)%nat.
Lemma writesb_iff b bn kn r k : writesb b bn kn r k = true <-> writes b bn kn r k.
Proof. unfold writesb, writes. rewrite !andb_true_iff, String.eqb_eq, !Nat.eqb_eq. split; intros; repeat split; intuition auto. Qed.
Lemma only_refl (b : bundle N) : only_voltages b b.
Proof. exists (k_v (b_core b)). now destruct b as [? ? ? [] ? ? ?]. Qed.
Lemma update_voltages_val w l (bs bs' : bdict N) :
  foldM (fun bs kn => put_voltage bs (snd kn) (get (w_v w) (nd_index (snd kn)))) l bs = Ok bs' ->
  map fst bs' = map fst bs /\
  forall bn b, dget String.eqb bn bs = Some b -> vgrid b ->
    exists b', dget String.eqb bn bs' = Some b' /\ only_voltages b b' /\ vgrid b' /\
      forall r k, b_volt b' r k = fold_left (fun acc kn => if writesb b bn kn r k then nV w (nd_index (snd kn)) else acc) l (b_volt b r k).
Proof.
  revert bs'. induction l as [|kn l IH] using rev_ind; intros bs' H.
  - cbn [foldM] in H. injection H as <-. split; [reflexivity|]. intros bn b Hb G. exists b. split; [exact Hb|]. split; [apply only_refl|]. split; [exact G|reflexivity].
  - rewrite foldM_app in H. inv_bind H. destruct (IH _ Ha) as [K F]. cbn [foldM] in H. inv_bind H. injection H as <-.
    apply put_voltage_spec in Ha0 as (b2 & Hb2 & Hr & ->). split; [erewrite sset_keys; eauto|].
    intros bn b Hb G. destruct (F bn b Hb G) as (b1 & Hb1 & (v & Eb1) & G1 & V). rewrite sget_set. destruct (String.eqb_spec bn (nd_bundle (snd kn))) as [Eb|Nb].
    + subst bn. assert (b2 = b1) by congruence. subst b2.
      eexists. split; [reflexivity|]. split; [|split].
      * rewrite Eb1. unfold put_end. cbn [b_set_core b_set b_core set_v k_v k_N]. eexists. reflexivity.
      * now apply vgrid_put.
      * intros r k. rewrite fold_left_app. cbn [fold_left]. rewrite <- V. unfold b_volt, put_end. cbn [b_set_core b_set b_core set_v k_v].
        assert (EN : k_N (b_core b1) = b_cells b) by (rewrite Eb1; reflexivity).
        rewrite (get2_upd2 _ _ _ _ _ _ _ _ G1); [|exact Hr|destruct (nd_end (snd kn)); lia].
        unfold writesb. rewrite String.eqb_refl, EN. cbn [andb]. reflexivity.
    + exists b1. split; [exact Hb1|]. split; [exists v; exact Eb1|]. split; [exact G1|]. intros r k. rewrite fold_left_app. cbn [fold_left]. rewrite <- V.
      unfold writesb. destruct (String.eqb_spec (nd_bundle (snd kn)) bn); [congruence|]. reflexivity.
Qed.
Lemma fold_nowrite {A B} (p : A -> bool) (f : A -> B) l x : (forall a, In a l -> p a = false) -> fold_left (fun acc a => if p a then f a else acc) l x = x.
Proof. revert x. induction l as [|a l IH]; intros x H; [reflexivity|]. cbn [fold_left]. rewrite (H a) by now left. apply IH. intros; apply H; now right. Qed.
Lemma fold_onewrite {A B} (p : A -> bool) (f : A -> B) l x a : In a l -> p a = true -> (forall a', In a' l -> p a' = true -> f a' = f a) ->
  fold_left (fun acc a => if p a then f a else acc) l x = f a.
Proof.
  induction l as [|c l IH] using rev_ind; intros Hi Hp H; [destruct Hi|]. rewrite fold_left_app. cbn [fold_left]. destruct (p c) eqn:E.
  - apply H; [apply in_or_app; right; now left|exact E].
  - apply in_app_or in Hi as [Hi|[->|[]]]; [|congruence]. apply IH; auto. intros a' Ha'. apply H. apply in_or_app. now left.
Qed.
Lemma update_voltages w (bs bs' : bdict N) : nw_update_voltages w bs = Ok bs' ->
  map fst bs' = map fst bs /\
  forall bn b, dget String.eqb bn bs = Some b -> vgrid b -> exists b', dget String.eqb bn bs' = Some b' /\ only_voltages b b' /\
    (forall r k, (forall kn, In kn (w_conns w) -> ~ writes b bn kn r k) -> b_volt b' r k = b_volt b r k) /\
    (forall r k kn, In kn (w_conns w) -> writes b bn kn r k -> (forall kn', In kn' (w_conns w) -> writes b bn kn' r k -> kn' = kn) ->
       b_volt b' r k = nV w (nd_index (snd kn))).
Proof.
  intros H. destruct (update_voltages_val _ _ _ _ H) as [K F]. split; [exact K|]. intros bn b Hb G. destruct (F _ _ Hb G) as (b' & E1 & E2 & _ & V).
  exists b'. split; [exact E1|]. split; [exact E2|]. split.
  - intros r k Hn. rewrite V. apply fold_nowrite. intros kn Hk. destruct (writesb b bn kn r k) eqn:E; [|reflexivity]. apply writesb_iff in E. exfalso. eapply Hn; eauto.
  - intros r k kn Hk Hw Hu. rewrite V. apply (fold_onewrite (fun kn => writesb b bn kn r k) (fun kn => nV w (nd_index (snd kn)))); [exact Hk|now apply writesb_iff|].
    intros kn' Hk' Hw'. apply writesb_iff in Hw'. now rewrite (Hu _ Hk' Hw').
Qed.
Lemma resolves_put (bs : bdict N) nd b x kn : dget String.eqb (nd_bundle nd) bs = Some b ->
  (resolves (dset String.eqb (nd_bundle nd) (put_end b (nd_row nd) (nd_end nd) x) bs) kn <-> resolves bs kn).
Proof.
  intros H. unfold resolves. rewrite sget_set. destruct (String.eqb_spec (nd_bundle (snd kn)) (nd_bundle nd)) as [E|]; [|reflexivity].
  rewrite E, H. split; intros (c & Hc & Hr); injection Hc as <-; eexists; (split; [reflexivity|exact Hr]).
Qed.
Lemma update_voltages_accept w l (bs : bdict N) :
  (exists bs', foldM (fun bs kn => put_voltage bs (snd kn) (get (w_v w) (nd_index (snd kn)))) l bs = Ok bs') <-> forall kn, In kn l -> resolves bs kn.
Proof.
  revert bs. induction l as [|kn l IH]; intros bs; cbn [foldM].
  - split; [intros _ kn []|eauto].
  - split.
    + intros [bs' H]. inv_bind H. apply put_voltage_spec in Ha as (b & Hb & Hr & ->). intros kn' [<-|Hi]; [exists b; auto|].
      eapply resolves_put; [exact Hb|]. apply (proj1 (IH _) ltac:(eauto)). exact Hi.
    + intros H. destruct (H kn ltac:(now left)) as (b & Hb & Hr). unfold put_voltage at 1. rewrite Hb. cbn [of_option bind]. cbv zeta.
      rewrite (proj2 (Nat.ltb_lt (nd_row (snd kn)) (k_n (b_core b))) Hr). cbn [bind]. apply IH. intros kn' Hi. apply (resolves_put bs (snd kn) b _ kn' Hb). apply H. now right.
Qed.
Lemma update_voltages_total w (bs : bdict N) : (exists bs', nw_update_voltages w bs = Ok bs') <-> forall kn, In kn (w_conns w) -> resolves bs kn.
Proof. apply update_voltages_accept. Qed.

(** *** currents *)
Lemma index_inj w kn kn' : nshape w -> In kn (w_conns w) -> In kn' (w_conns w) -> nd_index (snd kn) = nd_index (snd kn') -> kn = kn'.
Proof.
  intros S H H' E. assert (ND : NoDup (map (fun kn : Z * node => nd_index (snd kn)) (w_conns w))) by (rewrite (sh_idx _ S); apply seq_NoDup).
  revert H H'. induction (w_conns w) as [|x l IH]; intros H H'; [destruct H|]. cbn [map] in ND. inversion ND as [|? ? Hi Hn]; subst.
  destruct H as [<-|H], H' as [<-|H']; [reflexivity| | |auto].
  - exfalso. apply Hi. rewrite E. apply in_map_iff. eauto.
  - exfalso. apply Hi. rewrite <- E. apply in_map_iff. eauto.
Qed.
Lemma read_current_spec (bs : bdict N) nd x : read_current bs nd = Ok x ->
  exists b, dget String.eqb (nd_bundle nd) bs = Some b /\ (nd_row nd < b_conductors b)%nat /\
    x = i_factor nd * b_curr b (nd_row nd) (if nd_end nd then (b_cells b - 1)%nat else 0%nat).
Proof.
  unfold read_current. intros H. inv_bind H. apply of_option_Ok in Ha. cbv zeta in H. destruct (Nat.ltb_spec (nd_row nd) (k_n (b_core a))) as [L|L]; [|discriminate H].
  apply (f_equal (fun r => match r with Ok a => a | _ => x end)) in H. subst x. exists a. auto.
Qed.
Lemma update_currents w (bs : bdict N) w' : nshape w -> nw_update_currents w bs = Ok w' ->
  w' = set_wi w (w_i w') /\
  forall kn, In kn (w_conns w) -> exists b, dget String.eqb (nd_bundle (snd kn)) bs = Some b /\ (nd_row (snd kn) < b_conductors b)%nat /\
    nI w' (nd_index (snd kn)) = i_factor (snd kn) * b_curr b (nd_row (snd kn)) (if nd_end (snd kn) then (b_cells b - 1)%nat else 0%nat).
Proof.
  intros S H. unfold nw_update_currents in H. inv_bind H. apply (f_equal (fun r => match r with Ok a => a | _ => w' end)) in H. subst w'. split; [reflexivity|].
  unfold nI. cbn [set_wi w_i]. rename a into i'.
  assert (G : forall l i i', incl l (w_conns w) -> foldM (fun i kn => x <- read_current bs (snd kn) ;; Ok (lset i (nd_index (snd kn)) x)) l i = Ok i' -> length i = w_nodes w ->
     length i' = w_nodes w /\ forall kn, In kn l -> exists x, read_current bs (snd kn) = Ok x /\ get i' (nd_index (snd kn)) = x).
  { clear i' Ha. induction l as [|kn l IH] using rev_ind; intros i i' Hl H Li.
    - cbn [foldM] in H. injection H as <-. split; [exact Li|]. intros kn [].
    - rewrite foldM_app in H. inv_bind H. destruct (IH i a) as [L F]; auto. { intros z Hz. apply Hl, in_or_app. now left. }
      cbn [foldM] in H. inv_bind H. injection H as <-. inv_bind Ha0. injection Ha0 as <-. split; [now rewrite length_lset|].
      assert (Ikn : In kn (w_conns w)) by (apply Hl, in_or_app; right; now left).
      assert (Lk : forall z, In z (w_conns w) -> (nd_index (snd z) < w_nodes w)%nat).
      { intros z Hz. assert (I : In (nd_index (snd z)) (seq 0 (w_nodes w))) by (rewrite <- (sh_idx _ S); apply in_map_iff; eauto). apply in_seq in I. lia. }
      intros z Hz. unfold get. rewrite nth_lset, L, (proj2 (Nat.ltb_lt _ _) (Lk _ Ikn)), andb_true_r.
      destruct (Nat.eqb_spec (nd_index (snd kn)) (nd_index (snd z))) as [E|E].
      + assert (kn = z). { apply (index_inj w); auto. } subst z. eauto.
      + apply in_app_or in Hz as [Hz|[<-|[]]]; [|congruence]. apply F. exact Hz. }
  destruct (G (w_conns w) (w_i w) i' (incl_refl _) Ha (sh_i _ S)) as [_ F]. intros kn Hk. destruct (F _ Hk) as (x & Hx & Ex).
  apply read_current_spec in Hx as (b & Hb & Hr & E). exists b. split; [exact Hb|]. split; [exact Hr|]. now rewrite Ex, E.
Qed.
Lemma update_currents_total w (bs : bdict N) : (exists w', nw_update_currents w bs = Ok w') <-> forall kn, In kn (w_conns w) -> resolves bs kn.
Proof.
  unfold nw_update_currents.
  assert (G : forall l i, (exists i', foldM (fun i kn => x <- read_current bs (snd kn) ;; Ok (lset i (nd_index (snd kn)) x)) l i = Ok i') <-> forall kn, In kn l -> resolves bs kn).
  { induction l as [|kn l IH]; intros i; cbn [foldM]; [split; [intros _ kn []|eauto]|]. split.
    - intros [i' H]. inv_bind H. inv_bind Ha. apply read_current_spec in Ha0 as (b & Hb & Hr & _). intros z [<-|Hz]; [exists b; auto|].
      apply (proj1 (IH _) (ex_intro _ _ H)). exact Hz.
    - intros H. destruct (H kn ltac:(now left)) as (b & Hb & Hr). unfold read_current at 1. rewrite Hb. cbn [of_option bind]. cbv zeta.
      rewrite (proj2 (Nat.ltb_lt (nd_row (snd kn)) (k_n (b_core b))) Hr). cbn [bind]. apply IH. intros z Hz. apply H. now right. }
  specialize (G (w_conns w) (w_i w)). split.
  - intros [w' H]. inv_bind H. apply G. eauto.
  - intros H. apply G in H as [i' H]. rewrite H. cbn [bind]. eauto.
Qed.

(** *** registration *)
Lemma shift_spec (bs : bdict N) level kn kn' : shift_node bs level kn = Ok kn' ->
  exists b, dget String.eqb (nd_bundle (snd kn)) bs = Some b /\ fst kn' = fst kn /\ nd_row (snd kn') = (nd_row (snd kn) + n_before (b_cil b) level)%nat /\
    nd_line (snd kn') = nd_line (snd kn) /\ nd_end (snd kn') = nd_end (snd kn) /\ nd_index (snd kn') = nd_index (snd kn) /\ nd_bundle (snd kn') = nd_bundle (snd kn) /\ nd_state (snd kn') = nd_state (snd kn).
Proof.
  destruct kn as [id nd]. unfold shift_node. intros H. inv_bind H. apply of_option_Ok in Ha. injection H as <-. exists a. cbn [snd fst] in *. auto 10.
Qed.
Lemma mapM_F2 {A B} (f : A -> res B) l l' : mapM f l = Ok l' -> Forall2 (fun a b => f a = Ok b) l l'.
Proof.
  revert l'. induction l as [|a l IH]; intros l' H; cbn [mapM] in H; [injection H as <-; constructor|]. inv_bind H. inv_bind H. injection H as <-. constructor; auto.
Qed.
(** a node moved by [k] times the conductors of the previous levels *)
Definition moved (bs : bdict N) (k level : nat) (kn kn' : Z * node) : Prop :=
  exists b, dget String.eqb (nd_bundle (snd kn)) bs = Some b /\ fst kn' = fst kn /\
    snd kn' = {| nd_line := nd_line (snd kn); nd_row := (nd_row (snd kn) + k * level_offset b level)%nat; nd_end := nd_end (snd kn);
                 nd_index := nd_index (snd kn); nd_bundle := nd_bundle (snd kn); nd_state := nd_state (snd kn) |}.
Lemma F2_trans {A} (P Q R : A -> A -> Prop) l1 l2 l3 : (forall a b c, P a b -> Q b c -> R a c) -> Forall2 P l1 l2 -> Forall2 Q l2 l3 -> Forall2 R l1 l3.
Proof. intros H F. revert l3. induction F as [|a b l l' Ha F IH]; intros l3 G; inversion G; subst; constructor; eauto. Qed.
Lemma F2_impl {A B} (P Q : A -> B -> Prop) l l' : (forall a b, P a b -> Q a b) -> Forall2 P l l' -> Forall2 Q l l'.
Proof. intros H. induction 1; constructor; auto. Qed.
Lemma registered_spec (bs : bdict N) k (d d' : networkd N) : (forall bn b, dget String.eqb bn bs = Some b -> binv b) ->
  (forall lw kn, In lw d -> In kn (w_conns (snd lw)) -> exists b, dget String.eqb (nd_bundle (snd kn)) bs = Some b) ->
  registered bs k d = Ok d' ->
  Forall2 (fun lw lw' => fst lw' = fst lw /\ snd lw' = set_conns (snd lw) (w_conns (snd lw')) /\ Forall2 (moved bs k (fst lw)) (w_conns (snd lw)) (w_conns (snd lw'))) d d'.
Proof.
  intros HB HN. unfold registered. revert d'. induction k as [|k IH]; intros d' H.
  - cbn [iterM] in H. injection H as <-. assert (G : forall l, incl l d -> Forall2 (fun lw lw' : nat * network N => fst lw' = fst lw /\ snd lw' = set_conns (snd lw) (w_conns (snd lw')) /\ Forall2 (moved bs 0 (fst lw)) (w_conns (snd lw)) (w_conns (snd lw'))) l l).
    { induction l as [|lw l IHl]; intros Hl; constructor; [|apply IHl; intros z Hz; apply Hl; now right]. split; [reflexivity|]. split; [now destruct (snd lw)|].
      assert (Hlw : In lw d) by (apply Hl; now left). assert (Q : forall kn, In kn (w_conns (snd lw)) -> exists b, dget String.eqb (nd_bundle (snd kn)) bs = Some b) by (intros; eapply HN; eauto).
      clear - Q. induction (w_conns (snd lw)) as [|kn c IHc]; constructor; [|apply IHc; intros; apply Q; now right].
      destruct (Q kn ltac:(now left)) as [b Hb]. exists b. split; [exact Hb|]. split; [reflexivity|]. rewrite Nat.mul_0_l, Nat.add_0_r. now destruct (snd kn). }
    apply G, incl_refl.
  - replace (S k) with (k + 1)%nat in H by lia. rewrite iterM_add in H. inv_bind H. specialize (IH _ Ha). cbn [iterM] in H. inv_bind H. injection H as <-.
    unfold update_index_numbers in Ha0. apply mapM_F2 in Ha0.
    eapply F2_trans; [|exact IH|exact Ha0]. clear - HB. intros lw lw1 lw2 (E1 & E2 & F) H. cbn beta in H. inv_bind H.
    apply (f_equal (fun r => match r with Ok a => a | _ => lw2 end)) in H. subst lw2. cbn [fst snd]. split; [exact E1|]. split; [rewrite E2; reflexivity|].
    cbn [set_conns w_conns]. apply mapM_F2 in Ha. eapply F2_trans; [|exact F|exact Ha]. rewrite E1. clear - HB. intros kn kn1 kn2 (b & Hb & I1 & I2) H.
    apply shift_spec in H as (b' & Hb' & J1 & J2 & J3 & J4 & J5 & J6 & J7). rewrite I2 in *. cbn [nd_bundle nd_row nd_line nd_end nd_index nd_state] in *.
    assert (b' = b) by congruence. subst b'. exists b. split; [exact Hb|]. split; [congruence|]. rewrite (offset_before b (fst lw) (HB _ _ Hb)) in J2.
    destruct (snd kn2) as [la ra ea ia ba sa]. cbn [nd_bundle nd_row nd_line nd_end nd_index nd_state] in *. subst. f_equal. lia.
Qed.

(** two lines in a level *)
Lemma second_line_row (b : bundle N) (l : nat) (m0 m1 : mtl N) rest : nth_error (b_levels b) l = Some (m0 :: m1 :: rest) ->
  let lines := concat (b_levels b) in let q := length (concat (firstn l (b_levels b))) in
  nth_error lines q = Some m0 /\ nth_error lines (S q) = Some m1 /\
  first_row lines q = level_offset b l /\ first_row lines (S q) = (level_offset b l + conductors m0)%nat.
Proof.
  intros H lines q. assert (E : lines = concat (firstn l (b_levels b)) ++ m0 :: m1 :: rest ++ concat (skipn (S l) (b_levels b))).
  { unfold lines. rewrite <- (firstn_skipn l (b_levels b)) at 1. rewrite concat_app. f_equal. clear - H. revert H. generalize (b_levels b). intros L. revert l.
    induction L as [|x L IH]; intros [|l] H; try discriminate H; cbn [nth_error skipn] in *; [injection H as ->; reflexivity|]. now apply IH. }
  assert (Q : first_row lines q = level_offset b l).
  { unfold first_row, level_offset, q. rewrite E, firstn_app, firstn_all, Nat.sub_diag. cbn [firstn]. now rewrite app_nil_r. }
  assert (G : nth_error lines q = Some m0) by (rewrite E; unfold q; now rewrite nth_error_app2, Nat.sub_diag by lia).
  split; [exact G|]. split; [rewrite E; unfold q; rewrite nth_error_app2, Nat.sub_succ_l, Nat.sub_diag by lia; reflexivity|]. split; [exact Q|].
  rewrite <- Q. unfold first_row. clear - G. revert G. generalize q. induction lines as [|x L IH]; intros [|n] G; try discriminate G.
  - injection G as ->. cbn. lia.
  - cbn [nth_error] in G. specialize (IH _ G). rewrite !firstn_cons. cbn [map]. change (list_sum (?a :: ?r)) with (a + list_sum r)%nat in *. lia.
Qed.

(** *** ends *)
Lemma nth_flat {A B} (f : A -> list B) l q a x : nth_error l q = Some a -> (x < length (f a))%nat ->
  nth_error (flat_map f l) (list_sum (map (fun a => length (f a)) (firstn q l)) + x) = nth_error (f a) x.
Proof.
  revert q. induction l as [|b l IH]; intros [|q] H Hx; try discriminate H; cbn [nth_error flat_map] in *.
  - injection H as ->. cbn. now rewrite nth_error_app1.
  - rewrite firstn_cons. cbn [map]. change (list_sum (?a :: ?r)) with (a + list_sum r)%nat. rewrite nth_error_app2 by lia.
    replace (length (f b) + list_sum (map (fun a0 : A => length (f a0)) (firstn q l)) + x - length (f b))%nat with (list_sum (map (fun a0 : A => length (f a0)) (firstn q l)) + x)%nat by lia.
    now apply IH.
Qed.
Lemma sorted_unique l : forall l', StronglySorted le l -> StronglySorted le l' -> Permutation l l' -> l = l'.
Proof.
  induction l as [|a l IH]; intros [|b l'] S1 S2 P.
  - reflexivity.
  - now apply Permutation_nil_cons in P.
  - apply Permutation_sym in P. now apply Permutation_nil_cons in P.
  - inversion S1 as [|? ? S1' F1]; inversion S2 as [|? ? S2' F2]; subst.
    assert (a = b).
    { rewrite Forall_forall in F1, F2. assert (Ia : In a (b :: l')) by (eapply Permutation_in; [exact P|now left]). assert (Ib : In b (a :: l)) by (eapply Permutation_in; [apply Permutation_sym; exact P|now left]).
      destruct Ia as [->|Ia]; [reflexivity|]. destruct Ib as [->|Ib]; [reflexivity|]. specialize (F1 _ Ib). specialize (F2 _ Ia). lia. }
    subst b. f_equal. apply IH; auto. eapply Permutation_cons_inv; eauto.
Qed.
Lemma seq_sorted n s : StronglySorted le (seq s n).
Proof. revert s. induction n as [|n IH]; intros s; [constructor|]. cbn [seq]. constructor; [apply IH|]. apply Forall_forall. intros x Hx. apply in_seq in Hx. lia. Qed.
Lemma sort_length (l : list (@connection N)) : length (sort_conns l) = length l.
Proof. destruct (sort_stable l) as [P _]. symmetry. now apply Permutation_length. Qed.
Lemma connected_sorted (d : descr N) : Permutation (map c_cond (d_conns d)) (seq 0 (conductors (d_line d))) -> map c_cond (sort_conns (d_conns d)) = seq 0 (conductors (d_line d)).
Proof.
  intros P. destruct (sort_stable (d_conns d)) as (P1 & S & _). apply sorted_unique; [|apply seq_sorted|].
  - clear - S. induction S as [|x l S IH F]; cbn [map]; constructor; auto. clear - F. induction F; cbn [map]; constructor; auto.
  - eapply Permutation_trans; [apply Permutation_map, Permutation_sym, P1|exact P].
Qed.
Lemma connected_length ds q : all_connected ds -> list_sum (map (fun d => length (sort_conns (d_conns d))) (firstn q ds)) = first_row_of ds q.
Proof.
  intros H. unfold first_row_of. f_equal. assert (Hq : Forall (fun d => Permutation (map c_cond (d_conns d)) (seq 0 (conductors (d_line d)))) (firstn q ds)).
  { unfold all_connected in H. rewrite Forall_forall in *. intros d Hd. apply H. rewrite <- (firstn_skipn q ds). apply in_or_app. now left. }
  clear H. induction Hq as [|d l Hd _ IH]; cbn [map]; [reflexivity|]. rewrite IH. f_equal.
  rewrite <- (map_length c_cond), (connected_sorted d Hd). apply seq_length.
Qed.
Lemma first_node_row ds q : all_connected ds -> first_node ds q = first_row_of ds q.
Proof. intros H. rewrite <- (connected_length ds q H). unfold first_node. f_equal. apply map_ext. intros d. symmetry. apply sort_length. Qed.
Lemma connected_cond (d : descr N) x : Permutation (map c_cond (d_conns d)) (seq 0 (conductors (d_line d))) -> (x < conductors (d_line d))%nat ->
  exists c, nth_error (sort_conns (d_conns d)) x = Some c /\ c_cond c = x.
Proof.
  intros P Hx. pose proof (connected_sorted d P) as E.
  assert (L : length (sort_conns (d_conns d)) = conductors (d_line d)) by (rewrite <- (map_length c_cond), E; apply seq_length).
  destruct (nth_error (sort_conns (d_conns d)) x) as [c|] eqn:Ec; [|apply nth_error_None in Ec; lia]. exists c. split; [reflexivity|].
  apply (map_nth_error c_cond) in Ec. rewrite E in Ec. apply nth_error_nth with (d := 0%nat) in Ec. rewrite seq_nth in Ec by exact Hx. lia.
Qed.
Lemma F2_nth {A B} (P : A -> B -> Prop) l l' k a : Forall2 P l l' -> nth_error l k = Some a -> exists b, nth_error l' k = Some b /\ P a b.
Proof. intros F. revert k. induction F as [|x y l l' Hxy F IH]; intros [|k] H; try discriminate H; cbn [nth_error] in *; [injection H as <-; eauto|auto]. Qed.

Lemma new_nodes ds w : network_new ds = Ok w -> exists nds, w_conns w = concat nds /\
  Forall2 (fun d l => exists cs, stable_sort (d_conns d) cs /\ Forall2 (fun x kn => describes d x kn /\ state_vars (c_cond x) (c_mat x) = Ok (length (nd_state (snd kn)))) cs l) ds nds.
Proof.
  intros H. apply new_built in H as (a & nds & B & Ec & _). exists nds. split; [rewrite Ec; apply B|]. eapply F2_impl; [|apply (bt_nodes _ _ _ B)].
  intros d l [_ F]. exists (sort_conns (d_conns d)). split; [apply sort_stable|exact F].
Qed.
(** node [first_node ds q + x] is conductor [x] of line [q] *)
Lemma new_node_at ds w q d x : network_new ds = Ok w -> all_connected ds -> nth_error ds q = Some d -> (x < conductors (d_line d))%nat ->
  exists kn, nth_error (w_conns w) (first_node ds q + x) = Some kn /\ nd_index (snd kn) = (first_node ds q + x)%nat /\ nd_row (snd kn) = x /\
    nd_end (snd kn) = d_end d /\ nd_bundle (snd kn) = d_bundle d /\ exists c, In c (d_conns d) /\ c_cond c = x /\ fst kn = c_id c.
Proof.
  intros H C Hq Hx. pose proof (new_shape _ _ H) as S. apply new_built in H as (a & nds & B & Ec & _).
  pose proof (proj1 (Forall_forall _ _) C d (nth_error_In _ _ Hq)) as Cd. cbv beta in Cd.
  destruct (F2_nth _ _ _ _ _ (bt_nodes _ _ _ B) Hq) as (l & Hl & Hs & F). destruct (connected_cond d x Cd Hx) as (c & Hc & Ecx).
  destruct (F2_nth _ _ _ _ _ F Hc) as (kn & Hk & (D1 & D2 & D3 & D4 & D5) & _).
  assert (El : forall i, list_sum (map (@length (Z * node)) (firstn i nds)) = list_sum (map (fun d => length (sort_conns (d_conns d))) (firstn i ds))).
  { intros i. f_equal. pose proof (bt_nodes _ _ _ B) as Q. clear - Q. revert i. induction Q as [|d l ds nds [_ Hd] Q IH]; intros [|i]; cbn [firstn map]; try reflexivity. rewrite IH. f_equal. symmetry. clear - Hd. induction Hd; cbn [length]; congruence. }
  assert (Ln : (x < length l)%nat) by (apply nth_error_Some; congruence).
  pose proof (nth_flat (fun l => l) nds q l x Hl Ln) as G. rewrite flat_map_concat_map, map_id in G.
  rewrite El, (connected_length ds q C), <- (first_node_row ds q C), Hk in G.
  rewrite Ec, (bt_conns _ _ _ B). exists kn. split; [exact G|]. split; [|rewrite <- Ecx; repeat split; auto].
  - assert (I : nth_error (map (fun kn : Z * node => nd_index (snd kn)) (w_conns w)) (first_node ds q + x) = Some (nd_index (snd kn))) by (apply (map_nth_error (fun kn : Z * node => nd_index (snd kn))); now rewrite Ec, (bt_conns _ _ _ B)).
    rewrite (sh_idx _ S) in I. assert (Lt : (first_node ds q + x < w_nodes w)%nat) by (rewrite <- (seq_length (w_nodes w) 0); apply nth_error_Some; congruence).
    apply nth_error_nth with (d := 0%nat) in I. rewrite seq_nth in I by exact Lt. lia.
  - exists c. repeat split; auto. apply nth_error_In in Hc. destruct (sort_stable (d_conns d)) as (P & _). eapply Permutation_in; [apply Permutation_sym; exact P|exact Hc].
Qed.
Lemma node_ends ds w q d x : net_history LA ds w -> all_connected ds -> nth_error ds q = Some d -> (x < conductors (d_line d))%nat ->
  let i := (first_node ds q + x)%nat in
  (i < w_nodes w)%nat /\ nLen w i = cell_len (d_line d) (end_cell d) /\ (forall t, nField w i t = eTran (d_line d) x (end_node d) t) /\
  (forall y, (y < conductors (d_line d))%nat -> nCap w i (first_node ds q + y) = C_ (d_line d) (end_node d) x y) /\
  (forall q' d' y, nth_error ds q' = Some d' -> (y < conductors (d_line d'))%nat -> q <> q' -> nCap w i (first_node ds q' + y) = n0).
Proof.
  intros H C Hq Hx i. destruct (history_kept LA ds w H) as (w0 & Hn & K). destruct (new_node_at ds w0 q d x Hn C Hq Hx) as (kn & Hk & _).
  pose proof (new_shape _ _ Hn) as S0. pose proof Hn as Hn'. apply new_built in Hn as (a & nds & B & E1 & E2 & E3 & E4 & E5 & E6 & E7 & _).
  pose proof (proj1 (Forall_forall _ _) C d (nth_error_In _ _ Hq)) as Cd. cbv beta in Cd. destruct (connected_cond d x Cd Hx) as (c & Hc & Ecx).
  assert (Lc : (x < length (sort_conns (d_conns d)))%nat) by (apply nth_error_Some; congruence).
  split; [|split; [|split; [|split]]].
  - rewrite (nk_n _ _ K), (sh_len _ S0). apply nth_error_Some. unfold i. congruence.
  - unfold nLen. rewrite (nk_dx _ _ K), E6, (bt_dx _ _ _ B).
    pose proof (nth_flat (fun d => map (fun _ => end_len (d_line d) (d_end d)) (sort_conns (d_conns d))) ds q d x Hq ltac:(cbv beta; rewrite map_length; exact Lc)) as G.
    rewrite (map_ext _ (fun d0 => length (sort_conns (d_conns d0)))) in G by (intros; apply map_length).
    rewrite (connected_length ds q C), <- (first_node_row ds q C), (map_nth_error _ _ _ Hc) in G. apply nth_error_nth with (d := n0) in G. unfold get, i. unfold vec in *. rewrite G. reflexivity.
  - intros t. unfold nField. rewrite (nk_eT _ _ K), E7, (bt_eT _ _ _ B).
    pose proof (nth_flat (fun d => map (fun x => end_field (d_line d) (d_end d) (c_cond x)) (sort_conns (d_conns d))) ds q d x Hq ltac:(cbv beta; rewrite map_length; exact Lc)) as G.
    rewrite (map_ext _ (fun d0 => length (sort_conns (d_conns d0)))) in G by (intros; apply map_length).
    rewrite (connected_length ds q C), <- (first_node_row ds q C), (map_nth_error _ _ _ Hc) in G. apply nth_error_nth with (d := fun _ => n0) in G. unfold i. rewrite G, Ecx. reflexivity.
  - intros y Hy. unfold nCap, i. rewrite (nk_c _ _ K), E5, !(first_node_row ds q C). rewrite (bt_cap _ _ _ B q d x y Hq Hx Hy). reflexivity.
  - intros q' d' y Hq' Hy Hd. unfold nCap, i. rewrite (nk_c _ _ K), E5, !(first_node_row ds _ C). exact (bt_cap0 _ _ _ B q d x q' d' y Hq Hx Hq' Hy Hd).
Qed.

(** *** acceptance *)
Fixpoint fresh_ids (used : list Z) (ids : list Z) : bool :=
  match ids with [] => true | i :: l => (0 <=? i)%Z && negb (existsb (Z.eqb i) used) && fresh_ids (used ++ [i]) l end.
Lemma fresh_iff ids : forall used, NoDup used -> (fresh_ids used ids = true <-> Forall (fun i => (0 <= i)%Z) ids /\ NoDup (used ++ ids)).
Proof.
  induction ids as [|i l IH]; intros used Hu; cbn [fresh_ids].
  - rewrite app_nil_r. split; auto.
  - rewrite !andb_true_iff, Z.leb_le, negb_true_iff.
    assert (X : existsb (Z.eqb i) used = false <-> ~ In i used).
    { split; intros H.
      - intros Hi. assert (existsb (Z.eqb i) used = true) by (apply existsb_exists; exists i; split; [exact Hi|apply Z.eqb_refl]). congruence.
      - destruct (existsb (Z.eqb i) used) eqn:E; [|reflexivity]. apply existsb_exists in E as (j & Hj & Ej). apply Z.eqb_eq in Ej. subst j. contradiction. }
    rewrite X. split.
    + intros [[H1 H2] H3]. assert (Hu' : NoDup (used ++ [i])) by (apply (Permutation_NoDup (l := i :: used)); [apply Permutation_cons_append|constructor; auto]).
      apply (proj1 (IH _ Hu')) in H3 as [F ND]. rewrite <- app_assoc in ND. cbn [app] in ND. split; [constructor; auto|exact ND].
    + intros [F ND]. inversion F as [|? ? Hi Fl]; subst. pose proof (NoDup_remove_2 _ _ _ ND) as Hn.
      assert (Hni : ~ In i used) by (intros Hin; apply Hn, in_or_app; now left).
      assert (Hu' : NoDup (used ++ [i])) by (apply (Permutation_NoDup (l := i :: used)); [apply Permutation_cons_append|constructor; auto]).
      split; [auto|]. apply (IH _ Hu'). split; [exact Fl|]. now rewrite <- app_assoc.
Qed.
Lemma dmem_existsb {V} i (d : list (Z * V)) : dmem Z.eqb i d = existsb (Z.eqb i) (map fst d).
Proof. unfold dmem. induction d as [|[a x] d IH]; cbn [dget map fst existsb]; [reflexivity|]. destruct (i =? a)%Z; [reflexivity|exact IH]. Qed.
Lemma fold_nodes_accept (line : mtl N) e bname cs : forall a,
  (forall x, In x cs -> (c_cond x < length (k_eT (m_core line)))%nat /\ exists s, state_vars (c_cond x) (c_mat x) = Ok s) ->
  if fresh_ids (map fst (a_conns a)) (map c_id cs)
  then exists a', foldM (fun a x => add_node a x e line bname) cs a = Ok a' /\ map fst (a_conns a') = map fst (a_conns a) ++ map c_id cs
  else foldM (fun a x => add_node a x e line bname) cs a = Err AssertionError.
Proof.
  induction cs as [|x cs IH]; intros a H; cbn [map fresh_ids foldM].
  - exists a. rewrite app_nil_r. auto.
  - destruct (H x ltac:(now left)) as [Hx [s Hs]]. destruct a as [[[[[ns cn] csz] c] dx] eT]. cbn [a_conns] in *. destruct x as [[id cond] k].
    change (c_cond (id, cond, k)) with cond in *. change (c_mat (id, cond, k)) with k in *. change (c_id (id, cond, k)) with id in *.
    pose proof (py_get_intro (k_eT (m_core line)) cond [] Hx) as Hrow.
    assert (E : exists a1, map fst (a_conns a1) = map fst cn ++ [id] /\ add_node (ns, cn, csz, c, dx, eT) (id, cond, k) e line bname =
       if (0 <=? id)%Z && negb (existsb (Z.eqb id) (map fst cn)) then Ok a1 else Err AssertionError).
    { unfold add_node. rewrite dmem_existsb, Hs, Hrow. cbn [bind]. cbv zeta. eexists.
      split; [|destruct (0 <=? id)%Z; cbn [passert bind andb]; [|reflexivity]; destruct (negb _); cbn [bind passert andb]; reflexivity].
      cbn [a_conns]. rewrite map_app. reflexivity. }
    destruct E as (a1 & E1 & E2). rewrite E2. destruct ((0 <=? id)%Z && negb (existsb (Z.eqb id) (map fst cn))); cbn [andb bind]; [|reflexivity].
    specialize (IH a1 (fun x Hx => H x (or_intror Hx))). rewrite E1 in IH. destruct (fresh_ids (map fst cn ++ [id]) (map c_id cs)); [|exact IH].
    destruct IH as (a' & H1 & H2). exists a'. split; [exact H1|]. rewrite H2, <- app_assoc. reflexivity.
Qed.
Definition sorted_ids ds : list Z := flat_map (fun d => map c_id (sort_conns (d_conns d))) ds.
Lemma fresh_app l l' used : fresh_ids used (l ++ l') = fresh_ids used l && fresh_ids (used ++ l) l'.
Proof.
  revert used. induction l as [|i l IH]; intros used; cbn [app fresh_ids]; [now rewrite app_nil_r|]. rewrite IH, <- app_assoc. cbn [app]. now rewrite andb_assoc.
Qed.
Lemma lines_accept ds : forall a, Forall well_described ds ->
  if fresh_ids (map fst (a_conns a)) (sorted_ids ds)
  then exists a', foldM add_nodes_in_line ds a = Ok a'
  else foldM add_nodes_in_line ds a = Err AssertionError.
Proof.
  induction ds as [|d ds IH]; intros a F; cbn [sorted_ids flat_map foldM]; [cbn [fresh_ids]; eauto|].
  inversion F as [|? ? [Hs Hc] F']; subst. rewrite fresh_app. destruct d as [line [side [bn cs]]]. unfold d_side, d_conns, d_line in *. cbn [fst snd] in *.
  assert (Es : (String.eqb side "S" || String.eqb side "L")%bool = true) by (destruct Hs as [-> | ->]; reflexivity).
  assert (E : if fresh_ids (map fst (a_conns a)) (map c_id (sort_conns cs))
     then exists a1, add_nodes_in_line a (line, (side, (bn, cs))) = Ok a1 /\ map fst (a_conns a1) = map fst (a_conns a) ++ map c_id (sort_conns cs)
     else add_nodes_in_line a (line, (side, (bn, cs))) = Err AssertionError).
  { destruct a as [[[[[ns cn] csz] c] dx] eT]. unfold add_nodes_in_line. rewrite Es. cbn [passert bind]. cbv zeta.
    match goal with |- context [foldM _ (sort_conns cs) ?acc] => apply (fold_nodes_accept line (negb (String.eqb side "S")) bn (sort_conns cs) acc) end.
    intros x Hx. apply Hc. destruct (sort_stable cs) as (P & _). eapply Permutation_in; [apply Permutation_sym; exact P|exact Hx]. }
  destruct (fresh_ids (map fst (a_conns a)) (map c_id (sort_conns cs))); cbn [andb].
  - destruct E as (a1 & E1 & E2). rewrite E1. cbn [bind]. specialize (IH a1 F'). rewrite E2 in IH. exact IH.
  - rewrite E. reflexivity.
Qed.
Lemma sorted_ids_perm ds : Permutation (sorted_ids ds) (all_ids ds).
Proof.
  induction ds as [|d ds IH]; [constructor|]. unfold sorted_ids, all_ids in *. cbn [flat_map]. apply Permutation_app; [|exact IH].
  apply Permutation_map. apply Permutation_sym, sort_stable.
Qed.
Lemma new_accept ds : Forall well_described ds ->
  ((exists w, network_new ds = Ok w) <-> Forall (fun i => (0 <= i)%Z) (all_ids ds) /\ NoDup (all_ids ds)) /\
  ((exists w, network_new ds = Ok w) \/ network_new ds = Err AssertionError).
Proof.
  intros F. pose proof (lines_accept ds (0%nat, [], 0%nat, [], [], []) F) as G. cbn [a_conns map] in G.
  assert (Q : fresh_ids [] (sorted_ids ds) = true <-> Forall (fun i => (0 <= i)%Z) (all_ids ds) /\ NoDup (all_ids ds)).
  { rewrite (fresh_iff _ []) by constructor. cbn [app]. split; intros [H1 H2]; (split; [|eapply Permutation_NoDup; [|exact H2]]); try (eapply Permutation_Forall; [|exact H1]); auto using sorted_ids_perm, Permutation_sym. }
  unfold network_new. destruct (fresh_ids [] (sorted_ids ds)).
  - destruct G as (a & G). rewrite G. cbn [bind]. destruct a as [[[[[ns cn] csz] c] dx] eT]. split; [|left; eauto]. split; [intros _; now apply Q|intros _; eauto].
  - rewrite G. cbn [bind]. split; [|now right]. split; [intros [w X]; discriminate X|]. intros X. apply Q in X. discriminate X.
Qed.

(** *** the network step does not look at the bundles *)
Lemma networks_blind (ws : list (networkd N)) : forall (t dt : N) bs bs' acc ws1 bs1 ws2 bs2,
  foldM (fun acc (w : networkd N) => w' <- nwd_advance_voltage LA w t dt ;; b' <- nwd_update_voltages w' (snd acc) ;; Ok (fst acc ++ [w'], b')) ws (acc, bs) = Ok (ws1, bs1) ->
  foldM (fun acc (w : networkd N) => w' <- nwd_advance_voltage LA w t dt ;; b' <- nwd_update_voltages w' (snd acc) ;; Ok (fst acc ++ [w'], b')) ws (acc, bs') = Ok (ws2, bs2) ->
  ws1 = ws2.
Proof.
  induction ws as [|w ws IH]; intros t dt bs bs' acc ws1 bs1 ws2 bs2 H1 H2; cbn [foldM] in H1, H2.
  - injection H1 as <- <-. injection H2 as <- <-. reflexivity.
  - inv_bind H1. inv_bind H2. inv_bind Ha. inv_bind Ha. injection Ha as <-. inv_bind Ha0. inv_bind Ha0. injection Ha0 as <-.
    cbn [fst snd] in *. assert (E : a = a1) by congruence. subst a. eapply IH; eauto.
Qed.
Lemma advance_blind ws (t dt : N) bs bs' ws1 bs1 ws2 bs2 : advance_networks_voltage LA t dt ws bs = Ok (ws1, bs1) ->
  advance_networks_voltage LA t dt ws bs' = Ok (ws2, bs2) -> ws1 = ws2.
Proof. apply networks_blind. Qed.
End Place.
