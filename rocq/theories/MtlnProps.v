(** Registration of bundles, ends attached to nothing, records of the probes (any [num]). *)
From Coq Require Import String List Arith ZArith Bool Permutation Lia.
From Verif Require Import Num Py Arr ArrFacts Utils Probes Dispersive Line LineFacts Bundle Networks Mtln SpecLine SpecBundle SpecNet SpecMtln SpecProbe
  ProbeFacts RecordFacts BundleFacts NetFacts NetBuild NetPlace MtlnFacts.
Import ListNotations.

Section MtlnProps.
Context {N : num}.
Local Open Scope num_scope.
Variable LA : lapack N.
Implicit Types x y : mtln N.
Implicit Types bs : bdict N.

(** *** registration *)
Definition named (l : list (bundle N)) : bdict N := map (fun b => (b_name b, b)) l.
Lemma named_keys l : map fst (named l) = map (@b_name N) l.
Proof. unfold named. rewrite map_map. reflexivity. Qed.
Lemma fold_add l : forall x x', foldM add_bundle l x = Ok x' -> t_bundles x' = t_bundles x ++ named l /\ t_networks x' = t_networks x /\ t_time x' = t_time x.
Proof.
  induction l as [|b l IH]; intros x x' H; cbn [foldM] in H; [injection H as <-; cbn [named map]; now rewrite app_nil_r|].
  inv_bind H. apply add_bundle_inv in Ha as [_ ->]. apply IH in H as (E1 & E2 & E3). cbn [t_bundles t_networks t_time] in *.
  rewrite E1, <- app_assoc. auto.
Qed.
Lemma fold_add_iff l : forall x, NoDup (map fst (t_bundles x)) ->
  ((exists x', foldM add_bundle l x = Ok x') <-> NoDup (map fst (t_bundles x) ++ map (@b_name N) l)) /\
  (~ NoDup (map fst (t_bundles x) ++ map (@b_name N) l) -> foldM add_bundle l x = Err AssertionError).
Proof.
  induction l as [|b l IH]; intros x ND; cbn [foldM map].
  - rewrite app_nil_r. split; [split; eauto|contradiction].
  - assert (P : Permutation (map fst (t_bundles x) ++ b_name b :: map (@b_name N) l) (b_name b :: map fst (t_bundles x) ++ map (@b_name N) l)) by (symmetry; apply Permutation_middle).
    destruct (in_dec string_dec (b_name b) (map fst (t_bundles x))) as [Hin|Hn].
    + rewrite (add_bundle_dup _ _ Hin). cbn [bind]. split; [|reflexivity]. split; [intros [x' K]; discriminate K|]. intros K. exfalso.
      apply (Permutation_NoDup P) in K. inversion K as [|? ? K1 _]; subst. apply K1. apply in_or_app. now left.
    + destruct (proj2 (add_bundle_iff x b) Hn) as [x1 H1]. rewrite H1. cbn [bind]. apply add_bundle_inv in H1 as [_ ->].
      specialize (IH {| t_bundles := t_bundles x ++ [(b_name b, b)]; t_networks := t_networks x; t_dt := if k_dt (b_core b) <? t_dt x then k_dt (b_core b) else t_dt x; t_time := t_time x |}).
      cbn [t_bundles] in IH. rewrite map_app in IH. cbn [map fst] in IH. rewrite <- app_assoc in IH. cbn [app] in IH. apply IH.
      apply (Permutation_NoDup (l := b_name b :: map fst (t_bundles x))); [apply Permutation_cons_append|]. now constructor.
Qed.
Lemma fold_networks ws : forall x x', foldM add_network ws x = Ok x' -> t_bundles x' = t_bundles x /\ t_dt x' = t_dt x /\ t_time x' = t_time x.
Proof.
  induction ws as [|w ws IH]; intros x x' H; cbn [foldM] in H; [injection H as <-; auto|]. inv_bind H. apply IH in H. unfold add_network in Ha. inv_bind Ha.
  apply (f_equal (fun r => match r with Ok a => a | _ => x end)) in Ha. subst a. exact H.
Qed.
Lemma new_order l ws x : mtln_new l ws = Ok x -> t_bundles x = named l /\ NoDup (map (@b_name N) l).
Proof.
  unfold mtln_new. intros H. inv_bind H. apply fold_networks in H as (E & _). rewrite E. split; [apply (fold_add _ _ _ Ha)|].
  apply (fold_add_iff l mtln_empty (NoDup_nil _)). eauto.
Qed.
Lemma new_duplicate l ws : ~ NoDup (map (@b_name N) l) -> mtln_new l ws = Err AssertionError.
Proof. intros H. unfold mtln_new. rewrite (proj2 (fold_add_iff l mtln_empty (NoDup_nil _)) H). reflexivity. Qed.
Lemma new_accepted l : (exists x, mtln_new l [] = Ok x) <-> NoDup (map (@b_name N) l).
Proof.
  rewrite <- (proj1 (fold_add_iff l mtln_empty (NoDup_nil _))). unfold mtln_new. split; intros [x H].
  - inv_bind H. eauto.
  - exists x. rewrite H. reflexivity.
Qed.

(** *** a network keeps its nodes *)
Lemma advance_conns w (t dt : N) w' : nw_advance_voltage LA w t dt = Ok w' -> w_conns w' = w_conns w.
Proof. unfold nw_advance_voltage. intros H. inv_bind H. destruct (w_AB w) as [[[A B1] B2]|]; [|discriminate H]. inv_bind H. apply (f_equal (fun r => match r with Ok a => a | _ => w' end)) in H. subst w'. reflexivity. Qed.
Lemma currents_conns w bs w' : nw_update_currents w bs = Ok w' -> w_conns w' = w_conns w.
Proof. unfold nw_update_currents. intros H. inv_bind H. apply (f_equal (fun r => match r with Ok a => a | _ => w' end)) in H. subst w'. reflexivity. Qed.
Lemma terms_conns w (dt : N) w' : compute_v_terms w dt = Ok w' -> w_conns w' = w_conns w.
Proof.
  unfold compute_v_terms. cbv zeta. intros H. destruct (w_csize w =? w_nodes w)%nat; cbn [negb] in H; [|discriminate H]. apply (f_equal (fun r => match r with Ok a => a | _ => w' end)) in H. subst w'. reflexivity.
Qed.
Lemma F2_conns (P : network N -> network N -> Prop) l l' : Forall2 P l l' -> (forall w w', P w w' -> w_conns w' = w_conns w) -> map (@w_conns N) l' = map (@w_conns N) l.
Proof. intros F H. induction F; cbn [map]; [reflexivity|]. f_equal; auto. Qed.
Lemma step_conns x y : mtln_step LA x = Ok y -> map (@w_conns N) (nets y) = map (@w_conns N) (nets x).
Proof.
  intros H. eapply F2_conns; [exact (step_nets LA _ _ H)|]. intros w w' (w1 & bs & E1 & E2). rewrite (currents_conns _ _ _ E2). eapply advance_conns; eauto.
Qed.
Lemma driven_conns (l l' : list (network N)) name b b' r k : map (@w_conns N) l' = map (@w_conns N) l -> b_cells b' = b_cells b -> driven_by l name b r k <-> driven_by l' name b' r k.
Proof.
  assert (G : forall l1 l2 b1 b2, map (@w_conns N) l2 = map (@w_conns N) l1 -> b_cells b2 = b_cells b1 -> driven_by l1 name b1 r k -> driven_by l2 name b2 r k).
  { intros l1 l2 b1 b2 E Ec (w & kn & Hw & Hk & W). assert (I : In (w_conns w) (map (@w_conns N) l2)) by (rewrite E; now apply in_map).
    apply in_map_iff in I as (w2 & E2 & I2). exists w2, kn. split; [exact I2|]. split; [rewrite E2; exact Hk|]. unfold writes in *. rewrite Ec. exact W. }
  intros E Ec. split; apply G; auto.
Qed.

(** *** the end rows *)
Lemma volt_ends (b b' : bundle N) t dt r k : vgrid b -> bundle_advance_voltage t dt b = Ok b' -> k = 0%nat \/ k = b_cells b -> b_volt b' r k = b_volt b r k.
Proof.
  intros G H Hk. unfold bundle_advance_voltage in H. inv_bind H. apply (f_equal (fun r => match r with Ok a => a | _ => b' end)) in H. subst b'.
  unfold advance_voltage in Ha. destruct (k_cg (b_core b)) as [[vt idf]|]; [|discriminate Ha]. apply (f_equal (fun r => match r with Ok a => a | _ => a end)) in Ha. subst a.
  unfold b_volt. cbn [b_set_core b_set b_core set_v k_v]. destruct (lt_dec r (k_n (b_core b))) as [Hr|Hr].
  - rewrite get2_mk2 by (auto; destruct Hk as [-> | ->]; unfold b_cells; lia).
    destruct Hk as [-> | ->]; [reflexivity|]. unfold b_cells. now rewrite (Nat.ltb_irrefl (k_N (b_core b))), andb_false_r.
  - assert (O : forall A : mat N, length A = k_n (b_core b) -> get2 A r k = n0).
    { intros A L. unfold get2. rewrite nth_overflow by (rewrite L; lia). unfold get. now destruct k. }
    rewrite !O; [reflexivity|exact (proj1 G)|apply length_mk].
Qed.
Lemma curr_volt (b b' : bundle N) t dt : bundle_advance_current t dt b = Ok b' -> k_v (b_core b') = k_v (b_core b) /\ b_probes b' = b_probes b.
Proof.
  intros H. unfold bundle_advance_current in H. inv_bind H. apply (f_equal (fun r => match r with Ok a => a | _ => b' end)) in H. subst b'.
  unfold advance_current in Ha. inv_bind Ha. destruct (k_lr (b_core b)) as [[it vd]|]; [|discriminate Ha]. inv_bind Ha.
  apply (f_equal (fun r => match r with Ok a => a | _ => a end)) in Ha. subst a. split; reflexivity.
Qed.
Lemma probes_core (b b' : bundle N) t : bundle_update_probes t b = Ok b' -> b_core b' = b_core b.
Proof. unfold bundle_update_probes. intros H. inv_bind H. apply (f_equal (fun r => match r with Ok a => a | _ => b' end)) in H. subst b'. reflexivity. Qed.
Lemma prepare_core (b b' : bundle N) n : bundle_prepare LA n b = Ok b' -> k_v (b_core b') = k_v (b_core b) /\ k_i (b_core b') = k_i (b_core b) /\ b_cells b' = b_cells b /\
  b_conductors b' = b_conductors b /\ k_dt (b_core b') = k_dt (b_core b) /\ b_probes b' = map (fun p => resize_frames p n (b_conductors b)) (b_probes b).
Proof.
  unfold bundle_prepare. intros H. inv_bind H. inv_bind H. apply (f_equal (fun r => match r with Ok a => a | _ => b' end)) in H. subst b'.
  apply update_lr_inv in Ha as [t1 ->]. apply update_cg_inv in Ha0 as [t2 ->]. repeat split; reflexivity.
Qed.
Lemma step_undriven x y name b r k : ninv LA x -> mtln_step LA x = Ok y -> bundle_of x name = Some b -> k = 0%nat \/ k = b_cells b -> ~ driven_by (nets x) name b r k ->
  exists b', bundle_of y name = Some b' /\ b_volt b' r k = b_volt b r k /\ b_cells b' = b_cells b.
Proof.
  intros I H Hb Hk ND. pose proof (proj1 (bundle_in LA x name b I Hb)) as Rb. pose proof (reachable_vgrid LA _ Rb) as G.
  destruct (step_marches LA _ _ _ _ H Hb) as (b' & Hb' & M). destruct (marches_binv LA b b' M (reachable_binv LA _ Rb)) as [_ K]. exists b'. split; [exact Hb'|].
  split; [|exact (bk_N _ _ K)]. apply step_split in H as (bs1 & ws & bs2 & bs3 & [H1 H2 H3 H4 H5 H6 H7 H8]).
  destruct (map_bundles_get _ _ _ _ _ H1 Hb) as (b1 & V & G1).
  assert (K1 : bkept b b1 /\ vgrid b1).
  { assert (M1 : marches LA b b1) by (eapply ma_volt; [constructor|exact V]). split; [apply (marches_binv LA b b1 M1 (reachable_binv LA _ Rb))|exact (marches_vgrid LA b b1 G M1)]. }
  destruct K1 as [K1 Gv1].
  destruct (put_all_val _ _ _ H3) as [_ F]. destruct (F name b1 G1 Gv1) as (b2 & G2 & O & Gv2 & Val).
  destruct (map_bundles_get _ _ _ _ _ H4 G2) as (b3 & C & G3). destruct (map_bundles_get _ _ _ _ _ H6 G3) as (b4 & U & G4).
  assert (b4 = b') by (unfold bundle_of in Hb'; congruence). subst b4.
  unfold b_volt at 1. rewrite (probes_core _ _ _ U), (proj1 (curr_volt _ _ _ _ C)). fold (b_volt b2 r k). rewrite Val, <- (volt_ends b b1 _ _ r k G V Hk).
  assert (NH : forall nv, In nv (puts ws) -> hits b1 name (fst nv) r k = false).
  { intros nv Hnv. destruct (hits b1 name (fst nv) r k) eqn:E; [|reflexivity]. exfalso. apply ND. destruct (in_puts _ _ Hnv) as (w & kn & Hw & Hkn & ->). cbn [fst] in E. apply hits_iff in E.
    assert (EC : map (@w_conns N) (flat_map tiers ws) = map (@w_conns N) (nets x)).
    { eapply F2_conns; [exact (nets_F2 (fun w => nw_advance_voltage LA w (t_time x) (t_dt x)) _ _ H2)|]. intros u u' Eu. eapply advance_conns; exact Eu. }
    assert (D : driven_by (flat_map tiers ws) name b1 r k) by (exists w, kn; auto).
    exact (proj2 (driven_conns (nets x) (flat_map tiers ws) name b b1 r k EC (bk_N _ _ K1)) D). }
  clear - NH. revert NH. generalize (b_volt b1 r k). induction (puts ws) as [|nv l IH]; intros v NH; cbn [fold_left]; [reflexivity|].
  rewrite (NH nv (or_introl eq_refl)). apply IH. intros z Hz. apply NH. now right.
Qed.
Lemma steps_undriven k0 : forall x y name b r k, ninv LA x -> iterM k0 (mtln_step LA) x = Ok y -> bundle_of x name = Some b -> k = 0%nat \/ k = b_cells b -> ~ driven_by (nets x) name b r k ->
  exists b', bundle_of y name = Some b' /\ b_volt b' r k = b_volt b r k /\ b_cells b' = b_cells b /\ map (@w_conns N) (nets y) = map (@w_conns N) (nets x).
Proof.
  induction k0 as [|k0 IH]; intros x y name b r k I H Hb Hk ND; cbn [iterM] in H; [injection H as <-; eauto|]. inv_bind H.
  destruct (step_undriven x a name b r k I Ha Hb Hk ND) as (b1 & G1 & V1 & C1). pose proof (step_conns _ _ Ha) as EC.
  destruct (IH a y name b1 r k (ninv_step LA _ _ I Ha) H G1) as (b' & G' & V' & C' & EC').
  - rewrite C1. exact Hk.
  - intros D. apply ND. exact (proj2 (driven_conns (nets x) (nets a) name b b1 r k EC C1) D).
  - exists b'. split; [exact G'|]. repeat split; congruence.
Qed.
Lemma run_undriven x T dt n y name b r k : lines_net LA x -> reaches LA x T dt n y -> bundle_of x name = Some b -> k = 0%nat \/ k = b_cells b -> ~ driven_by (nets x) name b r k ->
  exists b', bundle_of y name = Some b' /\ b_volt b' r k = b_volt b r k /\ b_cells b' = b_cells b /\ ~ driven_by (nets y) name b' r k.
Proof.
  intros L R Hb Hk ND. pose proof (lines_ninv LA x L) as I. destruct (run_start LA _ _ _ _ _ R) as (ws & steps & p & H1 & H2 & H3 & H4 & H5 & H6 & H7 & H8 & H9 & _ & Rp).
  destruct (H9 name b Hb) as (b1 & P & G1). destruct (prepare_core _ _ _ P) as (V & _ & C & _).
  assert (EC : map (@w_conns N) (nets p) = map (@w_conns N) (nets x)).
  { unfold nets. rewrite H5. eapply F2_conns; [exact (terms_nets _ _ _ H1)|]. intros u u' Eu. eapply terms_conns; exact Eu. }
  assert (C1 : b_cells b1 = b_cells b) by (rewrite C; destruct (negb (dt =? n0)); reflexivity).
  assert (V1 : b_volt b1 r k = b_volt b r k) by (unfold b_volt; rewrite V; destruct (negb (dt =? n0)); reflexivity).
  pose proof (reaches_ninv LA _ _ _ _ _ I Rp) as Ip.
  destruct (steps_undriven n p y name b1 r k Ip H4 G1) as (b' & G' & V' & C' & EC').
  - rewrite C1. exact Hk.
  - intros D. apply ND. exact (proj2 (driven_conns (nets x) (nets p) name b b1 r k EC C1) D).
  - exists b'. split; [exact G'|]. split; [congruence|]. split; [congruence|]. intros D. apply ND.
    apply (driven_conns (nets x) (nets y) name b b' r k); [congruence|congruence|exact D].
Qed.

(** *** probes *)
Definition as_line (b : bundle N) (t : N) : mtl N :=
  {| m_name := b_name b; m_u := b_u b; m_du := b_du b; m_core := b_core b; m_zs := []; m_zl := []; m_lp1 := []; m_lp2 := []; m_rp1 := []; m_rp2 := [];
     m_vsrc := []; m_time := t; m_probes := b_probes b |}.
Lemma as_frame p b now t row : frame_of p (as_line b now) t row -> frame_at p b now t row.
Proof. intros H. exact H. Qed.
Lemma update_stepped b b' t : bundle_update_probes t b = Ok b' -> Forall2 (fun p q => stepped p (as_line b' t) q) (b_probes b) (b_probes b').
Proof.
  intros H. pose proof (probes_core _ _ _ H) as E. unfold bundle_update_probes in H. inv_bind H. apply (f_equal (fun r => match r with Ok a => a | _ => b' end)) in H. subst b'.
  unfold update_probes in Ha. apply mapM_Ok in Ha. exact Ha.
Qed.
Lemma step_stepped' x y name b : mtln_step LA x = Ok y -> bundle_of x name = Some b ->
  exists b', bundle_of y name = Some b' /\ Forall2 (fun p q => stepped p (as_line b' (t_time y)) q) (b_probes b) (b_probes b').
Proof.
  intros H Hb. destruct (step_bundle LA _ _ _ _ H Hb) as (b1 & b2 & b3 & b' & V & _ & _ & P2 & C & U & G). exists b'. split; [exact G|].
  apply update_stepped in U. rewrite (proj2 (curr_volt _ _ _ _ C)), P2 in U. unfold bundle_advance_voltage in V. inv_bind V.
  apply (f_equal (fun r => match r with Ok a => a | _ => b1 end)) in V. subst b1. exact U.
Qed.
Definition recorded (x0 : mtln N) (name : string) (steps j : nat) (p q : probe N) : Prop :=
  pkept p q /\ p_frame q = j /\ length (p_t q) = steps /\
  exists rows, p_val q = PRows rows /\ length rows = steps /\
  forall k y b, (k < j)%nat -> iterM (S k) (mtln_step LA) x0 = Ok y -> bundle_of y name = Some b -> frame_at p b (t_time y) (get (p_t q) k) (nth k rows []).
Lemma recorded_run x0 name b0 steps : bundle_of x0 name = Some b0 ->
  Forall (fun p => p_frame p = 0%nat /\ length (p_t p) = steps /\ exists rows, p_val p = PRows rows /\ length rows = steps) (b_probes b0) ->
  forall j y, (j <= steps)%nat -> iterM j (mtln_step LA) x0 = Ok y -> exists b, bundle_of y name = Some b /\ Forall2 (recorded x0 name steps j) (b_probes b0) (b_probes b).
Proof.
  intros Hb0 F0. induction j as [|j IH]; intros y Hj H.
  - injection H as <-. exists b0. split; [exact Hb0|]. clear - F0. induction F0 as [|p l (H1 & H2 & rows & H3 & H4) _ IH]; constructor; auto.
    split; [apply pkept_refl|]. repeat split; auto. exists rows. split; [exact H3|]. split; [exact H4|]. intros; lia.
  - pose proof H as Hy. rewrite iterM_S in H. inv_bind H. rename a into x1. destruct (IH x1 ltac:(lia) Ha) as (b1 & G1 & F1).
    destruct (step_stepped' _ _ _ _ H G1) as (b & G & F2). exists b. split; [exact G|].
    clear F0 IH. revert F2. generalize (b_probes b). induction F1 as [|p q l l' Rec _ IHF]; intros l2 F2; inversion F2 as [|? r ? ? St F3]; subst; constructor; auto.
    destruct Rec as (K & Hf & Lt & rows & Hv & Lr & Fr).
    destruct (stepped_inside q (as_line b (t_time y)) r rows St Hv ltac:(lia)) as (t & row & Fo & Hf' & Et & _ & Ev).
    split; [eapply pkept_trans; eauto using stepped_kept|]. split; [lia|]. split; [now rewrite Et, length_lset|].
    exists (lset rows (p_frame q) row). split; [exact Ev|]. split; [now rewrite length_lset|].
    intros k z c Hk Hkz Hc. rewrite Et, Hf. unfold get.
    destruct (Nat.eq_dec k j) as [->|Hne].
    + assert (z = y) by congruence. subst z. assert (c = b) by (unfold bundle_of in *; congruence). subst c. rewrite !nth_lset_eq by lia. apply as_frame. eapply frame_kept; eauto.
    + rewrite !nth_lset_neq by lia. apply (Fr k z c); [lia|exact Hkz|exact Hc].
Qed.
Lemma run_recorded x T dt y name b : mtln_run_until LA x T dt = Ok y -> bundle_of x name = Some b ->
  exists b' steps, bundle_of y name = Some b' /\ time_range_len T (t_dt (override_dt x dt)) = Ok steps /\ length (b_probes b') = length (b_probes b) /\
    forall j p, nth_error (b_probes b) j = Some p -> exists q, nth_error (b_probes b') j = Some q /\ pkept p q /\ length (p_t q) = steps /\ length (b_rows b' q) = steps /\
      forall k s z c, steps_to LA x T dt k s z -> bundle_of z name = Some c -> (k < steps)%nat /\ frame_at p c (t_time z) (nth k (p_t q) n0) (nth k (b_rows b' q) []).
Proof.
  intros H Hb. apply run_reaches in H as (n & En & R). destruct (run_start LA _ _ _ _ _ R) as (ws & steps & p0 & H1 & H2 & H3 & H4 & H5 & H6 & H7 & H8 & H9 & H10 & Rp).
  rewrite H7 in H2. assert (steps = n) by congruence. subst steps. destruct (H9 name b Hb) as (b1 & P & G1). destruct (prepare_core _ _ _ P) as (_ & _ & _ & En' & _ & Ps).
  assert (Eb : b_probes b1 = map (fun p => resize_frames p n (b_conductors b)) (b_probes b)).
  { rewrite Ps. destruct (negb (dt =? n0)); reflexivity. }
  assert (F0 : Forall (fun p => p_frame p = 0%nat /\ length (p_t p) = n /\ exists rows, p_val p = PRows rows /\ length rows = n) (b_probes b1)).
  { rewrite Eb. apply Forall_forall. intros q Hq. apply in_map_iff in Hq as (p & <- & _). cbn.
    repeat split; [apply length_mk|]. eexists; split; [reflexivity|]. apply length_mk. }
  destruct (recorded_run p0 name b1 n G1 F0 n y (le_n _) H4) as (b' & G' & F). exists b', n. split; [exact G'|]. split; [exact En|].
  split. { rewrite <- (F2_length _ _ _ F), Eb, map_length. reflexivity. }
  intros j p Hj. assert (Hj1 : nth_error (b_probes b1) j = Some (resize_frames p n (b_conductors b))).
  { rewrite Eb. exact (map_nth_error (fun p => resize_frames p n (b_conductors b)) j (b_probes b) Hj). }
  destruct (Forall2_nth_error _ _ _ _ _ F Hj1) as (q & Hq & K & Hf & Lt & rows & Hv & Lr & Fr).
  exists q. split; [exact Hq|]. split; [exact K|]. split; [exact Lt|]. unfold b_rows, probe_rows. rewrite Hv. split; [exact Lr|].
  intros k s z c (R1 & St & R2) Hc. destruct R2 as (ws' & st' & p' & Q1 & Q2 & Q3 & Q4 & Q5). assert (st' = n) by congruence. subst st'. split; [lia|].
  assert (p' = p0).
  { destruct Rp as (ws2 & st2 & p2 & S1 & S2 & S3 & S4 & S5). cbn [iterM] in S5. injection S5 as <-. assert (ws2 = ws') by congruence. subst ws2. assert (st2 = n) by congruence. subst st2. congruence. }
  subst p'. apply (Fr k z c); [lia|exact Q5|exact Hc].
Qed.
Lemma add_probe_step b (p : posarg N) ty b' : bundle_add_probe b p ty = Ok b' -> exists q, b_probes b' = b_probes b ++ [q] /\ p_type q = ty /\ p_dt q = k_dt (b_core b) /\ b_core b' = b_core b.
Proof.
  unfold bundle_add_probe. destruct (probe_on_cells _ _ _ _); [|discriminate]. intros H. apply (f_equal (fun r => match r with Ok a => a | _ => b' end)) in H. subst b'.
  eexists. cbn [b_set b_probes b_core]. repeat split; reflexivity.
Qed.
Lemma add_one x b : lines_net LA x ->
  (bundle_of x (b_name b) <> None /\ add_bundle x b = Err AssertionError) \/
  (bundle_of x (b_name b) = None /\ exists x', add_bundle x b = Ok x' /\ t_bundles x' = t_bundles x ++ [(b_name b, b)] /\ bundle_of x' (b_name b) = Some b).
Proof.
  intros L. pose proof (lines_ninv LA x L) as I. unfold bundle_of. destruct (dget String.eqb (b_name b) (t_bundles x)) as [c|] eqn:E.
  - left. split; [discriminate|]. apply add_bundle_dup. apply dmem_in. unfold dmem. now rewrite E.
  - right. split; [reflexivity|]. assert (F : ~ In (b_name b) (map fst (t_bundles x))) by (intros K; apply dmem_in in K; unfold dmem in K; rewrite E in K; discriminate K).
    destruct (proj2 (add_bundle_iff x b) F) as [x' H]. exists x'. split; [exact H|]. apply add_bundle_inv in H as [_ ->]. cbn [t_bundles]. split; [reflexivity|].
    apply sget_in; [|apply in_or_app; right; now left]. rewrite map_app. cbn [map fst].
    apply (Permutation_NoDup (l := b_name b :: map fst (t_bundles x))); [apply Permutation_cons_append|]. constructor; [exact F|apply (nv_keys _ _ I)].
Qed.
End MtlnProps.
