(** Proofs for PropGeom.v, fourth part: resistance and conductance regions, probes of a bundle. *)
From Coq Require Import String List Arith ZArith Bool Lia Reals Lra.
From Verif Require Import Num Py Arr ArrFacts NumR RFacts LapackR Utils Probes Dispersive Line LineFacts SpecLine SpecGeom SpecR
  HistoryFacts GeometryFacts PlainFacts TotalFacts NewTotal NearestFacts ProbeFacts Bundle WaveProps GeomProps GeomProps2 GeomProps3.
Import ListNotations.
Local Open Scope R_scope.

Lemma closest_unique u p i j : closest u p i -> closest u p j -> i = j.
Proof.
  intros (A1 & A2 & A3) (B1 & B2 & B3). destruct (Nat.lt_trichotomy i j) as [H|[H|H]]; auto.
  - specialize (B3 i H). specialize (A2 j B1). lra.
  - specialize (A3 j H). specialize (B2 i A1). lra.
Qed.
Lemma closest_nearest u p k : closest u p k -> @nearest NumR u p = k.
Proof.
  intros H. apply (closest_unique u p); auto. apply nearest_closest. intros ->. destruct H as [H _]. simpl in H. lia.
Qed.

(** the cell used for a position whose closest node is [k] *)
Lemma norm3_vnorm p : @vnorm NumR p = norm3 p.
Proof. rewrite vnorm3. unfold norm3. f_equal. ring. Qed.
Lemma vsub_dist (p q : list R) : @vnorm NumR (@vsub NumR p q) = dist3 p q.
Proof. rewrite vnorm3. unfold dist3, vsub, mk. cbn [map seq nth]. unfold get. rsimpl. f_equal. ring. Qed.
(** length of the line between the two cells, or of the cell if they are the same *)

Lemma set_row (n : nat) (t : ten NumR) (q c : nat) (x : R) k i j : (q < length t)%nat -> (c < length (getm t q))%nat -> (j < n)%nat ->
  get3 (lset t q (lset (getm t q) c (mk n (fun _ : nat => x : NumR)))) k i j =
  if (k =? q)%nat && (i =? c)%nat then x else get3 t k i j.
Proof.
  intros Hq Hc Hj. unfold get3, getm. destruct (Nat.eqb_spec k q) as [->|E].
  - rewrite nth_lset_eq by auto. unfold get2. destruct (Nat.eqb_spec i c) as [->|E2].
    + rewrite nth_lset_eq by auto. cbn [andb]. now rewrite get_mk.
    + now rewrite nth_lset_neq by auto.
  - now rewrite nth_lset_neq by auto.
Qed.


(** rows of the resistance and conductance matrices exist *)
Definition full (n K : nat) (t : ten NumR) : Prop := length t = K /\ forall k, (k < K)%nat -> length (getm t k) = n.
Lemma full_mk n K (A : mat NumR) : length A = n -> full n K (const3 K A).
Proof. intros H. split; [apply length_mk|]. intros k Hk. unfold const3, getm. now rewrite nth_mk. Qed.
Lemma full_lset n K t q c x : full n K t -> full n K (lset t q (lset (getm t q) c x)).
Proof.
  intros [H1 H2]. split; [now rewrite length_lset|]. intros k Hk. unfold getm.
  destruct (Nat.eq_dec k q) as [->|E].
  - rewrite nth_lset_eq by lia. rewrite length_lset. now apply H2.
  - rewrite nth_lset_neq by auto. now apply H2.
Qed.
Lemma init_rg1_full k n (x : pulin NumR) t : init_rg1 k n x = Ok t -> full n k t.
Proof.
  destruct x; simpl; intros H; try discriminate.
  - inv_bind H. injection H as <-. apply full_mk. apply length_mk.
  - inv_bind H. inv_bind H. injection H as <-. apply full_mk, length_mk.
Qed.
Lemma history_full LA (m0 m : mtl NumR) : history LA m0 m ->
  full (conductors m) (cells m) (k_r (m_core m)) /\ full (conductors m) (S (cells m)) (k_g (m_core m)).
Proof.
  intros H0. induction H0 as [B| |m a b c Rr m' H0 IH H|m a b c Gg m' H0 IH H|m p c f m' H0 IH H| |m p ty m' H0 IH H|m p c md m' H0 IH H|m m' H0 IH H|m T m' H0 IH H|]; auto.
  - destruct B as (ju & jdu & l & c & r & g & len & np & ndiv & zs & zl & name & H).
    apply new_parts in H as (_ & H & _ & _ & HN). rewrite HN. unfold init_RG in H. inv_bind H. inv_bind H. injection H as <- <-.
    split; eapply init_rg1_full; eauto.
  - unfold set_resistance_in_region in H. inv_bind H. inv_bind H. inv_bind H. injection H as <-. apply update_lr_inv in Ha1 as [t ->].
    apply region_assign_inv in Ha0 as (_ & _ & ->). destruct IH. split; auto. now apply full_lset.
  - unfold add_conductance_in_region in H. inv_bind H. inv_bind H. inv_bind H. inv_bind H. injection H as <-. apply update_cg_inv in Ha2 as [t ->].
    apply region_assign_inv in Ha1 as (_ & _ & ->). destruct IH. split; auto. now apply full_lset.
  - unfold add_voltage_source in H. destruct (c <? _)%nat; [|discriminate]. now injection H as <-.
  - unfold add_probe in H. destruct (out_of_box _ _); [discriminate|]. now injection H as <-.
  - unfold mtl_add_dispersive_connector in H. inv_bind H. now injection H as <-.
  - pose proof (proj1 (history_shape LA _ _ H0)) as Sh. pose proof (mtl_step_same _ _ (sh_N _ Sh) H) as SL.
    unfold conductors, cells. destruct (sl_core _ _ SL). now rewrite ss_n, ss_N, ss_r, ss_g.
  - pose proof (proj1 (history_shape LA _ _ H0)) as Sh. unfold run_until in H. inv_bind H. inv_bind H.
    destruct (shape_prepare LA _ _ _ Sh Ha0) as [Sp _]. apply prepare_inv in Ha0 as (t1 & t2 & _ & ->).
    pose proof (iter_step_same _ _ _ (sh_N _ Sp) H) as SL.
    unfold conductors, cells. destruct (sl_core _ _ SL). now rewrite ss_n, ss_N, ss_r, ss_g.
Qed.

Lemma cell_at_lt LA (m : mtl NumR) p k : reachable LA m -> closest (m_u m) p k -> (cell_at m k < cells m)%nat.
Proof.
  intros HR [H _]. pose proof (reachable_shape _ _ HR) as Sh. assert (H' : (k < length (m_u m))%nat) by exact H.
  rewrite (sh_u _ Sh) in H'. pose proof (sh_N _ Sh). unfold cell_at, cells. destruct (Nat.eqb_spec k (k_N (m_core m))); lia.
Qed.
Lemma resistance_effect LA (m m' : mtl NumR) (a b : posarg NumR) c (x : R) k1 k2 : reachable LA m ->
  closest (m_u m) (pos_vec a) k1 -> closest (m_u m) (pos_vec b) k2 ->
  set_resistance_in_region LA m a b c x = Ok m' ->
  (c < conductors m)%nat /\ (cell_at m k1 + c <= cell_at m k2)%nat /\ rest_of m m' /\ k_g (m_core m') = k_g (m_core m) /\
  forall k i j, (j < conductors m)%nat -> R_ m' k i j =
    if (k =? cell_at m k1 + c)%nat && (i =? c)%nat then x / region_len m (cell_at m k1) (cell_at m k2) else R_ m k i j.
Proof.
  intros HR C1 C2 H. destruct HR as [m0 HR]. pose proof (history_full _ _ _ HR) as [[F1 F2] _].
  pose proof (cell_at_lt LA m _ _ (ex_intro _ _ HR) C1) as B1. pose proof (cell_at_lt LA m _ _ (ex_intro _ _ HR) C2) as B2.
  unfold set_resistance_in_region in H.
  rewrite (closest_nearest _ _ _ C1), (closest_nearest _ _ _ C2) in H.
  fold (cells m) in H. fold (cell_at m k1) in H. fold (cell_at m k2) in H. fold (conductors m) in H.
  inv_bind H. inv_bind H. inv_bind H. injection H as <-. apply update_lr_inv in Ha1 as [t ->].
  apply region_assign_inv in Ha0 as (Hc & Hlen & ->). rewrite F1 in Hlen.
  split; [exact Hc|]. split; [lia|]. split; [|split; [reflexivity|]].
  - unfold rest_of. repeat (split; [reflexivity|]). reflexivity.
  - intros k i j Hj. unfold R_. cbn [m_core m_set_core m_set set_lr set_r k_r].
    rewrite set_row; [|rewrite F1; lia|rewrite F2 by lia; exact Hc|exact Hj].
    destruct ((k =? cell_at m k1 + c)%nat && (i =? c)%nat); auto.
    unfold region_len. destruct (Nat.eqb_spec (cell_at m k1) (cell_at m k2)) as [E|E]; cbn [negb].
    + now rewrite norm3_vnorm.
    + now rewrite vsub_dist.
Qed.
Lemma resistance_raises LA (m : mtl NumR) (a b : posarg NumR) c (x : R) k1 k2 : reachable LA m ->
  closest (m_u m) (pos_vec a) k1 -> closest (m_u m) (pos_vec b) k2 -> assert_ge b a = Ok tt ->
  ~ ((c < conductors m)%nat /\ (cell_at m k1 + c <= cell_at m k2)%nat) ->
  set_resistance_in_region LA m a b c x = Err IndexError.
Proof.
  intros HR C1 C2 HA H. pose proof (cell_at_lt LA m _ _ HR C2) as B2.
  destruct HR as [m0 HR]. pose proof (history_full _ _ _ HR) as [[F1 F2] _].
  unfold set_resistance_in_region. rewrite HA. cbn [bind].
  rewrite (closest_nearest _ _ _ C1), (closest_nearest _ _ _ C2).
  fold (cells m). fold (cell_at m k1). fold (cell_at m k2). fold (conductors m).
  unfold region_assign. rewrite F1.
  destruct (Nat.ltb_spec c (Nat.min (S (cell_at m k2)) (cells m) - cell_at m k1)) as [H1|H1]; [|reflexivity].
  destruct (Nat.ltb_spec c (conductors m)) as [H2|H2]; [|reflexivity]. exfalso. apply H. split; auto. lia.
Qed.
(** on a line whose lengths are those of C26, one cell of a single conductor gets exactly [x] ohm *)
Lemma point_resistance LA (m m' : mtl NumR) (p : posarg NumR) (x : R) k : reachable LA m -> conductors m = 1%nat ->
  closest (m_u m) (pos_vec p) k -> 0 < norm3 (nth (cell_at m k) (m_du m) []) ->
  cell_len m (cell_at m k) = norm3 (nth (cell_at m k) (m_du m) []) ->
  set_resistance_at_point LA m p 0 x = Ok m' ->
  R_ m' (cell_at m k) 0 0 * cell_len m (cell_at m k) = x /\
  forall q, q <> cell_at m k -> R_ m' q 0 0 = R_ m q 0 0.
Proof.
  intros HR H1 C Hp Hl H. unfold set_resistance_at_point in H.
  destruct (resistance_effect LA m m' p p 0 x k k HR C C H) as (_ & _ & _ & _ & E).
  split.
  - rewrite E by lia. rewrite Nat.add_0_r, !Nat.eqb_refl. cbn [andb]. unfold region_len. rewrite Nat.eqb_refl, Hl.
    rsimpl. field. lra.
  - intros q Hq. rewrite E by lia. rewrite Nat.add_0_r. destruct (Nat.eqb_spec q (cell_at m k)); [contradiction|reflexivity].
Qed.

(** *** C34 *)
Lemma argmin_first (l : list R) : l <> [] -> (forall j, (j < length l)%nat -> nth 0 l 0 <= nth j l 0) -> @argmin NumR l = 0%nat.
Proof.
  intros H1 H2. apply argmin_unique; auto.
  - destruct l; [congruence|simpl; lia].
  - intros; lia.
Qed.
Lemma flat_zero (u : list (list R)) (z : R) : u <> [] -> coord (nth 0 u []) 0 = 0 -> @flat_argmin NumR u [0; 0; z] = 0%nat.
Proof.
  intros Hu H. unfold flat_argmin. destruct u as [|p u]; [congruence|]. apply argmin_first; [discriminate|].
  intros j Hj.
  set (L := concat (map (fun x : vec NumR => mk 3 (fun k : nat => @nabs NumR (@nsub NumR (@get NumR x k) (@get NumR [0; 0; z] k)))) (p :: u))) in *.
  assert (P : forall y : R, In y L -> 0 <= y).
  { intros y Hy. unfold L in Hy. apply in_concat in Hy as (row & Hrow & Hy). apply in_map_iff in Hrow as (q & <- & _).
    unfold mk in Hy. apply in_map_iff in Hy as (k & <- & _). apply Rabs_pos. }
  assert (E : nth 0 L 0 = 0).
  { change (Rabs (coord p 0 - 0) = 0). cbn [nth] in H. rewrite H, Rminus_0_r. apply Rabs_R0. }
  apply Rle_trans with 0; [right; exact E|]. apply P. now apply nth_In.
Qed.
Lemma conductance_effect LA (m m' : mtl NumR) (za zb : R) c x : reachable LA m ->
  coord (nth 0 (m_u m) []) 0 = 0 ->
  add_conductance_in_region LA m (@PosF NumR za) (@PosF NumR zb) c x = Ok m' ->
  c = 0%nat /\ rest_of m m' /\ k_r (m_core m') = k_r (m_core m) /\
  forall k i j, (j < conductors m)%nat -> G_ m' k i j =
    if (k =? 0)%nat && (i =? 0)%nat then x / norm3 (nth 0 (m_du m) []) else G_ m k i j.
Proof.
  intros HR H0 H. pose proof (reachable_shape _ _ HR) as Sh. destruct HR as [m0 HR]. pose proof (history_full _ _ _ HR) as [_ [F1 F2]].
  assert (Hu : m_u m <> []) by (intros E; pose proof (sh_u _ Sh) as L; rewrite E in L; discriminate).
  unfold add_conductance_in_region in H. cbn [pos_vec] in H.
  change (@n0 NumR) with 0 in H. rewrite !(flat_zero (m_u m)) in H by auto.
  fold (conductors m) in H.
  inv_bind H. inv_bind H. inv_bind H. inv_bind H. injection H as <-. apply update_cg_inv in Ha2 as [t ->].
  apply region_assign_inv in Ha1 as (Hc & Hlen & ->). rewrite F1 in Hlen.
  assert (c = 0)%nat by lia. subst c. cbn [Nat.eqb negb] in Ha0. inv_bind Ha0. injection Ha0 as <-.
  split; [auto|]. split; [|split; [reflexivity|]].
  - unfold rest_of. repeat (split; [reflexivity|]). reflexivity.
  - intros k i j Hj. unfold G_. cbn [m_core m_set_core m_set set_cg set_g k_g]. cbn [Nat.add].
    rewrite set_row; [|rewrite F1; lia|rewrite F2 by lia; exact Hc|exact Hj].
    destruct ((k =? 0)%nat && (i =? 0)%nat); auto.
    unfold py_get in Ha1. destruct (nth_error (m_du m) 0) eqn:E; [|discriminate]. injection Ha1 as ->.
    apply nth_error_nth with (d := []) in E. rewrite E. apply (f_equal (Rdiv x)), norm3_vnorm.
Qed.

(** the bundle version uses the closest node *)
Lemma bundle_conductance_effect LA (b b' : bundle NumR) (p q : posarg NumR) c (x : R) k1 k2 :
  full (k_n (b_core b)) (length (b_u b)) (k_g (b_core b)) ->
  closest (b_u b) (pos_vec p) k1 -> closest (b_u b) (pos_vec q) k2 ->
  bundle_add_conductance LA b p q c x = Ok b' ->
  (c < k_n (b_core b))%nat /\ (k1 + c <= k2)%nat /\
  forall k i j, (j < k_n (b_core b))%nat -> get3 (k_g (b_core b')) k i j =
    if (k =? k1 + c)%nat && (i =? c)%nat
    then x / (if (k1 =? k2)%nat then norm3 (nth k1 (b_du b) []) else dist3 (nth k2 (b_u b) []) (nth k1 (b_u b) []))
    else get3 (k_g (b_core b)) k i j.
Proof.
  intros [F1 F2] C1 C2 H. unfold bundle_add_conductance in H.
  rewrite (closest_nearest _ _ _ C1), (closest_nearest _ _ _ C2) in H.
  inv_bind H. inv_bind H. inv_bind H. inv_bind H. injection H as <-. apply update_cg_inv in Ha2 as [t ->].
  apply region_assign_inv in Ha1 as (Hc & Hlen & ->). rewrite F1 in Hlen.
  assert (B2 : (k2 < length (b_u b))%nat) by exact (proj1 C2).
  split; [auto|]. split; [lia|]. intros k i j Hj. cbn [b_core b_set_core b_set set_cg set_g k_g].
  rewrite set_row; [|rewrite F1; lia|rewrite F2 by lia; exact Hc|exact Hj].
  destruct ((k =? k1 + c)%nat && (i =? c)%nat); auto.
  destruct (Nat.eqb_spec k1 k2) as [E|E]; cbn [negb] in Ha0.
  - inv_bind Ha0. injection Ha0 as <-. unfold py_get in Ha1. destruct (nth_error (b_du b) k1) eqn:E1; [|discriminate]. injection Ha1 as ->.
    apply nth_error_nth with (d := []) in E1. rewrite E1. apply (f_equal (Rdiv x)), norm3_vnorm.
  - injection Ha0 as <-. apply (f_equal (Rdiv x)), vsub_dist.
Qed.

(** *** C07 *)
Lemma same3_sub p q p' q' : same3 p p' -> same3 q q' -> @vsub NumR p q = @vsub NumR p' q'.
Proof.
  intros H1 H2. unfold vsub. apply mk_ext. intros k Hk. change (coord p k - coord q k = coord p' k - coord q' k). now rewrite H1, H2.
Qed.
Lemma pil_ext p a b p' a' b' : same3 p p' -> same3 a a' -> same3 b b' ->
  @point_in_line NumR p a b = @point_in_line NumR p' a' b'.
Proof.
  intros H1 H2 H3. unfold point_in_line. rewrite (same3_sub a b a' b'), (same3_sub a p a' p'), (same3_sub b p b' p') by auto. reflexivity.
Qed.
Lemma vadd_coord p q k : (k < 3)%nat -> coord (@vadd NumR p q) k = coord p k + coord q k.
Proof. intros H. rewrite coord_get. unfold vadd. now rewrite get_mk. Qed.
Lemma on_cells (dus : list (list R)) : forall (u : list (list R)) st last p,
  length u = S (length dus) -> same3 st (nth 0 u []) ->
  (forall j, (j < length dus)%nat -> same3 (nth (S j) u []) (@vadd NumR (nth j u []) (nth j dus []))) ->
  @probe_on_cells NumR dus st last p = true <->
  (exists j, (j < length dus)%nat /\ @point_in_line NumR p (nth j u []) (nth (S j) u []) = true) \/
  @point_in_line NumR p (nth (length dus) u []) (@vadd NumR (nth (length dus) u [])
     (match dus with [] => last | _ => nth (length dus - 1) dus [] end)) = true.
Proof.
  induction dus as [|du dus IH]; intros u st last p HL H0 HS.
  - cbn [length probe_on_cells]. rewrite (pil_ext p st (@vadd NumR st last) p (nth 0 u []) (@vadd NumR (nth 0 u []) last)).
    + split; [auto|]. intros [(j & Hj & _)|H]; [simpl in Hj; lia|auto].
    + intros k _; reflexivity.
    + exact H0.
    + intros k Hk. rewrite !vadd_coord by auto. now rewrite H0.
  - destruct u as [|u0 u]; [discriminate|]. cbn [probe_on_cells]. rewrite orb_true_iff.
    assert (E1 : same3 (@vadd NumR st du) (nth 0 u [])).
    { intros k Hk. pose proof (HS 0%nat ltac:(cbn; lia) k Hk) as E. cbn [nth] in E, H0. rewrite E, !vadd_coord by auto.
      now rewrite H0. }
    rewrite (pil_ext p st (@vadd NumR st du) p u0 (nth 0 u [])); [|intros k _; reflexivity|exact H0|exact E1].
    rewrite (IH u (@vadd NumR st du) du p).
    + cbn [length]. split.
      * intros [H|[(j & Hj & H)|H]].
        -- left. exists 0%nat. split; [lia|exact H].
        -- left. exists (S j). split; [lia|exact H].
        -- right. cbn [nth]. destruct dus as [|d2 dus]; [exact H|].
           replace (S (length (d2 :: dus)) - 1)%nat with (S (length (d2 :: dus) - 1)) by (cbn; lia). exact H.
      * intros [(j & Hj & H)|H].
        -- destruct j as [|j]; [left; exact H|right; left]. exists j. split; [lia|exact H].
        -- right. right. cbn [nth] in H. destruct dus as [|d2 dus]; [exact H|].
           replace (S (length (d2 :: dus)) - 1)%nat with (S (length (d2 :: dus) - 1)) in H by (cbn; lia). exact H.
    + cbn in HL. lia.
    + exact E1.
    + intros j Hj. apply (HS (S j)). cbn. lia.
Qed.

Lemma bundle_probe_iff LA ju jdu l c r g len (np : mat NumR) d s zs zl name (m : mtl NumR) rest bname b (p : posarg NumR) ty :
  mtl_new LA ju jdu l c r g len np (repeat d s) zs zl name = Ok m ->
  mtld_new ([m] :: rest) bname = Ok b ->
  let N := cells m in let u := m_u m in let du := m_du m in
  (exists b', bundle_add_probe b p ty = Ok b') <->
  (exists j, (j < N)%nat /\ @point_in_line NumR (pos_vec p) (nth j u []) (nth (S j) u []) = true) \/
  @point_in_line NumR (pos_vec p) (nth N u []) (@vadd NumR (nth N u []) (nth (N - 1) du [])) = true.
Proof.
  intros H HB N u du. pose proof (proj1 (mtl_new_inv _ _ _ _ _ _ _ _ _ _ _ _ _ _ H)) as Sh.
  destruct (equal_divisions _ _ _ _ _ _ _ _ _ _ _ _ _ _ _ H) as (_ & HN & Hu & Hdu & _ & _ & ST & _).
  assert (EU : b_u b = u /\ b_du b = du).
  { unfold mtld_new in HB. inv_bind HB. injection HB as <-. auto. }
  destruct EU as [EU ED]. unfold bundle_add_probe. rewrite EU, ED.
  assert (X := on_cells du u (nth 0 u []) [] (pos_vec p)).
  assert (Ld : length du = N) by (unfold du, N; rewrite Hdu, HN; reflexivity).
  change (@length (list R) du) with (@length (vec NumR) du) in X. rewrite Ld in X.
  assert (NZ : du <> []) by (intros E; rewrite E in Ld; pose proof (sh_N _ Sh) as Y; fold (cells m) in Y; fold N in Y; simpl in Ld; lia).
  assert (M : forall (dl : list (list R)) (x y : list R), dl <> [] -> match dl with [] => x | _ => y end = y).
  { intros [|]; congruence. }
  rewrite (M du) in X by exact NZ. etransitivity; [|apply X]; clear X.
  - destruct (probe_on_cells du (nth 0 u []) [] (pos_vec p)).
    + split; eauto.
    + split; [intros [b' E]; discriminate|discriminate].
  - unfold u, N. etransitivity; [exact Hu|]. now rewrite HN.
  - intros k _; reflexivity.
  - intros j Hj k Hk. rewrite vadd_coord by auto. apply ST; auto. unfold N in Hj. lia.
Qed.
Lemma bundle_probe_index (b b' : bundle NumR) p ty : bundle_add_probe b p ty = Ok b' ->
  exists pr, b_probes b' = b_probes b ++ [pr] /\ p_type pr = ty /\ (b_u b <> [] -> closest (b_u b) (pos_vec p) (p_index pr)).
Proof.
  unfold bundle_add_probe. destruct (probe_on_cells _ _ _ _); [|discriminate]. intros H. injection H as <-.
  eexists. split; [reflexivity|]. split; [reflexivity|]. intros Hu. now apply nearest_closest.
Qed.
