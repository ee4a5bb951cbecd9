(** Transfer impedances of bundles. *)
From Coq Require Import String List Arith ZArith Bool Lia FinFun.
From Verif Require Import Num Py Arr ArrFacts Probes Dispersive Line LineFacts Bundle Networks Mtln
  SpecLine SpecBundle HistoryFacts DispFacts BundleFacts.
Import ListNotations.

Section DispProps.
Context {N : num}.
Variable LA : lapack N.
Local Open Scope num_scope.
Implicit Types (b : bundle N) (m : ratmodel N).

Lemma offset_before b l : binv b -> n_before (b_cil b) l = level_offset b l.
Proof. intros H. rewrite (bi_cil _ H). apply n_before_levels. Qed.

Lemma adjacent_iff a c : adjacent a c = true <-> neighbours a c.
Proof. unfold adjacent, neighbours. rewrite orb_true_iff, !Nat.eqb_eq. tauto. Qed.

Lemma couples_in b ol oc il ic i j : binv b ->
  In (i, j) (pairs_in (map (fun c => n_before (b_cil b) ol + c)%nat oc)
                      (map (fun c => n_before (b_cil b) il + c)%nat ic)) <->
  couples b "in" ol oc il ic i j.
Proof.
  intros Hb. rewrite !offset_before by auto. unfold pairs_in, couples. rewrite in_flat_map. split.
  - intros (x & Hx & Hy). apply in_map_iff in Hx as (co & <- & Hco). apply in_map_iff in Hy as (y & E & Hy).
    apply in_map_iff in Hy as (ci & <- & Hci). injection E as <- <-. exists co, ci. intuition.
  - intros (co & ci & Ho & Hi & [(_ & -> & ->)|(E & _)]); [|discriminate].
    exists (level_offset b ol + co)%nat. split; [apply in_map_iff; eauto|]. apply in_map_iff.
    exists (level_offset b il + ci)%nat. split; [reflexivity|]. apply in_map_iff; eauto.
Qed.
Lemma couples_out b ol oc il ic i j : binv b ->
  In (i, j) (pairs_out (map (fun c => n_before (b_cil b) ol + c)%nat oc)
                      (map (fun c => n_before (b_cil b) il + c)%nat ic)) <->
  couples b "out" ol oc il ic i j.
Proof.
  intros Hb. rewrite !offset_before by auto. unfold pairs_out, couples. rewrite in_flat_map. split.
  - intros (x & Hx & Hy). apply in_map_iff in Hx as (co & <- & Hco). apply in_map_iff in Hy as (y & E & Hy).
    apply in_map_iff in Hy as (ci & <- & Hci). injection E as <- <-. exists co, ci. intuition.
  - intros (co & ci & Ho & Hi & [(E & _)|(_ & -> & ->)]); [discriminate|].
    exists (level_offset b ol + co)%nat. split; [apply in_map_iff; eauto|]. apply in_map_iff.
    exists (level_offset b il + ci)%nat. split; [reflexivity|]. apply in_map_iff; eauto.
Qed.

(** the two directions at once *)
Definition visited b (dir : string) ol oc il ic : list (nat * nat) :=
  let ro := map (fun c => n_before (b_cil b) ol + c)%nat oc in
  let ri := map (fun c => n_before (b_cil b) il + c)%nat ic in
  if String.eqb dir "in" then pairs_in ro ri else pairs_out ro ri.
Lemma visited_couples b dir ol oc il ic i j : binv b -> dir = "in"%string \/ dir = "out"%string ->
  In (i, j) (visited b dir ol oc il ic) <-> couples b dir ol oc il ic i j.
Proof. intros Hb [-> | ->]; unfold visited; cbn [String.eqb Ascii.eqb Bool.eqb]; [now apply couples_in|now apply couples_out]. Qed.
Lemma visited_nodup b dir ol oc il ic : NoDup oc -> NoDup ic -> NoDup (visited b dir ol oc il ic).
Proof.
  intros H1 H2. unfold visited. destruct (String.eqb dir "in"); apply NoDup_pairs;
    try (now apply NoDup_shift); intros ? ? ? ? E; injection E; auto.
Qed.
Lemma ti_loop d e ps rs m ri ro (s : disp N) : rm_direction m = "in"%string \/ rm_direction m = "out"%string ->
  foldM (fun s i => foldM (fun s j =>
          s1 <- (if dir_in m then ti_pair s j i d e ps rs else Ok s) ;;
          (if dir_out m then ti_pair s1 i j d e ps rs else Ok s1)) ri s) ro s
  = ti_all d e ps rs s (if String.eqb (rm_direction m) "in" then pairs_in ro ri else pairs_out ro ri).
Proof. intros [E|E]; [rewrite ti_loop_in by auto|rewrite ti_loop_out by auto]; rewrite E; reflexivity. Qed.

Lemma transfer_exact b ol oc il ic m b' : reachable_bundle LA b ->
  bundle_add_transfer_impedance b ol oc il ic m = Ok b' ->
  NoDup oc -> NoDup ic -> rm_direction m = "in"%string \/ rm_direction m = "out"%string -> active m ->
  neighbours ol il /\ consistent m /\ only_coefficients b b' /\
  (forall i j, couples b (rm_direction m) ol oc il ic i j -> (i < b_conductors b)%nat /\ (j < b_conductors b)%nat /\
     (n_poles m = 0 \/ n_poles m = 1 \/ n_poles m = b_cells b)%nat) /\
  forall k i j, (k < b_cells b)%nat ->
    (couples b (rm_direction m) ol oc il ic i j ->
       lowered m (if (n_poles m =? 1)%nat then 0%nat else k) (b_disp b) (b_disp b') k i j) /\
    (~ couples b (rm_direction m) ol oc il ic i j -> same_entry (b_disp b) (b_disp b') k i j).
Proof.
  intros Hr H No Ni Hd Ac. pose proof (reachable_binv LA _ Hr) as Hb.
  unfold bundle_add_transfer_impedance in H. inv_bind H. injection H as <-.
  unfold add_transfer_impedance in Ha. inv_bind Ha. destruct (rm_f m =? n0); [discriminate|]. inv_bind Ha.
  rewrite (proj1 (active_null m) Ac) in Ha. inv_bind Ha. injection Ha as <-.
  apply passert_Ok', adjacent_iff in Ha0. apply rm_check_Ok in Ha1. rewrite ti_loop in Ha2 by auto.
  fold (visited b (rm_direction m) ol oc il ic) in Ha2.
  assert (El : length (rm_residues m (rm_f m)) = length (rm_poles m)) by (now rewrite length_poles, length_residues).
  destruct (ti_all_spec _ _ _ _ _ El (visited_nodup b (rm_direction m) ol oc il ic No Ni) _ _ (bi_disp _ Hb) Ha2)
    as (S1 & K1 & I1 & L1 & T1).
  pose proof (bi_n _ Hb) as En. pose proof (bi_nx _ Hb) as Ex. unfold b_disp in En, Ex.
  change (k_disp (b_core b)) with (b_disp b) in *. rewrite En in I1. rewrite Ex, length_poles in *.
  split; [exact Ha0|]. split; [exact Ha1|]. split.
  { destruct K1 as [k1 k2 k3 k4 k5 k6]. eexists. split; [reflexivity|]. cbn. auto. }
  split.
  { intros i j Hc. apply visited_couples in Hc; auto. destruct (I1 _ Hc) as [I2 I3]. cbn [fst snd] in I2, I3.
    split; [exact I2|]. split; [exact I3|]. apply L1. intros E. rewrite E in Hc. destruct Hc. }
  intros k i j Hk. destruct (T1 k i j Hk) as [T2 T3]. split.
  - intros Hc. pose proof Hc as Hc'. apply visited_couples in Hc; auto. specialize (T2 Hc). destruct T2 as (t1 & t2 & t3 & t4).
    assert (Hn : (n_poles m = 0 \/ n_poles m = 1 \/ n_poles m = b_cells b)%nat).
    { apply L1. intros E. rewrite E in Hc. destruct Hc. }
    unfold lowered. cbn zeta. split; [exact t1|]. split; [exact t2|].
    rewrite length_poles in t3, t4. split; [exact t3|].
    intros H0. specialize (t4 H0). cbn zeta in t4.
    rewrite nth_poles, nth_residues in t4; [exact t4| |]; destruct (Nat.eqb_spec (n_poles m) 1); lia.
  - intros Hc. apply T3. intros Hi. apply Hc. now apply visited_couples in Hi.
Qed.

Lemma transfer_accepted b ol oc il ic m : reachable_bundle LA b ->
  rm_direction m = "in"%string \/ rm_direction m = "out"%string ->
  neighbours ol il -> consistent m -> divisor m =? n0 = false ->
  (forall i j, couples b (rm_direction m) ol oc il ic i j -> (i < b_conductors b)%nat /\ (j < b_conductors b)%nat) ->
  (n_poles m = 0 \/ n_poles m = 1 \/ n_poles m = b_cells b)%nat ->
  exists b', bundle_add_transfer_impedance b ol oc il ic m = Ok b'.
Proof.
  intros Hr Hd Ha Hc Hf Hi Hl. pose proof (reachable_binv LA _ Hr) as Hb.
  unfold bundle_add_transfer_impedance, add_transfer_impedance.
  rewrite (proj2 (adjacent_iff _ _) Ha). cbn [passert bind]. change (rm_f m) with (divisor m). rewrite Hf.
  rewrite rm_check_intro by auto. cbn [bind]. destruct (rm_null _ _ _); cbn [bind]; [eauto|].
  rewrite ti_loop by auto. fold (visited b (rm_direction m) ol oc il ic).
  destruct (ti_all_Ok (rm_cte m / divisor m) (rm_prop m / divisor m) (rm_poles m) (rm_residues m (divisor m))
     (visited b (rm_direction m) ol oc il ic)) with (s := k_disp (b_core b)) as [s' Es].
  - now rewrite length_poles, length_residues.
  - exact (bi_disp _ Hb).
  - intros [i j] Hp. apply visited_couples in Hp; auto. pose proof (bi_n _ Hb) as En. unfold b_disp in En. rewrite En. now apply Hi.
  - pose proof (bi_nx _ Hb) as Ex. unfold b_disp in Ex. rewrite Ex, length_poles. exact Hl.
  - rewrite Es. cbn [bind]. eauto.
Qed.

Lemma transfer_not_adjacent b ol oc il ic m : ~ neighbours ol il ->
  bundle_add_transfer_impedance b ol oc il ic m = Err AssertionError /\
  forall side, side = "initial"%string \/ side = "end"%string ->
    set_connector_transfer_impedance b side ol oc il ic m = Err AssertionError.
Proof.
  intros H. assert (E : adjacent ol il = false). { apply not_true_is_false. now rewrite adjacent_iff. }
  split.
  - unfold bundle_add_transfer_impedance, add_transfer_impedance. rewrite E. reflexivity.
  - intros side Hs. unfold set_connector_transfer_impedance, set_transfer_impedance_at_index. rewrite E.
    destruct Hs as [-> | ->]; reflexivity.
Qed.

Lemma transfer_bad_poles b ol oc il ic m : reachable_bundle LA b ->
  rm_direction m = "in"%string \/ rm_direction m = "out"%string ->
  neighbours ol il -> consistent m -> divisor m =? n0 = false ->
  (forall i j, couples b (rm_direction m) ol oc il ic i j -> (i < b_conductors b)%nat /\ (j < b_conductors b)%nat) ->
  oc <> [] -> ic <> [] -> (1 < n_poles m)%nat -> n_poles m <> b_cells b ->
  bundle_add_transfer_impedance b ol oc il ic m = Err ValueError.
Proof.
  intros Hr Hd Ha Hc Hf Hi No Ni Hl Hn. pose proof (reachable_binv LA _ Hr) as Hb.
  unfold bundle_add_transfer_impedance, add_transfer_impedance.
  rewrite (proj2 (adjacent_iff _ _) Ha). cbn [passert bind]. change (rm_f m) with (divisor m). rewrite Hf.
  rewrite rm_check_intro by auto. cbn [bind].
  replace (rm_null m (rm_cte m / divisor m) (rm_prop m / divisor m)) with false.
  2:{ symmetry. apply (active_null m). right. right. lia. }
  rewrite ti_loop by auto. fold (visited b (rm_direction m) ol oc il ic).
  destruct (visited b (rm_direction m) ol oc il ic) as [|[i j] ps] eqn:Ev.
  - exfalso. destruct oc as [|co oc]; [congruence|]. destruct ic as [|ci ic]; [congruence|].
    unfold visited, pairs_in, pairs_out in Ev. cbn in Ev. destruct (String.eqb _ _); discriminate.
  - assert (Hp : couples b (rm_direction m) ol oc il ic i j).
    { apply visited_couples; auto. rewrite Ev. now left. }
    apply Hi in Hp as [P1 P2]. unfold ti_all. cbn [foldM fst snd].
    pose proof (bi_n _ Hb) as En. pose proof (bi_nx _ Hb) as Ex. unfold b_disp in En, Ex.
    rewrite ti_pair_Err; [reflexivity|congruence|congruence|now rewrite length_poles, length_residues
                         |now rewrite length_poles|rewrite length_poles; congruence].
Qed.

Lemma set_disp_same b d : d = k_disp (b_core b) -> b_set_core b (set_disp (b_core b) d) = b.
Proof. intros ->. destruct b as [? ? ? [] ? ? ?]. reflexivity. Qed.
Lemma with_sums_same b : binv b -> with_sums (k_disp (b_core b)) = k_disp (b_core b).
Proof.
  intros [_ _ _ _ H1 H2 _]. unfold b_disp in *. unfold with_sums. rewrite <- H1, <- H2.
  destruct (k_disp (b_core b)); reflexivity.
Qed.

Lemma transfer_ignored b side ol oc il ic m : reachable_bundle LA b ->
  rm_direction m <> "in"%string -> rm_direction m <> "out"%string ->
  (forall b', bundle_add_transfer_impedance b ol oc il ic m = Ok b' -> b' = b) /\
  (forall b', set_connector_transfer_impedance b side ol oc il ic m = Ok b' -> b' = b).
Proof.
  intros Hr H1 H2. pose proof (reachable_binv LA _ Hr) as Hb.
  apply String.eqb_neq in H1, H2. split; intros b' H.
  - unfold bundle_add_transfer_impedance in H. inv_bind H. injection H as <-. apply set_disp_same.
    unfold add_transfer_impedance in Ha. inv_bind Ha. destruct (rm_f m =? n0); [discriminate|]. inv_bind Ha.
    destruct (rm_null _ _ _); [injection Ha as <-; reflexivity|]. inv_bind Ha. injection Ha as <-.
    unfold dir_in, dir_out in Ha2. rewrite H1, H2 in Ha2. rewrite foldM_id in Ha2.
    + injection Ha2 as <-. now apply with_sums_same.
    + intros i. now apply foldM_id.
  - unfold set_connector_transfer_impedance in H. inv_bind H. inv_bind H. injection H as <-. apply set_disp_same.
    unfold set_transfer_impedance_at_index in Ha0. inv_bind Ha0. destruct (rm_f m =? n0); [discriminate|]. inv_bind Ha0.
    destruct (rm_null _ _ _); [injection Ha0 as <-; reflexivity|]. inv_bind Ha0. injection Ha0 as <-.
    unfold dir_in, dir_out in Ha3. rewrite H1, H2 in Ha3. rewrite foldM_id in Ha3.
    + injection Ha3 as <-. now apply with_sums_same.
    + intros i. now apply foldM_id.
Qed.
(** ... and it is accepted *)
Lemma transfer_ignored_accepted b side ol oc il ic m : reachable_bundle LA b ->
  rm_direction m <> "in"%string -> rm_direction m <> "out"%string ->
  neighbours ol il -> consistent m -> divisor m =? n0 = false ->
  side = "initial"%string \/ side = "end"%string ->
  bundle_add_transfer_impedance b ol oc il ic m = Ok b /\
  set_connector_transfer_impedance b side ol oc il ic m = Ok b.
Proof.
  intros Hr H1 H2 Ha Hc Hf Hs. destruct (transfer_ignored b side ol oc il ic m Hr H1 H2) as [P Q].
  apply String.eqb_neq in H1, H2.
  assert (E1 : exists b', bundle_add_transfer_impedance b ol oc il ic m = Ok b').
  { unfold bundle_add_transfer_impedance, add_transfer_impedance.
    rewrite (proj2 (adjacent_iff _ _) Ha). cbn [passert bind]. change (rm_f m) with (divisor m). rewrite Hf.
    rewrite rm_check_intro by auto. cbn [bind]. destruct (rm_null _ _ _); cbn [bind]; [eauto|].
    unfold dir_in, dir_out. rewrite H1, H2. rewrite foldM_id by (intros i; now apply foldM_id). cbn [bind]. eauto. }
  assert (E2 : exists b', set_connector_transfer_impedance b side ol oc il ic m = Ok b').
  { unfold set_connector_transfer_impedance, set_transfer_impedance_at_index.
    rewrite (proj2 (adjacent_iff _ _) Ha). cbn [passert bind]. change (rm_f m) with (divisor m). rewrite Hf.
    rewrite rm_check_intro by auto. cbn [bind]. unfold dir_in, dir_out. rewrite H1, H2.
    destruct Hs as [-> | ->]; cbn [String.eqb Ascii.eqb Bool.eqb bind];
    (destruct (rm_null _ _ _); cbn [bind]; [eauto|];
    rewrite foldM_id by (intros i; now apply foldM_id); cbn [bind]; eauto). }
  destruct E1 as [b1 E1], E2 as [b2 E2]. rewrite E1, E2, (P _ E1), (Q _ E2). auto.
Qed.

Lemma transfer_null b side ol oc il ic m : ~ active m -> neighbours ol il -> consistent m ->
  divisor m =? n0 = false -> side = "initial"%string \/ side = "end"%string ->
  bundle_add_transfer_impedance b ol oc il ic m = Ok b /\
  set_connector_transfer_impedance b side ol oc il ic m = Ok b.
Proof.
  intros Hn Ha Hc Hf Hs.
  assert (E : rm_null m (rm_cte m / rm_f m) (rm_prop m / rm_f m) = true).
  { apply not_false_is_true. intros E. apply Hn. now apply active_null. }
  unfold bundle_add_transfer_impedance, add_transfer_impedance, set_connector_transfer_impedance,
    set_transfer_impedance_at_index.
  rewrite (proj2 (adjacent_iff _ _) Ha). cbn [passert bind].
  rewrite rm_check_intro by auto. change (divisor m) with (rm_f m) in Hf. rewrite Hf. cbn [bind]. rewrite E. cbn [bind].
  rewrite set_disp_same by reflexivity. split; [reflexivity|].
  destruct Hs as [-> | ->]; cbn [String.eqb Ascii.eqb Bool.eqb bind]; reflexivity.
Qed.

(** ** connector transfer impedance *)
Definition ti_rep (dt d e : N) (poles residues : list (cplx N)) (s s' : disp N) (k i j : nat) : Prop :=
  dD s' k i j = - d /\ dE s' k i j = - e /\
  (length poles = 0%nat -> dP1 s' k i j = dP1 s k i j /\ dP2 s' k i j = dP2 s k i j /\
                           dP3 s' k i j = dP3 s k i j) /\
  (length poles <> 0%nat ->
   dP1 s' k i j = zipc (w1 dt) residues poles /\
   dP2 s' k i j = map copp (zipc (w2 dt) residues poles) /\
   dP3 s' k i j = map copp (map (w3 dt) poles)).

Lemma ti_set_spec (s : disp N) k0 i j d e poles residues s' : dshape s -> length residues = length poles -> (k0 < ds_nx s)%nat ->
  ti_set s k0 i j d e poles residues = Ok s' ->
  dshape s' /\ dkept s s' /\ (i < ds_n s)%nat /\ (j < ds_n s)%nat /\
  forall k i' j', if ((k =? k0) && (i' =? i) && (j' =? j))%nat then ti_rep (ds_dt s) d e poles residues s s' k i j
    else same_entry s s' k i' j'.
Proof.
  intros Hs El Hk H. destruct (ti_set_shape _ _ _ _ _ _ _ _ _ Hs H) as [S1 K1].
  split; [exact S1|]. split; [exact K1|]. unfold ti_set in H.
  destruct (negb _) eqn:Eij; [discriminate|]. apply negb_false_iff, andb_true_iff in Eij as [Hi Hj].
  apply Nat.ltb_lt in Hi, Hj. split; [exact Hi|]. split; [exact Hj|]. intros k i' j'.
  destruct Hs as [C1 C2 C3 C4 C5]. rewrite El in H.
  assert (G : forall (t : ten N) x, cube (ds_nx s) (ds_n s) t -> get3 (upd3 t k0 i j x) k i' j' =
     if ((k =? k0) && (i' =? i) && (j' =? j))%nat then x else get3 t k i' j').
  { intros t x Ht. exact (g3_upd n0 _ _ t k0 i j x k i' j' Ht Hk Hi Hj). }
  assert (Q : forall t (x : qe N), cube (ds_nx s) (ds_n s) t -> qget3 (upd3 t k0 i j x) k i' j' =
     if ((k =? k0) && (i' =? i) && (j' =? j))%nat then x else qget3 t k i' j').
  { intros t x Ht. exact (g3_upd qzero _ _ t k0 i j x k i' j' Ht Hk Hi Hj). }
  destruct (Nat.eqb_spec (length poles) 0) as [E0|E0]; cbn [negb andb] in H; injection H as <-.
  - destruct (_ && _) eqn:Eq.
    + apply andb_true_iff in Eq as [Eq E3%Nat.eqb_eq]. apply andb_true_iff in Eq as [E1%Nat.eqb_eq E2%Nat.eqb_eq].
      subst k i' j'. unfold ti_rep, dD, dE, dP1, dP2, dP3. cbn [ds_d ds_e ds_q1 ds_q2 ds_q3].
      rewrite !G by auto. repeat split; try reflexivity; intros; contradiction.
    + unfold same_entry, dD, dE, dP1, dP2, dP3. cbn [ds_d ds_e ds_q1 ds_q2 ds_q3]. rewrite !G by auto. repeat split.
  - destruct (_ && _) eqn:Eq.
    + apply andb_true_iff in Eq as [Eq E3%Nat.eqb_eq]. apply andb_true_iff in Eq as [E1%Nat.eqb_eq E2%Nat.eqb_eq].
      subst k i' j'. unfold ti_rep, dD, dE, dP1, dP2, dP3. cbn [ds_d ds_e ds_q1 ds_q2 ds_q3].
      rewrite !G, !Q by auto. repeat split; try reflexivity; intros; contradiction.
    + unfold same_entry, dD, dE, dP1, dP2, dP3. cbn [ds_d ds_e ds_q1 ds_q2 ds_q3]. rewrite !G, !Q by auto. repeat split.
Qed.

Definition ts_all k0 (d e : N) poles residues (s : disp N) (ps : list (nat * nat)) : res (disp N) :=
  foldM (fun s p => ti_set s k0 (fst p) (snd p) d e poles residues) ps s.
Lemma ts_loop k0 d e ps rs m ri ro (s : disp N) : rm_direction m = "in"%string \/ rm_direction m = "out"%string ->
  foldM (fun s i => foldM (fun s j =>
          s1 <- (if dir_in m then ti_set s k0 j i d e ps rs else Ok s) ;;
          (if dir_out m then ti_set s1 k0 i j d e ps rs else Ok s1)) ri s) ro s
  = ts_all k0 d e ps rs s (if String.eqb (rm_direction m) "in" then pairs_in ro ri else pairs_out ro ri).
Proof.
  intros [E|E]; unfold dir_in, dir_out; rewrite E; cbn [String.eqb Ascii.eqb Bool.eqb]; unfold ts_all, pairs_in, pairs_out.
  - rewrite <- (foldM_pairs (fun s p => ti_set s k0 (fst p) (snd p) d e ps rs) (fun i j => (j, i))).
    apply foldM_ext. intros s0 i _. apply foldM_ext. intros s1 j _. cbn [fst snd].
    destruct (ti_set s1 k0 j i d e ps rs); reflexivity.
  - rewrite <- (foldM_pairs (fun s p => ti_set s k0 (fst p) (snd p) d e ps rs) (fun i j => (i, j))).
    apply foldM_ext. intros s0 i _. apply foldM_ext. intros s1 j _. reflexivity.
Qed.

Lemma ti_rep_post dt d e ps rs (a b c : disp N) k i j : ti_rep dt d e ps rs a b k i j -> same_entry b c k i j ->
  ti_rep dt d e ps rs a c k i j.
Proof. intros (H6&H7&H8&H9) (H1&H2&H3&H4&H5). unfold ti_rep. rewrite H1, H2, H3, H4, H5. auto. Qed.
Lemma ti_rep_again dt d e ps rs (a b c : disp N) k i j : ti_rep dt d e ps rs a b k i j -> ti_rep dt d e ps rs b c k i j ->
  ti_rep dt d e ps rs a c k i j.
Proof.
  intros (H1&H2&H3&H4) (H5&H6&H7&H8). split; [exact H5|]. split; [exact H6|]. split; [|exact H8].
  intros E. specialize (H3 E). specialize (H7 E). intuition congruence.
Qed.
Lemma ti_rep_pre dt d e ps rs (a b c : disp N) k i j : same_entry a b k i j -> ti_rep dt d e ps rs b c k i j ->
  ti_rep dt d e ps rs a c k i j.
Proof.
  intros (A1&A2&A3&A4&A5) (H5&H6&H7&H8). split; [exact H5|]. split; [exact H6|]. split; [|exact H8].
  intros E. specialize (H7 E). intuition congruence.
Qed.

Lemma ts_all_spec k0 d e poles residues ps : length residues = length poles ->
  forall s s', dshape s -> (k0 < ds_nx s)%nat -> ts_all k0 d e poles residues s ps = Ok s' ->
  dkept s s' /\ (forall p, In p ps -> (fst p < ds_n s)%nat /\ (snd p < ds_n s)%nat) /\
  forall k i j,
    (k = k0 /\ In (i, j) ps -> ti_rep (ds_dt s) d e poles residues s s' k i j) /\
    (~ (k = k0 /\ In (i, j) ps) -> same_entry s s' k i j).
Proof.
  intros El. induction ps as [|[i0 j0] ps IH]; intros s s' Hs Hk H.
  - injection H as <-. split; [apply dkept_refl|]. split; [intros p []|].
    intros k i j. split; [intros [_ []]|intros _; apply same_entry_refl].
  - unfold ts_all in H. cbn [foldM fst snd] in H. inv_bind H.
    destruct (ti_set_spec _ _ _ _ _ _ _ _ _ Hs El Hk Ha) as (S1 & K1 & I1 & J1 & T1).
    pose proof K1 as [k1 k2 k3 k4 k5 k6].
    destruct (IH a s' S1 ltac:(congruence) H) as (K2 & I2 & T2).
    split; [eapply dkept_trans; eauto|].
    split. { intros p [<-|Hp]; [split; [exact I1|exact J1]|]. rewrite <- k1. auto. }
    intros k i j. specialize (T1 k i j). specialize (T2 k i j). rewrite k4 in T2. destruct T2 as [T2 T3].
    assert (DP : {In (i, j) ps} + {~ In (i, j) ps}).
    { apply in_dec. decide equality; apply Nat.eq_dec. }
    destruct (_ && _) eqn:Eq.
    + apply andb_true_iff in Eq as [Eq E3%Nat.eqb_eq]. apply andb_true_iff in Eq as [E1%Nat.eqb_eq E2%Nat.eqb_eq].
      subst k i0 j0. split; [|intros Hn; exfalso; apply Hn; split; [reflexivity|now left]].
      intros _. destruct DP as [Hi|Hi].
      * eapply ti_rep_again; [exact T1|]. now apply T2.
      * eapply ti_rep_post; [exact T1|]. apply T3. tauto.
    + split.
      * intros [Ek [E|Hi]].
        -- exfalso. injection E as -> ->. subst k. rewrite !Nat.eqb_refl in Eq. discriminate.
        -- eapply ti_rep_pre; [exact T1|]. now apply T2.
      * intros Hn. eapply same_entry_trans; [exact T1|]. apply T3. intros [Ek Hi]. apply Hn. split; [exact Ek|now right].
Qed.

Lemma map_seq_nth {A B} (f : A -> B) d (l : list A) : map f l = map (fun k => f (nth k l d)) (seq 0 (length l)).
Proof.
  rewrite <- (map_map (fun k => nth k l d) f). f_equal. symmetry.
  change (map (fun k => nth k l d) (seq 0 (length l))) with (mk (length l) (fun k => nth k l d)). apply mk_nth.
Qed.

Lemma connector_exact b side ol oc il ic m b' : reachable_bundle LA b -> (0 < b_cells b)%nat ->
  set_connector_transfer_impedance b side ol oc il ic m = Ok b' ->
  rm_direction m = "in"%string \/ rm_direction m = "out"%string -> active m ->
  let k0 := if String.eqb side "initial" then 0%nat else (b_cells b - 1)%nat in
  (side = "initial"%string \/ side = "end"%string) /\
  neighbours ol il /\ consistent m /\ only_coefficients b b' /\
  forall k i j,
    (k = k0 /\ couples b (rm_direction m) ol oc il ic i j -> replaced m (b_disp b) (b_disp b') k i j) /\
    (~ (k = k0 /\ couples b (rm_direction m) ol oc il ic i j) -> same_entry (b_disp b) (b_disp b') k i j).
Proof.
  intros Hr Hcells H Hd Ac k0. pose proof (reachable_binv LA _ Hr) as Hb.
  unfold set_connector_transfer_impedance in H. inv_bind H. inv_bind H. injection H as <-.
  assert (Es : (side = "initial"%string \/ side = "end"%string) /\ a = k0).
  { unfold k0, b_cells. destruct (String.eqb_spec side "initial") as [Es|Es].
    - injection Ha as <-. auto.
    - destruct (String.eqb_spec side "end") as [Es'|Es']; [|discriminate]. injection Ha as <-. auto. }
  destruct Es as [Es ->]. split; [exact Es|]. clear Ha.
  unfold set_transfer_impedance_at_index in Ha0. inv_bind Ha0. destruct (rm_f m =? n0); [discriminate|]. inv_bind Ha0.
  rewrite (proj1 (active_null m) Ac) in Ha0. inv_bind Ha0. injection Ha0 as <-.
  apply passert_Ok', adjacent_iff in Ha. apply rm_check_Ok in Ha1. rewrite ts_loop in Ha2 by auto.
  fold (visited b (rm_direction m) ol oc il ic) in Ha2.
  assert (El : length (rm_residues m (rm_f m)) = length (rm_poles m)) by (now rewrite length_poles, length_residues).
  pose proof (bi_nx _ Hb) as Ex.
  assert (Hk : (k0 < ds_nx (k_disp (b_core b)))%nat).
  { change (k_disp (b_core b)) with (b_disp b). rewrite Ex. unfold k0. destruct (String.eqb _ _); lia. }
  destruct (ts_all_spec k0 _ _ _ _ _ El _ _ (bi_disp _ Hb) Hk Ha2) as (K1 & I1 & T1).
  split; [exact Ha|]. split; [exact Ha1|]. split.
  { destruct K1 as [k1 k2 k3 k4 k5 k6]. eexists. split; [reflexivity|]. cbn. auto. }
  intros k i j. destruct (T1 k i j) as [T2 T3]. split.
  - intros [Ek Hc]. apply visited_couples in Hc; auto. destruct (T2 (conj Ek Hc)) as (t1 & t2 & t3 & t4).
    unfold replaced. cbn zeta. split; [exact t1|]. split; [exact t2|].
    rewrite length_poles in t3, t4. split; [exact t3|]. intros H0. specialize (t4 H0). destruct t4 as (u1 & u2 & u3).
    unfold b_disp in *. cbn [b_set_core b_set b_core k_disp set_disp] in *.
    assert (Z : forall (F G : cplx N -> cplx N -> cplx N), (forall x y, F x y = G x y) ->
        mk (n_poles m) (fun k => F (nth k (rm_residues m (rm_f m)) c0) (nth k (rm_poles m) c0))
        = map (fun l => G (residue m (divisor m) l) (pole m l)) (seq 0 (n_poles m))).
    { intros F G HF. apply mk_ext. intros l Hl. rewrite nth_residues, nth_poles by auto. apply HF. }
    split; [|split].
    + transitivity (zipc (w1 (ds_dt (b_disp b))) (rm_residues m (rm_f m)) (rm_poles m)); [exact u1|].
      unfold zipc. rewrite length_residues. now apply Z.
    + transitivity (map copp (zipc (w2 (ds_dt (b_disp b))) (rm_residues m (rm_f m)) (rm_poles m))); [exact u2|].
      unfold zipc. rewrite length_residues. unfold mk. rewrite map_map.
      exact (Z (fun x y => copp (w2 (ds_dt (b_disp b)) x y)) _ (fun _ _ => eq_refl)).
    + transitivity (map copp (map (w3 (ds_dt (b_disp b))) (rm_poles m))); [exact u3|].
      rewrite map_map, (map_seq_nth _ c0), length_poles. apply map_ext_in. intros l Hl. apply in_seq in Hl.
      rewrite nth_poles by lia. reflexivity.
  - intros Hn. apply T3. intros [Ek Hi]. apply Hn. split; [exact Ek|]. now apply visited_couples in Hi.
Qed.

End DispProps.
