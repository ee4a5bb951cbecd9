(** Facts about the dispersive arrays: entries after an update, transfer impedances. *)
From Coq Require Import String List Arith ZArith Bool Lia FinFun.
From Verif Require Import Num Py Arr ArrFacts Probes Dispersive Line Bundle Networks Mtln
  SpecLine SpecBundle.
Import ListNotations.

Section Cube.
Context {A : Type}.
Implicit Types (t : list (list (list A))).

Definition g3 (d : A) t (k i j : nat) : A := nth j (nth i (nth k t []) []) d.
Definition cube (nx n : nat) t : Prop :=
  length t = nx /\ forall k, (k < nx)%nat -> length (nth k t []) = n /\
    forall i, (i < n)%nat -> length (nth i (nth k t []) []) = n.

Lemma cube_mk nx n (f : nat -> list (list A)) :
  (forall k, (k < nx)%nat -> length (f k) = n /\ forall i, (i < n)%nat -> length (nth i (f k) []) = n) ->
  cube nx n (mk nx f).
Proof.
  intros H. split; [apply length_mk|]. intros k Hk. rewrite nth_mk by auto. now apply H.
Qed.

Lemma cube_upd nx n t k i j x : cube nx n t -> cube nx n (upd3 t k i j x).
Proof.
  intros [H1 H2]. unfold upd3, upd2. split; [now rewrite length_lset|]. intros k' Hk.
  destruct (H2 k' Hk) as [H3 H4]. rewrite nth_lset. destruct (_ && _) eqn:E; [|now split].
  apply andb_true_iff in E as [E _]. apply Nat.eqb_eq in E as ->.
  split; [now rewrite length_lset|]. intros i' Hi. rewrite nth_lset. destruct (_ && _) eqn:E; [|auto].
  apply andb_true_iff in E as [E _]. apply Nat.eqb_eq in E as ->. rewrite length_lset. auto.
Qed.

Lemma g3_upd d nx n t k i j x k' i' j' : cube nx n t -> (k < nx)%nat -> (i < n)%nat -> (j < n)%nat ->
  g3 d (upd3 t k i j x) k' i' j' =
  if ((k' =? k) && (i' =? i) && (j' =? j))%nat then x else g3 d t k' i' j'.
Proof.
  intros [H1 H2] Hk Hi Hj. destruct (H2 k Hk) as [H3 H4]. unfold g3, upd3, upd2.
  rewrite (nth_lset t), H1, (proj2 (Nat.ltb_lt _ _) Hk), andb_true_r, (Nat.eqb_sym k k').
  destruct (Nat.eqb_spec k' k) as [->|]; [|reflexivity]. cbn [andb].
  rewrite (nth_lset (nth k t [])), H3, (proj2 (Nat.ltb_lt _ _) Hi), andb_true_r, (Nat.eqb_sym i i').
  destruct (Nat.eqb_spec i' i) as [->|]; [|reflexivity]. cbn [andb].
  rewrite nth_lset, (H4 i Hi), (proj2 (Nat.ltb_lt _ _) Hj), andb_true_r, (Nat.eqb_sym j j').
  reflexivity.
Qed.

(** the loop over all cells of a slice update *)
Lemma slice_fold d nx n (F : nat -> A -> A) i j : (i < n)%nat -> (j < n)%nat ->
  forall m t, (m <= nx)%nat -> cube nx n t ->
  let t' := fold_left (fun t' k => upd3 t' k i j (F k (g3 d t' k i j))) (seq 0 m) t in
  cube nx n t' /\
  forall k i' j', g3 d t' k i' j' =
    if ((k <? m) && (i' =? i) && (j' =? j))%nat then F k (g3 d t k i j) else g3 d t k i' j'.
Proof.
  intros Hi Hj m. induction m as [|m IH]; intros t Hm Hc; cbn zeta.
  - split; [exact Hc|]. intros. reflexivity.
  - rewrite seq_S, fold_left_app. cbn [fold_left]. rewrite Nat.add_0_l.
    destruct (IH t ltac:(lia) Hc) as [I1 I2]. cbn zeta in I1, I2. split; [now apply cube_upd|].
    intros k i' j'. rewrite (g3_upd d nx n) by (auto; lia). rewrite !I2.
    rewrite (proj2 (Nat.ltb_ge m m) (le_n _)). cbn [andb].
    destruct (Nat.eqb_spec k m) as [->|E].
    + rewrite (proj2 (Nat.ltb_lt m (S m))), (proj2 (Nat.ltb_ge m m)) by lia. cbn [andb].
      destruct (_ && _); reflexivity.
    + cbn [andb]. replace (k <? S m)%nat with (k <? m)%nat; [reflexivity|].
      apply eq_true_iff_eq. rewrite !Nat.ltb_lt. lia.
Qed.
End Cube.

Section Disp.
Context {N : num}.
Local Open Scope num_scope.
Implicit Types (s : disp N).

Record dshape s : Prop := {
  dc_d : cube (ds_nx s) (ds_n s) (ds_d s); dc_e : cube (ds_nx s) (ds_n s) (ds_e s);
  dc_1 : cube (ds_nx s) (ds_n s) (ds_q1 s); dc_2 : cube (ds_nx s) (ds_n s) (ds_q2 s);
  dc_3 : cube (ds_nx s) (ds_n s) (ds_q3 s)
}.

Lemma slice_sub_spec nx n (t : ten N) i j x : (i < n)%nat -> (j < n)%nat -> cube nx n t ->
  cube nx n (slice_sub nx t i j x) /\
  forall k i' j', get3 (slice_sub nx t i j x) k i' j' =
    if ((k <? nx) && (i' =? i) && (j' =? j))%nat then get3 t k i j - x else get3 t k i' j'.
Proof.
  intros Hi Hj Hc. exact (slice_fold n0 nx n (fun _ y => y - x) i j Hi Hj nx t (le_n _) Hc).
Qed.

(** which pole a slice update adds to cell [k] *)
Definition spread (arr : list (cplx N)) (k : nat) : cplx N :=
  if (length arr =? 1)%nat then nth 0 arr c0 else nth k arr c0.

Lemma slice_iop_spec f nx n t i j arr t' : (i < n)%nat -> (j < n)%nat -> cube nx n t ->
  slice_iop f nx t i j arr = Ok t' ->
  (length arr = 1%nat \/ length arr = nx) /\ cube nx n t' /\
  forall k i' j', qget3 t' k i' j' =
    if ((k <? nx) && (i' =? i) && (j' =? j))%nat
    then map (fun x : cplx N => f x (spread arr k)) (qget3 t k i j) else qget3 t k i' j'.
Proof.
  intros Hi Hj Hc H. unfold slice_iop in H. unfold spread. destruct (Nat.eqb_spec (length arr) 1) as [E|E].
  - injection H as <-. split; [now left|].
    exact (slice_fold qzero nx n (fun k y => map (fun x => f x (nth 0 arr c0)) y) i j Hi Hj nx t (le_n _) Hc).
  - destruct (Nat.eqb_spec (length arr) nx) as [E1|E1]; [|discriminate]. injection H as <-. split; [now right|].
    exact (slice_fold qzero nx n (fun k y => map (fun x => f x (nth k arr c0)) y) i j Hi Hj nx t (le_n _) Hc).
Qed.

Lemma slice_iop_Ok f nx t i j (arr : list (cplx N)) : (length arr = 1%nat \/ length arr = nx) ->
  exists t', slice_iop f nx t i j arr = Ok t'.
Proof.
  intros H. unfold slice_iop. destruct (Nat.eqb_spec (length arr) 1); [eauto|].
  destruct (Nat.eqb_spec (length arr) nx); [eauto|]. lia.
Qed.
Lemma slice_iop_Err f nx t i j (arr : list (cplx N)) : length arr <> 1%nat -> length arr <> nx ->
  slice_iop f nx t i j arr = Err ValueError.
Proof.
  intros H1 H2. unfold slice_iop. rewrite (proj2 (Nat.eqb_neq _ _) H1), (proj2 (Nat.eqb_neq _ _) H2). reflexivity.
Qed.

(** what one transfer impedance entry becomes *)
Definition ti_new (dt d e : N) (poles residues : list (cplx N)) s s' (k i j : nat) : Prop :=
  dD s' k i j = dD s k i j - d /\ dE s' k i j = dE s k i j - e /\
  (length poles = 0%nat -> dP1 s' k i j = dP1 s k i j /\ dP2 s' k i j = dP2 s k i j /\
                           dP3 s' k i j = dP3 s k i j) /\
  (length poles <> 0%nat ->
   let l := if (length poles =? 1)%nat then 0%nat else k in
   dP1 s' k i j = map (fun x => cadd x (w1 dt (nth l residues c0) (nth l poles c0))) (dP1 s k i j) /\
   dP2 s' k i j = map (fun x => csub x (w2 dt (nth l residues c0) (nth l poles c0))) (dP2 s k i j) /\
   dP3 s' k i j = map (fun x => csub x (w3 dt (nth l poles c0))) (dP3 s k i j)).

Lemma length_zipc f (a b : list (cplx N)) : length (zipc f a b) = length a.
Proof. apply length_mk. Qed.
Lemma spread_zipc f (a b : list (cplx N)) nx k : length a = 1%nat \/ length a = nx -> (k < nx)%nat ->
  spread (zipc f a b) k = let l := if (length a =? 1)%nat then 0%nat else k in f (nth l a c0) (nth l b c0).
Proof.
  intros H Hk. unfold spread. rewrite length_zipc. unfold zipc.
  destruct (Nat.eqb_spec (length a) 1); cbn zeta; rewrite nth_mk by lia; reflexivity.
Qed.
Lemma spread_map (f : cplx N -> cplx N) (a : list (cplx N)) nx k : length a = 1%nat \/ length a = nx -> (k < nx)%nat ->
  spread (map f a) k = f (nth (if (length a =? 1)%nat then 0%nat else k) a c0).
Proof.
  intros H Hk. unfold spread. rewrite map_length.
  destruct (Nat.eqb_spec (length a) 1); rewrite (nth_indep _ c0 (f c0)) by (rewrite map_length; lia); apply map_nth.
Qed.

(** fields a transfer impedance never touches *)
Record dkept s s' : Prop := {
  dk_n : ds_n s' = ds_n s; dk_nx : ds_nx s' = ds_nx s; dk_u : ds_u s' = ds_u s;
  dk_dt : ds_dt s' = ds_dt s; dk_phi : ds_phi s' = ds_phi s; dk_m : ds_q3phi s' = ds_q3phi s
}.
Lemma dkept_refl s : dkept s s. Proof. split; auto. Qed.
Lemma dkept_trans a b c : dkept a b -> dkept b c -> dkept a c.
Proof. intros [] []; split; congruence. Qed.

Lemma ti_pair_spec s i j d e poles residues s' : dshape s -> length residues = length poles ->
  ti_pair s i j d e poles residues = Ok s' ->
  dshape s' /\ dkept s s' /\ (i < ds_n s)%nat /\ (j < ds_n s)%nat /\
  (length poles = 0 \/ length poles = 1 \/ length poles = ds_nx s)%nat /\
  forall k i' j', (k < ds_nx s)%nat ->
    if ((i' =? i) && (j' =? j))%nat then ti_new (ds_dt s) d e poles residues s s' k i j
    else same_entry s s' k i' j'.
Proof.
  intros [C1 C2 C3 C4 C5] El H. unfold ti_pair in H.
  destruct (negb _) eqn:Eij; [discriminate|]. apply negb_false_iff, andb_true_iff in Eij as [Hi Hj].
  apply Nat.ltb_lt in Hi, Hj. rewrite El in H.
  destruct (slice_sub_spec _ _ _ i j d Hi Hj C1) as [D1 D2].
  destruct (slice_sub_spec _ _ _ i j e Hi Hj C2) as [E1 E2].
  destruct (Nat.eqb_spec (length poles) 0) as [E0|E0].
  - cbn [negb andb] in H. injection H as <-. split; [split; cbn; assumption|]. split; [split; reflexivity|].
    split; [exact Hi|]. split; [exact Hj|]. split; [now left|]. intros k i' j' Hk.
    apply Nat.ltb_lt in Hk.
    destruct (_ && _) eqn:Eq.
    + unfold ti_new, dD, dE, dP1, dP2, dP3. cbn [ds_d ds_e ds_q1 ds_q2 ds_q3]. rewrite D2, E2, Hk, !Nat.eqb_refl.
      cbn [andb]. repeat split; auto. now intros. now intros. now intros.
    + unfold same_entry, dD, dE, dP1, dP2, dP3. cbn [ds_d ds_e ds_q1 ds_q2 ds_q3].
      rewrite D2, E2, <- andb_assoc, Eq, andb_false_r. repeat split.
  - cbn [negb andb] in H. inv_bind H. inv_bind H. inv_bind H. injection H as <-.
    destruct (slice_iop_spec _ _ _ _ _ _ _ _ Hi Hj C3 Ha) as (L1 & K1 & S1).
    destruct (slice_iop_spec _ _ _ _ _ _ _ _ Hi Hj C4 Ha0) as (L2 & K2 & S2).
    destruct (slice_iop_spec _ _ _ _ _ _ _ _ Hi Hj C5 Ha1) as (L3 & K3 & S3).
    rewrite length_zipc, El in L1.
    split; [split; cbn; assumption|]. split; [split; reflexivity|].
    split; [exact Hi|]. split; [exact Hj|]. split; [now right|]. intros k i' j' Hk.
    pose proof (proj2 (Nat.ltb_lt _ _) Hk) as Hk'. destruct (_ && _) eqn:Eq.
    + unfold ti_new, dD, dE, dP1, dP2, dP3. cbn [ds_d ds_e ds_q1 ds_q2 ds_q3].
      rewrite D2, E2, S1, S2, S3, Hk', !Nat.eqb_refl. cbn [andb].
      rewrite !(spread_zipc _ _ _ (ds_nx s)) by (rewrite ?El; auto).
      rewrite (spread_map _ _ (ds_nx s)) by auto. rewrite El. cbn zeta.
      split; [reflexivity|]. split; [reflexivity|]. split; [intros; contradiction|]. intros _. repeat split.
    + unfold same_entry, dD, dE, dP1, dP2, dP3. cbn [ds_d ds_e ds_q1 ds_q2 ds_q3].
      rewrite D2, E2, S1, S2, S3, <- andb_assoc, Eq, andb_false_r. repeat split.
Qed.

Lemma ti_pair_Ok s i j d e poles residues : (i < ds_n s)%nat -> (j < ds_n s)%nat ->
  length residues = length poles -> (length poles = 0 \/ length poles = 1 \/ length poles = ds_nx s)%nat ->
  exists s', ti_pair s i j d e poles residues = Ok s'.
Proof.
  intros Hi Hj El Hl. unfold ti_pair. rewrite (proj2 (Nat.ltb_lt _ _) Hi), (proj2 (Nat.ltb_lt _ _) Hj). cbn [negb andb].
  rewrite El. destruct (Nat.eqb_spec (length poles) 0) as [E0|E0]; cbn [negb andb]; [eauto|].
  destruct Hl as [Hl|Hl]; [contradiction|].
  destruct (slice_iop_Ok cadd (ds_nx s) (ds_q1 s) i j (zipc (w1 (ds_dt s)) residues poles)) as [a Ha];
    [now rewrite length_zipc, El|]. rewrite Ha. cbn [bind].
  destruct (slice_iop_Ok csub (ds_nx s) (ds_q2 s) i j (zipc (w2 (ds_dt s)) residues poles)) as [b Hb];
    [now rewrite length_zipc, El|]. rewrite Hb. cbn [bind].
  destruct (slice_iop_Ok csub (ds_nx s) (ds_q3 s) i j (map (w3 (ds_dt s)) poles)) as [c Hc];
    [now rewrite map_length|]. rewrite Hc. cbn [bind]. eauto.
Qed.
Lemma ti_pair_Err s i j d e poles residues : (i < ds_n s)%nat -> (j < ds_n s)%nat ->
  length residues = length poles -> (1 < length poles)%nat -> length poles <> ds_nx s ->
  ti_pair s i j d e poles residues = Err ValueError.
Proof.
  intros Hi Hj El Hl Hn. unfold ti_pair. rewrite (proj2 (Nat.ltb_lt _ _) Hi), (proj2 (Nat.ltb_lt _ _) Hj). cbn [negb andb].
  rewrite El. rewrite (proj2 (Nat.eqb_neq (length poles) 0)) by lia. cbn [negb andb].
  rewrite slice_iop_Err by (rewrite length_zipc, El; lia). reflexivity.
Qed.

(** a list of (row, column) pairs updated one after the other *)
Definition ti_all (d e : N) poles residues s (ps : list (nat * nat)) : res (disp N) :=
  foldM (fun s p => ti_pair s (fst p) (snd p) d e poles residues) ps s.

Definition same_disp_entries s s' : Prop := forall k i j, (k < ds_nx s)%nat -> same_entry s s' k i j.

Lemma same_entry_refl (s : disp N) k i j : same_entry s s k i j.
Proof. repeat split. Qed.
Lemma same_entry_trans (a b c : disp N) k i j : same_entry a b k i j -> same_entry b c k i j -> same_entry a c k i j.
Proof. intros (?&?&?&?&?) (?&?&?&?&?). repeat split; congruence. Qed.
Lemma ti_new_pre dt d e ps rs (a b c : disp N) k i j : same_entry a b k i j -> ti_new dt d e ps rs b c k i j ->
  ti_new dt d e ps rs a c k i j.
Proof.
  intros (H1&H2&H3&H4&H5) (H6&H7&H8&H9). unfold ti_new. rewrite <- H1, <- H2, <- H3, <- H4, <- H5. auto.
Qed.
Lemma ti_new_post dt d e ps rs (a b c : disp N) k i j : ti_new dt d e ps rs a b k i j -> same_entry b c k i j ->
  ti_new dt d e ps rs a c k i j.
Proof.
  intros (H6&H7&H8&H9) (H1&H2&H3&H4&H5). unfold ti_new. rewrite H1, H2, H3, H4, H5. auto.
Qed.

Lemma ti_all_spec d e poles residues ps : length residues = length poles -> NoDup ps ->
  forall s s', dshape s -> ti_all d e poles residues s ps = Ok s' ->
  dshape s' /\ dkept s s' /\
  (forall p, In p ps -> (fst p < ds_n s)%nat /\ (snd p < ds_n s)%nat) /\
  (ps <> [] -> length poles = 0 \/ length poles = 1 \/ length poles = ds_nx s)%nat /\
  forall k i j, (k < ds_nx s)%nat ->
    (In (i, j) ps -> ti_new (ds_dt s) d e poles residues s s' k i j) /\
    (~ In (i, j) ps -> same_entry s s' k i j).
Proof.
  intros El. induction ps as [|[i0 j0] ps IH]; intros Nd s s' Hs H.
  - injection H as <-. split; [exact Hs|]. split; [apply dkept_refl|]. split; [intros p []|].
    split; [congruence|]. intros k i j Hk. split; [intros []|intros _; apply same_entry_refl].
  - unfold ti_all in H. cbn [foldM fst snd] in H. inv_bind H.
    destruct (ti_pair_spec _ _ _ _ _ _ _ _ Hs El Ha) as (S1 & K1 & I1 & J1 & L1 & T1).
    inversion Nd as [|? ? Nd1 Nd2]; subst.
    destruct (IH Nd2 _ _ S1 H) as (S2 & K2 & I2 & L2 & T2). destruct K1 as [k1 k2 k3 k4 k5 k6].
    split; [exact S2|]. split; [eapply dkept_trans; [|exact K2]; split; auto|].
    split. { intros p [<-|Hp]; [split; [exact I1|exact J1]|]. rewrite <- k1. auto. }
    split; [intros _; exact L1|].
    intros k i j Hk. specialize (T1 k i j Hk). rewrite k2, k4 in T2. specialize (T2 k i j Hk).
    split.
    + intros [E|Hin].
      * injection E as <- <-. rewrite !Nat.eqb_refl in T1. cbn [andb] in T1.
        eapply ti_new_post; [exact T1|]. apply (proj2 T2 Nd1).
      * assert (E : ((i =? i0) && (j =? j0))%nat = false).
        { apply not_true_is_false. intros HH. apply andb_true_iff in HH as [X%Nat.eqb_eq Y%Nat.eqb_eq].
          apply Nd1. now rewrite <- X, <- Y. }
        rewrite E in T1. eapply ti_new_pre; [exact T1|]. apply (proj1 T2 Hin).
    + intros Hni. cbn [In] in Hni.
      assert (E : ((i =? i0) && (j =? j0))%nat = false).
      { apply not_true_is_false. intros HH. apply andb_true_iff in HH as [X%Nat.eqb_eq Y%Nat.eqb_eq].
        apply Hni. left. now rewrite X, Y. }
      rewrite E in T1. eapply same_entry_trans; [exact T1|]. apply (proj2 T2). intros Hin. apply Hni. now right.
Qed.

Lemma ti_all_Ok d e poles residues ps : length residues = length poles ->
  forall s, dshape s -> (forall p, In p ps -> (fst p < ds_n s)%nat /\ (snd p < ds_n s)%nat) ->
  (length poles = 0 \/ length poles = 1 \/ length poles = ds_nx s)%nat ->
  exists s', ti_all d e poles residues s ps = Ok s'.
Proof.
  intros El. induction ps as [|p ps IH]; intros s Hs Hp Hl; [eexists; reflexivity|].
  unfold ti_all. cbn [foldM]. destruct (Hp p (or_introl eq_refl)) as [P1 P2].
  destruct (ti_pair_Ok s _ _ d e poles residues P1 P2 El Hl) as [s1 E1]. rewrite E1. cbn [bind].
  destruct (ti_pair_spec _ _ _ _ _ _ _ _ Hs El E1) as (S1 & [k1 k2 k3 k4 k5 k6] & _).
  apply IH; [exact S1| |now rewrite k2]. intros q Hq. rewrite k1. apply Hp. now right.
Qed.

(** the pairs a transfer impedance visits, in order *)
Definition pairs_in (ro ri : list nat) : list (nat * nat) := flat_map (fun i => map (fun j => (j, i)) ri) ro.
Definition pairs_out (ro ri : list nat) : list (nat * nat) := flat_map (fun i => map (fun j => (i, j)) ri) ro.

Lemma foldM_pairs {S X} (f : S -> X -> res S) (g : nat -> nat -> X) ri : forall ro (s : S),
  foldM (fun x i => foldM (fun y j => f y (g i j)) ri x) ro s
  = foldM f (flat_map (fun i => map (g i) ri) ro) s.
Proof.
  induction ro as [|i ro IH]; intros s; [reflexivity|]. cbn [foldM flat_map]. rewrite foldM_app.
  assert (E : foldM (fun y j => f y (g i j)) ri s = foldM f (map (g i) ri) s).
  { clear IH. revert s. induction ri as [|j ri IH]; intros s; [reflexivity|]. cbn [foldM map].
    destruct (f s (g i j)); [apply IH|reflexivity]. }
  rewrite E. destruct (foldM f (map (g i) ri) s); cbn [bind]; [apply IH|reflexivity].
Qed.

Lemma NoDup_join {X} (l1 l2 : list X) : NoDup l1 -> NoDup l2 -> (forall x, In x l1 -> ~ In x l2) -> NoDup (l1 ++ l2).
Proof.
  induction l1 as [|a l1 IH]; intros H1 H2 H3; [exact H2|]. cbn [app]. inversion H1; subst. constructor.
  - rewrite in_app_iff. intros [H|H]; [contradiction|]. exact (H3 a (or_introl eq_refl) H).
  - apply IH; auto. intros x Hx. apply H3. now right.
Qed.
Lemma NoDup_pairs (g : nat -> nat -> nat * nat) ri ro :
  (forall i j i' j', g i j = g i' j' -> i = i' /\ j = j') -> NoDup ri -> NoDup ro ->
  NoDup (flat_map (fun i => map (g i) ri) ro).
Proof.
  intros Hg Hri. induction ro as [|i ro IH]; intros Hro; [constructor|]. cbn [flat_map].
  inversion Hro as [|? ? H1 H2]; subst. apply NoDup_join; auto.
  - apply Injective_map_NoDup; [|exact Hri]. intros a b E. now apply Hg in E.
  - intros x Hx Hy. apply in_map_iff in Hx as (j & <- & _). apply in_flat_map in Hy as (i' & Hi' & Hy).
    apply in_map_iff in Hy as (j' & E & _). apply Hg in E as [-> _]. contradiction.
Qed.
Lemma NoDup_shift n l : NoDup l -> NoDup (map (fun c => n + c)%nat l).
Proof. apply Injective_map_NoDup. intros a b E. lia. Qed.

Lemma rm_check_Ok (m : ratmodel N) u : rm_check m = Ok u -> consistent m.
Proof.
  unfold rm_check. intros H. inv_bind H. inv_bind H. inv_bind H.
  apply passert_Ok' in Ha, Ha0, Ha1. apply Nat.eqb_eq in Ha, Ha0, Ha1.
  unfold consistent. lia.
Qed.
Lemma rm_check_intro (m : ratmodel N) : consistent m -> rm_check m = Ok tt.
Proof.
  intros (H1 & H2 & H3). unfold rm_check. rewrite H1, H2, H3, !Nat.eqb_refl. reflexivity.
Qed.
Lemma length_poles (m : ratmodel N) : length (rm_poles m) = n_poles m.
Proof. apply length_mk. Qed.
Lemma length_residues (m : ratmodel N) f : length (rm_residues m f) = n_poles m.
Proof. apply length_mk. Qed.
Lemma nth_poles (m : ratmodel N) l : (l < n_poles m)%nat -> nth l (rm_poles m) c0 = pole m l.
Proof. intros H. unfold rm_poles. now rewrite nth_mk. Qed.
Lemma nth_residues (m : ratmodel N) f l : (l < n_poles m)%nat -> nth l (rm_residues m f) c0 = residue m f l.
Proof. intros H. unfold rm_residues. now rewrite nth_mk. Qed.

Lemma active_null (m : ratmodel N) : active m <->
  rm_null m (rm_cte m / rm_f m) (rm_prop m / rm_f m) = false.
Proof.
  unfold active, rm_null, divisor, n_poles. fold (rm_f m). rewrite !andb_false_iff, Nat.eqb_neq. split.
  - intros [H|[H|H]]; [left; left; exact H|left; right; exact H|right; lia].
  - intros [[H|H]|H]; [left; exact H|right; left; exact H|right; right; lia].
Qed.

(** the loop of add_transfer_impedance, by direction *)
Lemma ti_loop_in d e ps rs (m : ratmodel N) ri ro s : rm_direction m = "in"%string ->
  foldM (fun s i => foldM (fun s j =>
          s1 <- (if dir_in m then ti_pair s j i d e ps rs else Ok s) ;;
          (if dir_out m then ti_pair s1 i j d e ps rs else Ok s1)) ri s) ro s
  = ti_all d e ps rs s (pairs_in ro ri).
Proof.
  intros E. unfold dir_in, dir_out. rewrite E. cbn [String.eqb Ascii.eqb Bool.eqb].
  unfold ti_all, pairs_in. rewrite <- (foldM_pairs (fun s p => ti_pair s (fst p) (snd p) d e ps rs) (fun i j => (j, i))).
  apply foldM_ext. intros s0 i _. apply foldM_ext. intros s1 j _. cbn [fst snd].
  destruct (ti_pair s1 j i d e ps rs); reflexivity.
Qed.
Lemma ti_loop_out d e ps rs (m : ratmodel N) ri ro s : rm_direction m = "out"%string ->
  foldM (fun s i => foldM (fun s j =>
          s1 <- (if dir_in m then ti_pair s j i d e ps rs else Ok s) ;;
          (if dir_out m then ti_pair s1 i j d e ps rs else Ok s1)) ri s) ro s
  = ti_all d e ps rs s (pairs_out ro ri).
Proof.
  intros E. unfold dir_in, dir_out. rewrite E. cbn [String.eqb Ascii.eqb Bool.eqb].
  unfold ti_all, pairs_out. rewrite <- (foldM_pairs (fun s p => ti_pair s (fst p) (snd p) d e ps rs) (fun i j => (i, j))).
  apply foldM_ext. intros s0 i _. apply foldM_ext. intros s1 j _. reflexivity.
Qed.
Lemma foldM_id {S X} (f : S -> X -> res S) l (s : S) : (forall x, f s x = Ok s) -> foldM f l s = Ok s.
Proof. intros H. induction l as [|x l IH]; [reflexivity|]. cbn [foldM]. rewrite H. exact IH. Qed.
End Disp.
