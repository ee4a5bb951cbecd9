(** Facts about illumination by external fields; any arithmetic. *)
From Coq Require Import String List Arith ZArith Bool Lia.
From Verif Require Import Num Py Arr ArrFacts Utils Probes Dispersive Line Bundle Networks Mtln SpecLine SpecBundle Fields SpecFields.
Import ListNotations.

Section FieldsFacts.
Context {N : num}.
Local Open Scope num_scope.
Variable LA : lapack N.
Variable integ : (N -> N) -> N -> N -> N.
Implicit Types f : field N.
Notation fn := (N -> N) (only parsing).

(** *** writes into a 2-d array *)
Definition put {A} (m : list (list A)) (w : nat * nat * A) : list (list A) := upd2 m (fst (fst w)) (snd (fst w)) (snd w).
Definition puts {A} (m : list (list A)) (l : list (nat * nat * A)) := fold_left put l m.
Lemma upd2_shape {A} (m : list (list A)) i j x c : length (upd2 m i j x) = length m /\ length (nth c (upd2 m i j x) []) = length (nth c m []).
Proof.
  unfold upd2. split; [apply length_lset|]. rewrite nth_lset. destruct (_ && _)%bool eqn:E; [|reflexivity]. apply andb_true_iff in E as [E _]. apply Nat.eqb_eq in E. subst. apply length_lset.
Qed.
Lemma upd2_nth {A} (m : list (list A)) i j x c k d : nth k (nth c (upd2 m i j x) []) d =
  if ((i =? c) && (c <? length m))%nat && ((j =? k) && (k <? length (nth c m [])))%nat then x else nth k (nth c m []) d.
Proof.
  unfold upd2. rewrite nth_lset. destruct (Nat.eqb_spec i c) as [Ei|Ei]; cbn [andb]; [|reflexivity]. subst i.
  destruct (c <? length m)%nat; cbn [andb]; [|reflexivity]. rewrite nth_lset. destruct (Nat.eqb_spec j k) as [Ej|]; [now subst j|reflexivity].
Qed.
Lemma puts_shape {A} (l : list (nat * nat * A)) m c : length (puts m l) = length m /\ length (nth c (puts m l) []) = length (nth c m []).
Proof.
  revert m. induction l as [|w l IH]; intros m; [auto|]. cbn. destruct (IH (put m w)) as [E1 E2]. unfold puts in *. rewrite E1, E2. apply upd2_shape.
Qed.
Definition pos {A} (w : nat * nat * A) : nat * nat := fst w.
Lemma puts_other {A} (l : list (nat * nat * A)) m c k d : ~ In (c, k) (map pos l) -> nth k (nth c (puts m l) []) d = nth k (nth c m []) d.
Proof.
  revert m. induction l as [|[[i j] x] l IH]; intros m H; [reflexivity|]. cbn [map pos fst In] in H. change (puts m ((i, j, x) :: l)) with (puts (put m (i, j, x)) l). rewrite IH by tauto.
  unfold put. cbn [fst snd]. rewrite upd2_nth. destruct (Nat.eqb_spec i c) as [E1|]; cbn [andb]; [|reflexivity]. destruct (Nat.eqb_spec j k) as [E2|]; cbn [andb]; [|now rewrite andb_false_r].
  exfalso. apply H. left. now subst.
Qed.
Lemma puts_hit {A} (l : list (nat * nat * A)) m c k x d : NoDup (map pos l) -> In (c, k, x) l -> (c < length m)%nat -> (k < length (nth c m []))%nat -> nth k (nth c (puts m l) []) d = x.
Proof.
  revert m. induction l as [|[[i j] y] l IH]; intros m ND H Hc Hk; [destruct H|]. cbn [map pos fst] in ND. inversion ND as [|? ? X Y]; subst. change (puts m ((i, j, y) :: l)) with (puts (put m (i, j, y)) l).
  destruct H as [E|H].
  - injection E as -> -> ->. rewrite puts_other by exact X. unfold put. cbn [fst snd]. rewrite upd2_nth, !Nat.eqb_refl, (proj2 (Nat.ltb_lt _ _) Hc), (proj2 (Nat.ltb_lt _ _) Hk). reflexivity.
  - apply IH; auto.
    + unfold put. cbn [fst snd]. now rewrite (proj1 (upd2_shape m i j y c)).
    + unfold put. cbn [fst snd]. now rewrite (proj2 (upd2_shape m i j y c)).
Qed.
(** later writes over all the places of earlier ones hide them *)
Lemma puts_last {A} (l : list (nat * nat * A)) m m' d : (forall c, length m' = length m /\ length (nth c m' []) = length (nth c m [])) ->
  (forall c k, ~ In (c, k) (map pos l) -> nth k (nth c m' []) d = nth k (nth c m []) d) -> puts m' l = puts m l.
Proof.
  intros Sh H. assert (G : forall c k, nth k (nth c (puts m' l) []) d = nth k (nth c (puts m l) []) d).
  { revert m m' Sh H. induction l as [|[[i j] x] l IH]; intros m m' Sh H c k; [apply H; tauto|]. change (puts m ((i, j, x) :: l)) with (puts (put m (i, j, x)) l). change (puts m' ((i, j, x) :: l)) with (puts (put m' (i, j, x)) l). apply IH; clear c k.
    - intros c. unfold put. cbn [fst snd]. destruct (upd2_shape m i j x c) as [-> ->]. destruct (upd2_shape m' i j x c) as [-> ->]. apply Sh.
    - intros c k Hn. unfold put. cbn [fst snd]. rewrite !upd2_nth. destruct (Sh c) as [-> ->].
      destruct (((i =? c) && (c <? length m)) && ((j =? k) && (k <? length (nth c m []))))%nat eqn:E; [reflexivity|].
      destruct (Nat.eqb_spec i c) as [E1|E1]; [destruct (Nat.eqb_spec j k) as [E2|E2]|].
      + subst i j. cbn [andb] in E. destruct (c <? length m)%nat eqn:L1; cbn [andb] in E.
        * apply Nat.ltb_ge in E. rewrite !nth_overflow; [reflexivity|exact E|]. destruct (Sh c) as [_ ->]. exact E.
        * apply Nat.ltb_ge in L1. rewrite (nth_overflow m), (nth_overflow m'); [reflexivity| |exact L1]. destruct (Sh c) as [-> _]. exact L1.
      + apply H. cbn [map pos fst In]. intros [X|X]; [injection X as X1 X2; congruence|contradiction].
      + apply H. cbn [map pos fst In]. intros [X|X]; [injection X as X1 X2; congruence|contradiction]. }
  apply (nth_ext _ _ [] []).
  - rewrite (proj1 (puts_shape l m' 0)), (proj1 (puts_shape l m 0)). apply (Sh 0%nat).
  - intros c _. apply (nth_ext _ _ d d).
    + rewrite (proj2 (puts_shape l m' c)), (proj2 (puts_shape l m c)). apply (Sh c).
    + intros k _. apply G.
Qed.

(** *** the loops as lists of writes *)
Definition zf : N -> N := fun _ => n0.
Lemma cells_writes f u du dist vu n is : forall eL eT o st, foldM (light_cell integ f u du dist vu n) is (eL, eT, o) = Ok st ->
  exists wl wt, st = (puts eL wl, puts eT wt, match is with [] => o | _ => Some (nth (last is 0%nat) u []) end) /\ map pos wl = map (pair n) is /\ map pos wt = map (pair n) is /\
    (forall k x, In (n, k, x) wl -> (k < length du)%nat /\ exists v, vmax (nth k vu []) = Ok v /\ forall t, x t = long_drive f (nth k u []) (nth k du []) (nth k (nth n dist []) []) v t) /\
    (forall k x, In (n, k, x) wt -> exists v, vmax (nth k vu []) = Ok v /\ forall t, x t = tran_drive integ f (nth k u []) (nth k (nth n dist []) []) v t) /\
    (forall eL' eT' o', foldM (light_cell integ f u du dist vu n) is (eL', eT', o') = Ok (puts eL' wl, puts eT' wt, match is with [] => o' | _ => Some (nth (last is 0%nat) u []) end)).
Proof.
  induction is as [|k is IH]; intros eL eT o st H; cbn [foldM] in H.
  - injection H as <-. exists [], []. split; [reflexivity|]. split; [reflexivity|]. split; [reflexivity|]. split; [intros ? ? []|]. split; [intros ? ? []|]. reflexivity.
  - inv_bind H. unfold light_cell in Ha. repeat (let X := fresh "G" in inv_bind Ha; rename Ha0 into X || idtac).
    apply (f_equal (fun r => match r with Ok a => a | _ => a end)) in Ha. subst a.
    destruct (IH _ _ _ _ H) as (wl & wt & E & P1 & P2 & Q1 & Q2 & Q3).
    match goal with E1 : py_get du k = Ok ?d, E2 : compute_eL_at_segment f ?d = Ok ?e, E3 : py_get u k = Ok ?uk, E4 : py_get dist n = Ok ?dn, E5 : py_get ?dn k = Ok ?dk, E6 : py_get vu k = Ok ?vk, E7 : vmax ?vk = Ok ?v |- _ =>
      set (Du := d) in *; set (Ex := e) in *; set (Uk := uk) in *; set (Dn := dn) in *; set (Dk := dk) in *; set (Vk := vk) in *; set (V := v) in *;
      rename E1 into H1; rename E2 into H2; rename E3 into H3; rename E4 into H4; rename E5 into H5; rename E6 into H6; rename E7 into H7 end.
    exists ((n, k, long_term Ex Uk Du Dk V) :: wl), ((n, k, tran_term integ f Uk Dk V) :: wt).
    apply (@py_get_Ok (vec N) _ _ _ []) in H3 as NU. destruct NU as [_ NU]. apply (@py_get_Ok (vec N) _ _ _ []) in H1 as ND. destruct ND as [ND1 ND2].
    assert (NDist : nth k (nth n dist []) [] = Dk) by (apply (@py_get_Ok (mat N) _ _ _ []) in H4 as [_ X]; apply (@py_get_Ok (vec N) _ _ _ []) in H5 as [_ Y]; exact (eq_trans (f_equal (fun q => nth k q []) X) Y)).
    assert (NV : vmax (nth k vu []) = Ok V) by (apply (@py_get_Ok (vec N) _ _ _ []) in H6 as [_ X]; exact (eq_trans (f_equal vmax X) H7)).
    assert (LS : match is with [] => Some Uk | _ => Some (nth (last is 0%nat) u []) end = Some (nth (last (k :: is) 0%nat) u [])) by (destruct is; [cbn [last]; now rewrite NU|reflexivity]).
    split; [|split; [|split; [|split; [|split]]]].
    + rewrite E, LS. reflexivity.
    + cbn [map pos fst]. now rewrite P1.
    + cbn [map pos fst]. now rewrite P2.
    + intros k' x [X|X]; [|exact (Q1 k' x X)]. injection X as <- <-. split; [exact ND1|]. exists V. split; [exact NV|]. intros t. rewrite NU, ND2, NDist.
      unfold compute_eL_at_segment in H2. inv_bind H2. apply (f_equal (fun r => match r with Ok a => a | _ => Ex end)) in H2. rewrite <- H2. reflexivity.
    + intros k' x [X|X]; [|exact (Q2 k' x X)]. injection X as <- <-. exists V. split; [exact NV|]. intros t. rewrite NU, NDist. reflexivity.
    + intros eL' eT' o'. cbn [foldM]. unfold light_cell at 1. rewrite H1. cbn [bind]. rewrite H2. cbn [bind]. rewrite H3. cbn [bind]. rewrite H4. cbn [bind]. rewrite H5. cbn [bind]. rewrite H6. cbn [bind]. rewrite H7. cbn [bind].
      rewrite Q3, LS. reflexivity.
Qed.

Lemma puts_app {A} (l l' : list (nat * nat * A)) m : puts m (l ++ l') = puts (puts m l) l'.
Proof. apply fold_left_app. Qed.
Lemma foldM_nil_keep {A S} (g : S -> A -> res S) s : foldM g [] s = Ok s. Proof. reflexivity. Qed.
Lemma conductor_writes f u du dist vu cells is n eL eT o st : is <> [] -> light_conductor integ f u du dist vu cells is (eL, eT, o) n = Ok st ->
  exists wl wt, st = (puts eL wl, puts eT wt, Some (nth (last is 0%nat) u [])) /\ map pos wl = map (pair n) is /\ map pos wt = map (pair n) (is ++ [cells]) /\
    (forall k x, In (n, k, x) wl -> (k < length du)%nat /\ exists v, vmax (nth k vu []) = Ok v /\ forall t, x t = long_drive f (nth k u []) (nth k du []) (nth k (nth n dist []) []) v t) /\
    (forall k x, In (n, k, x) wt -> k <> cells -> exists v, vmax (nth k vu []) = Ok v /\ forall t, x t = tran_drive integ f (nth k u []) (nth k (nth n dist []) []) v t) /\
    (~ In cells is -> forall x, In (n, cells, x) wt -> exists v, vmax (nth (length vu - 1) vu []) = Ok v /\ forall t, x t = tran_drive integ f (nth (last is 0%nat) u []) (nth (length (nth n dist []) - 1) (nth n dist []) []) v t) /\
    (forall eL' eT' o', light_conductor integ f u du dist vu cells is (eL', eT', o') n = Ok (puts eL' wl, puts eT' wt, Some (nth (last is 0%nat) u []))).
Proof.
  intros Ne H. unfold light_conductor in H. inv_bind H. destruct (cells_writes _ _ _ _ _ _ _ _ _ _ _ Ha) as (wl & wt & -> & P1 & P2 & Q1 & Q2 & Q3).
  assert (LS : forall o, match is with [] => o | _ => Some (nth (last is 0%nat) u []) end = Some (nth (last is 0%nat) u [])) by (intros; destruct is; [congruence|reflexivity]).
  rewrite LS in H. inv_bind H. rename a into dn, Ha0 into H4. inv_bind H. rename a into dk, Ha0 into H5. inv_bind H. cbn [of_option] in Ha0. injection Ha0 as <-. inv_bind H. rename a into vk, Ha0 into H6. inv_bind H. rename a into v, Ha0 into H7.
  apply (f_equal (fun r => match r with Ok a => a | _ => st end)) in H. subst st.
  apply (@py_get_Ok (mat N) _ _ _ []) in H4 as ND. destruct ND as [_ ND]. apply (@py_get_Ok (vec N) _ _ _ []) in H5 as NK. destruct NK as [_ NK]. apply (@py_get_Ok (vec N) _ _ _ []) in H6 as NV. destruct NV as [_ NV].
  set (T := tran_term integ f (nth (last is 0%nat) u []) dk v).
  exists wl, (wt ++ [(n, cells, T)]).
  split; [rewrite puts_app; reflexivity|]. split; [exact P1|]. split; [rewrite !map_app, P2; reflexivity|]. split; [exact Q1|]. split; [|split].
  - intros k x X Nk. apply in_app_or in X as [X|[X|[]]]; [exact (Q2 k x X)|]. injection X as <- <-. congruence.
  - intros Nc x X. apply in_app_or in X as [X|[X|[]]].
    + exfalso. apply Nc. assert (I : In (n, cells) (map pos wt)) by (apply in_map_iff; eexists; split; [|exact X]; reflexivity). rewrite P2 in I. apply in_map_iff in I as (k & E & I). injection E as <-. exact I.
    + injection X as <-. exists v. rewrite ND, NV. split; [exact H7|]. intros t. rewrite NK. reflexivity.
  - intros eL' eT' o'. unfold light_conductor. rewrite Q3. cbn [bind]. rewrite LS, H4. cbn [bind]. rewrite H5. cbn [bind of_option]. rewrite H6. cbn [bind]. rewrite H7. cbn [bind]. rewrite puts_app. reflexivity.
Qed.
Definition spots (ns is : list nat) : list (nat * nat) := flat_map (fun n => map (pair n) is) ns.
Lemma in_spots ns is c k : In (c, k) (spots ns is) <-> In c ns /\ In k is.
Proof.
  unfold spots. rewrite in_flat_map. split.
  - intros (n & Hn & H). apply in_map_iff in H as (k' & E & H). injection E as -> ->. auto.
  - intros [Hc Hk]. exists c. split; [exact Hc|]. apply in_map_iff. eauto.
Qed.
Lemma nodup_app {A} (l l' : list A) : NoDup l -> NoDup l' -> (forall a, In a l -> ~ In a l') -> NoDup (l ++ l').
Proof.
  intros H H' D. induction H as [|a l X Y IH]; cbn [app]; [exact H'|]. constructor.
  - intros I. apply in_app_or in I as [I|I]; [contradiction|]. exact (D a (or_introl eq_refl) I).
  - apply IH. intros b Hb. apply D. now right.
Qed.
Lemma nodup_spots ns is : NoDup ns -> NoDup is -> NoDup (spots ns is).
Proof.
  intros Hn Hi. induction Hn as [|n ns X Y IH]; cbn [spots flat_map]; [constructor|]. fold (spots ns is). apply nodup_app; [| |].
  - clear - Hi. induction Hi as [|k l A B IH]; cbn [map]; constructor; auto. intros H. apply in_map_iff in H as (k' & E & H). congruence.
  - exact IH.
  - intros [c k] H K. apply in_map_iff in H as (k' & E & H). injection E as <- <-. apply in_spots in K as [K _]. contradiction.
Qed.
Lemma all_writes f u du dist vu cells is : is <> [] -> ~ In cells is -> forall ns eL eT o st, foldM (light_conductor integ f u du dist vu cells is) ns (eL, eT, o) = Ok st ->
  exists wl wt, st = (puts eL wl, puts eT wt, match ns with [] => o | _ => Some (nth (last is 0%nat) u []) end) /\ map pos wl = spots ns is /\ map pos wt = spots ns (is ++ [cells]) /\
    (forall c k x, In (c, k, x) wl -> (k < length du)%nat /\ exists v, vmax (nth k vu []) = Ok v /\ forall t, x t = long_drive f (nth k u []) (nth k du []) (nth k (nth c dist []) []) v t) /\
    (forall c k x, In (c, k, x) wt -> k <> cells -> exists v, vmax (nth k vu []) = Ok v /\ forall t, x t = tran_drive integ f (nth k u []) (nth k (nth c dist []) []) v t) /\
    (forall c x, In (c, cells, x) wt -> exists v, vmax (nth (length vu - 1) vu []) = Ok v /\ forall t, x t = tran_drive integ f (nth (last is 0%nat) u []) (nth (length (nth c dist []) - 1) (nth c dist []) []) v t) /\
    (forall eL' eT' o', foldM (light_conductor integ f u du dist vu cells is) ns (eL', eT', o') = Ok (puts eL' wl, puts eT' wt, match ns with [] => o' | _ => Some (nth (last is 0%nat) u []) end)).
Proof.
  intros Ne Nc. induction ns as [|n ns IH]; intros eL eT o st H; cbn [foldM] in H.
  - injection H as <-. exists [], []. split; [reflexivity|]. split; [reflexivity|]. split; [reflexivity|]. split; [intros ? ? ? []|]. split; [intros ? ? ? []|]. split; [intros ? ? []|]. reflexivity.
  - inv_bind H. destruct (conductor_writes _ _ _ _ _ _ _ _ _ _ _ _ Ne Ha) as (wl1 & wt1 & -> & P1 & P2 & Q1 & Q2 & Q3 & Q4).
    destruct (IH _ _ _ _ H) as (wl & wt & E & R1 & R2 & S1 & S2 & S3 & S4).
    assert (C1 : forall c k x, In (c, k, x) wl1 -> c = n) by (intros c k x X; assert (I : In (c, k) (map pos wl1)) by (apply in_map_iff; eexists; split; [|exact X]; reflexivity); rewrite P1 in I; apply in_map_iff in I as (k' & F & _); congruence).
    assert (C2 : forall c k x, In (c, k, x) wt1 -> c = n) by (intros c k x X; assert (I : In (c, k) (map pos wt1)) by (apply in_map_iff; eexists; split; [|exact X]; reflexivity); rewrite P2 in I; apply in_map_iff in I as (k' & F & _); congruence).
    exists (wl1 ++ wl), (wt1 ++ wt). split; [rewrite !puts_app, E; destruct ns; reflexivity|]. split; [rewrite map_app, P1, R1; reflexivity|]. split; [rewrite map_app, P2, R2; reflexivity|]. split; [|split; [|split]].
    + intros c k x X. apply in_app_or in X as [X|X]; [|exact (S1 c k x X)]. pose proof (C1 _ _ _ X). subst c. exact (Q1 k x X).
    + intros c k x X Nk. apply in_app_or in X as [X|X]; [|exact (S2 c k x X Nk)]. pose proof (C2 _ _ _ X). subst c. exact (Q2 k x X Nk).
    + intros c x X. apply in_app_or in X as [X|X]; [|exact (S3 c x X)]. pose proof (C2 _ _ _ X). subst c. exact (Q3 Nc x X).
    + intros eL' eT' o'. cbn [foldM]. rewrite Q4. cbn [bind]. rewrite S4, !puts_app. destruct ns; reflexivity.
Qed.

(** *** the whole method *)
Lemma lit_cells_in closed (u : mat N) cells (loc : list (vec N)) is : lit_cells closed u cells loc = Ok is -> NoDup is /\ (forall k, In k is <-> is_lit closed u cells loc k) /\ (is <> [] -> last is 0%nat = (after_lit closed u cells loc - 1)%nat).
Proof.
  assert (L : forall a n, n <> 0%nat -> last (seq a n) 0%nat = (a + n - 1)%nat).
  { intros a n. revert a. induction n as [|n IH]; intros a H; [congruence|]. cbn [seq]. destruct n; [cbn; lia|]. change (last (a :: seq (S a) (S n)) 0%nat) with (last (seq (S a) (S n)) 0%nat). rewrite IH by lia. lia. }
  assert (G : forall a b, NoDup (seq a (b - a)) /\ (forall k, In k (seq a (b - a)) <-> (a <= k < b)%nat) /\ (seq a (b - a) <> [] -> last (seq a (b - a)) 0%nat = (b - 1)%nat)).
  { intros a b. split; [apply seq_NoDup|]. split; [intros k; rewrite in_seq; lia|]. intros H. rewrite L; [|intros Z; rewrite Z in H; now apply H]. destruct (b - a)%nat eqn:Z; [exfalso; now apply H|lia]. }
  unfold lit_cells, is_lit, first_lit, after_lit. destruct loc as [|a [|b loc]]; intros H; [|discriminate|].
  - injection H as <-. pose proof (G 0%nat cells) as X. rewrite Nat.sub_0_r in X. exact X.
  - injection H as <-. apply G.
Qed.
Lemma puts_arrays (s s' : core N) wl wt : lit_arrays s -> k_n s' = k_n s -> k_N s' = k_N s -> k_eL s' = puts (k_eL s) wl -> k_eT s' = puts (k_eT s) wt -> lit_arrays s'.
Proof.
  intros (A1 & A2 & A3) En EN EL ET. unfold lit_arrays. rewrite En, EN, EL, ET. split; [now rewrite (proj1 (puts_shape wl (k_eL s) 0))|]. split; [now rewrite (proj1 (puts_shape wt (k_eT s) 0))|].
  intros c Hc. rewrite (proj2 (puts_shape wl (k_eL s) c)), (proj2 (puts_shape wt (k_eT s) c)). auto.
Qed.
Lemma shape_rows (dist : ten N) n nodes c : has_shape dist n nodes = true -> (c < n)%nat -> length (nth c dist []) = nodes.
Proof.
  unfold has_shape. intros H Hc. apply andb_true_iff in H as [H1 H2]. apply Nat.eqb_eq in H1. rewrite forallb_forall in H2. specialize (H2 (nth c dist [])).
  assert (I : In (nth c dist []) dist) by (apply nth_In; lia). apply H2 in I. apply andb_true_iff in I as [I _]. now apply Nat.eqb_eq.
Qed.
Lemma illuminate_spec closed n u du s f dist loc s' : lit_arrays s -> (0 < n <= k_n s)%nat -> length u = S (k_N s) -> length du = k_N s ->
  illuminate LA integ closed n u du s f dist loc = Ok s' ->
  illuminated LA integ closed n u du s f dist loc s' /\ (exists k, is_lit closed u (k_N s) loc k) /\ (forall k, is_lit closed u (k_N s) loc k -> (k < k_N s)%nat).
Proof.
  intros Ar Hn Lu Ld H. unfold illuminate in H. inv_bind H. apply passert_Ok' in Ha. rename Ha into Sh. inv_bind H. rename a0 into is. destruct (lit_cells_in _ _ _ _ _ Ha) as (NDi & Ii & La).
  inv_bind H. apply (f_equal (fun r => match r with Ok a => a | _ => s' end)) in H. subst s'.
  assert (Ne : is <> []).
  { intros ->. destruct n as [|n]; [lia|]. cbn [seq foldM] in Ha0. inv_bind Ha0. unfold light_conductor in Ha1. cbn [foldM bind] in Ha1. inv_bind Ha1. inv_bind Ha1. discriminate Ha1. }
  assert (Nc : ~ In (k_N s) is).
  { intros I. destruct n as [|n]; [lia|]. cbn [seq foldM] in Ha0. inv_bind Ha0. unfold light_conductor in Ha1. inv_bind Ha1.
    destruct (cells_writes _ _ _ _ _ _ _ _ _ _ _ Ha2) as (wl & wt & _ & P1 & _ & Q1 & _). assert (X : In (0%nat, k_N s) (map pos wl)) by (rewrite P1; apply in_map_iff; eauto).
    apply in_map_iff in X as ([[c k] x] & E & X). cbn [pos fst] in E. injection E as -> ->. destruct (Q1 _ _ X) as [L _]. lia. }
  destruct (all_writes _ _ _ _ _ _ _ Ne Nc _ _ _ _ _ Ha0) as (wl & wt & -> & P1 & P2 & Q1 & Q2 & Q3 & Q4). cbn [fst snd].
  assert (ND1 : NoDup (map pos wl)) by (rewrite P1; apply nodup_spots; [apply seq_NoDup|exact NDi]).
  assert (NDi' : NoDup (is ++ [k_N s])) by (apply nodup_app; [exact NDi|constructor; [intros []|constructor]|intros z Ia [E|[]]; subst z; contradiction]).
  assert (ND2 : NoDup (map pos wt)) by (rewrite P2; apply nodup_spots; [apply seq_NoDup|exact NDi']).
  assert (In1 : forall c k, In (c, k) (map pos wl) <-> (c < n)%nat /\ is_lit closed u (k_N s) loc k) by (intros c k; rewrite P1, in_spots, in_seq, Ii; split; intros [X Y]; (split; [lia|exact Y])).
  assert (In2 : forall c k, In (c, k) (map pos wt) <-> (c < n)%nat /\ (is_lit closed u (k_N s) loc k \/ k = k_N s)).
  { intros c k. rewrite P2, in_spots, in_seq, in_app_iff, Ii. cbn [In]. split; intros [X Y]; (split; [lia|]); [destruct Y as [Y|[Y|[]]]|destruct Y as [Y|Y]]; auto. }
  assert (Lt : forall k, is_lit closed u (k_N s) loc k -> (k < k_N s)%nat).
  { intros k Hk. assert (X : In (0%nat, k) (map pos wl)) by (apply In1; split; [lia|exact Hk]). apply in_map_iff in X as ([[c k'] x] & E & X). cbn [pos fst] in E. injection E as -> ->. destruct (Q1 _ _ _ X) as [L _]. lia. }
  split; [|split; [|exact Lt]].
  - destruct Ar as (A1 & A2 & A3). split; [reflexivity|]. split; [apply (puts_arrays s _ wl wt); [unfold lit_arrays; auto|reflexivity..]|].
    assert (Sp : forall k v, vmax (nth k (get_phase_velocities LA s) []) = Ok v -> speed_at LA s k v) by (intros k v X; exact X).
    assert (Lv : length (get_phase_velocities LA s) = k_N s) by (unfold get_phase_velocities; apply length_mk).
    unfold eLong, eTran. cbn [set_fields k_eL k_eT k_N k_n]. split; [|split; [|split; [|split]]].
    + intros c k Hk. apply puts_other. intros X. apply In1 in X. destruct Hk as [Hk|Hk]; [lia|tauto].
    + intros c k Hc Hk. assert (X : In (c, k) (map pos wl)) by (apply In1; auto). apply in_map_iff in X as ([[c' k'] x] & E & X). cbn [pos fst] in E. injection E as -> ->.
      destruct (Q1 _ _ _ X) as (_ & v & Hv & Ex). exists v. split; [exact Hv|]. intros t. rewrite (puts_hit wl (k_eL s) c k x); [apply Ex|exact ND1|exact X|lia|]. rewrite (proj1 (A3 c ltac:(lia))). auto.
    + intros c k Hk. apply puts_other. intros X. apply In2 in X. destruct Hk as [Hk|Hk]; [lia|tauto].
    + intros c k Hc Hk Nk. assert (X : In (c, k) (map pos wt)) by (apply In2; auto). apply in_map_iff in X as ([[c' k'] x] & E & X). cbn [pos fst] in E. injection E as -> ->.
      destruct (Q2 _ _ _ X Nk) as (v & Hv & Ex). exists v. split; [exact Hv|]. intros t. rewrite (puts_hit wt (k_eT s) c k x); [apply Ex|exact ND2|exact X|lia|]. rewrite (proj2 (A3 c ltac:(lia))). specialize (Lt k Hk). lia.
    + intros c Hc. assert (X : In (c, k_N s) (map pos wt)) by (apply In2; auto). apply in_map_iff in X as ([[c' k'] x] & E & X). cbn [pos fst] in E. injection E as -> ->.
      destruct (Q3 _ _ X) as (v & Hv & Ex). exists v. rewrite Lv in Hv. split; [exact Hv|]. intros t. rewrite (puts_hit wt (k_eT s) c (k_N s) x); [|exact ND2|exact X|lia|rewrite (proj2 (A3 c ltac:(lia))); lia].
      rewrite Ex, (La Ne), (shape_rows _ _ _ _ Sh Hc), Lu. cbn [Nat.sub]. now rewrite Nat.sub_0_r.
  - destruct is as [|k is]; [congruence|]. exists k. apply Ii. now left.
Qed.
(** what an illumination returns does not depend on what was illuminated before *)
Lemma illuminate_again closed n u du s f1 d1 loc1 s1 f2 d2 loc2 s2 : lit_arrays s -> (0 < n <= k_n s)%nat -> length u = S (k_N s) -> length du = k_N s ->
  (forall k, is_lit closed u (k_N s) loc1 k -> is_lit closed u (k_N s) loc2 k) ->
  illuminate LA integ closed n u du s f1 d1 loc1 = Ok s1 -> illuminate LA integ closed n u du s1 f2 d2 loc2 = Ok s2 -> illuminate LA integ closed n u du s f2 d2 loc2 = Ok s2.
Proof.
  intros Ar Hn Lu Ld Sub H1 H2. destruct (illuminate_spec _ _ _ _ _ _ _ _ _ Ar Hn Lu Ld H1) as ((Es & Ar1 & F1 & _ & F2 & _ & _) & _ & _).
  assert (En : k_n s1 = k_n s) by (rewrite Es; reflexivity). assert (EN : k_N s1 = k_N s) by (rewrite Es; reflexivity).
  assert (Ev : get_phase_velocities LA s1 = get_phase_velocities LA s) by (rewrite Es; reflexivity).
  destruct (illuminate_spec closed n u du s1 f2 d2 loc2 s2 Ar1) as (_ & [k0 Hk0] & Lt2); [now rewrite En|now rewrite EN|now rewrite EN|exact H2|].
  unfold illuminate in H2 |- *. inv_bind H2. apply passert_Ok' in Ha. rewrite Ha. cbn [passert bind]. inv_bind H2. rewrite EN in *. rewrite Ha0. cbn [bind]. rename a0 into is.
  destruct (lit_cells_in _ _ _ _ _ Ha0) as (NDi & Ii & La). assert (Ne : is <> []) by (intros ->; now apply Ii in Hk0). assert (Nc : ~ In (k_N s) is) by (intros X; apply Ii in X; apply Lt2 in X; lia).
  inv_bind H2. apply (f_equal (fun r => match r with Ok a => a | _ => s2 end)) in H2. subst s2. rewrite Ev in Ha1.
  destruct (all_writes _ _ _ _ _ _ _ Ne Nc _ _ _ _ _ Ha1) as (wl & wt & -> & P1 & P2 & _ & _ & _ & Q4). rewrite Q4. cbn [bind fst snd].
  assert (X1 : puts (k_eL s1) wl = puts (k_eL s) wl).
  { apply (puts_last wl _ _ zf).
    - intros c. destruct Ar as (A1 & A2 & A3), Ar1 as (B1 & B2 & B3). split; [congruence|]. destruct (Nat.lt_ge_cases c (k_n s)) as [L|L].
      + rewrite (proj1 (A3 c L)), (proj1 (B3 c ltac:(congruence))). exact EN.
      + rewrite !nth_overflow by lia. reflexivity.
    - intros c k X. rewrite P1, in_spots, in_seq, Ii in X. apply F1. destruct (Nat.lt_ge_cases c n) as [L|L]; [right|left; exact L]. intros Y. apply X. split; [lia|auto]. }
  assert (X2 : puts (k_eT s1) wt = puts (k_eT s) wt).
  { apply (puts_last wt _ _ zf).
    - intros c. destruct Ar as (A1 & A2 & A3), Ar1 as (B1 & B2 & B3). split; [congruence|]. destruct (Nat.lt_ge_cases c (k_n s)) as [L|L].
      + rewrite (proj2 (A3 c L)), (proj2 (B3 c ltac:(congruence))). now rewrite EN.
      + rewrite !nth_overflow by lia. reflexivity.
    - intros c k X. rewrite P2, in_spots, in_seq, in_app_iff, Ii in X. apply F2. destruct (Nat.lt_ge_cases c n) as [L|L]; [right|left; exact L]. split; [intros Y; apply X; split; [lia|auto]|].
      intros ->. apply X. split; [lia|]. right. now left. }
  rewrite X1, X2. f_equal. rewrite Es. reflexivity.
Qed.
(** failures *)
Lemma illuminate_empty closed n (u du : mat N) (s : core N) f (dist : ten N) loc : (0 < n)%nat -> (0 < length u)%nat -> has_shape dist n (length u) = true -> length loc <> 1%nat -> (forall k, ~ is_lit closed u (k_N s) loc k) ->
  illuminate LA integ closed n u du s f dist loc = Err NameError.
Proof.
  intros Hn Lu Sh Ll Hk. unfold illuminate. rewrite Sh. cbn [passert bind].
  assert (E : exists is, lit_cells closed u (k_N s) loc = Ok is) by (unfold lit_cells; destruct loc as [|a [|b loc]]; [eauto|cbn in Ll; lia|eauto]). destruct E as [is E]. rewrite E. cbn [bind].
  destruct (lit_cells_in _ _ _ _ _ E) as (_ & Ii & _). destruct is as [|k is]; [|exfalso; apply (Hk k), Ii; now left]. destruct n as [|n]; [lia|]. cbn [seq foldM]. unfold light_conductor at 1. cbn [foldM bind].
  pose proof (shape_rows _ _ _ 0%nat Sh ltac:(lia)) as L0. assert (Ld : (0 < length dist)%nat) by (unfold has_shape in Sh; apply andb_true_iff in Sh as [X _]; apply Nat.eqb_eq in X; lia).
  unfold py_get at 1. rewrite (nth_error_nth' dist [] Ld). cbn [of_option bind]. unfold py_get at 1. rewrite (nth_error_nth' (nth 0 dist []) []) by lia. reflexivity.
Qed.
End FieldsFacts.
