(** Mirror symmetry, uncoupled conductors, relabelling. *)
From Coq Require Import String List Arith ZArith Bool Lia Reals Lra.
From Verif Require Import Num Py Arr ArrFacts NumR RFacts LinAlg LapackR Probes Dispersive Line LineFacts SpecLine SpecR HistoryFacts LineEqFacts
  PlainFacts TotalFacts NewTotal GeometryFacts TermFacts RunEqFacts EnergyFacts SpecSym SymFacts ExampleLine.
Import ListNotations.
Local Open Scope R_scope.

Lemma mulv_ext3 n (A B : nat -> nat -> R) x y c : (forall j, (j < n)%nat -> A c j = B c j) -> (forall j, (j < n)%nat -> x j = y j) -> mulv n A x c = mulv n B y c.
Proof. intros H1 H2. apply sumR_ext. intros j Hj. now rewrite H1, H2. Qed.
Lemma mulv_neg n A x c : mulv n A (fun p => - x p) c = - mulv n A x c.
Proof. rewrite (mulv_ext n A _ (fun p => -1 * x p)) by (intros; rring). rewrite mulv_scal. rring. Qed.

Section Props.
Variable LA : lapack NumR.
Hypothesis LAok : lapack_ok LA.

(** ** mirror *)
Lemma mirror_width (m0 m m0' m' : mtl NumR) k : mirrored m0 m m0' m' -> (0 < k < cells m)%nat -> width m' k = width m (cells m - k).
Proof.
  intros M Hk. unfold width. rewrite (mi_N _ _ _ _ M).
  rewrite (proj2 (Nat.eqb_neq k 0)), (proj2 (Nat.eqb_neq k (cells m))), (proj2 (Nat.eqb_neq (cells m - k) 0)), (proj2 (Nat.eqb_neq (cells m - k) (cells m))) by lia.
  rewrite !(mi_len _ _ _ _ M) by lia.
  replace (cells m - 1 - (k - 1))%nat with (cells m - k)%nat by lia. replace (cells m - 1 - k)%nat with (cells m - k - 1)%nat by lia. lra.
Qed.

Lemma follows_mirror (m0 m m0' m' : mtl NumR) t v i v' i' : (1 <= cells m)%nat -> mirrored m0 m m0' m' -> follows m0 m t v i v' i' ->
  follows m0' m' t (fun c k => v c (cells m - k)%nat) (fun c k => - i c (cells m - 1 - k)%nat)
    (fun c k => v' c (cells m - k)%nat) (fun c k => - i' c (cells m - 1 - k)%nat).
Proof.
  intros N1 M (A1 & A2 & A3 & A4). unfold follows. rewrite (mi_n _ _ _ _ M), (mi_N _ _ _ _ M).
  set (n := conductors m) in *. set (N := cells m) in *. split; [|split; [|split]].
  - intros c j Hc Hj. specialize (A1 c (N - j)%nat Hc ltac:(lia)). unfold node_ok in *. cbv zeta in *.
    rewrite (mi_n _ _ _ _ M), (mi_dt _ _ _ _ M), (mirror_width _ _ _ _ _ M) by (fold n N; lia). fold n N in A1 |- *.
    rewrite (mulv_ext3 n (C_ m' j) (C_ m (N - j)) _ (fun p => v' p (N - j)%nat - v p (N - j)%nat + (eTran m p (N - j) t - eTran m p (N - j) (t - step_dt m)))).
    2:{ intros; apply (mi_C _ _ _ _ M); fold n N; lia. } 2:{ intros; rewrite !(mi_eT _ _ _ _ M) by (fold n N; lia); reflexivity. }
    rewrite (mulv_ext3 n (G_ m' j) (G_ m (N - j)) _ (fun p => v' p (N - j)%nat + v p (N - j)%nat + (eTran m p (N - j) t - eTran m p (N - j) (t - step_dt m)))).
    2:{ intros; apply (mi_G _ _ _ _ M); fold n N; lia. } 2:{ intros; rewrite !(mi_eT _ _ _ _ M) by (fold n N; lia); reflexivity. }
    replace (N - 1 - j)%nat with (N - j - 1)%nat by lia. replace (N - 1 - (j - 1))%nat with (N - j)%nat by lia. rewrite <- A1. rring.
  - intros c j Hc Hj. specialize (A2 c (N - 1 - j)%nat Hc ltac:(lia)). unfold cell_ok in *. cbv zeta in *.
    rewrite (mi_n _ _ _ _ M), (mi_dt _ _ _ _ M), (mi_len _ _ _ _ M), !(mi_eL _ _ _ _ M), !(mi_eT _ _ _ _ M) by (fold n N; lia). fold n N in A2 |- *.
    rewrite (mulv_ext3 n (L_ m' j) (L_ m (N - 1 - j)) _ (fun p => - (i' p (N - 1 - j)%nat - i p (N - 1 - j)%nat))).
    2:{ intros; apply (mi_L _ _ _ _ M); fold n N; lia. } 2:{ intros; rring. }
    rewrite (mulv_ext3 n (R_ m' j) (R_ m (N - 1 - j)) _ (fun p => - (i' p (N - 1 - j)%nat + i p (N - 1 - j)%nat))).
    2:{ intros; apply (mi_R _ _ _ _ M); fold n N; lia. } 2:{ intros; rring. }
    rewrite !mulv_neg. replace (S (N - 1 - j))%nat with (N - j)%nat in A2 by lia. replace (N - S j)%nat with (N - 1 - j)%nat by lia.
    unfold Rdiv in *. rsimpl. lra.
  - intros c Hc. specialize (A4 c Hc). unfold end_ok in *. cbv zeta in *.
    rewrite (mi_n _ _ _ _ M), (mi_dt _ _ _ _ M), (mi_dt0 _ _ _ _ M), (mi_len _ _ _ _ M) by (fold n N; lia). fold n N in A4 |- *.
    rewrite !(proj1 (mi_src _ _ _ _ M c _ Hc)). fold N. rewrite !Nat.sub_0_r.
    rewrite (mulv_ext3 n (Zs_ m') (Zl_ m) (mulv n (C_ m' 0) (fun p => v' p N - v p N)) (mulv n (C_ m N) (fun p => v' p N - v p N))).
    2:{ intros; now apply (mi_Z _ _ _ _ M). } 2:{ intros; apply mulv_ext3; intros; [rewrite (mi_C _ _ _ _ M) by (fold n; lia); fold N; now rewrite Nat.sub_0_r|reflexivity]. }
    rewrite (mulv_ext3 n (Zs_ m') (Zl_ m) (mulv n (G_ m0' 0) (fun p => v' p N + v p N)) (mulv n (G_ m0 N) (fun p => v' p N + v p N))).
    2:{ intros; now apply (mi_Z _ _ _ _ M). } 2:{ intros; apply mulv_ext3; intros; [now apply (mi_G0 _ _ _ _ M)|reflexivity]. }
    rewrite (mulv_ext3 n (Zs_ m') (Zl_ m) (fun p => - i p (N - 1)%nat) (fun p => - i p (N - 1)%nat)).
    2:{ intros; now apply (mi_Z _ _ _ _ M). } 2:{ reflexivity. }
    rewrite (mulv_ext3 n (Zs_ m') (Zl_ m) (mulv n (C_ m' 0) (fun p => eTran m' p 0 t - eTran m' p 0 (t - step_dt m))) (mulv n (C_ m N) (fun p => eTran m p N t - eTran m p N (t - step_dt m)))).
    2:{ intros; now apply (mi_Z _ _ _ _ M). } 2:{ intros; apply mulv_ext3; intros; [rewrite (mi_C _ _ _ _ M) by (fold n; lia)|rewrite !(mi_eT _ _ _ _ M) by (fold n; lia)]; fold N; now rewrite Nat.sub_0_r. }
    rewrite mulv_neg. rewrite <- (Rmult_assoc (-1)) in A4. rsimpl. lra.
  - intros c Hc. specialize (A3 c Hc). unfold end_ok in *. cbv zeta in *.
    rewrite (mi_n _ _ _ _ M), (mi_dt _ _ _ _ M), (mi_dt0 _ _ _ _ M), (mi_len _ _ _ _ M) by (fold n N; lia). fold n N in A3 |- *.
    rewrite !(proj2 (mi_src _ _ _ _ M c _ Hc)). replace (N - 1 - (N - 1))%nat with 0%nat by lia. rewrite !Nat.sub_diag.
    rewrite (mulv_ext3 n (Zl_ m') (Zs_ m) (mulv n (C_ m' N) (fun p => v' p 0%nat - v p 0%nat)) (mulv n (C_ m 0) (fun p => v' p 0%nat - v p 0%nat))).
    2:{ intros; now apply (mi_Z _ _ _ _ M). } 2:{ intros; apply mulv_ext3; intros; [rewrite (mi_C _ _ _ _ M) by (fold n; lia); fold N; now rewrite Nat.sub_diag|reflexivity]. }
    rewrite (mulv_ext3 n (Zl_ m') (Zs_ m) (mulv n (G_ m0' N) (fun p => v' p 0%nat + v p 0%nat)) (mulv n (G_ m0 0) (fun p => v' p 0%nat + v p 0%nat))).
    2:{ intros; now apply (mi_Z _ _ _ _ M). } 2:{ intros; apply mulv_ext3; intros; [now apply (mi_G0 _ _ _ _ M)|reflexivity]. }
    rewrite (mulv_ext3 n (Zl_ m') (Zs_ m) (fun p => - i p 0%nat) (fun p => - i p 0%nat)); auto.
    2:{ intros; now apply (mi_Z _ _ _ _ M). }
    rewrite (mulv_ext3 n (Zl_ m') (Zs_ m) (mulv n (C_ m' N) (fun p => eTran m' p N t - eTran m' p N (t - step_dt m))) (mulv n (C_ m 0) (fun p => eTran m p 0 t - eTran m p 0 (t - step_dt m)))).
    2:{ intros; now apply (mi_Z _ _ _ _ M). } 2:{ intros; apply mulv_ext3; intros; [rewrite (mi_C _ _ _ _ M) by (fold n; lia)|rewrite !(mi_eT _ _ _ _ M) by (fold n; lia)]; fold N; now rewrite Nat.sub_diag. }
    rewrite mulv_neg. rewrite Rmult_1_l in A3. rsimpl. lra.
Qed.

Theorem mirror_runs (m0 m m0' m' : mtl NumR) T T' : history LA m0 m -> undispersed m -> history LA m0' m' -> undispersed m' -> mirrored m0 m m0' m' ->
  (forall c k, (c < conductors m)%nat -> (k <= cells m)%nat -> volt m' c k = volt m c (cells m - k)) ->
  (forall c k, (c < conductors m)%nat -> (k < cells m)%nat -> curr m' c k = - curr m c (cells m - 1 - k)) ->
  forall n a a', run_state LA m T n a -> run_state LA m' T' n a' ->
  (forall c k, (c < conductors m)%nat -> (k <= cells m)%nat -> volt a' c k = volt a c (cells m - k)) /\
  (forall c k, (c < conductors m)%nat -> (k < cells m)%nat -> curr a' c k = - curr a c (cells m - 1 - k)).
Proof.
  intros HH U HH' U' M V0 I0 n a a' Ha Ha'.
  assert (N1 : (1 <= cells m)%nat) by (apply (sh_N _ (proj1 (history_shape LA _ _ HH)))).
  pose proof (related_runs LA LAok m0 m m0' m' T T' (fun v c k => v c (cells m - k)%nat) (fun i c k => - i c (cells m - 1 - k)%nat) HH U HH' U'
    (mi_dt _ _ _ _ M) (mi_time _ _ _ _ M)) as P. rewrite (mi_n _ _ _ _ M), (mi_N _ _ _ _ M) in P.
  apply (P (fun t v i v' i' => follows_mirror m0 m m0' m' t v i v' i' N1 M)) with (n := n); auto.
  intros v w E c k. now rewrite E.
Qed.

(** ** conductors *)
Lemma mulv_diag n A x c : (c < n)%nat -> diagonal n A -> mulv n A x c = A c c * x c.
Proof. intros Hc D. unfold mulv. apply (sumR_single n (fun j => A c j * x j) c Hc). intros j Hj Hne. rewrite D by auto. rring. Qed.
Lemma mulv_one A x : mulv 1 A x 0 = A 0%nat 0%nat * x 0%nat.
Proof. unfold mulv. rewrite sumR_S, sumR_0. rring. Qed.

Lemma follows_conductor c (m0 m m0' m' : mtl NumR) t v i v' i' : (1 <= cells m)%nat -> (c < conductors m)%nat ->
  uncoupled m0 m -> is_conductor c m0 m m0' m' -> follows m0 m t v i v' i' ->
  follows m0' m' t (fun _ => v c) (fun _ => i c) (fun _ => v' c) (fun _ => i' c).
Proof.
  intros N1 Hc D M (A1 & A2 & A3 & A4). unfold follows. rewrite (ic_n _ _ _ _ _ M), (ic_N _ _ _ _ _ M).
  set (n := conductors m) in *. set (N := cells m) in *. split; [|split; [|split]].
  - intros d j Hd Hj. assert (d = 0)%nat as -> by lia. specialize (A1 c j Hc Hj). unfold node_ok in *. cbv zeta in *.
    assert (Ew : width m' j = width m j).
    { unfold width. rewrite (ic_N _ _ _ _ _ M). fold N. rewrite !(ic_len _ _ _ _ _ M) by (fold N; lia). reflexivity. }
    rewrite (ic_n _ _ _ _ _ M), (ic_dt _ _ _ _ _ M), Ew. fold n in A1. rewrite !mulv_one. rewrite !(mulv_diag n) in A1 by (auto; apply D; fold N; lia).
    rewrite (ic_C _ _ _ _ _ M), (ic_G _ _ _ _ _ M), !(ic_eT _ _ _ _ _ M) by (fold N; lia). exact A1.
  - intros d j Hd Hj. assert (d = 0)%nat as -> by lia. specialize (A2 c j Hc Hj). unfold cell_ok in *. cbv zeta in *.
    rewrite (ic_n _ _ _ _ _ M), (ic_dt _ _ _ _ _ M), (ic_len _ _ _ _ _ M) by (fold N; lia). fold n in A2. rewrite !mulv_one. rewrite !(mulv_diag n) in A2 by (auto; apply D; fold N; lia).
    rewrite (ic_L _ _ _ _ _ M), (ic_R _ _ _ _ _ M), !(ic_eT _ _ _ _ _ M), !(ic_eL _ _ _ _ _ M) by (fold N; lia). exact A2.
  - intros d Hd. assert (d = 0)%nat as -> by lia. specialize (A3 c Hc). unfold end_ok in *. cbv zeta in *.
    rewrite (ic_n _ _ _ _ _ M), (ic_dt _ _ _ _ _ M), (ic_dt0 _ _ _ _ _ M), (ic_len _ _ _ _ _ M) by (fold N; lia). fold n in A3. rewrite !mulv_one.
    rewrite !(mulv_diag n) in A3 by (auto; apply D; fold N; lia).
    destruct (ic_Z _ _ _ _ _ M) as [-> _]. destruct (ic_G0 _ _ _ _ _ M) as [-> _]. rewrite !(proj1 (ic_src _ _ _ _ _ M _)).
    rewrite (ic_C _ _ _ _ _ M), !(ic_eT _ _ _ _ _ M) by (fold N; lia). exact A3.
  - intros d Hd. assert (d = 0)%nat as -> by lia. specialize (A4 c Hc). unfold end_ok in *. cbv zeta in *.
    rewrite (ic_n _ _ _ _ _ M), (ic_dt _ _ _ _ _ M), (ic_dt0 _ _ _ _ _ M), (ic_len _ _ _ _ _ M) by (fold N; lia). fold n in A4. rewrite !mulv_one.
    rewrite !(mulv_diag n) in A4 by (auto; apply D; fold N; lia).
    destruct (ic_Z _ _ _ _ _ M) as [_ ->]. pose proof (proj2 (ic_G0 _ _ _ _ _ M)) as EG; fold N in EG; rewrite EG. assert (ES : forall t, source m' 0 N t = source m c N t) by (intros; apply (ic_src _ _ _ _ _ M)); rewrite !ES.
    rewrite (ic_C _ _ _ _ _ M), !(ic_eT _ _ _ _ _ M) by (fold N; lia). exact A4.
Qed.

Theorem conductor_runs c (m0 m m0' m' : mtl NumR) T T' : history LA m0 m -> undispersed m -> history LA m0' m' -> undispersed m' ->
  (c < conductors m)%nat -> uncoupled m0 m -> is_conductor c m0 m m0' m' ->
  (forall k, (k <= cells m)%nat -> volt m' 0 k = volt m c k) -> (forall k, (k < cells m)%nat -> curr m' 0 k = curr m c k) ->
  forall n a a', run_state LA m T n a -> run_state LA m' T' n a' ->
  (forall k, (k <= cells m)%nat -> volt a' 0 k = volt a c k) /\ (forall k, (k < cells m)%nat -> curr a' 0 k = curr a c k).
Proof.
  intros HH U HH' U' Hc D M V0 I0 n a a' Ha Ha'.
  assert (N1 : (1 <= cells m)%nat) by (apply (sh_N _ (proj1 (history_shape LA _ _ HH)))).
  pose proof (related_runs LA LAok m0 m m0' m' T T' (fun v _ k => v c k) (fun i _ k => i c k) HH U HH' U'
    (ic_dt _ _ _ _ _ M) (ic_time _ _ _ _ _ M)) as P. rewrite (ic_n _ _ _ _ _ M), (ic_N _ _ _ _ _ M) in P.
  destruct (P (fun t v i v' i' => follows_conductor c m0 m m0' m' t v i v' i' N1 Hc D M)) with (n := n) (a := a) (a' := a') as [V I]; auto.
  - intros d k Hd Hk. assert (d = 0)%nat as -> by lia. auto.
  - intros d k Hd Hk. assert (d = 0)%nat as -> by lia. auto.
Qed.

(** ** permutations *)
Lemma permutes_onto n s : permutes n s -> forall j, (j < n)%nat -> exists i, (i < n)%nat /\ s i = j.
Proof.
  intros [H1 H2] j Hj.
  assert (ND : NoDup (map s (seq 0 n))).
  { apply (NoDup_nth _ (s 0%nat)). intros a b Ha Hb E. rewrite map_length, seq_length in Ha, Hb.
    rewrite !(map_nth s) , !seq_nth in E by auto. apply H2 in E; auto. }
  assert (I : incl (seq 0 n) (map s (seq 0 n))).
  { apply NoDup_length_incl; auto.
    - rewrite map_length. auto.
    - intros x Hx. apply in_map_iff in Hx as (i & <- & Hi). apply in_seq in Hi. apply in_seq. specialize (H1 i ltac:(lia)). lia. }
  assert (Hin : In j (map s (seq 0 n))) by (apply I, in_seq; lia).
  apply in_map_iff in Hin as (i & E & Hi). apply in_seq in Hi. exists i. split; auto; lia.
Qed.
Lemma sumR_perm n s f : permutes n s -> sumR n (fun i => f (s i)) = sumR n f.
Proof.
  intros P. destruct P as [P1 P2]. pose proof (permutes_onto n s (conj P1 P2)) as On.
  transitivity (sumR n (fun i => sumR n (fun j => (if (s i =? j)%nat then f j else 0)))).
  - apply sumR_ext. intros i Hi. symmetry. etransitivity; [apply (sumR_single n (fun j => if (s i =? j)%nat then f j else 0) (s i) (P1 i Hi))|].
    2:{ cbv beta. now rewrite Nat.eqb_refl. }
    + intros j Hj Hne. rewrite (proj2 (Nat.eqb_neq (s i) j)) by auto. reflexivity.
  - rewrite sumR_swap. apply sumR_ext. intros j Hj. destruct (On j Hj) as (i & Hi & E).
    etransitivity; [apply (sumR_single n (fun i => if (s i =? j)%nat then f j else 0) i Hi)|].
    2:{ cbv beta. now rewrite E, Nat.eqb_refl. }
    + intros q Hq Hne. destruct (Nat.eqb_spec (s q) j) as [E2|]; auto. exfalso. apply Hne. apply P2; auto; congruence.
Qed.
Lemma mulv_perm n s (A B : nat -> nat -> R) x y c : permutes n s -> (c < n)%nat ->
  (forall i j, (i < n)%nat -> (j < n)%nat -> B i j = A (s i) (s j)) -> (forall i, (i < n)%nat -> y i = x (s i)) ->
  mulv n B y c = mulv n A x (s c).
Proof.
  intros P Hc HB Hy. unfold mulv. rewrite <- (sumR_perm n s (fun j => A (s c) j * x j) P). apply sumR_ext. intros j Hj. now rewrite HB, Hy.
Qed.

Lemma follows_relabel s (m0 m m0' m' : mtl NumR) t v i v' i' : (1 <= cells m)%nat -> permutes (conductors m) s ->
  relabelled s m0 m m0' m' -> follows m0 m t v i v' i' ->
  follows m0' m' t (fun c => v (s c)) (fun c => i (s c)) (fun c => v' (s c)) (fun c => i' (s c)).
Proof.
  intros N1 P M (A1 & A2 & A3 & A4). unfold follows. rewrite (re_n _ _ _ _ _ M), (re_N _ _ _ _ _ M).
  set (n := conductors m) in *. set (N := cells m) in *. split; [|split; [|split]].
  - intros c j Hc Hj. assert (Hs : (s c < n)%nat) by (apply P; auto). specialize (A1 (s c) j Hs Hj). unfold node_ok in *. cbv zeta in *.
    assert (Ew : width m' j = width m j).
    { unfold width. rewrite (re_N _ _ _ _ _ M). fold N. rewrite !(re_len _ _ _ _ _ M) by (fold N; lia). reflexivity. }
    rewrite (re_n _ _ _ _ _ M), (re_dt _ _ _ _ _ M), Ew. fold n in A1 |- *.
    rewrite (mulv_perm n s (C_ m j) (C_ m' j) (fun p => v' p j - v p j + (eTran m p j t - eTran m p j (t - step_dt m))) _ c P Hc).
    2:{ intros; apply (re_C _ _ _ _ _ M); fold n N; lia. } 2:{ intros; rewrite !(re_eT _ _ _ _ _ M) by (fold n N; lia); reflexivity. }
    rewrite (mulv_perm n s (G_ m j) (G_ m' j) (fun p => v' p j + v p j + (eTran m p j t - eTran m p j (t - step_dt m))) _ c P Hc).
    2:{ intros; apply (re_G _ _ _ _ _ M); fold n N; lia. } 2:{ intros; rewrite !(re_eT _ _ _ _ _ M) by (fold n N; lia); reflexivity. }
    exact A1.
  - intros c j Hc Hj. assert (Hs : (s c < n)%nat) by (apply P; auto). specialize (A2 (s c) j Hs Hj). unfold cell_ok in *. cbv zeta in *.
    rewrite (re_n _ _ _ _ _ M), (re_dt _ _ _ _ _ M), (re_len _ _ _ _ _ M) by (fold N; lia). fold n in A2 |- *.
    rewrite (mulv_perm n s (L_ m j) (L_ m' j) (fun p => i' p j - i p j) _ c P Hc); [|intros; apply (re_L _ _ _ _ _ M); fold n N; lia|reflexivity].
    rewrite (mulv_perm n s (R_ m j) (R_ m' j) (fun p => i' p j + i p j) _ c P Hc); [|intros; apply (re_R _ _ _ _ _ M); fold n N; lia|reflexivity].
    rewrite !(re_eT _ _ _ _ _ M), !(re_eL _ _ _ _ _ M) by (fold n N; lia). exact A2.
  - intros c Hc. assert (Hs : (s c < n)%nat) by (apply P; auto). specialize (A3 (s c) Hs). unfold end_ok in *. cbv zeta in *.
    rewrite (re_n _ _ _ _ _ M), (re_dt _ _ _ _ _ M), (re_dt0 _ _ _ _ _ M), (re_len _ _ _ _ _ M) by (fold N; lia). fold n in A3 |- *.
    assert (EZ : forall i j, (i < n)%nat -> (j < n)%nat -> Zs_ m' i j = Zs_ m (s i) (s j)) by (intros; now apply (re_Z _ _ _ _ _ M)).
    rewrite (mulv_perm n s (Zs_ m) (Zs_ m') (mulv n (C_ m 0) (fun p => v' p 0%nat - v p 0%nat)) _ c P Hc EZ).
    2:{ intros; apply (mulv_perm n s (C_ m 0)); auto. intros; apply (re_C _ _ _ _ _ M); fold n N; lia. }
    rewrite (mulv_perm n s (Zs_ m) (Zs_ m') (mulv n (G_ m0 0) (fun p => v' p 0%nat + v p 0%nat)) _ c P Hc EZ).
    2:{ intros; apply (mulv_perm n s (G_ m0 0)); auto. intros; now apply (re_G0 _ _ _ _ _ M). }
    rewrite (mulv_perm n s (Zs_ m) (Zs_ m') (fun p => i p 0%nat) _ c P Hc EZ) by reflexivity.
    rewrite (mulv_perm n s (Zs_ m) (Zs_ m') (mulv n (C_ m 0) (fun p => eTran m p 0 t - eTran m p 0 (t - step_dt m))) _ c P Hc EZ).
    2:{ intros; apply (mulv_perm n s (C_ m 0)); auto. intros; apply (re_C _ _ _ _ _ M); fold n N; lia. intros; rewrite !(re_eT _ _ _ _ _ M) by (fold n N; lia); reflexivity. }
    rewrite !(proj1 (re_src _ _ _ _ _ M c _ Hc)). exact A3.
  - intros c Hc. assert (Hs : (s c < n)%nat) by (apply P; auto). specialize (A4 (s c) Hs). unfold end_ok in *. cbv zeta in *.
    rewrite (re_n _ _ _ _ _ M), (re_dt _ _ _ _ _ M), (re_dt0 _ _ _ _ _ M), (re_len _ _ _ _ _ M) by (fold N; lia). fold n in A4 |- *.
    assert (EZ : forall i j, (i < n)%nat -> (j < n)%nat -> Zl_ m' i j = Zl_ m (s i) (s j)) by (intros; now apply (re_Z _ _ _ _ _ M)).
    rewrite (mulv_perm n s (Zl_ m) (Zl_ m') (mulv n (C_ m N) (fun p => v' p N - v p N)) _ c P Hc EZ).
    2:{ intros; apply (mulv_perm n s (C_ m N)); auto. intros; apply (re_C _ _ _ _ _ M); fold n N; lia. }
    rewrite (mulv_perm n s (Zl_ m) (Zl_ m') (mulv n (G_ m0 N) (fun p => v' p N + v p N)) _ c P Hc EZ).
    2:{ intros; apply (mulv_perm n s (G_ m0 N)); auto. intros; now apply (re_G0 _ _ _ _ _ M). }
    rewrite (mulv_perm n s (Zl_ m) (Zl_ m') (fun p => i p (N - 1)%nat) _ c P Hc EZ) by reflexivity.
    rewrite (mulv_perm n s (Zl_ m) (Zl_ m') (mulv n (C_ m N) (fun p => eTran m p N t - eTran m p N (t - step_dt m))) _ c P Hc EZ).
    2:{ intros; apply (mulv_perm n s (C_ m N)); auto. intros; apply (re_C _ _ _ _ _ M); fold n N; lia. intros; rewrite !(re_eT _ _ _ _ _ M) by (fold n N; lia); reflexivity. }
    assert (ES : forall t, source m' c N t = source m (s c) N t) by (intros; now apply (re_src _ _ _ _ _ M)); rewrite !ES. exact A4.
Qed.

Theorem relabel_runs s (m0 m m0' m' : mtl NumR) T T' : history LA m0 m -> undispersed m -> history LA m0' m' -> undispersed m' ->
  permutes (conductors m) s -> relabelled s m0 m m0' m' ->
  (forall c k, (c < conductors m)%nat -> (k <= cells m)%nat -> volt m' c k = volt m (s c) k) ->
  (forall c k, (c < conductors m)%nat -> (k < cells m)%nat -> curr m' c k = curr m (s c) k) ->
  forall n a a', run_state LA m T n a -> run_state LA m' T' n a' ->
  (forall c k, (c < conductors m)%nat -> (k <= cells m)%nat -> volt a' c k = volt a (s c) k) /\
  (forall c k, (c < conductors m)%nat -> (k < cells m)%nat -> curr a' c k = curr a (s c) k).
Proof.
  intros HH U HH' U' P M V0 I0 n a a' Ha Ha'.
  assert (N1 : (1 <= cells m)%nat) by (apply (sh_N _ (proj1 (history_shape LA _ _ HH)))).
  pose proof (related_runs LA LAok m0 m m0' m' T T' (fun v c k => v (s c) k) (fun i c k => i (s c) k) HH U HH' U'
    (re_dt _ _ _ _ _ M) (re_time _ _ _ _ _ M)) as Q. rewrite (re_n _ _ _ _ _ M), (re_N _ _ _ _ _ M) in Q.
  apply (Q (fun t v i v' i' => follows_relabel s m0 m m0' m' t v i v' i' N1 P M)) with (n := n); auto.
Qed.
End Props.
