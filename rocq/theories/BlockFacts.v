(** Entries of the block-diagonal matrices of a bundle (any [num]). *)
From Coq Require Import String List Arith ZArith Bool Lia.
From Verif Require Import Num Py Arr ArrFacts Probes Dispersive Line LineFacts Bundle Networks Mtln
  SpecLine SpecBundle HistoryFacts StepTotal DispFacts BundleFacts.
Import ListNotations.

Section Block.
Context {N : num}.
Local Open Scope num_scope.
Implicit Types (ls : list (mtl N)).

Definition off ls (q : nat) : nat := count_conductors (firstn q ls).
Lemma count_one (m : mtl N) : count_conductors [m] = conductors m.
Proof. unfold count_conductors. cbn. reflexivity. Qed.
Lemma off_le ls q : (off ls q <= count_conductors ls)%nat.
Proof. unfold off. rewrite <- (firstn_skipn q ls) at 2. rewrite count_app. lia. Qed.
Lemma off_S ls q d : (q < length ls)%nat -> off ls (S q) = (off ls q + conductors (nth q ls d))%nat.
Proof.
  intros H. unfold off. assert (E : firstn (S q) ls = firstn q ls ++ [nth q ls d]).
  { revert q H. induction ls as [|x ls IH]; intros q H; [cbn in H; lia|]. destruct q; [reflexivity|].
    cbn [firstn nth app]. f_equal. apply IH. cbn in H. lia. }
  rewrite E, count_app, count_one. reflexivity.
Qed.
Lemma off_mono ls q q' : (q <= q')%nat -> (off ls q <= off ls q')%nat.
Proof.
  intros H. unfold off. rewrite <- (firstn_skipn q (firstn q' ls)), firstn_firstn, count_app.
  rewrite Nat.min_l by auto. lia.
Qed.
Lemma off_in ls q d c : (q < length ls)%nat -> (c < conductors (nth q ls d))%nat -> (off ls q + c < count_conductors ls)%nat.
Proof. intros H Hc. pose proof (off_le ls (S q)) as P. rewrite (off_S ls q d H) in P. lia. Qed.
Lemma locate ls d i : (i < count_conductors ls)%nat ->
  exists q c, (q < length ls)%nat /\ (c < conductors (nth q ls d))%nat /\ i = (off ls q + c)%nat.
Proof.
  induction ls as [|m ls IH] using rev_ind; intros H; [cbn in H; lia|].
  rewrite count_app, count_one in H. destruct (Nat.lt_ge_cases i (count_conductors ls)) as [Hi|Hi].
  - destruct (IH Hi) as (q & c & Hq & Hc & E). exists q, c. rewrite app_length, app_nth1 by auto.
    split; [lia|]. split; [auto|]. unfold off in *. rewrite firstn_app.
    replace (q - length ls)%nat with 0%nat by lia. cbn [firstn]. rewrite app_nil_r. exact E.
  - exists (length ls), (i - count_conductors ls)%nat. rewrite app_length, app_nth2, Nat.sub_diag by auto. cbn [length nth].
    split; [lia|]. split; [lia|]. unfold off. rewrite firstn_app, firstn_all, Nat.sub_diag. cbn [firstn]. rewrite app_nil_r. lia.
Qed.
Lemma locate_unique ls d q c q' c' : (q < length ls)%nat -> (c < conductors (nth q ls d))%nat ->
  (q' < length ls)%nat -> (c' < conductors (nth q' ls d))%nat ->
  (off ls q + c = off ls q' + c')%nat -> q = q' /\ c = c'.
Proof.
  intros Hq Hc Hq' Hc' E. pose proof (off_S ls q d Hq). pose proof (off_S ls q' d Hq').
  destruct (Nat.lt_trichotomy q q') as [L|[L|L]].
  - pose proof (off_mono ls (S q) q' L). lia.
  - subst q'. lia.
  - pose proof (off_mono ls (S q') q L). lia.
Qed.

(** the entry of row [i], column [j] *)
Lemma bd_step sel ls m i j : (i < count_conductors ls + conductors m)%nat -> (j < count_conductors ls + conductors m)%nat ->
  get2 (snd (bd_lines sel (ls ++ [m]))) i j =
  if (i <? count_conductors ls)%nat
  then (if (j <? count_conductors ls)%nat then get2 (snd (bd_lines sel ls)) i j else n0)
  else (if (j <? count_conductors ls)%nat then n0 else get2 (sel m) (i - count_conductors ls) (j - count_conductors ls)).
Proof.
  intros Hi Hj. unfold bd_lines. rewrite fold_left_app. fold (bd_lines sel ls). cbn [fold_left snd].
  destruct (bd_lines_square sel ls) as [_ ->]. unfold block_diag. rewrite get2_mk2 by (unfold conductors in *; lia). reflexivity.
Qed.
Lemma qbd_step sel ls m i j : (i < count_conductors ls + conductors m)%nat -> (j < count_conductors ls + conductors m)%nat ->
  qget2 (snd (qbd_lines sel (ls ++ [m]))) i j =
  if (i <? count_conductors ls)%nat
  then (if (j <? count_conductors ls)%nat then qget2 (snd (qbd_lines sel ls)) i j else qzero)
  else (if (j <? count_conductors ls)%nat then qzero else qget2 (sel m) (i - count_conductors ls) (j - count_conductors ls)).
Proof.
  intros Hi Hj. unfold qbd_lines. rewrite fold_left_app. fold (qbd_lines sel ls). cbn [fold_left snd].
  destruct (qbd_lines_square sel ls) as [_ ->]. unfold qblock_diag, qget2 at 1, mk2.
  rewrite nth_mk by (unfold conductors in *; lia). rewrite nth_mk by (unfold conductors in *; lia). reflexivity.
Qed.

Lemma bd_same sel ls d q c c' : (q < length ls)%nat -> (c < conductors (nth q ls d))%nat -> (c' < conductors (nth q ls d))%nat ->
  get2 (snd (bd_lines sel ls)) (off ls q + c) (off ls q + c') = get2 (sel (nth q ls d)) c c' /\
  (forall qs, qget2 (snd (qbd_lines qs ls)) (off ls q + c) (off ls q + c') = qget2 (qs (nth q ls d)) c c').
Proof.
  induction ls as [|m ls IH] using rev_ind; intros Hq Hc Hc'; [cbn in Hq; lia|]. rewrite app_length in Hq. cbn in Hq.
  assert (O : off (ls ++ [m]) q = if (q =? length ls)%nat then count_conductors ls else off ls q).
  { unfold off. rewrite firstn_app. destruct (Nat.eqb_spec q (length ls)) as [->|].
    - rewrite firstn_all, Nat.sub_diag. cbn [firstn]. now rewrite app_nil_r.
    - replace (q - length ls)%nat with 0%nat by lia. cbn [firstn]. now rewrite app_nil_r. }
  rewrite O. destruct (Nat.eqb_spec q (length ls)) as [->|Hne].
  - rewrite app_nth2, Nat.sub_diag in * by auto. cbn [nth] in *.
    rewrite bd_step by lia. rewrite !(proj2 (Nat.ltb_ge _ _)) by lia.
    split; [f_equal; lia|]. intros qs. rewrite qbd_step by lia. rewrite !(proj2 (Nat.ltb_ge _ _)) by lia. f_equal; lia.
  - rewrite app_nth1 in * by lia. assert (Hq' : (q < length ls)%nat) by lia.
    pose proof (off_in ls q d c Hq' Hc). pose proof (off_in ls q d c' Hq' Hc').
    destruct (IH Hq' Hc Hc') as [I1 I2].
    rewrite bd_step by lia. rewrite !(proj2 (Nat.ltb_lt _ _)) by lia. split; [exact I1|].
    intros qs. rewrite qbd_step by lia. rewrite !(proj2 (Nat.ltb_lt _ _)) by lia. apply I2.
Qed.
Lemma bd_cross sel ls d q c q' c' : (q < length ls)%nat -> (c < conductors (nth q ls d))%nat ->
  (q' < length ls)%nat -> (c' < conductors (nth q' ls d))%nat -> q <> q' ->
  get2 (snd (bd_lines sel ls)) (off ls q + c) (off ls q' + c') = n0 /\
  (forall qs, qget2 (snd (qbd_lines qs ls)) (off ls q + c) (off ls q' + c') = qzero).
Proof.
  induction ls as [|m ls IH] using rev_ind; intros Hq Hc Hq' Hc' Hn; [cbn in Hq; lia|]. rewrite app_length in Hq, Hq'. cbn in Hq, Hq'.
  assert (O : forall q, (q <= length ls)%nat -> off (ls ++ [m]) q = off ls q).
  { intros x Hx. unfold off. rewrite firstn_app. replace (x - length ls)%nat with 0%nat by lia. cbn [firstn]. now rewrite app_nil_r. }
  rewrite !O by lia.
  assert (OL : off ls (length ls) = count_conductors ls) by (unfold off; now rewrite firstn_all).
  assert (C : conductors (nth (length ls) (ls ++ [m]) d) = conductors m).
  { rewrite app_nth2, Nat.sub_diag by auto. reflexivity. }
  destruct (Nat.eq_dec q (length ls)) as [->|Hq1]; destruct (Nat.eq_dec q' (length ls)) as [->|Hq2]; try lia.
  - rewrite app_nth1 in Hc' by lia. assert (H1 : (q' < length ls)%nat) by lia. pose proof (off_in ls q' d c' H1 Hc').
    rewrite C in Hc. rewrite OL. rewrite bd_step by lia.
    rewrite (proj2 (Nat.ltb_ge (count_conductors ls + c) _)), (proj2 (Nat.ltb_lt (off ls q' + c') _)) by lia. split; [reflexivity|].
    intros qs. rewrite qbd_step by lia.
    rewrite (proj2 (Nat.ltb_ge (count_conductors ls + c) _)), (proj2 (Nat.ltb_lt (off ls q' + c') _)) by lia. reflexivity.
  - rewrite app_nth1 in Hc by lia. assert (H1 : (q < length ls)%nat) by lia. pose proof (off_in ls q d c H1 Hc).
    rewrite C in Hc'. rewrite OL. rewrite bd_step by lia.
    rewrite (proj2 (Nat.ltb_ge (count_conductors ls + c') _)), (proj2 (Nat.ltb_lt (off ls q + c) _)) by lia. split; [reflexivity|].
    intros qs. rewrite qbd_step by lia.
    rewrite (proj2 (Nat.ltb_ge (count_conductors ls + c') _)), (proj2 (Nat.ltb_lt (off ls q + c) _)) by lia. reflexivity.
  - rewrite app_nth1 in Hc, Hc' by lia. assert (H1 : (q < length ls)%nat) by lia. assert (H2 : (q' < length ls)%nat) by lia.
    pose proof (off_in ls q d c H1 Hc). pose proof (off_in ls q' d c' H2 Hc').
    destruct (IH H1 Hc H2 Hc' Hn) as [I1 I2]. rewrite bd_step by lia. rewrite !(proj2 (Nat.ltb_lt _ _)) by lia. split; [exact I1|].
    intros qs. rewrite qbd_step by lia. rewrite !(proj2 (Nat.ltb_lt _ _)) by lia. apply I2.
Qed.

(** when every block of an object array is zero, so is the whole *)
Lemma qbd_zero qs ls i j : (forall m, In m ls -> forall a b, qget2 (qs m) a b = qzero) ->
  (i < count_conductors ls)%nat -> (j < count_conductors ls)%nat -> qget2 (snd (qbd_lines qs ls)) i j = qzero.
Proof.
  intros H Hi Hj. destruct ls as [|d0 ls0] eqn:E; [cbn in Hi; lia|]. rewrite <- E in *. clear E ls0.
  destruct (locate ls d0 i Hi) as (q & c & Hq & Hc & ->). destruct (locate ls d0 j Hj) as (q' & c' & Hq' & Hc' & ->).
  destruct (Nat.eq_dec q q') as [->|Hn].
  - destruct (bd_same (fun _ => []) ls d0 q' c c' Hq Hc Hc') as [_ X]. rewrite X. apply H, nth_In. exact Hq'.
  - destruct (bd_cross (fun _ => []) ls d0 q c q' c' Hq Hc Hq' Hc' Hn) as [_ X]. apply X.
Qed.
End Block.
