(** Basic facts about the array operations, for every [num]. *)
From Coq Require Import List Arith ZArith Bool Lia.
From Verif Require Import Num Py Arr.
Import ListNotations.

Lemma bind_Ok {A B} (r : res A) (f : A -> res B) b :
  bind r f = Ok b -> exists a, r = Ok a /\ f a = Ok b.
Proof. destruct r as [a|e]; simpl; [eauto|discriminate]. Qed.

Lemma bind_Err {A B} (r : res A) (f : A -> res B) e :
  bind r f = Err e -> r = Err e \/ exists a, r = Ok a /\ f a = Err e.
Proof. destruct r as [a|e']; simpl; [eauto|]. intros H; injection H as ->; auto. Qed.

Lemma passert_Ok b : passert b = Ok tt <-> b = true.
Proof. destruct b; simpl; split; congruence. Qed.
Lemma passert_Ok' b u : passert b = Ok u -> b = true.
Proof. destruct b; simpl; congruence. Qed.

(** destruct [x <- r ;; k = Ok y] hypotheses *)
Ltac inv_bind H :=
  let a := fresh "a" in let Ha := fresh "Ha" in
  apply bind_Ok in H; destruct H as (a & Ha & H).

Section Lists.
Context {A : Type}.

Lemma length_mk n (f : nat -> A) : length (mk n f) = n.
Proof. unfold mk. now rewrite map_length, seq_length. Qed.

Lemma nth_mk n (f : nat -> A) k d : k < n -> nth k (mk n f) d = f k.
Proof.
  intros H. unfold mk. rewrite nth_indep with (d' := f 0).
  - now rewrite map_nth, seq_nth by assumption.
  - now rewrite map_length, seq_length.
Qed.

Lemma nth_mk_over n (f : nat -> A) k d : n <= k -> nth k (mk n f) d = d.
Proof. intros H. apply nth_overflow. now rewrite length_mk. Qed.

Lemma mk_ext n (f g : nat -> A) : (forall k, k < n -> f k = g k) -> mk n f = mk n g.
Proof. intros H. unfold mk. apply map_ext_in. intros k Hk. apply in_seq in Hk. apply H; lia. Qed.

Lemma mk_nth (l : list A) d : mk (length l) (fun k => nth k l d) = l.
Proof.
  apply nth_ext with (d := d) (d' := d); [apply length_mk|].
  intros k Hk. rewrite length_mk in Hk. now apply nth_mk.
Qed.

Lemma mk_S n (f : nat -> A) : mk (S n) f = mk n f ++ [f n].
Proof. unfold mk. rewrite seq_S, map_app. reflexivity. Qed.

Lemma list_eq_nth (l1 l2 : list A) d :
  length l1 = length l2 -> (forall k, k < length l1 -> nth k l1 d = nth k l2 d) -> l1 = l2.
Proof. intros. now apply nth_ext with (d := d) (d' := d). Qed.

Lemma length_lset (l : list A) i x : length (lset l i x) = length l.
Proof. revert i; induction l as [|a l IH]; intros [|i]; simpl; auto. Qed.

Lemma nth_lset_eq (l : list A) i x d : i < length l -> nth i (lset l i x) d = x.
Proof. revert i; induction l as [|a l IH]; intros [|i] H; simpl in *; try lia; auto. apply IH; lia. Qed.

Lemma nth_lset_neq (l : list A) i j x d : i <> j -> nth j (lset l i x) d = nth j l d.
Proof.
  revert i j; induction l as [|a l IH]; intros [|i] [|j] H; simpl in *; auto; try lia.
Qed.

Lemma nth_lset (l : list A) i j x d :
  nth j (lset l i x) d = if (i =? j) && (i <? length l) then x else nth j l d.
Proof.
  destruct (Nat.eqb_spec i j) as [<-|H]; simpl.
  - destruct (Nat.ltb_spec i (length l)) as [H|H].
    + now apply nth_lset_eq.
    + rewrite !nth_overflow; auto; rewrite ?length_lset; auto.
  - now apply nth_lset_neq.
Qed.

Lemma lset_over (l : list A) i x : length l <= i -> lset l i x = l.
Proof. revert i; induction l as [|a l IH]; intros [|i] H; simpl in *; auto; try lia. f_equal; apply IH; lia. Qed.

Lemma py_set_Ok (l l' : list A) i x : py_set l i x = Ok l' -> i < length l /\ l' = lset l i x.
Proof. unfold py_set. destruct (Nat.ltb_spec i (length l)); intros H'; [|discriminate]. injection H' as <-; auto. Qed.

Lemma py_get_Ok (l : list A) i x d : py_get l i = Ok x -> i < length l /\ nth i l d = x.
Proof.
  unfold py_get, of_option. destruct (nth_error l i) eqn:E; [|discriminate].
  intros H; injection H as <-. split; [apply nth_error_Some; congruence|].
  now apply nth_error_nth.
Qed.

Lemma py_get_intro (l : list A) i d : i < length l -> py_get l i = Ok (nth i l d).
Proof. intros H. unfold py_get. now rewrite (nth_error_nth' l d H). Qed.

Lemma py_get_Err (l : list A) i : length l <= i -> py_get l i = Err IndexError.
Proof. intros H. unfold py_get. apply nth_error_None in H. now rewrite H. Qed.

End Lists.

Section MapM.
Context {A B : Type}.

Lemma mapM_Ok (f : A -> res B) l bs :
  mapM f l = Ok bs -> Forall2 (fun a b => f a = Ok b) l bs.
Proof.
  revert bs; induction l as [|a l IH]; simpl; intros bs H.
  - injection H as <-. constructor.
  - inv_bind H. inv_bind H. injection H as <-. constructor; auto.
Qed.

Lemma mapM_Ok_intro (f : A -> res B) l bs :
  Forall2 (fun a b => f a = Ok b) l bs -> mapM f l = Ok bs.
Proof. induction 1 as [|a b l bs H _ IH]; simpl; auto. rewrite H; simpl. now rewrite IH. Qed.

Lemma mapM_length (f : A -> res B) l bs : mapM f l = Ok bs -> length bs = length l.
Proof. intros H. apply mapM_Ok in H. induction H; simpl; auto. Qed.

Lemma mapM_nth (f : A -> res B) l bs k da db :
  mapM f l = Ok bs -> k < length l -> f (nth k l da) = Ok (nth k bs db).
Proof.
  intros H. apply mapM_Ok in H. revert k. induction H as [|a b l bs H _ IH]; simpl; intros k Hk; [lia|].
  destruct k; auto. apply IH; lia.
Qed.

Lemma mapM_ext (f g : A -> res B) l : (forall a, In a l -> f a = g a) -> mapM f l = mapM g l.
Proof.
  induction l as [|a l IH]; simpl; intros H; auto.
  rewrite (H a) by auto. rewrite IH; auto.
Qed.

Lemma mapM_total (f : A -> B) l : mapM (fun a => Ok (f a)) l = Ok (map f l).
Proof. induction l as [|a l IH]; simpl; auto. now rewrite IH. Qed.

Lemma mapM_app (f : A -> res B) l1 l2 :
  mapM f (l1 ++ l2) = (b1 <- mapM f l1 ;; b2 <- mapM f l2 ;; Ok (b1 ++ b2)).
Proof.
  induction l1 as [|a l1 IH]; simpl.
  - destruct (mapM f l2); auto.
  - destruct (f a); simpl; auto. rewrite IH. destruct (mapM f l1); simpl; auto.
    destruct (mapM f l2); auto.
Qed.
End MapM.

Lemma mapM_seq {B} (f : nat -> res B) n bs k d :
  mapM f (seq 0 n) = Ok bs -> k < n -> f k = Ok (nth k bs d).
Proof.
  intros H Hk. pose proof (mapM_nth f (seq 0 n) bs k 0 d H) as E.
  rewrite seq_length in E. specialize (E Hk). now rewrite seq_nth in E.
Qed.

Lemma iterM_S {S} n (f : S -> res S) s :
  iterM (Datatypes.S n) f s = (s' <- iterM n f s ;; f s').
Proof.
  revert s; induction n as [|n IH]; intros s.
  - simpl. destruct (f s); auto.
  - change (iterM (Datatypes.S (Datatypes.S n)) f s)
      with (s' <- f s ;; iterM (Datatypes.S n) f s').
    change (iterM (Datatypes.S n) f s) with (s' <- f s ;; iterM n f s').
    destruct (f s) as [s1|e]; simpl; auto. apply IH.
Qed.

Lemma iterM_add {S} n m (f : S -> res S) s :
  iterM (n + m) f s = (s' <- iterM n f s ;; iterM m f s').
Proof.
  revert s; induction n as [|n IH]; intros s; simpl; auto.
  destruct (f s) as [s1|e]; simpl; auto.
Qed.

Lemma iterM_prefix {S} n k (f : S -> res S) s s' :
  iterM n f s = Ok s' -> k <= n -> exists s1, iterM k f s = Ok s1 /\ iterM (n - k) f s1 = Ok s'.
Proof.
  intros H Hk. replace n with (k + (n - k)) in H by lia. rewrite iterM_add in H.
  inv_bind H. eauto.
Qed.

Lemma iterM_inv {S} (P : S -> Prop) n (f : S -> res S) s s' :
  (forall a b, P a -> f a = Ok b -> P b) -> P s -> iterM n f s = Ok s' -> P s'.
Proof.
  intros Hf. revert s; induction n as [|n IH]; simpl; intros s Hs H.
  - now injection H as <-.
  - inv_bind H. eauto.
Qed.

Lemma foldM_inv {A S} (P : S -> Prop) (f : S -> A -> res S) l s s' :
  (forall a s b, In a l -> P s -> f s a = Ok b -> P b) -> P s -> foldM f l s = Ok s' -> P s'.
Proof.
  revert s; induction l as [|a l IH]; simpl; intros s Hf Hs H.
  - now injection H as <-.
  - inv_bind H. eapply IH; [|eapply Hf; eauto|eassumption]. intros; eapply Hf; eauto.
Qed.

Lemma foldM_app {A S} (f : S -> A -> res S) l1 l2 s :
  foldM f (l1 ++ l2) s = (s' <- foldM f l1 s ;; foldM f l2 s').
Proof.
  revert s; induction l1 as [|a l1 IH]; intros s; simpl; auto.
  destruct (f s a); simpl; auto.
Qed.

Lemma foldM_ext {A S} (f g : S -> A -> res S) l s :
  (forall s a, In a l -> f s a = g s a) -> foldM f l s = foldM g l s.
Proof.
  revert s; induction l as [|a l IH]; intros s H; simpl; auto.
  rewrite (H s a) by (left; auto). destruct (g s a); simpl; auto.
  apply IH. intros; apply H; right; auto.
Qed.

Section ArrGen.
Context {N : num}.
Local Open Scope num_scope.

Lemma get_mk n (f : nat -> N) k : (k < n)%nat -> get (mk n f) k = f k.
Proof. intros. unfold get. now apply nth_mk. Qed.
Lemma get_mk_over n (f : nat -> N) k : (n <= k)%nat -> get (mk n f) k = n0.
Proof. intros. unfold get. now apply nth_mk_over. Qed.
Lemma get2_mk2 n m (f : nat -> nat -> N) i j :
  (i < n)%nat -> (j < m)%nat -> get2 (mk2 n m f) i j = f i j.
Proof. intros. unfold get2, mk2. rewrite nth_mk by auto. now apply get_mk. Qed.
Lemma get2_mk2_over n m (f : nat -> nat -> N) i j :
  (n <= i)%nat \/ (m <= j)%nat -> get2 (mk2 n m f) i j = n0.
Proof.
  intros H. unfold get2, mk2. destruct (Nat.lt_ge_cases i n) as [Hi|Hi].
  - rewrite nth_mk by auto. apply get_mk_over. lia.
  - rewrite nth_mk_over by auto. unfold get. now destruct j.
Qed.
Lemma getm_mk n (f : nat -> mat N) k : (k < n)%nat -> getm (mk n f) k = f k.
Proof. intros. unfold getm. now apply nth_mk. Qed.
Lemma get3_mk n (f : nat -> mat N) k i j : (k < n)%nat -> get3 (mk n f) k i j = get2 (f k) i j.
Proof. intros. unfold get3. now rewrite getm_mk. Qed.
Lemma get_zeros n k : get (@zeros N n) k = n0.
Proof.
  unfold zeros. destruct (Nat.lt_ge_cases k n); [now apply get_mk|now apply get_mk_over].
Qed.
Lemma get2_zeros n m i j : get2 (@zeros2 N n m) i j = n0.
Proof.
  unfold zeros2. destruct (Nat.lt_ge_cases i n); [destruct (Nat.lt_ge_cases j m)|].
  - now rewrite get2_mk2.
  - apply get2_mk2_over; auto.
  - apply get2_mk2_over; auto.
Qed.

Lemma get_over (x : vec N) k : (length x <= k)%nat -> get x k = n0.
Proof. intros. unfold get. now apply nth_overflow. Qed.

Lemma sumn_ext n (f g : nat -> N) : (forall k, (k < n)%nat -> f k = g k) -> sumn n f = sumn n g.
Proof.
  induction n as [|n IH]; simpl; intros H; auto.
  rewrite IH, H by (intros; try apply H; lia). reflexivity.
Qed.

Lemma get2_mm n (A B : mat N) i j : (i < n)%nat -> (j < n)%nat ->
  get2 (mm n A B) i j = sumn n (fun k => get2 A i k * get2 B k j).
Proof. intros. unfold mm. now rewrite get2_mk2. Qed.
Lemma get_mv n (A : mat N) x i : (i < n)%nat ->
  get (mv n A x) i = sumn n (fun k => get2 A i k * get x k).
Proof. intros. unfold mv. now rewrite get_mk. Qed.
Lemma get2_madd n (A B : mat N) i j : (i < n)%nat -> (j < n)%nat ->
  get2 (madd n A B) i j = get2 A i j + get2 B i j.
Proof. intros. unfold madd, mzip. now rewrite get2_mk2. Qed.
Lemma get2_msub n (A B : mat N) i j : (i < n)%nat -> (j < n)%nat ->
  get2 (msub n A B) i j = get2 A i j - get2 B i j.
Proof. intros. unfold msub, mzip. now rewrite get2_mk2. Qed.
Lemma get2_mdivs n (A : mat N) s i j : (i < n)%nat -> (j < n)%nat ->
  get2 (mdivs n A s) i j = get2 A i j / s.
Proof. intros. unfold mdivs, mmap. now rewrite get2_mk2. Qed.
Lemma get2_mscal n (A : mat N) s i j : (i < n)%nat -> (j < n)%nat ->
  get2 (mscal n s A) i j = s * get2 A i j.
Proof. intros. unfold mscal, mmap. now rewrite get2_mk2. Qed.
Lemma get2_eye n i j : (i < n)%nat -> (j < n)%nat -> get2 (@eye N n) i j = delta i j.
Proof. intros. unfold eye. now rewrite get2_mk2. Qed.
Lemma get_col n (m : mat N) k c : (c < n)%nat -> get (col n m k) c = get2 m c k.
Proof. intros. unfold col. now rewrite get_mk. Qed.
Lemma get2_block_diag a A b B i j : (i < a + b)%nat -> (j < a + b)%nat ->
  get2 (@block_diag N a A b B) i j =
    if (i <? a)%nat then (if (j <? a)%nat then get2 A i j else n0)
    else (if (j <? a)%nat then n0 else get2 B (i - a) (j - a)).
Proof. intros. unfold block_diag. now rewrite get2_mk2. Qed.

End ArrGen.

(** rewrite reads of comprehensions, discharging index side conditions with lia *)
#[export] Hint Rewrite @get2_mm @get_mv @get2_madd @get2_msub @get2_mdivs @get2_mscal @get2_eye
  @get_col using lia : arr.
