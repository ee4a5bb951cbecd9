(** An executable LAPACK for the rational instance, used only in examples and witnesses:
    inverses by cofactors, returned only after checking that they are inverses. *)
From Coq Require Import List Arith ZArith Bool Lia QArith.
From Verif Require Import Num Py Arr ArrFacts NumQ.
Import ListNotations.

Definition Qsame (x y : Q) : bool := (Qnum x =? Qnum y)%Z && (Qden x =? Qden y)%positive.
Lemma Qsame_eq x y : Qsame x y = true -> x = y.
Proof.
  unfold Qsame. intros H. apply andb_true_iff in H as [H1 H2].
  apply Z.eqb_eq in H1. apply Pos.eqb_eq in H2. destruct x, y; cbn in *; congruence.
Qed.

Definition skip (i k : nat) : nat := if (k <? i)%nat then k else S k.
Definition minor (n : nat) (A : mat NumQ) (i j : nat) : mat NumQ :=
  mk2 n n (fun a b => get2 A (skip i a) (skip j b)).
Definition qsign (k : nat) : NumQ := if Nat.even k then 1%Q else (-1)%Q.
Fixpoint det (n : nat) (A : mat NumQ) : NumQ :=
  match n with
  | O => 1%Q
  | S m => sumn (S m) (fun j => nmul (nmul (qsign j) (get2 A 0 j)) (det m (minor m A 0 j)))
  end.
Definition cofactor_inv (n : nat) (A : mat NumQ) : mat NumQ :=
  let d := det n A in
  mk2 n n (fun i j => ndiv (nmul (qsign (i + j)) (det (n - 1) (minor (n - 1) A j i))) d).

Definition check_inv (n : nat) (A B : mat NumQ) : bool :=
  forallb (fun i => forallb (fun j =>
    Qsame (sumn n (fun k => nmul (get2 A i k) (get2 B k j))) (@delta NumQ i j) &&
    Qsame (sumn n (fun k => nmul (get2 B i k) (get2 A k j))) (@delta NumQ i j)) (seq 0 n)) (seq 0 n).
Lemma check_inv_ok n A B : check_inv n A B = true -> is_inverse n A B.
Proof.
  unfold check_inv. intros H. rewrite forallb_forall in H.
  split; intros i j Hi Hj; specialize (H i); rewrite forallb_forall in H.
  - assert (I : In i (seq 0 n)) by (apply in_seq; lia). specialize (H I j).
    assert (J : In j (seq 0 n)) by (apply in_seq; lia). specialize (H J).
    apply andb_true_iff in H as [H _]. now apply Qsame_eq.
  - assert (I : In i (seq 0 n)) by (apply in_seq; lia). specialize (H I j).
    assert (J : In j (seq 0 n)) by (apply in_seq; lia). specialize (H J).
    apply andb_true_iff in H as [_ H]. now apply Qsame_eq.
Qed.

Definition qinv (n : nat) (A : mat NumQ) : option (mat NumQ) :=
  let B := cofactor_inv n A in if check_inv n A B then Some B else None.
Definition qsolve (n : nat) (A : mat NumQ) (b : vec NumQ) : option (vec NumQ) :=
  let x := mv n (cofactor_inv n A) b in
  if forallb (fun i => Qsame (sumn n (fun k => nmul (get2 A i k) (get x k))) (get b i)) (seq 0 n)
  then Some x else None.

Definition LQ : lapack NumQ := {|
  la_inv := qinv; la_solve := qsolve;
  la_eig := fun n A => mk n (fun i => get2 A i i) |}.

Lemma LQ_ok : lapack_ok LQ.
Proof.
  split.
  - intros n A B. cbn. unfold qinv. destruct (check_inv n A (cofactor_inv n A)) eqn:E; [|discriminate].
    intros H. injection H as <-. now apply check_inv_ok.
  - intros n A b x. cbn. unfold qsolve. destruct (forallb _ _) eqn:E; [|discriminate].
    intros H i Hi. injection H as <-. rewrite forallb_forall in E. apply Qsame_eq, E, in_seq. lia.
  - reflexivity.
Qed.
