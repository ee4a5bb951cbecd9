(** An instance of the LAPACK oracle over the reals that succeeds whenever it can: it
    shows that [lapack_ok] is satisfiable.  Used only in examples; it needs the standard
    library's description operator. *)
From Coq Require Import List Arith Reals ClassicalEpsilon.
From Verif Require Import Num Py Arr ArrFacts NumR RFacts.
Import ListNotations.
Local Open Scope R_scope.

Section Complete.
Context {N : num}.
Local Open Scope num_scope.
(** the oracle only raises when there is no inverse / the system is singular *)
Record lapack_complete (L : lapack N) : Prop := {
  inv_complete : forall n A, (exists B, is_inverse n A B) -> exists B, la_inv L n A = Some B;
  solve_complete : forall n A b,
    (exists x : vec N, forall i, (i < n)%nat -> sumn n (fun k => get2 A i k * get x k) = get b i) ->
    (forall y : nat -> N, (forall i, (i < n)%nat -> sumn n (fun k => get2 A i k * y k) = n0) -> forall k, (k < n)%nat -> y k = n0) ->
    exists x, la_solve L n A b = Some x
}.
End Complete.

Definition pick {A : Type} (P : A -> Prop) : option A :=
  match excluded_middle_informative (exists x, P x) with
  | left H => Some (proj1_sig (constructive_indefinite_description P H))
  | right _ => None
  end.
Lemma pick_ok {A : Type} (P : A -> Prop) x : pick P = Some x -> P x.
Proof.
  unfold pick. destruct (excluded_middle_informative _) as [H|H]; [|discriminate].
  intros E. injection E as <-. exact (proj2_sig (constructive_indefinite_description P H)).
Qed.
Lemma pick_complete {A : Type} (P : A -> Prop) : (exists x, P x) -> exists x, pick P = Some x.
Proof.
  intros H. unfold pick. destruct (excluded_middle_informative _) as [H'|H']; [eauto|contradiction].
Qed.

Definition LR : lapack NumR := {|
  la_inv := fun n A => pick (is_inverse n A);
  la_solve := fun n (A : mat NumR) (b : vec NumR) => pick (fun x : vec NumR => (forall i, (i < n)%nat ->
     sumR n (fun k => get2 A i k * get x k) = get b i) /\
     (forall y : nat -> R, (forall i, (i < n)%nat -> sumR n (fun k => get2 A i k * y k) = 0) -> forall k, (k < n)%nat -> y k = 0));
  la_eig := fun n A => mk n (fun i => get2 A i i)   (* exact for triangular matrices *)
|}.

Lemma LR_ok : lapack_ok LR.
Proof.
  split.
  - intros n A B H. exact (pick_ok _ _ H).
  - intros n A b x H. exact (proj1 (pick_ok (fun x : vec NumR => _) _ H)).
  - intros A. reflexivity.
Qed.
Lemma LR_complete : lapack_complete LR.
Proof.
  split.
  - intros n A H. exact (pick_complete _ H).
  - intros n A b [x H] U. apply (pick_complete (fun x : vec NumR => _)). exists x. split; [exact H|exact U].
Qed.
