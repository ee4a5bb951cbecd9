(** Python control flow used by the model: exceptions as values, loops, indexing,
    insertion-ordered dictionaries as association lists. *)
From Coq Require Import List ZArith Bool Arith Lia.
Import ListNotations.

(** Exceptions that the modelled code can raise. *)
Inductive exn :=
| AssertionError | ValueError | IndexError | KeyError | TypeError
| AttributeError | ZeroDivisionError | LinAlgError | NameError | GenericException.

Inductive res (A : Type) :=
| Ok (a : A)
| Err (e : exn).
Arguments Ok {A} _.
Arguments Err {A} _.

Definition bind {A B} (r : res A) (f : A -> res B) : res B :=
  match r with Ok a => f a | Err e => Err e end.
Notation "x <- r ;; k" := (bind r (fun x => k))
  (at level 61, r at next level, right associativity).

(** [assert b] *)
Definition passert (b : bool) : res unit := if b then Ok tt else Err AssertionError.

Definition of_option {A} (e : exn) (o : option A) : res A :=
  match o with Some a => Ok a | None => Err e end.

(** a Python [for] loop / list comprehension whose body may raise *)
Fixpoint mapM {A B} (f : A -> res B) (l : list A) : res (list B) :=
  match l with
  | [] => Ok []
  | a :: l' => b <- f a ;; bs <- mapM f l' ;; Ok (b :: bs)
  end.

Fixpoint foldM {A S} (f : S -> A -> res S) (l : list A) (s : S) : res S :=
  match l with
  | [] => Ok s
  | a :: l' => s' <- f s a ;; foldM f l' s'
  end.

(** [n] repetitions of a state transformer that may raise *)
Fixpoint iterM {S} (n : nat) (f : S -> res S) (s : S) : res S :=
  match n with
  | O => Ok s
  | S k => s' <- f s ;; iterM k f s'
  end.

(** [list[i] = x] for a non-negative index: IndexError when out of range *)
Fixpoint lset {A} (l : list A) (i : nat) (x : A) : list A :=
  match l, i with
  | [], _ => []
  | _ :: l', O => x :: l'
  | a :: l', S j => a :: lset l' j x
  end.

Definition py_set {A} (l : list A) (i : nat) (x : A) : res (list A) :=
  if (i <? length l)%nat then Ok (lset l i x) else Err IndexError.

Definition py_get {A} (l : list A) (i : nat) : res A :=
  of_option IndexError (nth_error l i).

(** insertion-ordered dictionaries *)
Fixpoint dget {K V} (eqb : K -> K -> bool) (k : K) (d : list (K * V)) : option V :=
  match d with
  | [] => None
  | (k', v) :: d' => if eqb k k' then Some v else dget eqb k d'
  end.

(** [d[k] = v]: replaces in place when present, appends otherwise *)
Fixpoint dset {K V} (eqb : K -> K -> bool) (k : K) (v : V) (d : list (K * V)) : list (K * V) :=
  match d with
  | [] => [(k, v)]
  | (k', v') :: d' => if eqb k k' then (k', v) :: d' else (k', v') :: dset eqb k v d'
  end.

Definition dmem {K V} (eqb : K -> K -> bool) (k : K) (d : list (K * V)) : bool :=
  match dget eqb k d with Some _ => true | None => false end.
