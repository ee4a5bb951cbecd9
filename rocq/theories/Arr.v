(** numpy arrays as lists, and the array operations used by the code. *)
From Coq Require Import List Arith ZArith Bool.
From Verif Require Import Num Py.
Import ListNotations.

Section Arr.
Context {N : num}.
Local Open Scope num_scope.

Definition vec := list N.          (* shape (n,)      *)
Definition mat := list vec.        (* shape (n,m)     *)
Definition ten := list mat.        (* shape (k,n,m)   *)

(** element reads; the theorems state the index ranges *)
Definition get (x : vec) (i : nat) : N := nth i x n0.
Definition get2 (m : mat) (i j : nat) : N := get (nth i m []) j.
Definition getm (t : ten) (k : nat) : mat := nth k t [].
Definition get3 (t : ten) (k i j : nat) : N := get2 (getm t k) i j.

(** array comprehensions *)
Definition mk {A} (n : nat) (f : nat -> A) : list A := map f (seq 0 n).
Definition mk2 {A} (n m : nat) (f : nat -> nat -> A) : list (list A) :=
  mk n (fun i => mk m (fun j => f i j)).

(** [sum_(k<n) f k].  numpy does not fix the order of summation in dot/einsum;
    the model sums left to right. *)
Fixpoint sumn (n : nat) (f : nat -> N) : N :=
  match n with
  | O => n0
  | S k => sumn k f + f k
  end.

Definition delta (i j : nat) : N := if (i =? j)%nat then n1 else n0.
Definition zeros (n : nat) : vec := mk n (fun _ => n0).
Definition zeros2 (n m : nat) : mat := mk2 n m (fun _ _ => n0).
Definition eye (n : nat) : mat := mk2 n n delta.

(** square products of size [n] (np.matmul / np.dot / einsum 'ij,jk->ik') *)
Definition mm (n : nat) (A B : mat) : mat :=
  mk2 n n (fun i j => sumn n (fun k => get2 A i k * get2 B k j)).
Definition mv (n : nat) (A : mat) (x : vec) : vec :=
  mk n (fun i => sumn n (fun k => get2 A i k * get x k)).

(** elementwise operations on n x n matrices *)
Definition mzip (f : N -> N -> N) (n : nat) (A B : mat) : mat :=
  mk2 n n (fun i j => f (get2 A i j) (get2 B i j)).
Definition madd := mzip nadd.
Definition msub := mzip nsub.
Definition mmap (f : N -> N) (n : nat) (A : mat) : mat :=
  mk2 n n (fun i j => f (get2 A i j)).
Definition mdivs (n : nat) (A : mat) (s : N) : mat := mmap (fun a => a / s) n A.
Definition mscal (n : nat) (s : N) (A : mat) : mat := mmap (fun a => s * a) n A.

(** column [k] of a (conductors x nodes) array: [v[:,k]] *)
Definition col (n : nat) (m : mat) (k : nat) : vec := mk n (fun c => get2 m c k).

(** points in space are 3-vectors *)
Definition vsub (a b : vec) : vec := mk 3 (fun i => get a i - get b i).
Definition vadd (a b : vec) : vec := mk 3 (fun i => get a i + get b i).
Definition vscal (s : N) (a : vec) : vec := mk 3 (fun i => s * get a i).
Definition vdivs (a : vec) (s : N) : vec := mk 3 (fun i => get a i / s).
Definition vdot (a b : vec) : N := sumn 3 (fun i => get a i * get b i).
(** np.linalg.norm of a 3-vector *)
Definition vnorm (a : vec) : N := nsqrt (sumn 3 (fun i => nsq (get a i))).
(** np.cross *)
Definition vcross (a b : vec) : vec :=
  [ get a 1 * get b 2 - get a 2 * get b 1;
    get a 2 * get b 0 - get a 0 * get b 2;
    get a 0 * get b 1 - get a 1 * get b 0 ].

(** np.argmin: index of the first smallest element *)
Fixpoint argmin_from (l : vec) (pos besti : nat) (best : N) : nat :=
  match l with
  | [] => besti
  | a :: l' => if a <? best then argmin_from l' (S pos) pos a
               else argmin_from l' (S pos) besti best
  end.
Definition argmin (l : vec) : nat :=
  match l with
  | [] => 0
  | a :: l' => argmin_from l' 1 0 a
  end.

(** np.min / np.max of a non-empty list *)
Fixpoint lmin (best : N) (l : vec) : N :=
  match l with [] => best | a :: l' => lmin (if a <? best then a else best) l' end.
Fixpoint lmax (best : N) (l : vec) : N :=
  match l with [] => best | a :: l' => lmax (if best <? a then a else best) l' end.
Definition vmin (l : vec) : res N :=
  match l with [] => Err ValueError | a :: l' => Ok (lmin a l') end.
Definition vmax (l : vec) : res N :=
  match l with [] => Err ValueError | a :: l' => Ok (lmax a l') end.

(** scipy.linalg.block_diag of an (a x a) and a (b x b) block *)
Definition block_diag (a : nat) (A : mat) (b : nat) (B : mat) : mat :=
  mk2 (a + b) (a + b) (fun i j =>
    if (i <? a)%nat then (if (j <? a)%nat then get2 A i j else n0)
    else (if (j <? a)%nat then n0 else get2 B (i - a) (j - a))).

End Arr.
Arguments vec N : clear implicits.
Arguments mat N : clear implicits.
Arguments ten N : clear implicits.

(** LAPACK as an oracle.  [None] is numpy's LinAlgError. *)
Record lapack (N : num) := Lapack {
  la_inv : nat -> mat N -> option (mat N);          (* np.linalg.inv *)
  la_solve : nat -> mat N -> vec N -> option (vec N); (* np.linalg.solve *)
  la_eig : nat -> mat N -> vec N                    (* real parts of scipy.linalg.eigvals *)
}.
Arguments la_inv {N} _ _ _.
Arguments la_solve {N} _ _ _ _.
Arguments la_eig {N} _ _ _.

(** What is assumed about LAPACK (in exact arithmetic it is what the documentation
    promises): a returned inverse is a two-sided inverse, a returned solution solves the
    system, the eigenvalue of a 1 x 1 matrix is its entry. *)
Section LapackOk.
Context {N : num}.
Local Open Scope num_scope.
Definition is_inverse (n : nat) (A B : mat N) : Prop :=
  (forall i j, (i < n)%nat -> (j < n)%nat ->
     sumn n (fun k => get2 A i k * get2 B k j) = delta i j) /\
  (forall i j, (i < n)%nat -> (j < n)%nat ->
     sumn n (fun k => get2 B i k * get2 A k j) = delta i j).
Record lapack_ok (L : lapack N) : Prop := {
  inv_ok : forall n A B, la_inv L n A = Some B -> is_inverse n A B;
  solve_ok : forall n A b x, la_solve L n A b = Some x ->
     forall i, (i < n)%nat -> sumn n (fun k => get2 A i k * get x k) = get b i;
  eig_ok : forall A, la_eig L 1 A = [get2 A 0 0]
}.
End LapackOk.
