(** Vocabulary of the theorems on rational fits.  No proofs here. *)
From Coq Require Import String List Arith ZArith Bool Reals.
From Verif Require Import Num NumR Py Arr Dispersive Fitting.
Import ListNotations.
Local Open Scope R_scope.

(** complex numbers are pairs of reals *)
Definition ctimes (a b : R * R) : R * R := (fst a * fst b - snd a * snd b, fst a * snd b + snd a * fst b).
Definition cplus (a b : R * R) : R * R := (fst a + fst b, snd a + snd b).
(** the sum of the first [n] *)
Fixpoint ctotal (n : nat) (t : nat -> R * R) : R * R := match n with O => (0, 0) | S n => cplus (ctotal n t) (t n) end.
(** j 2 pi f *)
Definition jw (f : R) : R * R := (0, 2 * PI * f).
Definition minus_c (a b : R * R) : R * R := (fst a - fst b, snd a - snd b).
(** the diagonal entry (i, i) of a [dim] x [dim] matrix stored by rows *)
Definition diagonal_row (dim i : nat) : nat := i * dim + i.

Section Export.
Context {N : num}.
Variables (nPoles : nat) (constant proportional : bool) (a b : vec N) (p : list (cplx N)) (r : list (list (cplx N))).
(** everything the entry [i] of the exported file is made of exists *)
Definition exportable (i : nat) : Prop := (constant = true -> (i * nPoles < length a)%nat) /\ (proportional = true -> (i * nPoles < length b)%nat) /\
  (0 < nPoles -> nPoles <= length p /\ exists row, nth_error r (i * nPoles) = Some row /\ nPoles <= length row)%nat.
(** the entry [i]: constant and proportional terms (zero unless asked for), poles and residues of the matrix entry number i * nPoles *)
Definition exported (i : nat) : fit N := {| ft_cte := if constant then nth (i * nPoles) a n0 else n0; ft_prop := if proportional then nth (i * nPoles) b n0 else n0;
  ft_polesR := map fst (firstn nPoles p); ft_polesI := map snd (firstn nPoles p);
  ft_resR := map fst (firstn nPoles (nth (i * nPoles) r [])); ft_resI := map snd (firstn nPoles (nth (i * nPoles) r [])) |}.
End Export.
