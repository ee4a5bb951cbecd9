(** What power waves and scattering parameters are.  No proofs here. *)
From Coq Require Import List Arith Reals.
From Verif Require Import Num Py Arr NumR RFacts Dispersive Extract.
Import ListNotations.
Local Open Scope R_scope.

(** angle of sample [m] at position [j] of a centred spectrum of [n] samples: frequency index j - n//2 *)
Definition angle (n j m : nat) : R := 2 * PI * (INR j - INR (n / 2)) * INR m / INR n.
(** centred discrete Fourier transform of the samples [x 0 .. x (n-1)]: real and imaginary part at position [j] *)
Definition spectrum (n : nat) (x : nat -> R) (j : nat) : R * R :=
  (sumR n (fun m => x m * cos (angle n j m)), - sumR n (fun m => x m * sin (angle n j m))).
(** complex arithmetic on pairs *)
Definition cplus (a b : R * R) : R * R := (fst a + fst b, snd a + snd b).
Definition ctimes (r : R) (a : R * R) : R * R := (r * fst a, r * snd a).
Definition cprod (a b : R * R) : R * R := (fst a * fst b - snd a * snd b, fst a * snd b + snd a * fst b).
(** squared modulus, and real part of a times the conjugate of b *)
Definition sqmod (a : R * R) : R := fst a * fst a + snd a * snd a.
Definition re_conj (a b : R * R) : R := fst a * fst b + snd a * snd b.

(** samples of conductor [c] at a port: voltage, mean of the two nodes; current, mean with the previous half step (the first one counted
    twice), entering at the "S" end and leaving at the other one *)
Definition port_v (p : port NumR) (c m : nat) : R := (@get2 NumR (pt_v0 p) m c + @get2 NumR (pt_v1 p) m c) / 2.
Definition port_i (p : port NumR) (c : nat) (start : bool) (m : nat) : R :=
  (if start then 1 else -1) * ((@get2 NumR (pt_i0 p) (m - 1) c + @get2 NumR (pt_i0 p) m c) / 2).

(** ** Frequencies kept by an extraction: at least [fMin] and below [fMax] *)
Definition in_band {N : num} (fMin fMax f : N) : bool := nleb fMin f && nltb f fMax.
(** the retained positions, in order *)
Definition band {N : num} (fMin fMax : N) (f : vec N) : list nat := filter (fun k => in_band fMin fMax (get f k)) (seq 0 (length f)).
