(** Model of python/src/waveforms.py. *)
From Coq Require Import ZArith Bool.
From Verif Require Import Num.

Section Waveforms.
Context {N : num}.
Local Open Scope num_scope.

(** waveforms.py:4-5 *)
Definition wf_exp (x A x0 : N) : N := A * (n1 - nexp ((- x) / x0)).

(** waveforms.py:7-8 *)
Definition gaussian (x x0 s0 : N) : N :=
  nexp ((- nsq (x - x0)) / (n2 * nsq s0)).

(** waveforms.py:10-11 *)
Definition gaussian_2 (x A x0 s0 : N) : N :=
  A * nexp (- nsq ((x - x0) / s0)).

(** waveforms.py:17-18; Python booleans are 0/1 factors *)
Definition square_pulse (x A x0 : N) : N :=
  A * nb (x <=? x0) * nb (n0 <=? x).

(** waveforms.py:20-21 *)
Definition triangle_pulse (x A x0 : N) : N :=
  A * (x / x0) * nb (x <=? x0) * nb (n0 <=? x).

(** waveforms.py:23-24 *)
Definition sin_sq_pulse (x A w : N) : N :=
  (A * nsq (nsin (w * x))) * nb (n0 <=? x) * nb (x <? npi / w).

(** waveforms.py:26-27 *)
Definition sin_pulse (x A w : N) : N := A * nsin (w * x).

(** Python's [x % m] for m > 0 (floored modulo).  Simplification: the formula is exact
    in R and Q; CPython computes the same number with fmod. *)
Definition nmod (x m : N) : N := x - m * nofZ (nfloor (x / m)).

(** waveforms.py:29-57: both symbolic trapezoidal waves (the two function bodies are
    identical), as functions of the symbols x and t.  sp.Piecewise takes the first branch
    whose condition holds. *)
Definition trapezoidal_wave_sp (A rise fall f0 D v : N) (x t : N) : N :=
  let m := nmod (t + x / v) (n1 / f0) in
  let cte := D / f0 - nhalf * (rise + fall) in
  let t1 := rise in let t2 := rise + cte in let t3 := rise + cte + fall in
  if m <=? t1 then A * (m / rise)
  else if (t1 <? m) && (m <=? t2) then A
  else if (t2 <? m) && (m <=? t3)
       then (- A) * m / fall + A * (rise + cte + fall) / fall
  else n0.  (* (0, mod_time >= t3) *)

(** waveforms.py:59-67 *)
Definition trapezoidal_wave (x A rise fall f0 D : N) : N :=
  let m := nmod x (n1 / f0) in
  let cte := D / f0 - nhalf * (rise + fall) in
  let t1 := rise in let t2 := rise + cte in let t3 := rise + cte + fall in
  A * (m / rise) * nb (m <=? t1)
  + A * nb (t1 <=? m) * nb (m <=? t2)
  + ((- A) * m / fall + A * (rise + cte + fall) / fall) * nb (t2 <=? m) * nb (m <=? t3).

(** waveforms.py:69-70 *)
Definition ramp_pulse (x A x0 : N) : N :=
  A * (x / x0) * nb (x <=? x0) * nb (n0 <=? x) + A * nb (x0 <=? x).

(** waveforms.py:73-76 *)
Definition ramp_pulse_sp (A x0 t : N) : N :=
  if t <=? x0 then A * (t / x0) else A.

(** waveforms.py:78-91: the x, y and z variants differ only in the symbol used as the
    coordinate; the [v] parameter is shadowed by the symbol v. *)
Definition ramp_pulse_coord_sp (A x0 : N) (coord t v : N) : N :=
  if t + coord / v <=? x0 then A * (t / x0) else A.

(** waveforms.py:94-99 (and 13-15 for the symbolic gaussian, same formula as gaussian_2) *)
Definition double_exp (t C a b : N) : N :=
  C * (nexp ((- a) * t) - nexp ((- b) * t)).

(** waveforms.py:101-111: double exponentials travelling along two axes *)
Definition double_exp_2sp (C a b : N) (p q t v : N) : N :=
  C * (nexp ((- a) * (t + p / v + q / v)) - nexp ((- b) * (t + p / v + q / v))).

End Waveforms.
