(** Model of the functions that prepare and export rational fits (python/src/VF/utils.py).
    Simplification: the functions of a frequency are modelled for one frequency; numpy applies them
    to every element of the array. *)
From Coq Require Import String List Arith ZArith Bool.
From Verif Require Import Num Py Arr Dispersive.
Import ListNotations.

Section Fitting.
Context {N : num}.
Local Open Scope num_scope.
Notation cplx := (@cplx N).

(** w = 2*np.pi*f *)
Definition omega (f : N) : N := n2 * npi * f.
Fixpoint npow (x : N) (n : nat) : N := match n with O => n1 | S n => x * npow x n end.
(** VF/utils.py:7-8; 2.5 is written 5/2 *)
Definition Zw (f f0 R sigma : N) : cplx :=
  cscal (nexp (- (nsq (f - f0)) / (n2 * nsq sigma))) (R, R * (nofZ 5 / n2)).
(** VF/utils.py:10-12 *)
Definition Y_Zw (f f0 R sigma : N) : cplx := cdiv c1 (Zw f f0 R sigma).
(** VF/utils.py:14-16.  Simplification: natural exponents *)
Definition RLseriesDisp (f R L : N) (n : nat) : cplx := (R, npow (omega f) n * L).
(** VF/utils.py:18-20 *)
Definition Y_RLseriesDisp (f R L : N) (n : nat) : cplx := cdiv c1 (RLseriesDisp f R L n).
(** VF/utils.py:23-25 *)
Definition RLpar (f R L : N) : cplx := cdiv (n0, omega f * R) (R / L, omega f).
(** VF/utils.py:27-30 *)
Definition RCpar (f R C : N) : cplx := cdiv (n1 / C, n0) (n1 / (C * R), omega f).

(** VF/utils.py:32-37 *)
Definition epsDebye (f : N) (k tau : vec N) : res cplx :=
  foldM (fun out i => ki <- py_get k i ;; ti <- py_get tau i ;;
                      Ok (cadd out (cdiv (ki, n0) (n1, omega f * ti))))
        (seq 0 (length k)) c1.
(** VF/utils.py:39-46; [rnd]: what the generator returns for this frequency *)
Definition epsDebyeErr (f : N) (k tau : vec N) (p rnd : N) : res cplx :=
  let ran := n1 + p * n2 / nofZ 100 * rnd - p / nofZ 100 in
  foldM (fun out i => ki <- py_get k i ;; ti <- py_get tau i ;;
                      Ok (cadd out (cdiv (ran * ki, n0) (n1, omega f * ti))))
        (seq 0 (length k)) c1.

(** VF/utils.py:55-56 *)
Definition vfi (f : N) (p r : list cplx) (i : nat) : res cplx :=
  ri <- py_get r i ;; pi <- py_get p i ;;
  Ok (cdiv ri (csub (n0, omega f) pi)).
(** VF/utils.py:48-53 *)
Definition vf (f : N) (p r : list cplx) : res cplx :=
  foldM (fun out i => t <- vfi f p r i ;; Ok (cadd out t)) (seq 0 (length p)) c0.

(** VF/utils.py:58-60: the two branches are multiplied by the values of their conditions and added *)
Definition z (f f0 rdc : N) : cplx :=
  cadd (cscal (if f <=? f0 then n1 else n0) (rdc, rdc * (f / f0)))
       (cscal (if f0 <=? f then n1 else n0) (cscal (nsqrt (f / f0)) (rdc, rdc))).

(** an entry of the dictionary written to info.json *)
Record fit := Fit { ft_cte : N; ft_prop : N; ft_polesR : list N; ft_polesI : list N; ft_resR : list N; ft_resI : list N }.
(** VF/utils.py:83-103, body of the loop *)
Definition serialize_entry (nPoles : nat) (constant proportional : bool) (a b : vec N) (p : list cplx) (r : list (list cplx)) (i : nat) : res fit :=
  ct <- (if constant then py_get a (i * nPoles) else Ok n0) ;;
  pr <- (if proportional then py_get b (i * nPoles) else Ok n0) ;;
  pq <- mapM (fun j => pj <- py_get p j ;; row <- py_get r (i * nPoles) ;; rj <- py_get row j ;; Ok (pj, rj)) (seq 0 nPoles) ;;
  Ok {| ft_cte := ct; ft_prop := pr;
        ft_polesR := map (fun x => fst (fst x)) pq; ft_polesI := map (fun x => snd (fst x)) pq;
        ft_resR := map (fun x => fst (snd x)) pq; ft_resI := map (fun x => snd (snd x)) pq |}.
(** VF/utils.py:62-105: what "info.json" holds afterwards ([None]: it was opened for writing, hence
    emptied, and nothing was written) and the outcome.
    Simplification: int(np.sqrt(n)) is the integer square root *)
Definition serializeJSON (nReal nCmplx : nat) (constant proportional : bool) (a b : vec N) (p : list cplx) (r : list (list cplx))
  : option (list fit) * res unit :=
  let nPoles := (nReal + nCmplx * 2)%nat in
  let dim := Nat.sqrt (length r) in
  match mapM (serialize_entry nPoles constant proportional a b p r) (seq 0 dim) with
  | Ok d => (Some d, Ok tt)
  | Err e => (None, Err e)
  end.
End Fitting.
Arguments fit N : clear implicits.
