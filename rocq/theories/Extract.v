(** Model of class Port (python/src/probes.py:50-85) and of python/src/networkExtraction.py. *)
From Coq Require Import String List Arith ZArith Bool.
From Verif Require Import Num Py Arr Probes Dispersive Line.
Import ListNotations.

Section Extract.
Context {N : num}.
Local Open Scope num_scope.
Notation cplx := (@cplx N).

(** numpy.fft.fft of a real array: entry [k] is the sum over the samples of x[m] exp(-2 pi i k m / n) *)
Definition twopi (k m n : nat) : N := n2 * npi * nofZ (Z.of_nat (k * m)) / nofZ (Z.of_nat n).
Definition fft (x : vec N) : list cplx :=
  let n := length x in
  mk n (fun k => (sumn n (fun m => get x m * ncos (twopi k m n)), - sumn n (fun m => get x m * nsin (twopi k m n)))).
(** numpy.fft.fftshift: the zero frequency goes to position n//2 *)
Definition fftshift {A} (d : A) (l : list A) : list A :=
  let n := length l in mk n (fun j => nth ((j + (n - n / 2)) mod n) l d).
(** numpy.fft.fftfreq(n, d) *)
Definition fftfreq (n : nat) (d : N) : vec N :=
  mk n (fun i => nofZ (if (i <? (n + 1) / 2)%nat then Z.of_nat i else (Z.of_nat i - Z.of_nat n)%Z) / (nofZ (Z.of_nat n) * d)).

(** The attributes of a Port that its methods read: the position given to the first voltage probe (numbers of
    the array; one number for a scalar), the recorded frames and times of the probes, and np.diag of the
    impedance matrix (probes.py:51-55).  Simplification: [val] of each probe is a 2-d array. *)
Record port := Port { pt_pos : list N; pt_v0 : mat N; pt_v1 : mat N; pt_i0 : mat N; pt_t0 : vec N; pt_t1 : vec N; pt_z0 : vec N }.

(** [val[:, n]] *)
Definition column (rows : mat N) (n : nat) : res (vec N) := mapM (fun r => py_get r n) rows.
(** elementwise operation of two arrays.  Simplification: equal lengths required (numpy also accepts length one) *)
Definition zipw {A B C} (f : A -> B -> C) (a : list A) (b : list B) : res (list C) :=
  if (length a =? length b)%nat then Ok (map (fun p => f (fst p) (snd p)) (combine a b)) else Err ValueError.
(** probes.py:57-68; fft of an empty array raises ValueError *)
Definition get_v_i_fft (p : port) (n : nat) : res (vec N * list cplx * list cplx) :=
  t1 <- py_get (pt_t1 p) 1 ;;
  t0 <- py_get (pt_t0 p) 0 ;;
  let dt := t1 - t0 in
  let f := fftshift n0 (fftfreq (length (pt_t0 p)) dt) in
  c0_ <- column (pt_v0 p) n ;;
  _ <- (if (length c0_ =? 0)%nat then Err ValueError else Ok tt) ;;
  c1_ <- column (pt_v1 p) n ;;
  _ <- (if (length c1_ =? 0)%nat then Err ValueError else Ok tt) ;;
  v <- zipw (fun a b => cdivs (cadd a b) n2) (fftshift c0 (fft c0_)) (fftshift c0 (fft c1_)) ;;
  first <- py_get (pt_i0 p) 0 ;;
  ci <- column (first :: pt_i0 p) n ;;
  let i := mk (length ci - 1) (fun m => (get ci m + get ci (S m)) / n2) in
  Ok (f, v, fftshift c0 (fft i)).
(** probes.py:70-74: [if array == 0.0] needs an array of one element *)
Definition getTerminal (p : port) : res bool :=   (* true: "S" *)
  match pt_pos p with [x] => Ok (x =? n0) | _ => Err ValueError end.
(** probes.py:76-88 *)
Definition get_incident_and_reflected_power_wave (p : port) (conductor : nat) : res (vec N * list cplx * list cplx) :=
  z0 <- py_get (pt_z0 p) conductor ;;
  _ <- passert (negb (z0 =? n0)) ;;
  r <- get_v_i_fft p conductor ;;
  let '(f, v, i) := r in
  s <- getTerminal p ;;
  let i := if s : bool then i else map copp i in
  a <- zipw (fun v i => cdivs (cscal (n1 / n2) (cadd v (cscal z0 i))) (nsqrt z0)) v i ;;
  b <- zipw (fun v i => cdivs (cscal (n1 / n2) (csub v (cscal z0 i))) (nsqrt z0)) v i ;;
  Ok (f, a, b).

(** ** networkExtraction.py *)
(** a 2x2 complex matrix per frequency: entry [row][column] *)
Definition smat : Type := ((cplx * cplx) * (cplx * cplx))%type.
Definition s_get (s : smat) (i j : nat) : cplx :=
  let r := match i with O => fst s | _ => snd s end in match j with O => fst r | _ => snd r end.
(** networkExtraction.py:7-25.  Simplification: the four arrays must have the length of [f] *)
Definition extract_s_reciprocal (p1 : port) (cond1 : nat) (p2 : port) (cond2 : nat) : res (vec N * list smat) :=
  r1 <- get_incident_and_reflected_power_wave p1 cond1 ;;
  let '(f, a1, b1) := r1 in
  r2 <- get_incident_and_reflected_power_wave p2 cond2 ;;
  let '(_, a2, b2) := r2 in
  let n := length f in
  _ <- (if (length a1 =? n) && (length b1 =? n) && (length a2 =? n) && (length b2 =? n) then Ok tt else Err ValueError)%nat ;;
  Ok (f, mk n (fun k => let e l := nth k l c0 in
     ((cdiv (e b1) (e a1), cdiv (e b1) (e a2)), (cdiv (e b2) (e a1), cdiv (e b2) (e a2))))).

(** a terminal and a conductor: ("S", 0) *)
Definition pname : Type := (string * nat)%type.
Definition pname_eqb (a b : pname) : bool := String.eqb (fst a) (fst b) && (snd a =? snd b)%nat.

(** networkExtraction.py:53-75 after the assertion, for whatever the two solves return (the waveform built from
    [fMax] is passed to them and not modelled; skrf's containers are the pair of band frequencies and matrices) *)
Definition assemble (solved : pname -> pname -> res (vec N * list smat)) (fMin fMax : N) (p1 p2 : pname) : res (vec N * list smat) :=
  l1 <- solved p1 p2 ;;
  l2 <- solved p2 p1 ;;
  let f := fst l2 in
  let n := length f in
  _ <- (if (length (snd l1) =? n) && (length (snd l2) =? n) then Ok tt else Err ValueError)%nat ;;
  let d := ((c0, c0), (c0, c0)) in
  let s := mk n (fun k => let x := nth k (snd l1) d in let y := nth k (snd l2) d in
     ((s_get x 0 0, s_get y 1 0), (s_get x 1 0, s_get y 0 0))) in
  let keep := filter (fun fs => (fMin <=? fst fs) && (fst fs <? fMax)) (combine f s) in
  Ok (map fst keep, map snd keep).
(** networkExtraction.py:27-50: reads attribute [x] of the copied line, which class MTL does not have *)
Definition getSolvedProbesFromLine (m : mtl N) (p1 p2 : pname) : res (vec N * list smat) :=
  let _ := create_clean_copy m in Err AttributeError.
(** networkExtraction.py:53-75; 1/fMax is a division of Python numbers *)
Definition extract_2p_network (m : mtl N) (fMin fMax : N) (p1 p2 : pname) : res (vec N * list smat) :=
  _ <- passert (negb (pname_eqb p1 p2)) ;;
  _ <- (if fMax =? n0 then Err ZeroDivisionError else Ok tt) ;;
  assemble (getSolvedProbesFromLine m) fMin fMax p1 p2.

(** mtl.py:520-540: reads attribute [z], which class MTL does not have; with another terminal the local
    variable x0 is unbound *)
Definition add_port_probe (m : mtl N) (terminal : nat) : res port :=
  if (terminal <=? 1)%nat then Err AttributeError else Err NameError.
End Extract.
Arguments port N : clear implicits.
Arguments smat N : clear implicits.
