(** Model of python/src/dispersive.py. *)
From Coq Require Import String List Arith ZArith Bool.
From Verif Require Import Num Py Arr Probes.
Import ListNotations.

Section Dispersive.
Context {N : num}.
Local Open Scope num_scope.

(** numpy complex128 *)
Definition cplx : Type := (N * N)%type.
Definition c0 : cplx := (n0, n0).
Definition c1 : cplx := (n1, n0).
Definition cadd (a b : cplx) : cplx := (fst a + fst b, snd a + snd b).
Definition csub (a b : cplx) : cplx := (fst a - fst b, snd a - snd b).
Definition copp (a : cplx) : cplx := (- fst a, - snd a).
Definition cmul (a b : cplx) : cplx :=
  (fst a * fst b - snd a * snd b, fst a * snd b + snd a * fst b).
Definition cscal (s : N) (a : cplx) : cplx := (s * fst a, s * snd a).
Definition cdivs (a : cplx) (s : N) : cplx := (fst a / s, snd a / s).
Definition cdiv (a b : cplx) : cplx :=
  let d := nsq (fst b) + nsq (snd b) in
  ((fst a * fst b + snd a * snd b) / d, (snd a * fst b - fst a * snd b) / d).
Definition cexp (a : cplx) : cplx :=
  (nexp (fst a) * ncos (snd a), nexp (fst a) * nsin (snd a)).

(** An entry of the object arrays phi, q1, q2, q3: the integer 0, a complex scalar or a
    complex array with one entry per pole.  A scalar behaves exactly like an array of
    length one under numpy broadcasting and np.sum, so all are lists. *)
Definition qe := list cplx.
Definition qzero : qe := [c0].

(** elementwise operation with numpy broadcasting *)
Definition bop (f : cplx -> cplx -> cplx) (a b : qe) : res qe :=
  if (length a =? length b)%nat then Ok (mk (length a) (fun k => f (nth k a c0) (nth k b c0)))
  else if (length a =? 1)%nat then Ok (map (f (nth 0 a c0)) b)
  else if (length b =? 1)%nat then Ok (map (fun x => f x (nth 0 b c0)) a)
  else Err ValueError.

(** one entry of v_sum, dispersive.py:74-75: np.sum converted to float drops the
    imaginary part (numpy issues a ComplexWarning) *)
Definition qsum (a : qe) : N := fst (fold_left cadd a c0).

(** dispersive.py:5-72.  [ds_u], [ds_nx], [ds_n] are constructor arguments. *)
Record disp := Disp {
  ds_n : nat;
  ds_nx : nat;
  ds_u : mat N;
  ds_dt : N;
  ds_phi : list (list qe);          (* nx x n *)
  ds_q1 : list (list (list qe));    (* nx x n x n *)
  ds_q2 : list (list (list qe));
  ds_q3 : list (list (list qe));
  ds_q3phi : mat N;                 (* nx x n *)
  ds_d : ten N;                     (* nx x n x n *)
  ds_e : ten N;
  ds_q1sum : ten N;
  ds_q2sum : ten N
}.

Definition zeros3 (k n m : nat) : ten N := mk k (fun _ => zeros2 n m).
Definition qzeros2 (n m : nat) : list (list qe) := mk2 n m (fun _ _ => qzero).
Definition qzeros3 (k n m : nat) : list (list (list qe)) := mk k (fun _ => qzeros2 n m).

(** dispersive.py:5-72 *)
Definition disp_new (n nx : nat) (u : mat N) (dt : N) : disp :=
  {| ds_n := n; ds_nx := nx; ds_u := u; ds_dt := dt;
     ds_phi := qzeros2 nx n;
     ds_q1 := qzeros3 nx n n; ds_q2 := qzeros3 nx n n; ds_q3 := qzeros3 nx n n;
     ds_q3phi := zeros2 nx n;
     ds_d := zeros3 nx n n; ds_e := zeros3 nx n n;
     ds_q1sum := zeros3 nx n n; ds_q2sum := zeros3 nx n n |}.

Definition qget2 (m : list (list qe)) (i j : nat) : qe := nth j (nth i m []) qzero.
Definition qget3 (t : list (list (list qe))) (k i j : nat) : qe := qget2 (nth k t []) i j.

(** numpy's dot of an object row with a float column / an object column:
    r[0]*x[0] + r[1]*x[1] + ... *)
Definition qdot (n : nat) (row : nat -> qe) (x : nat -> N) : res qe :=
  match n with
  | O => Ok qzero
  | S k => foldM (fun acc j => bop cadd acc (map (cscal (x j)) (row j)))
             (seq 1 k) (map (cscal (x 0%nat)) (row 0%nat))
  end.
Definition qdotq (n : nat) (row : nat -> qe) (x : nat -> qe) : res qe :=
  match n with
  | O => Ok qzero
  | S k => first <- bop cmul (row 0%nat) (x 0%nat) ;;
           foldM (fun acc j => p <- bop cmul (row j) (x j) ;; bop cadd acc p) (seq 1 k) first
  end.

(** dispersive.py:77-79 *)
Definition update_q3_phi_term (s : disp) : res disp :=
  t <- mapM (fun kz => mapM (fun c =>
               q <- qdotq (ds_n s) (fun j => qget3 (ds_q3 s) kz c j)
                                   (fun j => qget2 (ds_phi s) kz j) ;;
               Ok (qsum q)) (seq 0 (ds_n s))) (seq 0 (ds_nx s)) ;;
  Ok {| ds_n := ds_n s; ds_nx := ds_nx s; ds_u := ds_u s; ds_dt := ds_dt s;
        ds_phi := ds_phi s; ds_q1 := ds_q1 s; ds_q2 := ds_q2 s; ds_q3 := ds_q3 s;
        ds_q3phi := t; ds_d := ds_d s; ds_e := ds_e s;
        ds_q1sum := ds_q1sum s; ds_q2sum := ds_q2sum s |}.

(** dispersive.py:81-87 *)
Definition update_phi (s : disp) (i_prev i_now : mat N) : res disp :=
  phi <- mapM (fun kz => mapM (fun c =>
           a <- qdot (ds_n s) (fun j => qget3 (ds_q1 s) kz c j) (fun j => get2 i_now j kz) ;;
           b <- qdot (ds_n s) (fun j => qget3 (ds_q2 s) kz c j) (fun j => get2 i_prev j kz) ;;
           q <- qdotq (ds_n s) (fun j => qget3 (ds_q3 s) kz c j)
                               (fun j => qget2 (ds_phi s) kz j) ;;
           ab <- bop cadd a b ;;
           bop cadd ab q) (seq 0 (ds_n s))) (seq 0 (ds_nx s)) ;;
  Ok {| ds_n := ds_n s; ds_nx := ds_nx s; ds_u := ds_u s; ds_dt := ds_dt s;
        ds_phi := phi; ds_q1 := ds_q1 s; ds_q2 := ds_q2 s; ds_q3 := ds_q3 s;
        ds_q3phi := ds_q3phi s; ds_d := ds_d s; ds_e := ds_e s;
        ds_q1sum := ds_q1sum s; ds_q2sum := ds_q2sum s |}.

(** the rational model: constant and proportional term, poles and residues given as
    separate real and imaginary lists, optional factor, direction *)
Record ratmodel := RatModel {
  rm_cte : N;
  rm_prop : N;
  rm_pre : vec N; rm_pim : vec N;
  rm_rre : vec N; rm_rim : vec N;
  rm_factor : option N;
  rm_direction : string
}.

(** dispersive.py:110-113, 167-170, 240-243 *)
Definition rm_check (m : ratmodel) : res unit :=
  _ <- passert (length (rm_pre m) =? length (rm_pim m))%nat ;;
  _ <- passert (length (rm_rre m) =? length (rm_rim m))%nat ;;
  _ <- passert (length (rm_pre m) =? length (rm_rre m))%nat ;;
  passert (length (rm_pim m) =? length (rm_rim m))%nat.

(** dispersive.py:115-120, 172-177, 245-250 *)
Definition rm_poles (m : ratmodel) : list cplx :=
  mk (length (rm_pre m)) (fun k => (get (rm_pre m) k, get (rm_pim m) k)).
Definition rm_residues (m : ratmodel) (factor : N) : list cplx :=
  mk (length (rm_pre m)) (fun k => cdivs (get (rm_rre m) k, get (rm_rim m) k) factor).

(** the three coefficient formulas shared by all branches:
    w1 = (r/p)*(1 - (exp(p dt) - 1)/(p dt))
    w2 = (r/p)*(1/(p dt) + exp(p dt)*(1 - 1/(p dt)))
    w3 = exp(p dt)
    (dispersive.py:134-141, 198-205, 211-218, 270-277, 283-290) *)
Definition w1 (dt : N) (r p : cplx) : cplx :=
  let pdt := cscal dt p in
  cmul (cdiv r p) (csub c1 (cdiv (csub (cexp pdt) c1) pdt)).
Definition w2 (dt : N) (r p : cplx) : cplx :=
  let pdt := cscal dt p in
  cmul (cdiv r p) (cadd (cdiv c1 pdt) (cmul (cexp pdt) (csub c1 (cdiv c1 pdt)))).
Definition w3 (dt : N) (p : cplx) : cplx := cexp (cscal dt p).

Definition zipc (f : cplx -> cplx -> cplx) (a b : list cplx) : list cplx :=
  mk (length a) (fun k => f (nth k a c0) (nth k b c0)).

(** in-place update of one entry of an nx x n x n array *)
Definition upd2 {A} (m : list (list A)) (i j : nat) (x : A) : list (list A) :=
  lset m i (lset (nth i m []) j x).
Definition upd3 {A} (t : list (list (list A))) (k i j : nat) (x : A) : list (list (list A)) :=
  lset t k (upd2 (nth k t []) i j x).

(** v_sum of a whole nx x n x n array (dispersive.py:143-144, 220-221, 292-293) *)
Definition qsum3 (t : list (list (list qe))) : ten N := map (map (map qsum)) t.

(** [assert entry == 0.0] (dispersive.py:125-127): a length-one entry compares by value, a
    longer array has an ambiguous truth value (ValueError), an empty one is falsy *)
Definition assert_qzero (q : qe) : res unit :=
  match q with
  | [] => Err AssertionError
  | [z] => passert ((fst z =? n0) && (snd z =? n0))
  | _ => Err ValueError
  end.

(** dispersive.py:101-144.  [index+1] past the last node raises IndexError. *)
Definition add_dispersive_connector (s : disp) (position : vec N) (conductor : nat)
    (model : ratmodel) : res disp :=
  let u := ds_u s in
  let last := nth (length u - 1) u [] in
  let first := nth 0 u [] in
  if existsb (fun k => get last k <? get position k) (seq 0 3)
     || existsb (fun k => get position k <? get first k) (seq 0 3)
  then Err ValueError
  else
  let index := nearest u position in
  next <- py_get u (index + 1) ;;
  let du := vnorm (vsub next (nth index u [])) in
  let d := rm_cte model / du in
  let e := rm_prop model / du in
  _ <- rm_check model ;;
  let poles := rm_poles model in
  let residues := rm_residues model du in
  if negb (conductor <? ds_n s)%nat then Err IndexError else
  _ <- passert (get3 (ds_d s) index conductor conductor =? n0) ;;
  _ <- passert (get3 (ds_e s) index conductor conductor =? n0) ;;
  _ <- assert_qzero (qget3 (ds_q1 s) index conductor conductor) ;;
  _ <- assert_qzero (qget3 (ds_q2 s) index conductor conductor) ;;
  _ <- assert_qzero (qget3 (ds_q3 s) index conductor conductor) ;;
  let d' := upd3 (ds_d s) index conductor conductor
              (get3 (ds_d s) index conductor conductor + d) in
  let e' := upd3 (ds_e s) index conductor conductor
              (get3 (ds_e s) index conductor conductor + e) in
  a <- bop csub (qget3 (ds_q1 s) index conductor conductor) (zipc (w1 (ds_dt s)) residues poles) ;;
  b <- bop cadd (qget3 (ds_q2 s) index conductor conductor) (zipc (w2 (ds_dt s)) residues poles) ;;
  c <- bop cadd (qget3 (ds_q3 s) index conductor conductor) (map (w3 (ds_dt s)) poles) ;;
  let q1' := upd3 (ds_q1 s) index conductor conductor a in
  let q2' := upd3 (ds_q2 s) index conductor conductor b in
  let q3' := upd3 (ds_q3 s) index conductor conductor c in
  Ok {| ds_n := ds_n s; ds_nx := ds_nx s; ds_u := ds_u s; ds_dt := ds_dt s;
        ds_phi := ds_phi s; ds_q1 := q1'; ds_q2 := q2'; ds_q3 := q3';
        ds_q3phi := ds_q3phi s; ds_d := d'; ds_e := e';
        ds_q1sum := qsum3 q1'; ds_q2sum := qsum3 q2' |}.

(** [self.q[:, i, j] (op)= arr] (dispersive.py:198-218): the slice has shape (nx,), the
    right-hand side shape (number of poles,).  numpy broadcasts over CELLS: one pole is
    added everywhere, exactly nx poles are spread one per cell, otherwise ValueError. *)
Definition slice_iop (f : cplx -> cplx -> cplx) (nx : nat) (t : list (list (list qe)))
    (i j : nat) (arr : list cplx) : res (list (list (list qe))) :=
  if (length arr =? 1)%nat then
    Ok (fold_left (fun t' k =>
          upd3 t' k i j (map (fun x => f x (nth 0 arr c0)) (qget3 t' k i j))) (seq 0 nx) t)
  else if (length arr =? nx)%nat then
    Ok (fold_left (fun t' k =>
          upd3 t' k i j (map (fun x => f x (nth k arr c0)) (qget3 t' k i j))) (seq 0 nx) t)
  else Err ValueError.

(** [self.d[:, i, j] -= d] *)
Definition slice_sub (nx : nat) (t : ten N) (i j : nat) (x : N) : ten N :=
  fold_left (fun t' k => upd3 t' k i j (get3 t' k i j - x)) (seq 0 nx) t.

(** entries of row [i] column [j] of all cells lowered by the model:
    dispersive.py:195-205 (with (i,j) = (inner, outer)) and 208-218 (outer, inner) *)
Definition ti_pair (s : disp) (i j : nat) (d e : N) (poles residues : list cplx) : res disp :=
  if negb ((i <? ds_n s)%nat && (j <? ds_n s)%nat) then Err IndexError else
  let d' := slice_sub (ds_nx s) (ds_d s) i j d in
  let e' := slice_sub (ds_nx s) (ds_e s) i j e in
  if negb (length residues =? 0)%nat && negb (length poles =? 0)%nat then
    q1' <- slice_iop cadd (ds_nx s) (ds_q1 s) i j (zipc (w1 (ds_dt s)) residues poles) ;;
    q2' <- slice_iop csub (ds_nx s) (ds_q2 s) i j (zipc (w2 (ds_dt s)) residues poles) ;;
    q3' <- slice_iop csub (ds_nx s) (ds_q3 s) i j (map (w3 (ds_dt s)) poles) ;;
    Ok {| ds_n := ds_n s; ds_nx := ds_nx s; ds_u := ds_u s; ds_dt := ds_dt s;
          ds_phi := ds_phi s; ds_q1 := q1'; ds_q2 := q2'; ds_q3 := q3';
          ds_q3phi := ds_q3phi s; ds_d := d'; ds_e := e';
          ds_q1sum := ds_q1sum s; ds_q2sum := ds_q2sum s |}
  else
    Ok {| ds_n := ds_n s; ds_nx := ds_nx s; ds_u := ds_u s; ds_dt := ds_dt s;
          ds_phi := ds_phi s; ds_q1 := ds_q1 s; ds_q2 := ds_q2 s; ds_q3 := ds_q3 s;
          ds_q3phi := ds_q3phi s; ds_d := d'; ds_e := e';
          ds_q1sum := ds_q1sum s; ds_q2sum := ds_q2sum s |}.

Definition with_sums (s : disp) : disp :=
  {| ds_n := ds_n s; ds_nx := ds_nx s; ds_u := ds_u s; ds_dt := ds_dt s;
     ds_phi := ds_phi s; ds_q1 := ds_q1 s; ds_q2 := ds_q2 s; ds_q3 := ds_q3 s;
     ds_q3phi := ds_q3phi s; ds_d := ds_d s; ds_e := ds_e s;
     ds_q1sum := qsum3 (ds_q1 s); ds_q2sum := qsum3 (ds_q2 s) |}.

(** Python's [direction == ("in" or "both")]: the parenthesis evaluates to "in";
    likewise ("out" or "both") is "out" (dispersive.py:194, 207, 266, 279) *)
Definition dir_in (m : ratmodel) : bool := String.eqb (rm_direction m) "in".
Definition dir_out (m : ratmodel) : bool := String.eqb (rm_direction m) "out".

(** dispersive.py:160-165, 233-238 *)
Definition rm_f (m : ratmodel) : N := match rm_factor m with Some f => f | None => n1 end.

(** dispersive.py:180, 252 *)
Definition rm_null (m : ratmodel) (d e : N) : bool :=
  (d =? n0) && (e =? n0) && (length (rm_pre m) =? 0)%nat.

(** number of conductors in the levels before [level] (dispersive.py:183-184) *)
Definition n_before (levels : list nat) (level : nat) : nat :=
  fold_left Nat.add (firstn level levels) 0%nat.

(** |a - b| == 1 on level numbers *)
Definition adjacent (a b : nat) : bool := ((a =? S b) || (b =? S a))%nat.

(** dispersive.py:151-221 *)
Definition add_transfer_impedance (s : disp) (levels : list nat)
    (out_level : nat) (out_cond : list nat) (in_level : nat) (in_cond : list nat)
    (model : ratmodel) : res disp :=
  _ <- passert (adjacent out_level in_level) ;;
  if rm_f model =? n0 then Err ZeroDivisionError else
  let d := rm_cte model / rm_f model in
  let e := rm_prop model / rm_f model in
  _ <- rm_check model ;;
  let poles := rm_poles model in
  let residues := rm_residues model (rm_f model) in
  if rm_null model d e then Ok s else
  let range_out := map (fun c => n_before levels out_level + c)%nat out_cond in
  let range_in := map (fun c => n_before levels in_level + c)%nat in_cond in
  s' <- foldM (fun s i => foldM (fun s j =>
          s1 <- (if dir_in model then ti_pair s j i d e poles residues else Ok s) ;;
          (if dir_out model then ti_pair s1 i j d e poles residues else Ok s1))
          range_in s) range_out s ;;
  Ok (with_sums s').

(** dispersive.py:267-277 and 280-290: [self.d[index, i, j] = -d] ... (full integer index,
    so the whole pole array is stored in the entry) *)
Definition ti_set (s : disp) (index i j : nat) (d e : N) (poles residues : list cplx) : res disp :=
  if negb ((i <? ds_n s)%nat && (j <? ds_n s)%nat) then Err IndexError else
  let d' := upd3 (ds_d s) index i j (- d) in
  let e' := upd3 (ds_e s) index i j (- e) in
  if negb (length residues =? 0)%nat && negb (length poles =? 0)%nat then
    Ok {| ds_n := ds_n s; ds_nx := ds_nx s; ds_u := ds_u s; ds_dt := ds_dt s;
          ds_phi := ds_phi s;
          ds_q1 := upd3 (ds_q1 s) index i j (zipc (w1 (ds_dt s)) residues poles);
          ds_q2 := upd3 (ds_q2 s) index i j (map copp (zipc (w2 (ds_dt s)) residues poles));
          ds_q3 := upd3 (ds_q3 s) index i j (map copp (map (w3 (ds_dt s)) poles));
          ds_q3phi := ds_q3phi s; ds_d := d'; ds_e := e';
          ds_q1sum := ds_q1sum s; ds_q2sum := ds_q2sum s |}
  else
    Ok {| ds_n := ds_n s; ds_nx := ds_nx s; ds_u := ds_u s; ds_dt := ds_dt s;
          ds_phi := ds_phi s; ds_q1 := ds_q1 s; ds_q2 := ds_q2 s; ds_q3 := ds_q3 s;
          ds_q3phi := ds_q3phi s; ds_d := d'; ds_e := e';
          ds_q1sum := ds_q1sum s; ds_q2sum := ds_q2sum s |}.

(** dispersive.py:223-293; the callers pass index 0 or -1 = nx-1 (mtl.py:951-962) *)
Definition set_transfer_impedance_at_index (s : disp) (levels : list nat)
    (out_level : nat) (out_cond : list nat) (in_level : nat) (in_cond : list nat)
    (index : nat) (model : ratmodel) : res disp :=
  _ <- passert (adjacent out_level in_level) ;;
  if rm_f model =? n0 then Err ZeroDivisionError else
  let d := rm_cte model / rm_f model in
  let e := rm_prop model / rm_f model in
  _ <- rm_check model ;;
  let poles := rm_poles model in
  let residues := rm_residues model (rm_f model) in
  if rm_null model d e then Ok s else
  let range_out := map (fun c => n_before levels out_level + c)%nat out_cond in
  let range_in := map (fun c => n_before levels in_level + c)%nat in_cond in
  s' <- foldM (fun s i => foldM (fun s j =>
          s1 <- (if dir_in model then ti_set s index j i d e poles residues else Ok s) ;;
          (if dir_out model then ti_set s1 index i j d e poles residues else Ok s1))
          range_in s) range_out s ;;
  Ok (with_sums s').

End Dispersive.
Arguments cplx N : clear implicits.
Arguments qe N : clear implicits.
Arguments disp N : clear implicits.
Arguments ratmodel N : clear implicits.
