(** Model of classes Field and PlaneWave (python/src/mtl.py:25-79) and of the methods that
    illuminate lines and bundles with them (mtl.py:460-506, 846-879; mtln.py:52-61). *)
From Coq Require Import String List Arith ZArith Bool.
From Verif Require Import Num Py Arr Utils Probes Dispersive Line Bundle Networks Mtln.
Import ListNotations.

Section Fields.
Context {N : num}.
Local Open Scope num_scope.
Variable LA : lapack N.
(** [sp.Integral(e, (x, a, b))] evaluated by the lambdified function (scipy's quadrature) is an
    oracle: integrand, lower and upper end *)
Variable integ : (N -> N) -> N -> N -> N.

(** a sympy expression in the symbols x, y, z, v, t, represented by its value.
    Simplification: expressions are total functions of the five symbols. *)
Definition expr : Type := N -> N -> N -> N -> N -> N.
(** mtl.py:25-29 *)
Record field := Field { e_x : expr; e_y : expr; e_z : expr }.

(** np.isclose(a, b, rtol=0.01) with the default atol=1e-8 *)
Definition isclose (a b : N) : bool :=
  nabs (a - b) <=? n1 / nofZ 100000000 + n1 / nofZ 100 * nabs b.

(** mtl.py:31-34 *)
Definition compute_eL_at_segment (f : field) (du : vec N) : res expr :=
  let d := vdivs du (vnorm du) in
  _ <- passert (isclose (vnorm d) n1) ;;
  Ok (fun x y z v t => e_x f x y z v t * get d 0 + e_y f x y z v t * get d 1 + e_z f x y z v t * get d 2).

(** [distances.shape == (n, nodes, 3)]: mtl.py:474, 848 *)
Definition has_shape (d : ten N) (n nodes : nat) : bool :=
  (length d =? n)%nat && forallb (fun r => (length r =? nodes)%nat && forallb (fun p => (length p =? 3)%nat) r) d.

(** the values of the lambdified expressions of mtl.py:495-496, 866-867 *)
Definition long_term (eL : expr) (u du dist : vec N) (v : N) : N -> N := fun t =>
  eL (get u 0 + get dist 0 - nhalf * get du 0) (get u 1 + get dist 1 - nhalf * get du 1) (get u 2 + get dist 2 - nhalf * get du 2) v t
  - eL (get u 0 - nhalf * get du 0) (get u 1 - nhalf * get du 1) (get u 2 - nhalf * get du 2) v t.
(** mtl.py:493-494, 498-501, 502-506 (and 864-865, 869-879): [l] is the vector of absolute values of
    the distances divided by its norm *)
Definition tran_term (f : field) (u dist : vec N) (v : N) : N -> N := fun t =>
  let a := mk 3 (fun i => nabs (get dist i)) in
  let l := vdivs a (vnorm a) in
  get l 0 * integ (fun x => e_x f x (get u 1) (get u 2) v t) (get u 0) (get u 0 + get dist 0)
  + get l 1 * integ (fun y => e_y f (get u 0) y (get u 2) v t) (get u 1) (get u 1 + get dist 1)
  + get l 2 * integ (fun z => e_z f (get u 0) (get u 1) z v t) (get u 2) (get u 2 + get dist 2).

(** state of the loops: e_L, e_T and the local variables x0, y0, z0 (unbound before the first cell) *)
Definition lit : Type := list (list (N -> N)) * list (list (N -> N)) * option (vec N).
(** body of the inner loop: mtl.py:488-501, 859-872 *)
Definition light_cell (f : field) (u du : mat N) (dist : ten N) (vu : mat N) (n : nat) (st : lit) (nz : nat) : res lit :=
  let '(eL, eT, _) := st in
  du_k <- py_get du nz ;;
  e <- compute_eL_at_segment f du_k ;;
  u_k <- py_get u nz ;;
  d_n <- py_get dist n ;;
  d_k <- py_get d_n nz ;;
  v_k <- py_get vu nz ;;
  v <- vmax v_k ;;
  Ok (upd2 eL n nz (long_term e u_k du_k d_k v), upd2 eT n nz (tran_term f u_k d_k v), Some u_k).
(** body of the outer loop: mtl.py:486-506, 857-879; the term of the last node uses the x0, y0, z0 left by the inner loop *)
Definition light_conductor (f : field) (u du : mat N) (dist : ten N) (vu : mat N) (cells : nat) (indices : list nat) (st : lit) (n : nat) : res lit :=
  st1 <- foldM (light_cell f u du dist vu n) indices st ;;
  let '(eL, eT, last) := st1 in
  d_n <- py_get dist n ;;
  d_k <- py_get d_n (length d_n - 1) ;;
  u_k <- of_option NameError last ;;
  v_k <- py_get vu (length vu - 1) ;;
  v <- vmax v_k ;;
  Ok (eL, upd2 eT n cells (tran_term f u_k d_k v), Some u_k).

(** [indices]: mtl.py:477-482 ([closed] = false), 850-855 ([closed] = true) *)
Definition lit_cells (closed : bool) (u : mat N) (cells : nat) (loc : list (vec N)) : res (list nat) :=
  match loc with
  | [] => Ok (seq 0 cells)
  | [_] => Err IndexError
  | a :: b :: _ =>
      let i1 := nearest u a in let i2 := nearest u b in
      Ok (seq i1 ((if closed then S i2 else i2) - i1))
  end.

(** the part shared by the two methods; [n] conductors are illuminated *)
Definition illuminate (closed : bool) (n : nat) (u du : mat N) (s : core N) (f : field) (dist : ten N) (loc : list (vec N)) : res (core N) :=
  _ <- passert (has_shape dist n (length u)) ;;
  is <- lit_cells closed u (k_N s) loc ;;
  st <- foldM (light_conductor f u du dist (get_phase_velocities LA s) (k_N s) is) (seq 0 n) (k_eL s, k_eT s, None) ;;
  Ok (set_fields s (fst (fst st)) (snd (fst st))).

(** mtl.py:471-506 *)
Definition mtl_add_external_field (m : mtl N) (f : field) (dist : ten N) (loc : list (vec N)) : res (mtl N) :=
  s <- illuminate false (k_n (m_core m)) (m_u m) (m_du m) (m_core m) f dist loc ;;
  Ok (m_set_core m s).

(** mtl.py:846-879; only the conductors of the outermost line are illuminated *)
Definition outer_conductors (b : bundle N) : res nat :=
  lv <- of_option KeyError (nth_error (b_levels b) 0) ;;
  m <- py_get lv 0 ;;
  Ok (k_n (m_core m)).
Definition bundle_add_external_field (b : bundle N) (f : field) (dist : ten N) (loc : list (vec N)) : res (bundle N) :=
  n <- outer_conductors b ;;
  s <- illuminate true n (b_u b) (b_du b) (b_core b) f dist loc ;;
  Ok (b_set_core b s).

(** mtln.py:56-58: all bundles, with the same distances *)
Definition mtln_add_external_field (x : mtln N) (f : field) (dist : ten N) : res (mtln N) :=
  bs <- map_bundles (fun b => bundle_add_external_field b f dist []) (t_bundles x) ;;
  Ok (t_set x bs (t_networks x)).
(** mtln.py:60-61 *)
Definition mtln_add_localized_external_field (x : mtln N) (name : string) (f : field) (dist : ten N) (loc : list (vec N)) : res (mtln N) :=
  b <- of_option KeyError (dget String.eqb name (t_bundles x)) ;;
  b' <- bundle_add_external_field b f dist loc ;;
  Ok (t_set x (dset String.eqb name b' (t_bundles x)) (t_networks x)).
(** mtln.py:52-54: class MTLD has no method add_planewave *)
Definition mtln_add_planewave (x : mtln N) : res (mtln N) :=
  match t_bundles x with [] => Ok x | _ :: _ => Err AttributeError end.

(** ** plane waves *)
(** mtl.py:36-47; the attributes set by compute_directions are computed from the angles *)
Record planewave := PlaneWave { pw_field : N -> N; pw_polar : N; pw_azimuth : N; pw_polarization : N }.
(** mtl.py:49-52: ex, ey, ez *)
Definition compute_directions (p z d : N) : vec N :=
  [ nsin d * nsin p;
    - nsin d * ncos p * ncos z - ncos d * nsin z;
    - nsin d * ncos p * nsin z + ncos d * ncos z ].
Definition pw_e (w : planewave) : vec N := compute_directions (pw_polar w) (pw_azimuth w) (pw_polarization w).
(** mtl.py:54-57: vx, vy, vz (numpy division: no exception) *)
Definition compute_velocities (w : planewave) (v : N) : vec N :=
  [ - v / ncos (pw_polar w);
    - v / (nsin (pw_polar w) * ncos (pw_azimuth w));
    - v / (nsin (pw_polar w) * nsin (pw_azimuth w)) ].
(** mtl.py:464-468: the field components of the wave travelling at speed [v] *)
Definition planewave_field (w : planewave) (v : N) : field :=
  let c := compute_velocities w v in
  let e0 : expr := fun x y z _ t => pw_field w (t - x / get c 0 - y / get c 1 - z / get c 2) in
  {| e_x := fun x y z s t => e0 x y z s t * get (pw_e w) 0;
     e_y := fun x y z s t => e0 x y z s t * get (pw_e w) 1;
     e_z := fun x y z s t => e0 x y z s t * get (pw_e w) 2 |}.
(** mtl.py:460-469 *)
Definition mtl_add_planewave (m : mtl N) (w : planewave) (dist : ten N) : res (mtl N) :=
  v <- vmax (concat (get_phase_velocities LA (m_core m))) ;;
  mtl_add_external_field m (planewave_field w v) dist [].
End Fields.
Arguments expr N : clear implicits.
Arguments field N : clear implicits.
Arguments planewave N : clear implicits.
Arguments lit N : clear implicits.
