(** Model of class MTL (python/src/mtl.py:82-601) and of the update formulas shared
    textually by MTL and MTLD. *)
From Coq Require Import String List Arith ZArith Bool.
From Verif Require Import Num Py Arr Probes Dispersive.
Import ListNotations.

Section Line.
Context {N : num}.
Local Open Scope num_scope.

(** ** State shared by MTL and MTLD *)
Record core := Core {
  k_n : nat;                      (* number_of_conductors *)
  k_N : nat;                      (* number of cells = u.shape[0] - 1 *)
  k_h : ten N;                    (* du_norm: one diagonal n x n matrix per cell *)
  k_l : ten N; k_r : ten N;       (* per cell *)
  k_c : ten N; k_g : ten N;       (* per node *)
  k_dt : N;
  k_disp : disp N;                (* MTL.connectors / MTLD.transfer_impedance *)
  k_v : mat N;                    (* conductors x nodes *)
  k_i : mat N;                    (* conductors x cells *)
  k_eL : list (list (N -> N));    (* conductors x cells *)
  k_eT : list (list (N -> N));    (* conductors x nodes *)
  k_lr : option (ten N * ten N);  (* (i_term, v_diff), missing before update_lr_terms *)
  k_cg : option (ten N * ten N)   (* (v_term, i_diff), missing before update_cg_terms *)
}.

Definition set_v (s : core) (v : mat N) : core :=
  {| k_n := k_n s; k_N := k_N s; k_h := k_h s; k_l := k_l s; k_r := k_r s; k_c := k_c s;
     k_g := k_g s; k_dt := k_dt s; k_disp := k_disp s; k_v := v; k_i := k_i s;
     k_eL := k_eL s; k_eT := k_eT s; k_lr := k_lr s; k_cg := k_cg s |}.
Definition set_i_disp (s : core) (i : mat N) (d : disp N) : core :=
  {| k_n := k_n s; k_N := k_N s; k_h := k_h s; k_l := k_l s; k_r := k_r s; k_c := k_c s;
     k_g := k_g s; k_dt := k_dt s; k_disp := d; k_v := k_v s; k_i := i;
     k_eL := k_eL s; k_eT := k_eT s; k_lr := k_lr s; k_cg := k_cg s |}.
Definition set_dt (s : core) (dt : N) : core :=
  {| k_n := k_n s; k_N := k_N s; k_h := k_h s; k_l := k_l s; k_r := k_r s; k_c := k_c s;
     k_g := k_g s; k_dt := dt; k_disp := k_disp s; k_v := k_v s; k_i := k_i s;
     k_eL := k_eL s; k_eT := k_eT s; k_lr := k_lr s; k_cg := k_cg s |}.
Definition set_disp (s : core) (d : disp N) : core := set_i_disp s (k_i s) d.
Definition set_r (s : core) (r : ten N) : core :=
  {| k_n := k_n s; k_N := k_N s; k_h := k_h s; k_l := k_l s; k_r := r; k_c := k_c s;
     k_g := k_g s; k_dt := k_dt s; k_disp := k_disp s; k_v := k_v s; k_i := k_i s;
     k_eL := k_eL s; k_eT := k_eT s; k_lr := k_lr s; k_cg := k_cg s |}.
Definition set_g (s : core) (g : ten N) : core :=
  {| k_n := k_n s; k_N := k_N s; k_h := k_h s; k_l := k_l s; k_r := k_r s; k_c := k_c s;
     k_g := g; k_dt := k_dt s; k_disp := k_disp s; k_v := k_v s; k_i := k_i s;
     k_eL := k_eL s; k_eT := k_eT s; k_lr := k_lr s; k_cg := k_cg s |}.
Definition set_fields (s : core) (eL eT : list (list (N -> N))) : core :=
  {| k_n := k_n s; k_N := k_N s; k_h := k_h s; k_l := k_l s; k_r := k_r s; k_c := k_c s;
     k_g := k_g s; k_dt := k_dt s; k_disp := k_disp s; k_v := k_v s; k_i := k_i s;
     k_eL := eL; k_eT := eT; k_lr := k_lr s; k_cg := k_cg s |}.
Definition set_lr (s : core) (t : ten N * ten N) : core :=
  {| k_n := k_n s; k_N := k_N s; k_h := k_h s; k_l := k_l s; k_r := k_r s; k_c := k_c s;
     k_g := k_g s; k_dt := k_dt s; k_disp := k_disp s; k_v := k_v s; k_i := k_i s;
     k_eL := k_eL s; k_eT := k_eT s; k_lr := Some t; k_cg := k_cg s |}.
Definition set_cg (s : core) (t : ten N * ten N) : core :=
  {| k_n := k_n s; k_N := k_N s; k_h := k_h s; k_l := k_l s; k_r := k_r s; k_c := k_c s;
     k_g := k_g s; k_dt := k_dt s; k_disp := k_disp s; k_v := k_v s; k_i := k_i s;
     k_eL := k_eL s; k_eT := k_eT s; k_lr := k_lr s; k_cg := Some t |}.

(** np.vectorize(FunctionType.__call__)(fs, t): evaluate an array of functions at [t] *)
Definition eval_at (fs : list (list (N -> N))) (t : N) : mat N :=
  map (map (fun f => f t)) fs.

(** the four field arrays that update_sources stores
    (mtl.py:313-324, 335-346, 883-894, 899-910) *)
Record fsrc := Fsrc { eL_now : mat N; eL_prev : mat N; eT_now : mat N; eT_prev : mat N }.
Definition eval_fields (eL eT : list (list (N -> N))) (time dt : N) : fsrc :=
  {| eL_now := eval_at eL (time + dt / n2);
     eL_prev := eval_at eL (time - dt / n2);
     eT_now := eval_at eT time;
     eT_prev := eval_at eT (time - dt) |}.

Variable LA : lapack N.
Definition inv (n : nat) (A : mat N) : res (mat N) := of_option LinAlgError (la_inv LA n A).

(** the matrices F1, F2 of cell [k] in update_lr_terms (mtl.py:350-351, 807-812) *)
Definition lr_F1 (s : core) (k : nat) : mat N :=
  let n := k_n s in let d := k_disp s in
  mm n (getm (k_h s) k)
    (madd n (madd n (madd n (madd n
       (mdivs n (getm (k_l s) k) (k_dt s))
       (mscal n nhalf (getm (ds_d d) k)))
       (mdivs n (getm (ds_e d) k) (k_dt s)))
       (mscal n nhalf (getm (k_r s) k)))
       (getm (ds_q1sum d) k)).
Definition lr_F2 (s : core) (k : nat) : mat N :=
  let n := k_n s in let d := k_disp s in
  mm n (getm (k_h s) k)
    (msub n (msub n (madd n (msub n
       (mdivs n (getm (k_l s) k) (k_dt s))
       (mscal n nhalf (getm (ds_d d) k)))
       (mdivs n (getm (ds_e d) k) (k_dt s)))
       (mscal n nhalf (getm (k_r s) k)))
       (getm (ds_q2sum d) k)).

(** mtl.py:348-355, 805-817 *)
Definition update_lr_terms (s : core) : res core :=
  let n := k_n s in
  IF1 <- mapM (fun k => inv n (lr_F1 s k)) (seq 0 (k_N s)) ;;
  Ok (set_lr s (mk (k_N s) (fun k => mm n (getm IF1 k) (lr_F2 s k)), IF1)).

(** node widths (mtl.py:359-363, 821-825) *)
Definition node_width (s : core) (k : nat) : mat N :=
  if (k =? 0)%nat then getm (k_h s) 0
  else if (k =? k_N s)%nat then getm (k_h s) (k_N s - 1)
  else mscal (k_n s) nhalf (madd (k_n s) (getm (k_h s) k) (getm (k_h s) (k - 1))).

Definition cg_F1 (s : core) (k : nat) : mat N :=
  let n := k_n s in
  mm n (node_width s k)
     (madd n (mdivs n (getm (k_c s) k) (k_dt s)) (mdivs n (getm (k_g s) k) n2)).
Definition cg_F2 (s : core) (k : nat) : mat N :=
  let n := k_n s in
  mm n (node_width s k)
     (msub n (mdivs n (getm (k_c s) k) (k_dt s)) (mdivs n (getm (k_g s) k) n2)).

(** mtl.py:357-369, 819-833 *)
Definition update_cg_terms (s : core) : res core :=
  let n := k_n s in
  IF1 <- mapM (fun k => inv n (cg_F1 s k)) (seq 0 (S (k_N s))) ;;
  Ok (set_cg s (mk (S (k_N s)) (fun k => mm n (getm IF1 k) (cg_F2 s k)), IF1)).

(** mtl.py:418-421, 912-915: interior nodes only *)
Definition interior_voltage (s : core) (f : fsrc) (vt idf : ten N) (c k : nat) : N :=
  let n := k_n s in
  sumn n (fun j => get3 vt k c j * get2 (k_v s) j k)
  - sumn n (fun j => get3 idf k c j * (get2 (k_i s) j k - get2 (k_i s) j (k - 1)))
  - (get2 (eT_now f) c k - get2 (eT_prev f) c k).

Definition advance_voltage (s : core) (f : fsrc) : res core :=
  match k_cg s with
  | None => Err AttributeError
  | Some (vt, idf) =>
      Ok (set_v s (mk2 (k_n s) (S (k_N s)) (fun c k =>
            if (0 <? k)%nat && (k <? k_N s)%nat then interior_voltage s f vt idf c k
            else get2 (k_v s) c k)))
  end.

(** right-hand side of mtl.py:427-431, 921-925 for conductor [c], cell [k] *)
Definition cell_current (s : core) (f : fsrc) (it vd : ten N) (c k : nat) : N :=
  let n := k_n s in
  sumn n (fun j => get3 it k c j * get2 (k_i s) j k)
  - sumn n (fun j => get3 vd k c j *
       (get2 (k_v s) j (S k) - get2 (k_v s) j k
        + (get2 (eT_now f) j (S k) - get2 (eT_now f) j k)
        - sumn n (fun m => get3 (k_h s) k j m / n2 *
             (get2 (eL_now f) m k + get2 (eL_prev f) m k))))
  - sumn n (fun j => get3 vd k c j *
       sumn n (fun m => get3 (k_h s) k j m * get2 (ds_q3phi (k_disp s)) k m)).

(** mtl.py:424-434, 918-930.  [i_prev = self.i] is an alias and [self.i[:,:] = ...]
    assigns in place, so update_phi receives the NEW current twice. *)
Definition advance_current (s : core) (f : fsrc) : res core :=
  d1 <- update_q3_phi_term (k_disp s) ;;
  match k_lr s with
  | None => Err AttributeError
  | Some (it, vd) =>
      let s1 := set_disp s d1 in
      let i' := mk2 (k_n s) (k_N s) (fun c k => cell_current s1 f it vd c k) in
      d2 <- update_phi d1 i' i' ;;
      Ok (set_i_disp s i' d2)
  end.

(** mtl.py:282-286, 838-842 *)
Definition get_phase_velocities (s : core) : mat N :=
  mk (k_N s) (fun k =>
    map (fun e => n1 / nsqrt e)
        (la_eig LA (k_n s) (mm (k_n s) (getm (k_l s) k) (getm (k_c s) (S k))))).

(** mtl.py:288-289.  np.nonzero flattens row by row; min of an empty array raises. *)
Definition get_max_timestep (s : core) : res N :=
  hmin <- vmin (filter (fun x => negb (x =? n0)) (concat (concat (k_h s)))) ;;
  vmx <- vmax (concat (get_phase_velocities s)) ;;
  Ok (hmin / vmx).

(** ** Class MTL *)
Record mtl := Mtl {
  m_name : string;
  m_u : mat N;                    (* node positions *)
  m_du : mat N;                   (* cell vectors *)
  m_core : core;
  m_zs : mat N; m_zl : mat N;
  m_lp1 : mat N; m_lp2 : mat N;   (* left_port_term_1, left_port_term_2 *)
  m_rp1 : mat N; m_rp2 : mat N;
  m_vsrc : list (list (N -> N));  (* v_sources: conductors x nodes *)
  m_time : N;
  m_probes : list (probe N)
}.

Definition m_set (m : mtl) (s : core) (time : N) (ps : list (probe N)) : mtl :=
  {| m_name := m_name m; m_u := m_u m; m_du := m_du m; m_core := s; m_zs := m_zs m;
     m_zl := m_zl m; m_lp1 := m_lp1 m; m_lp2 := m_lp2 m; m_rp1 := m_rp1 m;
     m_rp2 := m_rp2 m; m_vsrc := m_vsrc m; m_time := time; m_probes := ps |}.
Definition m_set_core (m : mtl) (s : core) : mtl := m_set m s (m_time m) (m_probes m).
Definition m_set_vsrc (m : mtl) (vs : list (list (N -> N))) : mtl :=
  {| m_name := m_name m; m_u := m_u m; m_du := m_du m; m_core := m_core m; m_zs := m_zs m;
     m_zl := m_zl m; m_lp1 := m_lp1 m; m_lp2 := m_lp2 m; m_rp1 := m_rp1 m;
     m_rp2 := m_rp2 m; m_vsrc := vs; m_time := m_time m; m_probes := m_probes m |}.

(** *** Constructor arguments *)
Inductive pulin :=
| PFloat (x : N)                              (* float or np.float64 *)
| PArr (rows cols : nat) (m : mat N)          (* 2-d ndarray *)
| POther.                                     (* int, list, ... *)
(** Simplification: arrays with another number of dimensions are not represented. *)

Definition const3 (k : nat) (m : mat N) : ten N := mk k (fun _ => m).

(** mtl.py:172-188; returns (l, c, n); [cells] = u.shape[0]-1 *)
Definition init_LC (cells : nat) (l c : pulin) : res (ten N * ten N * nat) :=
  match l, c with
  | PFloat x, PFloat y =>
      Ok (const3 cells [[x]], const3 (S cells) [[y]], 1%nat)
  | PArr r1 c1 ml, PArr r2 c2 mc =>
      _ <- passert ((r1 =? r2)%nat && (c1 =? c2)%nat) ;;
      _ <- passert (r1 =? c1)%nat ;;
      Ok (const3 cells (mk2 r1 r1 (get2 ml)), const3 (S cells) (mk2 r1 r1 (get2 mc)), r1)
  | _, _ => Err ValueError
  end.

(** one half of mtl.py:190-216 ([k] copies) *)
Definition init_rg1 (k n : nat) (x : pulin) : res (ten N) :=
  match x with
  | PFloat y =>
      _ <- (if negb (y =? n0) then passert (n =? 1)%nat else Ok tt) ;;
      Ok (const3 k (mk2 n n (fun _ _ => y)))
  | PArr r c m =>
      _ <- passert (r =? n)%nat ;;
      _ <- passert (r =? c)%nat ;;
      Ok (const3 k (mk2 n n (get2 m)))
  | POther => Err ValueError
  end.

(** mtl.py:190-216: g first, then r; returns (r, g) *)
Definition init_RG (cells n : nat) (r g : pulin) : res (ten N * ten N) :=
  g' <- init_rg1 (S cells) n g ;;
  r' <- init_rg1 cells n r ;;
  Ok (r', g').

Inductive ztin :=
| ZScal (x : N)                         (* anything that is not an ndarray *)
| ZVec (len : nat) (x : vec N)          (* 1-d ndarray *)
| ZMat (rows cols : nat) (m : mat N)    (* 2-d ndarray *)
| ZNd.                                  (* ndarray with 0 or more than 2 dimensions *)

(** [Z * np.eye(n)] with a (1,n) or (n,1) array: numpy broadcasting *)
Definition zt_bcast (n rows cols : nat) (m : mat N) : mat N :=
  mk2 n n (fun i j => get2 m (if (rows =? 1)%nat then 0%nat else i)
                             (if (cols =? 1)%nat then 0%nat else j) * delta i j).

(** mtl.py:219-243.  A one-conductor line given a (1,k) or (k,1) array with k<>1 passes
    the checks here but the following matrix product / inverse raises; the model raises at
    once (ValueError).  [ZNd] pairs leave zs undefined, the next use raises. *)
Definition init_Zt (n : nat) (zs zl : ztin) : res (mat N * mat N) :=
  match zs, zl with
  | ZScal x, ZScal y => Ok (mscal n x (eye n), mscal n y (eye n))
  | ZVec a x, ZVec b y =>
      _ <- passert (a =? b)%nat ;;
      _ <- passert (a =? n)%nat ;;
      Ok (mk2 n n (fun i j => get x i * delta i j), mk2 n n (fun i j => get y i * delta i j))
  | ZMat r1 c1 m1, ZMat r2 c2 m2 =>
      _ <- passert ((r1 =? r2)%nat && (c1 =? c2)%nat) ;;
      _ <- passert ((r1 =? 1)%nat || (c1 =? 1)%nat) ;;
      _ <- passert ((r1 =? n)%nat || (c1 =? n)%nat) ;;
      if ((r1 =? 1)%nat || (r1 =? n)%nat) && ((c1 =? 1)%nat || (c1 =? n)%nat)
      then Ok (zt_bcast n r1 c1 m1, zt_bcast n r2 c2 m2)
      else Err ValueError
  | ZNd, ZNd => Err AttributeError
  | ZScal _, _ => Err ValueError
  | _, ZScal _ => Err ValueError
  | _, _ => Err AssertionError             (* different shapes *)
  end.

(** mtl.py:97-98, 105-118: node positions, cell vectors and cell lengths.  [ju], [jdu] are
    the arbitrary contents of np.empty. *)
Definition geometry (n : nat) (np : mat N) (ndiv : list nat) (ju jdu : nat -> vec N)
  : res (mat N * mat N * ten N) :=
  let total := fold_left Nat.add ndiv 0%nat in
  _ <- passert (length np =? length ndiv + 1)%nat ;;
  r <- foldM (fun st id =>
         let '(i, divisions) := id in
         let du := vdivs (vsub (nth (S i) np []) (nth i np [])) (nofZ (Z.of_nat divisions)) in
         foldM (fun st k =>
           let '(u, dus, h) := st in
           let idx := (i * divisions + k)%nat in
           u' <- py_set u idx (vadd (nth i np []) (vscal (nofZ (Z.of_nat k)) du)) ;;
           dus' <- py_set dus idx du ;;
           h' <- py_set h idx (mscal n (vnorm du) (eye n)) ;;
           Ok (u', dus', h')) (seq 0 divisions) st)
       (combine (seq 0 (length ndiv)) ndiv)
       (mk (S total) ju, mk total jdu, zeros3 total n n) ;;
  let '(u, dus, h) := r in
  Ok (lset u total (nth (length np - 1) np []), dus, h).

(** mtl.py:246-279: the two terms of one terminal, from the terminal impedance, the cell
    length next to it and the node's c and g *)
Definition port_terms (n : nat) (z c g : mat N) (h dt : N) : res (mat N * mat N) :=
  let zc := mdivs n (mscal n h (mm n z c)) dt in
  let zg := mdivs n (mscal n h (mm n z g)) n2 in
  A <- inv n (madd n (madd n zc zg) (eye n)) ;;
  Ok (mm n A (msub n (msub n zc zg) (eye n)), A).

(** mtl.py:86-170 *)
Definition mtl_new (ju jdu : nat -> vec N) (l c r g : pulin) (length_ : N)
    (node_positions : mat N) (ndiv : list nat) (Zs Zl : ztin) (name : string) : res mtl :=
  let np := match node_positions with
            | [] => [[n0; n0; n0]; [n0; n0; length_]]
            | _ => node_positions
            end in
  let cells := fold_left Nat.add ndiv 0%nat in
  lc <- init_LC cells l c ;;
  let '(l', c', n) := lc in
  rg <- init_RG cells n r g ;;
  let '(r', g') := rg in
  zz <- init_Zt n Zs Zl ;;
  let '(zs, zl) := zz in
  geo <- geometry n np ndiv ju jdu ;;
  let '(u, du, h) := geo in
  let s0 := {| k_n := n; k_N := cells; k_h := h; k_l := l'; k_r := r'; k_c := c'; k_g := g';
               k_dt := n0; k_disp := disp_new n cells u n0;
               k_v := zeros2 n (S cells); k_i := zeros2 n cells;
               k_eL := mk2 n cells (fun _ _ _ => n0);
               k_eT := mk2 n (S cells) (fun _ _ _ => n0);
               k_lr := None; k_cg := None |} in
  dt <- get_max_timestep s0 ;;
  let s := set_disp (set_dt s0 dt) (disp_new n cells u dt) in
  lp <- port_terms n zs (getm c' 0) (getm g' 0) (get3 h 0 0 0) dt ;;
  rp <- port_terms n zl (getm c' cells) (getm g' cells) (get3 h (cells - 1) 0 0) dt ;;
  Ok {| m_name := name; m_u := u; m_du := du; m_core := s; m_zs := zs; m_zl := zl;
        m_lp1 := fst lp; m_lp2 := snd lp; m_rp1 := fst rp; m_rp2 := snd rp;
        m_vsrc := mk2 n (S cells) (fun _ _ _ => n0);
        m_time := n0; m_probes := [] |}.

(** *** Time marching *)

(** mtl.py:291-292 *)
Definition set_time_step (m : mtl) (NDT : Z) (final_time : N) : mtl :=
  m_set_core m (set_dt (m_core m) (final_time / nofZ NDT)).

(** mtl.py:294-295 and the length of the resulting range: np.arange(0, x) has
    ceil(x) elements, none if x <= 0.  A zero time step makes the quotient infinite (or
    NaN) and np.arange raises ValueError. *)
Definition time_range_len (final_time dt : N) : res nat :=
  if dt =? n0 then Err ValueError else Ok (Z.to_nat (nfloor (final_time / dt))).

(** mtl.py:558-566 (left) and 569-577 (right): [sgn] is -2 or +2 *)
Definition port_voltage (n : nat) (t1 t2 z c : mat N) (h dt sgn : N)
    (v i : vec N) (vs_now vs_prev et_now et_prev : vec N) (a : nat) : N :=
  get (mv n t1 v) a
  + get (mv n t2 (mk n (fun b =>
        sgn * get (mv n z i) b
        + (get vs_now b + get vs_prev b)
        - h / dt * get (mv n (mm n z c) (mk n (fun q => get et_now q - get et_prev q))) b))) a.

(** replace column [k] of [v] by [f] *)
Definition set_col (n nodes : nat) (v : mat N) (k : nat) (f : nat -> N) : mat N :=
  mk2 n nodes (fun c j => if (j =? k)%nat then f c else get2 v c j).

(** mtl.py:558-566 *)
Definition advance_left_terminal (m : mtl) (s : core) (f : fsrc) (vsn vsp : mat N) : core :=
  let n := k_n s in
  set_v s (set_col n (S (k_N s)) (k_v s) 0 (port_voltage n (m_lp1 m) (m_lp2 m) (m_zs m)
     (getm (k_c s) 0) (get3 (k_h s) 0 0 0) (k_dt s) (- n2)
     (col n (k_v s) 0) (col n (k_i s) 0) (col n vsn 0) (col n vsp 0)
     (col n (eT_now f) 0) (col n (eT_prev f) 0))).

(** mtl.py:569-577 *)
Definition advance_right_terminal (m : mtl) (s : core) (f : fsrc) (vsn vsp : mat N) : core :=
  let n := k_n s in let e := k_N s in
  set_v s (set_col n (S (k_N s)) (k_v s) e (port_voltage n (m_rp1 m) (m_rp2 m) (m_zl m)
     (getm (k_c s) e) (get3 (k_h s) (e - 1) 0 0) (k_dt s) n2
     (col n (k_v s) e) (col n (k_i s) (e - 1)) (col n vsn e) (col n vsp e)
     (col n (eT_now f) e) (col n (eT_prev f) e))).

(** mtl.py:300-302 (and mtln.py:47-50) *)
Definition update_probes (s : core) (time : N) (ps : list (probe N)) : res (list (probe N)) :=
  mapM (fun p => probe_update p time (k_n s) (k_N s) (k_v s) (k_i s)) ps.

(** mtl.py:580-589; update_sources is mtl.py:304-324 *)
Definition mtl_step (m : mtl) : res mtl :=
  let dt := k_dt (m_core m) in
  let vsn := eval_at (m_vsrc m) (m_time m) in
  let vsp := eval_at (m_vsrc m) (m_time m - dt) in
  let f := eval_fields (k_eL (m_core m)) (k_eT (m_core m)) (m_time m) dt in
  let s1 := advance_left_terminal m (m_core m) f vsn vsp in
  s2 <- advance_voltage s1 f ;;
  let s3 := advance_right_terminal m s2 f vsn vsp in
  s4 <- advance_current s3 f ;;
  let time' := m_time m + dt in
  ps <- update_probes s4 time' (m_probes m) ;;
  Ok (m_set m s4 time' ps).

(** mtl.py:593-598: everything run_until does before the first step *)
Definition mtl_prepare (m : mtl) (steps : nat) : res mtl :=
  s1 <- update_lr_terms (m_core m) ;;
  s2 <- update_cg_terms s1 ;;
  Ok (m_set m s2 (m_time m) (map (fun p => resize_frames p steps (k_n s2)) (m_probes m))).

(** mtl.py:592-601 *)
Definition run_until (m : mtl) (final_time : N) : res mtl :=
  n <- time_range_len final_time (k_dt (m_core m)) ;;
  m1 <- mtl_prepare m n ;;
  iterM n mtl_step m1.

(** *** Positions *)

(** A position argument: float (a z coordinate), Python list, or ndarray *)
Inductive posarg :=
| PosF (x : N)
| PosL (x : vec N)
| PosA (x : vec N).
Definition pos_vec (p : posarg) : vec N :=
  match p with PosF x => [n0; n0; x] | PosL x => x | PosA x => x end.

(** Python's lexicographic [a >= b] on lists *)
Fixpoint list_ge (a b : vec N) : bool :=
  match a, b with
  | _, [] => true
  | [], _ :: _ => false
  | x :: a', y :: b' => if x =? y then list_ge a' b' else y <=? x
  end.
(** [assert(end >= start)] (mtl.py:376, 401, 965, 982): for ndarrays the truth value of an
    array with several elements is ambiguous *)
Definition assert_ge (end_ start : posarg) : res unit :=
  match end_, start with
  | PosF x, PosF y => passert (y <=? x)
  | PosL x, PosL y => passert (list_ge x y)
  | PosA _, _ => Err ValueError
  | _, PosA _ => Err ValueError
  | _, _ => Err TypeError
  end.

(** [t[i1:i2+1][c][c] = x] (mtl.py:391, 393, 411, 413, 975, 977, 993, 995): numpy applies
    the second index to CELLS and the third to rows, so row [c] of cell [i1+c] is filled *)
Definition region_assign (n : nat) (t : ten N) (i1 i2 c : nat) (x : N) : res (ten N) :=
  let len := (Nat.min (S i2) (length t) - i1)%nat in
  if (c <? len)%nat && (c <? n)%nat
  then Ok (lset t (i1 + c) (lset (getm t (i1 + c)) c (mk n (fun _ => x))))
  else Err IndexError.

(** mtl.py:375-395 *)
Definition set_resistance_in_region (m : mtl) (start end_ : posarg) (c : nat) (R : N) : res mtl :=
  let s := m_core m in
  _ <- assert_ge end_ start ;;
  let i1 := nearest (m_u m) (pos_vec start) in
  let i2 := nearest (m_u m) (pos_vec end_) in
  let i1 := if (i1 =? k_N s)%nat then (i1 - 1)%nat else i1 in
  let i2 := if (i2 =? k_N s)%nat then (i2 - 1)%nat else i2 in
  let x := if negb (i1 =? i2)%nat
           then R / vnorm (vsub (nth i2 (m_u m) []) (nth i1 (m_u m) []))
           else R / vnorm (nth i1 (m_du m) []) in
  r' <- region_assign (k_n s) (k_r s) i1 i2 c x ;;
  s' <- update_lr_terms (set_r s r') ;;
  Ok (m_set_core m s').

(** mtl.py:372-373 *)
Definition set_resistance_at_point (m : mtl) (p : posarg) (c : nat) (R : N) : res mtl :=
  set_resistance_in_region m p p c R.

(** mtl.py:400-415: np.argmin(np.abs(self.u - begin)) has no axis, so it returns an index
    into the FLATTENED (nodes x 3) array *)
Definition flat_argmin (u : mat N) (p : vec N) : nat :=
  argmin (concat (map (fun x => mk 3 (fun k => nabs (get x k - get p k))) u)).
Definition add_conductance_in_region (m : mtl) (begin_ end_ : posarg) (c : nat) (G : N) : res mtl :=
  let s := m_core m in
  _ <- assert_ge end_ begin_ ;;
  let i1 := flat_argmin (m_u m) (pos_vec begin_) in
  let i2 := flat_argmin (m_u m) (pos_vec end_) in
  x <- (if negb (i1 =? i2)%nat then
          u2 <- py_get (m_u m) i2 ;; u1 <- py_get (m_u m) i1 ;; Ok (G / vnorm (vsub u2 u1))
        else du <- py_get (m_du m) i1 ;; Ok (G / vnorm du)) ;;
  g' <- region_assign (k_n s) (k_g s) i1 i2 c x ;;
  s' <- update_cg_terms (set_g s g') ;;
  Ok (m_set_core m s').

(** mtl.py:397-398 *)
Definition add_conductance_at_point (m : mtl) (p : posarg) (c : nat) (G : N) : res mtl :=
  add_conductance_in_region m p p c G.

(** mtl.py:436-444 *)
Definition add_voltage_source (m : mtl) (p : posarg) (c : nat) (f : N -> N) : res mtl :=
  let idx := nearest (m_u m) (pos_vec p) in
  if (c <? k_n (m_core m))%nat then Ok (m_set_vsrc m (upd2 (m_vsrc m) c idx f))
  else Err IndexError.

(** mtl.py:513 / dispersive.py:101 / mtl.py:719: some coordinate above the last or below
    the first node *)
Definition out_of_box (u : mat N) (p : vec N) : bool :=
  existsb (fun k => get (nth (length u - 1) u []) k <? get p k) (seq 0 3)
  || existsb (fun k => get p k <? get (nth 0 u []) k) (seq 0 3).

(** mtl.py:509-518; returns the line; the new probe is the last of the list *)
Definition add_probe (m : mtl) (p : posarg) (ty : string) : res mtl :=
  if out_of_box (m_u m) (pos_vec p) then Err ValueError
  else Ok (m_set m (m_core m) (m_time m)
             (m_probes m ++ [probe_new (pos_vec p) ty (k_dt (m_core m)) (m_u m)])).


(** mtl.py:549-555 *)
Definition mtl_add_dispersive_connector (m : mtl) (p : vec N) (c : nat) (model : ratmodel N)
  : res mtl :=
  d <- add_dispersive_connector (k_disp (m_core m)) p c model ;;
  Ok (m_set_core m (set_disp (m_core m) d)).

(** mtl.py:542-547.  deepcopy detaches views. *)
Definition copy_probe (s : core) (p : probe N) : probe N :=
  {| p_type := p_type p; p_t := p_t p;
     p_val := match p_val p with
              | PView vol k => PRows [col (k_n s) (if vol then k_v s else k_i s) k]
              | x => x
              end;
     p_index := p_index p; p_dt := p_dt p; p_frame := p_frame p |}.
Definition create_clean_copy (m : mtl) : mtl :=
  let s := m_core m in
  let s' := set_i_disp (set_v s (zeros2 (k_n s) (S (k_N s)))) (zeros2 (k_n s) (k_N s)) (k_disp s) in
  m_set m s' n0 (map (copy_probe s) (m_probes m)).

End Line.
Arguments core N : clear implicits.
Arguments mtl N : clear implicits.
Arguments fsrc N : clear implicits.
Arguments pulin N : clear implicits.
Arguments ztin N : clear implicits.
Arguments posarg N : clear implicits.
