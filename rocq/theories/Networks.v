(** Model of python/src/networks.py. *)
From Coq Require Import String List Arith ZArith Bool.
From Verif Require Import Num Py Arr Utils Probes Dispersive Line Bundle.
Import ListNotations.

Section Networks.
Context {N : num}.
Local Open Scope num_scope.
Variable LA : lapack N.

(** A connector material (a JSON dictionary; [None] = key absent, reading it raises
    KeyError). *)
Record connector := Connector {
  cn_type : string;                 (* "connectorType" *)
  cn_R : option N;                  (* "resistance" *)
  cn_L : option N;                  (* "inductance" *)
  cn_C : option N;                  (* "capacitance" *)
  cn_conns : list string;           (* "connections" of a MultiwireConnector *)
  cn_Rv : option (vec N);           (* "resistanceVector" *)
  cn_Lv : option (vec N);
  cn_Cv : option (vec N)
}.

(** values of the dictionary self.connections (networks.py:127-134); side 0 is
    [nd_end = false], side -1 is [nd_end = true] *)
Record node := Node {
  nd_line : string;
  nd_row : nat;                     (* "line_index" *)
  nd_end : bool;                    (* "side" *)
  nd_index : nat;
  nd_bundle : string;
  nd_state : list nat               (* "state_index" *)
}.

Record network := Network {
  w_nodes : nat;                    (* number_of_nodes *)
  w_ns : nat;                       (* number_of_state_vars *)
  w_conns : list (Z * node);        (* connections, insertion ordered *)
  w_csize : nat;
  w_c : mat N;                      (* block diagonal of the lines' end capacitance *)
  w_dx : vec N;                     (* diagonal of dx *)
  w_eT : list (N -> N);
  w_v : vec N; w_vprev : vec N; w_i : vec N;
  w_X : vec N; w_H : vec N;
  w_P1 : mat N; w_Ps : mat N;
  w_M : mat N; w_N1 : mat N; w_Ns : mat N; w_O : mat N;
  w_Q1 : mat N; w_Qs : mat N;
  w_vsrc : list (tfun N);
  w_AB : option (mat N * mat N * mat N)   (* A, B1, B2 *)
}.

(** networks.py:52-72 *)
Definition state_vars (conductor : nat) (k : connector) : res nat :=
  a <- (if String.eqb (cn_type k) "Conn_sRLC" then
          l <- of_option KeyError (cn_L k) ;;
          c <- of_option KeyError (cn_C k) ;;
          Ok (Nat.add (if negb (l =? n0) then 1%nat else 0%nat) (if c <? n1e22 then 1%nat else 0%nat))
        else Ok 0%nat) ;;
  let b := if String.eqb (cn_type k) "Conn_C" then 1%nat
           else if String.eqb (cn_type k) "Conn_LCpRs" then 2%nat else 0%nat in
  d <- (if String.eqb (cn_type k) "MultiwireConnector" then
          t <- py_get (cn_conns k) conductor ;;
          Ok (if String.eqb t "Conn_C" then 1%nat
              else if String.eqb t "Conn_LCpRs" then 2%nat else 0%nat)
        else Ok 0%nat) ;;
  Ok (a + b + d)%nat.

(** one connection: [node id, conductor, connector] *)
Definition connection := (Z * nat * connector)%type.
(** one item of the description: line, side ("S"/"L"), bundle name, connections *)
Definition descr := (mtl N * (string * (string * list connection)))%type.

(** sorted(..., key=conductor): stable insertion sort *)
Fixpoint insert_conn (x : connection) (l : list connection) : list connection :=
  match l with
  | [] => [x]
  | y :: l' => if (snd (fst y) <=? snd (fst x))%nat then y :: insert_conn x l' else x :: y :: l'
  end.
Definition sort_conns (l : list connection) : list connection :=
  fold_left (fun acc x => insert_conn x acc) l [].

(** accumulator of the construction: (number_of_state_vars, connections, csize, c, dx, e_T);
    nw_v, nw_i are zero and their length is the number of connections so far *)
Definition nacc := (nat * list (Z * node) * nat * mat N * vec N * list (N -> N))%type.

(** networks.py:111-134 *)
Definition add_node (acc : nacc) (x : connection) (end_ : bool) (line : mtl N)
    (bundle_name : string) : res nacc :=
  let '(ns, conns, cs, c, dx, eT) := acc in
  let '(id, cond, k) := x in
  let s := m_core line in
  _ <- passert (0 <=? id)%Z ;;
  _ <- passert (negb (dmem Z.eqb id conns)) ;;
  sv <- state_vars cond k ;;
  let index := length conns in
  row <- py_get (k_eT s) cond ;;
  let e := nth (if end_ then k_N s else 0%nat) row (fun _ => n0) in
  Ok ((ns + sv)%nat,
      conns ++ [(id, {| nd_line := m_name line; nd_row := cond; nd_end := end_;
                        nd_index := index; nd_bundle := bundle_name;
                        nd_state := seq ns sv |})],
      cs, c,
      dx ++ [get3 (k_h s) (if end_ then (k_N s - 1)%nat else 0%nat) 0 0],
      eT ++ [e]).

(** networks.py:95-109 *)
Definition add_nodes_in_line (acc : nacc) (d : descr) : res nacc :=
  let '(line, (side, (bname, conns))) := d in
  let s := m_core line in
  _ <- passert (String.eqb side "S" || String.eqb side "L") ;;
  let end_ := negb (String.eqb side "S") in
  let '(ns, cn, cs, c, dx, eT) := acc in
  let c' := block_diag cs c (k_n s) (getm (k_c s) (if end_ then k_N s else 0%nat)) in
  foldM (fun a x => add_node a x end_ line bname) (sort_conns conns)
        (ns, cn, (cs + k_n s)%nat, c', dx, eT).

(** networks.py:16-49 *)
Definition network_new (ds : list descr) : res network :=
  acc <- foldM add_nodes_in_line ds (0%nat, [], 0%nat, [], [], []) ;;
  let '(ns, conns, cs, c, dx, eT) := acc in
  let nn := length conns in
  Ok {| w_nodes := nn; w_ns := ns; w_conns := conns; w_csize := cs; w_c := c; w_dx := dx;
        w_eT := eT; w_v := zeros nn; w_vprev := zeros nn; w_i := zeros nn;
        w_X := zeros ns; w_H := zeros (nn + ns);
        w_P1 := zeros2 nn nn; w_Ps := zeros2 nn nn;
        w_M := zeros2 ns ns; w_N1 := zeros2 ns nn; w_Ns := zeros2 ns nn; w_O := zeros2 nn ns;
        w_Q1 := zeros2 nn nn; w_Qs := zeros2 nn nn;
        w_vsrc := mk nn (fun _ => TFun (fun _ => n0));
        w_AB := None |}.

Definition set_stamps (w : network) (P1 Ps M N1 Ns O Q1 Qs : mat N) (vs : list (tfun N)) : network :=
  {| w_nodes := w_nodes w; w_ns := w_ns w; w_conns := w_conns w; w_csize := w_csize w;
     w_c := w_c w; w_dx := w_dx w; w_eT := w_eT w; w_v := w_v w; w_vprev := w_vprev w;
     w_i := w_i w; w_X := w_X w; w_H := w_H w; w_P1 := P1; w_Ps := Ps; w_M := M; w_N1 := N1;
     w_Ns := Ns; w_O := O; w_Q1 := Q1; w_Qs := Qs; w_vsrc := vs; w_AB := w_AB w |}.
Definition set_P (w : network) (P1 Ps : mat N) (vs : list (tfun N)) : network :=
  set_stamps w P1 Ps (w_M w) (w_N1 w) (w_Ns w) (w_O w) (w_Q1 w) (w_Qs w) vs.
Definition set_Q (w : network) (Q1 Qs : mat N) (vs : list (tfun N)) : network :=
  set_stamps w (w_P1 w) (w_Ps w) (w_M w) (w_N1 w) (w_Ns w) (w_O w) Q1 Qs vs.

Definition find_node (w : network) (id : Z) : option node := dget Z.eqb id (w_conns w).

(** [Vt != 0]: a function is never equal to 0 *)
Definition tf_nonzero (f : tfun N) : bool :=
  match f with TInt z => negb (z =? 0)%Z | TFun _ => true end.
(** [1/R] on Python numbers *)
Definition pinv (R : N) : res N := if R =? n0 then Err ZeroDivisionError else Ok (n1 / R).
(** [-1/R]: Python evaluates (-1)/R *)
Definition pninv (R : N) : res N :=
  if R =? n0 then Err ZeroDivisionError else Ok ((- n1) / R).

(** networks.py:136-143 and 145-152 (identical bodies) *)
Definition connect_to_ground (w : network) (id : Z) (R : N) (Vt : tfun N) : res network :=
  nd <- of_option AssertionError (find_node w id) ;;
  let k := nd_index nd in
  P1 <- (if negb (R =? n0) then y <- pninv R ;; Ok (upd2 (w_P1 w) k k y) else Ok (w_P1 w)) ;;
  if tf_nonzero Vt then
    y <- pinv R ;;
    Ok (set_P w P1 (upd2 (w_Ps w) k k y) (lset (w_vsrc w) k Vt))
  else Ok (set_P w P1 (w_Ps w) (w_vsrc w)).

(** networks.py:158-159: the assertion, and the three quotients of the new block of M, which Python
    evaluates before the place they are written to *)
Definition LCpRs_block (R L C : N) : res unit :=
  _ <- passert ((n0 <=? R) && (n0 <=? L) && (C <? n1e22)) ;;
  _ <- pinv (R * C) ;; _ <- pinv C ;; _ <- pninv L ;; Ok tt.

(** networks.py:154-167.  The slice x_index[0]:x_index[-1]+1 selects the two consecutive
    state variables of the node; a node without state variables raises IndexError, another
    number than two raises ValueError (shape mismatch). *)
Definition connect_to_ground_LCpRs (w : network) (id : Z) (R L C : N) (Vt : tfun N) : res network :=
  nd <- of_option AssertionError (find_node w id) ;;
  let k := nd_index nd in
  match nd_state nd with
  | [] => _ <- LCpRs_block R L C ;; Err IndexError
  | [x0; x1] =>
      _ <- passert ((n0 <=? R) && (n0 <=? L) && (C <? n1e22)) ;;
      rc <- pinv (R * C) ;; ic <- pinv C ;; nil <- pninv L ;;
      nrc <- pninv (R * C) ;; ir <- pinv R ;; nir <- pninv R ;;
      let M := upd2 (upd2 (upd2 (upd2 (w_M w) x0 x0 rc) x0 x1 ic) x1 x0 nil) x1 x1 n0 in
      let N1 := upd2 (upd2 (w_N1 w) x0 k nrc) x1 k n0 in
      let O := upd2 (upd2 (w_O w) k x0 ir) k x1 n0 in
      let P1 := upd2 (w_P1 w) k k nir in
      if tf_nonzero Vt then
        Ok (set_stamps w P1 (upd2 (w_Ps w) k k ir) M N1
              (upd2 (upd2 (w_Ns w) x0 k rc) x1 k n0) O (w_Q1 w) (w_Qs w) (lset (w_vsrc w) k Vt))
      else
        Ok (set_stamps w P1 (w_Ps w) M N1 (w_Ns w) O (w_Q1 w) (w_Qs w) (w_vsrc w))
  | _ => _ <- LCpRs_block R L C ;; Err ValueError
  end.

(** networks.py:169-176 *)
Definition connect_to_ground_C (w : network) (id : Z) (C : N) (Vt : tfun N) : res network :=
  nd <- of_option AssertionError (find_node w id) ;;
  let k := nd_index nd in
  let Q1 := if negb (C =? n0) then upd2 (w_Q1 w) k k (- C) else w_Q1 w in
  if tf_nonzero Vt then Ok (set_Q w Q1 (upd2 (w_Qs w) k k C) (lset (w_vsrc w) k Vt))
  else Ok (set_Q w Q1 (w_Qs w) (w_vsrc w)).

(** networks.py:178-181 *)
Definition short_to_ground (w : network) (id : Z) : res network :=
  nd <- of_option AssertionError (find_node w id) ;;
  let k := nd_index nd in
  Ok (set_P w (upd2 (w_P1 w) k k (- n1e10)) (w_Ps w) (w_vsrc w)).

(** [A[i,j] += x] *)
Definition incr2 (A : mat N) (i j : nat) (x : N) : mat N := upd2 A i j (get2 A i j + x).

(** the four conductance stamps between two nodes (networks.py:189-192, 203-206):
    (1,1) += g1; (1,2) += g2; (2,1) += g2; (2,2) += g1 *)
Definition stamp (P : mat N) (a b : nat) (neg pos : N) : mat N :=
  incr2 (incr2 (incr2 (incr2 P a a neg) a b pos) b a pos) b b neg.

(** networks.py:183-198 *)
Definition connect_nodes (w : network) (id1 id2 : Z) (R : N) (Vt : tfun N) : res network :=
  nd1 <- of_option AssertionError (find_node w id1) ;;
  nd2 <- of_option AssertionError (find_node w id2) ;;
  _ <- passert (negb (R =? n0)) ;;
  let a := nd_index nd1 in let b := nd_index nd2 in
  neg <- pninv R ;; pos <- pinv R ;;
  let P1 := stamp (w_P1 w) a b neg pos in
  if tf_nonzero Vt then
    let Ps := incr2 (incr2 (w_Ps w) a a pos) b b neg in
    let vs1 := lset (w_vsrc w) a (add_t_functions (nth a (w_vsrc w) (TInt 0)) Vt) in
    let vs2 := lset vs1 b (add_t_functions (nth b vs1 (TInt 0)) Vt) in
    Ok (set_P w P1 Ps vs2)
  else Ok (set_P w P1 (w_Ps w) (w_vsrc w)).

(** networks.py:200-206 *)
Definition short_nodes (w : network) (id1 id2 : Z) : res network :=
  nd1 <- of_option KeyError (find_node w id1) ;;
  nd2 <- of_option KeyError (find_node w id2) ;;
  Ok (set_P w (stamp (w_P1 w) (nd_index nd1) (nd_index nd2) (- n1e10) n1e10)
        (w_Ps w) (w_vsrc w)).

(** networks.py:253-265.  [dx.dot(c)] raises ValueError when the lines' conductors and the
    connected nodes differ in number. *)
Definition w_dxc (w : network) : mat N :=
  mk2 (w_nodes w) (w_nodes w) (fun i j => get (w_dx w) i * get2 (w_c w) i j).
Definition compute_v_terms (w : network) (dt : N) : res network :=
  let nn := w_nodes w in let ns := w_ns w in
  if negb (w_csize w =? nn)%nat then Err ValueError else
  let A := mk2 (nn + ns) (nn + ns) (fun i j =>
    if (i <? nn)%nat then
      if (j <? nn)%nat
      then get2 (w_dxc w) i j / dt - get2 (w_P1 w) i j - get2 (w_Q1 w) i j / dt
      else - get2 (w_O w) i (j - nn)
    else
      if (j <? nn)%nat then (- dt) * get2 (w_N1 w) (i - nn) j
      else delta (i - nn) (j - nn) - dt * get2 (w_M w) (i - nn) (j - nn)) in
  let B1 := mk2 (nn + ns) (nn + ns) (fun i j =>
    if (i <? nn)%nat then
      if (j <? nn)%nat then get2 (w_dxc w) i j / dt - get2 (w_Q1 w) i j / dt else n0
    else if (j <? nn)%nat then n0 else delta (i - nn) (j - nn)) in
  let B2 := mk2 (nn + ns) nn (fun i j =>
    if (i <? nn)%nat then get2 (w_Ps w) i j + get2 (w_Qs w) i j / dt
    else dt * get2 (w_Ns w) (i - nn) j) in
  Ok {| w_nodes := w_nodes w; w_ns := w_ns w; w_conns := w_conns w; w_csize := w_csize w;
        w_c := w_c w; w_dx := w_dx w; w_eT := w_eT w; w_v := w_v w; w_vprev := w_vprev w;
        w_i := w_i w; w_X := w_X w; w_H := w_H w; w_P1 := w_P1 w; w_Ps := w_Ps w;
        w_M := w_M w; w_N1 := w_N1 w; w_Ns := w_Ns w; w_O := w_O w; w_Q1 := w_Q1 w;
        w_Qs := w_Qs w; w_vsrc := w_vsrc w; w_AB := Some (A, B1, B2) |}.

(** values stored by update_sources (networks.py:208-214) *)
Definition eval_tfuns (fs : list (tfun N)) (t : N) : res (vec N) :=
  mapM (fun f => match f with TFun g => Ok (g t) | TInt _ => Err TypeError end) fs.
Record wsrc := Wsrc { vs_now : vec N; vs_prev : vec N; vs_prev2 : vec N;
                      we_now : vec N; we_prev : vec N }.
Definition w_sources (w : network) (time dt : N) : res wsrc :=
  a <- eval_tfuns (w_vsrc w) time ;;
  b <- eval_tfuns (w_vsrc w) (time - dt) ;;
  c <- eval_tfuns (w_vsrc w) (time - n2 * dt) ;;
  Ok {| vs_now := a; vs_prev := b; vs_prev2 := c;
        we_now := map (fun f => f time) (w_eT w);
        we_prev := map (fun f => f (time - dt)) (w_eT w) |}.

(** self.Is of networks.py:218-220 *)
Definition w_Is (w : network) (q : wsrc) (dt : N) (i : nat) : N :=
  let nn := w_nodes w in
  sumn (w_ns w) (fun j => get2 (w_O w) i j * get (w_X w) j)
  + sumn nn (fun j => get2 (w_P1 w) i j * get (w_v w) j)
  + sumn nn (fun j => get2 (w_Ps w) i j * get (vs_prev q) j)
  + sumn nn (fun j => get2 (w_Q1 w) i j * (get (w_v w) j - get (w_vprev w) j)) / dt
  + sumn nn (fun j => get2 (w_Qs w) i j * (get (vs_prev q) j - get (vs_prev2 q) j)) / dt.

(** networks.py:208-236 *)
Definition nw_advance_voltage (w : network) (time dt : N) : res network :=
  q <- w_sources w time dt ;;
  let nn := w_nodes w in let ns := w_ns w in
  match w_AB w with
  | None => Err AttributeError
  | Some (A, B1, B2) =>
      let B3 := mk (nn + ns) (fun i =>
        if (i <? nn)%nat then
          w_Is w q dt i
          - sumn nn (fun j => get2 (w_Qs w) i j * get (vs_prev q) j) / dt
          - n2 * get (w_i w) i
          - sumn nn (fun j => get2 (w_dxc w) i j * (get (we_now q) j - get (we_prev q) j)) / dt
        else n0) in
      let rhs := mk (nn + ns) (fun i =>
        sumn (nn + ns) (fun j => get2 B1 i j * get (w_H w) j)
        + sumn nn (fun j => get2 B2 i j * get (vs_now q) j)
        + get B3 i) in
      H <- of_option LinAlgError (la_solve LA (nn + ns) A rhs) ;;
      Ok {| w_nodes := w_nodes w; w_ns := w_ns w; w_conns := w_conns w; w_csize := w_csize w;
            w_c := w_c w; w_dx := w_dx w; w_eT := w_eT w;
            w_v := mk nn (fun i => get H i); w_vprev := w_v w;
            w_i := w_i w; w_X := mk ns (fun i => get H (nn + i)); w_H := mk (nn + ns) (get H);
            w_P1 := w_P1 w; w_Ps := w_Ps w;
            w_M := w_M w; w_N1 := w_N1 w; w_Ns := w_Ns w; w_O := w_O w; w_Q1 := w_Q1 w;
            w_Qs := w_Qs w; w_vsrc := w_vsrc w; w_AB := w_AB w |}
  end.

(** dictionary of bundles by name *)
Definition bdict := list (string * bundle N).

(** networks.py:239-241 *)
Definition put_voltage (bs : bdict) (nd : node) (x : N) : res bdict :=
  b <- of_option KeyError (dget String.eqb (nd_bundle nd) bs) ;;
  let s := b_core b in
  if (nd_row nd <? k_n s)%nat then
    let k := if nd_end nd then k_N s else 0%nat in
    Ok (dset String.eqb (nd_bundle nd)
          (b_set_core b (set_v s (upd2 (k_v s) (nd_row nd) k x))) bs)
  else Err IndexError.
Definition nw_update_voltages (w : network) (bs : bdict) : res bdict :=
  foldM (fun bs kn => put_voltage bs (snd kn) (get (w_v w) (nd_index (snd kn)))) (w_conns w) bs.

(** networks.py:243-247 *)
Definition i_factor (nd : node) : N := if nd_end nd then - n1 else n1.

(** networks.py:249-251 *)
Definition read_current (bs : bdict) (nd : node) : res N :=
  b <- of_option KeyError (dget String.eqb (nd_bundle nd) bs) ;;
  let s := b_core b in
  if (nd_row nd <? k_n s)%nat then
    Ok (i_factor nd * get2 (k_i s) (nd_row nd) (if nd_end nd then (k_N s - 1)%nat else 0%nat))
  else Err IndexError.
Definition set_wi (w : network) (i : vec N) : network :=
  {| w_nodes := w_nodes w; w_ns := w_ns w; w_conns := w_conns w; w_csize := w_csize w;
     w_c := w_c w; w_dx := w_dx w; w_eT := w_eT w; w_v := w_v w; w_vprev := w_vprev w;
     w_i := i; w_X := w_X w; w_H := w_H w; w_P1 := w_P1 w; w_Ps := w_Ps w; w_M := w_M w;
     w_N1 := w_N1 w; w_Ns := w_Ns w; w_O := w_O w; w_Q1 := w_Q1 w; w_Qs := w_Qs w;
     w_vsrc := w_vsrc w; w_AB := w_AB w |}.
Definition nw_update_currents (w : network) (bs : bdict) : res network :=
  i' <- foldM (fun i kn => x <- read_current bs (snd kn) ;; Ok (lset i (nd_index (snd kn)) x))
              (w_conns w) (w_i w) ;;
  Ok (set_wi w i').

(** *** class NetworkD: one network per level (networks.py:268-300) *)
Definition networkd := list (nat * network).

Definition set_conns (w : network) (c : list (Z * node)) : network :=
  {| w_nodes := w_nodes w; w_ns := w_ns w; w_conns := c; w_csize := w_csize w;
     w_c := w_c w; w_dx := w_dx w; w_eT := w_eT w; w_v := w_v w; w_vprev := w_vprev w;
     w_i := w_i w; w_X := w_X w; w_H := w_H w; w_P1 := w_P1 w; w_Ps := w_Ps w; w_M := w_M w;
     w_N1 := w_N1 w; w_Ns := w_Ns w; w_O := w_O w; w_Q1 := w_Q1 w; w_Qs := w_Qs w;
     w_vsrc := w_vsrc w; w_AB := w_AB w |}.

(** networks.py:275-280 *)
Definition shift_node (bs : bdict) (level : nat) (kn : Z * node) : res (Z * node) :=
  let '(id, nd) := kn in
  b <- of_option KeyError (dget String.eqb (nd_bundle nd) bs) ;;
  let above := n_before (b_cil b) level in
  Ok (id, {| nd_line := nd_line nd; nd_row := (nd_row nd + above)%nat; nd_end := nd_end nd;
             nd_index := nd_index nd; nd_bundle := nd_bundle nd; nd_state := nd_state nd |}).
Definition update_index_numbers (d : networkd) (bs : bdict) : res networkd :=
  mapM (fun lw => c <- mapM (shift_node bs (fst lw)) (w_conns (snd lw)) ;;
                  Ok (fst lw, set_conns (snd lw) c)) d.

(** networks.py:282-300 *)
Definition nwd_advance_voltage (d : networkd) (time dt : N) : res networkd :=
  mapM (fun lw => w <- nw_advance_voltage (snd lw) time dt ;; Ok (fst lw, w)) d.
Definition nwd_update_voltages (d : networkd) (bs : bdict) : res bdict :=
  foldM (fun bs lw => nw_update_voltages (snd lw) bs) d bs.
Definition nwd_update_currents (d : networkd) (bs : bdict) : res networkd :=
  mapM (fun lw => w <- nw_update_currents (snd lw) bs ;; Ok (fst lw, w)) d.
Definition nwd_compute_v_terms (d : networkd) (dt : N) : res networkd :=
  mapM (fun lw => w <- compute_v_terms (snd lw) dt ;; Ok (fst lw, w)) d.

End Networks.
Arguments connector N : clear implicits.
Arguments network N : clear implicits.
Arguments networkd N : clear implicits.
Arguments descr N : clear implicits.
Arguments bdict N : clear implicits.
