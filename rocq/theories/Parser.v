(** Model of python/src/jsonParser.py: from a parsed JSON document to bundles, networks and probes.
    The document is a typed record (reading a missing mandatory key is not modelled except where a field is an
    [option]); identifiers, which the code handles both as integers and as their decimal text, are integers. *)
From Coq Require Import String List Arith ZArith Bool.
From Verif Require Import Num Py Arr Utils Waveforms Probes Dispersive Line Bundle Networks Mtln.
Import ListNotations.

Section Parser.
Context {N : num}.
Local Open Scope num_scope.
Variable LA : lapack N.
(** contents of uninitialised node arrays (see Line.v) *)
Variables ju jdu : nat -> vec N.
(** order in which Python iterates over a set of names: [list(set(names))] *)
Variable set_order : list string -> list string.

(** ** The document *)
(** "nestedElemIds": a string of element ids, or a dictionary from an element id to what is nested in it *)
Inductive nested := NStr (ids : list Z) | NDict (kvs : list (Z * nested)).
(** a number or a list in a wire material; an absent key is [WFloat 0] *)
Inductive wval := WFloat (x : N) | WInt (z : Z) | WVec (v : vec N) | WMat (m : mat N).
Record cable := Cable { cb_name : string; cb_mat : Z; cb_init : Z; cb_end : Z; cb_elems : list Z; cb_ndiv : list nat }.
(** a material of type Wire or Multiwire.  Simplification: at most one key containing each of the words inductance,
    capacitance, resistance (the loop of jsonParser.py:398-404 keeps the last) *)
Record wire := Wire { wi_id : Z; wi_L : wval; wi_C : wval; wi_R : wval; wi_Zt : option (ratmodel N) }.
(** a material of type Connector *)
Record cmat := Cmat { cm_id : Z; cm_conn : connector N; cm_model : option (ratmodel N); cm_Zt : option (ratmodel N) }.
Record source := Source { so_type : string;            (* "sourceType" *)
  so_kind : string;                                    (* "type" *)
  so_mag : string; so_params : list (string * N);      (* "magnitude" *)
  so_elems : list Z; so_cable : string; so_cond : option nat }.
Record pdesc := Pdesc { pb_name : string; pb_type : string; pb_elems : list Z; pb_cable : option string }.
Record cend := Cend { ce_coords : list Z; ce_mat : Z }.
Record lumped := Lumped { lu_cable : string; lu_mat : Z; lu_coords : list Z; lu_cond : nat }.
Record doc := Doc {
  dc_coords : list (Z * vec N);            (* id and three coordinates, in order *)
  dc_lines : list (Z * list Z);            (* line and polyline elements: id, and the tokens from the fourth on *)
  dc_nodes : list (Z * Z);                 (* node elements: id and coordinate id *)
  dc_cables : list cable; dc_wires : list wire; dc_conns : list cmat;
  dc_bundles : list (string * nested);
  dc_terms : list (list (list Z));         (* "coordIds" of each termination *)
  dc_juncts : list (list (list Z));        (* "unitedCoordIds" of each junction *)
  dc_sources : list source; dc_ends : list cend; dc_lumped : list lumped; dc_probes : list pdesc }.
Variable D : doc.

(** ** Lookups *)
(** jsonParser.py:77-83 *)
Definition coordinates : list (Z * vec N) := fold_left (fun d c => dset Z.eqb (fst c) (snd c) d) (dc_coords D) [].
Definition coordinate (id : Z) : res (vec N) := of_option KeyError (dget Z.eqb id coordinates).
Definition memZ (x : Z) (l : list Z) : bool := existsb (Z.eqb x) l.
(** [l.index(x)] *)
Fixpoint indexZ (x : Z) (l : list Z) : res nat :=
  match l with [] => Err ValueError | y :: l' => if (x =? y)%Z then Ok 0%nat else k <- indexZ x l' ;; Ok (S k) end.
(** jsonParser.py:674-681: id of the element and whether the node is its far end *)
Fixpoint element_of_node_in (lines : list (Z * list Z)) (node : Z) : res (Z * bool) :=
  match lines with
  | [] => Err GenericException
  | (id, cs) :: lines' =>
      match cs with
      | [] => Err IndexError
      | c :: _ => if (c =? node)%Z then Ok (id, false) else if (last cs c =? node)%Z then Ok (id, true) else element_of_node_in lines' node
      end
  end.
Definition getElementOfNode : Z -> res (Z * bool) := element_of_node_in (dc_lines D).
(** jsonParser.py:683-688: connector id, cable name, conductor *)
Definition getConnectorAndCableOnElementSide (el : Z) (far : bool) : res (Z * string * nat) :=
  match find (fun c => memZ el (cb_elems c)) (dc_cables D) with
  | Some c => k <- indexZ el (cb_elems c) ;; Ok (if far then cb_end c else cb_init c, cb_name c, k)
  | None => Err GenericException
  end.
(** [[c for c in self._connectors if c["materialId"] == id][0]] *)
Definition connector_with (id : Z) : res cmat := of_option IndexError (find (fun c => (cm_id c =? id)%Z) (dc_conns D)).
(** jsonParser.py:659-672 *)
Definition getConnectorAndCableInNode (node : Z) : res (cmat * string * nat * string) :=
  es <- getElementOfNode node ;;
  r <- getConnectorAndCableOnElementSide (fst es) (snd es) ;;
  let '(cid, name, k) := r in
  match connector_with cid with
  | Ok conn => Ok (conn, name, k, if snd es : bool then "L"%string else "S"%string)
  | Err _ => Err GenericException
  end.
(** jsonParser.py:698-703 (the exception is raised while building its text: str + int) *)
Definition getNodeCoordId (el : Z) : res Z := of_option TypeError (option_map snd (find (fun n => (fst n =? el)%Z) (dc_nodes D))).
(** jsonParser.py:705-710 *)
Definition getLineElemIdFromCoordId (c : Z) : res Z := of_option TypeError (option_map fst (find (fun l => memZ c (snd l)) (dc_lines D))).
(** jsonParser.py:712-717 *)
Definition getCableWithElemId (el : Z) : res cable := of_option TypeError (find (fun c => memZ el (cb_elems c)) (dc_cables D)).
(** jsonParser.py:380-391 *)
Definition getCableFromLineName (name : string) : res cable := of_option GenericException (find (fun c => String.eqb (cb_name c) name) (dc_cables D)).
Definition getWireWithMaterialId (id : Z) : res wire := of_option GenericException (find (fun w => (wi_id w =? id)%Z) (dc_wires D)).
(** [[cable for cable in self._cables if cable["name"] == name][0]] *)
Definition cable_named (name : string) : res cable := of_option IndexError (find (fun c => String.eqb (cb_name c) name) (dc_cables D)).

(** ** Graph of nested elements *)
(** jsonParser.py:173-180: the first transfer impedance found among the wires of the cables with that name; [None] is the 0
    returned when there is none *)
Fixpoint zt_of_wires (id : Z) (ws : list wire) : option (ratmodel N) :=
  match ws with
  | [] => None
  | w :: ws' => match (if (wi_id w =? id)%Z then wi_Zt w else None) with Some z => Some z | None => zt_of_wires id ws' end
  end.
Fixpoint zt_of_cables (name : string) (cs : list cable) : option (ratmodel N) :=
  match cs with
  | [] => None
  | c :: cs' => match (if String.eqb (cb_name c) name then zt_of_wires (cb_mat c) (dc_wires D) else None) with Some z => Some z | None => zt_of_cables name cs' end
  end.
Definition getTransferImpedance (name : string) : option (ratmodel N) := zt_of_cables name (dc_cables D).
(** jsonParser.py:183-189, the entries with an element as key: the last cable listing it *)
Definition elem_names : list (Z * string) :=
  fold_left (fun d c => fold_left (fun d e => dset Z.eqb e (cb_name c) d) (cb_elems c) d) (dc_cables D) [].
Definition name_of (el : Z) : res string := of_option KeyError (dget Z.eqb el elem_names).

Record vertex := Vertex { v_name : Z; v_level : nat; v_cable : string }.
(** edges as positions of the source and target vertices *)
Record graph := Graph { g_vs : list vertex; g_es : list (nat * nat * option (ratmodel N)) }.
Definition add_vertex (g : graph) (x : Z) (level : nat) : res graph :=
  c <- name_of x ;; Ok {| g_vs := g_vs g ++ [Vertex x level c]; g_es := g_es g |}.
(** position of the vertex with a name.  Simplification: with repeated names the first (igraph does not specify which) *)
Fixpoint vindex (x : Z) (vs : list vertex) : res nat :=
  match vs with [] => Err ValueError | v :: vs' => if (v_name v =? x)%Z then Ok 0%nat else k <- vindex x vs' ;; Ok (S k) end.
Definition add_edge (g : graph) (x y : Z) (zt : option (ratmodel N)) : res graph :=
  i <- vindex x (g_vs g) ;; j <- vindex y (g_vs g) ;; Ok {| g_vs := g_vs g; g_es := g_es g ++ [(i, j, zt)] |}.
(** jsonParser.py:224-227 and 218-221: vertices and edges for a string of elements *)
Definition add_leaves (g : graph) (parent : Z) (ids : list Z) (level : nat) : res graph :=
  foldM (fun g x => g1 <- add_vertex g x level ;; pn <- name_of parent ;; add_edge g1 parent x (getTransferImpedance pn)) ids g.
(** jsonParser.py:204-227 *)
Fixpoint add_to_graph (g : graph) (parent : Z) (t : nested) (level : nat) {struct t} : res graph :=
  match t with
  | NStr ids => add_leaves g parent ids level
  | NDict kvs =>
      (fix go (g : graph) (kvs : list (Z * nested)) : res graph :=
         match kvs with
         | [] => Ok g
         | (child, sub) :: kvs' =>
             g1 <- add_vertex g child level ;;
             pn <- name_of parent ;;
             g2 <- add_edge g1 parent child (getTransferImpedance pn) ;;
             g3 <- (match sub with
                    | NDict _ => add_to_graph g2 child sub (S level)
                    | NStr ids => add_leaves g2 child ids (S level)
                    end) ;;
             go g3 kvs'
         end) g kvs
  end.
(** jsonParser.py:202-241 *)
Definition buildGraphFromConnections (t : nested) : res graph :=
  let g := {| g_vs := []; g_es := [] |} in
  match t with
  | NStr ids => foldM (fun g x => add_vertex g x 0) ids g
  | NDict kvs => foldM (fun g kv => g1 <- add_vertex g (fst kv) 0 ;; add_to_graph g1 (fst kv) (snd kv) 1) kvs g
  end.

(** ** Lines and bundles *)
(** jsonParser.py:415-421; [None] (and then AttributeError in the constructor) when no line has the id *)
Definition getListOfCoordinates (el : Z) : res (mat N) :=
  match find (fun l => (fst l =? el)%Z) (dc_lines D) with
  | Some l => mapM coordinate (snd l)
  | None => Err AttributeError
  end.
(** [np.array(x)] of a rectangular list of rows *)
Definition arr_of (m : mat N) : pulin N := PArr (length m) (length (nth 0 m [])) m.
Definition pul (w : wval) : pulin N := match w with WFloat x => PFloat x | WInt _ => POther | WVec _ => POther | WMat _ => POther end.
(** jsonParser.py:397-409.  Simplification: one-dimensional inductance lists, and capacitances that are not a list
    when the inductance is, raise AssertionError at once (the constructor rejects them) *)
Definition line_params (w : wire) : res (pulin N * pulin N * pulin N) :=
  match wi_L w with
  | WMat l =>
      let n := length l in
      match wi_C w with
      | WMat c =>
          r <- (match wi_R w with
                | WFloat x => Ok (mk2 n n (fun i j => x * delta i j))
                | WInt z => Ok (mk2 n n (fun i j => nofZ z * delta i j))
                | WVec v => if (length v =? n)%nat then Ok (mk2 n n (fun i j => get v j * delta i j))
                            else if (length v =? 1)%nat then Ok (mk2 n n (fun i j => get v 0 * delta i j)) else Err ValueError
                | WMat m => if (length m =? n)%nat && (length (nth 0 m []) =? n)%nat then Ok (mk2 n n (fun i j => get2 m i j * delta i j)) else Err ValueError
                end) ;;
          Ok (arr_of l, arr_of c, PArr n n r)
      | _ => Err AssertionError
      end
  | WVec _ => Err AssertionError
  | _ => Ok (pul (wi_L w), pul (wi_C w), pul (wi_R w))
  end.
(** jsonParser.py:393-413 *)
Definition buildMTLfromLine (name : string) : res (mtl N) :=
  c <- getCableFromLineName name ;;
  e0 <- py_get (cb_elems c) 0 ;;
  np <- getListOfCoordinates e0 ;;
  w <- getWireWithMaterialId (cb_mat c) ;;
  p <- line_params w ;;
  let '(l, c', r) := p in
  mtl_new LA ju jdu l c' r (PFloat n0) n1 np (cb_ndiv c) (ZScal n0) (ZScal n0) (cb_name c).
(** jsonParser.py:281-290 *)
Definition addConnectorsResistance (line : mtl N) : res (mtl N) :=
  foldM (fun m c => foldM (fun m e =>
      cid <- py_get (ce_coords e) 0 ;;
      es <- getElementOfNode cid ;;
      if memZ (fst es) (cb_elems c) then
        p <- coordinate cid ;;
        conn <- connector_with (ce_mat e) ;;
        R <- of_option KeyError (cn_R (cm_conn conn)) ;;
        k <- indexZ (fst es) (cb_elems c) ;;
        set_resistance_in_region LA m (PosL p) (PosL p) k R
      else Ok m) (dc_ends D) m) (filter (fun c => String.eqb (cb_name c) (m_name line)) (dc_cables D)) line.
(** jsonParser.py:263-278 *)
Definition addLumpedElement (line : mtl N) : res (mtl N) :=
  if (length (dc_lumped D) =? 0)%nat then Ok line else
  l <- of_option IndexError (find (fun l => String.eqb (lu_cable l) (m_name line)) (dc_lumped D)) ;;
  conn <- connector_with (lu_mat l) ;;
  model <- of_option GenericException (cm_model conn) ;;
  ps <- mapM coordinate (lu_coords l) ;;
  p <- py_get ps 0 ;;
  mtl_add_dispersive_connector line p (lu_cond l) model.
Definition build_line (name : string) : res (mtl N) :=
  m <- buildMTLfromLine name ;; m1 <- addConnectorsResistance m ;; addLumpedElement m1.
Definition max_level (g : graph) : res nat :=
  match g_vs g with [] => Err ValueError | _ => Ok (fold_left Nat.max (map v_level (g_vs g)) 0%nat) end.
Definition names_at (g : graph) (level : nat) : list string := map v_cable (filter (fun v => (v_level v =? level)%nat) (g_vs g)).
(** jsonParser.py:330-340 *)
Definition build_levels (g : graph) : res (list (list (mtl N))) :=
  top <- max_level g ;;
  mapM (fun i => mapM build_line (set_order (names_at g i))) (seq 0 (S top)).
(** jsonParser.py:244-260 *)
Fixpoint conductors_before (name : string) (lines : list (mtl N)) : nat :=
  match lines with [] => 0%nat | m :: ls => if String.eqb (m_name m) name then 0%nat else (k_n (m_core m) + conductors_before name ls)%nat end.
Definition findConductorNumberInLevel (levels : list (list (mtl N))) (v : vertex) : res nat :=
  ls <- of_option KeyError (nth_error levels (v_level v)) ;;
  c <- cable_named (v_cable v) ;;
  k <- indexZ (v_name v) (cb_elems c) ;;
  Ok (conductors_before (v_cable v) ls + k)%nat.
(** the arguments shared by the two calls of jsonParser.py:292-315 *)
Definition edge_args (g : graph) (levels : list (list (mtl N))) (e : nat * nat * option (ratmodel N)) : res (nat * nat * nat * nat) :=
  let '(i, j, _) := e in
  s <- py_get (g_vs g) i ;; t <- py_get (g_vs g) j ;;
  cs <- findConductorNumberInLevel levels s ;; ct <- findConductorNumberInLevel levels t ;;
  Ok (v_level s, cs, v_level t, ct).
(** jsonParser.py:292-299: the 0 of a cable without transfer impedance has no [keys] *)
Definition set_edge (g : graph) (b : bundle N) (e : nat * nat * option (ratmodel N)) : res (bundle N) :=
  a <- edge_args g (b_levels b) e ;;
  let '(lo, co, li, ci) := a in
  match snd e with
  | Some z => bundle_add_transfer_impedance b lo [co] li [ci] z
  | None => if adjacent lo li then Err AttributeError else Err AssertionError
  end.
(** jsonParser.py:301-315 *)
Definition set_end (g : graph) (b : bundle N) (e : cend) : res (bundle N) :=
  cid <- py_get (ce_coords e) 0 ;;
  es <- getElementOfNode cid ;;
  foldM (fun b ed =>
      conn <- connector_with (ce_mat e) ;;
      z <- of_option KeyError (cm_Zt conn) ;;
      a <- edge_args g (b_levels b) ed ;;
      let '(lo, co, li, ci) := a in
      set_connector_transfer_impedance b (if snd es : bool then "end"%string else "initial"%string) lo [co] li [ci] z)
    (filter (fun ed => match nth_error (g_vs g) (fst (fst ed)) with Some v => (v_name v =? fst es)%Z | None => false end) (g_es g)) b.
Definition setBundleTransferImpedance (b : bundle N) (g : graph) : res (bundle N) :=
  b1 <- foldM (set_edge g) (g_es g) b ;; foldM (set_end g) (dc_ends D) b1.
(** jsonParser.py:318-352: bundles, name -> line, name -> bundle name *)
Record built := Built { bt_bundles : list (bundle N); bt_mtl : list (string * mtl N); bt_bundle : list (string * string) }.
Definition build_one (st : built) (bd : string * nested) : res built :=
  g <- buildGraphFromConnections (snd bd) ;;
  levels <- build_levels g ;;
  b <- mtld_new levels (fst bd) ;;
  b' <- setBundleTransferImpedance b g ;;
  let lines := concat levels in
  Ok {| bt_bundles := bt_bundles st ++ [b'];
        bt_mtl := fold_left (fun d m => dset String.eqb (m_name m) m d) lines (bt_mtl st);
        bt_bundle := fold_left (fun d m => dset String.eqb (m_name m) (fst bd) d) lines (bt_bundle st) |}.
Definition buildBundles : res built := foldM build_one (dc_bundles D) {| bt_bundles := []; bt_mtl := []; bt_bundle := [] |}.

(** ** Sources *)
(** jsonParser.py:529-579: the value of the function built for a source, [None] for Python's None; keys are read when it is called *)
Definition param (s : source) (k : string) : res N := of_option KeyError (dget String.eqb k (so_params s)).
Definition buildSource (s : source) (t : N) : res (option N) :=
  let is k := String.eqb (so_mag s) k in
  if is "trapezoidal"%string then
    A <- param s "amplitude"%string ;; rise <- param s "rise_time"%string ;; fall <- param s "fall_time"%string ;; f0 <- param s "f0"%string ;; d <- param s "D"%string ;;
    Ok (Some (trapezoidal_wave t A rise fall f0 d))
  else if is "ramp"%string then A <- param s "amplitude"%string ;; x0 <- param s "t0"%string ;; Ok (Some (ramp_pulse t A x0))
  else if is "gaussian_2"%string then A <- param s "amplitude"%string ;; x0 <- param s "x0"%string ;; s0 <- param s "s0"%string ;; Ok (Some (gaussian_2 t A x0 s0))
  else if is "gaussian"%string then x0 <- param s "x0"%string ;; s0 <- param s "s0"%string ;; Ok (Some (gaussian t x0 s0))
  else if is "sin_sq"%string then A <- param s "amplitude"%string ;; w <- param s "frequency"%string ;; Ok (Some (sin_sq_pulse t A w))
  else if is "sin"%string then A <- param s "amplitude"%string ;; w <- param s "frequency"%string ;; Ok (Some (sin_pulse t A w))
  else if is "exp"%string then A <- param s "amplitude"%string ;; x0 <- param s "t0"%string ;; Ok (Some (wf_exp t A x0))
  else Ok None.
(** the built function where numbers are expected.  Simplification: a missing key and the None of an unknown type, which make
    the first evaluation raise, raise here *)
Definition source_fun (s : source) : res (N -> N) :=
  x <- buildSource s n0 ;;
  match x with
  | Some _ => Ok (fun t => match buildSource s t with Ok (Some y) => y | _ => n0 end)
  | None => Err TypeError
  end.
(** jsonParser.py:581-587 *)
Fixpoint terminal_source_in (ss : list source) (node : Z) : res (tfun N) :=
  match ss with
  | [] => Ok (TInt 0)
  | s :: ss' =>
      if String.eqb (so_type s) "TerminalSource"%string then
        match dc_nodes D with
        | [] => terminal_source_in ss' node
        | _ => e <- py_get (so_elems s) 0 ;;
               if existsb (fun n => (fst n =? e)%Z && (snd n =? node)%Z) (dc_nodes D) then f <- source_fun s ;; Ok (TFun f)
               else terminal_source_in ss' node
        end
      else terminal_source_in ss' node
  end.
Definition getTerminalSourceInNode : Z -> res (tfun N) := terminal_source_in (dc_sources D).
(** jsonParser.py:719-726: position of the first bundle with a line of that name *)
Fixpoint bundle_with (name : string) (bs : list (bundle N)) : res nat :=
  match bs with
  | [] => Err AttributeError
  | b :: bs' => if existsb (fun m => String.eqb (m_name m) name) (concat (b_levels b)) then Ok 0%nat else k <- bundle_with name bs' ;; Ok (S k)
  end.
(** jsonParser.py:361-378 *)
Definition add_source (bs : list (bundle N)) (s : source) : res (list (bundle N)) :=
  if negb (String.eqb (so_type s) "DistributedSource"%string) then Ok bs else
  c <- cable_named (so_cable s) ;;
  k <- bundle_with (cb_name c) bs ;;
  let cond := match so_cond s with Some x => x | None => 0%nat end in
  if String.eqb (so_kind s) "localized efield drive"%string || String.eqb (so_kind s) "Planewave"%string then
    f <- source_fun s ;;
    e0 <- py_get (so_elems s) 0 ;; c0 <- getNodeCoordId e0 ;; p0 <- coordinate c0 ;;
    e1 <- py_get (so_elems s) 1 ;; c1 <- getNodeCoordId e1 ;; p1 <- coordinate c1 ;;
    b <- py_get bs k ;;
    b' <- add_localized_longitudinal_field b (PosL p0) (PosL p1) cond f (so_kind s) ;;
    Ok (lset bs k b')
  else Ok bs.
Definition addSources (bs : list (bundle N)) : res (list (bundle N)) := foldM add_source (dc_sources D) bs.
(** jsonParser.py:354-358, 728-735: also the probe's name, its bundle and its position there *)
Definition add_probe_desc (st : list (bundle N) * list (string * (nat * nat))) (p : pdesc) : res (list (bundle N) * list (string * (nat * nat))) :=
  let bs := fst st in
  c <- (match pb_cable p with
        | Some name => cable_named name
        | None => e0 <- py_get (pb_elems p) 0 ;; c <- getNodeCoordId e0 ;; el <- getLineElemIdFromCoordId c ;; getCableWithElemId el
        end) ;;
  k <- bundle_with (cb_name c) bs ;;
  e0 <- py_get (pb_elems p) 0 ;;
  cid <- getNodeCoordId e0 ;; q <- coordinate cid ;;
  b <- py_get bs k ;;
  b' <- bundle_add_probe b (PosL q) (pb_type p) ;;
  Ok (lset bs k b', dset String.eqb (pb_name p) (k, length (b_probes b)) (snd st)).
Definition addProbes (bs : list (bundle N)) : res (list (bundle N) * list (string * (nat * nat))) := foldM add_probe_desc (dc_probes D) (bs, []).

(** ** Networks *)
(** jsonParser.py:427-436, 589-598: grouped by the coordinates of the first node *)
Definition group_key (t : list (list Z)) : res (vec N) :=
  cs <- py_get t 0 ;; c <- py_get cs 0 ;; coordinate c.
Definition add_group (d : list (vec N * list (list (list Z)))) (t : list (list Z)) : res (list (vec N * list (list (list Z)))) :=
  k <- group_key t ;;
  Ok (dset vec_eqb k (match dget vec_eqb k d with Some l => l ++ [t] | None => [t] end) d).
Definition getNetworkList (ts : list (list (list Z))) : res (list (list (list (list Z)))) :=
  d <- foldM add_group ts [] ;; Ok (map snd d).
(** jsonParser.py:438-443 *)
Fixpoint level_in (name : string) (levels : list (list (mtl N))) (k : nat) : option nat :=
  match levels with [] => None | ls :: levels' => if existsb (fun m => String.eqb (m_name m) name) ls then Some k else level_in name levels' (S k) end.
Fixpoint getLevelOfCable (name : string) (bs : list (bundle N)) : res nat :=
  match bs with [] => Err GenericException | b :: bs' => match level_in name (b_levels b) 0 with Some k => Ok k | None => getLevelOfCable name bs' end end.

(** what is known of one listed node: id, connector, conductor, source *)
Record entry := Entry { en_node : Z; en_conn : cmat; en_cond : nat; en_src : tfun N }.
(** description under construction: cable name -> item of the description; and the level of the last node *)
Definition dacc := (list (string * descr N) * nat)%type.
(** jsonParser.py:458-470, 612-626; [dedup] is the test of line 620 (the connector and conductor are functions of the node, so
    the node alone is compared) *)
Definition add_entry (st : built) (bs : list (bundle N)) (dedup : bool) (acc : dacc) (c : Z) : res (dacc * entry) :=
  r <- getConnectorAndCableInNode c ;;
  let '(conn, name, k, side) := r in
  src <- getTerminalSourceInNode c ;;
  level <- getLevelOfCable name bs ;;
  line <- of_option KeyError (dget String.eqb name (bt_mtl st)) ;;
  d <- (match dget String.eqb name (fst acc) with
        | Some d => Ok d
        | None => bn <- of_option KeyError (dget String.eqb name (bt_bundle st)) ;; Ok (line, (side, (bn, [])))
        end) ;;
  let '(ln, (sd, (bn, conns))) := d in
  let conns' := if dedup && existsb (fun x => (fst (fst x) =? c)%Z) conns then conns else conns ++ [(c, k, cm_conn conn)] in
  Ok ((dset String.eqb name (ln, (sd, (bn, conns'))) (fst acc), level), Entry c conn k src).
Fixpoint add_entries (st : built) (bs : list (bundle N)) (dedup : bool) (acc : dacc) (cs : list Z) : res (dacc * list entry) :=
  match cs with
  | [] => Ok (acc, [])
  | c :: cs' => r <- add_entry st bs dedup acc c ;; r' <- add_entries st bs dedup (fst r) cs' ;; Ok (fst r', snd r :: snd r')
  end.
Fixpoint add_rows (st : built) (bs : list (bundle N)) (dedup : bool) (acc : dacc) (t : list (list Z)) : res (dacc * list (list entry)) :=
  match t with
  | [] => Ok (acc, [])
  | cs :: t' => r <- add_entries st bs dedup acc cs ;; r' <- add_rows st bs dedup (fst r) t' ;; Ok (fst r', snd r :: snd r')
  end.
(** jsonParser.py:476-492 *)
Definition ground_single (w : network N) (e : entry) : res (network N) :=
  let k := cm_conn (en_conn e) in
  let is t := String.eqb (cn_type k) t in
  if is "Conn_short"%string then short_to_ground w (en_node e)
  else if is "Conn_sRLC"%string || is "Conn_R"%string then
    R <- of_option KeyError (cn_R k) ;; connect_to_ground w (en_node e) R (en_src e)
  else if is "Conn_C"%string then
    C <- of_option KeyError (cn_C k) ;; connect_to_ground_C w (en_node e) C (en_src e)
  else if is "Conn_LCpRs"%string then
    R <- of_option KeyError (cn_R k) ;; L <- of_option KeyError (cn_L k) ;; C <- of_option KeyError (cn_C k) ;;
    connect_to_ground_LCpRs w (en_node e) R L C (en_src e)
  else Ok w.
Definition vec_or (v : option (vec N)) (k : nat) (d : N) : res N := match v with Some l => py_get l k | None => Ok d end.
(** jsonParser.py:496-519: connector and source are read at position [conductor] of the lists *)
Definition ground_multi (es : list entry) (w : network N) (e : entry) : res (network N) :=
  let c := en_cond e in
  x <- py_get es c ;;
  let k := cm_conn (en_conn x) in
  if negb (String.eqb (cn_type k) "MultiwireConnector"%string) then Ok w else
  R <- vec_or (cn_Rv k) c n0 ;;
  C <- vec_or (cn_Cv k) c n1e22 ;;
  L <- vec_or (cn_Lv k) c n0 ;;
  ty <- py_get (cn_conns k) c ;;
  let is t := String.eqb ty t in
  if is "Conn_short"%string then short_to_ground w (en_node e)
  else if is "Conn_R"%string || is "Conn_sRLC"%string then connect_to_ground w (en_node e) R (en_src x)
  else if is "Conn_LCpRs"%string then connect_to_ground_LCpRs w (en_node e) R L C (en_src x)
  else if is "Conn_C"%string then connect_to_ground_C w (en_node e) C (en_src x)
  else Ok w.
(** jsonParser.py:475-518 *)
Definition ground_row (w : network N) (es : list entry) : res (network N) :=
  match es with
  | [] => Ok w
  | [e] => ground_single w e
  | _ => foldM (ground_multi es) es w
  end.
(** jsonParser.py:451-525 *)
Definition termination_network (st : built) (bs : list (bundle N)) (t : list (list Z)) : res (nat * network N) :=
  r <- add_rows st bs false ([], 0%nat) t ;;
  w <- network_new (map snd (fst (fst r))) ;;
  w' <- foldM ground_row (snd r) w ;;
  Ok (snd (fst r), w').
(** jsonParser.py:638-648: the resistance a connector contributes to a junction *)
Definition junction_R (e : entry) : res N :=
  let k := cm_conn (en_conn e) in
  let is t := String.eqb (cn_type k) t in
  if is "Conn_sRLC"%string || is "Conn_R"%string then R <- of_option KeyError (cn_R k) ;; Ok (n0 + R)
  else if is "MultiwireConnector"%string then
    ty <- py_get (cn_conns k) (en_cond e) ;;
    if String.eqb ty "Conn_R"%string || String.eqb ty "Conn_sRLC"%string then
      v <- of_option KeyError (cn_Rv k) ;; R <- py_get v (en_cond e) ;; Ok (n0 + R)
    else Ok n0
  else Ok n0.
(** jsonParser.py:632-653 *)
Definition join_row (w : network N) (es : list entry) : res (network N) :=
  match es with
  | [e0; e1] =>
      R0 <- junction_R e0 ;; R1 <- junction_R e1 ;;
      if R1 + R0 =? n0 then short_nodes w (en_node e0) (en_node e1)
      else connect_nodes w (en_node e0) (en_node e1) (R0 + R1) (add_t_functions (en_src e0) (en_src e1))
  | _ => Err ValueError
  end.
(** jsonParser.py:606-655 *)
Definition junction_network (st : built) (bs : list (bundle N)) (t : list (list Z)) : res (nat * network N) :=
  r <- add_rows st bs true ([], 0%nat) t ;;
  w <- network_new (map snd (fst (fst r))) ;;
  w' <- foldM join_row (snd r) w ;;
  Ok (snd (fst r), w').
(** one NetworkD per group: [networkd[bundle_level] = network] *)
Definition level_networks (f : list (list Z) -> res (nat * network N)) (g : list (list (list Z))) : res (networkd N) :=
  foldM (fun d t => lw <- f t ;; Ok (dset Nat.eqb (fst lw) (snd lw) d)) g [].
(** jsonParser.py:446-527, 601-657 *)
Definition buildTerminations (st : built) (bs : list (bundle N)) : res (list (networkd N)) :=
  gs <- getNetworkList (dc_terms D) ;; mapM (level_networks (termination_network st bs)) gs.
Definition buildJunctions (st : built) (bs : list (bundle N)) : res (list (networkd N)) :=
  gs <- getNetworkList (dc_juncts D) ;; mapM (level_networks (junction_network st bs)) gs.

(** jsonParser.py:12-35 *)
Record parsed := Parsed { ps_bundles : list (bundle N); ps_networks : list (networkd N); ps_probes : list (string * (nat * nat)) }.
Definition parse : res parsed :=
  st <- buildBundles ;;
  bs <- addSources (bt_bundles st) ;;
  bp <- addProbes bs ;;
  js <- buildJunctions st (fst bp) ;;
  ts <- buildTerminations st (fst bp) ;;
  Ok {| ps_bundles := fst bp; ps_networks := js ++ ts; ps_probes := snd bp |}.
(** jsonParser.py:37-47 *)
Definition parse_and_run (final_time dt : N) : res (mtln N) :=
  p <- parse ;; parser_run LA (ps_bundles p) (ps_networks p) final_time dt.
End Parser.
Arguments doc N : clear implicits.
Arguments graph N : clear implicits.
Arguments source N : clear implicits.
Arguments entry N : clear implicits.
Arguments built N : clear implicits.
Arguments parsed N : clear implicits.
Arguments cmat N : clear implicits.
Arguments wire N : clear implicits.
Arguments wval N : clear implicits.
