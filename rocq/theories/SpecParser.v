(** What a document says, independently of how the parser reads it.  No proofs here. *)
From Coq Require Import String List Arith ZArith Bool.
From Verif Require Import Num Py Arr Utils Waveforms Dispersive Line Bundle Networks SpecLine SpecBundle SpecNet SpecAlone Parser.
Import ListNotations.

(** ** Nesting descriptions *)
(** [listed t d x]: element x is listed in t at depth d *)
Inductive listed : nested -> nat -> Z -> Prop :=
| listed_str ids x : In x ids -> listed (NStr ids) 0 x
| listed_key kvs x sub : In (x, sub) kvs -> listed (NDict kvs) 0 x
| listed_sub kvs y sub d x : In (y, sub) kvs -> listed sub d x -> listed (NDict kvs) (S d) x.
(** [nests t x y]: y is nested directly in x *)
Inductive nests : nested -> Z -> Z -> Prop :=
| nests_here kvs x sub y : In (x, sub) kvs -> listed sub 0 y -> nests (NDict kvs) x y
| nests_sub kvs z sub x y : In (z, sub) kvs -> nests sub x y -> nests (NDict kvs) x y.
(** all listed elements, with repetitions *)
Fixpoint elements (t : nested) : list Z :=
  match t with
  | NStr ids => ids
  | NDict kvs => (fix go kvs := match kvs with [] => [] | (x, sub) :: kvs' => x :: elements sub ++ go kvs' end) kvs
  end.
(** no element is listed twice *)
Definition distinct (t : nested) : Prop := NoDup (elements t).

Section Spec.
Context {N : num}.
(** the cable of an element: the last cable listing it *)
Definition cable_of (D : doc N) (x : Z) (name : string) : Prop :=
  exists before c after, dc_cables D = before ++ c :: after /\ In x (cb_elems c) /\ cb_name c = name /\
    forall c', In c' after -> ~ In x (cb_elems c').
(** an edge of the graph by the names of its ends *)
Definition edge (g : graph N) (x y : Z) (zt : option (ratmodel N)) : Prop :=
  exists i j v w, In (i, j, zt) (g_es g) /\ nth_error (g_vs g) i = Some v /\ nth_error (g_vs g) j = Some w /\ v_name v = x /\ v_name w = y.
End Spec.

(** ** Ends of lines *)
(** [end_of cs c far]: c is the first coordinate, or (far) the last coordinate but not the first *)
Definition end_of (cs : list Z) (c : Z) (far : bool) : Prop :=
  match cs with [] => False | c0 :: _ => if far then c0 <> c /\ last cs c0 = c else c0 = c end.

(** the number of the first occurrence in a list *)
Definition position (x : Z) (l : list Z) (k : nat) : Prop := nth_error l k = Some x /\ forall j, (j < k)%nat -> nth_error l j <> Some x.

(** [split_last P g t]: t is the last member of g satisfying P *)
Definition last_such {A} (P : A -> Prop) (g : list A) (t : A) : Prop :=
  exists before after, g = before ++ t :: after /\ P t /\ forall t', In t' after -> ~ P t'.

(** ** Rows of elements *)
(** an order in which Python may list the members of a set: each once *)
Definition set_listing (order : list string -> list string) : Prop :=
  forall l, NoDup (order l) /\ forall x, In x (order l) <-> In x l.
Section Rows.
Context {N : num}.
(** [element_row D levels v r]: r is the bundle row of the conductor of the vertex's element: the line built for its cable is
    number [q] of its level, [k] the place of the element in the cable, and all lines before it, in outer levels or in the same
    one, come first *)
Definition element_row (D : doc N) (levels : list (list (mtl N))) (v : vertex) (r : nat) : Prop :=
  exists ls q m cb k, nth_error levels (v_level v) = Some ls /\ nth_error ls q = Some m /\ m_name m = v_cable v /\
    In cb (dc_cables D) /\ cb_name cb = v_cable v /\ position (v_name v) (cb_elems cb) k /\
    let p := (length (concat (firstn (v_level v) levels)) + q)%nat in
    nth_error (concat levels) p = Some m /\ r = (first_row (concat levels) p + k)%nat.
End Rows.

(** ** Nodes of terminations and junctions *)
Definition first_such {A} (P : A -> Prop) (l : list A) (a : A) : Prop :=
  exists before after, l = before ++ a :: after /\ P a /\ forall a', In a' before -> ~ P a'.
Section Places.
Context {N : num}.
Variable D : doc N.
(** line x is the first of the document with an end at coordinate c *)
Definition ends_at (c x : Z) (far : bool) : Prop :=
  exists before cs after, dc_lines D = before ++ (x, cs) :: after /\ end_of cs c far /\
    forall y cs', In (y, cs') before -> cs' <> [] /\ forall f, ~ end_of cs' c f.
(** a terminal source on coordinate c *)
Definition drives (c : Z) (s : source N) : Prop :=
  so_type s = "TerminalSource"%string /\ exists e rest, so_elems s = e :: rest /\ In (e, c) (dc_nodes D).
(** the waveform at coordinate c: that of the first source there, or the integer 0 *)
Definition source_at (c : Z) (src : tfun N) : Prop :=
  (src = TInt 0 /\ forall s, In s (dc_sources D) -> ~ drives c s) \/
  (exists s f, first_such (drives c) (dc_sources D) s /\ source_fun s = Ok f /\ src = TFun f).
(** where a node is: cable, conductor and side, and what is connected there *)
Record place := Place { pl_node : Z; pl_cable : string; pl_cond : nat; pl_side : string; pl_conn : connector N; pl_src : tfun N }.
Definition placed (c : Z) (p : place) : Prop :=
  pl_node p = c /\
  exists x far cb m, ends_at c x far /\ first_such (fun cb => In x (cb_elems cb)) (dc_cables D) cb /\ pl_cable p = cb_name cb /\
    position x (cb_elems cb) (pl_cond p) /\ pl_side p = (if far then "L" else "S")%string /\
    first_such (fun m => cm_id m = if far then cb_end cb else cb_init cb) (dc_conns D) m /\ pl_conn p = cm_conn m /\
    source_at c (pl_src p).
(** the description of a network with nodes at these places, in this order: one item per cable, with the side of its first
    node; if [once], a node listed again is not repeated *)
Definition on_cable (name : string) (ps : list place) : list place := filter (fun p => String.eqb (pl_cable p) name) ps.
Definition first_occurrences (ps : list place) : list place :=
  fold_left (fun acc p => if existsb (fun q => (pl_node q =? pl_node p)%Z) acc then acc else acc ++ [p]) ps [].
Definition cable_item (once : bool) (st : built N) (ps : list place) (name : string) (d : descr N) : Prop :=
  exists p rest, on_cable name ps = p :: rest /\
    dget String.eqb name (bt_mtl st) = Some (fst d) /\ dget String.eqb name (bt_bundle st) = Some (fst (snd (snd d))) /\ fst (snd d) = pl_side p /\
    snd (snd (snd d)) = map (fun q => (pl_node q, pl_cond q, pl_conn q)) (if once then first_occurrences (p :: rest) else p :: rest).
Definition description (once : bool) (st : built N) (ps : list place) (ds : list (descr N)) : Prop :=
  exists names, NoDup names /\ (forall name, In name names <-> exists p, In p ps /\ pl_cable p = name) /\
    Forall2 (cable_item once st ps) names ds.
End Places.
Arguments place N : clear implicits.
(** the level of a cable: the first level with its line, in the first bundle with its line *)
Definition has_line {N : num} (name : string) (ls : list (mtl N)) : Prop := exists m, In m ls /\ m_name m = name.
Definition level_of {N : num} (bs : list (bundle N)) (name : string) (lev : nat) : Prop :=
  exists b ls, first_such (fun b => exists ls, In ls (b_levels b) /\ has_line name ls) bs b /\ nth_error (b_levels b) lev = Some ls /\ has_line name ls /\
    forall j ls', (j < lev)%nat -> nth_error (b_levels b) j = Some ls' -> ~ has_line name ls'.
(** the level of a network: that of the cable of its last node *)
Definition last_level {N : num} (bs : list (bundle N)) (ps : list (place N)) (lev : nat) : Prop :=
  (ps = [] /\ lev = 0%nat) \/ exists l p, ps = l ++ [p] /\ level_of bs (pl_cable p) lev.

(** ** Calls made for the rows of a termination *)
Section Calls.
Context {N : num}.
Definition resistive (ty : string) : Prop := ty = "Conn_R"%string \/ ty = "Conn_sRLC"%string.
Definition grounding (ty : string) : Prop := ty = "Conn_short"%string \/ resistive ty \/ ty = "Conn_C"%string \/ ty = "Conn_LCpRs"%string.
(** a row of one node: its connector's type and values, its own source; other types leave it open *)
Inductive single_call (n : Z) (k : connector N) (src : tfun N) : list (@call N) -> Prop :=
| sc_short : cn_type k = "Conn_short"%string -> single_call n k src [GroundShort n]
| sc_R R : resistive (cn_type k) -> cn_R k = Some R -> single_call n k src [GroundR n R src]
| sc_C C : cn_type k = "Conn_C"%string -> cn_C k = Some C -> single_call n k src [GroundC n C src]
| sc_LCpRs R L C : cn_type k = "Conn_LCpRs"%string -> cn_R k = Some R -> cn_L k = Some L -> cn_C k = Some C -> single_call n k src [GroundLCpRs n R L C src]
| sc_open : ~ grounding (cn_type k) -> single_call n k src [].
(** a row of several nodes: entry c of the lists of the connector [k], and the source [src] *)
Definition entry_at (v : option (vec N)) (c : nat) (d x : N) : Prop := match v with Some l => nth_error l c = Some x | None => x = d end.
Inductive multi_call (n : Z) (k : connector N) (c : nat) (src : tfun N) : list (@call N) -> Prop :=
| mc_call ty R L C cs : cn_type k = "MultiwireConnector"%string -> nth_error (cn_conns k) c = Some ty ->
    entry_at (cn_Rv k) c n0 R -> entry_at (cn_Lv k) c n0 L -> entry_at (cn_Cv k) c n1e22 C ->
    ((ty = "Conn_short"%string /\ cs = [GroundShort n]) \/ (resistive ty /\ cs = [GroundR n R src]) \/ (ty = "Conn_C"%string /\ cs = [GroundC n C src]) \/
     (ty = "Conn_LCpRs"%string /\ cs = [GroundLCpRs n R L C src]) \/ (~ grounding ty /\ cs = [])) -> multi_call n k c src cs
| mc_open : cn_type k <> "MultiwireConnector"%string -> multi_call n k c src [].
(** in a row of several nodes, connector and source of a node on conductor number c are those of the node listed at position c *)
Definition row_calls (ps : list (place N)) (cs : list (@call N)) : Prop :=
  match ps with
  | [] => cs = []
  | [p] => single_call (pl_node p) (pl_conn p) (pl_src p) cs
  | _ => exists css, cs = concat css /\
      Forall2 (fun p cs => exists x, nth_error ps (pl_cond p) = Some x /\ multi_call (pl_node p) (pl_conn x) (pl_cond p) (pl_src x) cs) ps css
  end.
(** the resistance a node brings to a junction; anything but a resistor brings none *)
Inductive brings (p : place N) : N -> Prop :=
| br_R R : resistive (cn_type (pl_conn p)) -> cn_R (pl_conn p) = Some R -> brings p (nadd n0 R)
| br_multi ty v R : cn_type (pl_conn p) = "MultiwireConnector"%string -> nth_error (cn_conns (pl_conn p)) (pl_cond p) = Some ty -> resistive ty ->
    cn_Rv (pl_conn p) = Some v -> nth_error v (pl_cond p) = Some R -> brings p (nadd n0 R)
| br_multi_other ty : cn_type (pl_conn p) = "MultiwireConnector"%string -> nth_error (cn_conns (pl_conn p)) (pl_cond p) = Some ty -> ~ resistive ty -> brings p n0
| br_other : ~ resistive (cn_type (pl_conn p)) -> cn_type (pl_conn p) <> "MultiwireConnector"%string -> brings p n0.
Definition joined_by (ps : list (place N)) (cs : list (@call N)) : Prop :=
  exists p q R S, ps = [p; q] /\ brings p R /\ brings q S /\
    cs = [if neqb (nadd S R) n0 then Short (pl_node p) (pl_node q) else Branch (pl_node p) (pl_node q) (nadd R S) (add_t_functions (pl_src p) (pl_src q))].
End Calls.

(** ** Groups of terminations and junctions *)
Section Points.
Context {N : num}.
Variable D : doc N.
(** the point with an identifier: the last one declared *)
Definition point (c : Z) (p : vec N) : Prop := last_such (fun e => fst e = c) (dc_coords D) (c, p).
(** a termination or junction lies where its first node is *)
Definition lies_at (t : list (list Z)) (p : vec N) : Prop := exists c cs rest, t = (c :: cs) :: rest /\ point c p.
(** some wire of a cable with this name has a transfer impedance *)
Definition has_transfer_impedance (name : string) : Prop :=
  exists cb wi z, In cb (dc_cables D) /\ cb_name cb = name /\ In wi (dc_wires D) /\ wi_id wi = cb_mat cb /\ wi_Zt wi = Some z.
(** the lines of a bundle, by cable name *)
Definition line_of_bundle (t : nested) (name : string) : Prop := exists d x, listed t d x /\ cable_of D x name.
End Points.
(** the waveforms of sources *)
Definition known_magnitudes : list string := ["trapezoidal"; "ramp"; "gaussian_2"; "gaussian"; "sin_sq"; "sin"; "exp"]%string.

(** the waveform of a source: its type names a pulse, its parameters are found by name *)
Section Waves.
Context {N : num}.
Definition has_param (s : source N) (k : string) (x : N) : Prop := dget String.eqb k (so_params s) = Some x.
Inductive waveform (s : source N) : (N -> N) -> Prop :=
| wv_trapezoidal A r f f0 d : so_mag s = "trapezoidal"%string -> has_param s "amplitude" A -> has_param s "rise_time" r -> has_param s "fall_time" f ->
    has_param s "f0" f0 -> has_param s "D" d -> waveform s (fun t => trapezoidal_wave t A r f f0 d)
| wv_ramp A x0 : so_mag s = "ramp"%string -> has_param s "amplitude" A -> has_param s "t0" x0 -> waveform s (fun t => ramp_pulse t A x0)
| wv_gaussian_2 A x0 s0 : so_mag s = "gaussian_2"%string -> has_param s "amplitude" A -> has_param s "x0" x0 -> has_param s "s0" s0 -> waveform s (fun t => gaussian_2 t A x0 s0)
| wv_gaussian x0 s0 : so_mag s = "gaussian"%string -> has_param s "x0" x0 -> has_param s "s0" s0 -> waveform s (fun t => gaussian t x0 s0)
| wv_sin_sq A w : so_mag s = "sin_sq"%string -> has_param s "amplitude" A -> has_param s "frequency" w -> waveform s (fun t => sin_sq_pulse t A w)
| wv_sin A w : so_mag s = "sin"%string -> has_param s "amplitude" A -> has_param s "frequency" w -> waveform s (fun t => sin_pulse t A w)
| wv_exp A x0 : so_mag s = "exp"%string -> has_param s "amplitude" A -> has_param s "t0" x0 -> waveform s (fun t => wf_exp t A x0).
End Waves.
