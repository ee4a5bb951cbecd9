(** What a document says about its lines, cable ends, distributed sources and probes.  No proofs here. *)
From Coq Require Import String List Arith ZArith Bool.
From Verif Require Import Num Py Arr Utils Probes Dispersive Line Bundle Networks SpecLine Parser SpecParser.
Import ListNotations.

(** ** Wires *)
Section Wires.
Context {N : num}.
Local Open Scope num_scope.
(** [conductor_resistance v n i x]: in a wire of n conductors with resistance entry v, that of conductor i is x *)
Inductive conductor_resistance : wval N -> nat -> nat -> N -> Prop :=
| cr_number x n i : conductor_resistance (WFloat x) n i x
| cr_integer z n i : conductor_resistance (WInt z) n i (nofZ z)
| cr_list v n i x : length v = n -> nth_error v i = Some x -> conductor_resistance (WVec v) n i x
| cr_single x n i : n <> 1%nat -> conductor_resistance (WVec [x]) n i x
| cr_matrix A n i : length A = n -> length (nth 0 A []) = n -> conductor_resistance (WMat A) n i (get2 A i i).
(** the matrices of a wire: numbers for one conductor, or square matrices and the resistances on the diagonal *)
Inductive wire_params (w : wire N) : pulin N -> pulin N -> pulin N -> Prop :=
| wp_numbers x y z : wi_L w = WFloat x -> wi_C w = WFloat y -> wi_R w = WFloat z -> wire_params w (PFloat x) (PFloat y) (PFloat z)
| wp_matrices L C r n : wi_L w = WMat L -> wi_C w = WMat C -> n = length L ->
    (forall i j, (i < n)%nat -> (j < n)%nat -> exists x, get2 r i j = x * delta i j /\ (i = j -> conductor_resistance (wi_R w) n i x)) ->
    wire_params w (PArr (length L) (length (nth 0 L [])) L) (PArr (length C) (length (nth 0 C [])) C) (PArr n n r).
(** the first cable of the document with a name, and the first wire with its material *)
Definition wired (D : doc N) (name : string) (cb : cable) (w : wire N) : Prop :=
  first_such (fun c => cb_name c = name) (dc_cables D) cb /\ first_such (fun w => wi_id w = cb_mat cb) (dc_wires D) w.
(** the polyline of a cable: that of its first element *)
Definition runs_along (D : doc N) (cb : cable) (ps : list (vec N)) : Prop :=
  exists x rest cs, cb_elems cb = x :: rest /\ first_such (fun l => fst l = x) (dc_lines D) (x, cs) /\ Forall2 (point D) cs ps.
End Wires.

(** ** Cable ends *)
Section Ends.
Context {N : num}.
Variable LA : lapack N.
Variable D : doc N.
(** the end of a line a cable end is on *)
Definition end_on (e : cend) (c x : Z) (far : bool) : Prop := exists rest, ce_coords e = c :: rest /\ ends_at D c x far.
(** the connector of a cable end *)
Definition end_material (e : cend) (conn : cmat N) : Prop := first_such (fun c => cm_id c = ce_mat e) (dc_conns D) conn.
(** the resistances put on a line by the cable ends of its cable, in order: each at its point, on the conductor of its line *)
Inductive loaded (cb : cable) : list cend -> mtl N -> mtl N -> Prop :=
| loaded_nil m : loaded cb [] m m
| loaded_other e es c x far m m' : end_on e c x far -> ~ In x (cb_elems cb) -> loaded cb es m m' -> loaded cb (e :: es) m m'
| loaded_here e es c x far k p conn R m m1 m' : end_on e c x far -> position x (cb_elems cb) k -> point D c p -> end_material e conn -> cn_R (cm_conn conn) = Some R ->
    set_resistance_at_point LA m (PosL p) k R = Ok m1 -> loaded cb es m1 m' -> loaded cb (e :: es) m m'.
(** the lumped element of a line: none in a document without lumped elements, the first of its cable otherwise *)
Definition lumped_on (m m' : mtl N) : Prop := (dc_lumped D = [] /\ m' = m) \/
  exists l conn model p, first_such (fun l => lu_cable l = m_name m) (dc_lumped D) l /\ first_such (fun c => cm_id c = lu_mat l) (dc_conns D) conn /\ cm_model conn = Some model /\
    (exists c rest, lu_coords l = c :: rest /\ point D c p) /\ mtl_add_dispersive_connector m p (lu_cond l) model = Ok m'.
(** the line of a cable: made with its wire's matrices along its polyline, then loaded by its cable ends and its lumped element *)
Definition line_of_cable (ju jdu : nat -> vec N) (name : string) (m : mtl N) : Prop :=
  exists cb w ps l c r m0 m1, wired D name cb w /\ runs_along D cb ps /\ wire_params w l c r /\
    mtl_new LA ju jdu l c r (PFloat n0) n1 ps (cb_ndiv cb) (ZScal n0) (ZScal n0) name = Ok m0 /\
    loaded cb (dc_ends D) m0 m1 /\ lumped_on m1 m.
End Ends.

(** ** Transfer impedances *)
Section Couplings.
Context {N : num}.
Variable LA : lapack N.
Variable D : doc N.
(** [numbered levels v c]: the element of the vertex is conductor c of its level: its bundle row is that of the level's first conductor plus c *)
Definition numbered (levels : list (list (mtl N))) (v : vertex) (c : nat) : Prop :=
  element_row D levels v (list_sum (map (@conductors N) (concat (firstn (v_level v) levels))) + c).
(** the shields' transfer impedances, one per nested element, in order *)
Inductive coupled (g : graph N) : list (nat * nat * option (ratmodel N)) -> bundle N -> bundle N -> Prop :=
| coupled_nil b : coupled g [] b b
| coupled_edge i j z v w co ci es b b1 b' : nth_error (g_vs g) i = Some v -> nth_error (g_vs g) j = Some w -> numbered (b_levels b) v co -> numbered (b_levels b) w ci ->
    bundle_add_transfer_impedance b (v_level v) [co] (v_level w) [ci] z = Ok b1 -> coupled g es b1 b' -> coupled g ((i, j, Some z) :: es) b b'.
(** the transfer impedance of a cable end on element x, for each edge out of x: at the first cell of the bundle for a near end, at the last for a far end *)
Inductive closed (g : graph N) (e : cend) (x : Z) (far : bool) : list (nat * nat * option (ratmodel N)) -> bundle N -> bundle N -> Prop :=
| closed_nil b : closed g e x far [] b b
| closed_other i j z v es b b' : nth_error (g_vs g) i = Some v -> v_name v <> x -> closed g e x far es b b' -> closed g e x far ((i, j, z) :: es) b b'
| closed_edge i j z v w co ci conn zt es b b1 b' : nth_error (g_vs g) i = Some v -> v_name v = x -> nth_error (g_vs g) j = Some w ->
    numbered (b_levels b) v co -> numbered (b_levels b) w ci -> end_material D e conn -> cm_Zt conn = Some zt ->
    set_connector_transfer_impedance b (if far then "end" else "initial")%string (v_level v) [co] (v_level w) [ci] zt = Ok b1 ->
    closed g e x far es b1 b' -> closed g e x far ((i, j, z) :: es) b b'.
Inductive all_closed (g : graph N) : list cend -> bundle N -> bundle N -> Prop :=
| all_closed_nil b : all_closed g [] b b
| all_closed_end e es c x far b b1 b' : end_on D e c x far -> closed g e x far (g_es g) b b1 -> all_closed g es b1 b' -> all_closed g (e :: es) b b'.
(** the bundle of a description: in each level the lines of the cables with elements at that depth, each once; then the couplings *)
Definition bundle_of (ju jdu : nat -> vec N) (bd : string * nested) (b : bundle N) : Prop :=
  exists g b0 b1, buildGraphFromConnections D (snd bd) = Ok g /\ mtld_new (b_levels b0) (fst bd) = Ok b0 /\
    (forall d x, listed (snd bd) d x -> (d < length (b_levels b0))%nat) /\
    (forall d ls, nth_error (b_levels b0) d = Some ls -> NoDup (map (@m_name N) ls) /\ Forall (fun m => line_of_cable LA D ju jdu (m_name m) m) ls /\
       forall name, In name (map (@m_name N) ls) <-> exists x, listed (snd bd) d x /\ cable_of D x name) /\
    coupled g (g_es g) b0 b1 /\ all_closed g (dc_ends D) b1 b.
End Couplings.

(** ** Distributed sources *)
Section Sources.
Context {N : num}.
Variable D : doc N.
Definition distributed (s : source N) : Prop :=
  so_type s = "DistributedSource"%string /\ (so_kind s = "localized efield drive"%string \/ so_kind s = "Planewave"%string).
(** the bundle with a line of that name: the first *)
Definition in_bundle (bs : list (bundle N)) (name : string) (k : nat) : Prop :=
  (exists b, nth_error bs k = Some b /\ has_line name (concat (b_levels b))) /\
  forall j b, (j < k)%nat -> nth_error bs j = Some b -> ~ has_line name (concat (b_levels b)).
(** the point of a node element *)
Definition node_point (e : Z) (p : vec N) : Prop := exists c, first_such (fun n => fst n = e) (dc_nodes D) (e, c) /\ point D c p.
(** what a distributed source adds: bundle, end points, conductor number, waveform *)
Record drive := Drive { dr_bundle : nat; dr_from : vec N; dr_to : vec N; dr_cond : nat; dr_wave : N -> N }.
Definition drives_field (bs : list (bundle N)) (s : source N) (d : drive) : Prop :=
  (exists cb, first_such (fun c => cb_name c = so_cable s) (dc_cables D) cb /\ in_bundle bs (so_cable s) (dr_bundle d)) /\
  (exists e0 e1 rest, so_elems s = e0 :: e1 :: rest /\ node_point e0 (dr_from d) /\ node_point e1 (dr_to d)) /\
  dr_cond d = match so_cond s with Some c => c | None => 0%nat end /\
  waveform s (dr_wave d).
(** the fields added by a list of sources, in order *)
Inductive driven : list (source N) -> list (bundle N) -> list (bundle N) -> Prop :=
| driven_nil bs : driven [] bs bs
| driven_other s ss bs bs' : ~ distributed s -> driven ss bs bs' -> driven (s :: ss) bs bs'
| driven_here s ss d f b b' bs bs' : distributed s -> drives_field bs s d -> (forall t, f t = dr_wave d t) -> nth_error bs (dr_bundle d) = Some b ->
    add_localized_longitudinal_field b (PosL (dr_from d)) (PosL (dr_to d)) (dr_cond d) f (so_kind s) = Ok b' ->
    driven ss (lset bs (dr_bundle d) b') bs' -> driven (s :: ss) bs bs'.
End Sources.
Arguments drive N : clear implicits.

(** ** Probes *)
Section Probes.
Context {N : num}.
Variable D : doc N.
(** the cable of a probe: the one it names, or that of the first line through its node *)
Definition probed_cable (p : pdesc) (name : string) : Prop :=
  match pb_cable p with
  | Some n => name = n /\ exists cb, In cb (dc_cables D) /\ cb_name cb = n
  | None => exists e rest c l cb, pb_elems p = e :: rest /\ first_such (fun n => fst n = e) (dc_nodes D) (e, c) /\
      first_such (fun l => In c (snd l)) (dc_lines D) l /\ first_such (fun cb => In (fst l) (cb_elems cb)) (dc_cables D) cb /\ name = cb_name cb
  end.
(** [probed bs p k q]: the probe described by p is on bundle k at point q *)
Definition probed (bs : list (bundle N)) (p : pdesc) (k : nat) (q : vec N) : Prop :=
  (exists name, probed_cable p name /\ in_bundle bs name k) /\ exists e rest, pb_elems p = e :: rest /\ node_point D e q.
(** the probes a list of descriptions, each with its bundle and point, leaves on bundle k *)
Definition probes_on (k : nat) (b : bundle N) (l : list (pdesc * (nat * vec N))) : list (probe N) :=
  map (fun x => probe_new (snd (snd x)) (pb_type (fst x)) (k_dt (b_core b)) (b_u b)) (filter (fun x => (fst (snd x) =? k)%nat) l).
(** the bundle with more probes *)
Definition with_probes (b : bundle N) (ps : list (probe N)) : bundle N := b_set b (b_core b) (b_probes b ++ ps).
End Probes.
