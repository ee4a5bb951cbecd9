(** Properties of the reading of documents (class Parser). *)
From Coq Require Import String List Arith ZArith Bool Permutation Lia QArith Reals.
From Verif Require Import Num Py Arr ArrFacts NumR NumQ LapackQ RFacts Utils Waveforms Probes Dispersive Line Bundle Networks Mtln
  SpecLine SpecBundle SpecNet SpecMtln SpecAlone CoreEq Parser SpecParser ParserFacts ParserBuild ParserNets ParserMore ExampleQ ExampleParser.
Import ListNotations.

(** ** C72: nested cables become a tree of levels *)
Theorem C72_vertices_and_edges (N : num) (D : doc N) t g : buildGraphFromConnections D t = Ok g ->
  (forall x d, (exists v, In v (g_vs g) /\ v_name v = x /\ v_level v = d) <-> listed t d x) /\
  (forall v, In v (g_vs g) -> cable_of D (v_name v) (v_cable v)) /\
  (forall x y, (exists z, edge g x y z) <-> nests t x y) /\
  (forall x y z, edge g x y z -> exists name, cable_of D x name /\ z = getTransferImpedance D name) /\
  length (g_vs g) = length (elements t).
Proof. exact (graph_spec D t g). Qed.
Print Assumptions C72_vertices_and_edges.
(** when no element is listed twice: one vertex each, one edge into each inner vertex from the level above, none into the outermost *)
Theorem C72_tree (N : num) (D : doc N) t g : buildGraphFromConnections D t = Ok g -> distinct t ->
  NoDup (map v_name (g_vs g)) /\ NoDup (map (fun e => snd (fst e)) (g_es g)) /\
  (forall i j z, In (i, j, z) (g_es g) -> exists v w, nth_error (g_vs g) i = Some v /\ nth_error (g_vs g) j = Some w /\ v_level w = S (v_level v)) /\
  (forall j w, nth_error (g_vs g) j = Some w -> (exists i z, In (i, j, z) (g_es g)) <-> (0 < v_level w)%nat).
Proof. exact (graph_tree D t g). Qed.
Print Assumptions C72_tree.
Theorem C72_accepted (N : num) (D : doc N) t : ((exists g, buildGraphFromConnections D t = Ok g) <-> forall d x, listed t d x -> exists name, cable_of D x name) /\
  ((exists g, buildGraphFromConnections D t = Ok g) \/ buildGraphFromConnections D t = Err KeyError).
Proof. exact (graph_accepted D t). Qed.
Print Assumptions C72_accepted.
Example C72_example : distinct px_tree /\ exists g, buildGraphFromConnections px px_tree = Ok g /\ length (g_vs g) = 3%nat /\ length (g_es g) = 2%nat.
Proof.
  split; [unfold distinct; cbn; repeat constructor; cbn; intuition congruence|].
  pose proof px_graph_ok as H. okb_step H g E. apply andb_true_iff in H as [H1 H2]. exists g. split; [exact E|]. split; now apply Nat.eqb_eq.
Qed.

(** ** C73: conductor numbers in a level address the rows of their elements, for every order of the lines of a level *)
Theorem C73_row (N : num) (LA : lapack N) ju jdu order (D : doc N) g levels v c : set_listing order ->
  build_levels LA ju jdu order D g = Ok levels -> In v (g_vs g) -> findConductorNumberInLevel D levels v = Ok c ->
  element_row D levels v (list_sum (map (@conductors N) (concat (firstn (v_level v) levels))) + c).
Proof. exact (number_row LA ju jdu order D g levels v c). Qed.
Print Assumptions C73_row.
Theorem C73_found (N : num) (LA : lapack N) ju jdu order (D : doc N) g levels v cb : set_listing order ->
  build_levels LA ju jdu order D g = Ok levels -> In v (g_vs g) -> NoDup (map cb_name (dc_cables D)) ->
  In cb (dc_cables D) -> cb_name cb = v_cable v -> In (v_name v) (cb_elems cb) -> exists c, findConductorNumberInLevel D levels v = Ok c.
Proof. exact (number_exists LA ju jdu order D g levels v cb). Qed.
Print Assumptions C73_found.
(** an edge of the graph couples the rows of its two elements, and nothing else changes *)
Theorem C73_coupling (N : num) (LA : lapack N) ju jdu order (D : doc N) g (b : bundle N) i j z b' : set_listing order ->
  build_levels LA ju jdu order D g = Ok (b_levels b) -> reachable_bundle LA b -> set_edge D g b (i, j, Some z) = Ok b' ->
  rm_direction z = "in"%string \/ rm_direction z = "out"%string -> active z ->
  exists (v w : vertex) ro ri, nth_error (g_vs g) i = Some v /\ nth_error (g_vs g) j = Some w /\ element_row D (b_levels b) v ro /\ element_row D (b_levels b) w ri /\
    neighbours (v_level v) (v_level w) /\ only_coefficients b b' /\ (ro < b_conductors b)%nat /\ (ri < b_conductors b)%nat /\
    forall k r c, (k < b_cells b)%nat ->
      let here := (rm_direction z = "in"%string /\ r = ri /\ c = ro) \/ (rm_direction z = "out"%string /\ r = ro /\ c = ri) in
      (here -> lowered z (if (n_poles z =? 1)%nat then 0%nat else k) (b_disp b) (b_disp b') k r c) /\ (~ here -> same_entry (b_disp b) (b_disp b') k r c).
Proof. exact (edge_couples LA ju jdu order D g b i j z b'). Qed.
Print Assumptions C73_coupling.
Example C73_example : set_listing px_order /\ NoDup (map cb_name (dc_cables px)) /\
  exists g levels b b' z, buildGraphFromConnections px px_tree = Ok g /\ build_levels LQ junk junk px_order px g = Ok levels /\ b_levels b = levels /\ reachable_bundle LQ b /\
    findConductorNumberInLevel px levels (Vertex 12%Z 1 "pair") = Ok 1%nat /\
    set_edge px g b (0%nat, 2%nat, Some z) = Ok b' /\ rm_direction z = "in"%string /\ active z.
Proof.
  split; [exact px_order_listing|]. split; [repeat constructor; cbn; intuition discriminate|].
  pose proof px_edge as H. okb_step H g E. okb_step H b Eb. okb_step H b' Eb'.
  unfold px_bundle in Eb. inv_bind Eb. pose proof px_rows as Hr. unfold px_levels in Ha, Hr. rewrite E in Ha, Hr. cbn [bind] in Ha, Hr. rewrite Ha in Hr. cbn [okb] in Hr.
  okb_step Hr c Ec. apply Nat.eqb_eq in Hr. subst c.
  destruct (nth_error (g_es g) 1) as [[[i j] [z|]]|] eqn:Ee; try discriminate. cbn [of_option bind] in Eb'.
  apply andb_true_iff in H as [H H4]. apply andb_true_iff in H as [H H3]. apply andb_true_iff in H as [H1 H2]. apply Nat.eqb_eq in H1, H2. apply String.eqb_eq in H3. subst i j.
  exists g, a, b, b', z. split; [exact E|]. split; [exact Ha|]. destruct (mtld_levels _ _ _ Eb) as [El _]. split; [exact El|]. split.
  - destruct (levels_spec LQ junk junk px_order px g a Ha) as (Hl & _). exists b. apply bh_new. exists a, "b"%string. split; [exact Hl|exact Eb].
  - split; [exact Ec|]. split; [exact Eb'|]. split; [exact H3|]. left. now apply negb_true_iff in H4.
Qed.

(** ** C74: lines are found by the coordinate of an end *)
Theorem C74_first_line (N : num) (D : doc N) c x far : getElementOfNode D c = Ok (x, far) <-> ends_at D c x far.
Proof. exact (element_ends D c x far). Qed.
Print Assumptions C74_first_line.
Theorem C74_none (N : num) (D : doc N) c : (forall x cs, In (x, cs) (dc_lines D) -> cs <> [] /\ forall f, ~ end_of cs c f) -> getElementOfNode D c = Err GenericException.
Proof. exact (element_none D c). Qed.
Print Assumptions C74_none.
(** it raises only when no line ends there (or some line has no coordinates at all) *)
Theorem C74_raises (N : num) (D : doc N) c e : getElementOfNode D c = Err e -> (forall x far, ~ ends_at D c x far) /\ (e = GenericException \/ exists x, In (x, []) (dc_lines D)).
Proof. exact (element_err D c e). Qed.
Print Assumptions C74_raises.
(** of two lines with an end at the same coordinate the later one is never found *)
Theorem C74_later_never (N : num) (D : doc N) c before x cs between y cs' after f f' far : dc_lines D = before ++ (x, cs) :: between ++ (y, cs') :: after ->
  end_of cs c f -> end_of cs' c f' -> NoDup (map fst (dc_lines D)) -> getElementOfNode D c <> Ok (y, far).
Proof.
  intros E Hx Hy Hd H. apply element_ends in H as (bf & cs0 & af & E' & _ & Hno). rewrite E in E', Hd.
  assert (In (x, cs) bf) as Hi.
  { clear - E' Hd. revert bf E'. induction before as [|p before IH]; intros bf E'; destruct bf as [|q bf]; cbn [app] in E'.
    - injection E' as E1 E2 E3. subst y. cbn [app map fst] in Hd. inversion Hd as [|? ? Hn _]. exfalso. apply Hn. rewrite map_app. apply in_or_app. right. now left.
    - injection E' as <- _. now left.
    - injection E' as -> _. cbn [app map fst] in Hd. inversion Hd as [|? ? Hn _]. exfalso. apply Hn. rewrite map_app. apply in_or_app. right. right. rewrite map_app. apply in_or_app. right. now left.
    - injection E' as -> E'. right. cbn [app map] in Hd. inversion Hd as [|? ? _ Hd']. apply (IH Hd' _ E'). }
  exact (proj2 (Hno x cs Hi) f Hx).
Qed.
Print Assumptions C74_later_never.
Example C74_example : ends_at px 6%Z 12%Z true /\ getElementOfNode px 99%Z = Err GenericException.
Proof. split; [apply C74_first_line; reflexivity|reflexivity]. Qed.
Example C74_example_shared (D : doc NumQ) : dc_lines D = [(10, [1; 2]); (11, [2; 3])]%Z -> end_of [1; 2]%Z 2%Z true /\ end_of [2; 3]%Z 2%Z false /\ getElementOfNode D 2%Z = Ok (10%Z, true).
Proof. intros E. unfold getElementOfNode. rewrite E. split; [cbn; split; [discriminate|reflexivity]|]. split; reflexivity. Qed.

(** ** C75: groups of terminations and junctions; one network per level *)
Theorem C75_partition (N : num) (D : doc N) ts gs : getNetworkList D ts = Ok gs -> Permutation (concat gs) ts /\ forall g, In g gs -> g <> [].
Proof. exact (groups_perm D ts gs). Qed.
Print Assumptions C75_partition.
Theorem C75_accepted (N : num) (D : doc N) ts : (exists gs, getNetworkList D ts = Ok gs) <-> (forall t, In t ts -> exists p, lies_at D t p).
Proof.
  split; [|exact (groups_accept D ts)]. intros (gs & E) t Ht. unfold getNetworkList in E. inv_bind E. clear E.
  revert Ha. generalize (@nil (vec N * list (list (list Z)))). induction ts as [|t0 ts IH]; intros d Ha; [destruct Ht|]. cbn [foldM] in Ha. inv_bind Ha.
  destruct Ht as [<-|Ht]; [|exact (IH Ht _ Ha)]. unfold add_group in Ha0. inv_bind Ha0. exists a1. now apply group_key_lies.
Qed.
Print Assumptions C75_accepted.
(** over the reals a group is everything lying at one point, in the order of the document *)
Theorem C75_groups (D : doc NumR) ts gs : getNetworkList D ts = Ok gs ->
  exists ps, NoDup ps /\ Forall2 (fun p g => exists f, (forall t, In t ts -> (f t = true <-> lies_at D t p)) /\ g = filter f ts) ps gs.
Proof. exact (groups_real D ts gs). Qed.
Print Assumptions C75_groups.
(** the network kept at a level is that of the last termination of the level *)
Theorem C75_last_termination (N : num) (D : doc N) st bs (g : list (list (list Z))) (d : networkd N) : level_networks (termination_network D st bs) g = Ok d -> NoDup (map fst d) /\
  forall lev w, dget Nat.eqb lev d = Some w <-> exists t, last_such (fun t => exists w, termination_network D st bs t = Ok (lev, w)) g t /\ termination_network D st bs t = Ok (lev, w).
Proof. exact (level_networks_last _ g d). Qed.
Print Assumptions C75_last_termination.
Theorem C75_last_junction (N : num) (D : doc N) st bs (g : list (list (list Z))) (d : networkd N) : level_networks (junction_network D st bs) g = Ok d -> NoDup (map fst d) /\
  forall lev w, dget Nat.eqb lev d = Some w <-> exists t, last_such (fun t => exists w, junction_network D st bs t = Ok (lev, w)) g t /\ junction_network D st bs t = Ok (lev, w).
Proof. exact (level_networks_last _ g d). Qed.
Print Assumptions C75_last_junction.
(** an earlier termination of the same level could as well not be there *)
Theorem C75_first_lost (N : num) (D : doc N) st bs (g1 g2 g3 : list (list (list Z))) t t' lev w w' (d : networkd N) :
  termination_network D st bs t = Ok (lev, w) -> termination_network D st bs t' = Ok (lev, w') -> level_networks (termination_network D st bs) (g1 ++ t :: g2 ++ t' :: g3) = Ok d ->
  exists d', level_networks (termination_network D st bs) (g1 ++ g2 ++ t' :: g3) = Ok d' /\ forall l, dget Nat.eqb l d' = dget Nat.eqb l d.
Proof. exact (level_networks_lost _ g1 g2 g3 t t' lev w w' d). Qed.
Print Assumptions C75_first_lost.
(** both near ends are one group; two terminations of the shield at the near end: one network *)
Example C75_example : getNetworkList px px_terms = Ok [[[[1]]; [[3; 5]]]; [[[2]]; [[4; 6]]]]%Z /\
  exists st lw lw' d, px_built = Ok st /\ termination_network px st (bt_bundles st) [[1%Z]] = Ok (0%nat, lw) /\ termination_network px st (bt_bundles st) [[1%Z]] = Ok (0%nat, lw') /\
    level_networks (termination_network px st (bt_bundles st)) ([] ++ [[1%Z]] :: [] ++ [[1%Z]] :: []) = Ok d /\ length d = 1%nat.
Proof.
  split; [exact px_groups_ok|].
  pose proof px_once_ok as H.
  okb_step H st E. apply andb_true_iff in H as [H1 H2]. okb_step H1 lw Ew. okb_step H2 d Ed. destruct lw as [lev w]. apply Nat.eqb_eq in H1, H2. cbn [fst] in H1. subst lev.
  exists st, w, w, d. split; [exact E|]. split; [exact Ew|]. split; [exact Ew|]. split; [exact Ed|exact H2].
Qed.

(** ** C76: in a row of several nodes connectors and sources are taken by conductor number *)
Theorem C76_termination (N : num) (D : doc N) st bs t lev (w : network N) : termination_network D st bs t = Ok (lev, w) ->
  exists rows ds w0 css, Forall2 (Forall2 (placed D)) t rows /\ description false st (concat rows) ds /\ network_new ds = Ok w0 /\
    Forall2 row_calls rows css /\ do_calls w0 (concat css) = Ok w /\ last_level bs (concat rows) lev.
Proof. exact (termination_spec D st bs t lev w). Qed.
Print Assumptions C76_termination.
Theorem C76_own_entry (N : num) (ps : list (place N)) : NoDup (map (@pl_node N) ps) ->
  (forall p, In p ps -> nth_error ps (pl_cond p) = Some p) <-> (forall i p, nth_error ps i = Some p -> pl_cond p = i).
Proof. exact (own_entries ps). Qed.
Print Assumptions C76_own_entry.
Theorem C76_in_order (N : num) (ps : list (place N)) cs : (2 <= length ps)%nat -> (forall i p, nth_error ps i = Some p -> pl_cond p = i) -> row_calls ps cs ->
  exists css, cs = concat css /\ Forall2 (fun p cs => multi_call (pl_node p) (pl_conn p) (pl_cond p) (pl_src p) cs) ps css.
Proof. exact (rows_in_order ps cs). Qed.
Print Assumptions C76_in_order.
Lemma swapped_sources (D : doc NumQ) (B : res (Parser.built NumQ)) T (q : Q) : T = (st <- B ;; termination_network D st (bt_bundles st) [[5; 3]]%Z) ->
  okb (fun lw : nat * network NumQ => okb (fun i3 => okb (fun i5 => Qeq_bool (@nSrc NumQ (snd lw) i3 q) 0 && Qeq_bool (@nSrc NumQ (snd lw) i5 q) q)%bool (index_of (snd lw) 5%Z)) (index_of (snd lw) 3%Z))
    T = true ->
  okb (fun s : tfun NumQ => match s with TFun f => same_q (f q) q | _ => false end) (getTerminalSourceInNode D 3%Z) = true ->
  getTerminalSourceInNode D 5%Z = Ok (TInt 0) ->
  exists st lev (w : network NumQ) (f : NumQ -> NumQ) i3 i5, termination_network D st (bt_bundles st) [[5; 3]]%Z = Ok (lev, w) /\
    source_at D 3%Z (TFun f) /\ f q = q /\ source_at D 5%Z (TInt 0) /\
    (exists nd, find_node w 3%Z = Some nd /\ nd_index nd = i3) /\ (exists nd, find_node w 5%Z = Some nd /\ nd_index nd = i5) /\
    nSrc w i3 q == 0 /\ nSrc w i5 q == q.
Proof.
  intros ET H Y Z. okb_step H lw E. rewrite ET in E. clear ET. okb_step H i3 E3. okb_step H i5 E5. apply andb_true_iff in H as [H1 H2]. apply Qeq_bool_iff in H1, H2.
  okb_step Y s3 S3. destruct s3 as [?|f]; [discriminate Y|]. apply same_q_eq in Y.
  inv_bind E. destruct lw as [lev w]. cbn [fst snd] in *.
  exists a, lev, w, f, i3, i5. split; [exact E|]. split; [exact (terminal_source_spec _ _ _ S3)|]. split; [exact Y|]. split; [exact (terminal_source_spec _ _ _ Z)|].
  unfold index_of in E3, E5. destruct (find_node w 3%Z) as [n3|]; [|discriminate E3]. destruct (find_node w 5%Z) as [n5|]; [|discriminate E5]. cbn [of_option bind] in E3, E5.
  apply OkI in E3, E5. split; [exists n3; split; [reflexivity|exact E3]|]. split; [exists n5; split; [reflexivity|exact E5]|]. split; [exact H1|exact H2].
Qed.
(** listed in the opposite order, the source of node 3 drives node 5 *)
Theorem C76_swapped_refuted : exists (D : doc NumQ) st lev (w : network NumQ) (f : NumQ -> NumQ) i3 i5, termination_network D st (bt_bundles st) [[5; 3]]%Z = Ok (lev, w) /\
  source_at D 3%Z (TFun f) /\ f (1#2)%Q = (1#2)%Q /\ source_at D 5%Z (TInt 0) /\
  (exists nd, find_node w 3%Z = Some nd /\ nd_index nd = i3) /\ (exists nd, find_node w 5%Z = Some nd /\ nd_index nd = i5) /\
  nSrc w i3 (1#2)%Q == 0 /\ nSrc w i5 (1#2)%Q == 1#2.
Proof. exists px_swapped. exact (swapped_sources px_swapped _ px_swapped_term _ eq_refl px_swapped_ok px_swapped_3 px_swapped_5). Qed.
Print Assumptions C76_swapped_refuted.
Example C76_example : exists st lw, px_built = Ok st /\ termination_network px st (bt_bundles st) [[3; 5]]%Z = Ok lw.
Proof. pose proof px_term_ok as H. okb_step H lw E. inv_bind E. eauto. Qed.
Example C76_example_order : let p k := @Place NumQ (Z.of_nat (3 + 2 * k)) "pair"%string k "S"%string px_multi (TInt 0) in
  let ps := [p 0%nat; p 1%nat] in NoDup (map (@pl_node NumQ) ps) /\ (forall i q, nth_error ps i = Some q -> pl_cond q = i) /\ exists cs, row_calls ps cs.
Proof.
  intros p ps. split; [repeat constructor; cbn; intuition discriminate|]. split.
  - intros [|[|[|i]]] q E; cbn in E; try discriminate; injection E as <-; reflexivity.
  - exists (concat [[@GroundR NumQ 3%Z 50%Q (TInt 0)]; [@GroundR NumQ 5%Z 60%Q (TInt 0)]]). exists [[@GroundR NumQ 3%Z 50%Q (TInt 0)]; [@GroundR NumQ 5%Z 60%Q (TInt 0)]].
    split; [reflexivity|]. constructor; [|constructor; [|constructor]].
    + exists (p 0%nat). split; [reflexivity|]. eapply (@mc_call NumQ _ _ _ _ "Conn_R"%string 50%Q 0%Q (@n1e22 NumQ)); try reflexivity. right; left. split; [now left|reflexivity].
    + exists (p 1%nat). split; [reflexivity|]. eapply (@mc_call NumQ _ _ _ _ "Conn_R"%string 60%Q 0%Q (@n1e22 NumQ)); try reflexivity. right; left. split; [now left|reflexivity].
Qed.

(** ** C77: lumped elements *)
Theorem C77_missing (N : num) (D : doc N) (m : mtl N) : dc_lumped D <> [] -> (forall l, In l (dc_lumped D) -> lu_cable l <> m_name m) -> addLumpedElement D m = Err IndexError.
Proof. exact (lumped_missing D m). Qed.
Print Assumptions C77_missing.
(** the first one of the cable is added, and only that one *)
Theorem C77_first (N : num) (D : doc N) (m m' : mtl N) : addLumpedElement D m = Ok m' -> (dc_lumped D = [] /\ m' = m) \/
  exists l conn model p, first_such (fun l => lu_cable l = m_name m) (dc_lumped D) l /\ first_such (fun c => cm_id c = lu_mat l) (dc_conns D) conn /\ cm_model conn = Some model /\
    (exists c rest, lu_coords l = c :: rest /\ point D c p) /\ mtl_add_dispersive_connector m p (lu_cond l) model = Ok m'.
Proof. exact (lumped_first D m m'). Qed.
Print Assumptions C77_first.
(** a document with lumped elements is only accepted when every cable of every bundle has one *)
Theorem C77_document (N : num) (LA : lapack N) ju jdu order (D : doc N) st bname t d x name : set_listing order -> buildBundles LA ju jdu order D = Ok st -> dc_lumped D <> [] ->
  In (bname, t) (dc_bundles D) -> listed t d x -> cable_of D x name -> exists l, In l (dc_lumped D) /\ lu_cable l = name.
Proof. exact (document_lumped LA ju jdu order D st bname t d x name). Qed.
Print Assumptions C77_document.
Example C77_example_missing : exists m, buildMTLfromLine LQ junk junk px_lumped_one "pair" = Ok m /\ addLumpedElement px_lumped_one m = Err IndexError.
Proof.
  pose proof px_lumped_one_ok as H. okb_step H m E. exists m. split; [exact E|].
  apply C77_missing; [discriminate|]. apply line_from_name in E as [_ ->]. intros l [<-|[]]. discriminate.
Qed.
Example C77_example : set_listing px_order /\ dc_lumped px_lumped_all <> [] /\ exists st, buildBundles LQ junk junk px_order px_lumped_all = Ok st.
Proof. split; [exact px_order_listing|]. split; [discriminate|]. pose proof px_lumped_all_ok as H. okb_step H st E. now exists st. Qed.

(** ** C78: sources of unknown type *)
Theorem C78_unknown (N : num) (s : source N) t : ~ In (so_mag s) known_magnitudes -> buildSource s t = Ok None.
Proof. exact (unknown_source s t). Qed.
Print Assumptions C78_unknown.
(** where a number is needed such a source raises *)
Theorem C78_unknown_raises (N : num) (s : source N) : ~ In (so_mag s) known_magnitudes -> source_fun s = Err TypeError.
Proof. exact (unknown_source_raises s). Qed.
Print Assumptions C78_unknown_raises.
Theorem C78_known (N : num) (s : source N) t y : buildSource s t = Ok (Some y) <-> exists f, waveform s f /\ y = f t.
Proof. split; [exact (built_waveform s t y)|]. intros (f & H & ->). exact (waveform_built s f t H). Qed.
Print Assumptions C78_known.
Theorem C78_missing_parameter (N : num) (s : source N) t : In (so_mag s) known_magnitudes -> (forall f, ~ waveform s f) -> buildSource s t = Err KeyError.
Proof. exact (known_raises s t). Qed.
Print Assumptions C78_missing_parameter.
Definition a_source (mag : string) : source NumQ := @Source NumQ "TerminalSource" "voltage" mag [("amplitude"%string, 2%Q : NumQ); ("t0"%string, 1%Q : NumQ)] [20%Z] "" None.
Example C78_example : ~ In (so_mag (a_source "square")) known_magnitudes /\ waveform (a_source "ramp") (fun t => ramp_pulse t (2%Q : NumQ) (1%Q : NumQ)) /\
  In (so_mag (a_source "sin")) known_magnitudes /\ forall f, ~ waveform (a_source "sin") f.
Proof.
  split; [cbn; intuition discriminate|]. split; [now apply wv_ramp|]. split; [cbn; tauto|]. intros f H.
  inversion H; unfold has_param in *; cbn in *; discriminate.
Qed.

(** ** C91: a cable inside one without transfer impedance *)
Theorem C91_not_read (N : num) (LA : lapack N) ju jdu order (D : doc N) bname t x y name st : In (bname, t) (dc_bundles D) -> nests t x y -> cable_of D x name ->
  ~ has_transfer_impedance D name -> buildBundles LA ju jdu order D <> Ok st.
Proof. exact (nested_without D LA ju jdu order bname t x y name st). Qed.
Print Assumptions C91_not_read.
Theorem C91_raises (N : num) (D : doc N) g (b : bundle N) i j v w cs ct : nth_error (g_vs g) i = Some v -> nth_error (g_vs g) j = Some w -> v_level w = S (v_level v) ->
  findConductorNumberInLevel D (b_levels b) v = Ok cs -> findConductorNumberInLevel D (b_levels b) w = Ok ct -> set_edge D g b (i, j, None) = Err AttributeError.
Proof. exact (edge_without D g b i j v w cs ct). Qed.
Print Assumptions C91_raises.
Theorem C91_none (N : num) (D : doc N) name : getTransferImpedance D name = None <-> ~ has_transfer_impedance D name.
Proof. exact (no_transfer_impedance D name). Qed.
Print Assumptions C91_none.
Example C91_example : In ("b"%string, px_tree) (dc_bundles px_without) /\ nests px_tree 10%Z 11%Z /\ cable_of px_without 10%Z "shield" /\ ~ has_transfer_impedance px_without "shield" /\
  buildBundles LQ junk junk px_order px_without = Err AttributeError.
Proof.
  split; [now left|]. split; [apply nests_here with (sub := NStr [11%Z; 12%Z]); [now left|constructor; now left]|].
  split; [apply name_of_cable; reflexivity|]. split; [apply no_transfer_impedance; reflexivity|]. exact px_without_raises.
Qed.

(** ** C92: nodes of a network are placed by their coordinate *)
Theorem C92_termination (N : num) (D : doc N) st bs t lev (w : network N) : termination_network D st bs t = Ok (lev, w) ->
  exists rows ds w0, Forall2 (Forall2 (placed D)) t rows /\ description false st (concat rows) ds /\ network_new ds = Ok w0 /\ (exists cs, do_calls w0 cs = Ok w) /\ last_level bs (concat rows) lev.
Proof. intros H. destruct (termination_spec D st bs t lev w H) as (rows & ds & w0 & css & A & B & C & _ & E & F). exists rows, ds, w0. eauto 8. Qed.
Print Assumptions C92_termination.
Theorem C92_junction (N : num) (D : doc N) st bs t lev (w : network N) : junction_network D st bs t = Ok (lev, w) ->
  exists rows ds w0 css, Forall2 (Forall2 (placed D)) t rows /\ description true st (concat rows) ds /\ network_new ds = Ok w0 /\
    Forall2 joined_by rows css /\ do_calls w0 (concat css) = Ok w /\ last_level bs (concat rows) lev.
Proof. exact (junction_spec D st bs t lev w). Qed.
Print Assumptions C92_junction.
Example C92_example : exists st lw, buildBundles LQ junk junk px_order px2 = Ok st /\ junction_network px2 st (bt_bundles st) [[2; 3]]%Z = Ok lw.
Proof. pose proof px2_junction_ok as H. okb_step H lw E. inv_bind E. eauto. Qed.

(** ** C93: terminations left open without notice *)
Theorem C93_one_node (N : num) (p : place N) cs : ~ grounding (cn_type (pl_conn p)) -> row_calls [p] cs -> cs = [].
Proof. exact (silent_single p cs). Qed.
Print Assumptions C93_one_node.
Theorem C93_several_nodes (N : num) (ps : list (place N)) cs : (forall p, In p ps -> cn_type (pl_conn p) <> "MultiwireConnector"%string) -> (2 <= length ps)%nat -> row_calls ps cs -> cs = [].
Proof. exact (silent_multi ps cs). Qed.
Print Assumptions C93_several_nodes.
(** whole terminations: every row of one of these two kinds, no element is connected at all *)
Definition left_open {N : num} (ps : list (place N)) : Prop :=
  match ps with [] => True | [p] => ~ grounding (cn_type (pl_conn p)) | _ => forall p, In p ps -> cn_type (pl_conn p) <> "MultiwireConnector"%string end.
Theorem C93_termination (N : num) (D : doc N) st bs t lev (w : network N) : termination_network D st bs t = Ok (lev, w) ->
  (forall cs ps, In cs t -> Forall2 (placed D) cs ps -> left_open ps) -> exists ds, network_new ds = Ok w.
Proof.
  intros H Hopen. destruct (termination_spec D st bs t lev w H) as (rows & ds & w0 & css & A & _ & C & R & E & _). exists ds.
  assert (concat css = []) as X; [|rewrite X in E; unfold do_calls in E; cbn [foldM] in E; congruence].
  clear - Hopen A R. assert (forall ps, In ps rows -> left_open ps) as Ho by (intros ps Hp; destruct (F2_In_r _ _ _ _ A Hp) as (cs & Hc & Hpl); exact (Hopen cs ps Hc Hpl)).
  clear A Hopen. revert css R. induction rows as [|ps rows IH]; intros css R; inversion R as [|? cs ? css' Hr Hrs]; subst; [reflexivity|]. cbn [concat].
  rewrite (IH (fun q Hq => Ho q (or_intror Hq)) _ Hrs), app_nil_r. pose proof (Ho ps (or_introl eq_refl)) as Hp.
  destruct ps as [|p [|q ps]]; [exact Hr|exact (silent_single p cs Hp Hr)|]. apply (silent_multi _ cs Hp); [cbn; lia|exact Hr].
Qed.
Print Assumptions C93_termination.
Example C93_example : let p := @Place NumQ 3%Z "pair"%string 0 "S"%string px_multi (TInt 0) in left_open [p] /\ row_calls [p] [] /\
  (exists ps, Forall2 (placed px) [3%Z] ps) /\ exists st lw, px_built = Ok st /\ termination_network px st (bt_bundles st) [[3%Z]] = Ok lw.
Proof.
  intros p. assert (~ grounding (cn_type (pl_conn p))) as Hg by (unfold grounding, resistive; cbn; intuition discriminate).
  split; [exact Hg|]. split; [now apply sc_open|].
  assert (exists st lw, px_built = Ok st /\ termination_network px st (bt_bundles st) [[3%Z]] = Ok lw) as (st & lw & E1 & E2).
  { pose proof px_single_ok as H. okb_step H lw E. inv_bind E. eauto. }
  split; [|exists st, lw; split; [exact E1|exact E2]].
  destruct lw as [lev w]. destruct (termination_spec _ _ _ _ _ _ E2) as (rows & _ & _ & _ & A & _). inversion A; subst. eauto.
Qed.

(** ** C94: junctions only see resistors *)
Theorem C94_shorts (p q : place NumR) cs : no_resistor p -> no_resistor q -> joined_by [p; q] cs -> cs = [Short (pl_node p) (pl_node q)].
Proof. exact (junction_shorts p q cs). Qed.
Print Assumptions C94_shorts.
Theorem C94_resistors (p q : place NumR) (R S : Rdefinitions.R) cs : (R + S <> 0)%R -> (forall R', brings p R' -> R' = R) -> (forall S', brings q S' -> S' = S) -> joined_by [p; q] cs ->
  cs = [Branch (pl_node p) (pl_node q) (@nadd NumR R S) (add_t_functions (pl_src p) (pl_src q))].
Proof. exact (junction_branch p q R S cs). Qed.
Print Assumptions C94_resistors.
(** a capacitor and a source on one side of the junction, a short on the other *)
Example C94_example : let p := @Place NumR 1%Z "a"%string 0 "L"%string (@Connector NumR "Conn_C" None (Some 1%R) None [] None None None) (@TFun NumR (fun t => t)) in
  let q := @Place NumR 2%Z "b"%string 0 "S"%string (@Connector NumR "Conn_short" None None None [] None None None) (TInt 0) in
  no_resistor p /\ no_resistor q /\ exists cs, joined_by [p; q] cs.
Proof.
  intros p q. assert (forall k : place NumR, (cn_type (pl_conn k) = "Conn_C" \/ cn_type (pl_conn k) = "Conn_short")%string -> no_resistor k /\ brings k n0) as X.
  { intros k H. unfold no_resistor, resistive. split; [|apply br_other; unfold resistive]; intuition congruence. }
  destruct (X p) as [A A']; [now left|]. destruct (X q) as [B B']; [now right|]. split; [exact A|]. split; [exact B|].
  eexists. exists p, q, n0, n0. split; [reflexivity|]. split; [exact A'|]. split; [exact B'|reflexivity].
Qed.

(** ** C95: what is read is an ordinary system *)
Theorem C95_parsed (N : num) (LA : lapack N) ju jdu order (D : doc N) p : parse LA ju jdu order D = Ok p ->
  Forall (reachable_bundle LA) (ps_bundles p) /\ Forall (net_reachable LA) (ps_networks p).
Proof. exact (parse_reachable LA ju jdu order D p). Qed.
Print Assumptions C95_parsed.
Theorem C95_run (N : num) (LA : lapack N) ju jdu order (D : doc N) T dt x : parse_and_run LA ju jdu order D T dt = Ok x ->
  exists y, lines_net LA y /\ mtln_run_until LA y T n0 = Ok x /\ lines_net LA x.
Proof. exact (parsed_run LA ju jdu order D T dt x). Qed.
Print Assumptions C95_run.
Example C95_example : (exists p, parse LQ junk junk px_order px = Ok p) /\ exists x, parse_and_run LQ junk junk px_order px 3%Q 0%Q = Ok x.
Proof.
  split; [pose proof px_parses as H; okb_step H p E; exists p; exact E|]. pose proof px_runs as H. okb_step H x E. exists x. exact E.
Qed.
