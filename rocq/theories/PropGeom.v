(** Properties C06, C07, C25-C31, C33 and C34: construction, geometry, probe positions and
    region edits.  Statements without NumR hold for every arithmetic. *)
From Coq Require Import String List Arith ZArith Bool Lia QArith Reals Lra.
From Verif Require Import Num Py Arr ArrFacts NumR RFacts LapackR Utils Waveforms Probes Dispersive Line LineFacts Bundle SpecLine
  SpecGeom SpecR SpecProbe HistoryFacts NearestFacts GeometryFacts LineEqFacts StepTotal TotalFacts NewTotal TermFacts AttachFacts WaveProps
  GeomProps GeomProps2 GeomProps3 GeomProps4 ExampleLine ExampleRun NumQ LapackQ GeomProps5 PointFacts.
Import ListNotations.
Local Open Scope R_scope.

(** ** C06: MTL.add_probe and the box between the first and the last node *)
Theorem C06_rejected_iff_outside {N : num} (m : mtl N) (p : posarg N) ty :
  add_probe m p ty = Err ValueError <-> outside (m_u m) (pos_vec p).
Proof. exact (add_probe_iff m p ty). Qed.
Print Assumptions C06_rejected_iff_outside.
Theorem C06_otherwise_accepted {N : num} (m : mtl N) (p : posarg N) ty :
  add_probe m p ty = Err ValueError \/ exists m', add_probe m p ty = Ok m'.
Proof. exact (add_probe_else m p ty). Qed.
Print Assumptions C06_otherwise_accepted.
Theorem C06_increasing_line_accepts_nodes (m : mtl NumR) (p : posarg NumR) ty k :
  rising (m_u m) -> (k < length (m_u m))%nat -> pos_vec p = nth k (m_u m) [] -> exists m', add_probe m p ty = Ok m'.
Proof. exact (rising_box m p ty k). Qed.
Print Assumptions C06_increasing_line_accepts_nodes.
(** as soon as one coordinate decreases from the first to the last node, nothing is accepted *)
Theorem C06_decreasing_line_rejects_all (m : mtl NumR) (p : posarg NumR) ty k : (k < 3)%nat ->
  coord (nth (length (m_u m) - 1) (m_u m) []) k < coord (nth 0 (m_u m) []) k -> add_probe m p ty = Err ValueError.
Proof. exact (falling_box m p ty k). Qed.
Print Assumptions C06_decreasing_line_rejects_all.

Lemma ex_rising (m : mtl NumR) : m_u m = [[0; 0; 0]; [0; 0; 1]; [0; 0; 2]; [0; 0; 3]] -> rising (m_u m).
Proof.
  intros ->. intros j k Hj Hk. cbn in Hj.
  do 3 (destruct j as [|j]; [do 3 (destruct k as [|k]; [unfold coord; cbn; lra|]); lia|]). lia.
Qed.
Example C06_example : exists m m' : mtl NumR, built LR m /\ rising (m_u m) /\
  add_probe m (@PosA NumR [0; 0; 2]) "voltage" = Ok m' /\ add_probe m (@PosA NumR [0; 0; 4]) "voltage" = Err ValueError.
Proof.
  destruct (ex_new_ok (fun _ => []) (fun _ => [])) as (m & Hm & P & _ & _ & _ & _ & _ & _ & Hu).
  destruct (C06_increasing_line_accepts_nodes m (@PosA NumR [0; 0; 2]) "voltage" 2) as [m' Hm'].
  - now apply ex_rising.
  - rewrite Hu. cbn. lia.
  - rewrite Hu. reflexivity.
  - exists m, m'. split; [unfold ex_new in Hm; repeat eexists; exact Hm|]. split; [now apply ex_rising|]. split; auto.
    apply C06_rejected_iff_outside. exists 2%nat. split; [lia|]. left. rewrite Hu. cbn. apply Rltb_true. lra.
Qed.
(** a line drawn from z = 3 down to z = 0 *)
Example C06_falling_example (m : mtl NumR) : m_u m = [[0; 0; 3]; [0; 0; 0]] ->
  add_probe m (@PosA NumR [0; 0; 3]) "voltage" = Err ValueError.
Proof. intros H. apply (C06_decreasing_line_rejects_all m _ _ 2); [lia|]. rewrite H. unfold coord. cbn. lra. Qed.

(** ** C07: MTLD.add_probe.  [m] is the outermost line of the bundle, with equal divisions *)
Theorem C07_accepted_iff LA ju jdu l c r g len (np : mat NumR) d s zs zl name (m : mtl NumR) rest bname b (p : posarg NumR) ty :
  mtl_new LA ju jdu l c r g len np (repeat d s) zs zl name = Ok m ->
  mtld_new ([m] :: rest) bname = Ok b ->
  let N := cells m in let u := m_u m in let du := m_du m in
  (exists b', bundle_add_probe b p ty = Ok b') <->
  (exists j, (j < N)%nat /\ @point_in_line NumR (pos_vec p) (nth j u []) (nth (S j) u []) = true) \/
  @point_in_line NumR (pos_vec p) (nth N u []) (@vadd NumR (nth N u []) (nth (N - 1) du [])) = true.
Proof. exact (bundle_probe_iff LA ju jdu l c r g len np d s zs zl name m rest bname b p ty). Qed.
Print Assumptions C07_accepted_iff.
(** every point of every cell is accepted *)
Theorem C07_cell_points_accepted LA ju jdu l c r g len (np : mat NumR) d s zs zl name (m : mtl NumR) rest bname b ty j t :
  mtl_new LA ju jdu l c r g len np (repeat d s) zs zl name = Ok m ->
  mtld_new ([m] :: rest) bname = Ok b -> (j < cells m)%nat -> 0 <= t <= 1 ->
  exists b', bundle_add_probe b (@PosA NumR (along (nth j (m_u m) []) (nth (S j) (m_u m) []) t)) ty = Ok b'.
Proof.
  intros H Hb Hj Ht. apply (C07_accepted_iff _ _ _ _ _ _ _ _ _ _ _ _ _ _ _ _ _ _ _ _ H Hb).
  left. exists j. split; auto. now apply on_segment.
Qed.
Print Assumptions C07_cell_points_accepted.
(** and every point up to one cell beyond the end, where there is no line; the probe reads
    the node closest to the position *)
Theorem C07_beyond_the_end_accepted LA ju jdu l c r g len (np : mat NumR) d s zs zl name (m : mtl NumR) rest bname b ty t :
  mtl_new LA ju jdu l c r g len np (repeat d s) zs zl name = Ok m ->
  mtld_new ([m] :: rest) bname = Ok b -> 0 <= t <= 1 ->
  let e := nth (cells m) (m_u m) [] in
  exists b', bundle_add_probe b
    (@PosA NumR (along e (@vadd NumR e (nth (cells m - 1) (m_du m) [])) t)) ty = Ok b'.
Proof.
  intros H Hb Ht e. apply (C07_accepted_iff _ _ _ _ _ _ _ _ _ _ _ _ _ _ _ _ _ _ _ _ H Hb).
  right. now apply on_segment.
Qed.
Print Assumptions C07_beyond_the_end_accepted.
Theorem C07_probe_reads_closest_node (b b' : bundle NumR) p ty : bundle_add_probe b p ty = Ok b' ->
  exists pr, b_probes b' = b_probes b ++ [pr] /\ p_type pr = ty /\ (b_u b <> [] -> closest (b_u b) (pos_vec p) (p_index pr)).
Proof. exact (bundle_probe_index b b' p ty). Qed.
Print Assumptions C07_probe_reads_closest_node.

Lemma u_eqb_refl (u : mat NumR) : u_eqb u u = true.
Proof.
  unfold u_eqb. rewrite Nat.eqb_refl. apply forallb_forall. intros k _. unfold vec_eqb. rewrite Nat.eqb_refl.
  apply forallb_forall. intros q _. now apply Reqb_true.
Qed.
Lemma bundle_of_one (m : mtl NumR) name : exists b, mtld_new [[m]] name = Ok b /\ b_u b = m_u m.
Proof. unfold mtld_new. cbn [concat app foldM bind]. rewrite u_eqb_refl. cbn [passert bind]. eauto. Qed.

(** the three-cell example line in a bundle: position z = 3.5 is past its end (z = 3) *)
Example C07_example : exists (m : mtl NumR) b b', ex_new (fun _ => []) (fun _ => []) = Ok m /\ mtld_new [[m]] "b" = Ok b /\
  nth 3 (b_u b) [] = [0; 0; 3] /\ bundle_add_probe b (@PosA NumR [0; 0; 3 + 1 / 2]) "voltage" = Ok b'.
Proof.
  destruct (ex_new_ok (fun _ => []) (fun _ => [])) as (m & Hm & P & Hn & HN & _ & _ & _ & _ & Hu).
  destruct (bundle_of_one m "b") as (b & Hb & Hbu). pose proof Hm as Hm0. unfold ex_new in Hm.
  pose proof (equal_divisions LR _ _ _ _ _ _ _ _ 3 1 _ _ _ m Hm) as (_ & _ & _ & _ & Hc & _).
  destruct (C07_accepted_iff _ _ _ _ _ _ _ _ _ 3 1 _ _ _ m [] "b" b (@PosA NumR [0; 0; 3 + 1 / 2]) "voltage" Hm Hb) as [_ H].
  destruct H as [b' Hb'].
  - right. rewrite HN, Hu. cbn [nth Nat.sub pos_vec].
    rewrite (pil_ext _ _ _ (along [0; 0; 3] [0; 0; 4] (1 / 2)) [0; 0; 3] [0; 0; 4]); [apply on_segment; lra| |intros k Hk; reflexivity|].
    + intros k Hk. unfold coord, along. cbn [nth]. do 3 (destruct k as [|k]; [cbn [nth]; lra|]). lia.
    + intros k Hk. rewrite vadd_coord by auto. destruct (Hc 0%nat 2%nat k) as [_ E]; [lia|lia|auto|]. cbn [Nat.mul Nat.add] in E.
      rewrite E. unfold coord. cbn [vertices nth]. do 3 (destruct k as [|k]; [cbn [nth]; rsimpl; cbn; lra|]). lia.
  - exists m, b, b'. split; auto. split; auto. split; auto. rewrite Hbu, Hu. reflexivity.
Qed.

(** ** C25: create_clean_copy *)
Theorem C25_copy_is_reset {N : num} (m : mtl N) : let m' := create_clean_copy m in
  at_rest m' /\ conductors m' = conductors m /\ cells m' = cells m /\ m_u m' = m_u m /\ m_du m' = m_du m /\
  m_name m' = m_name m /\ m_zs m' = m_zs m /\ m_zl m' = m_zl m /\ m_vsrc m' = m_vsrc m /\ step_dt m' = step_dt m /\
  (forall k i j, L_ m' k i j = L_ m k i j /\ R_ m' k i j = R_ m k i j /\ C_ m' k i j = C_ m k i j /\
                 G_ m' k i j = G_ m k i j /\ D_ m' k i j = D_ m k i j /\ E_ m' k i j = E_ m k i j) /\
  (forall c k t, eLong m' c k t = eLong m c k t /\ eTran m' c k t = eTran m c k t /\ source m' c k t = source m c k t) /\
  (forall k, cell_len m' k = cell_len m k) /\ length (m_probes m') = length (m_probes m) /\ undispersed m' = undispersed m.
Proof. cbv zeta. unfold at_rest. repeat split; auto. cbn. apply map_length. Qed.
Print Assumptions C25_copy_is_reset.
(** [a] at rest without connectors (for instance just built and equipped with sources and
    probes), [b] the same line after any steps and runs: the clean copy of [b] runs as [a] *)
Theorem C25_copy_runs_like_the_original LA (a b : mtl NumR) T : reachable LA a -> undispersed a -> at_rest a -> marched LA a b ->
  run_until LA (create_clean_copy b) T = run_until LA a T.
Proof.
  intros R U A M. apply copy_run; auto. apply (marched_moved LA a b (reachable_shape _ _ R) U M).
Qed.
Print Assumptions C25_copy_runs_like_the_original.
(** whatever history the connectors have accumulated stays in the copy *)
Theorem C25_copy_keeps_dispersive_history {N : num} (m : mtl N) :
  ds_phi (k_disp (m_core (create_clean_copy m))) = ds_phi (k_disp (m_core m)) /\
  forall k c, hist_ (create_clean_copy m) k c = hist_ m k c.
Proof. split; reflexivity. Qed.
Print Assumptions C25_copy_keeps_dispersive_history.
Lemma built_rest {N : num} (LA : lapack N) m : built LA m -> at_rest m.
Proof.
  intros (ju & jdu & l & c & r & g & len & np & ndiv & zs & zl & name & H).
  apply new_rest in H. exact H.
Qed.
Example C25_example : exists m0 a b : mtl NumR, add_voltage_source m0 (@PosF NumR 0) 0 (fun _ => 1) = Ok a /\
  reachable LR a /\ undispersed a /\ at_rest a /\ run_until LR a 7 = Ok b /\ marched LR a b.
Proof.
  destruct (ex_new_ok (fun _ => []) (fun _ => [])) as (m0 & E0 & P0 & En & _).
  assert (B : built LR m0) by (unfold ex_new in E0; repeat eexists; exact E0).
  destruct (add_voltage_source m0 (@PosF NumR 0) 0 (fun _ => 1)) as [a|e] eqn:Ea.
  2:{ unfold add_voltage_source in Ea. unfold conductors in En. rewrite En in Ea. discriminate. }
  pose proof (physical_source _ _ _ _ _ P0 Ea) as Pa.
  destruct (run_total LR LR_complete a 7 Pa) as [b Eb].
  exists m0, a, b. split; auto. split; [exists m0; eapply h_source; eauto; now constructor|].
  split; [apply Pa|]. split.
  - pose proof (built_rest _ _ B) as R. unfold add_voltage_source in Ea. destruct (_ <? _)%nat; [|discriminate]. injection Ea as <-. exact R.
  - split; auto. eapply ma_run; [constructor|exact Eb].
Qed.

(** ** C26: the same number of divisions in every segment *)
Theorem C26_geometry LA ju jdu l c r g len (np : mat NumR) d s zs zl name (m : mtl NumR) :
  mtl_new LA ju jdu l c r g len np (repeat d s) zs zl name = Ok m ->
  let P := vertices len np in
  length P = S s /\ cells m = (s * d)%nat /\ length (m_u m) = S (s * d) /\ length (m_du m) = (s * d)%nat /\
  (forall i q k, (i < s)%nat -> (q < d)%nat -> (k < 3)%nat ->
     coord (nth (i * d + q) (m_u m) []) k =
       coord (nth i P []) k + INR q * ((coord (nth (S i) P []) k - coord (nth i P []) k) / INR d) /\
     coord (nth (i * d + q) (m_du m) []) k = (coord (nth (S i) P []) k - coord (nth i P []) k) / INR d) /\
  nth (s * d) (m_u m) [] = nth s P [] /\
  (forall j k, (j < s * d)%nat -> (k < 3)%nat ->
     coord (nth (S j) (m_u m) []) k = coord (nth j (m_u m) []) k + coord (nth j (m_du m) []) k) /\
  (forall j, (j < s * d)%nat -> cell_len m j = dist3 (nth (S j) (m_u m) []) (nth j (m_u m) [])).
Proof. exact (equal_divisions LA ju jdu l c r g len np d s zs zl name m). Qed.
Print Assumptions C26_geometry.
(** the three-cell example line *)
Example C26_example : exists m : mtl NumR, mtl_new LR (fun _ => []) (fun _ => []) (PArr 2 2 exL) (PArr 2 2 exC) (PArr 2 2 exR)
  (PArr 2 2 exG) (3 : NumR) [] (repeat 3%nat 1) (@ZVec NumR 2 [1; 0]) (@ZVec NumR 2 [1; 2]) "ex"%string = Ok m.
Proof. destruct (ex_new_ok (fun _ => []) (fun _ => [])) as (m & Hm & _). exists m. exact Hm. Qed.

(** ** C27: unequal divisions *)
(** segment [i] writes the nodes from [i * d_i] on; IndexError if they are past the end *)
Theorem C27_index_error {N : num} (LA : lapack N) ju jdu (l c r g : pulin N) len np ndiv zs zl name i :
  lc_ok l c -> rg_ok (size_of l) r -> rg_ok (size_of l) g -> zt_ok (size_of l) zs zl ->
  length (vertices len np) = S (length ndiv) ->
  (i < length ndiv)%nat -> (total ndiv < S i * nth i ndiv 0)%nat ->
  mtl_new LA ju jdu l c r g len np ndiv zs zl name = Err IndexError.
Proof. exact (overflow_raises LA ju jdu l c r g len np ndiv zs zl name i). Qed.
Print Assumptions C27_index_error.
Example C27_index_error_example (LA : lapack NumR) ju jdu : mtl_new LA ju jdu (@PFloat NumR 1) (@PFloat NumR 1) (@PFloat NumR 0)
  (@PFloat NumR 0) (1 : NumR) (ladder 2) [2; 3]%nat (@ZScal NumR 50) (@ZScal NumR 50) "u" = Err IndexError.
Proof. apply (C27_index_error _ _ _ _ _ _ _ _ _ _ _ _ _ 1); cbn; auto; lia. Qed.
(** when the constructor does return, some vertex is not at the node where its segment should
    start; uninitialised memory [ju] is taken to hold negative z, to tell it from the vertices *)
Theorem C27_misplaced_vertex (LA : lapack NumR) ju jdu (l c r g : pulin NumR) len ndiv zs zl name (m : mtl NumR) :
  (forall d, In d ndiv -> (1 <= d)%nat) -> (exists i, (i < length ndiv)%nat /\ nth i ndiv 0%nat <> nth 0 ndiv 0%nat) ->
  (forall j, coord (ju j) 2 < 0) ->
  mtl_new LA ju jdu l c r g len (ladder (length ndiv)) ndiv zs zl name = Ok m ->
  exists i, (i < length ndiv)%nat /\ coord (nth (total (firstn i ndiv)) (m_u m) []) 2 <> coord (nth i (ladder (length ndiv)) []) 2.
Proof. exact (unequal_wrong LA ju jdu l c r g len ndiv zs zl name m). Qed.
Print Assumptions C27_misplaced_vertex.
(** [3,2] over z = 0, 1, 2: node 2 overwritten by the vertex of node 3, node 4 whatever the
    memory held, cell 4 of length zero *)
Theorem C27_3_2_refuted (ju jdu : nat -> vec NumQ) : exists m : mtl NumQ,
  mtl_new LQ ju jdu (@PFloat NumQ 1%Q) (@PFloat NumQ 1%Q) (@PFloat NumQ 0%Q) (@PFloat NumQ 0%Q) (1%Q : NumQ)
    [[0; 0; 0]; [0; 0; 1]; [0; 0; 2]]%Q [3; 2]%nat (@ZScal NumQ 1%Q) (@ZScal NumQ 1%Q) "u" = Ok m /\
  nth 2 (m_u m) [] = [0; 0; 1]%Q /\ nth 4 (m_u m) [] = ju 4%nat /\ cell_len m 4 = 0%Q.
Proof. exact (geometry_3_2 ju jdu). Qed.
Print Assumptions C27_3_2_refuted.

(** ** C28 *)
Theorem C28_accepted {N : num} (LA : lapack N) ju jdu l c r g len np ndiv zs zl name m :
  mtl_new LA ju jdu l c r g len np ndiv zs zl name = Ok m ->
  match l, c with
  | PFloat x, PFloat y => conductors m = 1%nat /\
      (forall k, (k < cells m)%nat -> L_ m k 0 0 = x) /\ (forall k, (k <= cells m)%nat -> C_ m k 0 0 = y)
  | PArr r1 c1 A, PArr r2 c2 B => r1 = conductors m /\ c1 = conductors m /\ r2 = conductors m /\ c2 = conductors m /\
      (forall k i j, (k < cells m)%nat -> (i < conductors m)%nat -> (j < conductors m)%nat -> L_ m k i j = get2 A i j) /\
      (forall k i j, (k <= cells m)%nat -> (i < conductors m)%nat -> (j < conductors m)%nat -> C_ m k i j = get2 B i j)
  | _, _ => False
  end.
Proof. exact (new_LC LA ju jdu l c r g len np ndiv zs zl name m). Qed.
Print Assumptions C28_accepted.
Theorem C28_rejected {N : num} (LA : lapack N) ju jdu (l c : pulin N) r g len np ndiv zs zl name : ~ lc_ok l c ->
  exists e, mtl_new LA ju jdu l c r g len np ndiv zs zl name = Err e /\ (e = ValueError \/ e = AssertionError).
Proof. exact (LC_rejected LA ju jdu l c r g len np ndiv zs zl name). Qed.
Print Assumptions C28_rejected.
Example C28_example : ~ lc_ok (@PFloat NumR 1) (@PArr NumR 1 1 [[1]]) /\ ~ lc_ok (@PArr NumR 2 1 [[1]; [1]]) (@PArr NumR 2 1 [[1]; [1]]) /\
  exists m, ex_new (fun _ => []) (fun _ => []) = Ok m /\ conductors m = 2%nat.
Proof.
  split; [intros []|]. split; [intros [H _]; discriminate H|].
  destruct (ex_new_ok (fun _ => []) (fun _ => [])) as (m & Hm & _ & Hn & _). exists m. auto.
Qed.

(** ** C29 *)
Theorem C29_accepted {N : num} (LA : lapack N) ju jdu l c r g len np ndiv zs zl name m :
  mtl_new LA ju jdu l c r g len np ndiv zs zl name = Ok m ->
  match r with
  | PFloat x => (conductors m = 1%nat \/ neqb x n0 = true) /\
      forall k i j, (k < cells m)%nat -> (i < conductors m)%nat -> (j < conductors m)%nat -> R_ m k i j = x
  | PArr a b A => a = conductors m /\ b = conductors m /\
      forall k i j, (k < cells m)%nat -> (i < conductors m)%nat -> (j < conductors m)%nat -> R_ m k i j = get2 A i j
  | POther => False
  end /\
  match g with
  | PFloat x => (conductors m = 1%nat \/ neqb x n0 = true) /\
      forall k i j, (k <= cells m)%nat -> (i < conductors m)%nat -> (j < conductors m)%nat -> G_ m k i j = x
  | PArr a b A => a = conductors m /\ b = conductors m /\
      forall k i j, (k <= cells m)%nat -> (i < conductors m)%nat -> (j < conductors m)%nat -> G_ m k i j = get2 A i j
  | POther => False
  end.
Proof. exact (new_RG LA ju jdu l c r g len np ndiv zs zl name m). Qed.
Print Assumptions C29_accepted.
Theorem C29_rejected {N : num} (LA : lapack N) ju jdu (l c r g : pulin N) len np ndiv zs zl name : lc_ok l c ->
  ~ (rg_ok (size_of l) r /\ rg_ok (size_of l) g) ->
  exists e, mtl_new LA ju jdu l c r g len np ndiv zs zl name = Err e /\ (e = ValueError \/ e = AssertionError).
Proof. intros H. exact (RG_rejected LA ju jdu l c r g len np ndiv zs zl name (size_of l) H eq_refl). Qed.
Print Assumptions C29_rejected.
(** a non-zero scalar resistance for two conductors *)
Example C29_example : ~ rg_ok 2 (@PFloat NumR 5) /\ rg_ok 2 (@PFloat NumR 0) /\ rg_ok 1 (@PFloat NumR 5) /\ rg_ok 2 (PArr 2 2 exR).
Proof.
  split; [|split; [right; now apply Reqb_true|split; [now left|split; reflexivity]]].
  intros [H|H]; [discriminate H|]. apply Reqb_true in H. cbn in H. lra.
Qed.

(** ** C30 *)
Theorem C30_diagonal LA ju jdu l c r g len np ndiv (zs zl : ztin NumR) name (m : mtl NumR) :
  mtl_new LA ju jdu l c r g len np ndiv zs zl name = Ok m ->
  match zs, zl with
  | ZScal x, ZScal y => diag_with (conductors m) (Zs_ m) (fun _ => x) /\ diag_with (conductors m) (Zl_ m) (fun _ => y)
  | ZVec a x, ZVec b y => a = conductors m /\ b = conductors m /\
      diag_with (conductors m) (Zs_ m) (fun i => @get NumR x i) /\ diag_with (conductors m) (Zl_ m) (fun i => @get NumR y i)
  | ZMat r1 c1 A, ZMat r2 c2 B => r1 = r2 /\ c1 = c2 /\
      (r1 = 1%nat /\ c1 = conductors m /\ diag_with (conductors m) (Zs_ m) (fun i => @get2 NumR A 0 i)
         /\ diag_with (conductors m) (Zl_ m) (fun i => @get2 NumR B 0 i) \/
       r1 = conductors m /\ c1 = 1%nat /\ diag_with (conductors m) (Zs_ m) (fun i => @get2 NumR A i 0)
         /\ diag_with (conductors m) (Zl_ m) (fun i => @get2 NumR B i 0))
  | _, _ => False
  end.
Proof. exact (new_Zt LA ju jdu l c r g len np ndiv zs zl name m). Qed.
Print Assumptions C30_diagonal.
Theorem C30_mixed_rejected {N : num} (LA : lapack N) ju jdu (l c r g : pulin N) len np ndiv zs zl name :
  lc_ok l c -> rg_ok (size_of l) r -> rg_ok (size_of l) g -> is_scalar zs <> is_scalar zl ->
  mtl_new LA ju jdu l c r g len np ndiv zs zl name = Err ValueError.
Proof. exact (new_Zt_mixed LA ju jdu l c r g len np ndiv zs zl name). Qed.
Print Assumptions C30_mixed_rejected.
Theorem C30_other_shapes_rejected {N : num} (LA : lapack N) ju jdu (l c r g : pulin N) len np ndiv zs zl name :
  lc_ok l c -> rg_ok (size_of l) r -> rg_ok (size_of l) g -> ~ zt_ok (size_of l) zs zl ->
  exists e, mtl_new LA ju jdu l c r g len np ndiv zs zl name = Err e.
Proof. exact (new_Zt_rejected LA ju jdu l c r g len np ndiv zs zl name). Qed.
Print Assumptions C30_other_shapes_rejected.
Example C30_example : exists m, ex_new (fun _ => []) (fun _ => []) = Ok m /\ Zs_ m 0 0 = 1 /\ Zs_ m 0 1 = 0 /\ Zl_ m 1 1 = 2 /\
  is_scalar (@ZScal NumR 50) <> is_scalar (@ZVec NumR 2 [50; 50]) /\ ~ zt_ok 2 (@ZVec NumR 3 [1; 1; 1]) (@ZVec NumR 3 [1; 1; 1]).
Proof.
  destruct (ex_new_ok (fun _ => []) (fun _ => [])) as (m & Hm & _ & Hn & _). exists m. split; auto.
  unfold ex_new in Hm. destruct (C30_diagonal _ _ _ _ _ _ _ _ _ _ _ _ _ _ Hm) as (_ & _ & A & B). rewrite Hn in A, B.
  rewrite (A 0%nat 0%nat), (A 0%nat 1%nat), (B 1%nat 1%nat) by lia. cbn. repeat split; auto; [discriminate|].
  intros [H _]. discriminate H.
Qed.

(** ** C31: one conductor; [k] is a shortest cell among those of non-zero length *)
Theorem C31_default_step LA ju jdu (x y : R) r g len np ndiv zs zl name (m : mtl NumR) : lapack_ok LA ->
  mtl_new LA ju jdu (@PFloat NumR x) (@PFloat NumR y) r g len np ndiv zs zl name = Ok m -> 0 < x -> 0 < y ->
  exists k, (k < cells m)%nat /\ cell_len m k <> 0 /\
    (forall j, (j < cells m)%nat -> cell_len m j <> 0 -> cell_len m k <= cell_len m j) /\
    step_dt m = cell_len m k * sqrt (x * y).
Proof. exact (default_dt LA ju jdu x y r g len np ndiv zs zl name m). Qed.
Print Assumptions C31_default_step.
(** the step is positive and a wave of velocity 1/sqrt(l c) crosses at most one cell in it *)
Theorem C31_courant LA ju jdu (x y : R) r g len np ndiv zs zl name (m : mtl NumR) : lapack_ok LA ->
  mtl_new LA ju jdu (@PFloat NumR x) (@PFloat NumR y) r g len np ndiv zs zl name = Ok m -> 0 < x -> 0 < y ->
  0 < step_dt m /\
  forall j, (j < cells m)%nat -> cell_len m j <> 0 -> step_dt m * (1 / sqrt (x * y)) <= cell_len m j.
Proof. exact (default_dt_cfl LA ju jdu x y r g len np ndiv zs zl name m). Qed.
Print Assumptions C31_courant.
Example C31_example : exists m : mtl NumR, lapack_ok LR /\ mtl_new LR (fun _ => []) (fun _ => []) (@PFloat NumR 2) (@PFloat NumR 3)
  (@PFloat NumR 0) (@PFloat NumR 0) (5 : NumR) [] [4%nat] (@ZScal NumR 1) (@ZScal NumR 1) "d" = Ok m /\ cells m = 4%nat.
Proof.
  destruct (one_conductor LR LR_ok LR_complete (fun _ => []) (fun _ => []) 2 3 0 0 5 1 1 4 "d") as (m & Hm & _ & H & _); try lra; try lia.
  exists m. split; [exact LR_ok|]. split; auto. apply H.
Qed.

(** ** C33: [k1], [k2] are the nodes closest to the two ends of the region *)
Theorem C33_one_row_of_one_cell LA (m m' : mtl NumR) (a b : posarg NumR) c (x : R) k1 k2 : reachable LA m ->
  closest (m_u m) (pos_vec a) k1 -> closest (m_u m) (pos_vec b) k2 ->
  set_resistance_in_region LA m a b c x = Ok m' ->
  (c < conductors m)%nat /\ (cell_at m k1 + c <= cell_at m k2)%nat /\ rest_of m m' /\ k_g (m_core m') = k_g (m_core m) /\
  forall k i j, (j < conductors m)%nat -> R_ m' k i j =
    if (k =? cell_at m k1 + c)%nat && (i =? c)%nat then x / region_len m (cell_at m k1) (cell_at m k2) else R_ m k i j.
Proof. exact (resistance_effect LA m m' a b c x k1 k2). Qed.
Print Assumptions C33_one_row_of_one_cell.
Theorem C33_otherwise_raises LA (m : mtl NumR) (a b : posarg NumR) c (x : R) k1 k2 : reachable LA m ->
  closest (m_u m) (pos_vec a) k1 -> closest (m_u m) (pos_vec b) k2 -> assert_ge b a = Ok tt ->
  ~ ((c < conductors m)%nat /\ (cell_at m k1 + c <= cell_at m k2)%nat) ->
  set_resistance_in_region LA m a b c x = Err IndexError.
Proof. exact (resistance_raises LA m a b c x k1 k2). Qed.
Print Assumptions C33_otherwise_raises.
(** conductor 0 of a one-conductor line at a point: the resistance of its cell becomes [x] *)
Theorem C33_point_conductor_0 LA (m m' : mtl NumR) (p : posarg NumR) (x : R) k : reachable LA m -> conductors m = 1%nat ->
  closest (m_u m) (pos_vec p) k -> 0 < norm3 (nth (cell_at m k) (m_du m) []) ->
  cell_len m (cell_at m k) = norm3 (nth (cell_at m k) (m_du m) []) ->
  set_resistance_at_point LA m p 0 x = Ok m' ->
  R_ m' (cell_at m k) 0 0 * cell_len m (cell_at m k) = x /\
  forall q, q <> cell_at m k -> R_ m' q 0 0 = R_ m q 0 0.
Proof. exact (point_resistance LA m m' p x k). Qed.
Print Assumptions C33_point_conductor_0.
(** any other conductor at a point: always an error *)
Theorem C33_point_other_conductors LA (m : mtl NumR) (p : posarg NumR) c (x : R) : reachable LA m -> (1 <= c)%nat ->
  exists e, set_resistance_at_point LA m p c x = Err e /\ (e = IndexError \/ exists v, p = PosA v).
Proof. exact (point_others LA m p c x). Qed.
Print Assumptions C33_point_other_conductors.
Example C33_example : exists (m m' : mtl NumR), reachable LR m /\ closest (m_u m) [0; 0; 1] 1 /\ closest (m_u m) [0; 0; 3] 3 /\
  set_resistance_in_region LR m (@PosF NumR 1) (@PosF NumR 3) 1 2 = Ok m'.
Proof. exact resistance_example. Qed.

(** ** C34: float positions on a line that starts at x = 0 (any line along z): node 0 is
    written wherever the region is *)
Theorem C34_position_ignored LA (m m' : mtl NumR) (za zb : R) c x : reachable LA m ->
  coord (nth 0 (m_u m) []) 0 = 0 ->
  add_conductance_in_region LA m (@PosF NumR za) (@PosF NumR zb) c x = Ok m' ->
  c = 0%nat /\ rest_of m m' /\ k_r (m_core m') = k_r (m_core m) /\
  forall k i j, (j < conductors m)%nat -> G_ m' k i j =
    if (k =? 0)%nat && (i =? 0)%nat then x / norm3 (nth 0 (m_du m) []) else G_ m k i j.
Proof. exact (conductance_effect LA m m' za zb c x). Qed.
Print Assumptions C34_position_ignored.
(** a conductance at a point is one in the region from the point to itself: so conductor 0 gets it at node 0 *)
Theorem C34_point_conductor_0 LA (m m' : mtl NumR) (z : R) x : reachable LA m -> coord (nth 0 (m_u m) []) 0 = 0 ->
  add_conductance_at_point LA m (@PosF NumR z) 0 x = Ok m' ->
  rest_of m m' /\ k_r (m_core m') = k_r (m_core m) /\
  forall k i j, (j < conductors m)%nat -> G_ m' k i j =
    if (k =? 0)%nat && (i =? 0)%nat then x / norm3 (nth 0 (m_du m) []) else G_ m k i j.
Proof. intros H H0 E. exact (proj2 (conductance_effect LA m m' z z 0 x H H0 E)). Qed.
Print Assumptions C34_point_conductor_0.
(** and any other conductor always raises *)
Theorem C34_point_other_conductors LA (m : mtl NumR) (p : posarg NumR) c (x : R) : (1 <= c)%nat ->
  exists e, add_conductance_at_point LA m p c x = Err e /\ (e = IndexError \/ exists v, p = PosA v).
Proof. exact (conductance_others LA m p c x). Qed.
Print Assumptions C34_point_other_conductors.
(** the bundle version uses the closest nodes *)
Theorem C34_bundle_uses_closest_node LA levels name (b b' : bundle NumR) (p q : posarg NumR) c (x : R) k1 k2 :
  mtld_new levels name = Ok b ->
  closest (b_u b) (pos_vec p) k1 -> closest (b_u b) (pos_vec q) k2 ->
  bundle_add_conductance LA b p q c x = Ok b' ->
  (c < k_n (b_core b))%nat /\ (k1 + c <= k2)%nat /\
  forall k i j, (j < k_n (b_core b))%nat -> get3 (k_g (b_core b')) k i j =
    if (k =? k1 + c)%nat && (i =? c)%nat
    then x / (if (k1 =? k2)%nat then norm3 (nth k1 (b_du b) []) else dist3 (nth k2 (b_u b) []) (nth k1 (b_u b) []))
    else get3 (k_g (b_core b)) k i j.
Proof. exact (new_bundle_conductance LA levels name b b' p q c x k1 k2). Qed.
Print Assumptions C34_bundle_uses_closest_node.
Example C34_example : exists (m m' : mtl NumR), reachable LR m /\ coord (nth 0 (m_u m) []) 0 = 0 /\
  add_conductance_in_region LR m (@PosF NumR 2) (@PosF NumR 2) 0 2 = Ok m' /\ G_ m' 0 0 0 = 2 /\ G_ m' 2 0 0 = G_ m 2 0 0.
Proof. exact conductance_example. Qed.
