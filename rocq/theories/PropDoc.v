(** C105-C108: lines, cable ends, distributed sources and probes of the documents the parser reads.
    Vocabulary: SpecDoc.v, SpecDocR.v (values of the lines, in real arithmetic), SpecBundle.v. *)
From Coq Require Import String List Arith ZArith Bool Lia QArith Reals Lra.
From Verif Require Import Num Py Arr ArrFacts NumR RFacts LapackR NumQ LapackQ Utils Probes Dispersive Line Bundle Networks Mtln SpecLine SpecBundle SpecGeom SpecR SpecField SpecNet SpecCore
  CoreEq BundleFacts TotalFacts StepTotal NearestFacts GeomProps GeomProps4 GeomProps5 HistoryFacts ExampleLine Parser SpecParser SpecDoc SpecDocR ParserFacts ParserBuild ParserNets ParserMore ParserLines ParserEnds ParserValues ExampleQ ExampleParser ExampleDoc ExampleDocR.
Import ListNotations.
Local Ltac splits := repeat match goal with H : (_ && _)%bool = true |- _ => apply andb_true_iff in H; destruct H end.

(** ** C105: the lines of a document *)
(** Everything read: bundles of lines, then sources, then probes *)
Theorem C105_document (N : num) (LA : lapack N) ju jdu so (D : doc N) p : set_listing so -> NoDup (map cb_name (dc_cables D)) -> parse LA ju jdu so D = Ok p ->
  exists bs0 bs1, Forall2 (bundle_of LA D ju jdu) (dc_bundles D) bs0 /\ driven D (dc_sources D) bs0 bs1 /\
    length (ps_bundles p) = length bs1 /\
    exists ats, Forall2 (fun q kx => probed D bs1 q (fst kx) (snd kx)) (dc_probes D) ats /\
      forall k b, nth_error bs1 k = Some b -> nth_error (ps_bundles p) k = Some (with_probes b (probes_on k b (combine (dc_probes D) ats))).
Proof.
  intros SO ND H. destruct (parsed_document LA D ju jdu so p SO ND H) as (bs0 & bs1 & ats & A & B & C & E & F & _). exists bs0, bs1. split; [exact A|]. split; [exact B|]. split; [exact E|]. exists ats. exact (conj C F).
Qed.
Print Assumptions C105_document.
Theorem C105_line_values (LA : lapack NumR) ju jdu (D : doc NumR) name m : line_of_cable LA D ju jdu name m ->
  exists cb w m0 m1, wired D name cb w /\ cells m0 = list_sum (cb_ndiv cb) /\ carries w m0 /\ resisted D cb (dc_ends D) m0 m1 /\
    exists d, m = m_set_core m1 (set_disp (m_core m1) d).
Proof. exact (line_values LA D ju jdu name m). Qed.
Print Assumptions C105_line_values.
(** cable ends on other conductors than the first of their cable cannot be read *)
Theorem C105_ends_on_first_conductor (N : num) (LA : lapack N) ju jdu (D : doc N) name m : line_of_cable LA D ju jdu name m ->
  exists cb, first_such (fun c => cb_name c = name) (dc_cables D) cb /\
    forall e c x far, In e (dc_ends D) -> end_on D e c x far -> In x (cb_elems cb) -> exists rest, cb_elems cb = x :: rest.
Proof.
  intros (cb & w & ps & l & c & r & m0 & m1 & [W _] & _ & _ & _ & Ld & _). exists cb. split; [exact W|]. intros e c' x far I E Ix. destruct (loaded_first LA D _ _ _ _ Ld e c' x far I E Ix) as [P _].
  destruct (cb_elems cb) as [|y rest]; [discriminate|]. injection P as ->. now exists rest.
Qed.
Print Assumptions C105_ends_on_first_conductor.
(** the documents of the examples *)
Example C105_example : exists p, parse LQ junk junk px_order dx = Ok p /\ set_listing px_order /\ NoDup (map cb_name (dc_cables dx)) /\ length (dc_ends dx) = 2%nat /\
  exists b, nth_error (ps_bundles p) 0 = Some b /\ b_conductors b = 3%nat.
Proof.
  pose proof dx_ok as H. okb_step H p E. exists p. split; [exact E|]. split; [exact px_order_listing|]. split; [exact dx_names|]. split; [reflexivity|]. destruct (ps_bundles p) as [|b [|b' bs]]; try (exfalso; revert H; clear; intros H; discriminate H).
  exists b. split; [reflexivity|]. splits. now apply Nat.eqb_eq.
Qed.
Example C105_values_example : exists m, line_of_cable LR dr (fun _ => []) (fun _ => []) "a" m /\ length (dc_ends dr) = 1%nat.
Proof. destruct dr_line as [m H]. exists m. split; [exact H|reflexivity]. Qed.
Example C105_second_conductor_example : parse LQ junk junk px_order dx_second = Err IndexError.
Proof. exact dx_second_raises. Qed.

(** ** C106: the transfer impedances of cable ends *)
Theorem C106_ends_in_order (N : num) (LA : lapack N) ju jdu (D : doc N) bd b es1 e es2 : bundle_of LA D ju jdu bd b -> dc_ends D = es1 ++ e :: es2 ->
  exists g c x far b1 b2, buildGraphFromConnections D (snd bd) = Ok g /\ end_on D e c x far /\ reachable_bundle LA b1 /\ b_cells b1 = b_cells b /\ b_levels b1 = b_levels b /\
    closed D g e x far (g_es g) b1 b2 /\ all_closed D g es2 b2 b.
Proof. exact (bundle_end LA D ju jdu bd b es1 e es2). Qed.
Print Assumptions C106_ends_in_order.
(** one cable end, on element x: the entries that couple the element's conductor and the conductors nested in it are
    replaced by the connector's transfer impedance, at the first cell for a near end and at the last for a far one *)
Theorem C106_end_replaces (N : num) (LA : lapack N) (D : doc N) g e x far es b b' conn zt : closed D g e x far es b b' -> reachable_bundle LA b -> (0 < b_cells b)%nat ->
  end_material D e conn -> cm_Zt conn = Some zt -> rm_direction zt = "in"%string \/ rm_direction zt = "out"%string -> active zt ->
  exists rows : list (nat * nat),
    (forall i j z v, In (i, j, z) es -> nth_error (g_vs g) i = Some v -> v_name v = x -> exists w ro ri, nth_error (g_vs g) j = Some w /\ In (ro, ri) rows /\ element_row D (b_levels b) v ro /\ element_row D (b_levels b) w ri) /\
    (forall ro ri, In (ro, ri) rows -> exists i j z v w, In (i, j, z) es /\ nth_error (g_vs g) i = Some v /\ nth_error (g_vs g) j = Some w /\ v_name v = x /\ element_row D (b_levels b) v ro /\ element_row D (b_levels b) w ri) /\
    only_coefficients b b' /\
    forall k r c, let here := k = (if far then b_cells b - 1 else 0)%nat /\ ((rm_direction zt = "in"%string /\ In (c, r) rows) \/ (rm_direction zt = "out"%string /\ In (r, c) rows)) in
      (here -> replaced zt (b_disp b) (b_disp b') k r c) /\ (~ here -> same_entry (b_disp b) (b_disp b') k r c).
Proof. exact (closed_effect LA D g e x far es b b' conn zt). Qed.
Print Assumptions C106_end_replaces.
Example C106_example : exists g b b' bn, bundle_of LQ dx junk junk ("b"%string, px_tree) bn /\ closed dx g (Cend [1%Z] 200) 10 false (g_es g) b b' /\ reachable_bundle LQ b /\ (0 < b_cells b)%nat /\ length (g_es g) = 2%nat /\
  exists conn, end_material dx (Cend [1%Z] 200) conn /\ cm_Zt conn = Some (px_zt "in") /\ rm_direction (px_zt "in") = "in"%string /\ active (px_zt "in").
Proof.
  pose proof dx_ok as H. okb_step H p E. destruct (parsed_document LQ dx junk junk px_order p px_order_listing dx_names E) as (bs0 & bs1 & ats & A & Dr & _ & L & F & _). change (dc_bundles dx) with [("b"%string, px_tree)] in A.
  inversion A as [|bd bn l l' B A' E1 E2]. subst bd l bs0. inversion A'. subst l'. clear A A'. destruct (bundle_end LQ dx junk junk _ bn [] (Cend [1%Z] 200) [Cend [2%Z] 200] B eq_refl) as (g & c & x & far & b1 & b2 & G & He & R & Ec & _ & Cl & _).
  assert (Eg : okb (fun g : graph NumQ => (length (g_es g) =? 2)%nat) (buildGraphFromConnections dx px_tree) = true) by (vm_compute; reflexivity). cbn [snd] in G. rewrite G in Eg. cbn [okb] in Eg. apply Nat.eqb_eq in Eg.
  assert (Hx : x = 10%Z /\ far = false).
  { destruct He as (rest & Er & Ea). injection Er as <- <-. apply element_ends in Ea. assert (X : okb (fun r : Z * bool => (fst r =? 10)%Z && negb (snd r))%bool (getElementOfNode dx 1%Z) = true) by (vm_compute; reflexivity). rewrite Ea in X. cbn [okb fst snd] in X. splits. split; [now apply Z.eqb_eq|now destruct far]. }
  destruct Hx as [-> ->]. exists g, b1, b2, bn. split; [exact B|]. split; [exact Cl|]. split; [exact R|]. split.
  { rewrite Ec. pose proof (bundle_of_still LQ dx junk junk _ _ B) as (b0 & _ & _). destruct (driven_still dx _ _ _ Dr) as [L1 _]. revert H. destruct (nth_error bs1 0) as [b3|] eqn:E3; [|apply nth_error_None in E3; rewrite L1 in E3; cbn in E3; lia].
    destruct (driven_rows dx _ _ _ Dr ltac:(constructor; [apply (bundle_of_arrays LQ dx junk junk _ _ B)|constructor])) as (_ & _ & Q). destruct (Q 0%nat bn eq_refl) as (b4 & eL & Q1 & Q2 & _). rewrite E3 in Q1. injection Q1 as <-. pose proof (F _ _ E3) as F0. destruct (ps_bundles p) as [|b5 [|b6 bs]]; [clear; intros H; exfalso; discriminate H| |clear; intros H; exfalso; discriminate H]. cbn [nth_error] in F0. injection F0 as ->. intros H. splits.
    assert (X : b_cells bn = 4%nat) by (subst b3; match goal with Y : (b_cells _ =? 4)%nat = true |- _ => apply Nat.eqb_eq in Y; exact Y end). rewrite X. lia. }
  split; [exact Eg|]. eexists. split; [exists [], [@Cmat NumQ 201 px_multi None None]; split; [reflexivity|]; split; [reflexivity|intros ? []]|]. split; [reflexivity|]. split; [reflexivity|]. left. reflexivity.
Qed.

(** ** C107: distributed sources *)
(** each distributed source is added once, in order: to the bundle of its cable, between its two nodes *)
Theorem C107_sources (N : num) (LA : lapack N) ju jdu so (D : doc N) p : set_listing so -> NoDup (map cb_name (dc_cables D)) -> parse LA ju jdu so D = Ok p ->
  exists bs0 bs1, Forall2 (bundle_of LA D ju jdu) (dc_bundles D) bs0 /\ driven D (dc_sources D) bs0 bs1 /\ length (ps_bundles p) = length bs1 /\
    (forall b, In b bs0 -> field_arrays b /\ forall i k t, field_at b i k t = n0) /\
    forall k b, nth_error bs1 k = Some b -> exists ps, nth_error (ps_bundles p) k = Some (with_probes b ps).
Proof.
  intros SO ND H. destruct (parsed_document LA D ju jdu so p SO ND H) as (bs0 & bs1 & ats & A & B & _ & E & F & _). exists bs0, bs1. split; [exact A|]. split; [exact B|]. split; [exact E|]. split; [|intros k b Hb; eexists; exact (F k b Hb)].
  intros b I. clear - A I. induction A as [|bd b0 l l' R _ IH]; [destruct I|]. destruct I as [<-|I]; [exact (bundle_of_arrays LA D ju jdu bd b0 R)|now apply IH].
Qed.
Print Assumptions C107_sources.
(** a row of a bundle is driven only by the sources that give its number in the whole bundle as their conductor *)
Theorem C107_rows (N : num) (D : doc N) ss (bs bs' : list (bundle N)) : driven D ss bs bs' -> Forall field_arrays bs ->
  length bs' = length bs /\
  forall k b, nth_error bs k = Some b -> exists b' eL, nth_error bs' k = Some b' /\ b' = b_set_core b (set_fields (b_core b) eL (k_eT (b_core b))) /\
    forall i c, (forall s d, In s ss -> distributed s -> drives_field D bs s d -> dr_bundle d = k -> dr_cond d <> i) -> field_at b' i c = field_at b i c.
Proof. intros H F. exact (proj2 (driven_rows D ss bs bs' H F)). Qed.
Print Assumptions C107_rows.
(** so the conductor of a source is not counted within the cable it names: a source on the first conductor of the inner
    cable of a shielded pair drives the shield *)
Theorem C107_conductor_of_the_cable_refuted : exists (D : doc NumQ) p s b, parse LQ junk junk px_order D = Ok p /\ dc_sources D = [s] /\ distributed s /\ so_cable s = "pair"%string /\ so_cond s = Some 0%nat /\
  ps_bundles p = [b] /\ (exists m0 m1, concat (b_levels b) = [m0; m1] /\ m_name m0 = "shield"%string /\ m_name m1 = "pair"%string) /\
  @field_at NumQ b 0 2 1%Q = 2%Q /\ @field_at NumQ b 1 2 1%Q = 0%Q /\ @field_at NumQ b 2 2 1%Q = 0%Q.
Proof.
  pose proof dx_ok as H. okb_step H p E. destruct (ps_bundles p) as [|b [|b' bs]] eqn:Eb; try (exfalso; revert H; clear; intros H; discriminate H).
  exists dx, p. eexists. exists b. split; [exact E|]. split; [reflexivity|]. split; [split; [reflexivity|left; reflexivity]|]. split; [reflexivity|]. split; [reflexivity|]. split; [exact Eb|].
  assert (X : okb (fun p : parsed NumQ => match ps_bundles p with [b] => match concat (b_levels b) with [m0; m1] => String.eqb (m_name m0) "shield" && String.eqb (m_name m1) "pair" | _ => false end | _ => false end)%bool (parse LQ junk junk px_order dx) = true) by (vm_compute; reflexivity).
  rewrite E in X. cbn [okb] in X. rewrite Eb in X. splits. split.
  - destruct (concat (b_levels b)) as [|m0 [|m1 [|]]]; try (exfalso; clear - X; discriminate X). splits. exists m0, m1. split; [reflexivity|]. split; now apply String.eqb_eq.
  - repeat match goal with Y : same_q _ _ = true |- _ => apply same_q_eq in Y end. repeat split; assumption.
Qed.
Print Assumptions C107_conductor_of_the_cable_refuted.

(** ** C108: probes *)
(** every named probe is found under its name, on the bundle of its cable, at its node and of its type; of several with the
    same name the last *)
Theorem C108_probes (N : num) (LA : lapack N) ju jdu so (D : doc N) p i q : parse LA ju jdu so D = Ok p -> nth_error (dc_probes D) i = Some q ->
  (forall j q', (i < j)%nat -> nth_error (dc_probes D) j = Some q' -> pb_name q' <> pb_name q) ->
  exists k x b idx, probed D (ps_bundles p) q k x /\ nth_error (ps_bundles p) k = Some b /\ dget String.eqb (pb_name q) (ps_probes p) = Some (k, idx) /\
    nth_error (b_probes b) idx = Some (probe_new x (pb_type q) (k_dt (b_core b)) (b_u b)).
Proof. exact (probe_found LA D ju jdu so p i q). Qed.
Print Assumptions C108_probes.
Example C108_example : exists p, parse LQ junk junk px_order dx = Ok p /\ map pb_name (dc_probes dx) = ["one"; "two"]%string.
Proof. pose proof dx_ok as H. okb_step H p E. exists p. split; [exact E|reflexivity]. Qed.
