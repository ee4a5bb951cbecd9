(** Lines, cable ends, distributed sources and probes of the parsed documents. *)
From Coq Require Import String List Arith ZArith Lia Bool.
From Verif Require Import Num Py Arr ArrFacts Utils Probes Dispersive Line Bundle Networks Mtln SpecLine SpecBundle SpecGeom
  CoreEq BundleFacts GeomProps RecordFacts NetPlace Parser SpecParser SpecDoc ParserFacts ParserBuild ParserNets ParserMore.
Import ListNotations.

Lemma firstZ {A} (f : A -> Z) x l a : find (fun a => (f a =? x)%Z) l = Some a <-> first_such (fun a => f a = x) l a.
Proof. apply find_first. intros. apply Z.eqb_eq. Qed.
Lemma firstS {A} (f : A -> string) x l a : find (fun a => String.eqb (f a) x) l = Some a <-> first_such (fun a => f a = x) l a.
Proof. apply find_first. intros. apply String.eqb_eq. Qed.
Lemma of_option_Ok {A} e (o : option A) a : of_option e o = Ok a <-> o = Some a.
Proof. destruct o; cbn; split; congruence. Qed.
Lemma py_get_Some {A} (l : list A) k a : py_get l k = Ok a <-> nth_error l k = Some a.
Proof. apply of_option_Ok. Qed.
Lemma first_P {A} (P : A -> Prop) l a : first_such P l a -> P a /\ In a l.
Proof. intros (b & c & -> & Pa & _). split; [exact Pa|]. apply in_or_app. right. now left. Qed.

Section Lines.
Context {N : num}.
Variable LA : lapack N.
Variables ju jdu : nat -> vec N.
Variable D : doc N.
Implicit Types (m : mtl N).

Lemma line_call name m : buildMTLfromLine LA ju jdu D name = Ok m -> exists cb w ps l c r, wired D name cb w /\ runs_along D cb ps /\
  wire_params w l c r /\ mtl_new LA ju jdu l c r (PFloat n0) n1 ps (cb_ndiv cb) (ZScal n0) (ZScal n0) name = Ok m.
Proof.
  unfold buildMTLfromLine. intros H. inv_bind H. inv_bind H. inv_bind H. inv_bind H. inv_bind H. destruct a3 as [[l c] r].
  unfold getCableFromLineName in Ha. apply of_option_Ok, firstS in Ha. unfold getWireWithMaterialId in Ha2. apply of_option_Ok, firstZ in Ha2. apply py_get_Some in Ha0.
  unfold getListOfCoordinates in Ha1. destruct (find _ _) as [[x cs]|] eqn:Ef; [|discriminate]. apply (firstZ fst) in Ef. cbn [snd] in Ha1. apply mapM_F2 in Ha1.
  destruct (first_P _ _ _ Ha) as [En _]. destruct (first_P _ _ _ Ef) as [Ex _]. cbn in Ex. subst x. rewrite En in H.
  exists a, a2, a1, l, c, r. split; [split; assumption|]. split.
  { destruct (cb_elems a) as [|x rest] eqn:Ee; [discriminate|]. injection Ha0 as ->. exists a0, rest, cs. split; [exact Ee|]. split; [exact Ef|]. clear - Ha1. induction Ha1; constructor; [now apply coordinate_point|assumption]. }
  split; [|exact H]. pose proof (new_LC _ _ _ _ _ _ _ _ _ _ _ _ _ _ H) as LC. pose proof (new_RG _ _ _ _ _ _ _ _ _ _ _ _ _ _ H) as [RG _].
  unfold line_params in Ha3. destruct (wi_L a2) as [x|z|v|L] eqn:EL; try discriminate.
  - apply OkI in Ha3. injection Ha3 as <- <- <-. unfold pul in *. destruct (wi_C a2) eqn:EC; try now destruct LC. destruct (wi_R a2) eqn:ER; try now destruct RG. now constructor.
  - apply OkI in Ha3. injection Ha3 as <- <- <-. now destruct LC.
  - destruct (wi_C a2) as [y|z|v|C] eqn:EC; try discriminate. inv_bind Ha3. apply OkI in Ha3. injection Ha3 as <- <- <-. eapply wp_matrices; [exact EL|exact EC|reflexivity|]. intros i j Hi Hj.
    destruct (wi_R a2) as [x|z|v|A] eqn:ER.
    + apply OkI in Ha4. subst a3. exists x. rewrite get2_mk2 by assumption. split; [reflexivity|]. intros _. constructor.
    + apply OkI in Ha4. subst a3. exists (nofZ z). rewrite get2_mk2 by assumption. split; [reflexivity|]. intros _. constructor.
    + destruct (Nat.eqb_spec (length v) (length L)) as [El|El]; [|destruct (Nat.eqb_spec (length v) 1) as [E1|E1]; [|discriminate]]; apply OkI in Ha4; subst a3; rewrite get2_mk2 by assumption.
      * exists (get v j). split; [reflexivity|]. intros ->. constructor; [exact El|]. unfold get. apply nth_error_nth'. lia.
      * exists (get v 0). split; [reflexivity|]. intros _. destruct v as [|x [|y v]]; try discriminate. cbn in El. apply cr_single. lia.
    + destruct ((length A =? length L) && (length (nth 0 A []) =? length L))%bool eqn:E; [|discriminate]. apply OkI in Ha4. subst a3. rewrite get2_mk2 by assumption.
      apply andb_true_iff in E as [E1 E2]. apply Nat.eqb_eq in E1, E2. exists (get2 A i j). split; [reflexivity|]. intros ->. now constructor.
Qed.

(** *** Cable ends *)
Lemma names_filter name (cs : list cable) cb : NoDup (map cb_name cs) -> In cb cs -> cb_name cb = name -> filter (fun c => String.eqb (cb_name c) name) cs = [cb].
Proof.
  induction cs as [|c cs IH]; intros ND I E; [destruct I|]. cbn [map] in ND. inversion ND as [|x l Nx ND']; subst x l. cbn [filter]. destruct I as [->|I].
  - rewrite E, String.eqb_refl. f_equal. destruct (filter _ cs) as [|d ds] eqn:F; [reflexivity|]. exfalso. assert (X : In d (filter (fun c => String.eqb (cb_name c) name) cs)) by (rewrite F; now left). apply filter_In in X as [X Y]. apply String.eqb_eq in Y. apply Nx. rewrite E, <- Y. now apply in_map.
  - destruct (String.eqb_spec (cb_name c) name) as [E'|_]; [|now apply IH]. exfalso. apply Nx. rewrite E', <- E. now apply in_map.
Qed.
Lemma ends_loaded m m' cb : NoDup (map cb_name (dc_cables D)) -> In cb (dc_cables D) -> cb_name cb = m_name m -> addConnectorsResistance LA D m = Ok m' -> loaded LA D cb (dc_ends D) m m'.
Proof.
  intros ND I En H. unfold addConnectorsResistance in H. rewrite (names_filter _ _ _ ND I En) in H. cbn [foldM] in H. inv_bind H. apply OkI in H. subst a. revert Ha. clear - D. generalize (dc_ends D) as es. intros es. revert m. induction es as [|e es IH]; intros m H; cbn [foldM] in H; [apply OkI in H; subst; constructor|].
  inv_bind H. inv_bind Ha. inv_bind Ha. destruct a1 as [x far]. cbn [fst] in Ha. apply element_ends in Ha1. assert (EO : end_on D e a0 x far). { destruct (ce_coords e) as [|c rest] eqn:Ec; [discriminate|]. cbn in Ha0. injection Ha0 as ->. exists rest. now split. }
  destruct (memZ x (cb_elems cb)) eqn:Em.
  - inv_bind Ha. inv_bind Ha. inv_bind Ha. inv_bind Ha. eapply loaded_here; [exact EO|apply indexZ_Ok; eassumption|apply coordinate_point; eassumption| |apply of_option_Ok in Ha4; exact Ha4|exact Ha|now apply IH].
    unfold connector_with in Ha3. apply of_option_Ok in Ha3. unfold end_material. revert Ha3. apply (firstZ (@cm_id N)).
  - apply OkI in Ha. subst a. eapply loaded_other; [exact EO|now apply memZ_not|now apply IH].
Qed.
(** a point is only written on conductor 0 *)
Lemma point_conductor m p k R m' : set_resistance_at_point LA m p k R = Ok m' -> k = 0.
Proof.
  unfold set_resistance_at_point, set_resistance_in_region. intros H. inv_bind H. cbv zeta in H. inv_bind H. unfold region_assign in Ha0. destruct (_ && _)%bool eqn:E; [|discriminate]. apply andb_true_iff in E as [E _]. apply Nat.ltb_lt in E. lia.
Qed.
Lemma loaded_first cb es m m' : loaded LA D cb es m m' -> forall e c x far, In e es -> end_on D e c x far -> In x (cb_elems cb) -> position x (cb_elems cb) 0.
Proof.
  induction 1 as [m|e es c x far m m' He Hn _ IH|e es c x far k p conn R m m1 m' He Hk _ _ _ Hs _ IH]; intros e' c' x' far' I He' Hx'; [destruct I|destruct I as [<-|I]|destruct I as [<-|I]]; try (eapply IH; eassumption).
  all: assert (EX : x = x' ) by (destruct He as (r1 & E1 & E2), He' as (r2 & E3 & E4); rewrite E1 in E3; injection E3 as <- _; apply element_ends in E2, E4; rewrite E2 in E4; congruence); subst x'.
  - now destruct Hn.
  - now rewrite <- (point_conductor _ _ _ _ _ Hs).
Qed.
Lemma build_line_call name m : NoDup (map cb_name (dc_cables D)) -> build_line LA ju jdu D name = Ok m -> line_of_cable LA D ju jdu name m.
Proof.
  intros ND H. unfold build_line in H. inv_bind H. inv_bind H. pose proof (line_from_name _ _ _ _ _ _ Ha) as [_ Nm]. destruct (line_call _ _ Ha) as (cb & w & ps & l & c & r & W & P & Q & E). pose proof (first_P _ _ _ (proj1 W)) as [Nc Ic].
  exists cb, w, ps, l, c, r, a, a0. do 4 (split; [assumption|]). split; [apply ends_loaded; [assumption..|congruence|assumption]|]. apply lumped_first. exact H.
Qed.
End Lines.

(** *** Distributed sources *)
Section Sources.
Context {N : num}.
Variable D : doc N.
Implicit Types (b : bundle N) (bs : list (bundle N)).
Lemma has_line_dec name (ls : list (mtl N)) : existsb (fun m => String.eqb (m_name m) name) ls = true <-> has_line name ls.
Proof. rewrite existsb_exists. split; intros (m & I & E); exists m; (split; [exact I|now apply String.eqb_eq]). Qed.
Lemma bundle_with_in name bs : forall k, bundle_with name bs = Ok k <-> in_bundle bs name k.
Proof.
  induction bs as [|b bs IH]; intros k; cbn [bundle_with].
  - split; [discriminate|]. intros ((b & E & _) & _). destruct k; discriminate.
  - destruct (existsb _ _) eqn:E.
    + apply has_line_dec in E. split.
      * intros H. injection H as <-. split; [exists b; now split|]. intros j b' Hj. lia.
      * intros (_ & H). destruct k as [|k]; [reflexivity|]. now destruct (H 0 b ltac:(lia) eq_refl).
    + assert (E' : ~ has_line name (concat (b_levels b))) by (intros X; apply has_line_dec in X; congruence). destruct (bundle_with name bs) as [k'|e] eqn:Eb; cbn [bind].
      * split.
        -- intros H. injection H as <-. apply IH in Eb || pose proof (proj1 (IH k') eq_refl) as Eb'. destruct Eb' as [(b' & B1 & B2) B3]. split; [exists b'; now split|]. intros [|j] b'' Hj Hn; [cbn in Hn; injection Hn as <-; exact E'|]. apply (B3 j b''); [lia|exact Hn].
        -- intros [(b' & B1 & B2) B3]. destruct k as [|k]; [cbn in B1; injection B1 as ->; contradiction|]. assert (X : in_bundle bs name k). { split; [exists b'; now split|]. intros j b'' Hj Hn. apply (B3 (S j) b''); [lia|exact Hn]. } apply IH in X. injection X as ->. reflexivity.
      * split; [discriminate|]. intros [(b' & B1 & B2) B3]. destruct k as [|k]; [cbn in B1; injection B1 as ->; contradiction|]. assert (X : in_bundle bs name k). { split; [exists b'; now split|]. intros j b'' Hj Hn. apply (B3 (S j) b''); [lia|exact Hn]. } apply IH in X. discriminate.
Qed.
Lemma node_at e c p : getNodeCoordId D e = Ok c -> coordinate D c = Ok p -> node_point D e p.
Proof.
  unfold getNodeCoordId. intros H1 H2. apply of_option_Ok in H1. destruct (find _ _) as [[e' c']|] eqn:E; [|discriminate]. cbn in H1. injection H1 as ->. apply (firstZ fst) in E. destruct (first_P _ _ _ E) as [X _]. cbn in X. subst e'. exists c. split; [exact E|now apply coordinate_point].
Qed.
Lemma source_wave (s : source N) f : source_fun s = Ok f -> exists w, waveform s w /\ forall t, f t = w t.
Proof.
  unfold source_fun. intros H. inv_bind H. destruct a as [y|]; [|discriminate]. apply OkI in H. subst f. apply built_waveform in Ha as (w & W & _). exists w. split; [exact W|]. intros t. now rewrite (waveform_built _ _ _ W).
Qed.
Lemma sources_driven ss : forall bs bs', foldM (add_source D) ss bs = Ok bs' -> driven D ss bs bs'.
Proof.
  induction ss as [|s ss IH]; intros bs bs' H; cbn [foldM] in H; [apply OkI in H; subst; constructor|]. inv_bind H. unfold add_source in Ha. destruct (String.eqb_spec (so_type s) "DistributedSource"%string) as [Et|Et]; cbn [negb] in Ha.
  2:{ apply OkI in Ha. subst a. apply driven_other; [intros [X _]; contradiction|now apply IH]. }
  inv_bind Ha. inv_bind Ha. cbv zeta in Ha. destruct (_ || _)%bool eqn:Ek.
  - assert (Di : distributed s). { split; [exact Et|]. apply orb_true_iff in Ek as [X|X]; apply String.eqb_eq in X; tauto. } do 9 (inv_bind Ha). apply OkI in Ha. subst a. unfold cable_named in Ha0. apply of_option_Ok, firstS in Ha0. destruct (first_P _ _ _ Ha0) as [En _].
    destruct (source_wave _ _ Ha2) as (w & W & Fw). apply bundle_with_in in Ha1. rewrite En in Ha1. apply py_get_Some in Ha3, Ha6, Ha9.
    eapply (driven_here D s ss (Drive a1 a5 a8 (match so_cond s with Some x => x | None => 0 end) w)); cbn [dr_bundle dr_from dr_to dr_cond dr_wave]; [exact Di| |exact Fw|exact Ha9|exact Ha10|now apply IH].
    split; [exists a0; now split|]. split; [|split; [reflexivity|exact W]]. destruct (so_elems s) as [|e0 [|e1 rest]]; try discriminate. cbn in Ha3, Ha6. injection Ha3 as ->. injection Ha6 as ->. exists a3, a6, rest. split; [reflexivity|]. split; eapply node_at; eassumption.
  - apply OkI in Ha. subst a. apply driven_other; [|now apply IH]. intros [_ [X|X]]; rewrite X in Ek; discriminate.
Qed.
End Sources.

(** *** Probes *)
Section Probes.
Context {N : num}.
Variable D : doc N.
Implicit Types (b : bundle N) (bs : list (bundle N)).
Lemma nth_lset {A} (l : list A) k x j : nth_error (lset l k x) j = if (j =? k) && (k <? length l) then Some x else nth_error l j.
Proof.
  revert k j. induction l as [|a l IH]; intros k j; cbn [lset length]; [rewrite andb_false_r; now destruct k|]. destruct k as [|k], j as [|j]; cbn [nth_error Nat.eqb andb]; try reflexivity.
  rewrite IH. destruct (j =? k); cbn [andb]; [|reflexivity]. replace (S k <? S (length l)) with (k <? length l); [reflexivity|]. destruct (Nat.ltb_spec k (length l)), (Nat.ltb_spec (S k) (S (length l))); (reflexivity || lia).
Qed.
Lemma lset_len {A} (l : list A) k x : length (lset l k x) = length l.
Proof. revert k. induction l as [|a l IH]; intros [|k]; cbn [lset length]; auto. Qed.
Lemma in_bundle_lset bs k b b' name j : nth_error bs k = Some b -> b_levels b' = b_levels b -> in_bundle (lset bs k b') name j <-> in_bundle bs name j.
Proof.
  intros Hk El. assert (Hl : k <? length bs = true) by (apply Nat.ltb_lt, nth_error_Some; congruence).
  assert (K : forall i (P : list (list (mtl N)) -> Prop), (exists c, nth_error (lset bs k b') i = Some c /\ P (b_levels c)) <-> (exists c, nth_error bs i = Some c /\ P (b_levels c))).
  { intros i P. rewrite nth_lset, Hl, andb_true_r. destruct (Nat.eqb_spec i k) as [->|_]; [|reflexivity]. split; intros (c & E & Pc); [injection E as <-; exists b; rewrite <- El; now split|rewrite Hk in E; injection E as <-; exists b'; rewrite El; now split]. }
  unfold in_bundle. split; intros [A B]; (split; [apply (K j (fun l => has_line name (concat l))); exact A|]); intros i c Hi Hc Hh.
  - destruct (proj2 (K i (fun l => has_line name (concat l)))) as (c' & E1 & E2); [exists c; now split|]. exact (B i c' Hi E1 E2).
  - destruct (proj1 (K i (fun l => has_line name (concat l)))) as (c' & E1 & E2); [exists c; now split|]. exact (B i c' Hi E1 E2).
Qed.
Lemma probed_lset bs k b b' p j q : nth_error bs k = Some b -> b_levels b' = b_levels b -> probed D (lset bs k b') p j q <-> probed D bs p j q.
Proof. intros Hk El. unfold probed. split; intros [(name & A & B) C]; (split; [|exact C]); exists name; (split; [exact A|]); eapply in_bundle_lset; eassumption. Qed.
Lemma probe_step bs d p r : add_probe_desc D (bs, d) p = Ok r -> exists k q b, probed D bs p k q /\ nth_error bs k = Some b /\
  r = (lset bs k (with_probes b [probe_new q (pb_type p) (k_dt (b_core b)) (b_u b)]), dset String.eqb (pb_name p) (k, length (b_probes b)) d).
Proof.
  unfold add_probe_desc. cbn [fst snd]. intros H. inv_bind H. inv_bind H. inv_bind H. inv_bind H. inv_bind H. inv_bind H. inv_bind H. apply OkI in H. subst r. apply py_get_Some in Ha1, Ha4. exists a0, a3, a4.
  assert (Ee : exists rest, pb_elems p = a1 :: rest) by (destruct (pb_elems p) as [|e rest]; [discriminate|]; cbn in Ha1; injection Ha1 as ->; now exists rest). destruct Ee as [rest Ee].
  split; [|split; [exact Ha4|]].
  - split; [|exists a1, rest; split; [exact Ee|]; eapply node_at; eassumption]. exists (cb_name a). split; [|now apply bundle_with_in]. unfold probed_cable. destruct (pb_cable p) as [name|].
    + unfold cable_named in Ha. apply of_option_Ok, firstS in Ha. destruct (first_P _ _ _ Ha) as [E I]. split; [exact E|]. exists a. now split.
    + inv_bind Ha. inv_bind Ha. inv_bind Ha. rewrite Ee in Ha6. cbn in Ha6. apply OkI in Ha6. subst a6. unfold getNodeCoordId in Ha7. apply of_option_Ok in Ha7. destruct (find _ (dc_nodes D)) as [[e c]|] eqn:E; [|discriminate]. cbn in Ha7. injection Ha7 as ->. apply (firstZ fst) in E. destruct (first_P _ _ _ E) as [X _]. cbn in X. subst e.
      unfold getLineElemIdFromCoordId in Ha8. apply of_option_Ok in Ha8. destruct (find _ (dc_lines D)) as [l|] eqn:El; [|discriminate]. cbn in Ha8. injection Ha8 as <-. unfold getCableWithElemId in Ha. apply of_option_Ok in Ha.
      exists a1, rest, a7, l, a. split; [exact Ee|]. split; [exact E|]. split; [revert El; apply find_first; intros; apply memZ_In|]. split; [revert Ha; apply find_first; intros; apply memZ_In|reflexivity].
  - unfold bundle_add_probe in Ha5. destruct (probe_on_cells _ _ _ _); [|discriminate]. apply OkI in Ha5. subst a5. reflexivity.
Qed.
Lemma sget_set {V} k (v : V) d x : dget String.eqb x (dset String.eqb k v d) = if String.eqb x k then Some v else dget String.eqb x d.
Proof.
  induction d as [|[k0 v0] d IH]; cbn [dset dget]; [reflexivity|]. destruct (String.eqb_spec k k0) as [->|Hk]; cbn [dget].
  - destruct (String.eqb x k0); reflexivity.
  - destruct (String.eqb_spec x k0) as [->|Hx]; [|exact IH]. destruct (String.eqb_spec k0 k); [congruence|reflexivity].
Qed.
Lemma probes_added ps : forall bs d r, foldM (add_probe_desc D) ps (bs, d) = Ok r -> exists ats, Forall2 (fun p kq => probed D bs p (fst kq) (snd kq)) ps ats /\
  length (fst r) = length bs /\
  (forall k b, nth_error bs k = Some b -> nth_error (fst r) k = Some (with_probes b (probes_on k b (combine ps ats)))) /\
  (forall i p k q b, nth_error ps i = Some p -> nth_error ats i = Some (k, q) -> (forall j p', i < j -> nth_error ps j = Some p' -> pb_name p' <> pb_name p) -> nth_error bs k = Some b ->
     dget String.eqb (pb_name p) (snd r) = Some (k, length (b_probes b) + length (probes_on k b (firstn i (combine ps ats))))) /\
  forall name, ~ In name (map pb_name ps) -> dget String.eqb name (snd r) = dget String.eqb name d.
Proof.
  induction ps as [|p ps IH]; intros bs d r H; cbn [foldM] in H.
  - apply OkI in H. subst r. exists []. cbn [fst snd combine map]. split; [constructor|]. split; [reflexivity|]. split; [|split; [|reflexivity]]. { intros k b E. rewrite E. f_equal. unfold with_probes, probes_on. cbn. rewrite app_nil_r. now destruct b. } intros i p k q b E. destruct i; discriminate.
  - inv_bind H. destruct (probe_step _ _ _ _ Ha) as (k & q & b & Pr & Hb & ->). clear Ha. set (b1 := with_probes b [probe_new q (pb_type p) (k_dt (b_core b)) (b_u b)]) in *.
    assert (Hl : k <? length bs = true) by (apply Nat.ltb_lt, nth_error_Some; congruence).
    destruct (IH _ _ _ H) as (ats & F & Len & Bun & Dic & Oth). exists ((k, q) :: ats). split; [constructor; [exact Pr|]|].
    { clear - F Hb. induction F as [|x y l l' Hxy F IHF]; constructor; [|exact IHF]. eapply probed_lset; [exact Hb| |exact Hxy]. reflexivity. }
    split; [rewrite Len; apply lset_len|].
    assert (Cur : forall k0 b0, nth_error bs k0 = Some b0 -> exists c, nth_error (lset bs k b1) k0 = Some c /\ b_core c = b_core b0 /\ b_u c = b_u b0 /\ b_probes c = b_probes b0 ++ probes_on k0 b0 [(p, (k, q))] /\ forall xs, with_probes c xs = with_probes b0 (probes_on k0 b0 [(p, (k, q))] ++ xs)).
    { intros k0 b0 E. rewrite nth_lset, Hl, andb_true_r. unfold probes_on. cbn [filter fst snd]. destruct (Nat.eqb_spec k0 k) as [->|Hk].
      - rewrite Hb in E. injection E as <-. exists b1. rewrite Nat.eqb_refl. cbn [map fst snd]. split; [reflexivity|]. split; [reflexivity|]. split; [reflexivity|]. split; [reflexivity|]. intros xs. unfold with_probes, b1, with_probes, b_set. cbn [b_name b_u b_du b_core b_levels b_cil b_probes]. now rewrite <- app_assoc.
      - exists b0. destruct (Nat.eqb_spec k k0) as [->|_]; [now destruct Hk|]. cbn [map app]. rewrite app_nil_r. split; [exact E|]. now repeat split. }
    assert (PO : forall k0 b0 c l, b_core c = b_core b0 -> b_u c = b_u b0 -> probes_on k0 c l = probes_on k0 b0 l) by (intros k0 b0 c l E1 E2; unfold probes_on; now rewrite E1, E2).
    assert (PA : forall k0 b0 l l', probes_on k0 b0 (l ++ l') = probes_on k0 b0 l ++ probes_on k0 b0 l'). { intros. unfold probes_on. rewrite filter_app, map_app. reflexivity. }
    split; [|split].
    + intros k0 b0 E. destruct (Cur _ _ E) as (c & Ec & E1 & E2 & _ & W). rewrite (Bun _ _ Ec), W, (PO _ _ _ _ E1 E2). cbn [combine]. now rewrite <- PA.
    + intros i p' k0 q' b0 Ei Ea Nl E. destruct (Cur _ _ E) as (c & Ec & E1 & E2 & E3 & _). destruct i as [|i]; cbn [nth_error] in Ei, Ea.
      * injection Ei as <-. injection Ea as <- <-. rewrite Hb in E. injection E as <-. rewrite Oth, sget_set, String.eqb_refl; [cbn; now rewrite Nat.add_0_r|]. intros I. apply in_map_iff in I as (p' & En & I). apply In_nth_error in I as [j Ej]. apply (Nl (S j) p'); [lia|exact Ej|exact En].
      * rewrite (Dic i p' k0 q' c Ei Ea); [|intros j p'' Hj Hp; apply (Nl (S j) p''); [lia|exact Hp]|exact Ec]. cbn [combine firstn]. f_equal. f_equal. rewrite E3, app_length, (PO _ _ _ _ E1 E2), (PA k0 b0 [(p, (k, q))] (firstn i (combine ps ats)) : probes_on k0 b0 ((p, (k, q)) :: firstn i (combine ps ats)) = _), app_length. lia.
    + intros name Hn. cbn [map In] in Hn. rewrite Oth by tauto. rewrite sget_set. destruct (String.eqb_spec name (pb_name p)) as [->|_]; [exfalso; tauto|reflexivity].
Qed.
End Probes.

(** *** Couplings and bundles *)
Section Bundles.
Context {N : num}.
Variable LA : lapack N.
Variables ju jdu : nat -> vec N.
Variable so : list string -> list string.
Variable D : doc N.
Hypothesis SO : set_listing so.
Implicit Types (b : bundle N).
Lemma edge_numbers g b ed lo co li ci : build_levels LA ju jdu so D g = Ok (b_levels b) -> edge_args D g (b_levels b) ed = Ok (lo, co, li, ci) ->
  exists v w, nth_error (g_vs g) (fst (fst ed)) = Some v /\ nth_error (g_vs g) (snd (fst ed)) = Some w /\ lo = v_level v /\ li = v_level w /\ numbered D (b_levels b) v co /\ numbered D (b_levels b) w ci.
Proof.
  intros HL H. destruct ed as [[i j] z]. unfold edge_args in H. inv_bind H. inv_bind H. inv_bind H. inv_bind H. injection H as <- <- <- <-. apply py_get_Some in Ha, Ha0. exists a, a0. cbn [fst snd]. repeat (split; [assumption || reflexivity|]).
  split; [exact (number_row LA ju jdu so D _ _ _ _ SO HL (nth_error_In _ _ Ha) Ha1)|exact (number_row LA ju jdu so D _ _ _ _ SO HL (nth_error_In _ _ Ha0) Ha2)].
Qed.
Lemma edges_coupled g es : forall b b', build_levels LA ju jdu so D g = Ok (b_levels b) -> foldM (set_edge D g) es b = Ok b' -> coupled D g es b b' /\ b_levels b' = b_levels b.
Proof.
  induction es as [|ed es IH]; intros b b' HL H; cbn [foldM] in H; [apply OkI in H; subst; split; [constructor|reflexivity]|]. inv_bind H. pose proof (set_edge_refines LA D _ _ _ _ Ha) as (EL & _ & _). rewrite <- EL in HL. destruct (IH _ _ HL H) as [C E]. rewrite EL in HL. split; [|congruence].
  unfold set_edge in Ha. inv_bind Ha. destruct a0 as [[[lo co] li] ci]. destruct (edge_numbers _ _ _ _ _ _ _ HL Ha0) as (v & w & V & W & -> & -> & Nv & Nw). destruct ed as [[i j] z]. cbn [fst snd] in *. destruct z as [z|]; [|destruct (adjacent _ _); discriminate]. eapply coupled_edge; eassumption.
Qed.
Lemma end_closed g e x far es : forall b b', build_levels LA ju jdu so D g = Ok (b_levels b) -> (forall i j z, In (i, j, z) es -> exists v, nth_error (g_vs g) i = Some v) ->
  foldM (fun b ed => conn <- connector_with D (ce_mat e) ;; z <- of_option KeyError (cm_Zt conn) ;; a <- edge_args D g (b_levels b) ed ;; let '(lo, co, li, ci) := a in
      set_connector_transfer_impedance b (if far : bool then "end"%string else "initial"%string) lo [co] li [ci] z)
    (filter (fun ed => match nth_error (g_vs g) (fst (fst ed)) with Some v => (v_name v =? x)%Z | None => false end) es) b = Ok b' ->
  closed D g e x far es b b' /\ b_levels b' = b_levels b.
Proof.
  induction es as [|ed es IH]; intros b b' HL Vs H; cbn [filter foldM] in H; [apply OkI in H; subst; split; [constructor|reflexivity]|]. destruct ed as [[i j] z]. cbn [fst] in H. destruct (Vs i j z (or_introl eq_refl)) as [v V]. rewrite V in H.
  assert (Vs' : forall i j z, In (i, j, z) es -> exists v, nth_error (g_vs g) i = Some v) by (intros; eapply Vs; right; eassumption). destruct (Z.eqb_spec (v_name v) x) as [E|E].
  - cbn [foldM] in H. inv_bind H. inv_bind Ha. inv_bind Ha. inv_bind Ha. destruct a2 as [[[lo co] li] ci]. destruct (edge_numbers _ _ _ _ _ _ _ HL Ha2) as (v' & w & V' & W & -> & -> & Nv & Nw). cbn [fst snd] in *. assert (v' = v) by congruence. subst v'.
    pose proof (connector_refines LA _ _ _ _ _ _ _ _ Ha) as (EL & _ & _). rewrite <- EL in HL. destruct (IH _ _ HL Vs' H) as [C E']. split; [|congruence].
    unfold connector_with in Ha0. apply of_option_Ok in Ha0, Ha1. eapply closed_edge; [exact V|exact E|exact W|exact Nv|exact Nw| |exact Ha1|exact Ha|exact C]. unfold end_material. revert Ha0. apply (firstZ (@cm_id N)).
  - destruct (IH _ _ HL Vs' H) as [C E']. split; [|exact E']. eapply closed_other; eassumption.
Qed.
Lemma ends_closed g es : forall b b', build_levels LA ju jdu so D g = Ok (b_levels b) -> (forall i j z, In (i, j, z) (g_es g) -> exists v, nth_error (g_vs g) i = Some v) ->
  foldM (set_end D g) es b = Ok b' -> all_closed D g es b b' /\ b_levels b' = b_levels b.
Proof.
  induction es as [|e es IH]; intros b b' HL Vs H; cbn [foldM] in H; [apply OkI in H; subst; split; [constructor|reflexivity]|]. inv_bind H. unfold set_end in Ha. inv_bind Ha. inv_bind Ha. destruct a1 as [x far]. cbn [fst snd] in Ha. destruct (end_closed g e x far _ _ _ HL Vs Ha) as [C E]. rewrite <- E in HL. destruct (IH _ _ HL Vs H) as [C' E']. split; [|congruence].
  eapply all_closed_end; [|exact C|exact C']. apply element_ends in Ha1. destruct (ce_coords e) as [|c rest] eqn:Ec; [discriminate|]. cbn in Ha0. apply OkI in Ha0. subst a0. exists rest. split; [exact Ec|exact Ha1].
Qed.
Lemma edge_sources t g i j z : buildGraphFromConnections D t = Ok g -> In (i, j, z) (g_es g) -> exists v, nth_error (g_vs g) i = Some v.
Proof.
  intros H I. destruct (build_grows _ _ _ H) as (nv & ne & A1 & A2 & A3 & A4 & A5). cbn [g_vs g_es app] in A1, A4. subst nv ne. destruct (F2_In_l _ _ _ _ A5 I) as ([x' y'] & I' & (v' & V1 & V2) & _). cbn [fst snd] in *. now exists v'.
Qed.
Lemma levels_lines g levels : NoDup (map cb_name (dc_cables D)) -> build_levels LA ju jdu so D g = Ok levels -> forall d ls, nth_error levels d = Some ls -> Forall (fun m => line_of_cable LA D ju jdu (m_name m) m) ls.
Proof.
  intros ND H d ls E. unfold build_levels in H. inv_bind H. assert (Hl : d < length levels) by (apply nth_error_Some; congruence). pose proof (mapM_length _ _ _ H) as EL. rewrite seq_length in EL. pose proof (mapM_seq _ _ _ d [] H ltac:(lia)) as M. rewrite (nth_error_nth _ _ _ E) in M. apply mapM_F2 in M.
  clear - M ND. induction M as [|n m names ls E _ IH]; constructor; [|exact IH]. destruct (build_line_spec _ _ _ _ _ _ E) as [-> _]. now apply build_line_call.
Qed.
Lemma bundle_built bd st st' : NoDup (map cb_name (dc_cables D)) -> build_one LA ju jdu so D st bd = Ok st' -> exists b, bt_bundles st' = bt_bundles st ++ [b] /\ bundle_of LA D ju jdu bd b.
Proof.
  intros ND H. unfold build_one in H. inv_bind H. inv_bind H. inv_bind H. inv_bind H. apply OkI in H. subst st'. cbn [bt_bundles]. exists a2. split; [reflexivity|]. destruct (mtld_levels _ _ _ Ha1) as [EL _]. unfold setBundleTransferImpedance in Ha2. inv_bind Ha2. rewrite <- EL in Ha0. destruct (edges_coupled _ _ _ _ Ha0 Ha3) as [C E]. rewrite <- E in Ha0.
  destruct (ends_closed _ _ _ _ Ha0 (fun i j z => edge_sources _ _ i j z Ha) Ha2) as [C' _]. exists a, a1, a3. split; [exact Ha|]. split; [rewrite EL; exact Ha1|]. rewrite E in Ha0. destruct (levels_spec _ _ _ _ _ _ _ Ha0) as (_ & HN & HB). destruct (graph_spec _ _ _ Ha) as (GV & GC & _).
  split; [|split; [|split; assumption]].
  - intros d x L. apply GV in L as (v & I & <- & <-). now apply HB.
  - intros d ls E1. rewrite (HN _ _ E1). split; [apply SO|]. split; [exact (levels_lines _ _ ND Ha0 _ _ E1)|]. intros name. rewrite (proj2 (SO _)). unfold names_at. rewrite in_map_iff. split.
    + intros (v & <- & I). apply filter_In in I as [I L]. apply Nat.eqb_eq in L. exists (v_name v). split; [apply GV; now exists v|now apply GC].
    + intros (x & L & Cx). apply GV in L as (v & I & <- & L). exists v. split; [|apply filter_In; split; [exact I|now apply Nat.eqb_eq]]. apply GC in I. apply name_of_cable in I, Cx. congruence.
Qed.
Lemma bundles_built st : NoDup (map cb_name (dc_cables D)) -> buildBundles LA ju jdu so D = Ok st -> Forall2 (bundle_of LA D ju jdu) (dc_bundles D) (bt_bundles st).
Proof.
  intros ND. unfold buildBundles. assert (G : forall l s s', foldM (build_one LA ju jdu so D) l s = Ok s' -> exists bs, bt_bundles s' = bt_bundles s ++ bs /\ Forall2 (bundle_of LA D ju jdu) l bs).
  { induction l as [|bd l IH]; intros s s' H; cbn [foldM] in H; [apply OkI in H; subst; exists []; split; [now rewrite app_nil_r|constructor]|]. inv_bind H. destruct (bundle_built _ _ _ ND Ha) as (b & E & B). destruct (IH _ _ H) as (bs & E' & F). exists (b :: bs). split; [rewrite E', E, <- app_assoc; reflexivity|now constructor]. }
  intros H. destruct (G _ _ _ H) as (bs & E & F). cbn [bt_bundles app] in E. now subst bs.
Qed.
End Bundles.
