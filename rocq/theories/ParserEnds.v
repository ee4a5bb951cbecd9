(** What the transfer impedances of cable ends do to a bundle. *)
From Coq Require Import String List Arith ZArith Lia Bool.
From Verif Require Import Num Py Arr ArrFacts Utils Probes Dispersive Line Bundle Networks Mtln SpecLine SpecBundle SpecField SpecDisp
  CoreEq BundleFacts BundleMore DispProps FieldFacts Parser SpecParser SpecDoc ParserFacts ParserBuild ParserNets ParserMore ParserLines.
Import ListNotations.

Section Ends.
Context {N : num}.
Variable LA : lapack N.
Variable D : doc N.
Implicit Types (b : bundle N).

Lemma only_refl b : only_coefficients b b.
Proof. exists (b_disp b). split; [|now repeat split]. destruct b as [nm u du s lv ci ps]. unfold b_set_core, b_set, b_disp. cbn. f_equal. now destruct s. Qed.
Lemma only_trans b b1 b2 : only_coefficients b b1 -> only_coefficients b1 b2 -> only_coefficients b b2.
Proof.
  intros (d1 & -> & A1 & A2 & A3) (d2 & -> & B1 & B2 & B3). exists d2. split; [reflexivity|]. cbn in B1, B2, B3. repeat split; congruence.
Qed.
Lemma only_facts b b1 : only_coefficients b b1 -> b_levels b1 = b_levels b /\ b_cells b1 = b_cells b /\ ds_dt (b_disp b1) = ds_dt (b_disp b).
Proof. intros (d & -> & _ & _ & E). repeat split. exact E. Qed.
Lemma same_refl (s : disp N) k i j : same_entry s s k i j. Proof. now repeat split. Qed.
Lemma same_trans (s s1 s2 : disp N) k i j : same_entry s s1 k i j -> same_entry s1 s2 k i j -> same_entry s s2 k i j.
Proof. unfold same_entry. intros (A1 & A2 & A3 & A4 & A5) (B1 & B2 & B3 & B4 & B5). repeat split; congruence. Qed.
Lemma replaced_same m (s s1 s2 : disp N) k i j : replaced m s s1 k i j -> same_entry s1 s2 k i j -> replaced m s s2 k i j.
Proof.
  unfold replaced, same_entry. cbv zeta. intros (A1 & A2 & A3 & A4) (B1 & B2 & B3 & B4 & B5). rewrite B1, B2, B3, B4, B5. exact (conj A1 (conj A2 (conj A3 A4))).
Qed.
Lemma same_replaced m (s s1 s2 : disp N) k i j : ds_dt s1 = ds_dt s -> same_entry s s1 k i j -> replaced m s1 s2 k i j -> replaced m s s2 k i j.
Proof.
  unfold replaced, same_entry. cbv zeta. intros Hd (B1 & B2 & B3 & B4 & B5) (A1 & A2 & A3 & A4). rewrite <- B3, <- B4, <- B5, <- Hd. exact (conj A1 (conj A2 (conj A3 A4))).
Qed.
Lemma replaced_twice m (s s1 s2 : disp N) k i j : ds_dt s1 = ds_dt s -> replaced m s s1 k i j -> replaced m s1 s2 k i j -> replaced m s s2 k i j.
Proof.
  unfold replaced. cbv zeta. intros Hd (B1 & B2 & B3 & B4) (A1 & A2 & A3 & A4). rewrite <- Hd. split; [exact A1|]. split; [exact A2|]. split; [|exact A4]. intros Hn. destruct (A3 Hn) as (X1 & X2 & X3), (B3 Hn) as (Y1 & Y2 & Y3). repeat split; congruence.
Qed.

(** entry (r, c) of a coupling between rows ro (outer) and ri (inner) *)
Lemma closed_effect g e x far es b b' conn zt : closed D g e x far es b b' -> reachable_bundle LA b -> (0 < b_cells b)%nat ->
  end_material D e conn -> cm_Zt conn = Some zt -> rm_direction zt = "in"%string \/ rm_direction zt = "out"%string -> active zt ->
  exists rows : list (nat * nat),
    (forall i j z v, In (i, j, z) es -> nth_error (g_vs g) i = Some v -> v_name v = x -> exists w ro ri, nth_error (g_vs g) j = Some w /\ In (ro, ri) rows /\ element_row D (b_levels b) v ro /\ element_row D (b_levels b) w ri) /\
    (forall ro ri, In (ro, ri) rows -> exists i j z v w, In (i, j, z) es /\ nth_error (g_vs g) i = Some v /\ nth_error (g_vs g) j = Some w /\ v_name v = x /\ element_row D (b_levels b) v ro /\ element_row D (b_levels b) w ri) /\
    only_coefficients b b' /\
    forall k r c, let here := k = (if far then b_cells b - 1 else 0)%nat /\ ((rm_direction zt = "in"%string /\ In (c, r) rows) \/ (rm_direction zt = "out"%string /\ In (r, c) rows)) in
      (here -> replaced zt (b_disp b) (b_disp b') k r c) /\ (~ here -> same_entry (b_disp b) (b_disp b') k r c).
Proof.
  intros H R Hc M Z Hd Ha. induction H as [b|i j z v es b b' V Nx _ IH|i j z v w co ci conn' zt' es b b1 b' V Ev W Nv Nw M' Z' Hs _ IH].
  - exists []. split; [intros ? ? ? ? []|]. split; [intros ? ? []|]. split; [apply only_refl|]. intros k r c here. split; [intros (_ & [[_ []]|[_ []]])|intros _; apply same_refl].
  - destruct (IH R Hc) as (rows & A & B & C & E). exists rows. split; [|split; [|split; [exact C|exact E]]].
    + intros i' j' z' v' [X|I] V' E'; [injection X as <- <- <-; rewrite V in V'; injection V' as <-; contradiction|]. eapply A; eassumption.
    + intros ro ri I. destruct (B ro ri I) as (i' & j' & z' & v' & w' & I' & X). exists i', j', z', v', w'. split; [now right|exact X].
  - assert (conn' = conn) by (apply (firstZ (@cm_id N)) in M, M'; congruence). subst conn'. assert (zt' = zt) by congruence. subst zt'.
    destruct (connector_exact LA b _ _ _ _ _ _ _ R Hc Hs Hd Ha) as (_ & _ & _ & Oc & Ex). destruct (only_facts _ _ Oc) as (EL & EN & Ed).
    assert (R1 : reachable_bundle LA b1). { destruct R as [b0 Hb]. exists b0. destruct (connector_refines LA _ _ _ _ _ _ _ _ Hs) as (_ & _ & T). now apply T. }
    destruct (IH R1 ltac:(rewrite EN; exact Hc)) as (rows & A & B & C & E). rewrite EL in A, B. rewrite EN in E. set (ro := (level_offset b (v_level v) + co)%nat). set (ri := (level_offset b (v_level w) + ci)%nat). change (element_row D (b_levels b) v ro) in Nv. change (element_row D (b_levels b) w ri) in Nw.
    exists ((ro, ri) :: rows). split; [|split; [|split; [eapply only_trans; eassumption|]]].
    + intros i' j' z' v' [X|I] V' E'; [injection X as <- <- <-; rewrite V in V'; injection V' as <-; exists w, ro, ri; split; [exact W|]; split; [now left|now split]|]. destruct (A i' j' z' v' I V' E') as (w' & ro' & ri' & X1 & X2 & X3). exists w', ro', ri'. split; [exact X1|]. split; [now right|exact X3].
    + intros ro' ri' [X|I]; [injection X as <- <-; exists i, j, z, v, w; split; [now left|now repeat split]|]. destruct (B ro' ri' I) as (i' & j' & z' & v' & w' & I' & X). exists i', j', z', v', w'. split; [now right|exact X].
    + intros k r c. cbv zeta. destruct (Ex k r c) as [E1 E2]. destruct (E k r c) as [F1 F2]. cbv zeta in E1, E2, F1, F2.
      set (k0 := (if String.eqb (if far then "end" else "initial") "initial" then 0 else b_cells b - 1)%nat) in *. assert (Ek : k0 = (if far then b_cells b - 1 else 0)%nat) by (unfold k0; now destruct far). rewrite Ek in *. clear k0 Ek. set (k0 := (if far then b_cells b - 1 else 0)%nat) in *.
      assert (CP : couples b (rm_direction zt) (v_level v) [co] (v_level w) [ci] r c <-> (rm_direction zt = "in"%string /\ (c, r) = (ro, ri)) \/ (rm_direction zt = "out"%string /\ (r, c) = (ro, ri))).
      { unfold couples. split; [intros (co' & ci' & [<-|[]] & [<-|[]] & [(X & -> & ->)|(X & -> & ->)]); [left|right]; now split|]. intros [[X Y]|[X Y]]; injection Y as -> ->; exists co, ci; (split; [now left|]); (split; [now left|]); [left|right]; now repeat split. }
      assert (Dec : forall p q : nat * nat, {p = q} + {p <> q}) by (intros; repeat decide equality).
      assert (D1 : (k = k0 /\ couples b (rm_direction zt) (v_level v) [co] (v_level w) [ci] r c) \/ ~ (k = k0 /\ couples b (rm_direction zt) (v_level v) [co] (v_level w) [ci] r c)).
      { destruct (Nat.eq_dec k k0) as [->|?]; [|right; tauto]. destruct (string_dec (rm_direction zt) "in"), (string_dec (rm_direction zt) "out"), (Dec (c, r) (ro, ri)), (Dec (r, c) (ro, ri)); rewrite CP; tauto. }
      assert (D2 : (k = k0 /\ ((rm_direction zt = "in"%string /\ In (c, r) rows) \/ (rm_direction zt = "out"%string /\ In (r, c) rows))) \/ ~ (k = k0 /\ ((rm_direction zt = "in"%string /\ In (c, r) rows) \/ (rm_direction zt = "out"%string /\ In (r, c) rows)))).
      { destruct (Nat.eq_dec k k0) as [->|?]; [|right; tauto]. destruct (string_dec (rm_direction zt) "in"), (string_dec (rm_direction zt) "out"), (in_dec Dec (c, r) rows), (in_dec Dec (r, c) rows); tauto. }
      assert (HH : (k = k0 /\ ((rm_direction zt = "in"%string /\ In (c, r) ((ro, ri) :: rows)) \/ (rm_direction zt = "out"%string /\ In (r, c) ((ro, ri) :: rows)))) <->
        ((k = k0 /\ couples b (rm_direction zt) (v_level v) [co] (v_level w) [ci] r c) \/ (k = k0 /\ ((rm_direction zt = "in"%string /\ In (c, r) rows) \/ (rm_direction zt = "out"%string /\ In (r, c) rows))))).
      { rewrite CP. cbn [In]. intuition congruence. }
      rewrite HH. split; intros X.
      * destruct D1 as [D1|D1], D2 as [D2|D2].
        -- eapply replaced_twice; [exact Ed|apply E1; exact D1|apply F1; exact D2].
        -- eapply replaced_same; [apply E1; exact D1|apply F2; exact D2].
        -- eapply same_replaced; [exact Ed|apply E2; exact D1|apply F1; exact D2].
        -- tauto.
      * eapply same_trans; [apply E2|apply F2]; tauto.
Qed.
End Ends.

Section Driven.
Context {N : num}.
Variable LA : lapack N.
Variable D : doc N.
Implicit Types (b : bundle N) (bs : list (bundle N)).

Definition still_made b b' := b_levels b' = b_levels b /\ b_conductors b' = b_conductors b /\ b_cells b' = b_cells b /\ k_eL (b_core b') = k_eL (b_core b).
Lemma arrays_still b b' : still_made b b' -> field_arrays b -> field_arrays b'.
Proof. unfold still_made, field_arrays. intros (_ & E1 & E2 & E3). rewrite E1, E2, E3. exact (fun x => x). Qed.
Lemma coupled_still g es b b' : coupled D g es b b' -> still_made b b'.
Proof.
  induction 1 as [b|i j z v w co ci es b b1 b' _ _ _ _ H _ (E1 & E2 & E3 & E4)]; [now repeat split|]. unfold bundle_add_transfer_impedance in H. inv_bind H. apply OkI in H. subst b1. now repeat split.
Qed.
Lemma closed_still g e x far es b b' : closed D g e x far es b b' -> still_made b b'.
Proof.
  induction 1 as [b|i j z v es b b' V Nx _ IH|i j z v w co ci conn' zt' es b b1 b' V Ev W Nv Nw M' Z' H _ (E1 & E2 & E3 & E4)]; [now repeat split|exact IH|]. unfold set_connector_transfer_impedance in H. inv_bind H. inv_bind H. apply OkI in H. subst b1. now repeat split.
Qed.
Lemma all_closed_still g es b b' : all_closed D g es b b' -> still_made b b'.
Proof.
  induction 1 as [b|e es c x far b b1 b' _ H _ (E1 & E2 & E3 & E4)]; [now repeat split|]. destruct (closed_still _ _ _ _ _ _ _ H) as (F1 & F2 & F3 & F4). repeat split; congruence.
Qed.
Lemma bundle_of_still ju jdu bd b : bundle_of LA D ju jdu bd b -> exists b0, mtld_new (b_levels b0) (fst bd) = Ok b0 /\ still_made b0 b.
Proof.
  intros (g & b0 & b1 & _ & H & _ & _ & C & A). exists b0. split; [exact H|]. destruct (coupled_still _ _ _ _ C) as (E1 & E2 & E3 & E4), (all_closed_still _ _ _ _ A) as (F1 & F2 & F3 & F4). repeat split; congruence.
Qed.
Lemma bundle_of_arrays ju jdu bd b : bundle_of LA D ju jdu bd b -> field_arrays b /\ forall i k t, field_at b i k t = n0.
Proof.
  intros H. destruct (bundle_of_still _ _ _ _ H) as (b0 & H0 & S). assert (X : field_arrays b0 /\ k_eL (b_core b0) = mk2 (b_conductors b0) (b_cells b0) (fun _ _ _ => n0)).
  { unfold mtld_new in H0. destruct (b_levels b0) as [|[|outer [|]] rest]; try discriminate. inv_bind H0. injection H0 as <-. unfold field_arrays, b_conductors, b_cells. cbn [b_core k_n k_N k_eL]. split; [|reflexivity]. split; [unfold mk2; now rewrite length_mk|]. intros c Hc. unfold mk2. rewrite nth_mk by exact Hc. now rewrite length_mk. }
  destruct X as [A E]. split; [eapply arrays_still; eassumption|]. destruct S as (_ & _ & _ & ES). intros i k t. unfold field_at. rewrite ES, E. destruct (Nat.ltb_spec i (b_conductors b0)) as [Hi|Hi].
  - unfold mk2. rewrite nth_mk by exact Hi. destruct (Nat.ltb_spec k (b_cells b0)) as [Hk|Hk]; [now rewrite nth_mk|]. rewrite nth_overflow by (rewrite length_mk; exact Hk). reflexivity.
  - rewrite (nth_overflow (mk2 _ _ _)) by (unfold mk2; rewrite length_mk; exact Hi). now destruct k.
Qed.

Lemma drives_lset bs k b b' s d : nth_error bs k = Some b -> b_levels b' = b_levels b -> drives_field D (lset bs k b') s d <-> drives_field D bs s d.
Proof.
  intros Hb EL. unfold drives_field. split; intros ((cb & C & I) & R); (split; [|exact R]); exists cb; (split; [exact C|]); eapply in_bundle_lset; eassumption.
Qed.
(** what the distributed sources leave alone *)
Lemma driven_rows ss bs bs' : driven D ss bs bs' -> Forall field_arrays bs -> Forall field_arrays bs' /\ length bs' = length bs /\
  forall k b, nth_error bs k = Some b -> exists b' eL, nth_error bs' k = Some b' /\ b' = b_set_core b (set_fields (b_core b) eL (k_eT (b_core b))) /\
    forall i c, (forall s d, In s ss -> distributed s -> drives_field D bs s d -> dr_bundle d = k -> dr_cond d <> i) -> field_at b' i c = field_at b i c.
Proof.
  induction 1 as [bs|s ss bs bs' Hs _ IH|s ss d f b b1 bs bs' Hs Hd Hf Hb Ha _ IH]; intros FA.
  - split; [exact FA|]. split; [reflexivity|]. intros k b E. exists b, (k_eL (b_core b)). split; [exact E|]. split; [|reflexivity]. destruct b as [a1 a2 a3 s a5 a6 a7]. unfold b_set_core, b_set. cbn. f_equal. now destruct s.
  - destruct (IH FA) as (A & L & B). split; [exact A|]. split; [exact L|]. intros k b E. destruct (B k b E) as (b' & eL & E1 & E2 & F). exists b', eL. split; [exact E1|]. split; [exact E2|]. intros i c H. apply F. intros s' d I. apply H. now right.
  - pose proof FA as FA0. rewrite Forall_forall in FA0. destruct (field_frame _ _ _ _ _ _ _ Ha (FA0 b (nth_error_In _ _ Hb))) as (A1 & (eL1 & E1) & F1 & _).
    assert (EL : b_levels b1 = b_levels b) by (rewrite E1; reflexivity).
    assert (FA1 : Forall field_arrays (lset bs (dr_bundle d) b1)). { apply Forall_forall. intros x I. apply In_nth_error in I as [j Ej]. rewrite nth_lset in Ej. destruct (_ && _)%bool; [injection Ej as <-; exact A1|]. apply FA0. eapply nth_error_In. exact Ej. }
    destruct (IH FA1) as (A & L & B). split; [exact A|]. split; [rewrite L; apply lset_len|]. intros k b0 E.
    assert (X : exists b2 eL2, nth_error (lset bs (dr_bundle d) b1) k = Some b2 /\ b2 = b_set_core b0 (set_fields (b_core b0) eL2 (k_eT (b_core b0))) /\ forall i c, (dr_bundle d = k -> dr_cond d <> i) -> field_at b2 i c = field_at b0 i c).
    { rewrite nth_lset. destruct (Nat.eqb_spec k (dr_bundle d)) as [->|Hk]; cbn [andb].
      - assert (Hl : (dr_bundle d <? length bs)%nat = true) by (apply Nat.ltb_lt, nth_error_Some; congruence). rewrite Hl. rewrite Hb in E. injection E as <-. exists b1, eL1. split; [reflexivity|]. split; [exact E1|]. intros i c Hi. apply F1. intros ->. now apply Hi.
      - exists b0, (k_eL (b_core b0)). split; [exact E|]. split; [|reflexivity]. destruct b0 as [a1 a2 a3 s0 a5 a6 a7]. unfold b_set_core, b_set. cbn. f_equal. now destruct s0. }
    destruct X as (b2 & eL2 & X1 & X2 & X3). destruct (B k b2 X1) as (b' & eL & Y1 & Y2 & Y3). exists b', eL. split; [exact Y1|]. split; [rewrite Y2, X2; reflexivity|]. intros i c H. rewrite Y3, X3; [reflexivity| |].
    + intros E'. apply (H s d); auto. now left.
    + intros s' d' I Di Dr. apply (H s' d' (or_intror I) Di). eapply drives_lset; [exact Hb|exact EL|exact Dr].
Qed.

(** the parsed document *)
Lemma parsed_document ju jdu so p : set_listing so -> NoDup (map cb_name (dc_cables D)) -> parse LA ju jdu so D = Ok p -> exists bs0 bs1 ats,
  Forall2 (bundle_of LA D ju jdu) (dc_bundles D) bs0 /\ driven D (dc_sources D) bs0 bs1 /\ Forall2 (fun q kx => probed D bs1 q (fst kx) (snd kx)) (dc_probes D) ats /\
  length (ps_bundles p) = length bs1 /\
  (forall k b, nth_error bs1 k = Some b -> nth_error (ps_bundles p) k = Some (with_probes b (probes_on k b (combine (dc_probes D) ats)))) /\
  (forall i q k x, nth_error (dc_probes D) i = Some q -> nth_error ats i = Some (k, x) -> (forall j q', (i < j)%nat -> nth_error (dc_probes D) j = Some q' -> pb_name q' <> pb_name q) ->
     forall b, nth_error bs1 k = Some b -> dget String.eqb (pb_name q) (ps_probes p) = Some (k, (length (b_probes b) + length (probes_on k b (firstn i (combine (dc_probes D) ats))))%nat)).
Proof.
  intros SO ND H. unfold parse in H. inv_bind H. inv_bind H. inv_bind H. inv_bind H. inv_bind H. apply OkI in H. subst p. cbn [ps_bundles ps_probes]. exists (bt_bundles a), a0.
  destruct (probes_added D _ _ _ _ Ha1) as (ats & P1 & P2 & P3 & P4 & P5). exists ats. split; [eapply bundles_built; eassumption|]. split; [now apply sources_driven|]. split; [exact P1|]. split; [exact P2|]. split; [exact P3|]. intros i q k x E1 E2 E3 b E4. eapply P4; eassumption.
Qed.

Lemma in_bundle_levels bs bs' name k : length bs' = length bs -> (forall j b b', nth_error bs j = Some b -> nth_error bs' j = Some b' -> b_levels b' = b_levels b) -> in_bundle bs name k -> in_bundle bs' name k.
Proof.
  intros L E ((b & B1 & B2) & B3). split.
  - destruct (nth_error bs' k) as [b'|] eqn:X; [exists b'; split; [reflexivity|]; now rewrite (E _ _ _ B1 X)|]. apply nth_error_None in X. assert (nth_error bs k <> None) by congruence. apply nth_error_Some in H. lia.
  - intros j b' Hj Hb'. destruct (nth_error bs j) as [b0|] eqn:X; [rewrite (E _ _ _ X Hb'); now apply (B3 j)|]. apply nth_error_None in X. assert (nth_error bs' j <> None) by congruence. apply nth_error_Some in H. lia.
Qed.
Lemma filter_at {A} (f : A -> bool) (l : list A) : forall i x, nth_error l i = Some x -> f x = true -> nth_error (filter f l) (length (filter f (firstn i l))) = Some x.
Proof.
  induction l as [|a l IH]; intros [|i] x E F; try discriminate; cbn [nth_error] in E.
  - injection E as ->. cbn. now rewrite F.
  - cbn [firstn filter]. destruct (f a) eqn:Fa; cbn [length nth_error]; now apply IH.
Qed.
Lemma combine_at {A B} (l : list A) (l' : list B) : forall i x y, nth_error l i = Some x -> nth_error l' i = Some y -> nth_error (combine l l') i = Some (x, y).
Proof. revert l'. induction l as [|a l IH]; intros [|b l'] [|i] x y E F; try discriminate; cbn in *; [congruence|now apply IH]. Qed.
Lemma probe_found ju jdu so p i q : parse LA ju jdu so D = Ok p -> nth_error (dc_probes D) i = Some q ->
  (forall j q', (i < j)%nat -> nth_error (dc_probes D) j = Some q' -> pb_name q' <> pb_name q) ->
  exists k x b idx, probed D (ps_bundles p) q k x /\ nth_error (ps_bundles p) k = Some b /\ dget String.eqb (pb_name q) (ps_probes p) = Some (k, idx) /\
    nth_error (b_probes b) idx = Some (probe_new x (pb_type q) (k_dt (b_core b)) (b_u b)).
Proof.
  intros H Hq Hl. unfold parse in H. inv_bind H. inv_bind H. inv_bind H. inv_bind H. inv_bind H. apply OkI in H. subst p. cbn [ps_bundles ps_probes].
  destruct (probes_added D _ _ _ _ Ha1) as (ats & P1 & P2 & P3 & P4 & _). assert (At : exists kx, nth_error ats i = Some kx /\ probed D a0 q (fst kx) (snd kx)).
  { clear - P1 Hq. revert i Hq. induction P1 as [|x y l l' R _ IH]; intros [|i] Hq; try discriminate; cbn [nth_error] in *; [injection Hq as ->; now exists y|now apply IH]. }
  destruct At as ([k x] & Ek & Pr). cbn [fst snd] in Pr. pose proof Pr as [(name & _ & (b & Hb & _) & _) _]. exists k, x. eexists. eexists. split; [|split; [apply P3; exact Hb|split; [eapply P4; eassumption|]]].
  - destruct Pr as [(name' & C & I) R]. split; [|exact R]. exists name'. split; [exact C|]. eapply in_bundle_levels; [exact P2| |exact I]. intros j c c' E E'. rewrite (P3 _ _ E) in E'. injection E' as <-. reflexivity.
  - unfold with_probes. cbn [b_probes b_core b_u b_set]. rewrite nth_error_app2 by lia. replace (length (b_probes b) + _ - _)%nat with (length (probes_on k b (firstn i (combine (dc_probes D) ats)))) by lia.
    unfold probes_on. rewrite map_length. erewrite map_nth_error; [|eapply filter_at; [apply combine_at; eassumption|apply Nat.eqb_refl]]. reflexivity.
Qed.
Lemma driven_still ss bs bs' : driven D ss bs bs' -> length bs' = length bs /\ forall k b b', nth_error bs k = Some b -> nth_error bs' k = Some b' -> b_probes b' = b_probes b /\ b_levels b' = b_levels b.
Proof.
  induction 1 as [bs|s ss bs bs' Hs _ IH|s ss d f b b1 bs bs' Hs Hd Hf Hb Ha _ [L IH]].
  - split; [reflexivity|]. intros k b b' E E'. rewrite E in E'. injection E' as <-. now split.
  - exact IH.
  - split; [rewrite L; apply lset_len|]. intros k b0 b' E E'. assert (Eb : b_probes b1 = b_probes b /\ b_levels b1 = b_levels b). { unfold add_localized_longitudinal_field in Ha. cbv zeta in Ha. destruct (_ || _)%bool; [discriminate|]. inv_bind Ha. inv_bind Ha. inv_bind Ha. apply OkI in Ha. subst b1. now split. }
    assert (X : exists b2, nth_error (lset bs (dr_bundle d) b1) k = Some b2 /\ b_probes b2 = b_probes b0 /\ b_levels b2 = b_levels b0).
    { rewrite nth_lset. destruct (Nat.eqb_spec k (dr_bundle d)) as [->|Hk]; cbn [andb].
      - assert (Hl : (dr_bundle d <? length bs)%nat = true) by (apply Nat.ltb_lt, nth_error_Some; congruence). rewrite Hl. rewrite Hb in E. injection E as <-. exists b1. now split.
      - exists b0. now repeat split. }
    destruct X as (b2 & X1 & X2 & X3). destruct (IH k b2 b' X1 E') as [Y1 Y2]. split; congruence.
Qed.

(** the ends of a document, one after the other *)
Lemma loaded_reachable cb es m m' : loaded LA D cb es m m' -> reachable LA m -> reachable LA m'.
Proof.
  induction 1 as [m|e es c x far m m' He Hn _ IH|e es c x far k0 p conn R m m1 m' He Hk Hp Hm HR Hs _ IH]; intros Rm; [exact Rm|now apply IH|]. apply IH. destruct Rm as [m0 H0]. exists m0. unfold set_resistance_at_point in Hs. eapply h_resistance; eassumption.
Qed.
Lemma line_of_cable_reachable ju jdu name m : line_of_cable LA D ju jdu name m -> reachable LA m.
Proof.
  intros (cb & w & ps & l & c & r & m0 & m1 & _ & _ & _ & H & Ld & Lu). assert (R1 : reachable LA m1) by (eapply loaded_reachable; [exact Ld|exists m0; constructor; repeat eexists; exact H]).
  destruct Lu as [[_ ->]|(lu & conn & model & p & _ & _ & _ & _ & Hd)]; [exact R1|]. destruct R1 as [m2 H2]. exists m2. eapply h_connector; eassumption.
Qed.
Lemma coupled_reachable g es b b' : coupled D g es b b' -> reachable_bundle LA b -> reachable_bundle LA b'.
Proof. induction 1 as [b|i j z v w co ci es b b1 b' _ _ _ _ H _ IH]; intros R; [exact R|]. apply IH. destruct R as [b0 H0]. exists b0. eapply bh_transfer; eassumption. Qed.
Lemma closed_reachable g e x far es b b' : closed D g e x far es b b' -> reachable_bundle LA b -> reachable_bundle LA b'.
Proof. induction 1 as [b|i j z v es b b' V Nx _ IH|i j z v w co ci conn' zt' es b b1 b' V Ev W Nv Nw M' Z' H _ IH]; intros R; [exact R|now apply IH|]. apply IH. destruct R as [b0 H0]. exists b0. eapply bh_connector; eassumption. Qed.
Lemma all_closed_split g es1 e es2 b b' : all_closed D g (es1 ++ e :: es2) b b' -> reachable_bundle LA b -> exists c x far b1 b2, end_on D e c x far /\ reachable_bundle LA b1 /\ b_cells b1 = b_cells b /\
  closed D g e x far (g_es g) b1 b2 /\ all_closed D g es2 b2 b'.
Proof.
  revert b. induction es1 as [|e1 es1 IH]; intros b H R; cbn [app] in H; inversion H as [|e' es c x far b0 b1 b'' He Hc Ht]; subst.
  - exists c, x, far, b, b1. now repeat (split; [assumption || reflexivity|]).
  - destruct (closed_still _ _ _ _ _ _ _ Hc) as (_ & _ & EC & _). destruct (IH b1 Ht (closed_reachable _ _ _ _ _ _ _ Hc R)) as (c' & x' & far' & b2 & b3 & A1 & A2 & A3 & A4). exists c', x', far', b2, b3. repeat (split; [assumption || congruence|]). exact A4.
Qed.
Lemma bundle_end ju jdu bd b es1 e es2 : bundle_of LA D ju jdu bd b -> dc_ends D = es1 ++ e :: es2 ->
  exists g c x far b1 b2, buildGraphFromConnections D (snd bd) = Ok g /\ end_on D e c x far /\ reachable_bundle LA b1 /\ b_cells b1 = b_cells b /\ b_levels b1 = b_levels b /\
    closed D g e x far (g_es g) b1 b2 /\ all_closed D g es2 b2 b.
Proof.
  intros (g & b0 & b1 & G & H & _ & HL & C & A) E. rewrite E in A. assert (R0 : reachable_bundle LA b0).
  { exists b0. constructor. exists (b_levels b0), (fst bd). split; [|exact H]. apply Forall_forall. intros ls I. apply In_nth_error in I as [d Ed]. destruct (HL d ls Ed) as (_ & F & _). eapply Forall_impl; [|exact F]. intros m Hm. eapply line_of_cable_reachable. exact Hm. }
  destruct (all_closed_split _ _ _ _ _ _ A (coupled_reachable _ _ _ _ C R0)) as (c & x & far & b2 & b3 & A1 & A2 & A3 & A4 & A5). exists g, c, x, far, b2, b3. destruct (all_closed_still _ _ _ _ A) as (_ & _ & E1 & _). destruct (closed_still _ _ _ _ _ _ _ A4) as (L1 & _), (all_closed_still _ _ _ _ A5) as (L2 & _).
  repeat (split; [assumption || congruence|]). exact A5.
Qed.
End Driven.
