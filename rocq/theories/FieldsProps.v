(** Illumination of lines and bundles: from the facts to the statements. *)
From Coq Require Import String List Arith ZArith Bool Lia Reals Lra.
From Verif Require Import Num Py Arr ArrFacts NumR RFacts Utils Probes Dispersive Line Bundle Networks Mtln SpecLine SpecBundle HistoryFacts BundleFacts BundleR
  Fields SpecFields FieldsFacts.
Import ListNotations.

Section FieldsProps.
Context {N : num}.
Variable LA : lapack N.
Variable integ : (N -> N) -> N -> N -> N.

Lemma mk2_arrays (s : core N) z : k_eL s = mk2 (k_n s) (k_N s) z -> k_eT s = mk2 (k_n s) (S (k_N s)) z -> lit_arrays s.
Proof.
  intros E1 E2. unfold lit_arrays. rewrite E1, E2. split; [apply length_mk|]. split; [apply length_mk|]. intros c Hc. unfold mk2. rewrite !nth_mk by auto. split; apply length_mk.
Qed.
Lemma built_arrays (m : mtl N) : built LA m -> lit_arrays (m_core m).
Proof.
  intros (ju & jdu & l & c & r & g & len & np & nd & zs & zl & name & H). destruct (mtl_new_inv _ _ _ _ _ _ _ _ _ _ _ _ _ _ H) as (_ & _ & _ & _ & _ & _ & _ & _ & _ & _ & _ & _ & E1 & E2).
  exact (mk2_arrays _ _ E1 E2).
Qed.
Lemma bundle_arrays levels name (b : bundle N) : mtld_new levels name = Ok b -> lit_arrays (b_core b).
Proof.
  intros H. destruct (new_frame _ _ _ H) as (outer & rest & _ & _ & _ & _ & _ & _ & E1 & E2 & _). exact (mk2_arrays _ _ E1 E2).
Qed.

Lemma line_field (m : mtl N) f dist loc m' : reachable LA m -> lit_arrays (m_core m) -> mtl_add_external_field LA integ m f dist loc = Ok m' ->
  m' = m_set_core m (m_core m') /\ illuminated LA integ false (conductors m) (m_u m) (m_du m) (m_core m) f dist loc (m_core m') /\
  (exists k, is_lit false (m_u m) (cells m) loc k) /\ (forall k, is_lit false (m_u m) (cells m) loc k -> (k < cells m)%nat).
Proof.
  intros (m0 & R) Ar H. destruct (history_shape _ _ _ R) as [Sh _]. unfold mtl_add_external_field in H. inv_bind H. apply (f_equal (fun r => match r with Ok a => a | _ => m' end)) in H. subst m'.
  split; [reflexivity|]. apply illuminate_spec; auto; [pose proof (sh_n _ Sh); unfold conductors; split; [lia|apply Nat.le_refl]|exact (sh_u _ Sh)|exact (sh_du _ Sh)].
Qed.
Lemma line_field_reach (m : mtl N) f dist loc m' : reachable LA m -> lit_arrays (m_core m) -> mtl_add_external_field LA integ m f dist loc = Ok m' -> reachable LA m' /\ lit_arrays (m_core m').
Proof.
  intros R Ar H. destruct (line_field _ _ _ _ _ R Ar H) as (E & (E' & Ar' & _) & _). split; [|exact Ar']. destruct R as [m0 R]. exists m0. rewrite E, E'. now apply h_field.
Qed.
Lemma line_field_again (m : mtl N) f1 d1 loc1 m1 f2 d2 loc2 m2 : reachable LA m -> lit_arrays (m_core m) ->
  mtl_add_external_field LA integ m f1 d1 loc1 = Ok m1 -> mtl_add_external_field LA integ m1 f2 d2 loc2 = Ok m2 ->
  (forall k, is_lit false (m_u m) (cells m) loc1 k -> is_lit false (m_u m) (cells m) loc2 k) ->
  mtl_add_external_field LA integ m f2 d2 loc2 = Ok m2.
Proof.
  intros (m0 & R) Ar H1 H2 Sub. destruct (history_shape _ _ _ R) as [Sh _]. unfold mtl_add_external_field in *. inv_bind H1. apply (f_equal (fun r => match r with Ok a => a | _ => m1 end)) in H1. subst m1.
  inv_bind H2. apply (f_equal (fun r => match r with Ok a => a | _ => m2 end)) in H2. subst m2. change (illuminate LA integ false (k_n a) (m_u m) (m_du m) a f2 d2 loc2 = Ok a0) in Ha0.
  assert (G : (0 < k_n (m_core m) <= k_n (m_core m))%nat) by (pose proof (sh_n _ Sh); split; [lia|apply Nat.le_refl]).
  destruct (illuminate_spec LA integ _ _ _ _ _ _ _ _ _ Ar G (sh_u _ Sh) (sh_du _ Sh) Ha) as ((E & _) & _). assert (En : k_n a = k_n (m_core m)) by (rewrite E; reflexivity). rewrite En in Ha0.
  rewrite (illuminate_again LA integ _ _ _ _ _ _ _ _ _ _ _ _ _ Ar G (sh_u _ Sh) (sh_du _ Sh) Sub Ha Ha0). reflexivity.
Qed.
Lemma line_field_empty (m : mtl N) f (dist : ten N) a b r : reachable LA m -> has_shape dist (conductors m) (S (cells m)) = true -> (nearest (m_u m) b <= nearest (m_u m) a)%nat ->
  mtl_add_external_field LA integ m f dist (a :: b :: r) = Err NameError.
Proof.
  intros (m0 & R) Hs Hab. destruct (history_shape _ _ _ R) as [Sh _]. unfold mtl_add_external_field.
  rewrite illuminate_empty; [reflexivity|pose proof (sh_n _ Sh); lia|rewrite (sh_u _ Sh); lia|rewrite (sh_u _ Sh); exact Hs|cbn; lia|]. intros k [H1 H2]. unfold first_lit, after_lit in *. lia.
Qed.

Lemma outer_facts (b : bundle N) : reachable_bundle LA b -> exists n, outer_conductors b = Ok n /\ (0 < n <= k_n (b_core b))%nat /\ length (b_u b) = S (k_N (b_core b)) /\ length (b_du b) = k_N (b_core b).
Proof.
  intros (b0 & H). destruct (history_binv _ _ _ H) as [I K]. assert (X : bundle_built LA b0) by (clear - H; induction H; auto). destruct X as (levels & name & R & Hb).
  destruct (mtld_new_inv _ _ _ Hb) as (outer & rest & E & _ & E1 & _ & _ & Eu & Ed & En & EN). assert (Sh : shape outer) by (subst levels; inversion R as [|? ? X _]; subst; inversion X as [|? ? Y _]; subst; exact (reachable_shape LA _ Y)).
  exists (k_n (m_core outer)). unfold outer_conductors. rewrite (bk_levels _ _ K), E1, E. cbn [nth_error of_option bind py_get]. split; [reflexivity|].
  change (k_n (b_core b)) with (b_conductors b). change (k_N (b_core b)) with (b_cells b). rewrite (bk_n _ _ K), (bk_N _ _ K), (bk_u _ _ K), (bk_du _ _ K), Eu, Ed, En, EN, (sh_u _ Sh), (sh_du _ Sh), E.
  rewrite count_sum. cbn [concat app map list_sum fold_right]. pose proof (sh_n _ Sh). unfold conductors. split; [lia|]. split; lia.
Qed.
Lemma bundle_field (b : bundle N) f dist loc b' n : reachable_bundle LA b -> lit_arrays (b_core b) -> outer_conductors b = Ok n -> bundle_add_external_field LA integ b f dist loc = Ok b' ->
  b' = b_set_core b (b_core b') /\ illuminated LA integ true n (b_u b) (b_du b) (b_core b) f dist loc (b_core b') /\
  (exists k, is_lit true (b_u b) (b_cells b) loc k) /\ (forall k, is_lit true (b_u b) (b_cells b) loc k -> (k < b_cells b)%nat).
Proof.
  intros R Ar En H. destruct (outer_facts _ R) as (n' & En' & Hn & Lu & Ld). rewrite En in En'. injection En' as <-. unfold bundle_add_external_field in H. rewrite En in H. cbn [bind] in H.
  inv_bind H. apply (f_equal (fun r => match r with Ok a => a | _ => b' end)) in H. subst b'. split; [reflexivity|]. apply illuminate_spec; auto.
Qed.
Lemma bundle_field_reach (b : bundle N) f dist loc b' : reachable_bundle LA b -> lit_arrays (b_core b) -> bundle_add_external_field LA integ b f dist loc = Ok b' -> reachable_bundle LA b' /\ lit_arrays (b_core b').
Proof.
  intros R Ar H. destruct (outer_facts _ R) as (n & En & _). destruct (bundle_field _ _ _ _ _ _ R Ar En H) as (E & (E' & Ar' & _) & _). split; [|exact Ar']. destruct R as [b0 R]. exists b0. rewrite E, E'. now apply bh_field.
Qed.
Lemma bundle_field_again (b : bundle N) f1 d1 loc1 b1 f2 d2 loc2 b2 : reachable_bundle LA b -> lit_arrays (b_core b) ->
  bundle_add_external_field LA integ b f1 d1 loc1 = Ok b1 -> bundle_add_external_field LA integ b1 f2 d2 loc2 = Ok b2 ->
  (forall k, is_lit true (b_u b) (b_cells b) loc1 k -> is_lit true (b_u b) (b_cells b) loc2 k) ->
  bundle_add_external_field LA integ b f2 d2 loc2 = Ok b2.
Proof.
  intros R Ar H1 H2 Sub. destruct (outer_facts _ R) as (n & En & Hn & Lu & Ld). unfold bundle_add_external_field in *. rewrite En in *. cbn [bind] in *.
  inv_bind H1. apply (f_equal (fun r => match r with Ok a => a | _ => b1 end)) in H1. subst b1. change (outer_conductors (b_set_core b a)) with (outer_conductors b) in H2. rewrite En in H2. cbn [bind] in H2.
  inv_bind H2. apply (f_equal (fun r => match r with Ok a => a | _ => b2 end)) in H2. subst b2. change (illuminate LA integ true n (b_u b) (b_du b) a f2 d2 loc2 = Ok a0) in Ha0.
  rewrite (illuminate_again LA integ _ _ _ _ _ _ _ _ _ _ _ _ _ Ar Hn Lu Ld Sub Ha Ha0). reflexivity.
Qed.
(** a localised field of a bundle that ends at its last node *)
Lemma bundle_field_end (b : bundle N) f (dist : ten N) a p r b' : reachable_bundle LA b -> lit_arrays (b_core b) -> nearest (b_u b) p = b_cells b -> (nearest (b_u b) a <= b_cells b)%nat ->
  bundle_add_external_field LA integ b f dist (a :: p :: r) <> Ok b'.
Proof.
  intros R Ar Hp Ha H. destruct (outer_facts _ R) as (n & En & _). destruct (bundle_field _ _ _ _ _ _ R Ar En H) as (_ & _ & _ & Lt).
  assert (X : (b_cells b < b_cells b)%nat) by (apply Lt; unfold is_lit, first_lit, after_lit; lia). lia.
Qed.
End FieldsProps.

(** *** when the method succeeds *)
Local Open Scope R_scope.
Section Total.
Variable LA : lapack NumR.
Variable integ : (NumR -> NumR) -> NumR -> NumR -> NumR.
Lemma unit_close (d : vec NumR) : 0 < @vnorm NumR d -> @isclose NumR (vnorm (vdivs d (vnorm d))) 1 = true.
Proof.
  intros H. assert (E : @vnorm NumR (vdivs d (vnorm d)) = 1).
  { set (q := @vnorm NumR d) in *. unfold vnorm, vdivs. assert (E : @sumn NumR 3 (fun i => nsq (get (mk 3 (fun j => @ndiv NumR (get d j) q)) i)) = 1).
    { cbn [sumn]. rewrite !get_mk by lia. unfold nsq. rsimpl. assert (Q : q * q = @get NumR d 0 * @get NumR d 0 + @get NumR d 1 * @get NumR d 1 + @get NumR d 2 * @get NumR d 2).
      { unfold q, vnorm. cbn [sumn]. unfold nsq. rsimpl. rewrite sqrt_sqrt; [ring|]. pose proof (Rle_0_sqr (@get NumR d 0)). pose proof (Rle_0_sqr (@get NumR d 1)). pose proof (Rle_0_sqr (@get NumR d 2)). unfold Rsqr in *. lra. }
      apply (Rmult_eq_reg_r (q * q)); [|nra]. rewrite Rmult_1_l. rewrite Q at 2. field. lra. }
    rewrite E. exact sqrt_1. }
  rewrite E. unfold isclose. rsimpl. apply Rleb_true. replace (1 - 1) with 0 by ring. rewrite Rabs_R0. rewrite Rabs_R1. lra.
Qed.
Lemma illuminate_total closed n (u du : mat NumR) (s : core NumR) f (dist : ten NumR) loc : has_shape dist n (length u) = true -> length u = S (k_N s) -> length du = k_N s -> (0 < k_N s)%nat -> length loc <> 1%nat ->
  (exists k, is_lit closed u (k_N s) loc k) -> (forall k, is_lit closed u (k_N s) loc k -> (k < k_N s)%nat /\ 0 < @vnorm NumR (nth k du [])) ->
  (forall k, (k < k_N s)%nat -> exists v, speed_at LA s k v) -> exists s', illuminate LA integ closed n u du s f dist loc = Ok s'.
Proof.
  intros Sh Lu Ld HN Ll [k0 Hk0] Hk Hv. unfold illuminate. rewrite Sh. cbn [passert bind]. assert (E : exists is, lit_cells closed u (k_N s) loc = Ok is) by (unfold lit_cells; destruct loc as [|a [|b loc]]; [eauto|cbn in Ll; lia|eauto]).
  destruct E as [is E]. rewrite E. cbn [bind]. destruct (lit_cells_in _ _ _ _ _ E) as (_ & Ii & _). assert (Ne : is <> []) by (intros ->; now apply Ii in Hk0).
  assert (Lv : length (get_phase_velocities LA s) = k_N s) by (unfold get_phase_velocities; apply length_mk). set (vu := get_phase_velocities LA s) in *.
  assert (PG : forall (A : Type) (l : list A) i d, (i < length l)%nat -> py_get l i = Ok (nth i l d)) by (intros A l i d Hi; unfold py_get; now rewrite (nth_error_nth' l d Hi)).
  assert (C : forall c, (c < n)%nat -> forall l, (forall k, In k l -> In k is) -> forall st : lit NumR, exists st', foldM (light_cell integ f u du dist vu c) l st = Ok st' /\ (l <> [] -> exists w, snd st' = Some w) /\ (l = [] -> st' = st)).
  { intros c Hc. pose proof (shape_rows _ _ _ c Sh Hc) as Lr. assert (Lds : length dist = n) by (unfold has_shape in Sh; apply andb_true_iff in Sh as [X _]; now apply Nat.eqb_eq).
    induction l as [|k l IH]; intros Hl st; [exists st; split; [reflexivity|]; split; [congruence|reflexivity]|]. cbn [foldM].
    destruct (Hk k) as [Lk Nk]; [apply Ii, Hl; now left|]. destruct (Hv k Lk) as [v Ev]. unfold speed_at in Ev. fold vu in Ev. destruct st as [[eL eT] o].
    unfold light_cell at 1. rewrite (PG _ du k []) by (cbn; lia). cbn [bind]. unfold compute_eL_at_segment at 1. rewrite unit_close by exact Nk. cbn [passert bind]. rewrite (PG _ u k []) by (cbn; lia). cbn [bind].
    rewrite (PG _ dist c []) by lia. cbn [bind]. rewrite (PG _ (nth c dist []) k []) by lia. cbn [bind]. rewrite (PG _ vu k []) by (cbn in *; lia). cbn [bind]. rewrite Ev. cbn [bind].
    match goal with |- context [foldM _ l ?st1] => destruct (IH (fun k' Hk' => Hl k' (or_intror Hk')) st1) as (st' & E1 & E2 & E3) end. exists st'. split; [exact E1|]. split; [|congruence]. intros _.
    destruct l as [|k' l]; [rewrite (E3 eq_refl); cbn [snd]; eauto|apply E2; discriminate]. }
  assert (G : forall ns, (forall c, In c ns -> (c < n)%nat) -> forall st : lit NumR, exists st', foldM (light_conductor integ f u du dist vu (k_N s) is) ns st = Ok st').
  { induction ns as [|c ns IH]; intros Hns st; [eexists; reflexivity|]. cbn [foldM]. assert (Hc : (c < n)%nat) by (apply Hns; now left). destruct (C c Hc is (fun k H => H) st) as (st1 & E1 & E2 & _). destruct (E2 Ne) as [w Ew].
    pose proof (shape_rows _ _ _ c Sh Hc) as Lr. assert (Lds : length dist = n) by (unfold has_shape in Sh; apply andb_true_iff in Sh as [X _]; now apply Nat.eqb_eq).
    unfold light_conductor at 1. rewrite E1. cbn [bind]. destruct st1 as [[eL eT] o]. cbn [snd] in Ew. subst o. rewrite (PG _ dist c []) by lia. cbn [bind]. rewrite (PG _ (nth c dist []) _ []) by lia. cbn [bind of_option].
    rewrite (PG _ vu _ []) by (cbn in *; lia). cbn [bind]. destruct (Hv (length vu - 1)%nat) as [v Ev]; [cbn in *; lia|]. unfold speed_at in Ev. fold vu in Ev. rewrite Ev. cbn [bind]. apply IH. intros c' Hc'. apply Hns. now right. }
  destruct (G (seq 0 n)) with (st := (k_eL s, k_eT s, @None (vec NumR))) as [st Est]; [intros c Hc; apply in_seq in Hc; lia|]. rewrite Est. cbn [bind]. eauto.
Qed.
End Total.
