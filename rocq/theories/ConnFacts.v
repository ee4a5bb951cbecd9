(** Dispersive connectors on lines (any [num]). *)
From Coq Require Import String List Arith ZArith Bool Lia.
From Verif Require Import Num Py Arr ArrFacts Probes Dispersive Line LineFacts Bundle Networks Mtln
  SpecLine SpecBundle SpecDisp HistoryFacts StepTotal TotalFacts DispFacts MemFacts DispProps.
Import ListNotations.

Section Conn.
Context {N : num}.
Local Open Scope num_scope.
Variable LA : lapack N.
Implicit Types (m : mtl N) (s : disp N).

Lemma calls_history m0 m m' : history LA m0 m -> calls LA m m' -> history LA m0 m'.
Proof.
  intros H. induction 1; [assumption| | | | | | | | | |].
  - now apply h_time_step.
  - eapply h_resistance; eauto.
  - eapply h_conductance; eauto.
  - eapply h_source; eauto.
  - now apply h_field.
  - eapply h_probe; eauto.
  - eapply h_connector; eauto.
  - eapply h_step; eauto.
  - eapply h_run; eauto.
  - now apply h_copy.
Qed.
Lemma history_calls m0 m : history LA m0 m -> built LA m0 /\ calls LA m0 m.
Proof.
  induction 1 as [H|m NDT T H [B C]|m a b c R m' H [B C] E|m a b c G m' H [B C] E|m p c f m' H [B C] E|m eL eT H [B C]
    |m p ty m' H [B C] E|m p c model m' H [B C] E|m m' H [B C] E|m T m' H [B C] E|m H [B C]].
  - split; [exact H|apply ca_refl].
  - split; [exact B|]. now apply ca_time_step.
  - split; [exact B|]. eapply ca_resistance; eauto.
  - split; [exact B|]. eapply ca_conductance; eauto.
  - split; [exact B|]. eapply ca_source; eauto.
  - split; [exact B|]. now apply ca_field.
  - split; [exact B|]. eapply ca_probe; eauto.
  - split; [exact B|]. eapply ca_connector; eauto.
  - split; [exact B|]. eapply ca_step; eauto.
  - split; [exact B|]. eapply ca_run; eauto.
  - split; [exact B|]. now apply ca_copy.
Qed.

(** every call but a new connector keeps the coefficients *)
Lemma calls_cases (P : disp N -> Prop) m m' : shape m -> calls LA m m' ->
  (forall s s', P s -> same_disp s s' -> P s') ->
  (forall x p c model x', shape x -> calls LA m x -> P (m_disp x) ->
     mtl_add_dispersive_connector x p c model = Ok x' -> P (m_disp x')) ->
  P (m_disp m) -> P (m_disp m') /\ shape m'.
Proof.
  intros Sh H HS HC HP.
  induction H as [|m1 NDT T H [I S1]|m1 a b c R m' H [I S1] E|m1 a b c G m' H [I S1] E|m1 p c f m' H [I S1] E|m1 eL eT H [I S1]
    |m1 p ty m' H [I S1] E|m1 p c model m' H [I S1] E|m1 m' H [I S1] E|m1 T m' H [I S1] E|m1 H [I S1]].
  - auto.
  - split; [exact I|]. destruct S1; split; auto.
  - split; [|eapply shape_resistance; eauto]. unfold set_resistance_in_region in E. inv_bind E. inv_bind E. inv_bind E.
    injection E as <-. apply update_lr_inv in Ha1 as [t ->]. exact I.
  - split; [|eapply shape_conductance; eauto]. unfold add_conductance_in_region in E. inv_bind E. inv_bind E. inv_bind E. inv_bind E.
    injection E as <-. apply update_cg_inv in Ha2 as [t ->]. exact I.
  - split; [|eapply shape_source; eauto]. unfold add_voltage_source in E. destruct (c <? _)%nat; [|discriminate].
    injection E as <-. exact I.
  - split; [exact I|]. destruct S1; split; auto.
  - split; [|eapply shape_probe; eauto]. unfold add_probe in E. destruct (out_of_box _ _); [discriminate|].
    injection E as <-. exact I.
  - split; [|eapply shape_connector; eauto]. eapply HC; eauto.
  - split; [|eapply shape_step; eauto]. eapply HS; [exact I|]. apply (sl_disp _ _ (mtl_step_same _ _ (sh_N _ S1) E)).
  - split; [|eapply shape_run; eauto]. unfold run_until in E. inv_bind E. inv_bind E.
    destruct (shape_prepare LA _ _ _ S1 Ha0) as [S2 _].
    pose proof (iter_step_same _ _ _ (sh_N _ S2) E) as SL. pose proof (prepare_run_same LA _ _ _ Ha0) as SP.
    eapply HS; [|apply (sl_disp _ _ SL)]. eapply HS; [exact I|]. apply (rs_disp _ _ SP).
  - split; [exact I|]. destruct S1; split; auto; cbn; apply length_mk.
Qed.

Lemma same_disp_shape s s' : dshape s -> same_disp s s' -> dshape s'.
Proof. intros [] []. split; congruence. Qed.
Lemma same_disp_entry s s' k i j : same_disp s s' -> same_entry s s' k i j.
Proof. intros []. unfold same_entry, dD, dE, dP1, dP2, dP3. repeat split; congruence. Qed.

Lemma dshape_new n nx (u : mat N) dt : dshape (disp_new n nx u dt).
Proof.
  split; cbn [disp_new ds_nx ds_n ds_d ds_e ds_q1 ds_q2 ds_q3]; apply cube_mk; intros k Hk; unfold zeros2, qzeros2, mk2, zeros;
  (split; [apply length_mk|intros i Hi; rewrite nth_mk by auto; apply length_mk]).
Qed.

Lemma connector_spec s p c model s' : dshape s -> length (ds_u s) = S (ds_nx s) ->
  add_dispersive_connector s p c model = Ok s' ->
  let k0 := nearest (ds_u s) p in
  dshape s' /\ dkept s s' /\ (k0 < ds_nx s)%nat /\ (c < ds_n s)%nat /\ consistent model /\ free_entry s k0 c /\
  connected model (ds_dt s) (vnorm (vsub (nth (S k0) (ds_u s) []) (nth k0 (ds_u s) []))) s s' k0 c /\
  forall k i j, ~ (k = k0 /\ i = c /\ j = c) -> same_entry s s' k i j.
Proof.
  intros Hs Lu H k0. unfold add_dispersive_connector in H. fold k0 in H.
  destruct (_ || _); [discriminate|]. inv_bind H. rename a into next.
  apply (py_get_Ok _ _ _ []) in Ha as [Hk En]. assert (Hk' : (k0 + 1 < S (ds_nx s))%nat) by (rewrite <- Lu; exact Hk). clear Hk; rename Hk' into Hk. replace (k0 + 1)%nat with (S k0) in * by lia.
  inv_bind H. apply rm_check_Ok in Ha. destruct (negb _) eqn:Ec; [discriminate|]. apply negb_false_iff, Nat.ltb_lt in Ec.
  inv_bind H. inv_bind H. inv_bind H. inv_bind H. inv_bind H. inv_bind H. inv_bind H. inv_bind H.
  injection H as <-. rename a5 into q1, a6 into q2, a7 into q3.
  apply passert_Ok' in Ha0, Ha1.
  assert (AZ : forall q u, assert_qzero q = Ok u -> exists z : cplx N, q = [z] /\ fst z =? n0 = true /\ snd z =? n0 = true).
  { intros q u E. unfold assert_qzero in E. destruct q as [|z [|]]; try discriminate. exists z.
    apply passert_Ok' in E. apply andb_true_iff in E. tauto. }
  apply AZ in Ha2, Ha3, Ha4. clear AZ.
  pose proof Hs as [C1 C2 C3 C4 C5].
  split. { split; cbn [ds_nx ds_n ds_d ds_e ds_q1 ds_q2 ds_q3]; auto using cube_upd. }
  split. { split; reflexivity. }
  split; [lia|]. split; [exact Ec|]. split; [exact Ha|].
  split. { split; [exact Ha0|]. split; [exact Ha1|]. split; [exact Ha2|]. split; [exact Ha3|exact Ha4]. }
  assert (Hk0 : (k0 < ds_nx s)%nat) by lia.
  assert (G : forall (t : ten N) x k i j, cube (ds_nx s) (ds_n s) t -> get3 (upd3 t k0 c c x) k i j =
     if ((k =? k0) && (i =? c) && (j =? c))%nat then x else get3 t k i j).
  { intros t x k i j Ht. exact (g3_upd n0 _ _ t k0 c c x k i j Ht Hk0 Ec Ec). }
  assert (Q : forall t (x : qe N) k i j, cube (ds_nx s) (ds_n s) t -> qget3 (upd3 t k0 c c x) k i j =
     if ((k =? k0) && (i =? c) && (j =? c))%nat then x else qget3 t k i j).
  { intros t x k i j Ht. exact (g3_upd qzero _ _ t k0 c c x k i j Ht Hk0 Ec Ec). }
  split.
  - unfold connected, dD, dE, dP1, dP2, dP3. cbn [ds_d ds_e ds_q1 ds_q2 ds_q3].
    rewrite !G, !Q, !Nat.eqb_refl by auto. cbn [andb]. subst next.
    split; [reflexivity|]. split; [reflexivity|].
    destruct Ha2 as (z1 & E1 & _), Ha3 as (z2 & E2 & _), Ha4 as (z3 & E3 & _). exists z1, z2, z3.
    split; [exact E1|]. split; [exact E2|]. split; [exact E3|].
    rewrite E1 in Ha5. rewrite E2 in Ha6. rewrite E3 in Ha7.
    assert (B : forall f z (l r : list (cplx N)), bop f [z] l = Ok r -> r = map (f z) l).
    { intros f z l r E. unfold bop in E. cbn [length] in E. destruct (Nat.eqb_spec 1 (length l)) as [El|El].
      - injection E as <-. destruct l as [|y [|]]; try discriminate. reflexivity.
      - cbn [Nat.eqb nth] in E. now injection E as <-. }
    apply B in Ha5, Ha6, Ha7. rewrite Ha5, Ha6, Ha7.
    assert (Z : forall h (f : cplx N -> cplx N -> cplx N) (g : cplx N -> cplx N),
        map g (zipc f (rm_residues model h) (rm_poles model))
        = map (fun l => g (f (residue model h l) (pole model l))) (seq 0 (n_poles model))).
    { intros h f g. unfold zipc. rewrite length_residues. unfold mk. rewrite map_map. apply map_ext_in.
      intros l Hl. apply in_seq in Hl. rewrite nth_residues, nth_poles by lia. reflexivity. }
    split; [apply Z|]. split; [apply Z|]. rewrite map_map, (map_seq_nth _ c0), length_poles. apply map_ext_in.
    intros l Hl. apply in_seq in Hl. rewrite nth_poles by lia. reflexivity.
  - intros k i j Hn. assert (E : ((k =? k0) && (i =? c) && (j =? c))%nat = false).
    { apply not_true_is_false. intros E. apply andb_true_iff in E as [E E3%Nat.eqb_eq].
      apply andb_true_iff in E as [E1%Nat.eqb_eq E2%Nat.eqb_eq]. tauto. }
    unfold same_entry, dD, dE, dP1, dP2, dP3. cbn [ds_d ds_e ds_q1 ds_q2 ds_q3]. rewrite !G, !Q, !E by auto. repeat split.
Qed.

(** lines: the dispersive part has the right shape, only diagonal entries are ever used *)
Definition line_disp m : Prop :=
  dshape (m_disp m) /\ ds_u (m_disp m) = m_u m /\
  (forall k i j, i <> j -> dP1 (m_disp m) k i j = qzero /\ dP2 (m_disp m) k i j = qzero /\ dP3 (m_disp m) k i j = qzero /\
                          dD (m_disp m) k i j = n0 /\ dE (m_disp m) k i j = n0).

Lemma built_disp m : built LA m -> m_disp m = disp_new (conductors m) (cells m) (m_u m) (step_dt m).
Proof.
  intros (ju & jdu & l & c & r & g & len & np & ndiv & zs & zl & name & H).
  apply mtl_new_inv in H. decompose [and] H. assumption.
Qed.

Lemma history_line_disp m0 m : history LA m0 m -> line_disp m.
Proof.
  intros H. destruct (history_calls _ _ H) as [HB HC]. pose proof (built_shape LA _ HB) as Sh.
  pose proof (history_shape LA _ _ H) as [Sm K].
  set (P := fun s : disp N => dshape s /\ ds_u s = m_u m0 /\ ds_nx s = cells m0 /\
    (forall k i j, i <> j -> dP1 s k i j = qzero /\ dP2 s k i j = qzero /\ dP3 s k i j = qzero /\
                          dD s k i j = n0 /\ dE s k i j = n0)).
  assert (X : P (m_disp m) /\ shape m).
  { apply (calls_cases P m0 m Sh HC).
    - intros s s' (A & B & C & D) E. split; [eapply same_disp_shape; eauto|].
      split; [destruct E; congruence|]. split; [destruct E; congruence|]. intros k i j Hij.
      destruct (same_disp_entry _ _ k i j E) as (e1 & e2 & e3 & e4 & e5). rewrite e1, e2, e3, e4, e5. auto.
    - intros x p c model x' Sx Cx (A & B & C & D) E. unfold mtl_add_dispersive_connector in E. inv_bind E. injection E as <-.
      assert (Lu : length (ds_u (m_disp x)) = S (ds_nx (m_disp x))) by (rewrite B, C; apply (sh_u _ Sh)).
      destruct (connector_spec _ _ _ _ _ A Lu Ha) as (S1 & K1 & _ & _ & _ & _ & _ & O1).
      destruct K1 as [k1 k2 k3 k4 k5 k6]. unfold m_disp in *. change (P a).
      split; [exact S1|]. split; [rewrite k3; exact B|]. split; [rewrite k2; exact C|]. intros k i j Hij.
      destruct (O1 k i j) as (e1 & e2 & e3 & e4 & e5); [intros (_ & -> & ->); congruence|].
      rewrite e1, e2, e3, e4, e5. auto.
    - rewrite (built_disp _ HB). unfold P. split; [apply dshape_new|]. split; [reflexivity|]. split; [reflexivity|].
      intros k i j _. unfold dP1, dP2, dP3, dD, dE. cbn [disp_new ds_q1 ds_q2 ds_q3 ds_d ds_e].
      rewrite qget3_qzeros, zeros3_get. auto. }
  destruct X as [(A & B & C & D) _]. split; [exact A|]. split; [|exact D]. rewrite B. symmetry. apply (kp_u _ _ K).
Qed.
Lemma reachable_line_disp m : reachable LA m -> line_disp m.
Proof. intros [m0 H]. eapply history_line_disp; eauto. Qed.

Lemma connector_exact_line m0 m p c model m' : history LA m0 m ->
  mtl_add_dispersive_connector m p c model = Ok m' ->
  let k0 := node_of m p in
  (k0 < cells m)%nat /\ (c < conductors m)%nat /\ consistent model /\ free_entry (m_disp m) k0 c /\
  connected model (step_dt m0) (node_gap m k0) (m_disp m) (m_disp m') k0 c /\
  (forall k i j, ~ (k = k0 /\ i = c /\ j = c) -> same_entry (m_disp m) (m_disp m') k i j) /\
  (exists d, m' = m_set_core m (set_disp (m_core m) d) /\ ds_phi d = ds_phi (m_disp m) /\ ds_q3phi d = ds_q3phi (m_disp m)).
Proof.
  intros H E k0. destruct (history_line_disp _ _ H) as (A & B & _). pose proof (history_shape LA _ _ H) as [Sh K].
  unfold mtl_add_dispersive_connector in E. inv_bind E. injection E as <-.
  assert (Lu : length (ds_u (m_disp m)) = S (ds_nx (m_disp m))).
  { rewrite B, (sh_u _ Sh). unfold m_disp. now rewrite (sh_dx _ Sh). }
  destruct (connector_spec _ _ _ _ _ A Lu Ha) as (S1 & K1 & H1 & H2 & H3 & H4 & H5 & H6).
  unfold m_disp in *. rewrite B in *. fold (node_of m p) k0 in H1, H4, H5, H6.
  rewrite (sh_dx _ Sh) in H1. rewrite (sh_dn _ Sh) in H2.
  assert (Edt : ds_dt (k_disp (m_core m)) = step_dt m0).
  { rewrite (kp_ddt _ _ K). pose proof (built_disp _ (history_built LA _ _ H)) as Eb. unfold m_disp in Eb. rewrite Eb. reflexivity. }
  rewrite Edt in H5. split; [exact H1|]. split; [exact H2|]. split; [exact H3|]. split; [exact H4|]. split; [exact H5|].
  split; [exact H6|]. destruct K1. exists a. auto.
Qed.

Lemma connector_last m p c model : reachable LA m -> ~ outside m p -> node_of m p = cells m ->
  mtl_add_dispersive_connector m p c model = Err IndexError.
Proof.
  intros H Ho Hn. destruct (reachable_line_disp _ H) as (_ & B & _). pose proof (reachable_shape LA _ H) as Sh.
  unfold mtl_add_dispersive_connector, add_dispersive_connector. unfold m_disp in B. rewrite B.
  replace (_ || _) with false.
  - fold (node_of m p). rewrite Hn, py_get_Err; [reflexivity|]. rewrite (sh_u _ Sh). unfold cells. lia.
  - symmetry. apply not_true_is_false. intros E. apply Ho. unfold outside.
    apply orb_true_iff in E as [E|E]; apply existsb_exists in E as (d & Hd & E); apply in_seq in Hd; exists d; (split; [lia|]); auto.
Qed.
Lemma connector_outside m p c model : reachable LA m -> outside m p ->
  mtl_add_dispersive_connector m p c model = Err ValueError.
Proof.
  intros H (d & Hd & Ho). destruct (reachable_line_disp _ H) as (_ & B & _).
  unfold mtl_add_dispersive_connector, add_dispersive_connector. unfold m_disp in B. rewrite B.
  replace (_ || _) with true; [reflexivity|]. symmetry. apply orb_true_iff.
  destruct Ho as [Ho|Ho]; [left|right]; apply existsb_exists; exists d; (split; [apply in_seq; lia|exact Ho]).
Qed.
Lemma connector_occupied m p c model : reachable LA m -> ~ free_entry (m_disp m) (node_of m p) c ->
  exists e, mtl_add_dispersive_connector m p c model = Err e.
Proof.
  intros [m0 H] Hn. destruct (mtl_add_dispersive_connector m p c model) as [m'|e] eqn:E; [|eauto].
  exfalso. destruct (connector_exact_line _ _ _ _ _ _ H E) as (_ & _ & _ & F & _). contradiction.
Qed.

(** two pole lists of different lengths *)
Lemma step_clash (a b : mtl N) k c1 c2 : shape a -> mtl_step a = Ok b ->
  (k < cells a)%nat -> (c1 < conductors a)%nat -> (c2 < conductors a)%nat ->
  length (dP1 (m_disp a) k c1 c1) <> 1%nat -> length (dP1 (m_disp a) k c2 c2) <> 1%nat ->
  length (dP1 (m_disp a) k c1 c1) <> length (dP1 (m_disp a) k c2 c2) ->
  mtl_step b = Err ValueError.
Proof.
  intros Sh H Hk H1 H2 L1 L2 Hne.
  destruct (mtl_step_inv a b (sh_N _ Sh) H) as (vt & idf & it & vd & d1 & d2 & ps & Hcg & Hlr & Hd1 & _ & _ & _ & Hd2 & _ & E).
  cbv zeta in *. destruct (update_q3_phi_same _ _ Hd1) as [SD _]. destruct (update_phi_same _ _ _ _ Hd2) as [SD2 _].
  assert (En : ds_n d1 = conductors a) by (rewrite (sd_n _ _ SD); apply (sh_dn _ Sh)).
  assert (Ex : ds_nx d1 = cells a) by (rewrite (sd_nx _ _ SD); apply (sh_dx _ Sh)).
  assert (Ed : forall k i j, dP1 d1 k i j = dP1 (m_disp a) k i j).
  { intros k' i j. destruct (same_disp_entry _ _ k' i j SD) as (_ & _ & X & _). exact X. }
  assert (M1 : length (dPhi d2 k c1) = length (dP1 (m_disp a) k c1 c1)).
  { rewrite <- Ed in *. eapply phi_long; eauto; [now rewrite Ex|now rewrite En]. }
  assert (M2 : length (dPhi d2 k c2) = length (dP1 (m_disp a) k c2 c2)).
  { rewrite <- (Ed k c2 c2) in *. eapply phi_long; eauto; [now rewrite Ex|now rewrite En]. }
  assert (Q : update_q3_phi_term d2 = Err ValueError).
  { apply (q3_clash d2 k c1 c2); rewrite ?M1, ?M2, ?(sd_nx _ _ SD2), ?(sd_n _ _ SD2), ?En, ?Ex; auto. }
  assert (Ek : k_disp (m_core b) = d2) by (rewrite E; reflexivity).
  assert (Eg : k_cg (m_core b) = Some (vt, idf)) by (rewrite E; exact Hcg).
  unfold mtl_step. cbv zeta.
  set (s1 := advance_left_terminal _ _ _ _ _). unfold advance_voltage at 1.
  change (k_cg s1) with (k_cg (m_core b)). rewrite Eg. cbn [bind].
  set (s3 := advance_right_terminal _ _ _ _ _). unfold advance_current.
  change (k_disp s3) with (k_disp (m_core b)). rewrite Ek, Q. reflexivity.
Qed.

Lemma run_clash m0 m p1 c1 mod1 m1 p2 c2 mod2 m2 T : history LA m0 m ->
  mtl_add_dispersive_connector m p1 c1 mod1 = Ok m1 -> mtl_add_dispersive_connector m1 p2 c2 mod2 = Ok m2 ->
  node_of m p1 = node_of m p2 -> n_poles mod1 <> 1%nat -> n_poles mod2 <> 1%nat -> n_poles mod1 <> n_poles mod2 ->
  (forall k a b, run_step LA m2 T k a b -> mtl_step b = Err ValueError) /\
  forall b, ~ run_state LA m2 T 2 b.
Proof.
  intros H E1 E2 Hk L1 L2 Hne.
  pose proof (h_connector _ _ _ _ _ _ _ H E1) as H1. pose proof (h_connector _ _ _ _ _ _ _ H1 E2) as H2.
  destruct (connector_exact_line _ _ _ _ _ _ H E1) as (K1 & C1 & _ & _ & X1 & _ & (d1 & D1 & _)).
  destruct (connector_exact_line _ _ _ _ _ _ H1 E2) as (K2 & C2 & _ & F2 & X2 & O2 & (d2 & D2 & _)).
  assert (Eu : node_of m1 p2 = node_of m p2) by (rewrite D1; reflexivity).
  rewrite Eu, <- Hk in *. set (k := node_of m p1) in *.
  destruct X1 as (_ & _ & z1 & z2 & z3 & _ & _ & _ & P1 & _ & _).
  destruct X2 as (_ & _ & y1 & y2 & y3 & Y1 & _ & _ & P2 & _ & _).
  assert (Hc : c1 <> c2).
  { intros ->. rewrite Y1 in P1. apply (f_equal (@length _)) in P1. rewrite map_length, seq_length in P1. cbn in P1. lia. }
  assert (Z1 : length (dP1 (m_disp m2) k c1 c1) = n_poles mod1).
  { destruct (O2 k c1 c1) as (_ & _ & X & _); [intros (_ & -> & _); congruence|]. rewrite X, P1, map_length. apply seq_length. }
  assert (Z2 : length (dP1 (m_disp m2) k c2 c2) = n_poles mod2).
  { rewrite P2, map_length. apply seq_length. }
  assert (N1 : conductors m1 = conductors m) by (rewrite D1; reflexivity).
  assert (N2 : conductors m2 = conductors m1) by (rewrite D2; reflexivity).
  assert (N3 : cells m1 = cells m) by (rewrite D1; reflexivity).
  assert (N4 : cells m2 = cells m1) by (rewrite D2; reflexivity).
  pose proof (history_shape LA _ _ H2) as [Sh2 _].
  assert (R : forall k a b, run_step LA m2 T k a b -> mtl_step b = Err ValueError).
  { intros j a b Hs. destruct (run_step_states LA _ _ _ _ _ Hs) as [Ha _].
    destruct (run_state_inv LA _ _ _ _ Sh2 Ha) as (Sa & Ka & RS & _).
    assert (Ed : forall i, dP1 (m_disp a) k i i = dP1 (m_disp m2) k i i).
    { intros i. destruct (same_disp_entry _ _ k i i (rs_disp _ _ RS)) as (_ & _ & X & _). exact X. }
    destruct Hs as (st & p & _ & _ & _ & _ & Hs).
    apply (step_clash a b k c1 c2 Sa Hs); rewrite ?Ed, ?Z1, ?Z2; auto; unfold cells, conductors in *;
      rewrite ?(rs_N _ _ RS), ?(rs_n _ _ RS); congruence || lia. }
  split; [exact R|]. intros b (st & p & Hst & Hle & Hp & Hi). cbn [iterM] in Hi. inv_bind Hi. inv_bind Hi. injection Hi as <-.
  assert (Hs : run_step LA m2 T 0 p a). { exists st, p. repeat split; auto. lia. }
  pose proof (R _ _ _ Hs). congruence.
Qed.
End Conn.
