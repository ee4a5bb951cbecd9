(** Invariants of bundles. *)
From Coq Require Import String List Arith ZArith Bool Lia FinFun.
From Verif Require Import Num Py Arr ArrFacts Probes Dispersive Line LineFacts Bundle Networks Mtln
  SpecLine SpecBundle HistoryFacts DispFacts.
Import ListNotations.

Section BundleFacts.
Context {N : num}.
Variable LA : lapack N.
Local Open Scope num_scope.
Implicit Types (b : bundle N).

Lemma count_sum (ls : list (mtl N)) : count_conductors ls = list_sum (map (@conductors N) ls).
Proof.
  unfold count_conductors. enough (H : forall a, fold_left (fun n m => n + k_n (m_core m))%nat ls a
    = (a + list_sum (map (@conductors N) ls))%nat) by (rewrite H; reflexivity).
  induction ls as [|m ls IH]; intros a; simpl; [lia|].
  rewrite IH. unfold conductors at 2. lia.
Qed.
Lemma count_app (l1 l2 : list (mtl N)) : count_conductors (l1 ++ l2) = (count_conductors l1 + count_conductors l2)%nat.
Proof. now rewrite !count_sum, map_app, list_sum_app. Qed.

Lemma n_before_sum levels l : n_before levels l = list_sum (firstn l levels).
Proof.
  unfold n_before. symmetry. unfold list_sum. symmetry. apply fold_symmetric; intros; lia.
Qed.
Lemma n_before_levels (ls : list (list (mtl N))) l :
  n_before (map count_conductors ls) l = list_sum (map (@conductors N) (concat (firstn l ls))).
Proof.
  rewrite n_before_sum, firstn_map. revert l. induction ls as [|x ls IH]; intros [|l]; try reflexivity.
  cbn [firstn map concat list_sum fold_right]. rewrite map_app, list_sum_app, <- IH, count_sum. reflexivity.
Qed.

(** sizes of the block-diagonal matrices *)
Definition square {A} (n : nat) (M : list (list A)) : Prop :=
  length M = n /\ forall i, (i < n)%nat -> length (nth i M []) = n.
Lemma square_mk2 {A} n (f : nat -> nat -> A) : square n (mk2 n n f).
Proof. unfold mk2. split; [apply length_mk|]. intros i Hi. rewrite nth_mk by auto. apply length_mk. Qed.
Lemma bd_lines_square sel (ls : list (mtl N)) : square (count_conductors ls) (snd (bd_lines sel ls)) /\
  fst (bd_lines sel ls) = count_conductors ls.
Proof.
  induction ls as [|m ls IH] using rev_ind; [split; [split; [reflexivity|intros i Hi; cbn in Hi; lia]|reflexivity]|].
  destruct IH as [IH1 IH2]. unfold bd_lines. rewrite fold_left_app. fold (bd_lines sel ls). cbn [fold_left fst snd].
  rewrite count_app, IH2. unfold count_conductors at 2 4. cbn [fold_left]. rewrite Nat.add_0_l.
  split; [|reflexivity]. apply square_mk2.
Qed.
Lemma qbd_lines_square sel (ls : list (mtl N)) : square (count_conductors ls) (snd (qbd_lines sel ls)) /\
  fst (qbd_lines sel ls) = count_conductors ls.
Proof.
  induction ls as [|m ls IH] using rev_ind; [split; [split; [reflexivity|intros i Hi; cbn in Hi; lia]|reflexivity]|].
  destruct IH as [IH1 IH2]. unfold qbd_lines. rewrite fold_left_app. fold (qbd_lines sel ls). cbn [fold_left fst snd].
  rewrite count_app, IH2. unfold count_conductors at 2 4. cbn [fold_left]. rewrite Nat.add_0_l.
  split; [|reflexivity]. apply square_mk2.
Qed.

Record binv b : Prop := {
  bi_disp : dshape (b_disp b);
  bi_n : ds_n (b_disp b) = b_conductors b;
  bi_nx : ds_nx (b_disp b) = b_cells b;
  bi_cil : b_cil b = map count_conductors (b_levels b);
  bi_s1 : ds_q1sum (b_disp b) = qsum3 (ds_q1 (b_disp b));
  bi_s2 : ds_q2sum (b_disp b) = qsum3 (ds_q2 (b_disp b));
  bi_cnt : b_conductors b = count_conductors (concat (b_levels b))
}.

(** what the constructor fixes for ever *)
Record bkept (b0 b : bundle N) : Prop := {
  bk_n : b_conductors b = b_conductors b0; bk_N : b_cells b = b_cells b0;
  bk_u : b_u b = b_u b0; bk_du : b_du b = b_du b0; bk_name : b_name b = b_name b0;
  bk_levels : b_levels b = b_levels b0; bk_cil : b_cil b = b_cil b0;
  bk_l : k_l (b_core b) = k_l (b_core b0); bk_c : k_c (b_core b) = k_c (b_core b0);
  bk_h : k_h (b_core b) = k_h (b_core b0);
  bk_ddt : ds_dt (b_disp b) = ds_dt (b_disp b0); bk_du' : ds_u (b_disp b) = ds_u (b_disp b0)
}.
Lemma bkept_refl b : bkept b b. Proof. split; auto. Qed.
Lemma bkept_trans a b c : bkept a b -> bkept b c -> bkept a c.
Proof. intros [] []; split; congruence. Qed.

Lemma mtld_new_inv levels name b : mtld_new levels name = Ok b ->
  exists outer rest, levels = [outer] :: rest /\
    (forall m, In m (concat levels) -> u_eqb (m_u outer) (m_u m) = true) /\
    b_levels b = levels /\ b_cil b = map count_conductors levels /\ b_name b = name /\
    b_u b = m_u outer /\ b_du b = m_du outer /\
    b_conductors b = count_conductors (concat levels) /\ b_cells b = (length (m_u outer) - 1)%nat.
Proof.
  unfold mtld_new. intros H. destruct levels as [|[|outer [|]] rest]; try discriminate. exists outer, rest.
  inv_bind H. injection H as <-. split; [reflexivity|]. split; [|repeat split].
  assert (F : forall l u, foldM (fun (_ : unit) m => passert (u_eqb (m_u outer) (m_u m))) l u = Ok a ->
     forall m, In m l -> u_eqb (m_u outer) (m_u m) = true).
  { induction l as [|x l IH]; intros u E m [].
    - subst x. cbn [foldM] in E. inv_bind E. now apply passert_Ok' in Ha0.
    - cbn [foldM] in E. inv_bind E. eauto. }
  exact (F _ _ Ha).
Qed.

Lemma mtld_new_binv levels name b : mtld_new levels name = Ok b -> binv b.
Proof.
  intros H. destruct (mtld_new_inv _ _ _ H) as (outer & rest & E & _ & E1 & E2 & _ & _ & _ & E3 & E4).
  subst levels. unfold mtld_new in H. inv_bind H. injection H as <-.
  split; try (rewrite E3, E1; reflexivity); try (rewrite E2, E1; reflexivity); try reflexivity.
  split; cbn [b_disp b_core k_disp ds_nx ds_n ds_d ds_e ds_q1 ds_q2 ds_q3];
    (apply cube_mk; intros k Hk;
     first [apply bd_lines_square | apply qbd_lines_square]).
Qed.

(** operations that only change voltages, currents, memory, fields, step, coefficients, probes *)
Record core_same (s s' : core N) : Prop := {
  cs_n : k_n s' = k_n s; cs_N : k_N s' = k_N s; cs_h : k_h s' = k_h s;
  cs_l : k_l s' = k_l s; cs_c : k_c s' = k_c s;
  cs_dn : ds_n (k_disp s') = ds_n (k_disp s); cs_dx : ds_nx (k_disp s') = ds_nx (k_disp s);
  cs_du : ds_u (k_disp s') = ds_u (k_disp s); cs_ddt : ds_dt (k_disp s') = ds_dt (k_disp s);
  cs_d : ds_d (k_disp s') = ds_d (k_disp s); cs_e : ds_e (k_disp s') = ds_e (k_disp s);
  cs_1 : ds_q1 (k_disp s') = ds_q1 (k_disp s); cs_2 : ds_q2 (k_disp s') = ds_q2 (k_disp s);
  cs_3 : ds_q3 (k_disp s') = ds_q3 (k_disp s);
  cs_s1 : ds_q1sum (k_disp s') = ds_q1sum (k_disp s); cs_s2 : ds_q2sum (k_disp s') = ds_q2sum (k_disp s)
}.
Lemma core_same_refl s : core_same s s. Proof. split; auto. Qed.
Lemma core_same_trans (a b c : core N) : core_same a b -> core_same b c -> core_same a c.
Proof. intros [] []; split; congruence. Qed.

Lemma core_same_binv b s ps : core_same (b_core b) s -> binv b -> binv (b_set b s ps) /\ bkept b (b_set b s ps).
Proof.
  intros [] [[]]. unfold b_disp, b_conductors, b_cells in *. split.
  - split; unfold b_disp, b_conductors, b_cells in *; cbn [b_set b_core b_levels b_cil]; try congruence.
    split; congruence.
  - split; unfold b_disp, b_conductors, b_cells in *; cbn [b_set b_core b_levels b_cil b_u b_du b_name]; congruence.
Qed.

Lemma lr_core_same s s' : update_lr_terms LA s = Ok s' -> core_same s s'.
Proof. intros H. apply update_lr_inv in H as [t ->]. split; reflexivity. Qed.
Lemma cg_core_same s s' : update_cg_terms LA s = Ok s' -> core_same s s'.
Proof. intros H. apply update_cg_inv in H as [t ->]. split; reflexivity. Qed.
Lemma advv_core_same s f s' : advance_voltage s f = Ok s' -> core_same s s'.
Proof. unfold advance_voltage. destruct (k_cg s) as [[? ?]|]; [|discriminate]. intros E. injection E as <-. split; reflexivity. Qed.
Lemma advi_core_same s f s' : advance_current s f = Ok s' -> core_same s s'.
Proof.
  unfold advance_current. intros H. inv_bind H. destruct (k_lr s) as [[? ?]|]; [|discriminate]. inv_bind H. injection H as <-.
  unfold update_q3_phi_term in Ha. inv_bind Ha. injection Ha as <-.
  unfold update_phi in Ha0. inv_bind Ha0. injection Ha0 as <-. split; reflexivity.
Qed.

Lemma marches_same b b' : marches LA b b' ->
  core_same (b_core b) (b_core b') /\ b_levels b' = b_levels b /\ b_cil b' = b_cil b /\
  b_u b' = b_u b /\ b_du b' = b_du b /\ b_name b' = b_name b.
Proof.
  induction 1 as [|x dt Hx (IH & I1)|x steps x' Hx (IH & I1) H|x t dt x' Hx (IH & I1) H|x c last v Hx (IH & I1) Hc
                 |x t dt x' Hx (IH & I1) H|x t x' Hx (IH & I1) H].
  - split; [apply core_same_refl|auto].
  - split; [|exact I1]. eapply core_same_trans; [exact IH|]. split; reflexivity.
  - unfold bundle_prepare in H. inv_bind H. inv_bind H. injection H as <-. split; [|exact I1].
    eapply core_same_trans; [exact IH|]. eapply core_same_trans; [eapply lr_core_same; eauto|eapply cg_core_same; eauto].
  - unfold bundle_advance_voltage in H. inv_bind H. injection H as <-. split; [|exact I1].
    eapply core_same_trans; [exact IH|]. eapply advv_core_same; eauto.
  - split; [|exact I1]. eapply core_same_trans; [exact IH|]. split; reflexivity.
  - unfold bundle_advance_current in H. inv_bind H. injection H as <-. split; [|exact I1].
    eapply core_same_trans; [exact IH|]. eapply advi_core_same; eauto.
  - unfold bundle_update_probes in H. inv_bind H. injection H as <-. split; [exact IH|exact I1].
Qed.
Lemma marches_binv b b' : marches LA b b' -> binv b -> binv b' /\ bkept b b'.
Proof.
  intros H Hb. destruct (marches_same _ _ H) as (Hc & H1 & H2 & H3 & H4 & H5).
  destruct (core_same_binv b (b_core b') (b_probes b') Hc Hb) as [I J].
  replace (b_set b (b_core b') (b_probes b')) with b' in I, J; [auto|].
  destruct b', b; cbn in *; subst; reflexivity.
Qed.

(** transfer impedances keep the shape *)
Lemma ti_pair_shape s i j d e poles (residues : list (cplx N)) s' : dshape s -> length residues = length poles ->
  ti_pair s i j d e poles residues = Ok s' -> dshape s' /\ dkept s s'.
Proof. intros H1 H2 H3. destruct (ti_pair_spec _ _ _ _ _ _ _ _ H1 H2 H3) as (? & ? & _). auto. Qed.

Lemma ti_set_shape (s : disp N) index i j d e poles residues s' : dshape s ->
  ti_set s index i j d e poles residues = Ok s' -> dshape s' /\ dkept s s'.
Proof.
  intros [] H. unfold ti_set in H. destruct (negb _); [discriminate|]. destruct (_ && _); injection H as <-;
  (split; [split; cbn; auto using cube_upd|split; reflexivity]).
Qed.

Lemma add_ti_shape (s : disp N) lv ol oc il ic m s' : dshape s ->
  add_transfer_impedance s lv ol oc il ic m = Ok s' -> dshape s' /\ dkept s s' /\
  (s' = s \/ ds_q1sum s' = qsum3 (ds_q1 s') /\ ds_q2sum s' = qsum3 (ds_q2 s')).
Proof.
  intros Hs H. unfold add_transfer_impedance in H. inv_bind H. destruct (_ =? _); [discriminate|]. inv_bind H.
  destruct (rm_null _ _ _). { injection H as <-. split; [exact Hs|]. split; [apply dkept_refl|now left]. }
  inv_bind H. injection H as <-.
  assert (El : length (rm_residues m (rm_f m)) = length (rm_poles m)) by (now rewrite length_poles, length_residues).
  assert (I : dshape a1 /\ dkept s a1).
  { eapply (foldM_inv (fun x => dshape x /\ dkept s x)); [| |exact Ha1]; [|split; [exact Hs|apply dkept_refl]].
    intros i x y _ [X1 X2] E.
    eapply (foldM_inv (fun x => dshape x /\ dkept s x)); [| |exact E]; [|split; assumption].
    intros j z w _ [Z1 Z2] E2. inv_bind E2.
    assert (dshape a2 /\ dkept s a2) as [A1 A2].
    { destruct (dir_in m); [|injection Ha2 as <-; auto].
      destruct (ti_pair_shape _ _ _ _ _ _ _ _ Z1 El Ha2).
      split; [auto|]. eapply dkept_trans; eauto. }
    destruct (dir_out m); [|injection E2 as <-; auto].
    destruct (ti_pair_shape _ _ _ _ _ _ _ _ A1 El E2).
    split; [auto|]. eapply dkept_trans; eauto. }
  destruct I as [[] []]. split; [split; cbn; auto|]. split; [split; cbn; auto|]. right. split; reflexivity.
Qed.
Lemma set_ti_shape (s : disp N) lv ol oc il ic ix m s' : dshape s ->
  set_transfer_impedance_at_index s lv ol oc il ic ix m = Ok s' -> dshape s' /\ dkept s s' /\
  (s' = s \/ ds_q1sum s' = qsum3 (ds_q1 s') /\ ds_q2sum s' = qsum3 (ds_q2 s')).
Proof.
  intros Hs H. unfold set_transfer_impedance_at_index in H. inv_bind H. destruct (_ =? _); [discriminate|]. inv_bind H.
  destruct (rm_null _ _ _). { injection H as <-. split; [exact Hs|]. split; [apply dkept_refl|now left]. }
  inv_bind H. injection H as <-.
  assert (I : dshape a1 /\ dkept s a1).
  { eapply (foldM_inv (fun x => dshape x /\ dkept s x)); [| |exact Ha1]; [|split; [exact Hs|apply dkept_refl]].
    intros i x y _ [X1 X2] E.
    eapply (foldM_inv (fun x => dshape x /\ dkept s x)); [| |exact E]; [|split; assumption].
    intros j z w _ [Z1 Z2] E2. inv_bind E2.
    assert (dshape a2 /\ dkept s a2) as [A1 A2].
    { destruct (dir_in m); [|injection Ha2 as <-; auto].
      destruct (ti_set_shape _ _ _ _ _ _ _ _ _ Z1 Ha2).
      split; [auto|]. eapply dkept_trans; eauto. }
    destruct (dir_out m); [|injection E2 as <-; auto].
    destruct (ti_set_shape _ _ _ _ _ _ _ _ _ A1 E2).
    split; [auto|]. eapply dkept_trans; eauto. }
  destruct I as [[] []]. split; [split; cbn; auto|]. split; [split; cbn; auto|]. right. split; reflexivity.
Qed.

Lemma new_disp_binv b d : binv b -> dshape d -> dkept (b_disp b) d ->
  (d = b_disp b \/ ds_q1sum d = qsum3 (ds_q1 d) /\ ds_q2sum d = qsum3 (ds_q2 d)) ->
  binv (b_set_core b (set_disp (b_core b) d)) /\ bkept b (b_set_core b (set_disp (b_core b) d)).
Proof.
  intros [] Hd [] Hsum. unfold b_disp, b_conductors, b_cells in *. split.
  - split; unfold b_disp, b_conductors, b_cells in *; cbn;
      destruct Hsum as [->|[]]; auto; congruence.
  - split; unfold b_disp, b_conductors, b_cells in *;
      cbn; congruence.
Qed.

Lemma history_binv b0 b : bundle_history LA b0 b -> binv b /\ bkept b0 b.
Proof.
  induction 1 as [H|b b' HH [IH K] H|b eL eT HH [IH K]|b s e c f ty b' HH [IH K] H|b p ty b' HH [IH K] H
    |b ol oc il ic m b' HH [IH K] H|b side ol oc il ic m b' HH [IH K] H|b s e c R b' HH [IH K] H|b s e c G b' HH [IH K] H].
  - destruct H as (levels & name & _ & H). split; [eapply mtld_new_binv; eauto|apply bkept_refl].
  - destruct (marches_binv _ _ H IH) as [I J]. split; [exact I|]. eapply bkept_trans; eauto.
  - destruct (core_same_binv b (set_fields (b_core b) eL eT) (b_probes b)) as [I J]; [split; reflexivity|exact IH|].
    split; [exact I|]. eapply bkept_trans; eauto.
  - unfold add_localized_longitudinal_field in H. destruct (_ || _); [discriminate|]. inv_bind H. inv_bind H. inv_bind H.
    injection H as <-. destruct (core_same_binv b (set_fields (b_core b) a1 (k_eT (b_core b))) (b_probes b)) as [I J];
      [split; reflexivity|exact IH|]. split; [exact I|]. eapply bkept_trans; eauto.
  - unfold bundle_add_probe in H. destruct (probe_on_cells _ _ _ _); [|discriminate]. injection H as <-.
    destruct (core_same_binv b (b_core b) (b_probes b ++ [probe_new (pos_vec p) ty (k_dt (b_core b)) (b_u b)])) as [I J];
      [apply core_same_refl|exact IH|]. split; [exact I|]. eapply bkept_trans; eauto.
  - unfold bundle_add_transfer_impedance in H. inv_bind H. injection H as <-.
    destruct (add_ti_shape _ _ _ _ _ _ _ _ (bi_disp _ IH) Ha) as (D1 & D2 & D3).
    destruct (new_disp_binv b a IH D1 D2 D3) as [I J]. split; [exact I|]. eapply bkept_trans; eauto.
  - unfold set_connector_transfer_impedance in H. inv_bind H. inv_bind H. injection H as <-.
    destruct (set_ti_shape _ _ _ _ _ _ _ _ _ (bi_disp _ IH) Ha0) as (D1 & D2 & D3).
    destruct (new_disp_binv b a0 IH D1 D2 D3) as [I J]. split; [exact I|]. eapply bkept_trans; eauto.
  - unfold bundle_set_resistance in H. inv_bind H. inv_bind H. inv_bind H. inv_bind H. injection H as <-.
    destruct (core_same_binv b a2 (b_probes b)) as [I J]; [|exact IH|].
    + eapply core_same_trans; [|eapply lr_core_same; eauto]. split; reflexivity.
    + split; [exact I|]. eapply bkept_trans; eauto.
  - unfold bundle_add_conductance in H. inv_bind H. inv_bind H. inv_bind H. inv_bind H. injection H as <-.
    destruct (core_same_binv b a2 (b_probes b)) as [I J]; [|exact IH|].
    + eapply core_same_trans; [|eapply cg_core_same; eauto]. split; reflexivity.
    + split; [exact I|]. eapply bkept_trans; eauto.
Qed.
Lemma reachable_binv b : reachable_bundle LA b -> binv b.
Proof. intros [b0 H]. apply (history_binv _ _ H). Qed.
End BundleFacts.
