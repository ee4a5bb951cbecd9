(** The two region edits of a bundle, at any time of its life. *)
From Coq Require Import String List Arith ZArith Bool Lia Reals Lra.
From Verif Require Import Num Py Arr ArrFacts NumR RFacts LapackR Utils Probes Dispersive Line LineFacts Bundle Networks Mtln SpecLine SpecBundle SpecGeom SpecRegion SpecR
  HistoryFacts NearestFacts BundleFacts WaveProps GeomProps GeomProps2 GeomProps3 GeomProps4 GeomProps5.
Import ListNotations.
Local Open Scope R_scope.

Record bfull (b : bundle NumR) : Prop := {
  bf_r : full (b_conductors b) (b_cells b) (k_r (b_core b));
  bf_g : full (b_conductors b) (S (b_cells b)) (k_g (b_core b));
  bf_u : length (b_u b) = S (b_cells b);
  bf_du : length (b_du b) = b_cells b }.

Lemma marches_rg (LA : lapack NumR) (b b' : bundle NumR) : marches LA b b' -> k_r (b_core b') = k_r (b_core b) /\ k_g (b_core b') = k_g (b_core b).
Proof.
  induction 1 as [|x dt Hx IH|x steps x' Hx IH H|x t dt x' Hx IH H|x c last v Hx IH Hc|x t dt x' Hx IH H|x t x' Hx IH H].
  - auto.
  - exact IH.
  - unfold bundle_prepare in H. inv_bind H. inv_bind H. apply (f_equal (fun r => match r with Ok a => a | _ => x' end)) in H. subst x'.
    apply update_lr_inv in Ha as [t1 ->]. apply update_cg_inv in Ha0 as [t2 ->]. exact IH.
  - unfold bundle_advance_voltage in H. inv_bind H. apply (f_equal (fun r => match r with Ok a => a | _ => x' end)) in H. subst x'.
    unfold advance_voltage in Ha. destruct (k_cg (b_core x)) as [[? ?]|]; [|discriminate Ha]. apply (f_equal (fun r => match r with Ok a => a | _ => a end)) in Ha. subst a.
    exact IH.
  - exact IH.
  - unfold bundle_advance_current in H. inv_bind H. apply (f_equal (fun r => match r with Ok a => a | _ => x' end)) in H. subst x'.
    unfold advance_current in Ha. inv_bind Ha. destruct (k_lr (b_core x)) as [[? ?]|]; [|discriminate Ha]. inv_bind Ha. cbv zeta in Ha.
    apply (f_equal (fun r => match r with Ok a => a | _ => a end)) in Ha. subst a. exact IH.
  - unfold bundle_update_probes in H. inv_bind H. apply (f_equal (fun r => match r with Ok a => a | _ => x' end)) in H. subst x'. exact IH.
Qed.

Lemma built_bfull (LA : lapack NumR) (b : bundle NumR) : bundle_built LA b -> bfull b.
Proof.
  intros (levels & name & HR & H). unfold mtld_new in H. destruct levels as [|[|outer [|]] rest]; try discriminate H.
  assert (Sh : shape outer).
  { apply (reachable_shape LA). inversion HR as [|? ? H1 ?]. now inversion H1. }
  inv_bind H. injection H as <-. destruct Sh. unfold cells in *.
  assert (L : @length (vec NumR) (m_u outer) = S (k_N (m_core outer))) by exact sh_u.
  split; unfold b_conductors, b_cells; cbn [b_core k_n k_N k_r k_g b_u b_du].
  - split; [apply length_mk|]. intros k Hk. rewrite getm_mk by exact Hk. apply bd_lines_length.
  - split; [apply length_mk|]. intros k Hk. rewrite getm_mk by exact Hk. apply bd_lines_length.
  - lia.
  - rewrite L, sh_du. lia.
Qed.

Lemma history_bfull (LA : lapack NumR) (b0 b : bundle NumR) : bundle_history LA b0 b -> bfull b.
Proof.
  induction 1 as [H|b b' HH IH H|b eL eT HH IH|b s e c f ty b' HH IH H|b p ty b' HH IH H
    |b ol oc il ic m b' HH IH H|b side ol oc il ic m b' HH IH H|b s e c R b' HH IH H|b s e c G b' HH IH H].
  - eapply built_bfull; eauto.
  - destruct (marches_rg LA _ _ H) as [E1 E2]. destruct (marches_same LA _ _ H) as ([] & _ & _ & E3 & E4 & _).
    destruct IH. unfold b_conductors, b_cells in *. split; unfold b_conductors, b_cells; congruence.
  - destruct IH; now split.
  - unfold add_localized_longitudinal_field in H. destruct (_ || _); [discriminate H|]. inv_bind H. inv_bind H. inv_bind H. injection H as <-. destruct IH; now split.
  - unfold bundle_add_probe in H. destruct (probe_on_cells _ _ _ _); [|discriminate H]. injection H as <-. destruct IH; now split.
  - unfold bundle_add_transfer_impedance in H. inv_bind H. injection H as <-. destruct IH; now split.
  - unfold set_connector_transfer_impedance in H. inv_bind H. inv_bind H. injection H as <-. destruct IH; now split.
  - unfold bundle_set_resistance in H. inv_bind H. inv_bind H. inv_bind H. inv_bind H. injection H as <-.
    apply update_lr_inv in Ha2 as [t1 ->]. apply region_assign_inv in Ha1 as (_ & _ & ->).
    destruct IH; split; auto. now apply full_lset.
  - unfold bundle_add_conductance in H. inv_bind H. inv_bind H. inv_bind H. inv_bind H. injection H as <-.
    apply update_cg_inv in Ha2 as [t1 ->]. apply region_assign_inv in Ha1 as (_ & _ & ->).
    destruct IH; split; auto. now apply full_lset.
Qed.

Lemma bundle_resistance LA (b b' : bundle NumR) (p q : posarg NumR) c (x : R) k1 k2 : reachable_bundle LA b ->
  closest (b_u b) (pos_vec p) k1 -> closest (b_u b) (pos_vec q) k2 ->
  bundle_set_resistance LA b p q c x = Ok b' ->
  (c < b_conductors b)%nat /\ (k1 + c <= k2)%nat /\ (k1 + c < b_cells b)%nat /\ bundle_rest b b' /\ k_g (b_core b') = k_g (b_core b) /\
  forall k i j, (j < b_conductors b)%nat -> get3 (k_r (b_core b')) k i j =
    if (k =? k1 + c)%nat && (i =? c)%nat then x / bundle_region_len b k1 k2 else get3 (k_r (b_core b)) k i j.
Proof.
  intros [b0 HH] C1 C2 H. destruct (history_bfull _ _ _ HH) as [[F1 F2] _ Lu Ld]. unfold bundle_set_resistance in H.
  rewrite (closest_nearest _ _ _ C1), (closest_nearest _ _ _ C2) in H. fold (b_conductors b) in H.
  inv_bind H. inv_bind H. inv_bind H. inv_bind H. injection H as <-. apply update_lr_inv in Ha2 as [t ->].
  apply region_assign_inv in Ha1 as (Hc & Hlen & ->). rewrite F1 in Hlen.
  split; [exact Hc|]. split; [lia|]. split; [lia|]. split; [|split; [reflexivity|]].
  - unfold bundle_rest. repeat (split; [reflexivity|]). reflexivity.
  - intros k i j Hj. cbn [b_core b_set_core b_set set_lr set_r k_r].
    rewrite set_row; [|rewrite F1; lia|rewrite F2 by lia; exact Hc|exact Hj].
    destruct ((k =? k1 + c)%nat && (i =? c)%nat); auto. unfold bundle_region_len.
    destruct (Nat.eqb_spec k1 k2) as [E|E]; cbn [negb] in Ha0.
    + inv_bind Ha0. injection Ha0 as <-. unfold py_get in Ha1. destruct (nth_error (b_du b) k1) eqn:E1; [|discriminate]. injection Ha1 as ->.
      apply nth_error_nth with (d := []) in E1. rewrite E1. apply (f_equal (Rdiv x)), norm3_vnorm.
    + injection Ha0 as <-. apply (f_equal (Rdiv x)), vsub_dist.
Qed.
Lemma bundle_conductance LA (b b' : bundle NumR) (p q : posarg NumR) c (x : R) k1 k2 : reachable_bundle LA b ->
  closest (b_u b) (pos_vec p) k1 -> closest (b_u b) (pos_vec q) k2 ->
  bundle_add_conductance LA b p q c x = Ok b' ->
  (c < b_conductors b)%nat /\ (k1 + c <= k2)%nat /\ bundle_rest b b' /\ k_r (b_core b') = k_r (b_core b) /\
  forall k i j, (j < b_conductors b)%nat -> get3 (k_g (b_core b')) k i j =
    if (k =? k1 + c)%nat && (i =? c)%nat then x / bundle_region_len b k1 k2 else get3 (k_g (b_core b)) k i j.
Proof.
  intros [b0 HH] C1 C2 H. destruct (history_bfull _ _ _ HH) as [_ Fg Lu Ld]. rewrite <- Lu in Fg.
  destruct (bundle_conductance_effect LA b b' p q c x k1 k2 Fg C1 C2 H) as (H1 & H2 & H3).
  split; [exact H1|]. split; [exact H2|]. split; [|split; [|exact H3]];
    unfold bundle_add_conductance in H; inv_bind H; inv_bind H; inv_bind H; inv_bind H; injection H as <-; apply update_cg_inv in Ha2 as [t ->]; [|reflexivity].
  unfold bundle_rest. repeat (split; [reflexivity|]). reflexivity.
Qed.
Lemma bundle_raises LA (b : bundle NumR) (p q : posarg NumR) c (x : R) k1 k2 : reachable_bundle LA b ->
  closest (b_u b) (pos_vec p) k1 -> closest (b_u b) (pos_vec q) k2 -> assert_ge q p = Ok tt ->
  (~ ((c < b_conductors b)%nat /\ (k1 + c <= k2)%nat /\ (k1 + c < b_cells b)%nat) -> bundle_set_resistance LA b p q c x = Err IndexError) /\
  (~ ((c < b_conductors b)%nat /\ (k1 + c <= k2)%nat) \/ (k1 = k2 /\ k1 = b_cells b) -> bundle_add_conductance LA b p q c x = Err IndexError).
Proof.
  intros [b0 HH] C1 C2 HA. destruct (history_bfull _ _ _ HH) as [[F1 F2] [G1 G2] Lu Ld].
  assert (B1 : (k1 < S (b_cells b))%nat) by (rewrite <- Lu; exact (proj1 C1)).
  assert (B2 : (k2 < S (b_cells b))%nat) by (rewrite <- Lu; exact (proj1 C2)).
  split; intros H; [unfold bundle_set_resistance|unfold bundle_add_conductance]; rewrite HA; cbn [bind];
    rewrite (closest_nearest _ _ _ C1), (closest_nearest _ _ _ C2); fold (b_conductors b).
  - destruct (Nat.eqb_spec k1 k2) as [E|E]; cbn [negb bind].
    + unfold py_get. destruct (nth_error (b_du b) k1) eqn:E1; [|reflexivity]. cbn [bind]. unfold region_assign. rewrite F1.
      destruct (Nat.ltb_spec c (Nat.min (S k2) (b_cells b) - k1)) as [H1|H1]; [|reflexivity].
      destruct (Nat.ltb_spec c (b_conductors b)) as [H2|H2]; [|reflexivity]. exfalso. apply H. split; [auto|]. lia.
    + unfold region_assign. rewrite F1.
      destruct (Nat.ltb_spec c (Nat.min (S k2) (b_cells b) - k1)) as [H1|H1]; [|reflexivity].
      destruct (Nat.ltb_spec c (b_conductors b)) as [H2|H2]; [|reflexivity]. exfalso. apply H. split; [auto|]. lia.
  - destruct (Nat.eqb_spec k1 k2) as [E|E]; cbn [negb bind].
    + unfold py_get. destruct (nth_error (b_du b) k1) eqn:E1; [|reflexivity]. cbn [bind].
      assert (K : (k1 < b_cells b)%nat) by (rewrite <- Ld; apply nth_error_Some; congruence).
      destruct H as [H|H]; [|lia]. unfold region_assign. rewrite G1.
      destruct (Nat.ltb_spec c (Nat.min (S k2) (S (b_cells b)) - k1)) as [H1|H1]; [|reflexivity].
      destruct (Nat.ltb_spec c (b_conductors b)) as [H2|H2]; [|reflexivity]. exfalso. apply H. split; [auto|]. lia.
    + destruct H as [H|H]; [|lia]. unfold region_assign. rewrite G1.
      destruct (Nat.ltb_spec c (Nat.min (S k2) (S (b_cells b)) - k1)) as [H1|H1]; [|reflexivity].
      destruct (Nat.ltb_spec c (b_conductors b)) as [H2|H2]; [|reflexivity]. exfalso. apply H. split; [auto|]. lia.
Qed.
