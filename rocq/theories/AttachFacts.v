(** Probes and sources: which node they are attached to. *)
From Coq Require Import String List Arith ZArith Bool Lia Reals Lra.
From Verif Require Import Num Py Arr ArrFacts NumR RFacts Probes Dispersive Line LineFacts
  SpecLine SpecR HistoryFacts NearestFacts.
Import ListNotations.

Section Attach.
Context {N : num}.
Variable LA : lapack N.
Implicit Types (m : mtl N).

(** the source table has one entry per conductor and node *)
Definition vsrc_shape m : Prop :=
  length (m_vsrc m) = conductors m /\
  forall c, (c < conductors m)%nat -> length (nth c (m_vsrc m) []) = S (cells m).

Lemma vsrc_shape_same m m' : m_vsrc m' = m_vsrc m -> conductors m' = conductors m -> cells m' = cells m ->
  vsrc_shape m -> vsrc_shape m'.
Proof. unfold vsrc_shape. intros -> -> ->. auto. Qed.

Lemma steps_vsrc j : forall m m', shape m -> iterM j mtl_step m = Ok m' -> m_vsrc m' = m_vsrc m.
Proof.
  induction j as [|j IH]; simpl; intros m m' Sh H; [now injection H as <-|].
  inv_bind H. destruct (shape_step _ _ Sh Ha) as [S1 _].
  rewrite (IH _ _ S1 H). apply (sl_vsrc _ _ (mtl_step_same _ _ (sh_N _ Sh) Ha)).
Qed.

Lemma history_vsrc m0 m : history LA m0 m -> vsrc_shape m.
Proof.
  induction 1 as [H| |m a b c R m' HH IH H|m a b c R m' HH IH H|m p c f m' HH IH H| |m p ty m' HH IH H|m p c model m' HH IH H
    |m m' HH IH H|m T m' HH IH H|].
  - destruct H as (ju & jdu & l & c & r & g & len & np & ndiv & zs & zl & name & H).
    apply mtl_new_inv in H. decompose [and] H. unfold vsrc_shape, conductors, cells.
    match goal with E : m_vsrc _ = _ |- _ => rewrite E end. unfold mk2. split; [apply length_mk|].
    intros c' Hc. rewrite nth_mk by auto. apply length_mk.
  - exact IHhistory.
  - unfold set_resistance_in_region in H. inv_bind H. inv_bind H. inv_bind H. injection H as <-.
    apply update_lr_inv in Ha1 as [t ->]. exact IH.
  - unfold add_conductance_in_region in H. inv_bind H. inv_bind H. inv_bind H. inv_bind H. injection H as <-.
    apply update_cg_inv in Ha2 as [t ->]. exact IH.
  - unfold add_voltage_source in H. destruct (c <? _)%nat; [|discriminate]. injection H as <-.
    destruct IH as [I1 I2]. unfold vsrc_shape, conductors, cells, upd2. cbn [m_vsrc m_set_vsrc m_core].
    split; [now rewrite length_lset|]. intros c' Hc. rewrite nth_lset.
    destruct (_ && _) eqn:E; [|now apply I2]. rewrite length_lset. apply andb_true_iff in E as [E _].
    apply Nat.eqb_eq in E as ->. now apply I2.
  - exact IHhistory.
  - unfold add_probe in H. destruct (out_of_box _ _); [discriminate|]. injection H as <-. exact IH.
  - unfold mtl_add_dispersive_connector in H. inv_bind H. injection H as <-. exact IH.
  - pose proof (history_shape LA _ _ HH) as [Sh _]. destruct (mtl_step_same _ _ (sh_N _ Sh) H) as [? ? ? ? ? ? ? ? ? ? [] ?].
    eapply vsrc_shape_same; eauto.
  - pose proof (history_shape LA _ _ HH) as [Sh _]. destruct (shape_run LA _ _ _ Sh H) as [_ []].
    unfold run_until in H. inv_bind H. inv_bind H. destruct (shape_prepare LA _ _ _ Sh Ha0) as [S1 _].
    pose proof (steps_vsrc _ _ _ S1 H) as E. apply prepare_inv in Ha0 as (t1 & t2 & _ & ->).
    eapply vsrc_shape_same; eauto.
  - exact IHhistory.
Qed.

Lemma add_source_effect m p c f m' : vsrc_shape m -> add_voltage_source m p c f = Ok m' ->
  (c < conductors m)%nat /\
  (nearest (m_u m) (pos_vec p) < S (cells m) ->
   forall j i, source m' j i = if ((j =? c) && (i =? nearest (m_u m) (pos_vec p)))%nat then f else source m j i)%nat.
Proof.
  intros [I1 I2] H. unfold add_voltage_source in H. destruct (Nat.ltb_spec c (k_n (m_core m))) as [Hc|Hc]; [|discriminate].
  fold (conductors m) in Hc. injection H as <-. split; [exact Hc|]. intros Hk j i. unfold source, upd2. cbn [m_vsrc m_set_vsrc].
  rewrite nth_lset, I1, (proj2 (Nat.ltb_lt _ _) Hc), andb_true_r, (Nat.eqb_sym c j).
  destruct (Nat.eqb_spec j c) as [->|E]; [|reflexivity]. cbn [andb].
  rewrite nth_lset, I2, (proj2 (Nat.ltb_lt _ _) Hk), andb_true_r by auto.
  rewrite (Nat.eqb_sym _ i). destruct (_ =? _)%nat; reflexivity.
Qed.
End Attach.
