(** What happens to the probes of a line (any [num]). *)
From Coq Require Import String List Arith ZArith Bool Lia.
From Verif Require Import Num Py Arr ArrFacts Probes Dispersive Line LineFacts SpecLine HistoryFacts NearestFacts.
Import ListNotations.

Section ProbeFacts.
Context {N : num}.
Variable LA : lapack N.
Implicit Types (m : mtl N) (p q : probe N).

(** what an update never changes *)
Definition pkept p q : Prop := p_type q = p_type p /\ p_index q = p_index p /\ p_dt q = p_dt p.
Lemma pkept_refl p : pkept p p. Proof. repeat split. Qed.
Lemma pkept_trans a b c : pkept a b -> pkept b c -> pkept a c.
Proof. intros (? & ? & ?) (? & ? & ?). repeat split; congruence. Qed.

Lemma save_frame_kept p t n (v i : mat N) vol idx q : save_frame p t n v i vol idx = Ok q -> pkept p q.
Proof.
  unfold save_frame. destruct (_ <? _)%nat.
  - destruct (p_val p); try discriminate. intros H. inv_bind H. injection H as <-. repeat split.
  - intros H. injection H as <-. repeat split.
Qed.
Lemma probe_update_kept p t n cells (v i : mat N) q : probe_update p t n cells v i = Ok q -> pkept p q.
Proof.
  unfold probe_update. intros H.
  repeat match type of H with context [if ?b then _ else _] => destruct b end; try discriminate;
    eapply save_frame_kept; eauto.
Qed.
Lemma update_probes_kept s t ps qs : update_probes s t ps = Ok qs -> Forall2 pkept ps qs.
Proof.
  unfold update_probes. intros H. apply mapM_Ok in H. induction H as [|a b l bs H _ IH]; constructor; auto.
  eapply probe_update_kept; eauto.
Qed.
Lemma step_probes m m' : (1 <= k_N (m_core m))%nat -> mtl_step m = Ok m' ->
  Forall2 (fun p q => probe_update p (m_time m') (conductors m) (cells m) (k_v (m_core m')) (k_i (m_core m')) = Ok q)
    (m_probes m) (m_probes m').
Proof.
  intros HN H. pose proof (mtl_step_same m m' HN H) as SL. destruct (mtl_step_inv m m' HN H)
    as (vt & idf & it & vd & d1 & d2 & ps & _ & _ & _ & _ & _ & _ & _ & Hps & Hm).
  assert (E : m_probes m' = ps) by (apply (f_equal m_probes) in Hm; exact Hm).
  assert (Et : m_time m' = (m_time m + k_dt (m_core m))%num) by (apply (f_equal m_time) in Hm; exact Hm).
  rewrite E, Et. unfold update_probes in Hps. apply mapM_Ok in Hps.
  rewrite (ss_n _ _ (sl_core _ _ SL)), (ss_N _ _ (sl_core _ _ SL)) in Hps. exact Hps.
Qed.
Lemma Forall2_impl {A B} (P Q : A -> B -> Prop) l l' : (forall a b, P a b -> Q a b) -> Forall2 P l l' -> Forall2 Q l l'.
Proof. intros H. induction 1; constructor; auto. Qed.
Lemma step_probes_kept m m' : (1 <= k_N (m_core m))%nat -> mtl_step m = Ok m' -> Forall2 pkept (m_probes m) (m_probes m').
Proof.
  intros HN H. eapply Forall2_impl; [|apply (step_probes _ _ HN H)].
  intros p q. apply probe_update_kept.
Qed.

Lemma Forall2_pkept_index n ps qs : Forall2 pkept ps qs -> Forall (fun p => (p_index p <= n)%nat) ps ->
  Forall (fun p => (p_index p <= n)%nat) qs.
Proof. induction 1 as [|a b l l' (_ & E & _) _ IH]; intros F; inversion F; subst; constructor; auto. now rewrite E. Qed.

Lemma steps_probe_index j : forall m m', shape m -> iterM j mtl_step m = Ok m' ->
  Forall (fun p => (p_index p <= cells m)%nat) (m_probes m) -> Forall (fun p => (p_index p <= cells m)%nat) (m_probes m').
Proof.
  induction j as [|j IH]; simpl; intros m m' Sh H F; [now injection H as <-|].
  inv_bind H. destruct (shape_step _ _ Sh Ha) as [S1 K1].
  pose proof (Forall2_pkept_index _ _ _ (step_probes_kept _ _ (sh_N _ Sh) Ha) F) as F1.
  assert (E : cells a = cells m) by apply (kp_N _ _ K1). rewrite <- E in F1 |- *. eapply IH; eauto.
Qed.

(** every probe of a reachable line sits on one of its nodes *)
Lemma history_probe_index m0 m : history LA m0 m -> Forall (fun p => (p_index p <= cells m)%nat) (m_probes m).
Proof.
  induction 1 as [H| |m a b c R m' HH IH H|m a b c R m' HH IH H|m p c f m' HH IH H| |m p ty m' HH IH H|m p c model m' HH IH H
    |m m' HH IH H|m T m' HH IH H|m HH IH].
  - destruct H as (ju & jdu & l & c & r & g & len & np & ndiv & zs & zl & name & H).
    apply mtl_new_inv in H. decompose [and] H. match goal with E : m_probes _ = [] |- _ => rewrite E end. constructor.
  - exact IHhistory.
  - unfold set_resistance_in_region in H. inv_bind H. inv_bind H. inv_bind H. injection H as <-.
    apply update_lr_inv in Ha1 as [t ->]. exact IH.
  - unfold add_conductance_in_region in H. inv_bind H. inv_bind H. inv_bind H. inv_bind H. injection H as <-.
    apply update_cg_inv in Ha2 as [t ->]. exact IH.
  - unfold add_voltage_source in H. destruct (c <? _)%nat; [|discriminate]. injection H as <-. exact IH.
  - exact IHhistory.
  - pose proof (history_shape LA _ _ HH) as [Sh _].
    unfold add_probe in H. destruct (out_of_box _ _); [discriminate|]. injection H as <-. cbn.
    apply Forall_app. split; [exact IH|]. constructor; [|constructor]. cbn.
    pose proof (nearest_lt (m_u m) (pos_vec p)) as L. rewrite (sh_u _ Sh) in L. apply Nat.lt_succ_r, L.
    intros E. pose proof (sh_u _ Sh) as F. rewrite E in F. discriminate.
  - unfold mtl_add_dispersive_connector in H. inv_bind H. injection H as <-. exact IH.
  - pose proof (history_shape LA _ _ HH) as [Sh _]. destruct (shape_step _ _ Sh H) as [_ K].
    assert (E : cells m' = cells m) by apply (kp_N _ _ K). rewrite E.
    eapply Forall2_pkept_index; [apply (step_probes_kept _ _ (sh_N _ Sh) H)|exact IH].
  - pose proof (history_shape LA _ _ HH) as [Sh _]. destruct (shape_run LA _ _ _ Sh H) as [_ K].
    assert (E : cells m' = cells m) by apply (kp_N _ _ K). rewrite E.
    unfold run_until in H. inv_bind H. inv_bind H. destruct (shape_prepare LA _ _ _ Sh Ha0) as [S1 K1].
    assert (E1 : cells a0 = cells m) by apply (kp_N _ _ K1). rewrite <- E1.
    eapply steps_probe_index; eauto. rewrite E1.
    apply prepare_inv in Ha0 as (t1 & t2 & _ & ->). cbn. clear - IH. induction IH; constructor; auto.
  - cbn. clear - IH. change (Forall (fun p => (p_index p <= cells m)%nat) (map (copy_probe (m_core m)) (m_probes m))).
    induction IH; constructor; auto.
Qed.
End ProbeFacts.
