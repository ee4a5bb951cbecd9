(** A step is a field part, which does not look at the probes, followed by the probe updates
    (any [num]). *)
From Coq Require Import String List Arith ZArith Bool Lia.
From Verif Require Import Num Py Arr ArrFacts Probes Dispersive Line LineFacts SpecLine HistoryFacts StepTotal ProbeFacts.
Import ListNotations.

Section SplitFacts.
Context {N : num}.
Local Open Scope num_scope.
Variable LA : lapack N.
Implicit Types (m : mtl N) (p q : probe N).

(** the field part of mtl_step *)
Definition step_core m : res (core N) :=
  let dt := k_dt (m_core m) in
  let vsn := eval_at (m_vsrc m) (m_time m) in
  let vsp := eval_at (m_vsrc m) (m_time m - dt) in
  let f := eval_fields (k_eL (m_core m)) (k_eT (m_core m)) (m_time m) dt in
  s2 <- advance_voltage (advance_left_terminal m (m_core m) f vsn vsp) f ;;
  advance_current (advance_right_terminal m s2 f vsn vsp) f.

Lemma step_split m : mtl_step m =
  (s <- step_core m ;;
   ps <- update_probes s (m_time m + k_dt (m_core m)) (m_probes m) ;;
   Ok (m_set m s (m_time m + k_dt (m_core m)) ps)).
Proof. unfold mtl_step, step_core. destruct (advance_voltage _ _); reflexivity. Qed.

(** replacing the probes *)
Definition with_probes m ps : mtl N := m_set m (m_core m) (m_time m) ps.
Lemma step_core_probes m ps : step_core (with_probes m ps) = step_core m.
Proof. reflexivity. Qed.
Lemma with_probes_idem m ps qs : with_probes (with_probes m ps) qs = with_probes m qs.
Proof. reflexivity. Qed.
Lemma with_probes_eq m : with_probes m (m_probes m) = m.
Proof. destruct m; reflexivity. Qed.

Lemma step_Ok m m' : mtl_step m = Ok m' <->
  exists s ps, step_core m = Ok s /\ update_probes s (m_time m + k_dt (m_core m)) (m_probes m) = Ok ps /\
    m' = m_set m s (m_time m + k_dt (m_core m)) ps.
Proof.
  rewrite step_split. split.
  - intros H. inv_bind H. inv_bind H. injection H as <-. eauto.
  - intros (s & ps & -> & Hp & ->). cbn [bind]. rewrite Hp. reflexivity.
Qed.

(** the record keeping of a probe is consistent *)
Definition pcons p : Prop :=
  match p_val p with
  | PRows rows => length rows = length (p_t p)
  | PEmpty => length (p_t p) = 0%nat /\ p_frame p = 0%nat
  | PView _ _ => length (p_t p) = 1%nat /\ p_frame p = 1%nat
  end.
Definition known_type p : Prop := p_type p = "voltage"%string \/ p_type p = "current"%string.

Lemma save_frame_cons p t n (v i : mat N) vol idx q : pcons p -> save_frame p t n v i vol idx = Ok q -> pcons q.
Proof.
  unfold pcons, save_frame. intros Hv.
  destruct (Nat.ltb_spec (p_frame p) (length (p_t p))) as [H|H]; intros E.
  - destruct (p_val p) as [|rows|vl k]; try discriminate. inv_bind E. injection E as <-.
    apply py_set_Ok in Ha as [_ ->]. cbn. now rewrite !length_lset.
  - injection E as <-. cbn. destruct (p_val p) as [|rows|vl k]; cbn; rewrite ?app_length; cbn; lia.
Qed.
Lemma probe_update_cons p t n cells (v i : mat N) q : pcons p -> probe_update p t n cells v i = Ok q -> pcons q.
Proof.
  unfold probe_update. intros P H.
  repeat match type of H with context [if ?b then _ else _] => destruct b end; try discriminate;
    eapply save_frame_cons; eauto.
Qed.
Lemma probe_update_type p t n cells (v i : mat N) q : probe_update p t n cells v i = Ok q -> known_type p.
Proof.
  unfold probe_update. destruct (String.eqb_spec (p_type p) "voltage"); [left; auto|].
  destruct (String.eqb_spec (p_type p) "current"); [right; auto|discriminate].
Qed.
Lemma Forall2_right {A B} (P : A -> B -> Prop) (Q : A -> Prop) (R : B -> Prop) l l' :
  (forall a b, P a b -> Q a -> R b) -> Forall2 P l l' -> Forall Q l -> Forall R l'.
Proof. intros H. induction 1; intros F; inversion F; subst; constructor; eauto. Qed.
Lemma Forall2_left {A B} (P : A -> B -> Prop) (Q : A -> Prop) l l' :
  (forall a b, P a b -> Q a) -> Forall2 P l l' -> Forall Q l.
Proof. intros H. induction 1; constructor; eauto. Qed.
Lemma update_probes_cons s t ps qs : update_probes s t ps = Ok qs -> Forall pcons ps -> Forall pcons qs.
Proof.
  unfold update_probes. intros H. apply mapM_Ok in H. eapply Forall2_right; [|exact H].
  cbn. intros. eapply probe_update_cons; eauto.
Qed.
Lemma step_cons m m' : mtl_step m = Ok m' -> Forall pcons (m_probes m) -> Forall pcons (m_probes m').
Proof. intros H F. apply step_Ok in H as (s & ps & _ & Hp & ->). eapply update_probes_cons; eauto. Qed.
Lemma steps_cons j : forall m m', iterM j mtl_step m = Ok m' -> Forall pcons (m_probes m) -> Forall pcons (m_probes m').
Proof.
  induction j as [|j IH]; simpl; intros m m' H F; [now injection H as <-|].
  inv_bind H. eapply IH; eauto. eapply step_cons; eauto.
Qed.
Lemma resize_cons p f n : pcons (resize_frames p f n).
Proof. unfold pcons. cbn. unfold zeros, zeros2, mk2. now rewrite !length_mk. Qed.
Lemma resize_all_cons ps f n : Forall pcons (map (fun p => resize_frames p f n) ps).
Proof. induction ps; constructor; auto using resize_cons. Qed.
Lemma prepare_cons m n m' : mtl_prepare LA m n = Ok m' -> Forall pcons (m_probes m').
Proof. intros H. apply prepare_inv in H as (t1 & t2 & _ & ->). apply resize_all_cons. Qed.

Lemma history_cons m0 m : history LA m0 m -> Forall pcons (m_probes m).
Proof.
  induction 1 as [H| |m a b c R m' HH IH H|m a b c R m' HH IH H|m p c f m' HH IH H| |m p ty m' HH IH H|m p c model m' HH IH H
    |m m' HH IH H|m T m' HH IH H|m HH IH].
  - destruct H as (ju & jdu & l & c & r & g & len & np & ndiv & zs & zl & name & H).
    apply mtl_new_inv in H. decompose [and] H. match goal with E : m_probes _ = [] |- _ => rewrite E end. constructor.
  - exact IHhistory.
  - unfold set_resistance_in_region in H. inv_bind H. inv_bind H. inv_bind H. injection H as <-. exact IH.
  - unfold add_conductance_in_region in H. inv_bind H. inv_bind H. inv_bind H. inv_bind H. injection H as <-. exact IH.
  - unfold add_voltage_source in H. destruct (c <? _)%nat; [|discriminate]. injection H as <-. exact IH.
  - exact IHhistory.
  - unfold add_probe in H. destruct (out_of_box _ _); [discriminate|]. injection H as <-. cbn.
    apply Forall_app. split; [exact IH|]. constructor; [|constructor]. split; reflexivity.
  - unfold mtl_add_dispersive_connector in H. inv_bind H. injection H as <-. exact IH.
  - eapply step_cons; eauto.
  - unfold run_until in H. inv_bind H. inv_bind H. eapply steps_cons; eauto. eapply prepare_cons; eauto.
  - cbn. apply Forall_forall. intros q Hq. apply in_map_iff in Hq as (p & <- & Hp).
    rewrite Forall_forall in IH. specialize (IH p Hp). unfold pcons, copy_probe in *. cbn.
    destruct (p_val p) as [|rows|vl k]; cbn; auto. lia.
Qed.

Lemma probe_ok_of p cells : known_type p -> (p_index p <= cells)%nat -> pcons p -> probe_ok cells p.
Proof. intros. repeat split; auto. Qed.

End SplitFacts.
