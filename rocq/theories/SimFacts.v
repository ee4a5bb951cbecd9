(** Runs from states that differ only in their probes or only in their sources (any [num]). *)
From Coq Require Import String List Arith ZArith Bool Lia.
From Verif Require Import Num Py Arr ArrFacts Probes Dispersive Line LineFacts SpecLine SpecProbe
  HistoryFacts StepTotal ProbeFacts SplitFacts RecordFacts AttachFacts NearestFacts.
Import ListNotations.

Section SimFacts.
Context {N : num}.
Local Open Scope num_scope.
Variable LA : lapack N.
Implicit Types (m a b : mtl N) (p q : probe N).

(** *** probes *)
Lemma step_other_probes a b ps : shape a -> mtl_step a = Ok b -> Forall (probe_ok (cells a)) ps ->
  exists ps', mtl_step (with_probes a ps) = Ok (with_probes b ps') /\ Forall (probe_ok (cells b)) ps'.
Proof.
  intros Sh H F. destruct (shape_step _ _ Sh H) as [_ K].
  assert (EN : cells b = cells a) by apply (kp_N _ _ K).
  apply step_Ok in H as (s & qs & Hs & Hq & ->).
  change (k_N s = cells a) in EN.
  destruct (update_probes_total s (m_time a + k_dt (m_core a)) ps) as (ps' & Hp & F').
  { rewrite EN. exact F. }
  exists ps'. split; [|exact F']. rewrite step_split, step_core_probes, Hs. cbn [bind with_probes m_time m_core m_set m_probes].
  unfold with_probes. cbn [m_set m_core m_time m_probes]. rewrite Hp. reflexivity.
Qed.
Lemma steps_other_probes j : forall a b ps, shape a -> iterM j mtl_step a = Ok b -> Forall (probe_ok (cells a)) ps ->
  exists ps', iterM j mtl_step (with_probes a ps) = Ok (with_probes b ps') /\ Forall (probe_ok (cells b)) ps'.
Proof.
  induction j as [|j IH]; simpl; intros a b ps Sh H F.
  - injection H as <-. eauto.
  - inv_bind H. rename a0 into a1. destruct (step_other_probes a a1 ps Sh Ha F) as (ps1 & E1 & F1).
    rewrite E1. cbn [bind]. destruct (shape_step _ _ Sh Ha) as [S1 _]. eapply IH; eauto.
Qed.

Lemma steps_known j a b : shape a -> iterM (S j) mtl_step a = Ok b -> Forall known_type (m_probes a).
Proof.
  simpl. intros Sh H. inv_bind H. eapply Forall2_left; [|apply (step_stepped _ _ Sh Ha)].
  cbn. intros p q. apply probe_update_type.
Qed.

Lemma probes_ok_known m0 m : history LA m0 m -> Forall known_type (m_probes m) -> Forall (probe_ok (cells m)) (m_probes m).
Proof.
  intros HH T. pose proof (history_probe_index LA _ _ HH) as I. pose proof (history_cons LA _ _ HH) as C.
  rewrite Forall_forall in *. intros p Hp. apply probe_ok_of; auto.
Qed.
Lemma known_kept (ps qs : list (probe N)) : Forall2 pkept ps qs -> Forall known_type qs -> Forall known_type ps.
Proof.
  induction 1 as [|p q l l' (E & _ & _) _ IH]; intros F; inversion F; subst; constructor; auto.
  unfold known_type in *. now rewrite <- E.
Qed.
Lemma resize_pkept (ps : list (probe N)) f n : Forall2 pkept ps (map (fun p => resize_frames p f n) ps).
Proof. induction ps; constructor; auto. repeat split. Qed.

Lemma ready_prepare m n : lr_ready LA (m_core m) -> cg_ready LA (m_core m) ->
  mtl_prepare LA m n = Ok (with_probes m (map (fun p => resize_frames p n (conductors m)) (m_probes m))).
Proof. intros R1 R2. unfold mtl_prepare. rewrite R1. cbn [bind]. rewrite R2. reflexivity. Qed.

Lemma run_ready m T m1 : shape m -> run_until LA m T = Ok m1 -> lr_ready LA (m_core m1) /\ cg_ready LA (m_core m1).
Proof.
  intros Sh H. unfold run_until in H. inv_bind H. inv_bind H.
  destruct (shape_prepare LA _ _ _ Sh Ha0) as [Sp _]. destruct (prepare_ready LA _ _ _ Ha0) as [R1 R2].
  eapply ready_steps; eauto. apply Sp.
Qed.

Lemma with_with m ps : with_probes (with_probes m ps) (m_probes m) = m.
Proof. destruct m; reflexivity. Qed.

(** a second run is the same as stepping on *)
Lemma second_run m T1 m1 T2 m2 : reachable LA m -> run_until LA m T1 = Ok m1 -> run_until LA m1 T2 = Ok m2 ->
  exists n x, time_range_len T2 (step_dt m) = Ok n /\ iterM n mtl_step m1 = Ok x /\
    m_core m2 = m_core x /\ m_time m2 = m_time x.
Proof.
  intros [m0 HH] H1 H2. pose proof (history_shape LA _ _ HH) as [Sh _].
  assert (H1' : history LA m0 m1) by (eapply h_run; eauto).
  pose proof (history_shape LA _ _ H1') as [S1 _].
  destruct (run_ready _ _ _ Sh H1) as [R1 R2].
  assert (Edt : k_dt (m_core m1) = k_dt (m_core m)).
  { pose proof H1 as G. unfold run_until in G. inv_bind G. inv_bind G.
    assert (RS : run_state LA m T1 a m1) by (exists a, a0; auto).
    destruct (run_state_inv LA _ _ _ _ Sh RS) as (_ & _ & S & _). apply (rs_dt _ _ S). }
  pose proof H2 as G. unfold run_until in G. inv_bind G. inv_bind G. rename a into n. rename a0 into p1.
  rewrite Edt in Ha. rewrite (ready_prepare _ _ R1 R2) in Ha0. injection Ha0 as <-.
  exists n. destruct n as [|n].
  - injection G as <-. exists m1. repeat split; auto.
  - match type of G with iterM _ _ (with_probes _ ?ps) = _ => set (p1 := with_probes m1 ps) in * end.
    assert (Sp : shape p1) by (destruct S1; split; auto).
    pose proof (steps_known n p1 m2 Sp G) as T.
    assert (T' : Forall known_type (m_probes m1)).
    { eapply known_kept; [apply (resize_pkept _ (S n) (conductors m1))|exact T]. }
    destruct (steps_other_probes (S n) p1 m2 (m_probes m1) Sp G) as (ps' & E & _).
    { apply (probes_ok_known m0 m1); auto. }
    replace (with_probes p1 (m_probes m1)) with m1 in E by (symmetry; apply with_with).
    exists (with_probes m2 ps'). repeat split; auto.
Qed.

(** ... and as one run of the joint number of steps *)
Lemma joint_run m T1 m1 T2 m2 T n1 n2 : reachable LA m -> run_until LA m T1 = Ok m1 -> run_until LA m1 T2 = Ok m2 ->
  time_range_len T1 (step_dt m) = Ok n1 -> time_range_len T2 (step_dt m) = Ok n2 ->
  time_range_len T (step_dt m) = Ok (n1 + n2)%nat ->
  exists x, run_until LA m T = Ok x /\ m_core x = m_core m2 /\ m_time x = m_time m2.
Proof.
  intros HR H1 H2 E1 E2 E3. pose proof HR as [m0 HH]. pose proof (history_shape LA _ _ HH) as [Sh _].
  destruct (second_run _ _ _ _ _ HR H1 H2) as (n & x & En & Hx & Ec & Et).
  assert (n = n2) by congruence. subst n.
  pose proof H1 as G. unfold run_until in G. inv_bind G. inv_bind G. rename a into k. rename a0 into p.
  assert (k = n1) by (unfold step_dt in *; congruence). subst k.
  assert (Hall : iterM (n1 + n2) mtl_step p = Ok x) by (rewrite iterM_add, G; exact Hx).
  destruct (shape_prepare LA _ _ _ Sh Ha0) as [Sp _].
  unfold run_until. fold (step_dt m). rewrite E3. cbn [bind].
  assert (Ep : mtl_prepare LA m (n1 + n2) = Ok (with_probes p (map (fun q => resize_frames q (n1 + n2) (conductors m)) (m_probes m)))).
  { unfold mtl_prepare in *. inv_bind Ha0. inv_bind Ha0. rewrite Ha1. cbn [bind]. rewrite Ha2. cbn [bind].
    injection Ha0 as <-. unfold with_probes. cbn.
    apply update_lr_inv in Ha1 as [t1 ->]. apply update_cg_inv in Ha2 as [t2 ->]. reflexivity. }
  rewrite Ep. cbn [bind]. set (ps := map _ _).
  destruct (n1 + n2)%nat as [|j] eqn:Ej.
  - injection Hall as <-. exists (with_probes p ps). repeat split; auto.
  - pose proof (steps_known j p x Sp Hall) as T'.
    assert (Hps : m_probes p = map (fun q => resize_frames q n1 (k_n (m_core m))) (m_probes m))
      by (apply prepare_inv in Ha0 as (t1 & t2 & _ & ->); reflexivity).
    rewrite Hps in T'.
    pose proof (known_kept _ _ (resize_pkept _ _ _) T') as T0.
    destruct (steps_other_probes (S j) p x ps Sp Hall) as (ps' & E & _).
    { apply Forall_forall. intros q Hq. apply in_map_iff in Hq as (q0 & <- & Hq0).
      rewrite Forall_forall in T0. apply resize_ok; [apply (T0 q0 Hq0)|].
      pose proof (history_probe_index LA _ _ HH) as I. rewrite Forall_forall in I. specialize (I q0 Hq0).
      assert (EN : cells p = cells m) by (apply prepare_inv in Ha0 as (t1 & t2 & _ & ->); reflexivity). now rewrite EN. }
    rewrite E. exists (with_probes x ps'). repeat split; auto.
Qed.

(** *** sources *)
Lemma get2_eval_at (fs : list (list (N -> N))) t c k : get2 (eval_at fs t) c k = nth k (nth c fs []) (fun _ => n0) t.
Proof.
  unfold get2, get, eval_at. rewrite <- (map_nth (fun f => f t) (nth c fs []) (fun _ => n0) k).
  change (@nil N) with (map (fun f : N -> N => f t) (@nil (N -> N))). rewrite (map_nth (map (fun f : N -> N => f t))). reflexivity.
Qed.

(** [vs] and [vs'] agree at time [t] on the two end nodes *)
Definition ends_agree m (vs : list (list (N -> N))) (t : N) : Prop :=
  forall c, (c < conductors m)%nat ->
    source m c 0 t = nth 0 (nth c vs []) (fun _ => n0) t /\
    source m c (cells m) t = nth (cells m) (nth c vs []) (fun _ => n0) t.

Lemma step_core_src m vs : ends_agree m vs (m_time m) -> ends_agree m vs (m_time m - k_dt (m_core m)) ->
  step_core (m_set_vsrc m vs) = step_core m.
Proof.
  intros A1 A2. unfold step_core. cbn [m_core m_set_vsrc m_time m_vsrc].
  set (f := eval_fields _ _ _ _). set (n := k_n (m_core m)).
  assert (E0 : forall t, ends_agree m vs t -> col n (eval_at vs t) 0 = col n (eval_at (m_vsrc m) t) 0).
  { intros t A. apply mk_ext. intros c Hc. rewrite !get2_eval_at. symmetry. apply (A c Hc). }
  assert (EN : forall t, ends_agree m vs t -> col n (eval_at vs t) (k_N (m_core m)) = col n (eval_at (m_vsrc m) t) (k_N (m_core m))).
  { intros t A. apply mk_ext. intros c Hc. rewrite !get2_eval_at. symmetry. apply (A c Hc). }
  assert (EL : advance_left_terminal (m_set_vsrc m vs) (m_core m) f (eval_at vs (m_time m)) (eval_at vs (m_time m - k_dt (m_core m)))
             = advance_left_terminal m (m_core m) f (eval_at (m_vsrc m) (m_time m)) (eval_at (m_vsrc m) (m_time m - k_dt (m_core m)))).
  { unfold advance_left_terminal. cbv zeta. fold n. cbn [m_lp1 m_lp2 m_zs m_set_vsrc]. now rewrite !E0. }
  rewrite EL. destruct (advance_voltage _ f) as [s2|e] eqn:E2; [|reflexivity]. cbn [bind]. f_equal.
  assert (En : k_n s2 = k_n (m_core m) /\ k_N s2 = k_N (m_core m)).
  { unfold advance_voltage in E2. destruct (k_cg _) as [[? ?]|]; [|discriminate]. injection E2 as <-. split; reflexivity. }
  destruct En as [En1 En2].
  unfold advance_right_terminal. cbv zeta. rewrite En1, En2. fold n. cbn [m_rp1 m_rp2 m_zl m_set_vsrc]. now rewrite !EN.
Qed.

Lemma step_src m vs : ends_agree m vs (m_time m) -> ends_agree m vs (m_time m - k_dt (m_core m)) ->
  mtl_step (m_set_vsrc m vs) = (x <- mtl_step m ;; Ok (m_set_vsrc x vs)).
Proof.
  intros A1 A2. rewrite !step_split, (step_core_src _ _ A1 A2). destruct (step_core m) as [s|e]; [|reflexivity].
  cbn [bind]. cbn [m_time m_set_vsrc m_core m_probes]. destruct (update_probes _ _ _); reflexivity.
Qed.

Lemma steps_src (P : N -> Prop) vs j : forall m, shape m -> (forall t, P t -> ends_agree m vs t) ->
  (forall i a, (i < j)%nat -> iterM i mtl_step m = Ok a -> P (m_time a) /\ P (m_time a - k_dt (m_core m))) ->
  iterM j mtl_step (m_set_vsrc m vs) = (x <- iterM j mtl_step m ;; Ok (m_set_vsrc x vs)).
Proof.
  induction j as [|j IH]; intros m Sh A HP; [reflexivity|]. simpl.
  destruct (HP 0%nat m (Nat.lt_0_succ _) eq_refl) as [P0 P1].
  rewrite (step_src m vs); auto. destruct (mtl_step m) as [m1|e] eqn:E; [|reflexivity]. cbn [bind].
  destruct (shape_step _ _ Sh E) as [S1 K]. pose proof (mtl_step_same m m1 (sh_N _ Sh) E) as SL.
  apply IH; auto.
  - intros t Ht c Hc. unfold source, conductors, cells in *. rewrite (sl_vsrc _ _ SL), (kp_N _ _ K). apply A; auto.
    unfold conductors. now rewrite <- (kp_n _ _ K).
  - intros i a Hi Ha. rewrite (ss_dt _ _ (sl_core _ _ SL)). apply (HP (S i) a); [lia|]. cbn [iterM]. rewrite E. exact Ha.
Qed.

Lemma prepare_src m vs n : mtl_prepare LA (m_set_vsrc m vs) n = (x <- mtl_prepare LA m n ;; Ok (m_set_vsrc x vs)).
Proof.
  unfold mtl_prepare. cbn [m_core m_set_vsrc]. destruct (update_lr_terms _ _); [|reflexivity]. cbn [bind].
  destruct (update_cg_terms _ _); reflexivity.
Qed.

Lemma run_src m vs T : shape m -> (forall t, ends_agree m vs t) ->
  run_until LA (m_set_vsrc m vs) T = (x <- run_until LA m T ;; Ok (m_set_vsrc x vs)).
Proof.
  intros Sh A. unfold run_until. cbn [m_core m_set_vsrc]. destruct (time_range_len _ _) as [n|e]; [|reflexivity].
  cbn [bind]. rewrite prepare_src. destruct (mtl_prepare LA m n) as [p|e] eqn:E; [|reflexivity]. cbn [bind].
  destruct (shape_prepare LA _ _ _ Sh E) as [Sp _].
  apply steps_src with (P := fun _ => True); auto.
  intros t _ c Hc. apply prepare_inv in E as (t1 & t2 & _ & ->). apply (A t c Hc).
Qed.

(** the states of the two runs *)
Lemma run_state_src (P : N -> Prop) vs m T j a : shape m -> (forall t, P t -> ends_agree m vs t) ->
  (forall i b, (i < j)%nat -> run_state LA m T i b -> P (m_time b) /\ P (m_time b - step_dt m)) ->
  run_state LA m T j a -> run_state LA (m_set_vsrc m vs) T j (m_set_vsrc a vs).
Proof.
  intros Sh A HP (st & p & E1 & E2 & E3 & E4). exists st, (m_set_vsrc p vs).
  split; [exact E1|]. split; [exact E2|]. rewrite prepare_src, E3. split; [reflexivity|].
  destruct (shape_prepare LA _ _ _ Sh E3) as [Sp _].
  assert (Ed : k_dt (m_core p) = step_dt m) by (apply prepare_inv in E3 as (t1 & t2 & _ & ->); reflexivity).
  rewrite (steps_src P); auto.
  - rewrite E4. reflexivity.
  - intros t Ht c Hc. clear E4 Ed Sp. apply prepare_inv in E3 as (t1 & t2 & _ & ->). apply (A t Ht c Hc).
  - intros i b Hi Hb. rewrite Ed. apply (HP i b Hi). exists st, p. split; [exact E1|]. split; [lia|auto].
Qed.

Lemma interior_agrees m (p : posarg N) c f m' : vsrc_shape m -> shape m -> add_voltage_source m p c f = Ok m' ->
  (0 < nearest (m_u m) (pos_vec p) < cells m)%nat ->
  m' = m_set_vsrc m (m_vsrc m') /\ forall t, ends_agree m (m_vsrc m') t.
Proof.
  intros V Sh H Hk. destruct (add_source_effect m p c f m' V H) as [Hc E].
  specialize (E ltac:(lia)). split.
  { unfold add_voltage_source in H. destruct (c <? _)%nat; [|discriminate]. injection H as <-. reflexivity. }
  intros t c' Hc'.
  pose proof (f_equal (fun g => g t) (E c' 0%nat)) as E0. pose proof (f_equal (fun g => g t) (E c' (cells m))) as EN.
  rewrite (proj2 (Nat.eqb_neq 0 _)), andb_false_r in E0 by lia.
  rewrite (proj2 (Nat.eqb_neq (cells m) _)), andb_false_r in EN by lia.
  split; symmetry; assumption.
Qed.
End SimFacts.
