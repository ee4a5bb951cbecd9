(** What the probes of a line have recorded (any [num]). *)
From Coq Require Import String List Arith ZArith Bool Lia.
From Verif Require Import Num Py Arr ArrFacts Probes Dispersive Line LineFacts SpecLine SpecProbe
  HistoryFacts StepTotal ProbeFacts SplitFacts.
Import ListNotations.

Section RecordFacts.
Context {N : num}.
Local Open Scope num_scope.
Variable LA : lapack N.
Implicit Types (m a b : mtl N) (p q : probe N).

Lemma frame_kept p p' b t row : pkept p p' -> frame_of p' b t row -> frame_of p b t row.
Proof. intros (E1 & E2 & E3) [L H]. split; [exact L|]. now rewrite E1, E2, E3 in H. Qed.

Lemma update_frame p b q :
  probe_update p (m_time b) (conductors b) (cells b) (k_v (m_core b)) (k_i (m_core b)) = Ok q ->
  exists t vol idx, let row := col (conductors b) (if vol : bool then k_v (m_core b) else k_i (m_core b)) idx in
    frame_of p b t row /\
    save_frame p t (conductors b) (k_v (m_core b)) (k_i (m_core b)) vol idx = Ok q.
Proof.
  unfold probe_update. destruct (String.eqb_spec (p_type p) "voltage") as [E|_].
  - destruct (_ <? _)%nat; [|discriminate]. intros H. exists (m_time b), true, (p_index p). split; [|exact H].
    split; [apply length_mk|]. left. repeat split; auto. intros c Hc. apply (get_col (N:=N)); auto.
  - destruct (String.eqb_spec (p_type p) "current") as [E|_]; [|discriminate].
    intros H. exists (m_time b + p_dt p / n2), false, (cell_of b (p_index p)). unfold cell_of.
    destruct (Nat.eqb_spec (p_index p) (cells b)) as [E2|E2].
    + split; [|exact H]. split; [apply length_mk|]. right. repeat split; auto.
      intros c Hc. unfold cell_of. rewrite (proj2 (Nat.eqb_eq _ _) E2). apply (get_col (N:=N)); auto.
    + destruct (_ <? _)%nat; [|discriminate]. split; [|exact H]. split; [apply length_mk|]. right. repeat split; auto.
      intros c Hc. unfold cell_of. rewrite (proj2 (Nat.eqb_neq _ _) E2). apply (get_col (N:=N)); auto.
Qed.

(** one step, seen from one probe *)
Definition stepped p b q : Prop :=
  probe_update p (m_time b) (conductors b) (cells b) (k_v (m_core b)) (k_i (m_core b)) = Ok q.
Lemma step_stepped m b : shape m -> mtl_step m = Ok b -> Forall2 (fun p q => stepped p b q) (m_probes m) (m_probes b).
Proof.
  intros Sh H. pose proof (step_probes m b (sh_N _ Sh) H) as F.
  destruct (shape_step _ _ Sh H) as [_ K]. unfold stepped.
  assert (E1 : conductors b = conductors m) by apply (kp_n _ _ K).
  assert (E2 : cells b = cells m) by apply (kp_N _ _ K).
  rewrite E1, E2. exact F.
Qed.
Lemma stepped_kept p b q : stepped p b q -> pkept p q.
Proof. apply probe_update_kept. Qed.

(** a write inside the pre-allocated frames *)
Lemma stepped_inside p b q rows : stepped p b q -> p_val p = PRows rows -> (p_frame p < length (p_t p))%nat ->
  exists t row, frame_of p b t row /\ p_frame q = S (p_frame p) /\ p_t q = lset (p_t p) (p_frame p) t /\
    (p_frame p < length rows)%nat /\ p_val q = PRows (lset rows (p_frame p) row).
Proof.
  intros H E L. apply update_frame in H as (t & vol & idx & F & H). unfold save_frame in H.
  rewrite (proj2 (Nat.ltb_lt _ _) L), E in H. inv_bind H. apply py_set_Ok in Ha as [L2 ->]. injection H as <-.
  eexists _, _. split; [exact F|]. repeat split; auto.
Qed.
(** a write past them *)
Lemma stepped_past p b q rows : stepped p b q -> p_val p = PRows rows -> (length (p_t p) <= p_frame p)%nat ->
  exists t row, frame_of p b t row /\ p_frame q = S (p_frame p) /\ p_t q = p_t p ++ [t] /\
    p_val q = PRows (rows ++ [row]).
Proof.
  intros H E L. apply update_frame in H as (t & vol & idx & F & H). unfold save_frame in H.
  rewrite (proj2 (Nat.ltb_ge _ _) L), E in H. injection H as <-.
  eexists _, _. split; [exact F|]. repeat split; auto.
Qed.

Lemma Forall2_nth_error {A B} (P : A -> B -> Prop) l l' j x : Forall2 P l l' -> nth_error l j = Some x ->
  exists y, nth_error l' j = Some y /\ P x y.
Proof.
  intros H. revert j; induction H; intros [|j] E; try discriminate; cbn in *; eauto.
  injection E as ->. eauto.
Qed.
Lemma F2_length {A B} (P : A -> B -> Prop) l l' : Forall2 P l l' -> length l = length l'.
Proof. induction 1; cbn; congruence. Qed.

(** the frames written by the first [j] of [steps] steps *)
Definition recording (m0 : mtl N) (steps j : nat) (p q : probe N) : Prop :=
  pkept p q /\ p_frame q = j /\ length (p_t q) = steps /\
  exists rows, p_val q = PRows rows /\ length rows = steps /\
  forall k b, (k < j)%nat -> iterM (S k) mtl_step m0 = Ok b -> frame_of p b (get (p_t q) k) (nth k rows []).

Lemma record_run m0 steps : shape m0 ->
  Forall (fun p => p_frame p = 0%nat /\ length (p_t p) = steps /\ exists rows, p_val p = PRows rows /\ length rows = steps) (m_probes m0) ->
  forall j a, (j <= steps)%nat -> iterM j mtl_step m0 = Ok a ->
  Forall2 (recording m0 steps j) (m_probes m0) (m_probes a).
Proof.
  intros Sh F0. induction j as [|j IH]; intros a Hj H.
  - injection H as <-. clear - F0. induction F0 as [|p l (H1 & H2 & rows & H3 & H4) _ IH]; constructor; auto.
    split; [apply pkept_refl|]. repeat split; auto. exists rows. split; [exact H3|]. split; [exact H4|]. intros; lia.
  - rewrite iterM_S in H. inv_bind H. rename a0 into a1.
    specialize (IH a1 ltac:(lia) Ha). destruct (shape_steps _ _ _ Sh Ha) as [S1 _].
    pose proof (step_stepped _ _ S1 H) as F1.
    assert (Hb : iterM (S j) mtl_step m0 = Ok a) by (rewrite iterM_S, Ha; exact H).
    clear F0. revert F1. generalize (m_probes a). induction IH as [|p q l l' Rec _ IH]; intros l2 F1; inversion F1 as [|? r ? ? St F2]; subst; constructor; auto.
    destruct Rec as (K & Hf & Lt & rows & Hv & Lr & Fr).
    destruct (stepped_inside q a r rows St Hv ltac:(lia)) as (t & row & Fo & Hf' & Et & _ & Ev).
    split; [eapply pkept_trans; eauto using stepped_kept|]. split; [lia|]. split; [now rewrite Et, length_lset|].
    exists (lset rows (p_frame q) row). split; [exact Ev|]. split; [now rewrite length_lset|].
    intros k b Hk Hkb. rewrite Et, Hf. unfold get.
    destruct (Nat.eq_dec k j) as [->|Hne].
    + rewrite Hb in Hkb. injection Hkb as <-. rewrite !nth_lset_eq by lia. eapply frame_kept; eauto.
    + rewrite !nth_lset_neq by lia. apply Fr; [lia|exact Hkb].
Qed.

Lemma run_records m T m' : reachable LA m -> run_until LA m T = Ok m' ->
  exists steps, run_state LA m T steps m' /\ time_range_len T (step_dt m) = Ok steps /\
    length (m_probes m') = length (m_probes m) /\
    forall j p, nth_error (m_probes m) j = Some p ->
    exists q, nth_error (m_probes m') j = Some q /\ pkept p q /\
      length (p_t q) = steps /\ length (rows_of m' q) = steps /\
      forall k a b, run_step LA m T k a b -> (k < steps)%nat /\ frame_of p b (nth k (p_t q) n0) (nth k (rows_of m' q) []).
Proof.
  intros HR H. pose proof (reachable_shape LA _ HR) as Sh. unfold run_until in H. inv_bind H. inv_bind H.
  rename a into steps. rename a0 into m1.
  destruct (shape_prepare LA _ _ _ Sh Ha0) as [S1 _].
  assert (Hps : m_probes m1 = map (fun p => resize_frames p steps (k_n (m_core m))) (m_probes m))
    by (apply prepare_inv in Ha0 as (t1 & t2 & _ & ->); reflexivity).
  exists steps. split; [exists steps, m1; auto|]. split; [exact Ha|].
  assert (F0 : Forall (fun p => p_frame p = 0%nat /\ length (p_t p) = steps /\ exists rows, p_val p = PRows rows /\ length rows = steps) (m_probes m1)).
  { rewrite Hps. apply Forall_forall. intros q Hq. apply in_map_iff in Hq as (p & <- & _). cbn.
    repeat split; [apply length_mk|]. eexists; split; [reflexivity|]. apply length_mk. }
  pose proof (record_run m1 steps S1 F0 steps m' (le_n _) H) as F.
  split. { rewrite <- (F2_length _ _ _ F), Hps, map_length. reflexivity. }
  intros j p Hj.
  assert (Hj1 : nth_error (m_probes m1) j = Some (resize_frames p steps (k_n (m_core m)))).
  { rewrite Hps. exact (map_nth_error (fun p => resize_frames p steps (k_n (m_core m))) j (m_probes m) Hj). }
  destruct (Forall2_nth_error _ _ _ _ _ F Hj1) as (q & Hq & K & Hf & Lt & rows & Hv & Lr & Fr).
  exists q. split; [exact Hq|]. split; [exact K|]. split; [exact Lt|].
  unfold rows_of, probe_rows. rewrite Hv. split; [exact Lr|].
  intros k a b (st & p1 & E1 & E2 & E3 & E4 & E5).
  assert (st = steps) by (unfold step_dt in *; congruence). subst st.
  assert (p1 = m1) by congruence. subst p1. split; [exact E2|].
  apply (Fr k b E2). rewrite iterM_S, E4. exact E5.
Qed.

(** appended frames *)
Definition appended (m1 : mtl N) (j : nat) (p q : probe N) : Prop :=
  pkept p q /\ exists rows ts rs, p_val p = PRows rows /\ p_val q = PRows (rows ++ rs) /\
  p_t q = p_t p ++ ts /\ length ts = j /\ length rs = j /\ p_frame q = (p_frame p + j)%nat /\
  forall k b, (k < j)%nat -> iterM (S k) mtl_step m1 = Ok b -> frame_of p b (get ts k) (nth k rs []).

Lemma record_past m1 : shape m1 ->
  Forall (fun p => p_frame p = length (p_t p) /\ exists rows, p_val p = PRows rows) (m_probes m1) ->
  forall j a, iterM j mtl_step m1 = Ok a -> Forall2 (appended m1 j) (m_probes m1) (m_probes a).
Proof.
  intros Sh F0. induction j as [|j IH]; intros a H.
  - injection H as <-. clear - F0. induction F0 as [|p l (H1 & rows & H2) _ IH]; constructor; auto.
    split; [apply pkept_refl|]. exists rows, [], []. rewrite !app_nil_r. repeat (split; [auto; lia|]). intros; lia.
  - rewrite iterM_S in H. inv_bind H. rename a0 into a1.
    specialize (IH a1 Ha). destruct (shape_steps _ _ _ Sh Ha) as [S1 _].
    pose proof (step_stepped _ _ S1 H) as F1.
    assert (Hb : iterM (S j) mtl_step m1 = Ok a) by (rewrite iterM_S, Ha; exact H).
    revert F1 F0. generalize (m_probes a). induction IH as [|p q l l' Rec _ IH]; intros l2 F1 F0; inversion F1 as [|? r ? ? St F2]; subst; constructor.
    2:{ apply IH; auto. now inversion F0. }
    inversion F0 as [|? ? [Hpf _] _]; subst.
    destruct Rec as (K & rows & ts & rs & Hv & Hvq & Et & Lt & Lr & Hf & Fr).
    destruct (stepped_past q a r _ St Hvq) as (t & row & Fo & Hf' & Et' & Ev).
    { rewrite Et, app_length. lia. }
    split; [eapply pkept_trans; eauto using stepped_kept|].
    exists rows, (ts ++ [t]), (rs ++ [row]). split; [exact Hv|].
    split; [now rewrite Ev, app_assoc|]. split; [now rewrite Et', Et, app_assoc|].
    rewrite !app_length. cbn [length]. split; [lia|]. split; [lia|]. split; [lia|].
    intros k b Hk Hkb. unfold get.
    destruct (Nat.eq_dec k j) as [->|Hne].
    + rewrite Hb in Hkb. injection Hkb as <-. rewrite !app_nth2 by lia.
      replace (j - length ts)%nat with 0%nat by lia. replace (j - length rs)%nat with 0%nat by lia. cbn. eapply frame_kept; eauto.
    + rewrite !app_nth1 by lia. apply Fr; [lia|exact Hkb].
Qed.

Lemma run_then_steps m T m1 j m2 : reachable LA m -> run_until LA m T = Ok m1 -> iterM j mtl_step m1 = Ok m2 ->
  length (m_probes m2) = length (m_probes m1) /\
  forall i p, nth_error (m_probes m1) i = Some p ->
  exists q ts rs, nth_error (m_probes m2) i = Some q /\ pkept p q /\
    p_t q = p_t p ++ ts /\ rows_of m2 q = rows_of m1 p ++ rs /\ length ts = j /\ length rs = j /\
    forall k b, (k < j)%nat -> iterM (S k) mtl_step m1 = Ok b -> frame_of p b (nth k ts n0) (nth k rs []).
Proof.
  intros HR H H2. pose proof (reachable_shape LA _ HR) as Sh.
  destruct (shape_run LA _ _ _ Sh H) as [S1 _].
  unfold run_until in H. inv_bind H. inv_bind H. rename a into steps. rename a0 into p1.
  destruct (shape_prepare LA _ _ _ Sh Ha0) as [Sp _].
  assert (Hps : m_probes p1 = map (fun p => resize_frames p steps (k_n (m_core m))) (m_probes m))
    by (apply prepare_inv in Ha0 as (t1 & t2 & _ & ->); reflexivity).
  assert (F0 : Forall (fun p => p_frame p = 0%nat /\ length (p_t p) = steps /\ exists rows, p_val p = PRows rows /\ length rows = steps) (m_probes p1)).
  { rewrite Hps. apply Forall_forall. intros q Hq. apply in_map_iff in Hq as (p & <- & _). cbn.
    repeat split; [apply length_mk|]. eexists; split; [reflexivity|]. apply length_mk. }
  pose proof (record_run p1 steps Sp F0 steps m1 (le_n _) H) as F.
  assert (F1 : Forall (fun p => p_frame p = length (p_t p) /\ exists rows, p_val p = PRows rows) (m_probes m1)).
  { eapply Forall2_right with (Q := fun _ => True); [|exact F|clear; induction (m_probes p1); constructor; auto].
    intros p q (_ & Hf & Lt & rows & Hv & _) _. split; [congruence|eauto]. }
  pose proof (record_past m1 S1 F1 j m2 H2) as G. split; [now rewrite <- (F2_length _ _ _ G)|].
  intros i p Hi. destruct (Forall2_nth_error _ _ _ _ _ G Hi) as (q & Hq & K & rows & ts & rs & Hv & Hvq & Et & Lt & Lr & _ & Fr).
  exists q, ts, rs. split; [exact Hq|]. split; [exact K|]. split; [exact Et|].
  unfold rows_of, probe_rows. rewrite Hv, Hvq. split; [reflexivity|]. split; [exact Lt|]. split; [exact Lr|]. exact Fr.
Qed.

(** the first frame of a never-resized probe is a window on the line *)
Lemma live_first_frame m (p : posarg N) ty m1 m2 m3 : reachable LA m -> add_probe m p ty = Ok m1 ->
  mtl_step m1 = Ok m2 -> mtl_step m2 = Ok m3 ->
  exists q2 q3 r2 r3, nth_error (m_probes m2) (length (m_probes m)) = Some q2 /\
    nth_error (m_probes m3) (length (m_probes m)) = Some q3 /\
    rows_of m2 q2 = [r2] /\ rows_of m3 q3 = [r3; r3] /\
    frame_of q2 m2 (nth 0 (p_t q2) n0) r2 /\ frame_of q3 m3 (nth 1 (p_t q3) n0) r3 /\
    nth 0 (p_t q3) n0 = nth 0 (p_t q2) n0.
Proof.
  intros HR H H2 H3.
  assert (R1 : reachable LA m1) by (destruct HR as [m0 HH]; exists m0; eapply h_probe; eauto).
  pose proof (reachable_shape LA _ R1) as S1. destruct (shape_step _ _ S1 H2) as [S2 _].
  unfold add_probe in H. destruct (out_of_box _ _); [discriminate|]. injection H as H.
  assert (E1 : nth_error (m_probes m1) (length (m_probes m)) = Some (probe_new (pos_vec p) ty (k_dt (m_core m)) (m_u m))).
  { rewrite <- H. cbn. rewrite nth_error_app2 by lia. now rewrite Nat.sub_diag. }
  destruct (Forall2_nth_error _ _ _ _ _ (step_stepped _ _ S1 H2) E1) as (q2 & Hq2 & St2).
  destruct (Forall2_nth_error _ _ _ _ _ (step_stepped _ _ S2 H3) Hq2) as (q3 & Hq3 & St3).
  pose proof (stepped_kept _ _ _ St2) as K2. pose proof (stepped_kept _ _ _ St3) as K3.
  pose proof St2 as U2. pose proof St3 as U3.
  unfold stepped, probe_update in U2, U3.
  destruct K2 as (Ty2 & Ix2 & Dt2). destruct K3 as (Ty3 & Ix3 & Dt3). cbn [p_type p_index p_dt probe_new] in *.
  rewrite ?Ty2, ?Ix2, ?Dt2 in U3.
  set (k := nearest (m_u m) (pos_vec p)) in *.
  destruct (String.eqb_spec ty "voltage") as [Ev|_].
  - destruct (k <? _)%nat; [|discriminate]. destruct (k <? _)%nat; [|discriminate].
    unfold save_frame in U2. cbn in U2. injection U2 as U2.
    unfold save_frame in U3. rewrite <- U2 in U3. cbn in U3. injection U3 as U3.
    exists q2, q3, (col (conductors m2) (k_v (m_core m2)) k), (col (conductors m3) (k_v (m_core m3)) k).
    split; [exact Hq2|]. split; [exact Hq3|]. rewrite <- U2, <- U3. cbn.
    split; [reflexivity|]. split; [reflexivity|]. unfold frame_of; cbn.
    split; [|split; [|reflexivity]]; (split; [apply length_mk|left; repeat split; auto; intros; apply (get_col (N:=N)); auto]).
  - destruct (String.eqb_spec ty "current") as [Ec|_]; [|discriminate].
    assert (EN : cells m3 = cells m2) by apply (kp_N _ _ (proj2 (shape_step _ _ S2 H3))).
    assert (exists idx, idx = (if (k =? cells m2)%nat then (k - 1)%nat else k)) as [idx Hidx] by eauto.
    assert (V2 : save_frame (probe_new (pos_vec p) ty (k_dt (m_core m)) (m_u m)) (m_time m2 + k_dt (m_core m) / n2) (conductors m2) (k_v (m_core m2)) (k_i (m_core m2)) false idx = Ok q2).
    { rewrite Hidx. destruct (k =? cells m2)%nat; [exact U2|]. destruct (k <? cells m2)%nat; [exact U2|discriminate]. }
    assert (V3 : save_frame q2 (m_time m3 + k_dt (m_core m) / n2) (conductors m3) (k_v (m_core m3)) (k_i (m_core m3)) false idx = Ok q3).
    { rewrite EN in U3. rewrite Hidx. destruct (k =? cells m2)%nat; [exact U3|]. destruct (k <? cells m2)%nat; [exact U3|discriminate]. }
    unfold save_frame in V2. cbn in V2. injection V2 as V2.
    unfold save_frame in V3. rewrite <- V2 in V3. cbn in V3. injection V3 as V3.
    exists q2, q3, (col (conductors m2) (k_i (m_core m2)) idx), (col (conductors m3) (k_i (m_core m3)) idx).
    split; [exact Hq2|]. split; [exact Hq3|]. rewrite <- V2, <- V3. cbn.
    split; [reflexivity|]. split; [reflexivity|]. unfold frame_of, cell_of; cbn. rewrite EN.
    fold k. rewrite <- Hidx.
    split; [|split; [|reflexivity]]; (split; [apply length_mk|right; repeat split; auto; intros; apply (get_col (N:=N)); auto]).
Qed.

(** probe types are only looked at when stepping *)
Lemma add_probe_then_step m (p : posarg N) ty m1 : reachable LA m -> add_probe m p ty = Ok m1 ->
  forall m2, mtl_step m = Ok m2 ->
  (ty = "voltage"%string \/ ty = "current"%string ->
     exists m3, mtl_step m1 = Ok m3 /\ m_core m3 = m_core m2 /\ m_time m3 = m_time m2) /\
  (ty <> "voltage"%string -> ty <> "current"%string -> mtl_step m1 = Err ValueError).
Proof.
  intros HR H m2 H2. pose proof (reachable_shape LA _ HR) as Sh.
  assert (R1 : reachable LA m1) by (destruct HR as [m0 HH]; exists m0; eapply h_probe; eauto).
  destruct R1 as [m0 R1]. pose proof (history_probe_index LA _ _ R1) as I1.
  assert (Em1 : m1 = with_probes m (m_probes m1)).
  { unfold add_probe in H. destruct (out_of_box _ _); [discriminate|]. injection H as <-. reflexivity. }
  unfold add_probe in H. destruct (out_of_box _ _); [discriminate|]. injection H as H.
  set (q := probe_new (pos_vec p) ty (k_dt (m_core m)) (m_u m)) in *.
  assert (Ep : m_probes m1 = m_probes m ++ [q]) by now rewrite <- H.
  apply step_Ok in H2 as (s & ps & Hs & Hps & ->).
  assert (E : mtl_step m1 = (qs <- update_probes s (m_time m + k_dt (m_core m))%num (m_probes m ++ [q]) ;;
                             Ok (m_set m1 s (m_time m + k_dt (m_core m))%num qs))).
  { rewrite step_split, Ep, Em1. rewrite step_core_probes, Hs. reflexivity. }
  unfold update_probes in E, Hps. rewrite mapM_app, Hps in E. cbn [bind] in E.
  assert (Ekn : cells m1 = k_N s /\ k_N (m_core m) = k_N s).
  { pose proof (mtl_step_same m (m_set m s (m_time m + k_dt (m_core m))%num ps) (sh_N _ Sh)) as SL.
    assert (St : mtl_step m = Ok (m_set m s (m_time m + k_dt (m_core m))%num ps)).
    { apply step_Ok. exists s, ps. split; [exact Hs|]. split; [exact Hps|reflexivity]. }
    specialize (SL St). pose proof (ss_N _ _ (sl_core _ _ SL)) as EN. cbn in EN. rewrite Em1. cbn. auto. }
  destruct Ekn as [Ek Ek'].
  split.
  - intros Ty.
    assert (P : probe_ok (k_N s) q).
    { apply probe_ok_of; [destruct Ty; [left|right]; auto| |split; reflexivity].
      rewrite Ep in I1. apply Forall_app in I1 as [_ I1]. inversion I1; subst. now rewrite <- Ek. }
    destruct (probe_update_total (k_N s) q (m_time m + k_dt (m_core m))%num (k_n s) (k_v s) (k_i s) P) as (q' & Hq' & _).
    cbn [mapM] in E. unfold bind in E. rewrite Hq' in E. eexists; split; [exact E|]. split; reflexivity.
  - intros T1 T2. cbn [mapM] in E. unfold probe_update in E at 1. cbn [p_type q probe_new] in E.
    destruct (String.eqb_spec ty "voltage"); [contradiction|]. destruct (String.eqb_spec ty "current"); [contradiction|].
    exact E.
Qed.

Lemma update_never_raises m t : reachable LA m ->
  Forall (fun p => p_type p = "voltage"%string \/ p_type p = "current"%string) (m_probes m) ->
  exists ps, update_probes (m_core m) t (m_probes m) = Ok ps.
Proof.
  intros [m0 HH] T. pose proof (history_probe_index LA _ _ HH) as I. pose proof (history_cons LA _ _ HH) as C.
  destruct (update_probes_total (m_core m) t (m_probes m)) as (ps & H & _); [|eauto].
  rewrite Forall_forall in *. intros p Hp. apply probe_ok_of; auto. apply T; auto.
Qed.
End RecordFacts.
