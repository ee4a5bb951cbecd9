(** Proofs of the statements of PropRun.v. *)
From Coq Require Import String List Arith ZArith Bool Lia Reals Lra.
From Verif Require Import Num Py Arr ArrFacts NumR RFacts LapackR Probes Dispersive Line LineFacts SpecLine SpecR SpecProbe
  HistoryFacts StepTotal ProbeFacts NearestFacts SplitFacts RecordFacts SimFacts RunEqFacts AttachFacts TotalFacts
  ExampleLine ExampleRun NumF.
Import ListNotations.
Local Open Scope R_scope.

(** *** floor *)
Lemma Int_part_bounds x : IZR (Int_part x) <= x < IZR (Int_part x) + 1.
Proof. destruct (base_Int_part x). lra. Qed.
Lemma Int_part_nat x (n : nat) : INR n <= x < INR (S n) -> Z.to_nat (Int_part x) = n.
Proof.
  intros [H1 H2]. destruct (Int_part_bounds x) as [B1 B2]. rewrite S_INR in H2. rewrite INR_IZR_INZ in H1, H2.
  assert (E : Int_part x = Z.of_nat n); [|rewrite E; apply Nat2Z.id].
  assert (Int_part x < Z.of_nat n + 1)%Z by (apply lt_IZR; rewrite plus_IZR; lra).
  assert (Z.of_nat n < Int_part x + 1)%Z by (apply lt_IZR; rewrite plus_IZR; lra). lia.
Qed.
Lemma to_nat_floor x : 0 <= x -> INR (Z.to_nat (Int_part x)) <= x < INR (S (Z.to_nat (Int_part x))).
Proof.
  intros H. destruct (Int_part_bounds x) as [B1 B2]. rewrite S_INR, INR_IZR_INZ.
  assert (-1 < Int_part x)%Z by (apply lt_IZR; simpl; lra).
  rewrite Z2Nat.id by lia. lra.
Qed.

Definition floor_of (T dt : R) (n : nat) : Prop :=
  (0 <= T -> INR n * dt <= T < INR (S n) * dt) /\ (T < dt -> n = 0%nat).

Lemma range_floor T dt n : 0 < dt -> @time_range_len NumR T dt = Ok n -> floor_of T dt n.
Proof.
  intros Hdt H. unfold time_range_len in H. rsimpl. destruct (Reqb_spec dt 0); [discriminate|]. injection H as H.
  assert (HT : T = T / dt * dt) by (field; lra).
  split.
  - intros H0. assert (0 <= T / dt) by (apply Rmult_le_pos; [lra|apply Rlt_le, Rinv_0_lt_compat; lra]).
    destruct (to_nat_floor (T / dt)) as [B1 B2]; auto. rewrite H in B1, B2.
    assert (Q : forall x, x <= T / dt -> x * dt <= T) by (intros x X; rewrite HT; apply Rmult_le_compat_r; lra).
    assert (Q2 : forall x, T / dt < x -> T < x * dt) by (intros x X; rewrite HT at 1; apply Rmult_lt_compat_r; lra).
    split; [now apply Q|now apply Q2].
  - intros HL. assert (T / dt < 1). { apply (Rmult_lt_reg_r dt); auto. rewrite <- HT. lra. }
    destruct (Int_part_bounds (T / dt)) as [B1 B2].
    assert (Int_part (T / dt) < 1)%Z by (apply lt_IZR; simpl; lra).
    rewrite <- H. destruct (Int_part (T / dt)); try reflexivity; lia.
Qed.
Lemma floor_range T dt n : 0 < dt -> INR n * dt <= T < INR (S n) * dt -> @time_range_len NumR T dt = Ok n.
Proof.
  intros Hdt [H1 H2]. unfold time_range_len. rsimpl. destruct (Reqb_spec dt 0); [lra|]. f_equal.
  apply Int_part_nat. split; [apply (Rmult_le_reg_r dt)|apply (Rmult_lt_reg_r dt)]; auto;
    replace (T / dt * dt) with T by (field; lra); auto.
Qed.

Section Run.
Variable LA : lapack NumR.
Implicit Types (m a b : mtl NumR).

Lemma run_until_state m T m' : run_until LA m T = Ok m' ->
  exists n, time_range_len T (step_dt m) = Ok n /\ run_state LA m T n m'.
Proof.
  intros H. unfold run_until in H. inv_bind H. inv_bind H. exists a. split; [exact Ha|]. exists a, a0. auto.
Qed.

Lemma steps_of_run m T m' : reachable LA m -> 0 < step_dt m -> run_until LA m T = Ok m' ->
  exists n : nat, run_state LA m T n m' /\ m_time m' = m_time m + INR n * step_dt m /\
    (0 <= T -> INR n * step_dt m <= T < INR (S n) * step_dt m) /\ (T < step_dt m -> n = 0%nat).
Proof.
  intros HR Hdt H. destruct (run_until_state _ _ _ H) as (n & E & RS). exists n. split; [exact RS|].
  split; [apply (run_time LA m T n m'); auto; apply (reachable_shape LA m HR)|]. exact (range_floor _ _ _ Hdt E).
Qed.

Lemma run_dt m T m' : reachable LA m -> run_until LA m T = Ok m' -> reachable LA m' /\ step_dt m' = step_dt m.
Proof.
  intros HR H. split. { destruct HR as [m0 HH]. exists m0. eapply h_run; eauto. }
  destruct (run_until_state _ _ _ H) as (n & E & RS).
  destruct (run_state_inv LA _ _ _ _ (reachable_shape LA m HR) RS) as (_ & _ & S & _). apply (rs_dt _ _ S).
Qed.

Lemma repeated_runs m T n : 0 < step_dt m -> INR n * step_dt m <= T < INR (S n) * step_dt m ->
  forall j m', reachable LA m -> iterM j (fun x => run_until LA x T) m = Ok m' ->
  m_time m' = m_time m + INR j * (INR n * step_dt m).
Proof.
  intros Hdt Hn j. revert m Hdt Hn. induction j as [|j IH]; intros m Hdt Hn m' HR H.
  - injection H as <-. cbn [INR]. rewrite Rmult_0_l, Rplus_0_r. reflexivity.
  - cbn [iterM] in H. inv_bind H. rename a into m1. destruct (run_dt _ _ _ HR Ha) as [R1 D1].
    destruct (run_until_state _ _ _ Ha) as (k & E & RS).
    assert (k = n) by (rewrite (floor_range _ _ _ Hdt Hn) in E; congruence). subst k.
    rewrite (IH m1) by (rewrite ?D1; auto). rewrite D1.
    rewrite (run_time LA m T n m1 (reachable_shape LA m HR) RS). rewrite S_INR. rring.
Qed.

Lemma exact_steps m (NDT : nat) T m' : reachable LA m -> (1 <= NDT)%nat -> 0 < T ->
  run_until LA (set_time_step m (Z.of_nat NDT) T) T = Ok m' ->
  run_state LA (set_time_step m (Z.of_nat NDT) T) T NDT m' /\ m_time m' = m_time m + T.
Proof.
  intros HR HN HT H. set (m1 := set_time_step m (Z.of_nat NDT) T) in *.
  assert (HI : 0 < INR NDT) by (apply lt_0_INR; lia).
  assert (R1 : reachable LA m1) by (destruct HR as [m0 HH]; exists m0; now apply h_time_step).
  assert (D : step_dt m1 = T / INR NDT) by (unfold m1, step_dt, set_time_step; cbn; now rewrite <- INR_IZR_INZ).
  assert (P : 0 < step_dt m1) by (rewrite D; apply Rmult_lt_0_compat; [|apply Rinv_0_lt_compat]; lra).
  destruct (run_until_state _ _ _ H) as (n & E & RS).
  assert (n = NDT).
  { rewrite (floor_range T _ NDT P) in E; [congruence|]. rewrite S_INR, D. split.
    - apply Req_le. field. lra.
    - replace ((INR NDT + 1) * (T / INR NDT)) with (T + T / INR NDT) by (field; lra). rewrite <- D. lra. }
  subst n. split; [exact RS|]. rewrite (run_time LA m1 T NDT m' (reachable_shape LA m1 R1) RS).
  rewrite D. change (m_time m1) with (m_time m). apply f_equal. field. lra.
Qed.

Lemma step_clock m T k a b : reachable LA m -> run_step LA m T k a b -> m_time b = m_time m + INR (S k) * step_dt m.
Proof.
  intros HR (st & p & E & Hk & Hp & Hi & Hs). apply (run_time LA m T (S k) b (reachable_shape LA m HR)).
  exists st, p. split; [exact E|]. split; [lia|]. split; [exact Hp|]. rewrite iterM_S, Hi. exact Hs.
Qed.

Lemma exact_durations m (n1 n2 : nat) m1 m2 : reachable LA m -> 0 < step_dt m ->
  run_until LA m (INR n1 * step_dt m) = Ok m1 -> run_until LA m1 (INR n2 * step_dt m) = Ok m2 ->
  exists x, run_until LA m (INR n1 * step_dt m + INR n2 * step_dt m) = Ok x /\
    m_core x = m_core m2 /\ m_time x = m_time m2.
Proof.
  intros HR Hdt H1 H2.
  assert (F : forall n, INR n * step_dt m <= INR n * step_dt m < INR (S n) * step_dt m).
  { intros n. split; [apply Rle_refl|]. apply Rmult_lt_compat_r; auto. rewrite S_INR. lra. }
  apply (joint_run LA m _ m1 _ m2 _ n1 n2 HR H1 H2); try apply floor_range; auto.
  rewrite <- Rmult_plus_distr_r, <- plus_INR. apply F.
Qed.
End Run.

(** *** any arithmetic *)
Section Any.
Context {N : num}.
Variable LA : lapack N.
Implicit Types (m a b : mtl N).

Lemma run_steps_exist m T m' : run_until LA m T = Ok m' -> exists n, time_range_len T (step_dt m) = Ok n /\
  run_state LA m T n m' /\ forall k, (k < n)%nat -> exists a b, run_step LA m T k a b.
Proof.
  intros H. unfold run_until in H. inv_bind H. inv_bind H. rename a into n. rename a0 into p.
  exists n. split; [exact Ha|]. split; [exists n, p; auto|].
  intros k Hk. replace n with (S k + (n - S k))%nat in H by lia. rewrite iterM_add in H. inv_bind H.
  rewrite iterM_S in Ha1. inv_bind Ha1. exists a0, a. exists n, p. auto.
Qed.

Lemma recorded m T m' : reachable LA m -> run_until LA m T = Ok m' ->
  exists steps, run_state LA m T steps m' /\ time_range_len T (step_dt m) = Ok steps /\
    length (m_probes m') = length (m_probes m) /\
    forall j p, nth_error (m_probes m) j = Some p ->
    exists q, nth_error (m_probes m') j = Some q /\
      p_type q = p_type p /\ p_index q = p_index p /\ p_dt q = p_dt p /\
      length (p_t q) = steps /\ length (rows_of m' q) = steps /\
      forall k, (k < steps)%nat -> exists a b, run_step LA m T k a b /\
        frame_of p b (nth k (p_t q) n0) (nth k (rows_of m' q) []).
Proof.
  intros HR H. destruct (run_records LA m T m' HR H) as (st & RS & E & Lp & F).
  destruct (run_steps_exist m T m' H) as (n & E' & _ & X). assert (n = st) by congruence. subst n.
  exists st. split; [exact RS|]. split; [exact E|]. split; [exact Lp|].
  intros j p Hj. destruct (F j p Hj) as (q & Hq & (K1 & K2 & K3) & L1 & L2 & G).
  exists q. repeat (split; [assumption|]). intros k Hk. destruct (X k Hk) as (a & b & St). exists a, b.
  split; [exact St|]. apply (G k a b St).
Qed.

Lemma add_probe_any_type m p ty ty' : (exists m1, add_probe m p ty = Ok m1) <-> (exists m1, add_probe m p ty' = Ok m1).
Proof.
  unfold add_probe. destruct (out_of_box _ _); split; intros [x H]; try discriminate; eauto.
Qed.

Lemma prepare_again m n p n' : mtl_prepare LA m n = Ok p ->
  exists p', mtl_prepare LA p n' = Ok p' /\ m_core p' = m_core p /\ m_time p' = m_time p /\ m_vsrc p' = m_vsrc p.
Proof.
  intros H. destruct (prepare_ready LA _ _ _ H) as [R1 R2]. rewrite (ready_prepare LA p n' R1 R2). eauto.
Qed.

Lemma lset_lset {A} (l : list A) i x y : lset (lset l i x) i y = lset l i y.
Proof. revert i; induction l; destruct i; cbn; congruence. Qed.
Lemma lset_same_nth {A} (l : list A) i x d : (i < length l)%nat -> nth i (lset l i x) d = x.
Proof. apply nth_lset_eq. Qed.

Lemma source_replaced m p c f m1 : reachable LA m -> add_voltage_source m p c f = Ok m1 ->
  forall g, add_voltage_source m1 p c g = add_voltage_source m p c g.
Proof.
  intros [m0 HH] H g. pose proof (history_vsrc LA _ _ HH) as V. unfold add_voltage_source in *.
  destruct (c <? k_n (m_core m))%nat eqn:Hc; [|discriminate]. injection H as <-. cbn [m_u m_core m_set_vsrc m_vsrc].
  rewrite Hc. f_equal. unfold m_set_vsrc; cbn. f_equal. unfold upd2.
  rewrite lset_lset. f_equal. rewrite nth_lset_eq.
  - apply lset_lset.
  - destruct V as [V1 V2]. fold (conductors m) in Hc. apply Nat.ltb_lt in Hc. congruence.
Qed.

Lemma interior_source m p c f m1 T : reachable LA m -> add_voltage_source m p c f = Ok m1 ->
  (0 < nearest (m_u m) (pos_vec p) < cells m)%nat ->
  match run_until LA m T, run_until LA m1 T with
  | Ok a, Ok b => m_core a = m_core b /\ m_time a = m_time b /\ m_probes a = m_probes b
  | Err e, Err e' => e = e'
  | _, _ => False
  end.
Proof.
  intros HR H Hk. pose proof (reachable_shape LA _ HR) as Sh. destruct HR as [m0 HH].
  destruct (interior_agrees m p c f m1 (history_vsrc LA _ _ HH) Sh H Hk) as [E A].
  rewrite E, (run_src LA m (m_vsrc m1) T Sh A). destruct (run_until LA m T); cbn [bind]; auto.
Qed.
End Any.

(** *** causality *)
Section Causal.
Variable LA : lapack NumR.
Implicit Types (m a b : mtl NumR).

Lemma future_sources m vs T n a : reachable LA m -> 0 <= step_dt m -> run_state LA m T n a ->
  (forall c t, (c < conductors m)%nat -> t <= m_time m + (INR n - 1) * step_dt m ->
     source m c 0 t = source (m_set_vsrc m vs) c 0 t /\
     source m c (cells m) t = source (m_set_vsrc m vs) c (cells m) t) ->
  exists a', run_state LA (m_set_vsrc m vs) T n a' /\ m_core a' = m_core a /\ m_probes a' = m_probes a.
Proof.
  intros HR Hdt RS A. pose proof (reachable_shape LA _ HR) as Sh.
  exists (m_set_vsrc a vs). split; [|split; reflexivity].
  apply (run_state_src LA (fun t => t <= m_time m + (INR n - 1) * step_dt m) vs m T n a Sh); auto.
  - intros t Ht c Hc. exact (A c t Hc Ht).
  - intros i b Hi Hb. rewrite (run_time LA m T i b Sh Hb).
    assert (INR i + 1 <= INR n). { rewrite <- S_INR. apply le_INR. lia. }
    assert (INR i * step_dt m <= (INR n - 1) * step_dt m) by (apply Rmult_le_compat_r; lra).
    change (car NumR) with R in *. split; rsimpl; lra.
Qed.

Lemma two_sources m p c f g mf mg T n a : reachable LA m -> 0 <= step_dt m ->
  add_voltage_source m p c f = Ok mf -> add_voltage_source m p c g = Ok mg ->
  (forall t, t <= m_time m + (INR n - 1) * step_dt m -> f t = g t) ->
  run_state LA mf T n a -> exists a', run_state LA mg T n a' /\ m_core a' = m_core a /\ m_probes a' = m_probes a.
Proof.
  intros HR Hdt Hf Hg E RS.
  assert (Rf : reachable LA mf) by (destruct HR as [m0 HH]; exists m0; eapply h_source; eauto).
  assert (Emg : mg = m_set_vsrc mf (m_vsrc mg) /\ m_time mf = m_time m /\ step_dt mf = step_dt m /\ conductors mf = conductors m /\ cells mf = cells m).
  { unfold add_voltage_source in *. destruct (c <? _)%nat; [|discriminate]. injection Hf as <-. injection Hg as <-. repeat split. }
  destruct Emg as (Emg & E1 & E2 & E3 & E4).
  rewrite Emg. apply (future_sources mf (m_vsrc mg) T n a Rf); auto; [now rewrite E2|].
  rewrite E1, E2, E3, E4, <- Emg. destruct HR as [m0 HH]. pose proof (history_vsrc LA _ _ HH) as V.
  destruct (history_shape LA _ _ HH) as [Sh _].
  destruct (add_source_effect m p c f mf V Hf) as [_ Ef]. destruct (add_source_effect m p c g mg V Hg) as [_ Eg].
  assert (Hk : (nearest (m_u m) (pos_vec p) < S (cells m))%nat).
  { pose proof (sh_u _ Sh) as F. unfold cells. rewrite <- F. apply nearest_lt. intros X. rewrite X in F. discriminate. }
  specialize (Ef Hk). specialize (Eg Hk).
  intros c' t Hc' Ht. rewrite !Ef, !Eg. destruct (_ && _), (_ && _); auto.
Qed.
End Causal.

(** *** a real line on which every sequence of runs succeeds *)
From Verif Require Import PlainFacts StepProps.

Lemma physical_run LA (m : mtl NumR) T m' : reachable LA m -> physical m -> run_until LA m T = Ok m' -> physical m'.
Proof.
  intros HR P H. destruct (recorded LA m T m' HR H) as (st & RS & _ & Lp & F). pose proof (ph_shape _ P) as Sh.
  destruct (run_state_inv LA _ _ _ _ Sh RS) as (Sh' & _ & S & _).
  destruct P. split; rewrite ?(rs_cond _ _ S), ?(rs_cells _ _ S), ?(rs_sdt _ _ S), ?(rs_C _ _ S), ?(rs_G _ _ S), ?(rs_L _ _ S), ?(rs_R _ _ S); auto.
  - intros k Hk. rewrite (rs_len _ _ _ S). auto.
  - apply (undispersed_run LA m T st m' Sh ph_undisp RS).
  - unfold probes_known in *. rewrite Forall_forall in *. intros q Hq. apply In_nth_error in Hq as [j Hj].
    assert (Hlt : (j < length (m_probes m'))%nat) by (apply nth_error_Some; congruence). rewrite Lp in Hlt.
    apply nth_error_Some in Hlt. destruct (nth_error (m_probes m) j) as [p|] eqn:E; [|congruence].
    destruct (F j p E) as (q' & Hq' & T1 & T2 & _). assert (q' = q) by congruence. subst q'.
    rewrite T1, T2. fold (cells m'). rewrite (rs_cells _ _ S). apply ph_probes. eapply nth_error_In; eauto.
Qed.

Definition unit_step (t : R) : R := if Rltb t 0 then 0 else 1.
Lemma real_line : exists m0 m : mtl NumR, ex_new (fun _ => []) (fun _ => []) = Ok m0 /\
  add_voltage_source m0 (@PosF NumR 0) 0 unit_step = Ok m /\ history LR m0 m /\ physical m /\
  conductors m = 2%nat /\ cells m = 3%nat.
Proof.
  destruct ex_run as (m0 & m & a & b & E0 & Em & HH & P & Hn & HN & _). exists m0, m. auto 10.
Qed.
Lemma real_runs : exists m0 m : mtl NumR, add_voltage_source m0 (@PosF NumR 0) 0 unit_step = Ok m /\ reachable LR m /\
  0 < step_dt m /\ conductors m = 2%nat /\ cells m = 3%nat /\
  forall T, exists m', run_until LR m T = Ok m' /\ forall T', exists m'', run_until LR m' T' = Ok m''.
Proof.
  destruct real_line as (m0 & m & _ & Em & HH & P & Hn & HN). exists m0, m. assert (HR : reachable LR m) by (exists m0; auto).
  split; [exact Em|]. split; [exact HR|]. split; [apply P|]. split; [exact Hn|]. split; [exact HN|].
  intros T. destruct (run_total LR LR_complete m T P) as [m' E]. exists m'. split; [exact E|].
  intros T'. pose proof (physical_run LR m T m' HR P E) as P'. apply (run_total LR LR_complete m' T' P').
Qed.
Lemma real_time_step : exists m : mtl NumR, reachable LR m /\ forall (NDT : nat) T, (1 <= NDT)%nat -> 0 < T ->
  exists m', run_until LR (set_time_step m (Z.of_nat NDT) T) T = Ok m'.
Proof.
  destruct real_line as (m0 & m & _ & _ & HH & P & _). exists m. split; [exists m0; auto|].
  intros NDT T HN HT. apply (run_total LR LR_complete). apply physical_time_step; auto.
  rewrite <- INR_IZR_INZ. apply Rmult_lt_0_compat; [lra|]. apply Rinv_0_lt_compat, lt_0_INR. lia.
Qed.
Lemma real_two_sources : exists (m0 mf mg : mtl NumR) a, reachable LR m0 /\ 0 <= step_dt m0 /\ add_voltage_source m0 (@PosF NumR 0) 0 unit_step = Ok mf /\ add_voltage_source m0 (@PosF NumR 0) 0 (fun t => if Rltb (m_time m0 + 1.5 * step_dt m0) t then 7 else unit_step t) = Ok mg /\ run_state LR mf (2.5 * step_dt m0) 2 a.
Proof.
  destruct real_line as (m0 & m & E0 & Em & HH & P & Hn & _).
  destruct (ex_new_ok (fun _ => []) (fun _ => [])) as (m0' & E0' & P0 & Hn0 & _).
  assert (m0' = m0) as -> by congruence.
  destruct (add_voltage_source m0 (@PosF NumR 0) 0 (fun t => if Rltb (m_time m0 + 1.5 * step_dt m0) t then 7 else unit_step t)) as [mg|] eqn:Eg.
  2:{ unfold add_voltage_source in Eg. unfold conductors in Hn0. rewrite Hn0 in Eg. discriminate. }
  destruct (run_total LR LR_complete m (2.5 * step_dt m0) P) as [a Ea].
  exists m0, m, mg, a. split; [exists m0; constructor; eapply history_built; eauto|].
  split; [apply Rlt_le, P0|]. split; [exact Em|]. split; [exact Eg|].
  destruct (run_until_state _ _ _ _ Ea) as (n & E & RS).
  assert (Ed : step_dt m = step_dt m0) by (unfold add_voltage_source in Em; destruct (_ <? _)%nat; [|discriminate]; injection Em as <-; reflexivity).
  rewrite (floor_range _ _ 2) in E.
  - injection E as <-. exact RS.
  - rewrite Ed. apply P0.
  - rewrite Ed. pose proof (ph_dt _ P0). cbn [INR]. lra.
Qed.
