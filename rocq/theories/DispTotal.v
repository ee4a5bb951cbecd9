(** Lines with passive connectors never raise. *)
From Coq Require Import String List Arith ZArith Bool Lia Reals Lra.
From Verif Require Import Num Py Arr NumR ArrFacts RFacts LinAlg LapackR Probes Dispersive Line LineFacts Bundle Networks Mtln
  SpecLine SpecR SpecBundle SpecDisp SpecLoad HistoryFacts LineEqFacts RunEqFacts StepTotal TotalFacts DispFacts MemFacts DispProps ConnFacts
  FitFacts DispR AttachFacts ProbeFacts StepProps.
Import ListNotations.
Local Open Scope R_scope.

(** *** the weight of the newest current is not negative *)
Lemma w1_neg (dt a r : R) : 0 < dt -> a < 0 -> 0 <= r -> fst (@w1 NumR dt (r, 0) (a, 0)) <= 0.
Proof.
  intros Hdt Ha Hr. unfold w1, cmul, cdiv, csub, cexp, cscal, c1, nsq. cbn.
  repeat rewrite ?Rmult_0_r, ?cos_0, ?sin_0, ?Rmult_1_r, ?Rplus_0_r, ?Rminus_0_r, ?Rmult_0_l.
  unfold Rdiv at 3 4. repeat rewrite ?Rmult_0_l, ?Rmult_0_r, ?Rminus_0_r.
  pose proof (exp_ineq1_le (dt * a)).
  assert (H1 : r * a / (a * a) = r / a) by (field; lra). rewrite H1.
  assert (Hda : dt * a < 0) by nra.
  assert (H2 : (exp (dt * a) - 1) * (dt * a) / (dt * a * (dt * a)) = (exp (dt * a) - 1) / (dt * a)) by (field; lra).
  rewrite H2.
  assert (H3 : 0 <= 1 - (exp (dt * a) - 1) / (dt * a)).
  { replace (1 - (exp (dt * a) - 1) / (dt * a)) with ((exp (dt * a) - (1 + dt * a)) * / - (dt * a)) by (field; lra).
    apply Rmult_le_pos; [lra|]. apply Rlt_le, Rinv_0_lt_compat. lra. }
  assert (H4 : r / a <= 0).
  { replace (r / a) with (- (r * / - a)) by (field; lra).
    assert (0 <= r * / - a) by (apply Rmult_le_pos; [lra|]; apply Rlt_le, Rinv_0_lt_compat; lra). lra. }
  nra.
Qed.

Section DT.
Variable LA : lapack NumR.
Hypothesis LAc : lapack_complete LA.

(** sums are those of the pole lists *)
Definition sums (s : disp NumR) : Prop := forall k i j, @get3 NumR (ds_q1sum s) k i j = qsum (dP1 s k i j).
Lemma nth_map3 {A B} (f : A -> B) (t : list (list (list A))) d k i j :
  nth j (nth i (nth k (map (map (map f)) t) []) []) (f d) = f (nth j (nth i (nth k t []) []) d).
Proof.
  change (@nil (list B)) with (map (map f) []) at 1. rewrite map_nth.
  change (@nil B) with (map f []) at 1. rewrite map_nth. apply map_nth.
Qed.
Lemma qsum3_get (t : list (list (list (qe NumR)))) k i j : @get3 NumR (qsum3 t) k i j = qsum (qget3 t k i j).
Proof.
  assert (Z : qsum (@qzero NumR) = 0) by (unfold qsum, qzero, cadd, c0; cbn; lra).
  transitivity (nth j (nth i (nth k (map (map (map (@qsum NumR))) t) []) []) (@qsum NumR qzero)).
  - rewrite Z. reflexivity.
  - rewrite nth_map3. reflexivity.
Qed.
Lemma history_sums m0 m : history LA m0 m -> sums (m_disp m).
Proof.
  intros H. destruct (history_calls LA _ _ H) as [B C]. pose proof (built_shape LA _ B) as Sh.
  apply (calls_cases LA sums m0 m Sh C).
  - intros s s' I SD k i j. unfold dP1. rewrite (sd_q1s _ _ SD), (sd_q1 _ _ SD). apply I.
  - intros x p c model x' _ _ _ E k i j. unfold mtl_add_dispersive_connector in E. inv_bind E. injection E as <-.
    unfold m_disp. cbn [m_core m_set_core k_disp set_disp]. unfold add_dispersive_connector in Ha.
    destruct (_ || _); [discriminate|]. inv_bind Ha. inv_bind Ha. destruct (negb _); [discriminate|].
    do 8 (inv_bind Ha). injection Ha as <-. unfold dP1. cbn [ds_q1sum ds_q1]. apply qsum3_get.
  - rewrite (built_disp LA _ B). intros k i j. unfold dP1. cbn [disp_new ds_q1sum ds_q1].
    rewrite qget3_qzeros, zeros3_get. unfold qsum, qzero, cadd, c0; cbn; lra.
Qed.

(** diagonal matrices with no negative entry *)
Lemma psd_diagonal n (A : nat -> nat -> R) : (forall i j, i <> j -> A i j = 0) -> (forall i, 0 <= A i i) -> pos_semidef n A.
Proof.
  intros Ho Hd x. unfold quad, mulv.
  enough (E : sumR n (fun i => x i * sumR n (fun j => A i j * x j)) = sumR n (fun i => A i i * (x i * x i))).
  { rewrite E. clear E. induction n as [|n IH]; [rewrite sumR_0; lra|]. rewrite sumR_S.
    pose proof (Hd n). pose proof (Rle_0_sqr (x n)). unfold Rsqr in *. nra. }
  apply sumR_ext. intros i Hi. rewrite (sumR_single n (fun j => A i j * x j) i).
  - rring.
  - exact Hi.
  - intros j Hj Hji. rewrite Ho by auto. rring.
Qed.

Record passive (q : nat -> nat) (m : mtl NumR) : Prop := {
  pa_reach : reachable LA m;
  pa_dt : 0 < step_dt m;
  pa_h : forall k, (k < cells m)%nat -> 0 < cell_len m k;
  pa_C : forall k, (k <= cells m)%nat -> pos_def (conductors m) (C_ m k) /\ pos_semidef (conductors m) (G_ m k);
  pa_L : forall k, (k < cells m)%nat -> pos_def (conductors m) (L_ m k) /\ pos_semidef (conductors m) (R_ m k);
  pa_probes : probes_known m;
  pa_fit : fit q (m_disp m);
  pa_d : forall k c, 0 <= dD (m_disp m) k c c /\ 0 <= dE (m_disp m) k c c /\ 0 <= qsum (dP1 (m_disp m) k c c);
  pa_ddt : 0 < ds_dt (m_disp m)
}.

Lemma passive_prepare q m steps : passive q m -> exists m', mtl_prepare LA m steps = Ok m' /\ marching_fit q m'.
Proof.
  intros P. pose proof (reachable_shape LA _ (pa_reach _ _ P)) as Sh.
  destruct (pa_reach _ _ P) as [m0 H]. pose proof (history_sums _ _ H) as HS. destruct (history_line_disp LA _ _ H) as (_ & _ & HO).
  assert (F : forall k, (k < cells m)%nat -> pos_def (conductors m) (get2 (lr_F1 (m_core m) k))).
  { intros k Hk.
    pose proof (pa_h _ _ P k Hk) as Hh. pose proof (pa_dt _ _ P) as Hdt. destruct (pa_L _ _ P k Hk) as [HL HR].
    apply pd_ext with (A := fun i j => cell_len m k * ((/ step_dt m * L_ m k i j + / 2 * R_ m k i j) +
        (/ 2 * D_ m k i j + / step_dt m * E_ m k i j + Q1_ m k i j))).
    { intros i j Hi Hj. rewrite lr_F1_get by auto. unfold Rdiv. rring. }
    apply pd_scal; auto. apply pd_add_psd.
    - apply pd_add_psd; [apply pd_scal; auto; now apply Rinv_0_lt_compat|apply psd_scal; auto; lra].
    - apply psd_diagonal.
      + intros i j Hij. destruct (HO k i j Hij) as (E1 & _ & _ & E4 & E5).
        assert (E6 : Q1_ m k i j = 0). { unfold Q1_. fold (m_disp m). rewrite HS, E1. unfold qsum, qzero, cadd, c0; cbn; lra. }
        rewrite E6. unfold D_, E_. fold (m_disp m).
        unfold dD in E4. unfold dE in E5. rewrite E4, E5. rsimpl. ring.
      + intros i. destruct (pa_d _ _ P k i) as (H1 & H2 & H3).
        assert (E6 : Q1_ m k i i = qsum (dP1 (m_disp m) k i i)) by (unfold Q1_; fold (m_disp m); apply HS).
        rewrite E6. unfold D_, E_. fold (m_disp m). unfold dD in H1. unfold dE in H2.
        assert (0 < / step_dt m) by now apply Rinv_0_lt_compat.
        assert (0 <= / step_dt m * @get3 NumR (ds_e (m_disp m)) k i i) by (apply Rmult_le_pos; lra).
        assert (0 <= / 2 * @get3 NumR (ds_d (m_disp m)) k i i) by (apply Rmult_le_pos; lra).
        apply Rplus_le_le_0_compat; [apply Rplus_le_le_0_compat|]; assumption. }
  assert (G : forall k, (k <= cells m)%nat -> pos_def (conductors m) (get2 (cg_F1 (m_core m) k))).
  { intros k Hk. apply pd_ext with (A := fun i j => width m k * (C_ m k i j / step_dt m + G_ m k i j / 2)).
    - intros i j Hi Hj. rewrite cg_F1_get by auto. reflexivity.
    - apply pos_def_sum4; try apply P; auto.
      unfold width. pose proof (sh_N _ Sh) as HN. fold (cells m) in HN.
      destruct (Nat.eqb_spec k 0) as [E0|E0]; [|destruct (Nat.eqb_spec k (cells m)) as [E1|E1]].
      all: first [apply (pa_h _ _ P); lia | idtac].
      pose proof (pa_h _ _ P (k - 1) ltac:(lia)). pose proof (pa_h _ _ P k ltac:(lia)). lra. }
  unfold mtl_prepare.
  destruct (update_lr_total LA LAc (m_core m) F) as [s1 E1]. rewrite E1. cbn [bind].
  destruct (update_lr_inv _ _ _ E1) as [t1 ->].
  destruct (update_cg_total LA LAc (set_lr (m_core m) t1) G) as [s2 E2]. rewrite E2. cbn [bind].
  eexists; split; [reflexivity|].
  eapply (prepare_fit LA q m steps); [apply P|exact (pa_probes _ _ P)|].
  unfold mtl_prepare. rewrite E1. cbn [bind]. rewrite E2. reflexivity.
Qed.

Lemma passive_run q m T : passive q m -> exists m', run_until LA m T = Ok m'.
Proof.
  intros P. apply (run_fit LA q m T (pa_reach _ _ P) (pa_fit _ _ P) (pa_probes _ _ P)) with (steps := Z.to_nat (Int_part (T / step_dt m))).
  - intros steps _. destruct (passive_prepare q m steps P) as (p & E & _). eauto.
  - unfold time_range_len. change (k_dt (m_core m) =? n0)%num with (Reqb (step_dt m) 0).
    rewrite (proj2 (Reqb_false _ _)); [reflexivity|]. pose proof (pa_dt _ _ P). lra.
Qed.
Lemma passive_step q m T k : passive q m -> (k < Z.to_nat (Int_part (T / step_dt m)))%nat ->
  exists a b, run_step LA m T k a b.
Proof.
  intros P Hk. set (steps := Z.to_nat (Int_part (T / step_dt m))) in *.
  destruct (passive_prepare q m steps P) as (m1 & E1 & M1).
  destruct (steps_fit q k m1 M1) as (a & Ea & Ma).
  destruct (step_fit q a Ma) as (b & Eb & _).
  exists a, b, steps, m1. repeat split; auto.
  unfold time_range_len. change (k_dt (m_core m) =? n0)%num with (Reqb (step_dt m) 0).
  rewrite (proj2 (Reqb_false _ _)); [reflexivity|]. pose proof (pa_dt _ _ P). lra.
Qed.

Lemma qsum_nonneg (l : list (cplx NumR)) : (forall z, In z l -> 0 <= fst z) -> 0 <= qsum l.
Proof.
  intros H. rewrite qsum_sum. enough (G : forall n, (n <= length l)%nat -> 0 <= sumR n (fun k => fst (nth k l c0))) by now apply G.
  induction n as [|n IH]; intros Hn; [rewrite sumR_0; lra|]. rewrite sumR_S.
  pose proof (IH ltac:(lia)). pose proof (H (nth n l c0) (nth_In l c0 Hn)). lra.
Qed.

Lemma built_passive q m : built LA m -> sound_line m -> passive q m.
Proof.
  intros B (Hdt & Hh & HC & HL & HU & HP).
  assert (RM : reachable LA m) by (exists m; now apply h_new).
  pose proof (built_disp LA _ B) as ED.
  split; auto.
  - unfold probes_known. destruct RM as [m0 HH]. pose proof (history_probe_index LA _ _ HH) as I.
    apply Forall_forall. intros p Hp. rewrite Forall_forall in HP, I. split; auto.
  - rewrite ED. destruct (flat_new (conductors m) (cells m) (m_u m) (step_dt m)) as [F1 F2 F3 F4].
    split; intros; left; [apply F1|apply F2|apply F3|apply F4].
  - intros k c. rewrite ED. unfold dD, dE, dP1. cbn [disp_new ds_q1 ds_d ds_e]. rewrite qget3_qzeros, !zeros3_get.
    unfold qsum, qzero, cadd, c0; cbn; lra.
  - rewrite ED. exact Hdt.
Qed.

Lemma loaded_passive q m0 m : loaded LA q m0 m -> passive q m.
Proof.
  induction 1 as [B S|m NDT T _ P HT|m p c f m' _ P E|m p ty m' _ P Hty E|m p c model m' _ P HM Hq Hg E].
  - now apply built_passive.
  - destruct P as [[x A] B C D E F G I J]. split; auto. exists x. now apply h_time_step.
  - assert (RM : reachable LA m') by (destruct (pa_reach _ _ P) as [x Hx]; exists x; eapply h_source; eauto).
    unfold add_voltage_source in E. destruct (_ <? _)%nat; [|discriminate]. injection E as <-.
    destruct P as [A B C D E F G I J]. split; auto.
  - assert (RM : reachable LA m') by (destruct (pa_reach _ _ P) as [x Hx]; exists x; eapply h_probe; eauto).
    destruct RM as [x Hx]. pose proof (history_probe_index LA _ _ Hx) as Ix. assert (RM : reachable LA m') by now exists x.
    unfold add_probe in E. destruct (out_of_box _ _); [discriminate|]. injection E as <-.
    destruct P as [A B C D E F G I J]. split; auto.
    unfold probes_known in *. cbn [m_probes] in *. apply Forall_app in Ix as [_ Ix]. apply Forall_app. split; [exact F|].
    constructor; [|constructor]. inversion Ix; subst. split; auto.
  - destruct (pa_reach _ _ P) as [x Hx].
    destruct (connector_exact_line LA _ _ _ _ _ _ Hx E) as (Hk & Hc & Hcons & _ & Hcon & Hsame & (d & Em & Ephi & _)).
    assert (RM : reachable LA m') by (exists x; eapply h_connector; eauto).
    set (k0 := node_of m p) in *.
    assert (Edt : step_dt x = ds_dt (m_disp m)).
    { pose proof (history_shape LA _ _ Hx) as [Sh K]. pose proof (kp_ddt _ _ K) as Ek. unfold m_disp. rewrite Ek.
      pose proof (built_disp LA _ (history_built LA _ _ Hx)) as Eb. unfold m_disp in Eb. rewrite Eb. reflexivity. }
    rewrite Edt in Hcon.
    assert (Eddt : ds_dt (m_disp m') = ds_dt (m_disp m)).
    { unfold mtl_add_dispersive_connector in E. inv_bind E. injection E as <-.
      destruct (history_line_disp LA _ _ Hx) as (A1 & B1 & _). pose proof (history_shape LA _ _ Hx) as [Sh _].
      assert (Lu : length (ds_u (m_disp m)) = S (ds_nx (m_disp m))).
      { rewrite B1, (sh_u _ Sh). unfold m_disp. now rewrite (sh_dx _ Sh). }
      destruct (connector_spec _ _ _ _ _ A1 Lu Ha) as (_ & K1 & _). exact (dk_dt _ _ K1). }
    destruct P as [A B C D L F G I J].
    destruct Hcon as (ED & EE & z1 & z2 & z3 & Z1 & Z2 & Z3 & Q1 & Q2 & Q3).
    assert (Ok_ : forall k i j, (k = k0 /\ i = c /\ j = c) \/ ~ (k = k0 /\ i = c /\ j = c)).
    { intros k i j. destruct (Nat.eq_dec k k0), (Nat.eq_dec i c), (Nat.eq_dec j c); tauto. }
    destruct HM as (M1 & M2 & M3).
    split; auto.
    + rewrite Em. exact B.
    + rewrite Em. exact C.
    + rewrite Em. exact D.
    + rewrite Em. exact L.
    + rewrite Em. exact F.
    + destruct G as [G1 G2 G3 G4]. split.
      * intros k i j. destruct (Ok_ k i j) as [(-> & -> & ->)|N]; [|destruct (Hsame k i j N) as (_ & _ & -> & _); apply G1].
        rewrite Q1. unfold fits. rewrite map_length, seq_length. exact Hq.
      * intros k i j. destruct (Ok_ k i j) as [(-> & -> & ->)|N]; [|destruct (Hsame k i j N) as (_ & _ & _ & -> & _); apply G2].
        rewrite Q2. unfold fits. rewrite map_length, seq_length. exact Hq.
      * intros k i j. destruct (Ok_ k i j) as [(-> & -> & ->)|N]; [|destruct (Hsame k i j N) as (_ & _ & _ & _ & ->); apply G3].
        rewrite Q3. unfold fits. rewrite map_length, seq_length. exact Hq.
      * intros k j. assert (EP : dPhi (m_disp m') k j = dPhi (m_disp m) k j) by (rewrite Em; unfold dPhi; rewrite <- Ephi; reflexivity).
        rewrite EP. apply G4.
    + intros k c'. destruct (Ok_ k c' c') as [(-> & -> & _)|N];
        [|destruct (Hsame k c' c' N) as (-> & -> & -> & _); apply I].
      destruct (I k0 c) as (I1 & I2 & I3). rewrite Z1 in I3.
      assert (0 < / node_gap m k0) by now apply Rinv_0_lt_compat.
      rewrite ED, EE. split; [|split].
      * apply Rplus_le_le_0_compat; [exact I1|]. apply Rmult_le_pos; [exact M1|]. now apply Rlt_le.
      * apply Rplus_le_le_0_compat; [exact I2|]. apply Rmult_le_pos; [exact M2|]. now apply Rlt_le.
      * rewrite Q1. apply qsum_nonneg. intros z Hz. apply in_map_iff in Hz as (l & <- & Hl). apply in_seq in Hl.
        destruct (M3 l ltac:(lia)) as (P1 & P2 & P3 & P4).
        assert (0 <= fst z1) by (revert I3; unfold qsum, cadd, c0; cbn; lra).
        assert (Hw : fst (@w1 NumR (ds_dt (m_disp m)) (residue model (node_gap m k0) l) (pole model l)) <= 0).
        { unfold residue. rewrite P4. destruct (pole model l) as [pa pb]. cbn [fst snd] in P1, P2. subst pb.
          change (@ndiv NumR 0 (node_gap m k0)) with (0 / node_gap m k0). replace (0 / node_gap m k0) with 0 by (unfold Rdiv; ring).
          apply w1_neg; auto. apply Rmult_le_pos; [exact P3|]. now apply Rlt_le. }
        unfold csub. cbn [fst]. rsimpl. lra.
    + rewrite Eddt. exact J.
Qed.

Lemma loaded_runs q m0 m T : loaded LA q m0 m -> exists m', run_until LA m T = Ok m' /\ conductors m' = conductors m0 /\ cells m' = cells m0.
Proof.
  intros H. pose proof (loaded_passive _ _ _ H) as P. destruct (passive_run q m T P) as [m' E]. exists m'. split; [exact E|].
  assert (K : conductors m = conductors m0 /\ cells m = cells m0).
  { clear - H. induction H as [|m NDT T _ P HT|m p c f m' _ P E|m p ty m' _ P Hty E|m p c model m' _ P HM Hq Hg E]; auto.
    - unfold add_voltage_source in E. destruct (_ <? _)%nat; [|discriminate]. injection E as <-. exact P.
    - unfold add_probe in E. destruct (out_of_box _ _); [discriminate|]. injection E as <-. exact P.
    - unfold mtl_add_dispersive_connector in E. inv_bind E. injection E as <-. exact P. }
  destruct K as [<- <-].
  destruct (shape_run LA _ _ _ (reachable_shape LA _ (pa_reach _ _ P)) E) as [_ K]. split; apply K.
Qed.
End DT.
