(** A driven line of two conductors with a one-pole connector on the first conductor and a
    two-pole connector on the second one, in the same cell. *)
From Coq Require Import String List Arith ZArith Bool Lia Reals Lra.
From Verif Require Import Num Py Arr NumR ArrFacts RFacts LinAlg LapackR Probes Dispersive Line LineFacts Bundle Networks Mtln
  SpecLine SpecR SpecBundle SpecDisp SpecLoad HistoryFacts LineEqFacts RunEqFacts StepTotal TotalFacts DispFacts MemFacts DispProps ConnFacts
  FitFacts DispR DispTotal ExampleLine ExampleRun SymExample.
Import ListNotations.
Local Open Scope R_scope.

Definition one_pole : ratmodel NumR := @RatModel NumR 1 1 [-1] [0] [1] [0] None ""%string.
Definition two_poles : ratmodel NumR := @RatModel NumR 1 1 [-1; -2] [0; 0] [1; 1] [0; 0] None ""%string.
Definition I2 : mat NumR := [[1; 0]; [0; 1]].
Definition O2 : mat NumR := [[0; 0]; [0; 0]].
Definition origin : vec NumR := [0; 0; 0].

Record setup (m0 m m1 m2 : mtl NumR) : Prop := {
  se_built : built LR m0; se_hist : history LR m0 m; se_sound : sound_line m0;
  se_src : add_voltage_source m0 (@PosF NumR 0) 0 pulse = Ok m;
  se_1 : mtl_add_dispersive_connector m origin 0 one_pole = Ok m1;
  se_2 : mtl_add_dispersive_connector m1 origin 1 two_poles = Ok m2;
  se_ld1 : loaded LR (fun _ => 2%nat) m0 m1; se_ld2 : loaded LR (fun _ => 2%nat) m0 m2;
  se_n : conductors m = 2%nat; se_N : cells m = 3%nat; se_dt : step_dt m0 = 1;
  se_node : node_of m origin = 0%nat; se_gap : node_gap m 0 = 1;
  se_last : node_of m [0; 0; INR 3 * 1] = 3%nat; se_in : ~ outside m [0; 0; INR 3 * 1]; se_out : outside m [0; 0; 4];
  se_L : forall k i j, (k < 3)%nat -> (i < 2)%nat -> (j < 2)%nat -> L_ m k i j = get2 I2 i j /\ R_ m k i j = get2 O2 i j;
  se_C : forall k i j, (k <= 3)%nat -> (i < 2)%nat -> (j < 2)%nat -> C_ m k i j = get2 I2 i j /\ G_ m k i j = get2 O2 i j;
  se_G0 : forall i j, (i < 2)%nat -> (j < 2)%nat -> G_ m0 0 i j = 0;
  se_Zs : forall i j, (i < 2)%nat -> (j < 2)%nat -> Zs_ m i j = 0;
  se_len : forall k, (k < 3)%nat -> cell_len m k = 1;
  se_v : forall c k, volt m c k = 0; se_i : forall c k, curr m c k = 0;
  se_eT : forall c k t, eTran m c k t = 0; se_eL : forall c k t, eLong m c k t = 0;
  se_source : forall c k t, source m c k t = if ((c =? 0) && (k =? 0))%nat then pulse t else 0;
  se_time : m_time m = 0
}.

Lemma one_pole_ok : passive_model one_pole /\ consistent one_pole.
Proof.
  split; [|repeat split]. split; [cbn; lra|]. split; [cbn; lra|]. intros l Hl. change (l < 1)%nat in Hl.
  assert (l = 0)%nat as -> by lia. cbn. lra.
Qed.
Lemma two_poles_ok : passive_model two_poles /\ consistent two_poles.
Proof.
  split; [|repeat split]. split; [cbn; lra|]. split; [cbn; lra|]. intros l Hl. change (l < 2)%nat in Hl.
  idx2; cbn; lra.
Qed.

Lemma setup_exists : exists m0 m m1 m2, setup m0 m m1 m2.
Proof.
  destruct (two_conductors_u I2 I2 O2 O2 0 0 0 0 1 "" (fun _ => []) (fun _ => [])) as
    (m0 & H0 & P0 & En & EN & Eh & EL & EC & EZ & Edt & Ev & Ei & EeT & EeL & Es & Et & Lv & Lv' & Enear & Lu & U);
    try apply pd_diag; try apply psd_diag; try lra.
  { unfold mm, I2. unfold mk2, mk, sumn. cbn. rsimpl. repeat (apply f_equal2; [try ring|]); reflexivity. }
  assert (B0 : built LR m0) by (do 12 eexists; exact H0).
  destruct (drive m0 0 pulse B0 P0 En ltac:(lia) Es Lv Lv' Enear) as (m & Em & Hm & Pm & Em' & Esrc).
  assert (S0 : sound_line m0).
  { destruct P0 as [A1 A2 A3 A4 A5 A6 A7 A8 A9]. split; [exact A2|]. split; [exact A3|]. split; [auto|]. split; [auto|]. split; [exact A8|].
    eapply Forall_impl; [|exact A9]. cbn. tauto. }
  assert (Edisp : m_disp m = m_disp m0) by (rewrite Em'; reflexivity).
  assert (Eu : m_u m = m_u m0) by (rewrite Em'; reflexivity).
  assert (Nn : node_of m origin = 0%nat) by (unfold node_of; rewrite Eu; exact Enear).
  assert (Ncell : cells m = 3%nat) by (rewrite Em'; exact EN). assert (Ncond : conductors m = 2%nat) by (rewrite Em'; exact En).
  assert (Out : ~ outside m origin /\ ~ outside m [0; 0; INR 3 * 1] /\ outside m [0; 0; 4]).
  { unfold outside. rewrite Eu, Lu. change (4 - 1)%nat with 3%nat. rewrite (U 0%nat), (U 3%nat) by lia. split; [|split].
    - intros (d & Hd & [H|H]); assert (d = 0 \/ d = 1 \/ d = 2)%nat as [-> | [-> | ->]] by lia; apply Rltb_true in H; revert H; cbn; lra.
    - intros (d & Hd & [H|H]); assert (d = 0 \/ d = 1 \/ d = 2)%nat as [-> | [-> | ->]] by lia; apply Rltb_true in H; revert H; cbn; lra.
    - exists 2%nat. split; [lia|]. left. apply Rltb_true. cbn. lra. }
  destruct Out as (O1 & O2' & O3).
  assert (Gap : node_gap m 0 = 1).
  { unfold node_gap. rewrite Eu, (U 0%nat), (U 1%nat) by lia. unfold vsub, mk, get. cbn [seq map nth]. cbn [INR]. rsimpl.
    replace (0 - 0) with 0 by ring. replace (1 * 1 - 0 * 1) with 1 by ring. exact (eq_trans (vnorm_z 1) Rabs_R1). }
  assert (Last : node_of m [0; 0; INR 3 * 1] = 3%nat).
  { unfold node_of. rewrite Eu. apply (nearest_z _ 3 1); [exact Lu|lra| |lia]. intros j Hj. apply U. lia. }
  assert (R0 : reachable LR m) by now exists m0.
  assert (Z0 : (@n0 NumR =? n0)%num = true) by (apply Reqb_true; reflexivity).
  destruct (connector_accepted LR m origin 0 one_pole R0 O1) as [m1 E1].
  { rewrite Nn, Ncell. lia. } { rewrite Ncond. lia. } { apply one_pole_ok. }
  { rewrite Edisp. apply (built_free LR _ _ _ B0 Z0). }
  assert (H1 : history LR m0 m1) by (eapply h_connector; eauto).
  destruct (connector_exact_line LR _ _ _ _ _ _ Hm E1) as (_ & _ & _ & _ & _ & Hsame & (d & Ed & _)).
  assert (Eu1 : m_u m1 = m_u m) by (rewrite Ed; reflexivity).
  assert (Ec1 : cells m1 = cells m) by (rewrite Ed; reflexivity). assert (En1 : conductors m1 = conductors m) by (rewrite Ed; reflexivity).
  assert (Nn1 : node_of m1 origin = 0%nat) by (unfold node_of; rewrite Eu1; exact Nn).
  destruct (connector_accepted LR m1 origin 1 two_poles) as [m2 E2].
  { now exists m0. } { unfold outside in *. rewrite Eu1. exact O1. } { rewrite Nn1, Ec1, Ncell. lia. } { rewrite En1, Ncond. lia. } { apply two_poles_ok. }
  { rewrite Nn1. destruct (Hsame 0%nat 1%nat 1%nat) as (S1 & S2 & S3 & S4 & S5); [intros (_ & X & _); discriminate|].
    unfold free_entry. rewrite S1, S2, S3, S4, S5, Edisp. apply (built_free LR _ _ _ B0 Z0). }
  assert (L0 : loaded LR (fun _ => 2%nat) m0 m) by (eapply ld_source; [now apply ld_line|exact Em]).
  assert (L1 : loaded LR (fun _ => 2%nat) m0 m1).
  { eapply ld_connector; [exact L0|apply one_pole_ok|now left| |exact E1]. rewrite Nn, Gap. lra. }
  assert (L2 : loaded LR (fun _ => 2%nat) m0 m2).
  { eapply ld_connector; [exact L1|apply two_poles_ok|now right| |exact E2]. unfold node_gap. rewrite Nn1, Eu1. unfold node_gap in Gap. rewrite Gap. lra. }
  exists m0, m, m1, m2. subst m. split; auto.
  - rewrite Edt. apply sqrt_1.
  - intros i j Hi Hj. destruct (EC 0%nat i j ltac:(lia) Hi Hj) as [_ ->]. idx2; reflexivity.
  - intros i j Hi Hj. unfold Zs_. cbn [m_zs m_set_vsrc]. destruct (EZ i j Hi Hj) as [E _]. unfold Zs_ in E. rewrite E. idx2; reflexivity.
Qed.

Lemma setup_loaded m0 m m1 m2 : setup m0 m m1 m2 ->
  history LR m0 m1 /\ history LR m0 m2 /\
  (exists d, m1 = m_set_core m (set_disp (m_core m) d) /\ ds_phi d = ds_phi (m_disp m0)) /\
  (exists d, m2 = m_set_core m (set_disp (m_core m) d) /\ ds_phi d = ds_phi (m_disp m0)).
Proof.
  intros S. pose proof (se_hist _ _ _ _ S) as Hm.
  assert (H1 : history LR m0 m1) by (eapply h_connector; [exact Hm|apply S]).
  assert (H2 : history LR m0 m2) by (eapply h_connector; [exact H1|apply S]).
  split; [exact H1|]. split; [exact H2|].
  destruct (connector_exact_line LR _ _ _ _ _ _ Hm (se_1 _ _ _ _ S)) as (_ & _ & _ & _ & _ & _ & (d & Ed & Ep & _)).
  destruct (connector_exact_line LR _ _ _ _ _ _ H1 (se_2 _ _ _ _ S)) as (_ & _ & _ & _ & _ & _ & (d' & Ed' & Ep' & _)).
  assert (E0 : ds_phi (m_disp m) = ds_phi (m_disp m0)).
  { pose proof (se_src _ _ _ _ S) as E. unfold add_voltage_source in E. destruct (_ <? _)%nat; [|discriminate]. injection E as <-. reflexivity. }
  split; [exists d; split; [exact Ed|congruence]|]. exists d'. split; [rewrite Ed', Ed; reflexivity|].
  rewrite Ep'. assert (ds_phi (m_disp m1) = ds_phi d) as -> by (rewrite Ed; reflexivity). congruence.
Qed.

Lemma mulv2 (A : nat -> nat -> R) x : mulv 2 A x 0 = A 0%nat 0%nat * x 0%nat + A 0%nat 1%nat * x 1%nat.
Proof. unfold mulv. rewrite !sumR_S, sumR_0. rring. Qed.

Lemma first_step m0 m m1 m2 x T a b : setup m0 m m1 m2 -> history LR m0 x ->
  (exists d, x = m_set_core m (set_disp (m_core m) d) /\ ds_phi d = ds_phi (m_disp m0)) ->
  run_step LR x T 0 a b ->
  (forall j k, curr a j k = 0) /\ (forall k j, dPhi (m_disp a) k j = qzero) /\ curr b 0 0 <> 0.
Proof.
  intros S Hx (d & Ex & Ed) Hr.
  assert (RX : reachable LR x) by now exists m0.
  assert (Xn : conductors x = 2%nat) by (rewrite Ex; apply S). assert (XN : cells x = 3%nat) by (rewrite Ex; apply S).
  assert (XL : forall k i j, (k < 3)%nat -> (i < 2)%nat -> (j < 2)%nat -> L_ x k i j = get2 I2 i j /\ R_ x k i j = get2 O2 i j) by (rewrite Ex; apply S).
  assert (XC : forall k i j, (k <= 3)%nat -> (i < 2)%nat -> (j < 2)%nat -> C_ x k i j = get2 I2 i j /\ G_ x k i j = get2 O2 i j) by (rewrite Ex; apply S).
  assert (XZ : forall i j, (i < 2)%nat -> (j < 2)%nat -> Zs_ x i j = 0) by (rewrite Ex; apply S).
  assert (Xh : forall k, (k < 3)%nat -> cell_len x k = 1) by (rewrite Ex; apply S).
  assert (Xv : forall c k, volt x c k = 0) by (rewrite Ex; apply S). assert (Xi : forall c k, curr x c k = 0) by (rewrite Ex; apply S).
  assert (XT : forall c k t, eTran x c k t = 0) by (rewrite Ex; apply S). assert (XE : forall c k t, eLong x c k t = 0) by (rewrite Ex; apply S).
  assert (XS : forall c k t, source x c k t = if ((c =? 0) && (k =? 0))%nat then pulse t else 0) by (rewrite Ex; apply S).
  assert (Xt : m_time x = 0) by (rewrite Ex; apply S).
  assert (Xdt : step_dt x = 1).
  { rewrite Ex. transitivity (step_dt m0); [|apply S]. pose proof (se_src _ _ _ _ S) as E. unfold add_voltage_source in E.
    destruct (_ <? _)%nat; [|discriminate]. injection E as <-. reflexivity. }
  assert (Aa : (forall c k, volt a c k = 0) /\ (forall c k, curr a c k = 0) /\ ds_phi (m_disp a) = ds_phi (m_disp x)).
  { destruct Hr as (steps & p & _ & _ & Hp & Hi & _). cbn [iterM] in Hi. injection Hi as <-.
    apply prepare_inv in Hp as (t1 & t2 & _ & ->). split; [exact Xv|]. split; [exact Xi|]. reflexivity. }
  destruct Aa as (Av & Ai & Ap).
  assert (Phi : forall k j, dPhi (m_disp a) k j = qzero).
  { intros k j. unfold dPhi. rewrite Ap. assert (ds_phi (m_disp x) = ds_phi d) as -> by (rewrite Ex; reflexivity). rewrite Ed.
    rewrite (built_disp LR _ (se_built _ _ _ _ S)). cbn [disp_new ds_phi]. apply qget2_qzeros. }
  split; [exact Ai|]. split; [exact Phi|].
  pose proof (left_terminal LR LR_ok m0 x T 0 a b 0 Hx Hr) as LT. rewrite Xn in LT. specialize (LT ltac:(lia)). cbv zeta in LT.
  rewrite Xdt, Xt, !XS, Av in LT. cbn [Nat.eqb andb INR] in LT.
  rewrite !mulv2 in LT. rewrite !XZ in LT by lia.
  assert (PU : pulse (0 + 0 * 1) = 1 /\ pulse (0 + 0 * 1 - 1) = 0).
  { unfold pulse. split.
    - assert (Rltb (0 + 0 * 1) 0 = false) as ->; [|reflexivity]. apply not_true_is_false. intros E%Rltb_true. lra.
    - assert (Rltb (0 + 0 * 1 - 1) 0 = true) as ->; [|reflexivity]. apply Rltb_true. lra. }
  destruct PU as [PU1 PU2].
  assert (V0 : volt b 0 0 = 1).
  { revert LT. rewrite PU1, PU2. intros LT. 
    match type of LT with ?l = ?r => assert (l = volt b 0 0) by (unfold Rdiv; ring_simplify; reflexivity) end. lra. }
  pose proof (voltage_eq LR LR_ok x T 0 a b 0 1 RX Hr) as VE. rewrite Xn, XN in VE. specialize (VE ltac:(lia) ltac:(lia) ltac:(lia)). cbv zeta in VE.
  rewrite Xdt, !mulv2, !Av, !Ai, !XT in VE. 
  destruct (XC 1 0 0)%nat as [C1 G1]; try lia. destruct (XC 1 0 1)%nat as [C2 G2]; try lia. rewrite C1, C2, G1, G2 in VE.
  assert (W : width x 1 = 1). { unfold width. rewrite XN. cbn [Nat.eqb Nat.sub]. rewrite !Xh by lia. lra. }
  rewrite W in VE.
  assert (V1 : volt b 0 1 = 0). { revert VE. unfold I2, O2, get2, get. cbn [nth]. intros VE. lra. }
  pose proof (current_eq LR LR_ok x T 0 a b 0 0 RX Hr) as CE. rewrite Xn, XN in CE. specialize (CE ltac:(lia) ltac:(lia)). cbv zeta in CE.
  rewrite Xdt, !mulv2, !XT, !XE, !V0, V1, !Ai, Xh in CE by lia.
  destruct (XL 0 0 0)%nat as [L1 R1]; try lia. destruct (XL 0 0 1)%nat as [L2 R2]; try lia. rewrite L1, L2, R1, R2 in CE.
  destruct (history_line_disp LR _ _ Hx) as (_ & _ & HO). destruct (HO 0 0 1)%nat as (E1 & E2 & E3 & E4 & E5); [lia|].
  assert (E6 : Q1_ x 0 0 1 = 0). { unfold Q1_. fold (m_disp x). rewrite (history_sums LR _ _ Hx), E1. unfold qsum, qzero, cadd, c0; cbn; lra. }
  assert (E4' : D_ x 0 0 1 = 0) by exact E4. assert (E5' : E_ x 0 0 1 = 0) by exact E5. rewrite E4', E5', E6 in CE.
  assert (Hh : hist_ b 0 0 = 0).
  { destruct Hr as (steps & p & _ & _ & Hp & Hi & Hs). 
    assert (Sa : ds_n (m_disp a) = 2%nat /\ ds_nx (m_disp a) = 3%nat).
    { cbn [iterM] in Hi. injection Hi as <-. apply prepare_inv in Hp as (t1 & t2 & _ & ->).
      pose proof (reachable_shape LR _ RX) as Sx. split; [exact (eq_trans (sh_dn _ Sx) Xn)|exact (eq_trans (sh_dx _ Sx) XN)]. }
    destruct (step_memory _ _ Hs) as (d1 & Q & F).
    destruct (mem_at (m_disp a) d1 0 0) as (r & M & _); [rewrite (proj1 Sa); lia|exact Q|rewrite (proj2 Sa); lia|rewrite (proj1 Sa); lia|].
    apply update_phi_same in F as [_ F]. unfold hist_. fold (m_disp b). rewrite F.
    unfold dMem in M. rewrite M. apply sumR_zero. intros l Hl.
    rewrite csum_zero; [reflexivity|]. intros j Hj. rewrite Phi, at_zero. apply cmul_0r. }
  rewrite Hh in CE. intros Hz. rewrite Hz in CE. revert CE. unfold I2, O2, get2, get. cbn [nth]. unfold Rdiv. rsimpl. intros CE. lra.
Qed.

Lemma run_step_fit q m T k a b : passive LR q m -> run_step LR m T k a b -> fit q (m_disp b).
Proof.
  intros P (steps & p & _ & _ & Hp & Hi & Hs).
  destruct (passive_prepare LR LR_complete q m steps P) as (p' & Ep & M). rewrite Hp in Ep. injection Ep as <-.
  destruct (steps_fit q k p M) as (a' & Ea & Ma). rewrite Hi in Ea. injection Ea as <-.
  destruct (step_fit q a Ma) as (b' & Eb & Mb). rewrite Hs in Eb. injection Eb as <-. apply Mb.
Qed.
Lemma fit_nonempty q (d : disp NumR) k j : (0 < q k)%nat -> fit q d -> (0 < length (dPhi d k j))%nat.
Proof. intros Hq F. destruct (ft_phi _ _ F k j) as [-> | ->]; lia. Qed.

(** the discretised pole of the first connector *)
Lemma pole_values m0 m m1 m2 : setup m0 m m1 m2 ->
  (forall c, at_ 0 (dP1 (m_disp m1) 0 0 c) = (if (c =? 0)%nat then (exp (-1), 0) else c0)) /\
  (forall c, at_ 0 (dP2 (m_disp m1) 0 0 c) = (if (c =? 0)%nat then (1 - 2 * exp (-1), 0) else c0)) /\
  (forall c, at_ 0 (dP3 (m_disp m1) 0 0 c) = (if (c =? 0)%nat then (exp (-1), 0) else c0)).
Proof.
  intros S. destruct (setup_loaded _ _ _ _ S) as (H1 & _). pose proof (se_hist _ _ _ _ S) as Hm.
  destruct (connector_exact_line LR _ _ _ _ _ _ Hm (se_1 _ _ _ _ S)) as (_ & _ & _ & Fr & Hc & _ & _).
  rewrite (se_node _ _ _ _ S) in Fr, Hc. rewrite (se_gap _ _ _ _ S), (se_dt _ _ _ _ S) in Hc.
  destruct Hc as (_ & _ & z1 & z2 & z3 & Z1 & Z2 & Z3 & Q1 & Q2 & Q3).
  destruct Fr as (_ & _ & (y1 & Y1 & A1 & B1) & (y2 & Y2 & A2 & B2) & (y3 & Y3 & A3 & B3)).
  rewrite Z1 in Y1. rewrite Z2 in Y2. rewrite Z3 in Y3. injection Y1 as <-. injection Y2 as <-. injection Y3 as <-.
  apply Reqb_true in A1, A2, A3, B1, B2, B3.
  destruct (history_line_disp LR _ _ H1) as (_ & _ & HO).
  assert (G : forall c, c <> 0%nat -> at_ 0 (dP1 (m_disp m1) 0 0 c) = c0 /\ at_ 0 (dP2 (m_disp m1) 0 0 c) = c0 /\ at_ 0 (dP3 (m_disp m1) 0 0 c) = c0).
  { intros c Hc. destruct (HO 0%nat 0%nat c) as (E1 & E2 & E3 & _); [congruence|]. rewrite E1, E2, E3. repeat split; apply at_zero. }
  destruct z1 as [x1 y1], z2 as [x2 y2], z3 as [x3 y3]. cbn [fst snd] in *. change (@n0 NumR) with 0 in *. subst.
  assert (RE : @residue NumR one_pole 1 0 = (1, 0)) by (unfold residue, one_pole, get; cbn; unfold Rdiv; now rewrite Rinv_1, !Rmult_1_r).
  assert (PE : @pole NumR one_pole 0 = (-1, 0)) by reflexivity.
  change (n_poles one_pole) with 1%nat in Q1, Q2, Q3. cbn [seq map] in Q1, Q2, Q3. rewrite RE, PE in Q1, Q2. rewrite PE in Q3.
  split; [|split]; intros c; (destruct (Nat.eqb_spec c 0) as [->|Hc]; [|apply G, Hc]).
  - rewrite Q1. unfold at_. cbn [length Nat.eqb nth].
    unfold w1, cmul, cdiv, csub, cexp, cscal, c1, nsq. cbn. rewrite !Rmult_0_r, cos_0, sin_0.
    replace (1 * -1) with (-1) by ring. set (e := exp (-1)). f_equal; field.
  - rewrite Q2. unfold at_. cbn [length Nat.eqb nth].
    unfold w2, cmul, cdiv, csub, cadd, cexp, cscal, c1, nsq. cbn. rewrite !Rmult_0_r, cos_0, sin_0.
    replace (1 * -1) with (-1) by ring. set (e := exp (-1)). f_equal; field.
  - rewrite Q3. unfold at_. cbn [length Nat.eqb nth].
    unfold w3, cadd, cexp, cscal. cbn. rewrite !Rmult_0_r, cos_0, sin_0.
    replace (1 * -1) with (-1) by ring. set (e := exp (-1)). f_equal; field.
Qed.
Lemma exp_m1 : 0 < exp (-1) < 1 / 2.
Proof.
  split; [apply exp_pos|]. pose proof (exp_ineq1 1 ltac:(lra)). pose proof (exp_pos (-1)).
  assert (E : exp 1 * exp (-1) = 1) by (rewrite <- exp_plus; replace (1 + -1) with 0 by ring; apply exp_0). nra.
Qed.

Lemma loaded_any m0 m m1 m2 q : setup m0 m m1 m2 -> loaded LR q m0 m1.
Proof.
  intros S. eapply ld_connector; [|apply one_pole_ok|now left| |apply S].
  - eapply ld_source; [|apply S]. apply ld_line; apply S.
  - rewrite (se_node _ _ _ _ S), (se_gap _ _ _ _ S). lra.
Qed.
Lemma Int_55 : Z.to_nat (Int_part 5.5) = 5%nat.
Proof.
  assert (E : Int_part 5.5 = 5%Z).
  { unfold Int_part. assert (up 5.5 = 6%Z) as ->; [|reflexivity]. symmetry. apply tech_up; simpl; lra. }
  rewrite E. reflexivity.
Qed.

Lemma memory_differs : exists (m : mtl NumR) T a b, reachable LR m /\ run_step LR m T 0 a b /\
  (0 < length (dPhi (m_disp b) 0 0))%nat /\
  nth 0 (dPhi (m_disp b) 0 0) c0 <>
    @recursion NumR (conductors m) (fun j => at_ 0 (dP1 (m_disp m) 0 0 j)) (fun j => at_ 0 (dP2 (m_disp m) 0 0 j)) (fun j => at_ 0 (dP3 (m_disp m) 0 0 j))
      (fun j => curr b j 0) (fun j => curr a j 0) (fun j => at_ 0 (dPhi (m_disp a) 0 j)).
Proof.
  destruct setup_exists as (m0 & m & m1 & m2 & S). destruct (setup_loaded _ _ _ _ S) as (H1 & _ & X1 & _).
  pose proof (loaded_passive LR _ _ _ (loaded_any _ _ _ _ (fun _ => 1%nat) S)) as P.
  assert (Edt : step_dt m1 = 1).
  { destruct X1 as (d & -> & _). transitivity (step_dt m0); [|apply S]. pose proof (se_src _ _ _ _ S) as E. unfold add_voltage_source in E.
    destruct (_ <? _)%nat; [|discriminate]. injection E as <-. reflexivity. }
  destruct (passive_step LR LR_complete (fun _ => 1%nat) m1 5.5 0 P) as (a & b & Hr).
  { rewrite Edt. replace (5.5 / 1) with 5.5 by field. rewrite Int_55. lia. }
  assert (Hn : conductors m1 = 2%nat /\ cells m1 = 3%nat) by (destruct X1 as (d & -> & _); split; apply S).
  assert (RM : reachable LR m1) by now exists m0.
  assert (NE : (0 < length (dPhi (m_disp b) 0 0))%nat) by (eapply fit_nonempty; [|eapply run_step_fit; eauto]; cbn; lia).
  exists m1, 5.5, a, b. split; [exact RM|]. split; [exact Hr|]. split; [exact NE|].
  destruct (first_step _ _ _ _ _ _ _ _ S H1 X1 Hr) as (Ia & _ & Ib).
  pose proof (memory_line LR m1 5.5 0 a b 0 0 0 RM Hr) as ML. destruct Hn as [Hn HN]. rewrite Hn, HN in ML.
  specialize (ML ltac:(lia) ltac:(lia) NE). cbv zeta in ML. destruct ML as [_ ML]. rewrite Hn. rewrite ML. clear ML.
  destruct (pole_values _ _ _ _ S) as (_ & V2 & _).
  rewrite (csum_one 2 _ 0); [|lia|]. 2:{ intros j Hj Hj0. rewrite V2. destruct (Nat.eqb_spec j 0); [lia|]. apply cscal_0. }
  rewrite V2, Ia. cbn [Nat.eqb]. intros E. apply (f_equal fst) in E. unfold cscal, c0 in E. cbn [fst] in E. change (@n0 NumR) with 0 in E. rsimpl.
  pose proof exp_m1. apply Rmult_integral in E as [E|E]; [apply Ib|]; lra.
Qed.

Lemma memory_twice : exists m0 (m m1 m2 : mtl NumR) T a b, history LR m0 m /\
  mtl_add_dispersive_connector m origin 0 one_pole = Ok m1 /\ mtl_add_dispersive_connector m1 origin 1 two_poles = Ok m2 /\
  length (dPhi (m_disp m) (node_of m origin) 0) = 1%nat /\ run_step LR m2 T 1 a b /\
  dMem (m_disp b) 0 0 <> 0.
Proof.
  destruct setup_exists as (m0 & m & m1 & m2 & S). destruct (setup_loaded _ _ _ _ S) as (H1 & H2 & X1 & X2).
  pose proof (loaded_passive LR _ _ _ (se_ld2 _ _ _ _ S)) as P.
  assert (Edt : step_dt m2 = 1).
  { destruct X2 as (d & -> & _). transitivity (step_dt m0); [|apply S]. pose proof (se_src _ _ _ _ S) as E. unfold add_voltage_source in E.
    destruct (_ <? _)%nat; [|discriminate]. injection E as <-. reflexivity. }
  destruct (passive_step LR LR_complete _ m2 5.5 1 P) as (a & b & Hr).
  { rewrite Edt. replace (5.5 / 1) with 5.5 by field. rewrite Int_55. lia. }
  assert (Ephi : dPhi (m_disp m) (node_of m origin) 0 = qzero).
  { assert (E0 : ds_phi (m_disp m) = ds_phi (m_disp m0)).
    { pose proof (se_src _ _ _ _ S) as E. unfold add_voltage_source in E. destruct (_ <? _)%nat; [|discriminate]. injection E as <-. reflexivity. }
    unfold dPhi. rewrite E0, (built_disp LR _ (se_built _ _ _ _ S)). cbn [disp_new ds_phi]. apply qget2_qzeros. }
  exists m0, m, m1, m2, 5.5, a, b. split; [apply S|]. split; [apply S|]. split; [apply S|]. split; [rewrite Ephi; reflexivity|]. split; [exact Hr|].
  assert (Hr0 : exists p, run_step LR m2 5.5 0 p a).
  { destruct Hr as (steps & p & A1 & A2 & A3 & A4 & A5). exists p. exists steps, p. repeat split; auto; [lia|].
    cbn [iterM] in A4. inv_bind A4. injection A4 as <-. exact Ha. }
  destruct Hr0 as (p & Hr0).
  destruct (first_step _ _ _ _ _ _ _ _ S H2 X2 Hr0) as (Ia & Pp & Ib).
  destruct (memory_multiplied LR m0 m m1 m2 origin 0 one_pole origin 1 two_poles 5.5 0 a b) as (f & Hf & HM);
    auto; try apply S; [discriminate|rewrite Ephi; reflexivity|].
  rewrite (se_node _ _ _ _ S) in *. rewrite HM. rewrite (se_dt _ _ _ _ S).
  assert (Hn : conductors m2 = 2%nat /\ cells m2 = 3%nat) by (destruct X2 as (d & -> & _); split; apply S). destruct Hn as [Hn HN].
  assert (RM : reachable LR m2) by now exists m0.
  assert (NE : (0 < length (dPhi (m_disp a) 0 0))%nat) by (eapply fit_nonempty; [|eapply run_step_fit; eauto]; cbn; lia).
  pose proof (memory_line LR m2 5.5 0 p a 0 0 0 RM Hr0) as ML. rewrite Hn, HN in ML.
  specialize (ML ltac:(lia) ltac:(lia) NE). cbv zeta in ML. destruct ML as [ML _]. rewrite (Hf 0%nat NE) in ML.
  destruct (connector_exact_line LR _ _ _ _ _ _ H1 (se_2 _ _ _ _ S)) as (_ & _ & _ & _ & _ & Hsame & _).
  assert (SE : forall j, same_entry (m_disp m1) (m_disp m2) 0 0 j) by (intros j; apply Hsame; intros (_ & X & _); discriminate).
  destruct (pole_values _ _ _ _ S) as (V1 & V2 & V3).
  assert (Ef : f = (curr a 0 0 * (1 - exp (-1)), 0)).
  { rewrite ML. unfold recursion. rewrite (csum_one 2 _ 0); [|lia|].
    2:{ intros j Hj Hj0. destruct (SE j) as (_ & _ & -> & _). rewrite V1. destruct (Nat.eqb_spec j 0); [lia|]. apply cscal_0. }
    rewrite (csum_one 2 _ 0); [|lia|].
    2:{ intros j Hj Hj0. destruct (SE j) as (_ & _ & _ & -> & _). rewrite V2. destruct (Nat.eqb_spec j 0); [lia|]. apply cscal_0. }
    rewrite (csum_zero 2); [|intros j Hj; rewrite Pp, at_zero; apply cmul_0r].
    destruct (SE 0%nat) as (_ & _ & -> & -> & _). rewrite V1, V2. cbn [Nat.eqb]. unfold cadd, cscal, c0. cbn. f_equal; ring. }
  rewrite Ef. change (@pole NumR one_pole 0) with (-1, 0). unfold w3, cmul, cexp, cscal. cbn. rewrite !Rmult_0_r, cos_0, ?sin_0.
  replace (1 * -1) with (-1) by ring. pose proof exp_m1.
  match goal with |- ?x <> 0 => replace x with (2 * (exp (-1) * ((1 - exp (-1)) * curr a 0 0))) by ring end.
  repeat (apply Rmult_integral_contrapositive; split); auto; lra.
Qed.
