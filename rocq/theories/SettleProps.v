(** A line closed by a resistance settles to the direct-current solution. *)
From Coq Require Import String List Arith ZArith Bool Lia Reals Lra Psatz.
From Verif Require Import Num Py Arr ArrFacts NumR RFacts LinAlg LapackR Probes Dispersive Line LineFacts SpecLine SpecR SpecDyn HistoryFacts
  RunEqFacts TotalFacts SpecEnergy EnergyFacts EnergyProps SpecRecip RecipProps SpecShift ShiftFacts ShiftProps SpecSettle SettleFacts.
Import ListNotations.
Local Open Scope R_scope.

(** a state of [m] with given voltages and currents *)
Definition with_state (m : mtl NumR) (V I : nat -> nat -> R) : mtl NumR :=
  m_set_core m (set_i_disp (set_v (m_core m) (@mk2 NumR (conductors m) (S (cells m)) (fun c k => V k c)))
    (@mk2 NumR (conductors m) (cells m) (fun c k => I k c)) (k_disp (m_core m))).
Lemma with_volt m V I c k : (c < conductors m)%nat -> (k <= cells m)%nat -> volt (with_state m V I) c k = V k c.
Proof. intros Hc Hk. exact (@get2_mk2 NumR (conductors m) (S (cells m)) (fun c k => V k c) c k Hc ltac:(lia)). Qed.
Lemma with_curr m V I c k : (c < conductors m)%nat -> (k < cells m)%nat -> curr (with_state m V I) c k = I k c.
Proof. intros Hc Hk. exact (@get2_mk2 NumR (conductors m) (cells m) (fun c k => I k c) c k Hc Hk). Qed.

Lemma back_again (x y : R) : x = x - y + y. Proof. ring. Qed.
Lemma gap (x y z : R) : x + z - (y + z) = x - y. Proof. ring. Qed.
Lemma both (x y z : R) : x + z + (y + z) = x + y + 2 * z. Proof. ring. Qed.
Lemma gap0 (x y z : R) : x + z - (y + z) + (0 - 0) = x - y. Proof. ring. Qed.
Lemma both0 (x y z : R) : x + z + (y + z) + (0 - 0) = x + y + 2 * z. Proof. ring. Qed.
Definition keep (f : R -> R) : R -> R := f.
Section Run.
Variable LA : lapack NumR.
Hypothesis LAok : lapack_ok LA.

Lemma prepare_bare m n n' p p' t : mtl_prepare LA m n = Ok p -> mtl_prepare LA m n' = Ok p' -> retime keep t p' = retime keep t p.
Proof.
  unfold mtl_prepare. intros A B. inv_bind A. inv_bind A. injection A as <-. rewrite Ha in B. cbn [bind] in B. rewrite Ha0 in B. cbn [bind] in B. injection B as <-.
  reflexivity.
Qed.

(** the states of all runs of [m], without probes *)
Lemma state_sequence m : reachable LA m -> endless LA m -> exists st : nat -> mtl NumR,
  (forall T k a, run_state LA m T k a -> forall c j, volt a c j = volt (st k) c j /\ curr a c j = curr (st k) c j).
Proof.
  intros HR HE. destruct (HE 0%nat) as (T0 & a0 & s0 & p0 & _ & _ & P0 & _).
  exists (fun k => match iterM k mtl_step (retime keep (m_time m) p0) with Ok a => a | Err _ => m end).
  intros T k a (s & p & _ & _ & P & E) c j.
  destruct (shape_prepare LA _ _ _ (reachable_shape LA _ HR) P) as [Sp _].
  assert (Tp : m_time p = m_time m). { apply prepare_inv in P as (t1 & t2 & _ & ->). reflexivity. }
  rewrite <- (prepare_bare m s0 s p0 p (m_time m) P0 P).
  rewrite (steps_retime keep k p a (m_time m) Sp ltac:(intros; rewrite Tp; unfold keep; auto) E). split; reflexivity.
Qed.
Lemma endless_step m k : endless LA m -> exists T a b, run_step LA m T k a b.
Proof.
  intros HE. destruct (HE (S k)) as (T & b & s & p & H1 & H2 & H3 & H4). rewrite iterM_S in H4. inv_bind H4.
  exists T, a, b, s, p. repeat split; auto. 
Qed.

Section Settle.
Variables (m0 m : mtl NumR) (s0 sN : nat -> R) (Vd Id : nat -> nat -> R) (t1 : R).
Hypotheses (HH : history LA m0 m) (HE : endless LA m) (HU : undispersed m) (HF : no_field m) (HL : lossy m0 m)
  (HC : courant m (step_dt m0)) (HDD : step_dt m <= step_dt m0) (HDC : dc_solution m0 m s0 sN Vd Id) (HS : steady_from t1 m s0 sN).
Variable st : nat -> mtl NumR.
Hypothesis St : forall T k a, run_state LA m T k a -> forall c j, volt a c j = volt (st k) c j /\ curr a c j = curr (st k) c j.
Variable K0 : nat.
Hypothesis HK0 : t1 <= m_time m + INR K0 * step_dt m - step_dt m.

Let n := conductors m.
Let N := cells m.
Definition dV (j k c : nat) : R := volt (st (K0 + j)) c k - Vd c k.
Definition dI (j k c : nat) : R := curr (st (K0 + j)) c k - Id c k.

Lemma N1 : (1 <= N)%nat.
Proof. apply (sh_N _ (reachable_shape LA m (ex_intro _ m0 HH))). Qed.

Lemma drive_steady far j c : (c < n)%nat -> drive m far c (K0 + j) = 2 * (if far then sN c else s0 c).
Proof.
  intros Hc. unfold drive. cbv zeta. pose proof (lo_dt _ _ HL) as D.
  assert (T1 : t1 <= m_time m + INR (K0 + j) * step_dt m - step_dt m).
  { rewrite plus_INR. pose proof (pos_INR j) as P. assert (0 <= INR j * step_dt m) by (apply Rmult_le_pos; lra). rsimpl. rty. lra. }
  assert (T2 : t1 <= m_time m + INR (K0 + j) * step_dt m) by (rsimpl; rty; lra).
  destruct (HS c _ Hc T1) as [A1 A2], (HS c _ Hc T2) as [B1 B2].
  destruct far; cbn [end_node]; rsimpl; rty; [rewrite A2, B2|rewrite A1, B1]; ring.
Qed.

Lemma run_scheme : scheme n N (step_dt m) (cell_len m) (weight (step_dt m0) m) (share m) (L_ m) (R_ m) (C_ m) (node_G m0 m) (end_Z m false) (end_Z m true) dV dI.
Proof.
  pose proof N1 as N1. pose proof (lo_dt _ _ HL) as D. pose proof (lo_dt0 _ _ HL) as D0. assert (HR : reachable LA m) by (exists m0; auto). destruct HF as [NT NL].
  destruct HDC as [DC DN DL DR]. fold n N in DC, DN, DL, DR, NT, NL.
  assert (SN : share m N = cell_len m (N - 1) / 2).
  { unfold share. fold N. rewrite (Nat.eqb_refl N). destruct (Nat.eqb_spec N 0); auto; lia. }
  assert (WN : weight (step_dt m0) m N = cell_len m (N - 1) / 2 * (step_dt m / step_dt m0)).
  { unfold weight. rewrite SN. fold N. rewrite (Nat.eqb_refl N), orb_true_r. reflexivity. }
  assert (STEP : forall j, exists T a b, run_step LA m T (K0 + j) a b /\ (forall c k, volt a c k = dV j k c + Vd c k /\ volt b c k = dV (S j) k c + Vd c k /\ curr a c k = dI j k c + Id c k /\ curr b c k = dI (S j) k c + Id c k)).
  { intros j. destruct (endless_step m (K0 + j) HE) as (T & a & b & H). exists T, a, b. split; auto. intros c k.
    destruct (run_step_states LA _ _ _ _ _ H) as [Ha Hb]. destruct (St _ _ _ Ha c k) as [A1 A2], (St _ _ _ Hb c k) as [B1 B2].
    unfold dV, dI. rewrite A1, A2, B1, B2. replace (K0 + S j)%nat with (S (K0 + j)) by lia. repeat split; apply back_again. }
  split.
  - intros j k c Hk Hc. destruct (STEP j) as (T & a & b & H & O).
    pose proof (current_eq_plain LA LAok m T _ a b c k HR HU H Hc Hk) as E. cbv zeta in E. rewrite !NT, !NL in E by (auto; lia). fold n in E.
    rewrite (mulv_ext n (L_ m k) (fun p => curr b p k - curr a p k) (dif dI j k)) in E by (intros p Hp; destruct (O p k) as (_ & _ & -> & ->); unfold dif; first [apply gap|apply gap0]).
    rewrite (mulv_ext n (R_ m k) (fun p => curr b p k + curr a p k) (fun p => sum2 dI j k p + 2 * Id p k)) in E by (intros p Hp; destruct (O p k) as (_ & _ & -> & ->); unfold sum2; first [apply both|apply both0]).
    rewrite mulv_add, mulv_scal in E. destruct (O c k) as (_ & E1 & _), (O c (S k)) as (_ & E2 & _). rewrite E1, E2 in E. pose proof (DC c k Hc Hk) as F.
    rsimpl. rty. unfold Rdiv in *. rewrite ?Rmult_0_r, ?Rplus_0_r, ?Rmult_0_l, ?Rminus_0_r in E. lra.
  - intros j k c Hk Hc. destruct (STEP j) as (T & a & b & H & O).
    pose proof (voltage_eq LA LAok m T _ a b c (S k) HR H Hc ltac:(lia) ltac:(lia)) as E. cbv zeta in E. fold n in E.
    rewrite (mulv_ext n (C_ m (S k)) _ (dif dV j (S k))) in E by (intros p Hp; rewrite !NT by (auto; lia); destruct (O p (S k)) as (-> & -> & _); unfold dif; first [apply gap|apply gap0]).
    rewrite (mulv_ext n (G_ m (S k)) _ (fun p => sum2 dV j (S k) p + 2 * Vd p (S k))) in E by (intros p Hp; rewrite !NT by (auto; lia); destruct (O p (S k)) as (-> & -> & _); unfold sum2; first [apply both|apply both0]).
    rewrite mulv_add, mulv_scal in E. replace (S k - 1)%nat with k in E by lia. destruct (O c k) as (_ & _ & E1 & _), (O c (S k)) as (_ & _ & E2 & _). rewrite E1, E2 in E. pose proof (DN c k Hc Hk) as F.
    assert (X : (S k =? N)%nat = false) by (apply Nat.eqb_neq; lia).
    assert (W : share m (S k) = width m (S k)). { unfold share, width. fold N. now rewrite X. }
    assert (W' : weight (step_dt m0) m (S k) = width m (S k)). { unfold weight. fold N. now rewrite X, W. }
    assert (G' : node_G m0 m (S k) = G_ m (S k)). { unfold node_G. fold N. now rewrite X. }
    unfold into. rewrite W, W', G' in *. rsimpl. rty. unfold Rdiv in *. lra.
  - intros j c Hc. destruct (STEP j) as (T & a & b & H & O).
    destruct (end_step LA LAok m0 m a b T _ c HH HF H Hc) as [E _]. cbv zeta in E. fold n in E. rewrite (drive_steady false j c Hc) in E.
    rewrite (mulv_ext n (C_ m 0) _ (dif dV j 0)) in E by (intros p Hp; destruct (O p 0%nat) as (-> & -> & _); unfold dif; first [apply gap|apply gap0]).
    rewrite (mulv_ext n (node_G m0 m 0) _ (fun p => sum2 dV j 0 p + 2 * Vd p 0%nat)) in E by (intros p Hp; destruct (O p 0%nat) as (-> & -> & _); unfold sum2; first [apply both|apply both0]).
    rewrite mulv_add, mulv_scal in E. destruct (O c 0%nat) as (E1 & E2 & E3 & _). rewrite E1, E2, E3 in E. pose proof (DL c Hc) as F.
    unfold JL, into. replace (weight (step_dt m0) m 0) with (cell_len m 0 / 2 * (step_dt m / step_dt m0)) by reflexivity.
    replace (share m 0) with (cell_len m 0 / 2) in * by reflexivity. unfold sum2 at 1.
    replace (cell_len m 0 / 2 * (step_dt m / step_dt m0) * mulv n (C_ m 0) (dif dV j 0) c / step_dt m) with (cell_len m 0 * (mulv n (C_ m 0) (dif dV j 0) c / step_dt m0) / 2) by (field; split; lra).
    rsimpl. rty. set (z := end_Z m false c) in *. set (X := mulv n (C_ m 0) (dif dV j 0) c / step_dt m0) in *. set (Y := mulv n (node_G m0 m 0) (sum2 dV j 0) c) in *.
    set (W := mulv n (node_G m0 m 0) (fun p => Vd p 0%nat) c) in *. clearbody z X Y W. clear - E F. unfold Rdiv in *. lra.
  - intros j c Hc. destruct (STEP j) as (T & a & b & H & O).
    destruct (end_step LA LAok m0 m a b T _ c HH HF H Hc) as [_ E]. cbv zeta in E. fold n N in E. rewrite (drive_steady true j c Hc) in E.
    rewrite (mulv_ext n (C_ m N) _ (dif dV j N)) in E by (intros p Hp; destruct (O p N) as (-> & -> & _); unfold dif; first [apply gap|apply gap0]).
    rewrite (mulv_ext n (node_G m0 m N) _ (fun p => sum2 dV j N p + 2 * Vd p N)) in E by (intros p Hp; destruct (O p N) as (-> & -> & _); unfold sum2; first [apply both|apply both0]).
    rewrite mulv_add, mulv_scal in E. destruct (O c N) as (E1 & E2 & _). destruct (O c (N - 1)%nat) as (_ & _ & E3 & _). rewrite E1, E2, E3 in E. pose proof (DR c Hc) as F. cbv zeta in F.
    unfold JR, into. rewrite WN, SN in *. unfold sum2 at 1.
    replace (cell_len m (N - 1) / 2 * (step_dt m / step_dt m0) * mulv n (C_ m N) (dif dV j N) c / step_dt m) with (cell_len m (N - 1) * (mulv n (C_ m N) (dif dV j N) c / step_dt m0) / 2) by (field; split; lra).
    rsimpl. rty. set (z := end_Z m true c) in *. set (X := mulv n (C_ m N) (dif dV j N) c / step_dt m0) in *. set (Y := mulv n (node_G m0 m N) (sum2 dV j N) c) in *.
    set (W := mulv n (node_G m0 m N) (fun p => Vd p N) c) in *. set (h := cell_len m (N - 1)) in *. clearbody z X Y W h. clear - E F. unfold Rdiv in *. lra.
Qed.

Lemma margin : (forall k, (k < N)%nat -> pos_semidef n (L_ m k)) -> (forall k, (k <= N)%nat -> pos_semidef n (C_ m k)) -> forall j,
  (1 - sqrt (step_dt m / step_dt m0)) * wave n N (cell_len m) (weight (step_dt m0) m) (L_ m) (C_ m) dV dI j
  <= nrg n N (step_dt m) (cell_len m) (weight (step_dt m0) m) (L_ m) (C_ m) dV dI j.
Proof.
  intros PL PC j. set (x := with_state m (dV j) (dI j)).
  assert (A : forall k c, (k <= N)%nat -> (c < n)%nat -> volt x c k = dV j k c) by (intros; now apply with_volt).
  assert (B : forall k c, (k < N)%nat -> (c < n)%nat -> curr x c k = dI j k c) by (intros; now apply with_curr).
  assert (E1 : stored (step_dt m0) x = wave n N (cell_len m) (weight (step_dt m0) m) (L_ m) (C_ m) dV dI j).
  { unfold stored, wave. apply f_equal2.
    - apply (f_equal (fun y => y / 2)). apply sumR_ext. intros k Hk. apply (f_equal (Rmult _)). apply quad_ext; auto. intros c Hc. apply A; auto. unfold N. change (cells x) with (cells m) in Hk. lia.
    - apply (f_equal (fun y => y / 2)). apply sumR_ext. intros k Hk. apply (f_equal (Rmult _)). apply quad_ext; auto. intros c Hc. apply B; auto. }
  assert (E2 : energy (step_dt m0) x = nrg n N (step_dt m) (cell_len m) (weight (step_dt m0) m) (L_ m) (C_ m) dV dI j).
  { unfold energy, nrg. rewrite E1. apply f_equal. apply f_equal. unfold cross. apply sumR_ext. intros k Hk. apply dot_ext; intros c Hc; [apply B; auto|].
    change (cells x) with N in Hk. rewrite !A by (auto; lia). reflexivity. }
  rewrite <- E1, <- E2. apply (energy_bound m0 x); auto.
  - exact N1.
  - exact (reachable_same_C LA m0 m HH).
  - exact (lo_dt _ _ HL).
  - exact (lo_h _ _ HL).
Qed.

Lemma end_Z_pos far c : (c < n)%nat -> 0 <= end_Z m far c.
Proof.
  intros Hc. assert (X : forall Z, pos_semidef n Z -> 0 <= Z c c).
  { intros Z P. pose proof (P (fun i => if (i =? c)%nat then 1 else 0)) as Q. rewrite quad_dot in Q. unfold dot in Q.
    rewrite (sumR_single n _ c Hc) in Q by (intros j Hj Hne; rewrite (proj2 (Nat.eqb_neq j c) Hne); rring).
    unfold mulv in Q. rewrite (sumR_single n _ c Hc) in Q by (intros j Hj Hne; rewrite (proj2 (Nat.eqb_neq j c) Hne); rring).
    rewrite Nat.eqb_refl in Q. rsimpl. rty. lra. }
  destruct far; [apply (X (Zl_ m))|apply (X (Zs_ m))]; apply HL.
Qed.

Lemma tied far c k : starts_tied m -> (c < n)%nat -> end_Z m far c = 0 -> volt (st k) c (end_node m far) = source m c (end_node m far) (m_time m + INR k * step_dt m - step_dt m).
Proof.
  intros TI Hc Hz. assert (HR : reachable LA m) by (exists m0; auto). induction k as [|k IH].
  - destruct (HE 0%nat) as (T & a & Ha). rewrite <- (proj1 (St _ _ _ Ha c _)).
    destruct (run_state_0 LA m T a HR Ha) as [V0 _]. rewrite V0, (TI far c Hc Hz). apply f_equal. cbn [INR]. rsimpl. rty. ring.
  - destruct (endless_step m k HE) as (T & a & b & H). destruct (run_step_states LA _ _ _ _ _ H) as [Ha Hb].
    rewrite <- (proj1 (St _ _ _ Ha c _)) in IH. rewrite <- (proj1 (St _ _ _ Hb c _)).
    destruct (end_step LA LAok m0 m a b T k c HH HF H Hc) as [E1 E2]. cbv zeta in E1, E2.
    replace (m_time m + INR (S k) * step_dt m - step_dt m) with (m_time m + INR k * step_dt m) by (rewrite S_INR; rsimpl; rty; ring).
    destruct far; cbn [end_node] in *; unfold drive in E1, E2; cbv zeta in E1, E2; cbn [end_node] in E1, E2; rewrite Hz in *; rsimpl; rty; lra.
Qed.

Lemma dc_tied far c : (c < n)%nat -> end_Z m far c = 0 -> Vd c (end_node m far) = if far then sN c else s0 c.
Proof.
  intros Hc Hz. destruct HDC as [_ _ DL DR]. destruct far; cbn [end_node].
  - pose proof (DR c Hc) as E. cbv zeta in E. rewrite Hz in E. rewrite E. rring.
  - rewrite (DL c Hc), Hz. rring.
Qed.
Lemma tied_zero far c j : starts_tied m -> (c < n)%nat -> end_Z m far c = 0 -> dV j (end_node m far) c = 0.
Proof.
  intros TI Hc Hz. unfold dV. rewrite (tied far c (K0 + j) TI Hc Hz), (dc_tied far c Hc Hz).
  assert (T1 : t1 <= m_time m + INR (K0 + j) * step_dt m - step_dt m).
  { rewrite plus_INR. pose proof (pos_INR j) as P. pose proof (lo_dt _ _ HL) as D. assert (0 <= INR j * step_dt m) by (apply Rmult_le_pos; lra). rsimpl. rty. lra. }
  destruct (HS c _ Hc T1) as [A1 A2]. destruct far; cbn [end_node]; [rewrite A2|rewrite A1]; rring.
Qed.

Hypothesis HD : damped m.
Lemma damp_either : (forall c, (c < n)%nat -> 0 < end_Z m false c) \/ (forall c, (c < n)%nat -> 0 < end_Z m true c).
Proof. destruct HD as [[|] H]; auto. Qed.

Lemma means_van : (forall k, (k < N)%nat -> pos_semidef n (L_ m k)) -> (forall k, (k <= N)%nat -> pos_semidef n (C_ m k)) ->
  (forall k, (k <= N)%nat -> calm n dV k) /\ (forall k, (k < N)%nat -> still n dI k).
Proof.
  intros PL PC. pose proof (lo_dt _ _ HL) as D. pose proof (lo_dt0 _ _ HL) as D0.
  assert (W : forall k, (k <= N)%nat -> 0 <= weight (step_dt m0) m k).
  { intros k Hk. pose proof (share_nonneg m k N1 (lo_h _ _ HL) Hk) as S0. unfold weight. destruct (_ || _); auto. apply Rmult_le_pos; auto. apply Rlt_le, Rdiv_lt_0_compat; auto. }
  refine (all_calm n N (step_dt m) (cell_len m) (weight (step_dt m0) m) (share m) (L_ m) (R_ m) (C_ m) (node_G m0 m) (end_Z m false) (end_Z m true) dV dI
    N1 D (lo_L _ _ HL) (lo_C _ _ HL) run_scheme _ _ (end_Z_pos false) (end_Z_pos true) _ damp_either).
  - intros k Hk. split; [exact (lo_h _ _ HL k Hk)|exact (lo_R _ _ HL k Hk)].
  - intros k Hk. split; [exact (share_nonneg m k N1 (lo_h _ _ HL) Hk)|exact (lo_G _ _ HL k Hk)].
  - intros j. eapply Rle_trans; [|exact (margin PL PC j)]. apply Rmult_le_pos.
    + assert (sqrt (step_dt m / step_dt m0) <= sqrt 1); [|rewrite sqrt_1 in *; lra]. apply sqrt_le_1_alt. apply (Rmult_le_reg_r (step_dt m0)); auto. unfold Rdiv. rewrite Rmult_assoc, Rinv_l; lra.
    + unfold wave. assert (X : 0 <= sumR (S N) (fun k => weight (step_dt m0) m k * quad n (C_ m k) (dV j k))) by (apply sumR_nonneg; intros k Hk; apply Rmult_le_pos; [apply W; lia|apply PC; lia]).
      assert (Y : 0 <= sumR N (fun k => cell_len m k * quad n (L_ m k) (dI j k))) by (apply sumR_nonneg; intros k Hk; apply Rmult_le_pos; [apply (lo_h _ _ HL); auto|apply PL; auto]).
      rsimpl. lra.
Qed.

Lemma states_van : step_dt m < step_dt m0 -> starts_tied m -> (forall k, (k < N)%nat -> 0 < cell_len m k) ->
  (forall k, (k < N)%nat -> pos_def n (L_ m k)) -> (forall k, (k <= N)%nat -> pos_def n (C_ m k)) ->
  (forall k c, (k <= N)%nat -> (c < n)%nat -> van (fun j => dV j k c)) /\ (forall k c, (k < N)%nat -> (c < n)%nat -> van (fun j => dI j k c)).
Proof.
  intros DD TI Hh PL PC. pose proof (lo_dt _ _ HL) as D. pose proof (lo_dt0 _ _ HL) as D0.
  assert (PL' : forall k, (k < N)%nat -> pos_semidef n (L_ m k)) by (intros; apply pd_psd; auto).
  assert (PC' : forall k, (k <= N)%nat -> pos_semidef n (C_ m k)) by (intros; apply pd_psd; auto).
  assert (Sh : forall k, (k <= N)%nat -> 0 < share m k).
  { intros k Hk. pose proof N1 as X. unfold share. fold N. destruct (Nat.eqb_spec k 0); [pose proof (Hh 0%nat ltac:(lia)); lra|]. destruct (Nat.eqb_spec k N); [pose proof (Hh (N - 1)%nat ltac:(lia)); lra|].
    pose proof (Hh (k - 1)%nat ltac:(lia)). pose proof (Hh k ltac:(lia)). lra. }
  assert (W : forall k, (k <= N)%nat -> 0 < weight (step_dt m0) m k).
  { intros k Hk. pose proof (Sh k Hk). unfold weight. destruct (_ || _); auto. apply Rmult_lt_0_compat; auto. apply Rdiv_lt_0_compat; auto. }
  assert (SG : 0 < 1 - sqrt (step_dt m / step_dt m0)).
  { assert (sqrt (step_dt m / step_dt m0) < sqrt 1); [|rewrite sqrt_1 in *; lra]. apply sqrt_lt_1_alt. split; [apply Rlt_le, Rdiv_lt_0_compat; auto|].
    apply (Rmult_lt_reg_r (step_dt m0)); auto. unfold Rdiv. rewrite Rmult_assoc, Rinv_l; lra. }
  assert (TZ : forall far c, (c < n)%nat -> 0 < end_Z m far c \/ (forall j, dV j (end_node m far) c = 0)).
  { intros far c Hc. destruct (end_Z_pos far c Hc) as [P|P]; [auto|]. right. intros j. apply tied_zero; auto. }
  refine (rest n N (step_dt m) (cell_len m) (weight (step_dt m0) m) (share m) (L_ m) (R_ m) (C_ m) (node_G m0 m) (end_Z m false) (end_Z m true) dV dI
    N1 D (lo_L _ _ HL) (lo_C _ _ HL) run_scheme _ _ (end_Z_pos false) (end_Z_pos true) _ damp_either _ _ (TZ false) (TZ true) _ SG (margin PL' PC')).
  - intros k Hk. split; [exact (lo_h _ _ HL k Hk)|exact (lo_R _ _ HL k Hk)].
  - intros k Hk. split; [exact (Rlt_le _ _ (Sh k Hk))|exact (lo_G _ _ HL k Hk)].
  - intros j. eapply Rle_trans; [|exact (margin PL' PC' j)]. apply Rmult_le_pos; [lra|].
    unfold wave. assert (X : 0 <= sumR (S N) (fun k => weight (step_dt m0) m k * quad n (C_ m k) (dV j k))) by (apply sumR_nonneg; intros k Hk; apply Rmult_le_pos; [apply Rlt_le, W; lia|apply PC'; lia]).
    assert (Y : 0 <= sumR N (fun k => cell_len m k * quad n (L_ m k) (dI j k))) by (apply sumR_nonneg; intros k Hk; apply Rmult_le_pos; [apply (lo_h _ _ HL); auto|apply PL'; auto]).
    rsimpl. lra.
  - intros k Hk. auto.
  - intros k Hk. auto.
Qed.
End Settle.

Lemma van_all q (u : nat -> nat -> R) : (forall i, (i < q)%nat -> van (u i)) -> forall eps, 0 < eps -> exists K, forall i j, (i < q)%nat -> (K <= j)%nat -> Rabs (u i j) < eps.
Proof.
  intros H eps He. induction q as [|q IH]; [exists 0%nat; intros; lia|]. destruct IH as [K1 H1]; [intros; apply H; lia|].
  destruct (H q ltac:(lia) eps He) as [K2 H2]. exists (Nat.max K1 K2). intros i j Hi Hj. destruct (Nat.eq_dec i q) as [->|Hne].
  - specialize (H2 j ltac:(lia)). unfold R_dist in H2. now rewrite Rminus_0_r in H2.
  - apply H1; lia.
Qed.
Lemma van_all2 p q (u : nat -> nat -> nat -> R) : (forall i k, (i < p)%nat -> (k < q)%nat -> van (u i k)) -> forall eps, 0 < eps ->
  exists K, forall i k j, (i < p)%nat -> (k < q)%nat -> (K <= j)%nat -> Rabs (u i k j) < eps.
Proof.
  intros H eps He. induction p as [|p IH]; [exists 0%nat; intros; lia|]. destruct IH as [K1 H1]; [intros; apply H; lia|].
  destruct (van_all q (u p) (fun k Hk => H p k ltac:(lia) Hk) eps He) as [K2 H2]. exists (Nat.max K1 K2). intros i k j Hi Hk Hj. destruct (Nat.eq_dec i p) as [->|Hne]; [apply H2|apply H1]; lia.
Qed.
Lemma late_step (m : mtl NumR) t1 : 0 < step_dt m -> exists K0, t1 <= m_time m + INR K0 * step_dt m - step_dt m.
Proof.
  intros D. set (x := (t1 - m_time m + step_dt m) / step_dt m).
  assert (X : exists K, x < INR K).
  { exists (Z.to_nat (up x)). destruct (archimed x) as [A _]. rewrite INR_IZR_INZ. destruct (Z.le_gt_cases 0 (up x)) as [P|P]; [now rewrite Z2Nat.id|].
    assert (up x <= 0)%Z as Q by lia. apply IZR_le in Q. replace (Z.to_nat (up x)) with 0%nat by lia. simpl in *. lra. }
  destruct X as [K HK]. exists K. unfold x in HK.
  apply (Rmult_lt_compat_r (step_dt m)) in HK; auto. unfold Rdiv in HK. rewrite Rmult_assoc, Rinv_l, Rmult_1_r in HK by lra. rsimpl. rty. lra.
Qed.

Theorem settling_means m0 m s0 sN V I t1 : history LA m0 m -> endless LA m -> undispersed m -> no_field m -> lossy m0 m ->
  (forall k, (k < cells m)%nat -> pos_semidef (conductors m) (L_ m k)) -> (forall k, (k <= cells m)%nat -> pos_semidef (conductors m) (C_ m k)) ->
  courant m (step_dt m0) -> step_dt m <= step_dt m0 -> damped m -> steady_from t1 m s0 sN -> dc_solution m0 m s0 sN V I ->
  settles_on_average LA m V I.
Proof.
  intros HH HE HU HF HL PL PC HC HDD HD HS HDC eps He.
  destruct (state_sequence m (ex_intro _ m0 HH) HE) as [st St]. destruct (late_step m t1 (lo_dt _ _ HL)) as [K0 HK0].
  destruct (means_van m0 m s0 sN V I t1 HH HE HU HF HL HC HDD HDC HS st St K0 HK0 HD PL PC) as [A B].
  destruct (van_all2 (conductors m) (S (cells m)) (fun c k j => sum2 (dV V st K0) j k c) (fun c k Hc Hk => A k ltac:(lia) c Hc) eps He) as [K1 H1].
  destruct (van_all2 (conductors m) (cells m) (fun c k j => sum2 (dI I st K0) j k c) (fun c k Hc Hk => B k Hk c Hc) eps He) as [K2 H2].
  exists (K0 + Nat.max K1 K2)%nat. intros T k a b Hk Hab. destruct (run_step_states LA _ _ _ _ _ Hab) as [Ha Hb].
  assert (Ek : k = (K0 + (k - K0))%nat) by lia.
  split; intros c j Hc Hj.
  - rewrite (proj1 (St _ _ _ Ha c j)), (proj1 (St _ _ _ Hb c j)).
    specialize (H1 c j (k - K0)%nat Hc ltac:(lia) ltac:(lia)). unfold sum2, dV in H1. rewrite <- Ek in H1. replace (K0 + S (k - K0))%nat with (S k) in H1 by lia.
    revert H1. generalize (volt (st (S k)) c j) (volt (st k) c j) (V c j). intros x y z H1. apply Rabs_def2 in H1. apply Rabs_def1; lra.
  - rewrite (proj2 (St _ _ _ Ha c j)), (proj2 (St _ _ _ Hb c j)).
    specialize (H2 c j (k - K0)%nat Hc ltac:(lia) ltac:(lia)). unfold sum2, dI in H2. rewrite <- Ek in H2. replace (K0 + S (k - K0))%nat with (S k) in H2 by lia.
    revert H2. generalize (curr (st (S k)) c j) (curr (st k) c j) (I c j). intros x y z H2. apply Rabs_def2 in H2. apply Rabs_def1; lra.
Qed.

Theorem settling m0 m s0 sN V I t1 : history LA m0 m -> endless LA m -> undispersed m -> no_field m -> lossy m0 m ->
  (forall k, (k < cells m)%nat -> 0 < cell_len m k) -> (forall k, (k < cells m)%nat -> pos_def (conductors m) (L_ m k)) -> (forall k, (k <= cells m)%nat -> pos_def (conductors m) (C_ m k)) ->
  courant m (step_dt m0) -> step_dt m < step_dt m0 -> damped m -> starts_tied m -> steady_from t1 m s0 sN -> dc_solution m0 m s0 sN V I ->
  settles LA m V I.
Proof.
  intros HH HE HU HF HL Hh PL PC HC HDD HD TI HS HDC eps He.
  destruct (state_sequence m (ex_intro _ m0 HH) HE) as [st St]. destruct (late_step m t1 (lo_dt _ _ HL)) as [K0 HK0].
  destruct (states_van m0 m s0 sN V I t1 HH HE HU HF HL HC (Rlt_le _ _ HDD) HDC HS st St K0 HK0 HD HDD TI Hh PL PC) as [A B].
  destruct (van_all2 (conductors m) (S (cells m)) (fun c k j => dV V st K0 j k c) (fun c k Hc Hk => A k c ltac:(lia) Hc) eps He) as [K1 H1].
  destruct (van_all2 (conductors m) (cells m) (fun c k j => dI I st K0 j k c) (fun c k Hc Hk => B k c Hk Hc) eps He) as [K2 H2].
  exists (K0 + Nat.max K1 K2)%nat. intros T k a Hk Ha.
  assert (Ek : k = (K0 + (k - K0))%nat) by lia.
  split; intros c j Hc Hj.
  - rewrite (proj1 (St _ _ _ Ha c j)).
    specialize (H1 c j (k - K0)%nat Hc ltac:(lia) ltac:(lia)). unfold dV in H1. now rewrite <- Ek in H1.
  - rewrite (proj2 (St _ _ _ Ha c j)).
    specialize (H2 c j (k - K0)%nat Hc ltac:(lia) ltac:(lia)). unfold dI in H2. now rewrite <- Ek in H2.
Qed.
End Run.
