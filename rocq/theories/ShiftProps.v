(** The same line driven later does the same thing later. *)
From Coq Require Import String List Arith ZArith Bool Lia Reals Lra.
From Verif Require Import Num Py Arr ArrFacts NumR RFacts LapackR Probes Dispersive Line LineFacts SpecLine SpecR SpecDyn HistoryFacts
  PlainFacts StepTotal RunEqFacts ConeFacts SuperFacts SuperProps SimFacts EnergyFacts NearestFacts SpecRecip RecipProps StepProps ShiftFacts SpecShift.
Import ListNotations.
Local Open Scope R_scope.

Definition until (t1 : R) (f : R -> R) (t : R) : R := if Rlt_dec t t1 then f t else 0.
Definition ahead (tau : R) (f : R -> R) (t : R) : R := f (t + tau).

Lemma one_zero (x : R) : x = 1 * x + 0 * x. Proof. ring. Qed.
Lemma all_zero : (0 : R) = 1 * 0 + 0 * 0. Proof. ring. Qed.

Lemma steps_retime tr n : forall (m m' : mtl NumR) (t : R), shape m ->
  (forall j f, (j < n)%nat -> let s := INR j * step_dt m in
     tr f (t + s) = f (m_time m + s) /\ tr f (t + s - step_dt m) = f (m_time m + s - step_dt m) /\
     tr f (t + s + step_dt m / 2) = f (m_time m + s + step_dt m / 2) /\ tr f (t + s - step_dt m / 2) = f (m_time m + s - step_dt m / 2)) ->
  iterM n mtl_step m = Ok m' -> iterM n mtl_step (retime tr t m) = Ok (retime tr (t + INR n * step_dt m) m').
Proof.
  induction n as [|n IH]; intros m m' t Sh H E.
  - cbn [iterM INR] in *. injection E as <-. now rewrite Rmult_0_l, Rplus_0_r.
  - cbn [iterM] in *. inv_bind E. rename a into m1, Ha into E1.
    assert (T1 : m_time m1 = m_time m + step_dt m). { pose proof (steps_time 1 m m1 Sh) as X. cbn [iterM INR] in X. rewrite E1 in X. rewrite (X eq_refl). rsimpl. rty. ring. }
    assert (D1 : step_dt m1 = step_dt m). { pose proof (mtl_step_same m m1 (sh_N _ Sh) E1) as []. unfold step_dt. now destruct sl_core. }
    rewrite (step_retime tr m m1 t); auto.
    + cbn [bind]. rewrite (IH m1 m' (t + step_dt m)); auto.
      * f_equal. f_equal. rewrite D1, S_INR. rsimpl. rty. ring.
      * eapply shape_step; eauto.
      * intros j f Hj. specialize (H (S j) f ltac:(lia)). rewrite D1, T1. cbv zeta in *. rewrite S_INR in H.
        replace (t + (INR j + 1) * step_dt m) with (t + step_dt m + INR j * step_dt m) in H by ring.
        replace (m_time m + (INR j + 1) * step_dt m) with (m_time m + step_dt m + INR j * step_dt m) in H by ring. exact H.
    + intros f. destruct (H 0%nat f ltac:(lia)) as (X & _). cbv zeta in X. cbn [INR] in X. now rewrite Rmult_0_l, !Rplus_0_r in X.
    + intros f. destruct (H 0%nat f ltac:(lia)) as (_ & X & _). cbv zeta in X. cbn [INR] in X. now rewrite Rmult_0_l, !Rplus_0_r in X.
    + intros f. destruct (H 0%nat f ltac:(lia)) as (_ & _ & X & _). cbv zeta in X. cbn [INR] in X. now rewrite Rmult_0_l, !Rplus_0_r in X.
    + intros f. destruct (H 0%nat f ltac:(lia)) as (_ & _ & _ & X). cbv zeta in X. cbn [INR] in X. now rewrite Rmult_0_l, !Rplus_0_r in X.
Qed.

Lemma retime_source tr t m c k x : (forall t, tr (fun _ => 0) t = 0) -> source (retime tr t m) c k x = tr (source m c k) x.
Proof. intros H. apply (nth_tr tr (m_vsrc m) c k x H). Qed.
Lemma retime_eTran tr t m c k x : (forall t, tr (fun _ => 0) t = 0) -> eTran (retime tr t m) c k x = tr (eTran m c k) x.
Proof. intros H. apply (nth_tr tr (k_eT (m_core m)) c k x H). Qed.
Lemma retime_eLong tr t m c k x : (forall t, tr (fun _ => 0) t = 0) -> eLong (retime tr t m) c k x = tr (eLong m c k) x.
Proof. intros H. apply (nth_tr tr (k_eL (m_core m)) c k x H). Qed.
Lemma ahead_0 tau : forall t, ahead tau (fun _ => 0) t = 0. Proof. reflexivity. Qed.
Lemma until_0 t1 : forall t, until t1 (fun _ => 0) t = 0. Proof. intros t. unfold until. now destruct (Rlt_dec t t1). Qed.

Lemma steps_same n : forall m m' : mtl NumR, shape m -> iterM n mtl_step m = Ok m' -> same_line m m'.
Proof.
  induction n as [|n IH]; intros m m' Sh E; cbn [iterM] in E; [injection E as <-; apply same_line_refl|].
  inv_bind E. destruct (shape_step _ _ Sh Ha) as [Sh' _]. eapply same_line_trans; [eapply mtl_step_same; [apply (sh_N _ Sh)|exact Ha]|eauto].
Qed.
(** a line at rest, driven by nothing before [t1], stays at rest until then *)
Lemma quiet_steps n m m' t1 : shape m -> sized m -> silent m -> off_before t1 m -> 0 < step_dt m -> m_time m + INR n * step_dt m <= t1 ->
  iterM n mtl_step m = Ok m' -> silent m'.
Proof.
  intros Sh Sz S [O1 O2 O3 O4] Hdt Ht E.
  assert (E' : iterM n mtl_step (retime (until t1) (m_time m) m) = Ok (retime (until t1) (m_time m + INR n * step_dt m) m')).
  { apply steps_retime; auto. intros j f Hj s. assert (Hs : s + step_dt m <= INR n * step_dt m).
    { unfold s. apply le_INR in Hj. rewrite S_INR in Hj. replace (INR j * step_dt m + step_dt m) with ((INR j + 1) * step_dt m) by ring. apply Rmult_le_compat_r; lra. }
    unfold until. repeat (destruct (Rlt_dec _ _) as [L|L]; [|exfalso; lra]; clear L). auto. }
  refine (proj1 (silent_steps n (retime (until t1) (m_time m) m) _ Sz S _ E')). split; [|split].
  - intros j t Hj. rewrite !retime_source by apply until_0. unfold until. destruct (Rlt_dec t t1) as [L|L]; [|auto]. split; [apply O1|apply O2]; auto.
  - intros j k t Hj Hk. rewrite retime_eTran by apply until_0. unfold until. destruct (Rlt_dec t t1) as [L|L]; [|auto]. apply O3; auto.
  - intros j k t Hj Hk. rewrite retime_eLong by apply until_0. unfold until. destruct (Rlt_dec t t1) as [L|L]; [|auto]. apply O4; auto.
Qed.

Record late_drive (tau : R) (m m' : mtl NumR) : Prop := {
  ld_near : forall c t, (c < conductors m)%nat -> source m' c 0 t = source m c 0 (t - tau);
  ld_far : forall c t, (c < conductors m)%nat -> source m' c (cells m) t = source m c (cells m) (t - tau);
  ld_T : forall c k t, (c < conductors m)%nat -> (k <= cells m)%nat -> eTran m' c k t = eTran m c k (t - tau);
  ld_L : forall c k t, (c < conductors m)%nat -> (k < cells m)%nat -> eLong m' c k t = eLong m c k (t - tau)
}.
Lemma delayed_off tau t0 m m' : twin m m' -> late_drive tau m m' -> off_before t0 m -> off_before (t0 + tau) m'.
Proof.
  intros Tw [D1 D2 D3 D4] [O1 O2 O3 O4]. assert (E : conductors m' = conductors m /\ cells m' = cells m) by (split; apply Tw). destruct E as [E1 E2].
  split; rewrite E1, ?E2; intros.
  - rewrite D1 by auto. apply O1; auto; lra.
  - rewrite D2 by auto. apply O2; auto; lra.
  - rewrite D3 by auto. apply O3; auto; lra.
  - rewrite D4 by auto. apply O4; auto; lra.
Qed.

(** the same states, [k] steps later *)
Lemma shift_steps k n pa pb b0 a b : shape pa -> sized pa -> silent pa -> undispersed pa -> undispersed pb -> shape pb -> sized pb -> silent pb -> 0 < step_dt pa ->
  twin pa pb -> coefs pa pb -> late_drive (INR k * step_dt pa) pa pb -> off_before (m_time pa) pa ->
  iterM k mtl_step pb = Ok b0 -> iterM n mtl_step b0 = Ok b -> iterM n mtl_step pa = Ok a ->
  silent b0 /\
  (forall c j, (c < conductors pa)%nat -> (j <= cells pa)%nat -> volt b c j = volt a c j) /\
  (forall c j, (c < conductors pa)%nat -> (j < cells pa)%nat -> curr b c j = curr a c j).
Proof.
  intros Sha Sza Sa Ua Ub Shb Szb Sb Hdt Tw Co De Off Eb0 Eb Ea.
  pose proof (delayed_off _ _ _ _ Tw De Off) as Off'.
  assert (Db : step_dt pb = step_dt pa) by apply (tw_dt _ _ Tw). assert (Tb : m_time pb = m_time pa) by apply (tw_time _ _ Tw).
  assert (S0 : silent b0). { apply (quiet_steps k pb b0 (m_time pa + INR k * step_dt pa)); auto; [rewrite Db; auto|]. rewrite Db, Tb. lra. }
  split; [exact S0|].
  destruct (shape_steps k pb b0 Shb Eb0) as [Sh0 _]. pose proof (steps_same k pb b0 Shb Eb0) as SL.
  destruct (undispersed_steps k pb b0 Shb Ub Eb0) as [Ed U0].
  pose proof (steps_time k pb b0 Shb Eb0) as T0. rewrite Db, Tb in T0.
  assert (D0 : step_dt b0 = step_dt pa) by (rewrite <- Db; apply (ss_dt _ _ (sl_core _ _ SL))).
  set (tau := INR k * step_dt pa) in *.
  assert (Ec : iterM n mtl_step (retime (ahead tau) (m_time pa) b0) = Ok (retime (ahead tau) (m_time pa + INR n * step_dt b0) b)).
  { apply steps_retime; auto. intros j f Hj s. rewrite T0. unfold ahead, tau. repeat split; f_equal; rsimpl; rty; ring. }
  set (c := retime (ahead tau) (m_time pa) b0) in *.
  assert (Nc : conductors b0 = conductors pa /\ cells b0 = cells pa).
  { unfold conductors, cells. now rewrite (ss_n _ _ (sl_core _ _ SL)), (ss_N _ _ (sl_core _ _ SL)), (tw_n _ _ Tw), (tw_N _ _ Tw). }
  destruct Nc as [Nn NN].
  assert (Twc : twin pa c).
  { destruct Tw, SL, sl_core. split; try (change (m_core c) with (set_fields (m_core b0) (tr_all (ahead tau) (k_eL (m_core b0))) (tr_all (ahead tau) (k_eT (m_core b0))))); cbn; try congruence. }
  assert (Coc : coefs pa c). { destruct Co as [C1 C2], (sl_core _ _ SL). split; cbn; congruence. }
  assert (Src : forall j i t, source c j i t = source pb j i (t + tau)).
  { intros. unfold c. rewrite retime_source by apply ahead_0. unfold ahead, source. now rewrite (sl_vsrc _ _ SL). }
  assert (FT : forall j i t, eTran c j i t = eTran pb j i (t + tau)).
  { intros. unfold c. rewrite retime_eTran by apply ahead_0. unfold ahead, eTran. now rewrite (ss_eT _ _ (sl_core _ _ SL)). }
  assert (FL : forall j i t, eLong c j i t = eLong pb j i (t + tau)).
  { intros. unfold c. rewrite retime_eLong by apply ahead_0. unfold ahead, eLong. now rewrite (ss_eL _ _ (sl_core _ _ SL)). }
  assert (X : forall t, t + tau - tau = t) by (intros; lra).
  assert (LD : lin_drive 1 0 pa pa c).
  { destruct De as [D1 D2 D3 D4]. unfold lin_drive, lin. repeat apply conj; intros.
    - rewrite Src, D1, X by auto. apply one_zero.
    - rewrite Src, D2, X by auto. apply one_zero.
    - rewrite FT, D3, X by auto. apply one_zero.
    - rewrite FL, D4, X by auto. apply one_zero. }
  assert (LS : lin_state 1 0 pa pa c).
  { destruct Sa as (A1 & A2 & _), S0 as (B1 & B2 & _). rewrite Nn, NN in *. unfold lin_state, lin. repeat apply conj; intros.
    - rewrite A1 by auto. transitivity (volt b0 j k0); [reflexivity|]. rewrite B1 by auto. exact all_zero.
    - rewrite A2 by auto. transitivity (curr b0 j k0); [reflexivity|]. rewrite B2 by auto. exact all_zero.
    - change (memory c k0 j) with (memory b0 k0 j).
      destruct Ua as (u & d & Ua), U0 as (u' & d' & U0). unfold memory. rewrite Ua, U0. cbn [ds_phi disp_new]. rewrite !qget2_qzeros.
      split; [auto|]. split; [auto|]. intros q. unfold lin. generalize (nth q (@qzero NumR) c0). intros [x y]. split; apply one_zero. }
  pose proof (super_steps 1 0 n pa pa c a a _ Sza (twin_refl pa) Twc (conj eq_refl eq_refl) Coc Ea Ea Ec LS LD) as (L1 & L2 & _).
  destruct (shape_steps n pa a Sha Ea) as [_ _]. pose proof (steps_same n pa a Sha Ea) as SLa.
  unfold conductors, cells in L1, L2. rewrite (ss_n _ _ (sl_core _ _ SLa)), (ss_N _ _ (sl_core _ _ SLa)) in L1, L2. unfold lin in *.
  split; intros x y Hx Hy.
  - transitivity (1 * volt a x y + 0 * volt a x y); [exact (L1 x y Hx Hy)|symmetry; apply one_zero].
  - transitivity (1 * curr a x y + 0 * curr a x y); [exact (L2 x y Hx Hy)|symmetry; apply one_zero].
Qed.

Section Run.
Variable LA : lapack NumR.

Lemma prepare_other m m' n n' p p' : twin m m' -> mtl_prepare LA m n = Ok p -> mtl_prepare LA m' n' = Ok p' -> coefs p p'.
Proof.
  intros Tw A B. assert (X : exists q, mtl_prepare LA m' n = Ok q /\ m_core q = m_core p').
  { unfold mtl_prepare in *. inv_bind B. inv_bind B. injection B as <-. rewrite Ha. cbn [bind]. rewrite Ha0. cbn [bind]. eexists; split; reflexivity. }
  destruct X as (q & E & Q). destruct (twin_prepare LA m m' n p q Tw A E) as (_ & C & _). unfold coefs in *. now rewrite Q in C.
Qed.
Lemma other_twin m m' : other_drive m m' -> twin m m'.
Proof. intros (vs & eL & eT & ->). split; try reflexivity. apply same_disp_refl. Qed.

Theorem time_invariance m m' T T' k n a b : reachable LA m -> undispersed m -> 0 < step_dt m -> silent m -> off_before (m_time m) m ->
  delayed (INR k * step_dt m) m m' -> run_state LA m T n a -> run_state LA m' T' (k + n) b ->
  (forall c j, (c < conductors m)%nat -> (j <= cells m)%nat -> volt b c j = volt a c j) /\
  (forall c j, (c < conductors m)%nat -> (j < cells m)%nat -> curr b c j = curr a c j).
Proof.
  intros HR U Hdt S Off De (st & pa & _ & _ & Pa & Ia) (st' & pb & _ & _ & Pb & Ib).
  pose proof (reachable_shape _ _ HR) as Sh. pose proof (de_other _ _ _ De) as (vs & eL & eT & Em).
  pose proof (other_twin _ _ (de_other _ _ _ De)) as Tw. pose proof (prepare_other _ _ _ _ _ _ Tw Pa Pb) as Co.
  assert (Sh' : shape m') by (subst m'; destruct Sh; split; auto).
  rewrite iterM_add in Ib. inv_bind Ib. rename a0 into b0, Ha into Ib0.
  destruct (shape_prepare LA _ _ _ Sh Pa) as [Spa _]. destruct (shape_prepare LA _ _ _ Sh' Pb) as [Spb _].
  apply prepare_inv in Pa as (t1 & t2 & _ & ->). apply prepare_inv in Pb as (t3 & t4 & _ & ->).
  destruct De as [_ D1 D2 D3 D4], Off as [O1 O2 O3 O4].
  assert (SZ : forall x : mtl NumR, shape x -> sized x) by (intros x X; split; [apply (sh_N _ X)|split; [apply (sh_dn _ X)|apply (sh_dx _ X)]]).
  match type of Ia with iterM _ _ ?x = _ => set (pa := x) in * end. match type of Ib0 with iterM _ _ ?x = _ => set (pb := x) in * end.
  apply (shift_steps k n pa pb b0 a b); auto.
  - subst m'. exact U.
  - subst m'. exact S.
  - destruct Tw. split; auto.
  - split; auto.
  - split; auto.
Qed.

Theorem quiet_until m T k a t1 : reachable LA m -> 0 < step_dt m -> silent m -> off_before t1 m -> m_time m + INR k * step_dt m <= t1 ->
  run_state LA m T k a -> silent a.
Proof.
  intros HR Hdt S [O1 O2 O3 O4] Ht (st & pa & _ & _ & Pa & Ia). pose proof (reachable_shape _ _ HR) as Sh.
  destruct (shape_prepare LA _ _ _ Sh Pa) as [Spa _]. apply prepare_inv in Pa as (x & y & _ & ->).
  match type of Ia with iterM _ _ ?p = _ => set (pa := p) in * end.
  apply (quiet_steps k pa a t1); auto.
  - split; [apply (sh_N _ Sh)|split; [apply (sh_dn _ Sh)|apply (sh_dx _ Sh)]].
  - split; auto.
Qed.

Theorem later_generator m P p (f : R -> R) k m1 m2 T T' n a b : reachable LA m -> undispersed m -> 0 < step_dt m -> silent m -> undriven m ->
  (forall t, t < m_time m -> f t = 0) ->
  add_voltage_source m P p f = Ok m1 -> add_voltage_source m P p (fun t => f (t - INR k * step_dt m)) = Ok m2 ->
  run_state LA m1 T n a -> run_state LA m2 T' (k + n) b ->
  (forall c j, (c < conductors m)%nat -> (j <= cells m)%nat -> volt b c j = volt a c j) /\
  (forall c j, (c < conductors m)%nat -> (j < cells m)%nat -> curr b c j = curr a c j).
Proof.
  intros HR U Hdt S (U1 & U2 & U3) Hf E1 E2 Ha Hb.
  destruct (source_node LA m m1 P p f HR E1) as (q & C1 & Hq & Hp & V1 & W1).
  destruct (source_node LA m m2 P p _ HR E2) as (q' & C2 & _ & _ & V2 & W2). assert (q' = q) as -> by (eapply closest_unique; eauto).
  assert (R1 : reachable LA m1) by (destruct HR as [m0 HH]; exists m0; exact (h_source LA m0 m P p f m1 HH E1)).
  unfold add_voltage_source in E1, E2. destruct (p <? k_n (m_core m))%nat; [|discriminate]. injection E1 as E1. injection E2 as E2.
  assert (SS : forall c i t, (c < conductors m)%nat -> (i = 0%nat \/ i = cells m) -> source m2 c i t = source m1 c i (t - INR k * step_dt m) /\
             (t < m_time m -> source m1 c i t = 0)).
  { intros c i t Hc Hi. destruct (Nat.eq_dec c p) as [->|Nc]; [destruct (Nat.eq_dec i q) as [->|Ni]|].
    - rewrite V1, V2. auto.
    - rewrite W1, W2 by congruence. destruct (U1 p t Hc) as [Z1 Z2], (U1 p (t - INR k * step_dt m) Hc) as [Z3 Z4]. destruct Hi as [-> | ->]; rewrite ?Z1, ?Z2, ?Z3, ?Z4; auto.
    - rewrite W1, W2 by congruence. destruct (U1 c t Hc) as [Z1 Z2], (U1 c (t - INR k * step_dt m) Hc) as [Z3 Z4]. destruct Hi as [-> | ->]; rewrite ?Z1, ?Z2, ?Z3, ?Z4; auto. }
  clear V1 V2 W1 W2. assert (Q : conductors m = conductors m1 /\ cells m = cells m1) by (subst m1; auto). destruct Q as [-> ->].
  refine (time_invariance m1 m2 T T' k n a b R1 _ _ _ _ _ Ha Hb).
  - subst m1. exact U.
  - subst m1. exact Hdt.
  - subst m1. exact S.
  - split.
    + intros c t Hc Ht. apply SS; [subst m1; auto|auto|subst m1; exact Ht].
    + intros c t Hc Ht. apply SS; [subst m1; auto|subst m1; auto|subst m1; exact Ht].
    + intros c j t Hc Hj _. subst m1. apply U2; auto.
    + intros c j t Hc Hj _. subst m1. apply U3; auto.
  - split.
    + exists (m_vsrc m2), (k_eL (m_core m)), (k_eT (m_core m)). subst m1 m2. unfold m_set_core, set_fields, m_set_vsrc. destruct m as [x1 x2 x3 [] x5 x6 x7 x8 x9 x10 x11 x12 x13]; reflexivity.
    + intros c t Hc. replace (step_dt m1) with (step_dt m) by (subst m1; auto). apply SS; [subst m1; auto|auto].
    + intros c t Hc. replace (step_dt m1) with (step_dt m) by (subst m1; auto). apply SS; subst m1; auto.
    + intros c j t Hc Hj. transitivity (eTran m c j t); [subst m2; reflexivity|]. transitivity (eTran m c j (t - INR k * step_dt m1)); [|subst m1; reflexivity].
      subst m1. rewrite !U2; auto.
    + intros c j t Hc Hj. transitivity (eLong m c j t); [subst m2; reflexivity|]. transitivity (eLong m c j (t - INR k * step_dt m1)); [|subst m1; reflexivity].
      subst m1. rewrite !U3; auto.
Qed.
End Run.
