(** Flux and charge of a stretch of a conductor (C122). *)
From Coq Require Import String List Arith ZArith Bool Permutation Lia Reals Lra.
From Verif Require Import Num Py Arr ArrFacts NumR RFacts Utils Probes Dispersive Line LineFacts Bundle Networks Mtln SpecLine SpecR SpecBundle SpecCore SpecDisp SpecNet SpecMtln SpecTele SpecNetEnergy SpecFlux
  BundleFacts BundleMore CoreEq DispR NetFacts MtlnFacts MtlnProps MtlnR MtlnPerm EnergyFacts NetEnergy NetEnergyRun.
Import ListNotations.
Local Open Scope R_scope.

Lemma telescope (f : nat -> R) a m : sumR m (fun i => f (a + i)%nat - f (S (a + i))) = f a - f (a + m)%nat.
Proof.
  induction m as [|m IH]; [change (0 = (f a - f (a + 0)%nat)%R); rewrite Nat.add_0_r; ring|].
  rewrite sumR_S, IH. replace (a + S m)%nat with (S (a + m)) by lia. rsimpl. ring.
Qed.
Lemma flux_step dt t b b' c a m : dt <> 0 -> telegraph dt dt t b b' -> (c < b_conductors b)%nat -> (a + m <= b_cells b)%nat ->
  (forall k i j, kD (b_core b) k i j = 0 /\ kE (b_core b) k i j = 0 /\ kQ1 (b_core b) k i j = 0 /\ kQ2 (b_core b) k i j = 0) ->
  (forall k c, (k < b_cells b)%nat -> (c < b_conductors b)%nat -> kmem (b_core b') k c = 0) -> statics b b' ->
  flux b' c a m = flux b c a m + dt * (node_volt t b' c a - node_volt t b' c (a + m) + pushed dt t b c a m - ohmic b b' c a m).
Proof.
  intros D [_ TI] Hc Hm Un Mem S. set (n := b_conductors b) in *.
  assert (Tr : forall k, node_volt t b' c k = b_volt b' c k + kTran (b_core b) c k t) by (intros k; unfold node_volt; now rewrite (st_eT _ _ S)).
  assert (Q : flux b' c a m - flux b c a m = dt * sumR m (fun i => (node_volt t b' c (a + i) - node_volt t b' c (Datatypes.S (a + i)))
     + klen (b_core b) (a + i) * ((kLong (b_core b) c (a + i) (t + dt / 2) + kLong (b_core b) c (a + i) (t - dt / 2)) / 2)
     - klen (b_core b) (a + i) * sumR n (fun p => kR (b_core b) (a + i) c p * ((b_curr b' p (a + i)%nat + b_curr b p (a + i)%nat) / 2)))).
  { unfold flux. rewrite (st_n _ _ S). fold n. rewrite <- sumR_minus, <- sumR_scal. apply sumR_ext. intros i Hi. rewrite (st_h _ _ S). set (k := (a + i)%nat) in *.
    pose proof (TI c k Hc ltac:(lia)) as F. fold n in F. rewrite (Mem k c ltac:(lia) Hc) in F.
    assert (Z : forall A y, (forall i j, A i j = 0) -> sumR n (fun p => A c p * y p) = 0) by (intros A y HA; apply sumR_zero; intros p _; rewrite HA; rring).
    rewrite (Z (kD (b_core b) k) (fun p => b_curr b' p k + b_curr b p k)) in F by (intros; apply Un).
    rewrite (Z (kE (b_core b) k) (fun p => b_curr b' p k - b_curr b p k)) in F by (intros; apply Un).
    rewrite (Z (kQ1 (b_core b) k) (fun p => b_curr b' p k)) in F by (intros; apply Un).
    rewrite (Z (kQ2 (b_core b) k) (fun p => b_curr b p k)) in F by (intros; apply Un).
    rewrite (sumR_ext n (fun p => kR _ _ _ _ * _) (fun p => 2 * (kR (b_core b) k c p * ((b_curr b' p k + b_curr b p k) / 2)))) in F by (intros p Hp; rsimpl; field). rewrite sumR_scal in F.
    rewrite <- Rmult_minus_distr_l, <- sumR_minus.
    rewrite (sumR_ext n (fun p => kL (b_core b') k c p * _ - _) (fun p => kL (b_core b) k c p * (b_curr b' p k - b_curr b p k))) by (intros p Hp; rewrite (st_L _ _ S); rsimpl; ring).
    set (A := sumR n (fun p => kL (b_core b) k c p * (b_curr b' p k - b_curr b p k))) in *.
    set (G := sumR n (fun p => kR (b_core b) k c p * ((b_curr b' p k + b_curr b p k) / 2))) in *. rewrite !Tr. change (car NumR) with R in *.
    assert (X : klen (b_core b) k * A / dt = b_volt b' c k + kTran (b_core b) c k t - (b_volt b' c (Datatypes.S k) + kTran (b_core b) c (Datatypes.S k) t)
       + klen (b_core b) k * ((kLong (b_core b) c k (t + dt / 2) + kLong (b_core b) c k (t - dt / 2)) / 2) - klen (b_core b) k * G) by (unfold Rdiv in *; rsimpl; lra).
    transitivity (dt * (klen (b_core b) k * A / dt)); [field; exact D|]. rewrite X. reflexivity. }
  assert (Q' : sumR m (fun i => (node_volt t b' c (a + i) - node_volt t b' c (Datatypes.S (a + i)))
     + klen (b_core b) (a + i) * ((kLong (b_core b) c (a + i) (t + dt / 2) + kLong (b_core b) c (a + i) (t - dt / 2)) / 2)
     - klen (b_core b) (a + i) * sumR n (fun p => kR (b_core b) (a + i) c p * ((b_curr b' p (a + i)%nat + b_curr b p (a + i)%nat) / 2)))
     = node_volt t b' c a - node_volt t b' c (a + m) + pushed dt t b c a m - ohmic b b' c a m).
  { rewrite sumR_minus, sumR_plus, (telescope (node_volt t b' c) a m). reflexivity. }
  rewrite Q' in Q. lra.
Qed.
Lemma charge_step dt t b b' c a m : dt <> 0 -> telegraph dt dt t b b' -> (c < b_conductors b)%nat -> (0 < a)%nat -> (a + m <= b_cells b)%nat -> statics b b' ->
  charge t b' c a m = charge (t - dt) b c a m + dt * (b_curr b c (a - 1)%nat - b_curr b c (a + m - 1)%nat - leaked dt t b b' c a m).
Proof.
  intros D [TV _] Hc Ha Hm S. set (n := b_conductors b) in *.
  assert (Q : charge t b' c a m - charge (t - dt) b c a m = dt * sumR m (fun i => (b_curr b c (a - 1 + i)%nat - b_curr b c (Datatypes.S (a - 1 + i)))
     - b_share b (a + i) * sumR n (fun p => kG (b_core b) (a + i) c p * ((b_volt b' p (a + i)%nat + b_volt b p (a + i)%nat + (kTran (b_core b) p (a + i) t - kTran (b_core b) p (a + i) (t - dt))) / 2)))).
  { unfold charge. rewrite (st_n _ _ S). fold n. rewrite <- sumR_minus, <- sumR_scal. apply sumR_ext. intros i Hi.
    replace (Datatypes.S (a - 1 + i)) with (a + i)%nat by lia. replace (a - 1 + i)%nat with (a + i - 1)%nat by lia. set (k := (a + i)%nat) in *.
    assert (Es : b_share b' k = b_share b k) by (unfold b_share; now rewrite (st_N _ _ S), !(st_h _ _ S)). rewrite Es.
    pose proof (TV c k Hc ltac:(lia) ltac:(lia)) as F. cbv zeta in F. fold n in F.
    rewrite (sumR_ext n (fun p => kG _ _ _ _ * _) (fun p => 2 * (kG (b_core b) k c p * ((b_volt b' p k + b_volt b p k + (kTran (b_core b) p k t - kTran (b_core b) p k (t - dt))) / 2)))) in F by (intros p Hp; rsimpl; field).
    rewrite sumR_scal in F.
    assert (W : b_share b k = kwidth (b_core b) k).
    { unfold b_share, kwidth. change (k_N (b_core b)) with (b_cells b). assert (Y : (k =? b_cells b)%nat = false) by (apply Nat.eqb_neq; lia). assert (Y0 : (k =? 0)%nat = false) by (apply Nat.eqb_neq; lia). now rewrite Y, Y0. }
    rewrite W, <- Rmult_minus_distr_l, <- sumR_minus.
    rewrite (sumR_ext n (fun p => kC (b_core b') k c p * _ - _) (fun p => kC (b_core b) k c p * (b_volt b' p k - b_volt b p k + (kTran (b_core b) p k t - kTran (b_core b) p k (t - dt))))) by (intros p Hp; unfold node_volt; rewrite (st_C _ _ S), (st_eT _ _ S); rsimpl; ring).
    set (A := sumR n (fun p => kC (b_core b) k c p * _)) in *. set (G := sumR n (fun p => kG (b_core b) k c p * _)) in *. change (car NumR) with R in *.
    assert (X : kwidth (b_core b) k * A / dt = b_curr b c (k - 1)%nat - b_curr b c k - kwidth (b_core b) k * G) by (unfold Rdiv in *; rsimpl; lra).
    transitivity (dt * (kwidth (b_core b) k * A / dt)); [field; exact D|]. rewrite X. reflexivity. }
  rewrite sumR_minus, (telescope (b_curr b c) (a - 1) m) in Q. replace (a - 1 + m)%nat with (a + m - 1)%nat in Q by lia.
  unfold leaked. fold n. rewrite <- Q. ring.
Qed.

Section Run.
Variable LA : lapack NumR.
Hypothesis LAok : lapack_ok LA.
Lemma plain_march b b' : marches LA b b' -> plain_bundle LA b -> plain_bundle LA b'.
Proof.
  intros M [U [b0 W]]. pose proof (marches_statics _ _ _ M) as S. split; [|exists b0; eapply ow_march; eauto].
  intros. rewrite (st_D _ _ S), (st_E _ _ S), (st_1 _ _ S), (st_2 _ _ S). apply U.
Qed.
Lemma run_parts x T dt n y z name b0 b b' : lines_net LA x -> one_step x dt -> steps_to LA x T dt n y z -> bundle_of x name = Some b0 -> bundle_of y name = Some b -> bundle_of z name = Some b' ->
  t_dt y <> 0 /\ telegraph (t_dt y) (t_dt y) (t_time y) b b' /\ marches LA b b' /\ (plain_bundle LA b0 -> plain_bundle LA b) /\ statics b0 b.
Proof.
  intros L O St G0 G G'. pose proof St as (R & Sp & _). pose proof (lines_ninv LA x L) as I. destruct (one_step_dt _ _ _ _ _ _ L O R) as [Dp Db].
  split; [lra|]. split; [rewrite <- (Db name b G) at 1; eapply run_telegraph; eauto|].
  destruct (kept_get _ _ _ _ _ (kept_step LA y z (reaches_ninv LA _ _ _ _ _ I R) Sp) G) as (b1 & G1 & M). assert (b1 = b') by congruence. subst b1.
  destruct (kept_get _ _ _ _ _ (reaches_kept LA x T dt n y I R) G0) as (b2 & G2 & M0). assert (b2 = b) by congruence. subst b2.
  split; [exact M|]. split; [exact (plain_march b0 b M0)|exact (marches_statics _ _ _ M0)].
Qed.
Lemma run_flux x T dt n y z name b0 b b' c a m : lines_net LA x -> one_step x dt -> steps_to LA x T dt n y z -> bundle_of x name = Some b0 -> bundle_of y name = Some b -> bundle_of z name = Some b' ->
  plain_bundle LA b0 -> (c < b_conductors b0)%nat -> (a + m <= b_cells b0)%nat ->
  flux b' c a m = flux b c a m + t_dt y * (node_volt (t_time y) b' c a - node_volt (t_time y) b' c (a + m) + pushed (t_dt y) (t_time y) b c a m - ohmic b b' c a m).
Proof.
  intros L O St G0 G G' Pl Hc Hm. destruct (run_parts x T dt n y z name b0 b b' L O St G0 G G') as (D & Te & M & Pb & S0). pose proof (marches_statics _ _ _ M) as S. destruct (Pb Pl) as [Un [b1 W]].
  rewrite <- (st_n _ _ S0) in Hc. rewrite <- (st_N _ _ S0) in Hm. apply flux_step; auto.
  intros k c' Hk Hc'. apply (one_way_memory LA (fun _ => False) b1 b'); [eapply ow_march; eauto| |].
  + rewrite (st_N _ _ S). exact Hk. + rewrite (st_n _ _ S). exact Hc'.
Qed.
Lemma run_charge_stretch x T dt n y z name b0 b b' c a m : lines_net LA x -> one_step x dt -> steps_to LA x T dt n y z -> bundle_of x name = Some b0 -> bundle_of y name = Some b -> bundle_of z name = Some b' ->
  (c < b_conductors b0)%nat -> (0 < a)%nat -> (a + m <= b_cells b0)%nat ->
  charge (t_time y) b' c a m = charge (t_time y - t_dt y) b c a m + t_dt y * (b_curr b c (a - 1)%nat - b_curr b c (a + m - 1)%nat - leaked (t_dt y) (t_time y) b b' c a m).
Proof.
  intros L O St G0 G G' Hc Ha Hm. destruct (run_parts x T dt n y z name b0 b b' L O St G0 G G') as (D & Te & M & _ & S0). pose proof (marches_statics _ _ _ M) as S.
  rewrite <- (st_n _ _ S0) in Hc. rewrite <- (st_N _ _ S0) in Hm. now apply charge_step.
Qed.
Lemma history_step x T dt name n X B j : history_of LA x T dt name n X B -> (j < n)%nat -> steps_to LA x T dt j (X j) (X (S j)).
Proof.
  intros H Hj. destruct (H j ltac:(lia)) as [R _]. destruct (H (S j) ltac:(lia)) as [R' _]. destruct (reaches_step LA _ _ _ _ _ R') as (y & Ry & St & _).
  assert (y = X j) by (eapply reaches_fun; eauto). subst y. split; [exact R|]. split; [exact St|exact R'].
Qed.
Lemma history_dt x T dt name n X B j : history_of LA x T dt name n X B -> (j <= n)%nat -> t_dt (X j) = t_dt (X 0%nat) /\ t_time (X j) = t_time (X 0%nat) + INR j * t_dt (X 0%nat).
Proof.
  intros H Hj. destruct (H j Hj) as [Rj _]. destruct (H 0%nat ltac:(lia)) as [R0 _]. destruct (run_clock LA _ _ _ _ _ Rj) as [E1 E2]. destruct (run_clock LA _ _ _ _ _ R0) as [F1 F2].
  split; [congruence|]. rewrite E2, F2, E1, F1. simpl (INR 0). rring.
Qed.
Lemma history_flux x T dt name n X B b0 c a m : lines_net LA x -> one_step x dt -> bundle_of x name = Some b0 -> plain_bundle LA b0 -> (c < b_conductors b0)%nat -> (a + m <= b_cells b0)%nat ->
  history_of LA x T dt name n X B -> let d := t_dt (X 0%nat) in
  flux (B n) c a m = flux (B 0%nat) c a m + d * sumR n (fun j => node_volt (t_time (X j)) (B (S j)) c a - node_volt (t_time (X j)) (B (S j)) c (a + m) + pushed d (t_time (X j)) (B j) c a m - ohmic (B j) (B (S j)) c a m).
Proof.
  intros L O G0 Pl Hc Hm H d. assert (Q : forall q, (q <= n)%nat -> flux (B q) c a m = flux (B 0%nat) c a m + d * sumR q (fun j => node_volt (t_time (X j)) (B (S j)) c a - node_volt (t_time (X j)) (B (S j)) c (a + m) + pushed d (t_time (X j)) (B j) c a m - ohmic (B j) (B (S j)) c a m)); [|exact (Q n (le_n n))].
  induction q as [|q IH]; intros Hq; [rewrite sumR_0, Rmult_0_r, Rplus_0_r; reflexivity|]. specialize (IH ltac:(lia)).
  rewrite (run_flux x T dt q (X q) (X (S q)) name b0 (B q) (B (S q)) c a m L O (history_step _ _ _ _ _ _ _ q H ltac:(lia)) G0 (proj2 (H q ltac:(lia))) (proj2 (H (S q) Hq)) Pl Hc Hm), IH.
  rewrite sumR_S. rewrite (proj1 (history_dt _ _ _ _ _ _ _ q H ltac:(lia))). fold d. rsimpl. ring.
Qed.
Lemma history_charge x T dt name n X B b0 c a m : lines_net LA x -> one_step x dt -> bundle_of x name = Some b0 -> (c < b_conductors b0)%nat -> (0 < a)%nat -> (a + m <= b_cells b0)%nat ->
  history_of LA x T dt name n X B -> let d := t_dt (X 0%nat) in
  charge (t_time (X n) - d) (B n) c a m = charge (t_time (X 0%nat) - d) (B 0%nat) c a m + d * sumR n (fun j => b_curr (B j) c (a - 1)%nat - b_curr (B j) c (a + m - 1)%nat - leaked d (t_time (X j)) (B j) (B (S j)) c a m).
Proof.
  intros L O G0 Hc Ha Hm H d. assert (Q : forall q, (q <= n)%nat -> charge (t_time (X q) - d) (B q) c a m = charge (t_time (X 0%nat) - d) (B 0%nat) c a m + d * sumR q (fun j => b_curr (B j) c (a - 1)%nat - b_curr (B j) c (a + m - 1)%nat - leaked d (t_time (X j)) (B j) (B (S j)) c a m)); [|exact (Q n (le_n n))].
  induction q as [|q IH]; intros Hq; [rewrite sumR_0, Rmult_0_r, Rplus_0_r; reflexivity|]. specialize (IH ltac:(lia)).
  destruct (history_dt _ _ _ _ _ _ _ q H ltac:(lia)) as [E1 E2]. destruct (history_dt _ _ _ _ _ _ _ (S q) H Hq) as [_ E4].
  assert (Et : t_time (X (S q)) - d = t_time (X q)) by (rewrite E4, E2, S_INR; unfold d; ring). rewrite Et.
  pose proof (run_charge_stretch x T dt q (X q) (X (S q)) name b0 (B q) (B (S q)) c a m L O (history_step _ _ _ _ _ _ _ q H ltac:(lia)) G0 (proj2 (H q ltac:(lia))) (proj2 (H (S q) Hq)) Hc Ha Hm) as Z.
  rewrite E1 in Z. fold d in Z. rewrite Z, IH, sumR_S. rsimpl. ring.
Qed.
End Run.
Lemma history_exists (LA : lapack NumR) x T dt n v name b0 : reaches LA x T dt n v -> bundle_of x name = Some b0 -> exists X B, history_of LA x T dt name n X B /\ X n = v.
Proof.
  intros Rv Hb. pose proof Rv as (ws & steps & p & E1 & E2 & Le & E3 & E4).
  exists (fun j => match iterM j (mtln_step LA) p with Ok y => y | Err _ => v end).
  exists (fun j => match bundle_of (match iterM j (mtln_step LA) p with Ok y => y | Err _ => v end) name with Some b => b | None => b0 end).
  split; [|now rewrite E4]. intros j Hj. destruct (reaches_less LA _ _ _ _ j _ Rv Hj) as [z Rz].
  destruct (iterM_prefix n j (mtln_step LA) p v E4 Hj) as (y & Ey & _). rewrite Ey.
  assert (Ry : reaches LA x T dt j y) by (exists ws, steps, p; cbv zeta; repeat (split; [first [assumption|lia]|]); exact Ey).
  split; [exact Ry|]. destruct (reaches_bundle LA _ _ _ _ _ _ _ Ry Hb) as [b' Gb]. now rewrite Gb.
Qed.
