(** Modes of two equal conductors, impedance level, and examples. *)
From Coq Require Import String List Arith ZArith Bool Lia Reals Lra.
From Verif Require Import Num Py Arr ArrFacts NumR RFacts LinAlg LapackR Probes Dispersive Line LineFacts SpecLine SpecR HistoryFacts LineEqFacts
  PlainFacts TotalFacts NewTotal GeometryFacts TermFacts RunEqFacts EnergyFacts SpecSym SymFacts SymProps ExampleLine ExampleRun SymExample BounceProps SpecModes ModesProps.
Import ListNotations.
Local Open Scope R_scope.

Lemma sum2e (f : nat -> R) : sumR 2 f = f 0%nat + f 1%nat.
Proof. rewrite !sumR_S, sumR_0. rring. Qed.
Lemma sum1e (f : nat -> R) : sumR 1 f = f 0%nat.
Proof. rewrite sumR_S, sumR_0. rring. Qed.
Definition mode_row (s : R) (_ p : nat) : R := if (p =? 0)%nat then 1 else s.
Definition flip (s : R) (i p : nat) : R := if (i =? p)%nat then 0 else s.
Definition ident (a : R) (i p : nat) : R := if (i =? p)%nat then a else 0.

Lemma twin_mode s (X Y : nat -> nat -> R) : s * s = 1 -> twin X -> Y 0%nat 0%nat = X 0%nat 0%nat + s * X 0%nat 1%nat -> intertwined 2 1 (mode_row s) X Y (mode_row s).
Proof.
  intros Hs [T1 T2] E i j Hi Hj. assert (i = 0)%nat as -> by lia. rewrite sum2e, sum1e, E. unfold mode_row. cbn [Nat.eqb].
  assert (j = 0 \/ j = 1)%nat as [-> | ->] by lia; cbn [Nat.eqb]; rewrite ?T1, ?T2; rsimpl; rty; [ring|].
  transitivity (X 0%nat 1%nat * 1 + s * X 0%nat 0%nat); [ring|]. rewrite <- Hs. ring.
Qed.
Lemma twin_flip s (X : nat -> nat -> R) : twin X -> intertwined 2 2 (flip s) X X (flip s).
Proof.
  intros [T1 T2] i j Hi Hj. rewrite !sum2e. unfold flip.
  assert (i = 0 \/ i = 1)%nat as [-> | ->] by lia; assert (j = 0 \/ j = 1)%nat as [-> | ->] by lia; cbn [Nat.eqb]; rewrite ?T1, ?T2; rsimpl; rty; ring.
Qed.
Lemma comb_mode s x c : combination 2 (mode_row s) x c = x 0%nat + s * x 1%nat.
Proof. unfold combination. rewrite sum2e. unfold mode_row. cbn [Nat.eqb]. rsimpl. rty. ring. Qed.
Lemma comb_flip s x c : (c < 2)%nat -> combination 2 (flip s) x c = s * x (1 - c)%nat.
Proof. intros Hc. unfold combination. rewrite sum2e. unfold flip. assert (c = 0 \/ c = 1)%nat as [-> | ->] by lia; cbn [Nat.eqb Nat.sub]; rsimpl; rty; ring. Qed.
Lemma comb_ident n a x c : (c < n)%nat -> combination n (ident a) x c = a * x c.
Proof.
  intros Hc. unfold combination. rewrite (sumR_single n _ c Hc); unfold ident; [now rewrite Nat.eqb_refl|]. intros j Hj Hne.
  rewrite (proj2 (Nat.eqb_neq c j)) by auto. rring.
Qed.
Lemma ident_twine n a b (X Y : nat -> nat -> R) : (forall i j, (i < n)%nat -> (j < n)%nat -> a * X i j = Y i j * b) -> intertwined n n (ident a) X Y (ident b).
Proof.
  intros H i j Hi Hj. rewrite (sumR_single n _ i Hi), (sumR_single n (fun p => Y i p * ident b p j) j Hj).
  - unfold ident. rewrite !Nat.eqb_refl. now apply H.
  - intros p Hp Hne. unfold ident. rewrite (proj2 (Nat.eqb_neq p j)) by auto. rring.
  - intros p Hp Hne. unfold ident. rewrite (proj2 (Nat.eqb_neq i p)) by auto. rring.
Qed.

Lemma mode_transformed s (m0 m m0' m' : mtl NumR) : s * s = 1 -> twins m0 m -> is_mode s m0 m m0' m' -> transformed (mode_row s) (mode_row s) m0 m m0' m'.
Proof.
  intros Hs W M.
  destruct W, M. constructor; auto; rewrite ?tw_n, ?md_n; auto; try (intros; apply twin_mode; auto).
  - split; apply twin_mode; auto; apply tw_G0 || apply md_G0.
  - split; apply twin_mode; auto; apply tw_Z || apply md_Z.
  - intros c t Hc. assert (c = 0)%nat as -> by lia. rewrite !comb_mode. apply md_src.
  - intros c k t Hc Hk. assert (c = 0)%nat as -> by lia. rewrite comb_mode. now apply md_eT.
  - intros c k t Hc Hk. assert (c = 0)%nat as -> by lia. rewrite comb_mode. now apply md_eL.
Qed.

Section Props.
Variable LA : lapack NumR.
Hypothesis LAok : lapack_ok LA.

Theorem mode_runs s (m0 m m0' m' : mtl NumR) T T' : s * s = 1 -> history LA m0 m -> undispersed m -> history LA m0' m' -> undispersed m' ->
  twins m0 m -> is_mode s m0 m m0' m' ->
  (forall k, (k <= cells m)%nat -> volt m' 0 k = volt m 0 k + s * volt m 1 k) -> (forall k, (k < cells m)%nat -> curr m' 0 k = curr m 0 k + s * curr m 1 k) ->
  forall j a a', run_state LA m T j a -> run_state LA m' T' j a' ->
  (forall k, (k <= cells m)%nat -> volt a' 0 k = volt a 0 k + s * volt a 1 k) /\ (forall k, (k < cells m)%nat -> curr a' 0 k = curr a 0 k + s * curr a 1 k).
Proof.
  intros Hs HH U HH' U' W M V0 I0 j a a' Ha Ha'.
  assert (HR : reachable LA m) by (exists m0; auto). assert (HR' : reachable LA m') by (exists m0'; auto).
  destruct (run_state_inv LA _ _ _ _ (reachable_shape LA _ HR) Ha) as (_ & _ & S & _).
  destruct (run_state_inv LA _ _ _ _ (reachable_shape LA _ HR') Ha') as (_ & _ & S' & _).
  destruct (transform_runs LA LAok (mode_row s) (mode_row s) m0 m m0' m' T T' HH U HH' U') with (k := j) (a := a) (a' := a') as [V I]; auto.
  - now apply mode_transformed.
  - unfold combined. rewrite (tw_n _ _ W), (md_n _ _ _ _ _ M). split; intros c k Hc Hk; assert (c = 0)%nat as -> by lia; rewrite comb_mode; auto.
  - rewrite (rs_cond _ _ S), (rs_cells _ _ S), (rs_cond _ _ S'), (tw_n _ _ W), (md_n _ _ _ _ _ M) in *.
    split; intros k Hk; [rewrite V|rewrite I]; auto; apply comb_mode.
Qed.

Theorem alike_runs s (m0 m : mtl NumR) T : s * s = 1 -> history LA m0 m -> undispersed m -> twins m0 m -> driven_alike s m ->
  forall j a, run_state LA m T j a ->
  (forall k, (k <= cells m)%nat -> volt a 1 k = s * volt a 0 k) /\ (forall k, (k < cells m)%nat -> curr a 1 k = s * curr a 0 k).
Proof.
  intros Hs HH U W D j a Ha. assert (HR : reachable LA m) by (exists m0; auto).
  destruct (run_state_inv LA _ _ _ _ (reachable_shape LA _ HR) Ha) as (_ & _ & S & _).
  assert (B : forall x y : R, y = s * x -> x = s * y) by (intros x y ->; rewrite <- Rmult_assoc, Hs; ring).
  assert (X : forall (f : nat -> R) c, (c < 2)%nat -> f 1%nat = s * f 0%nat -> f c = s * f (1 - c)%nat).
  { intros f c Hc E. assert (c = 0 \/ c = 1)%nat as [-> | ->] by lia; cbn [Nat.sub]; auto. }
  destruct (transform_runs LA LAok (flip s) (flip s) m0 m m0 m T T HH U HH U) with (k := j) (a := a) (a' := a) as [V I]; auto.
  - destruct W, D. constructor; auto; rewrite ?tw_n; auto; try (intros; apply twin_flip; auto).
    + split; apply twin_flip; apply tw_G0.
    + split; apply twin_flip; apply tw_Z.
    + intros c t Hc. destruct (da_src t). rewrite !comb_flip by auto. split; [apply (X (fun c => source m c 0 t))|apply (X (fun c => source m c (cells m) t))]; auto.
    + intros c k t Hc Hk. rewrite comb_flip by auto. apply (X (fun c => eTran m c k t)); auto.
    + intros c k t Hc Hk. rewrite comb_flip by auto. apply (X (fun c => eLong m c k t)); auto.
  - unfold combined. rewrite (tw_n _ _ W). destruct D. split; intros c k Hc Hk; rewrite comb_flip by auto; [apply (X (fun c => volt m c k))|apply (X (fun c => curr m c k))]; auto.
  - rewrite (rs_cond _ _ S), (rs_cells _ _ S), (tw_n _ _ W) in *.
    split; intros k Hk; [rewrite (V 1%nat k) by (auto; lia)|rewrite (I 1%nat k) by (auto; lia)]; rewrite comb_flip by lia; reflexivity.
Qed.

Theorem rescale_runs r (m0 m m0' m' : mtl NumR) T T' : r <> 0 -> history LA m0 m -> undispersed m -> history LA m0' m' -> undispersed m' ->
  rescaled r m0 m m0' m' ->
  (forall c k, (c < conductors m)%nat -> (k <= cells m)%nat -> volt m' c k = volt m c k) -> (forall c k, (c < conductors m)%nat -> (k < cells m)%nat -> curr m' c k = curr m c k / r) ->
  forall j a a', run_state LA m T j a -> run_state LA m' T' j a' ->
  (forall c k, (c < conductors m)%nat -> (k <= cells m)%nat -> volt a' c k = volt a c k) /\ (forall c k, (c < conductors m)%nat -> (k < cells m)%nat -> curr a' c k = curr a c k / r).
Proof.
  intros Hr HH U HH' U' M V0 I0 j a a' Ha Ha'.
  assert (HR : reachable LA m) by (exists m0; auto). assert (HR' : reachable LA m') by (exists m0'; auto).
  destruct (run_state_inv LA _ _ _ _ (reachable_shape LA _ HR) Ha) as (_ & _ & S & _).
  destruct (run_state_inv LA _ _ _ _ (reachable_shape LA _ HR') Ha') as (_ & _ & S' & _).
  assert (Q : forall x : R, x / r = / r * x) by (intros; unfold Rdiv; ring).
  destruct (transform_runs LA LAok (ident 1) (ident (/ r)) m0 m m0' m' T T' HH U HH' U') with (k := j) (a := a) (a' := a') as [V I]; auto.
  - destruct M. constructor; auto; rewrite ?rc_n; auto.
    + intros k Hk. apply ident_twine. intros. rewrite rc_L by auto. rsimpl. rty. field. auto.
    + intros k Hk. apply ident_twine. intros. rewrite rc_R by auto. rsimpl. rty. field. auto.
    + intros k Hk. apply ident_twine. intros. rewrite rc_C by auto. rsimpl. rty. field. auto.
    + intros k Hk. apply ident_twine. intros. rewrite rc_G by auto. rsimpl. rty. field. auto.
    + split; apply ident_twine; intros; [rewrite (proj1 (rc_G0 i j0 H H0))|rewrite (proj2 (rc_G0 i j0 H H0))]; rsimpl; rty; field; auto.
    + split; apply ident_twine; intros; [rewrite (proj1 (rc_Z i j0 H H0))|rewrite (proj2 (rc_Z i j0 H H0))]; rsimpl; rty; field; auto.
    + intros c t Hc. rewrite !comb_ident, !Rmult_1_l by auto. now apply rc_src.
    + intros c k t Hc Hk. rewrite !comb_ident, !Rmult_1_l by auto. now apply rc_eT.
    + intros c k t Hc Hk. rewrite !comb_ident, !Rmult_1_l by auto. now apply rc_eL.
  - unfold combined. rewrite (rc_n _ _ _ _ _ M). split; intros c k Hc Hk; rewrite comb_ident by auto; [rewrite Rmult_1_l|rewrite <- Q]; auto.
  - rewrite (rs_cond _ _ S), (rs_cells _ _ S), (rs_cond _ _ S'), (rc_n _ _ _ _ _ M) in *.
    split; intros c k Hc Hk; [rewrite V, comb_ident, Rmult_1_l|rewrite I, comb_ident, Q]; auto.
Qed.
End Props.

Section One.
Variable LA : lapack NumR.
Hypotheses (LAok : lapack_ok LA) (LAC : lapack_complete LA).
(** one conductor, from the constructor on *)
Theorem rescale_one ju jdu (l c r g len zs zl x : R) (N : nat) name name' (Vs Vl : R -> R) (m0 m1 m m0' m1' m' : mtl NumR) T T' :
  0 < l -> 0 < c -> 0 <= r -> 0 <= g -> len <> 0 -> (1 <= N)%nat -> 0 <= zs -> 0 <= zl -> 0 < x ->
  mtl_new LA ju jdu (@PFloat NumR l) (@PFloat NumR c) (@PFloat NumR r) (@PFloat NumR g) len [] [N] (@ZScal NumR zs) (@ZScal NumR zl) name = Ok m0 ->
  add_voltage_source m0 (@PosF NumR 0) 0 Vs = Ok m1 -> add_voltage_source m1 (@PosF NumR len) 0 Vl = Ok m ->
  mtl_new LA ju jdu (@PFloat NumR (x * l)) (@PFloat NumR (c / x)) (@PFloat NumR (x * r)) (@PFloat NumR (g / x)) len [] [N] (@ZScal NumR (x * zs)) (@ZScal NumR (x * zl)) name' = Ok m0' ->
  add_voltage_source m0' (@PosF NumR 0) 0 Vs = Ok m1' -> add_voltage_source m1' (@PosF NumR len) 0 Vl = Ok m' ->
  forall j a a', run_state LA m T j a -> run_state LA m' T' j a' ->
  (forall k, (k <= N)%nat -> volt a' 0 k = volt a 0 k) /\ (forall k, (k < N)%nat -> curr a' 0 k = curr a 0 k / x).
Proof.
  intros Hl Hc Hr Hg Hlen HN Hzs Hzl Hx E0 E1 E2 E0' E1' E2' j a a' Ha Ha'.
  assert (Hx' : 0 < / x) by now apply Rinv_0_lt_compat.
  destruct (two_ends LA LAok LAC ju jdu l c r g len zs zl N name Vs Vl) as
    (n0 & n1 & n2 & F0 & F1 & F2 & HH & P & O & U & D0 & D1 & S0 & SN & V0 & I0 & ET & EL & T0 & G0); auto.
  destruct (two_ends LA LAok LAC ju jdu (x * l) (c / x) (x * r) (g / x) len (x * zs) (x * zl) N name' Vs Vl) as
    (n0' & n1' & n2' & F0' & F1' & F2' & HH' & P' & O' & U' & D0' & D1' & S0' & SN' & V0' & I0' & ET' & EL' & T0' & G0'); auto;
    try (apply Rmult_lt_0_compat; auto); try (apply Rmult_le_pos; lra).
  rewrite E0 in F0. injection F0 as <-. rewrite E1 in F1. injection F1 as <-. rewrite E2 in F2. injection F2 as <-.
  rewrite E0' in F0'. injection F0' as <-. rewrite E1' in F1'. injection F1' as <-. rewrite E2' in F2'. injection F2' as <-.
  assert (Edt : step_dt m0' = step_dt m0). { rewrite D0, D0'. replace (x * l * (c / x)) with (l * c) by (field; lra). reflexivity. }
  destruct O as [On ON Oh OL OR OC OG Ozs Ozl], O' as [On' ON' Oh' OL' OR' OC' OG' Ozs' Ozl'].
  destruct (rescale_runs LA LAok x m0 m m0' m' T T') with (j := j) (a := a) (a' := a') as [V I]; auto; try lra.
  - constructor; rewrite ?On, ?ON, ?On', ?ON'; auto.
    + now rewrite D1, D1'.
    + now rewrite T0, T0'.
    + intros k Hk. now rewrite Oh, Oh'.
    + intros k i q Hk Hi Hq. assert (i = 0)%nat as -> by lia. assert (q = 0)%nat as -> by lia. rewrite OL, OL' by auto. reflexivity.
    + intros k i q Hk Hi Hq. assert (i = 0)%nat as -> by lia. assert (q = 0)%nat as -> by lia. rewrite OR, OR' by auto. reflexivity.
    + intros k i q Hk Hi Hq. assert (i = 0)%nat as -> by lia. assert (q = 0)%nat as -> by lia. rewrite OC, OC' by auto. reflexivity.
    + intros k i q Hk Hi Hq. assert (i = 0)%nat as -> by lia. assert (q = 0)%nat as -> by lia. rewrite OG, OG' by auto. reflexivity.
    + intros i q Hi Hq. assert (i = 0)%nat as -> by lia. assert (q = 0)%nat as -> by lia. rewrite <- !G0, <- !G0'. rewrite !OG, !OG' by lia. split; reflexivity.
    + intros i q Hi Hq. assert (i = 0)%nat as -> by lia. assert (q = 0)%nat as -> by lia. rewrite Ozs, Ozl, Ozs', Ozl'. split; reflexivity.
    + intros i t Hi. assert (i = 0)%nat as -> by lia. rewrite S0, S0', SN, SN'. split; reflexivity.
    + intros i k t Hi Hk. now rewrite ET, ET'.
    + intros i k t Hi Hk. now rewrite EL, EL'.
  - intros i k _ _. now rewrite V0, V0'.
  - intros i k _ _. rewrite I0, I0'. rsimpl. rty. field. lra.
  - rewrite On, ON in *. split; auto.
Qed.
End One.
