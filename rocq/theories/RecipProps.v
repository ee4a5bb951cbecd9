(** Reciprocity of the runs of a line. *)
From Coq Require Import String List Arith ZArith Bool Lia Reals Lra.
From Verif Require Import Num Py Arr ArrFacts NumR RFacts LapackR Probes Dispersive Line LineFacts SpecLine SpecR SpecDyn SpecGeom HistoryFacts
  NearestFacts TotalFacts RunEqFacts StepProps RunProps GeomProps2 SpecEnergy EnergyFacts ErrFacts TelegraphProps SuperProps SpecRecip RecipFacts.
Import ListNotations.
Local Open Scope R_scope.

Section Recip.
Variable LA : lapack NumR.
Hypothesis LAok : lapack_ok LA.

(** terminal impedances are diagonal *)
Lemma Z_diagonal m0 m : history LA m0 m -> diag_with (conductors m) (Zs_ m) (end_Z m false) /\ diag_with (conductors m) (Zl_ m) (end_Z m true).
Proof.
  intros H. pose proof (history_shape LA _ _ H) as [_ K].
  assert (B : built LA m0) by (clear K; induction H; auto).
  destruct B as (ju & jdu & l & c & r & g & len & np & ndiv & zs & zl & name & E).
  assert (G : forall (Z : nat -> nat -> R) z, diag_with (conductors m) Z z -> diag_with (conductors m) Z (fun c => Z c c)).
  { intros Z z D i j Hi Hj. rewrite (D i j Hi Hj), (D i i Hi Hi), Nat.eqb_refl. destruct (i =? j)%nat; reflexivity. }
  pose proof (new_Zt LA _ _ _ _ _ _ _ _ _ _ _ _ _ E) as X.
  assert (En : conductors m0 = conductors m) by (unfold conductors; now rewrite (kp_n _ _ K)).
  assert (Ez : Zs_ m0 = Zs_ m /\ Zl_ m0 = Zl_ m) by (unfold Zs_, Zl_; now rewrite (kp_zs _ _ K), (kp_zl _ _ K)).
  destruct Ez as [E1 E2]. rewrite En, E1, E2 in X. unfold end_Z.
  destruct zs, zl; try contradiction.
  - destruct X as [X1 X2]. split; eapply G; eauto.
  - destruct X as (_ & _ & X1 & X2). split; eapply G; eauto.
  - destruct X as (_ & _ & [(_ & _ & X1 & X2)|(_ & _ & X1 & X2)]); split; eapply G; eauto.
Qed.
Lemma mulv_diag n Z z x c : diag_with n Z z -> (c < n)%nat -> mulv n Z x c = z c * x c.
Proof.
  intros D Hc. unfold mulv. rewrite <- rsum_sumR. rewrite (rsum_one n c); auto.
  - rewrite (D c c Hc Hc), Nat.eqb_refl. reflexivity.
  - intros i Hi Hne. rewrite (D c i Hc Hi). destruct (Nat.eqb_spec c i); [subst; contradiction|]. ring.
Qed.
(** terminal equations without field *)
Lemma end_step m0 m a b T k c : history LA m0 m -> no_field m -> run_step LA m T k a b -> (c < conductors m)%nat ->
  let e := cells m in
  cell_len m 0 * end_Z m false c * (mulv (conductors m) (C_ m 0) (fun p => volt b p 0%nat - volt a p 0%nat) c / step_dt m0
     + mulv (conductors m) (node_G m0 m 0) (fun p => volt b p 0%nat + volt a p 0%nat) c / 2) + volt b c 0%nat + volt a c 0%nat
  = drive m false c k - 2 * end_Z m false c * curr a c 0%nat /\
  cell_len m (e - 1) * end_Z m true c * (mulv (conductors m) (C_ m e) (fun p => volt b p e - volt a p e) c / step_dt m0
     + mulv (conductors m) (node_G m0 m e) (fun p => volt b p e + volt a p e) c / 2) + volt b c e + volt a c e
  = drive m true c k + 2 * end_Z m true c * curr a c (e - 1)%nat.
Proof.
  intros HH [NT NL] Hab Hc e. destruct (Z_diagonal m0 m HH) as [Ds Dl].
  assert (HR : reachable LA m) by (exists m0; auto).
  assert (N1 : (1 <= cells m)%nat) by apply (sh_N _ (reachable_shape _ _ HR)).
  split.
  - pose proof (left_terminal LA LAok m0 m T k a b c HH Hab Hc) as E. cbv zeta in E.
    assert (GG : node_G m0 m 0 = G_ m0 0) by reflexivity.
    rewrite !(mulv_diag _ _ _ _ c Ds Hc) in E. unfold drive. cbv zeta. cbn [end_node].
    rewrite GG. rewrite (mulv_ext _ (C_ m 0) (fun p => eTran m p 0 _ - eTran m p 0 _) (fun _ => 0)), mulv0 in E.
    2: { intros p Hp. rewrite !NT by (auto; lia). rring. }
    rsimpl. lra.
  - pose proof (right_terminal LA LAok m0 m T k a b c HH Hab Hc) as E. cbv zeta in E. fold e in E.
    assert (GG : node_G m0 m e = G_ m0 e).
    { unfold node_G, e. rewrite Nat.eqb_refl, orb_true_r. reflexivity. }
    rewrite !(mulv_diag _ _ _ _ c Dl Hc) in E. unfold drive. cbv zeta. cbn [end_node]. fold e.
    rewrite GG. rewrite (mulv_ext _ (C_ m e) (fun p => eTran m p e _ - eTran m p e _) (fun _ => 0)), mulv0 in E.
    2: { intros p Hp. rewrite !NT by (auto; unfold e; lia). rring. }
    rsimpl. lra.
Qed.

(** the run as a solution *)
Definition fwd (w d : R) (A B : nat -> nat -> R) (p q : nat) : R := w * (A p q / d + B p q / 2).
Definition bwd (w d : R) (A B : nat -> nat -> R) (p q : nat) : R := w * (- A p q / d + B p q / 2).
Lemma coupled_step n w d A B f p k :
  coupled n (fwd w d A B) (bwd w d A B) f p (S k) =
  w * (mulv n A (fun q => f q (S k) - f q k) p / d + mulv n B (fun q => f q (S k) + f q k) p / 2).
Proof.
  unfold coupled, elem, fwd, bwd. cbn [late]. symmetry.
  assert (M : forall A x, mulv n A x p = rsum n (fun q => A p q * x q)) by (intros; apply eq_sym, rsum_sumR).
  assert (D : forall g x, rsum n g / x = rsum n (fun q => / x * g q)) by (intros; rewrite rsum_scal; unfold Rdiv; ring).
  rewrite !M, !D, <- rsum_plus, <- (rsum_scal n w). apply rsum_ext. intros q Hq. unfold Rdiv. ring.
Qed.
Lemma coupled_0 n al be f p : (forall q, (q < n)%nat -> f q 0%nat = 0) -> coupled n al be f p 0 = 0.
Proof.
  intros H. unfold coupled, elem. rewrite (rsum_ext n _ (fun _ => 0)); [rewrite rsum_const; ring|]. intros q Hq. rewrite (H q Hq). cbn [late]. ring.
Qed.

Notation line_solves m0 m n st := (solves (conductors m) (cells m - 1)
  (fun j => fwd (width m (S j)) (step_dt m) (C_ m (S j)) (G_ m (S j))) (fun j => bwd (width m (S j)) (step_dt m) (C_ m (S j)) (G_ m (S j)))
  (fun j => fwd (cell_len m j) (step_dt m) (L_ m j) (R_ m j)) (fun j => bwd (cell_len m j) (step_dt m) (L_ m j) (R_ m j))
  (fwd (cell_len m 0) (step_dt m0) (C_ m 0) (node_G m0 m 0)) (bwd (cell_len m 0) (step_dt m0) (C_ m 0) (node_G m0 m 0))
  (fwd (cell_len m (cells m - 1)) (step_dt m0) (C_ m (cells m)) (node_G m0 m (cells m))) (bwd (cell_len m (cells m - 1)) (step_dt m0) (C_ m (cells m)) (node_G m0 m (cells m)))
  (end_Z m false) (end_Z m true) n
  (fun j p k => volt (st k) p j) (fun j p k => curr (st k) p j) (drive m false) (drive m true)).

Lemma run_solves m0 m T n (st : nat -> mtl NumR) : reciprocal_line LA m0 m -> (forall k, (k <= n)%nat -> run_state LA m T k (st k)) -> line_solves m0 m n st.
Proof.
  intros RL Hst. destruct RL as [HH U NF (SV & SI & _) _ _ _ _ HZ]. assert (HR : reachable LA m) by (exists m0; auto).
  assert (N1 : (1 <= cells m)%nat) by apply (sh_N _ (reachable_shape _ _ HR)).
  assert (NE : S (cells m - 1) = cells m) by lia.
  assert (STEP : forall k, (k < n)%nat -> run_step LA m T k (st k) (st (S k))).
  { intros k Hk. destruct (Hst k ltac:(lia)) as (s1 & p1 & A1 & A2 & A3 & A4). destruct (Hst (S k) ltac:(lia)) as (s2 & p2 & B1 & B2 & B3 & B4).
    assert (s1 = s2) as -> by congruence. assert (p1 = p2) as -> by congruence. rewrite iterM_S in B4. rewrite A4 in B4. cbn in B4. exists s2, p2. repeat split; auto. }
  destruct (run_state_0 LA m T (st 0%nat) HR (Hst 0%nat ltac:(lia))) as [W1 W2].
  assert (V0 : forall j p, (j <= cells m)%nat -> (p < conductors m)%nat -> volt (st 0%nat) p j = 0) by (intros; rewrite W1; now apply SV).
  assert (I0 : forall j p, (j < cells m)%nat -> (p < conductors m)%nat -> curr (st 0%nat) p j = 0) by (intros; rewrite W2; now apply SI).
  destruct NF as [NT NL].
  split; rewrite ?NE.
  - intros j p Hj Hp. now apply V0.
  - intros j p k Hj Hp Hk. destruct k as [|k].
    + rewrite coupled_0 by (intros; apply V0; auto; lia). cbn [late]. ring.
    + rewrite coupled_step. cbn [late].
      pose proof (voltage_eq LA LAok m T k _ _ p (S j) HR (STEP k ltac:(lia)) Hp ltac:(lia) ltac:(lia)) as E. cbv zeta in E.
      replace (S j - 1)%nat with j in E by lia.
      rewrite (mulv_ext _ (C_ m (S j)) _ (fun q => volt (st (S k)) q (S j) - volt (st k) q (S j))) in E by (intros q Hq; rewrite !NT by (auto; lia); rring).
      rewrite (mulv_ext _ (G_ m (S j)) _ (fun q => volt (st (S k)) q (S j) + volt (st k) q (S j))) in E by (intros q Hq; rewrite !NT by (auto; lia); rring).
      rewrite <- E. ring.
  - intros j p k Hj Hp Hk. destruct k as [|k].
    + rewrite coupled_0 by (intros; apply I0; auto; lia). rewrite !V0 by (auto; lia). ring.
    + rewrite coupled_step.
      pose proof (current_eq_plain LA LAok m T k _ _ p j HR U (STEP k ltac:(lia)) Hp ltac:(lia)) as E. cbv zeta in E. rewrite !NT, !NL in E by (auto; lia).
      rsimpl. lra.
  - intros p k Hp Hk. pose proof (HZ false p Hp) as Hz. destruct k as [|k].
    + rewrite coupled_0 by (intros; apply V0; auto; lia). unfold elem. cbn [late]. rewrite V0 by (auto; lia). ring.
    + rewrite coupled_step. unfold elem. cbn [late].
      destruct (end_step m0 m _ _ T k p HH (conj NT NL) (STEP k ltac:(lia)) Hp) as [E _]. cbv zeta in E. rsimpl.
      set (z := end_Z m false p) in *. apply (Rmult_eq_reg_l z); auto. rewrite Rmult_0_r.
      set (A := mulv _ (C_ m 0) _ p) in *. set (B := mulv _ (node_G m0 m 0) _ p) in *.
      replace (z * (cell_len m 0 * (A / step_dt m0 + B / 2) + (/ z * volt (st (S k)) p 0%nat + / z * volt (st k) p 0%nat + (- / z * drive m false p k + 2 * curr (st k) p 0%nat))))
        with (cell_len m 0 * z * (A / step_dt m0 + B / 2) + z * / z * (volt (st (S k)) p 0%nat + volt (st k) p 0%nat - drive m false p k) + 2 * z * curr (st k) p 0%nat) by ring.
      rewrite Rinv_r by auto. lra.
  - intros p k Hp Hk. pose proof (HZ true p Hp) as Hz. destruct k as [|k].
    + rewrite coupled_0 by (intros; apply V0; auto; lia). unfold elem. cbn [late]. rewrite V0 by (auto; lia). ring.
    + rewrite coupled_step. unfold elem. cbn [late].
      destruct (end_step m0 m _ _ T k p HH (conj NT NL) (STEP k ltac:(lia)) Hp) as [_ E]. cbv zeta in E. rsimpl.
      set (z := end_Z m true p) in *. apply (Rmult_eq_reg_l z); auto. rewrite Rmult_0_r.
      set (A := mulv _ (C_ m (cells m)) _ p) in *. set (B := mulv _ (node_G m0 m (cells m)) _ p) in *. set (e := cells m) in *.
      replace (z * (cell_len m (e - 1) * (A / step_dt m0 + B / 2) + (/ z * volt (st (S k)) p e + / z * volt (st k) p e + (- / z * drive m true p k + - 2 * curr (st k) p (e - 1)%nat))))
        with (cell_len m (e - 1) * z * (A / step_dt m0 + B / 2) + z * / z * (volt (st (S k)) p e + volt (st k) p e - drive m true p k) - 2 * z * curr (st k) p (e - 1)%nat) by ring.
      rewrite Rinv_r by auto. lra.
Qed.

Lemma fwd_sym n w d A B p q : symm n A -> symm n B -> (p < n)%nat -> (q < n)%nat -> fwd w d A B p q = fwd w d A B q p /\ bwd w d A B p q = bwd w d A B q p.
Proof. intros SA SB Hp Hq. unfold fwd, bwd. now rewrite (SA p q), (SB p q). Qed.

Theorem recip_runs m0 m m' T n st st' : reciprocal_line LA m0 m -> reciprocal_line LA m0 m' -> other_sources m m' ->
  (forall k, (k <= n)%nat -> run_state LA m T k (st k)) -> (forall k, (k <= n)%nat -> run_state LA m' T k (st' k)) ->
  sumR (conductors m) (fun c =>
      sumR (S n) (fun k => drive m false c k * volt (st' (n - k)%nat) c 0) / Zs_ m c c
    + sumR (S n) (fun k => drive m true c k * volt (st' (n - k)%nat) c (cells m)) / Zl_ m c c) =
  sumR (conductors m) (fun c =>
      sumR (S n) (fun k => drive m' false c k * volt (st (n - k)%nat) c 0) / Zs_ m c c
    + sumR (S n) (fun k => drive m' true c k * volt (st (n - k)%nat) c (cells m)) / Zl_ m c c).
Proof.
  intros RL RL' [x ->] H H'. pose proof (run_solves m0 m T n st RL H) as S1. pose proof (run_solves m0 _ T n st' RL' H') as S2.
  assert (HR : reachable LA m) by (exists m0; apply RL).
  assert (N1 : (1 <= cells m)%nat) by apply (sh_N _ (reachable_shape _ _ HR)).
  assert (NE : S (cells m - 1) = cells m) by lia.
  destruct RL as [HH U NF SS SL SR SC SG HZ].
  unshelve epose proof (reciprocity _ _ _ _ _ _ _ _ _ _ _ _ n _ _ _ _ _ _ _ _ _ _ _ _ S1 S2) as E.
  { cbv beta. intros j p q Hj Hp Hq. apply (fwd_sym (conductors m)); auto; [apply SC; lia|]. specialize (SG (S j) ltac:(lia)). unfold node_G in SG.
    replace (S j =? 0)%nat with false in SG by reflexivity. replace (S j =? cells m)%nat with false in SG by (symmetry; apply Nat.eqb_neq; lia). exact SG. }
  { cbv beta. intros j p q Hj Hp Hq. apply (fwd_sym (conductors m)); auto; [apply SL; lia|apply SR; lia]. }
  { intros p q Hp Hq. apply (fwd_sym (conductors m)); auto with arith. }
  { intros p q Hp Hq. apply (fwd_sym (conductors m)); auto with arith. }
  rewrite NE in E.
  assert (F : forall (f g : nat -> R) z, sumR (S n) (fun k => f k * g (n - k)%nat) / z = / z * conv f g n) by (intros; change (conv f g n / z = / z * conv f g n); unfold Rdiv; ring).
  transitivity (rsum (conductors m) (fun p => / end_Z m false p * conv (drive m false p) (fun k => volt (st' k) p 0%nat) n +
      / end_Z m true p * conv (drive m true p) (fun k => volt (st' k) p (cells m)) n)); [|etransitivity; [exact E|]].
  - apply rsum_ext. intros c Hc. rewrite !(F (fun k => drive m _ c k) (fun k => volt (st' k) c _)). reflexivity.
  - apply rsum_ext. intros c Hc. rewrite !(F (fun k => drive _ _ c k) (fun k => volt (st k) c _)). reflexivity.
Qed.

Lemma closest_unique u p j k : closest u p j -> closest u p k -> j = k.
Proof.
  intros (A1 & A2 & A3) (B1 & B2 & B3). destruct (Nat.lt_trichotomy j k) as [H|[H|H]]; auto.
  - pose proof (B3 j H). pose proof (A2 k B1). lra.
  - pose proof (A3 k H). pose proof (B2 j A1). lra.
Qed.
(** a generator added to a line that has none *)
Lemma added_line m0 m m' P p f far : reciprocal_line LA m0 m -> undriven m -> add_voltage_source m P p f = Ok m' -> closest (m_u m) (pos_vec P) (end_node m far) ->
  reciprocal_line LA m0 m' /\ other_sources m m' /\ (p < conductors m)%nat /\
  (forall far' c k, (c < conductors m)%nat -> drive m' far' c k =
     if Bool.eqb far' far && (c =? p)%nat then f (m_time m + INR k * step_dt m) + f (m_time m + INR k * step_dt m - step_dt m) else 0).
Proof.
  intros RL (U1 & _) E Cl. pose proof E as E'. destruct RL as [HH U NF SS SL SR SC SG HZ]. assert (HR : reachable LA m) by (exists m0; auto).
  assert (N1 : (1 <= cells m)%nat) by apply (sh_N _ (reachable_shape _ _ HR)).
  destruct (source_node LA m m' P p f HR E) as (k0 & Ck & Hk & Hp & Es & En). assert (k0 = end_node m far) as -> by (eapply closest_unique; eauto).
  pose proof (h_source LA m0 m P p f m' HH E') as HH'.
  unfold add_voltage_source in E'. destruct (_ <? _)%nat; [|discriminate]. injection E' as E'.
  assert (Om : other_sources m m') by (eexists; symmetry; exact E').
  split; [rewrite <- E' in *; split; auto|]. split; [exact Om|]. split; [exact Hp|]. intros far' c k Hc.
  assert (Em : m_time m' = m_time m /\ step_dt m' = step_dt m /\ end_node m' far' = end_node m far') by (rewrite <- E'; auto).
  unfold drive. destruct Em as (-> & -> & ->). cbv zeta.
  destruct (Bool.eqb far' far && (c =? p)%nat) eqn:B.
  - apply andb_true_iff in B as [B1 B2]. apply Bool.eqb_prop in B1. apply Nat.eqb_eq in B2. subst. now rewrite Es.
  - rewrite En. { destruct (U1 c (m_time m + INR k * step_dt m) Hc) as [Z1 Z2]. destruct (U1 c (m_time m + INR k * step_dt m - step_dt m) Hc) as [Z3 Z4].
      destruct far'; cbn [end_node]; rsimpl; [rewrite Z2, Z4|rewrite Z1, Z3]; ring. }
    intros X. injection X as -> X. rewrite Nat.eqb_refl, andb_true_r in B. destruct far', far; cbn in *; try discriminate; lia.
Qed.
Theorem exchange m0 m m1 m2 P Q p q e1 e2 f T n k0 a b a' b' : reciprocal_line LA m0 m -> undriven m ->
  add_voltage_source m P p f = Ok m1 -> closest (m_u m) (pos_vec P) (end_node m e1) ->
  add_voltage_source m Q q f = Ok m2 -> closest (m_u m) (pos_vec Q) (end_node m e2) ->
  (forall k, (k < k0)%nat -> f (m_time m + INR k * step_dt m) + f (m_time m + INR k * step_dt m - step_dt m) = 0) ->
  f (m_time m + INR k0 * step_dt m) + f (m_time m + INR k0 * step_dt m - step_dt m) <> 0 ->
  run_state LA m1 T n a -> run_state LA m1 T (n + k0) a' -> run_state LA m2 T n b -> run_state LA m2 T (n + k0) b' ->
  volt a q (end_node m e2) / end_Z m e2 q = volt b p (end_node m e1) / end_Z m e1 p.
Proof.
  intros RL U E1 C1 E2 C2 Z0 NZ Ha Ha' Hb Hb'.
  destruct (added_line m0 m m1 P p f e1 RL U E1 C1) as (RL1 & [x1 O1] & Hp & D1).
  destruct (added_line m0 m m2 Q q f e2 RL U E2 C2) as (RL2 & [x2 O2] & Hq & D2).
  assert (O12 : other_sources m1 m2) by (exists x2; subst m1 m2; reflexivity).
  assert (ST : forall mm x, run_state LA mm T (n + k0) x -> exists st, forall k, (k <= n + k0)%nat -> run_state LA mm T k (st k)).
  { intros mm x (steps & pr & A1 & A2 & A3 & A4). exists (fun k => match iterM k mtl_step pr with Ok y => y | Err _ => x end).
    intros k Hk. destruct (iterM_prefix _ k _ _ _ A4 Hk) as (y & Ey & _). rewrite Ey. exists steps, pr. repeat split; auto. lia. }
  destruct (ST _ _ Ha') as [sa Sa]. destruct (ST _ _ Hb') as [sb Sb].
  assert (Q0 : forall mm x y, run_state LA mm T n x -> run_state LA mm T n y -> x = y).
  { intros mm x y (s1 & p1 & A1 & A2 & A3 & A4) (s2 & p2 & B1 & B2 & B3 & B4). assert (s1 = s2) as -> by congruence. assert (p1 = p2) as -> by congruence. congruence. }
  rewrite (Q0 _ _ _ Ha (Sa n ltac:(lia))), (Q0 _ _ _ Hb (Sb n ltac:(lia))). clear Q0 Ha Hb Ha' Hb' a b a' b' ST.
  set (e := fun k => f (m_time m + INR k * step_dt m) + f (m_time m + INR k * step_dt m - step_dt m)) in *.
  enough (X : / end_Z m e1 p * volt (sb n) p (end_node m e1) + - / end_Z m e2 q * volt (sa n) q (end_node m e2) = 0) by (unfold Rdiv; rsimpl; lra).
  apply (conv_cancel e (fun k => / end_Z m e1 p * volt (sb k) p (end_node m e1) + - / end_Z m e2 q * volt (sa k) q (end_node m e2)) k0 n Z0 NZ); [|lia].
  intros j Hj. rewrite conv_comm, conv_plus, !conv_scal, !(conv_comm _ e).
  pose proof (recip_runs m0 m1 m2 T j sa sb RL1 RL2 O12 ltac:(intros; apply Sa; lia) ltac:(intros; apply Sb; lia)) as E.
  assert (Ec : conductors m1 = conductors m /\ cells m1 = cells m /\ Zs_ m1 = Zs_ m /\ Zl_ m1 = Zl_ m) by (subst m1; auto).
  destruct Ec as (Q1 & Q2 & Q3 & Q4). rewrite Q1, Q2, Q3, Q4 in E.
  assert (K : forall mm (s : nat -> mtl NumR) ee r, (r < conductors m)%nat ->
     (forall far' c k, (c < conductors m)%nat -> drive mm far' c k = if Bool.eqb far' ee && (c =? r)%nat then e k else 0) ->
     sumR (conductors m) (fun c =>
        sumR (S j) (fun k => drive mm false c k * volt (s (j - k)%nat) c 0) / Zs_ m c c
      + sumR (S j) (fun k => drive mm true c k * volt (s (j - k)%nat) c (cells m)) / Zl_ m c c) =
     / end_Z m ee r * conv e (fun k => volt (s k) r (end_node m ee)) j).
  { intros mm s ee r Hr D.
    assert (W : forall far c, (c < conductors m)%nat -> sumR (S j) (fun k => drive mm far c k * volt (s (j - k)%nat) c (end_node m far)) =
                if Bool.eqb far ee && (c =? r)%nat then conv e (fun k => volt (s k) r (end_node m ee)) j else 0).
    { intros far c Hc. destruct (Bool.eqb far ee && (c =? r)%nat) eqn:B.
      - pose proof B as B'. apply andb_true_iff in B' as [B1 B2]. apply Bool.eqb_prop in B1. apply Nat.eqb_eq in B2. subst far c. apply rsum_ext. intros k Hk. now rewrite (D _ _ _ Hc), B.
      - transitivity (rsum (S j) (fun _ => 0)); [apply rsum_ext; intros k Hk; rewrite (D _ _ _ Hc), B; apply Rmult_0_l|rewrite rsum_const; apply Rmult_0_r]. }
    transitivity (rsum (conductors m) (fun c => (if Bool.eqb false ee && (c =? r)%nat then conv e (fun k => volt (s k) r (end_node m ee)) j else 0) / Zs_ m c c
        + (if Bool.eqb true ee && (c =? r)%nat then conv e (fun k => volt (s k) r (end_node m ee)) j else 0) / Zl_ m c c)).
    - apply rsum_ext. intros c Hc. exact (f_equal2 Rplus (f_equal (fun x => x / Zs_ m c c) (W false c Hc)) (f_equal (fun x => x / Zl_ m c c) (W true c Hc))).
    - rewrite (rsum_one _ r); auto.
      + rewrite Nat.eqb_refl. destruct ee; cbn [Bool.eqb andb end_Z]; unfold Rdiv; rsimpl; rty; ring.
      + intros i Hi Hne. apply Nat.eqb_neq in Hne. rewrite Hne, !andb_false_r. unfold Rdiv. rsimpl. rty. ring. }
  rewrite (K m1 sb e1 p Hp D1), (K m2 sa e2 q Hq D2) in E. rewrite E. unfold e. ring.
Qed.
End Recip.
