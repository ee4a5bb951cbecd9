(** The step equations, stated with the line on which run_until was called. *)
From Coq Require Import String List Arith ZArith Bool Lia Reals Lra.
From Verif Require Import Num Py Arr ArrFacts NumR RFacts Probes Dispersive Line LineFacts
  SpecLine SpecR HistoryFacts LineEqFacts TermFacts PlainFacts.
Import ListNotations.
Local Open Scope R_scope.

Section RunEq.
Variable LA : lapack NumR.
Implicit Types (m a b : mtl NumR).

Lemma steps_time j : forall m a, shape m -> iterM j mtl_step m = Ok a -> m_time a = m_time m + INR j * step_dt m.
Proof.
  induction j as [|j IH]; intros m a Sh H; simpl in H.
  - injection H as <-. cbn [INR]. unfold step_dt. symmetry. apply (eq_trans (f_equal (Rplus _) (Rmult_0_l _))). apply Rplus_0_r.
  - inv_bind H. pose proof (mtl_step_time m a0 (sh_N _ Sh) Ha) as E.
    pose proof (mtl_step_same m a0 (sh_N _ Sh) Ha) as S.
    destruct (shape_step _ _ Sh Ha) as [Sh' _].
    rewrite (IH _ _ Sh' H), E. unfold step_dt. rewrite (ss_dt _ _ (sl_core _ _ S)). rewrite S_INR. rsimpl. ring.
Qed.
Lemma run_time m T k a : shape m -> run_state LA m T k a -> m_time a = m_time m + INR k * step_dt m.
Proof.
  intros Sh (steps & p & _ & _ & Hp & Hi). destruct (shape_prepare LA _ _ _ Sh Hp) as [Sp _].
  rewrite (steps_time _ _ _ Sp Hi). apply prepare_inv in Hp as (t1 & t2 & _ & ->). reflexivity.
Qed.

(** rewriting the observables of a run's state into those of the line it started from *)
Lemma rs_cond m a : run_same m a -> conductors a = conductors m. Proof. apply rs_n. Qed.
Lemma rs_cells m a : run_same m a -> cells a = cells m. Proof. apply rs_N. Qed.
Lemma rs_width m a k : run_same m a -> width a k = width m k.
Proof. intros S. unfold width, cells, cell_len. now rewrite (rs_N _ _ S), (rs_h _ _ S). Qed.
Lemma rs_len m a k : run_same m a -> cell_len a k = cell_len m k.
Proof. intros S. unfold cell_len. now rewrite (rs_h _ _ S). Qed.
Lemma rs_L m a : run_same m a -> L_ a = L_ m. Proof. intros S. unfold L_. now rewrite (rs_l _ _ S). Qed.
Lemma rs_R m a : run_same m a -> R_ a = R_ m. Proof. intros S. unfold R_. now rewrite (rs_r _ _ S). Qed.
Lemma rs_C m a : run_same m a -> C_ a = C_ m. Proof. intros S. unfold C_. now rewrite (rs_c _ _ S). Qed.
Lemma rs_G m a : run_same m a -> G_ a = G_ m. Proof. intros S. unfold G_. now rewrite (rs_g _ _ S). Qed.
Lemma rs_sdt m a : run_same m a -> step_dt a = step_dt m. Proof. apply rs_dt. Qed.
Lemma rs_eTran m a : run_same m a -> eTran a = eTran m. Proof. intros S. unfold eTran. now rewrite (rs_eT _ _ S). Qed.
Lemma rs_eLong m a : run_same m a -> eLong a = eLong m. Proof. intros S. unfold eLong. now rewrite (rs_eL _ _ S). Qed.
Lemma rs_source m a : run_same m a -> source a = source m. Proof. intros S. unfold source. now rewrite (rs_vsrc _ _ S). Qed.
Lemma rs_Zs m a : run_same m a -> Zs_ a = Zs_ m. Proof. intros S. unfold Zs_. now rewrite (rs_zs _ _ S). Qed.
Lemma rs_Zl m a : run_same m a -> Zl_ a = Zl_ m. Proof. intros S. unfold Zl_. now rewrite (rs_zl _ _ S). Qed.
Lemma rs_D m a : run_same m a -> D_ a = D_ m. Proof. intros S. unfold D_. now rewrite (sd_d _ _ (rs_disp _ _ S)). Qed.
Lemma rs_E m a : run_same m a -> E_ a = E_ m. Proof. intros S. unfold E_. now rewrite (sd_e _ _ (rs_disp _ _ S)). Qed.
Lemma rs_Q1 m a : run_same m a -> Q1_ a = Q1_ m. Proof. intros S. unfold Q1_. now rewrite (sd_q1s _ _ (rs_disp _ _ S)). Qed.
Lemma rs_Q2 m a : run_same m a -> Q2_ a = Q2_ m. Proof. intros S. unfold Q2_. now rewrite (sd_q2s _ _ (rs_disp _ _ S)). Qed.

Hypothesis LAok : lapack_ok LA.

Lemma voltage_eq m T k a b c j : reachable LA m -> run_step LA m T k a b ->
  (c < conductors m)%nat -> (0 < j)%nat -> (j < cells m)%nat ->
  let n := conductors m in let dt := step_dt m in let t := m_time m + INR k * dt in
  let de p := eTran m p j t - eTran m p j (t - dt) in
  width m j * (mulv n (C_ m j) (fun p => volt b p j - volt a p j + de p) c / dt
             + mulv n (G_ m j) (fun p => volt b p j + volt a p j + de p) c / 2)
  + curr a c j - curr a c (j - 1) = 0.
Proof.
  intros HR H Hc Hj0 Hj n dt t de.
  destruct (run_step_states LA _ _ _ _ _ H) as [Ha _].
  destruct (run_state_inv LA _ _ _ _ (reachable_shape LA _ HR) Ha) as (Sh & _ & S & _ & Hcg).
  destruct H as (st & p & _ & _ & _ & _ & Hst).
  pose proof (voltage_eq_step LA LAok a b c j Sh Hcg Hst) as E. cbv zeta in E.
  rewrite (run_time _ _ _ _ (reachable_shape LA _ HR) Ha) in E.
  rewrite (rs_cond _ _ S), (rs_cells _ _ S), (rs_width _ _ _ S), (rs_C _ _ S), (rs_G _ _ S), (rs_sdt _ _ S), (rs_eTran _ _ S) in E.
  exact (E Hc Hj0 Hj).
Qed.

Lemma current_eq m T k a b c j : reachable LA m -> run_step LA m T k a b ->
  (c < conductors m)%nat -> (j < cells m)%nat ->
  let n := conductors m in let dt := step_dt m in let t := m_time m + INR k * dt in
  cell_len m j *
    (mulv n (L_ m j) (fun p => curr b p j - curr a p j) c / dt
     + mulv n (R_ m j) (fun p => curr b p j + curr a p j) c / 2
     + mulv n (D_ m j) (fun p => curr b p j + curr a p j) c / 2
     + mulv n (E_ m j) (fun p => curr b p j - curr a p j) c / dt
     + mulv n (Q1_ m j) (fun p => curr b p j) c
     + mulv n (Q2_ m j) (fun p => curr a p j) c
     + hist_ b j c)
  + (volt b c (S j) - volt b c j) + (eTran m c (S j) t - eTran m c j t)
  = cell_len m j * (eLong m c j (t + dt / 2) + eLong m c j (t - dt / 2)) / 2.
Proof.
  intros HR H Hc Hj n dt t.
  destruct (run_step_states LA _ _ _ _ _ H) as [Ha _].
  destruct (run_state_inv LA _ _ _ _ (reachable_shape LA _ HR) Ha) as (Sh & _ & S & Hlr & _).
  destruct H as (st & p & _ & _ & _ & _ & Hst).
  pose proof (current_eq_step LA LAok a b c j Sh Hlr Hst) as E. cbv zeta in E.
  rewrite (run_time _ _ _ _ (reachable_shape LA _ HR) Ha) in E.
  rewrite (rs_cond _ _ S), (rs_cells _ _ S), (rs_len _ _ _ S), (rs_L _ _ S), (rs_R _ _ S), (rs_sdt _ _ S), (rs_eTran _ _ S),
    (rs_eLong _ _ S), (rs_D _ _ S), (rs_E _ _ S), (rs_Q1 _ _ S), (rs_Q2 _ _ S) in E.
  exact (E Hc Hj).
Qed.

Lemma mulv_zero n (A : nat -> nat -> R) x c : (forall i j, A i j = 0) -> mulv n A x c = 0.
Proof. intros H. apply sumR_zero. intros k Hk. rewrite H. rring. Qed.

Lemma current_eq_plain m T k a b c j : reachable LA m -> undispersed m -> run_step LA m T k a b ->
  (c < conductors m)%nat -> (j < cells m)%nat ->
  let n := conductors m in let dt := step_dt m in let t := m_time m + INR k * dt in
  cell_len m j *
    (mulv n (L_ m j) (fun p => curr b p j - curr a p j) c / dt
     + mulv n (R_ m j) (fun p => curr b p j + curr a p j) c / 2)
  + (volt b c (S j) - volt b c j) + (eTran m c (S j) t - eTran m c j t)
  = cell_len m j * (eLong m c j (t + dt / 2) + eLong m c j (t - dt / 2)) / 2.
Proof.
  intros HR U H Hc Hj n dt t. pose proof (current_eq m T k a b c j HR H Hc Hj) as E. cbv zeta in E.
  destruct (run_step_states LA _ _ _ _ _ H) as [Ha _].
  pose proof (undispersed_run LA m T k a (reachable_shape LA _ HR) U Ha) as Ua.
  destruct (run_state_inv LA _ _ _ _ (reachable_shape LA _ HR) Ha) as (Sh & _).
  destruct H as (st & p & _ & _ & _ & _ & Hst).
  destruct (undispersed_step a b Sh Ua Hst) as (_ & _ & Hh). rewrite Hh in E.
  destruct U as (u & d0 & U).
  rewrite (mulv_zero _ (D_ m j)), (mulv_zero _ (E_ m j)), (mulv_zero _ (Q1_ m j)), (mulv_zero _ (Q2_ m j)) in E.
  2-5: intros i i'; unfold D_, E_, Q1_, Q2_; rewrite U; cbn [ds_d ds_e ds_q1sum ds_q2sum disp_new];
       unfold get3, zeros3, getm; destruct (Nat.lt_ge_cases j (cells m));
       [rewrite nth_mk by auto; apply (@get2_zeros NumR)|lia].
  subst t dt n. unfold Rdiv in *. rewrite !Rmult_0_l, !Rplus_0_r in E. exact E.
Qed.

Lemma left_terminal m0 m T k a b c : history LA m0 m -> run_step LA m T k a b ->
  (c < conductors m)%nat ->
  let n := conductors m in let dt := step_dt m in let t := m_time m + INR k * dt in
  cell_len m 0 * (mulv n (Zs_ m) (mulv n (C_ m 0) (fun p => volt b p 0 - volt a p 0)) c / step_dt m0
                + mulv n (Zs_ m) (mulv n (G_ m0 0) (fun p => volt b p 0 + volt a p 0)) c / 2)
  + volt b c 0 + volt a c 0
  = (source m c 0 t + source m c 0 (t - dt)) - 2 * mulv n (Zs_ m) (fun q => curr a q 0) c
    - cell_len m 0 / dt * mulv n (Zs_ m) (mulv n (C_ m 0) (fun p => eTran m p 0 t - eTran m p 0 (t - dt))) c.
Proof.
  intros HH H Hc n dt t. pose proof (history_shape LA _ _ HH) as [Shm K].
  destruct (run_step_states LA _ _ _ _ _ H) as [Ha _].
  destruct (run_state_inv LA _ _ _ _ Shm Ha) as (Sh & K2 & S & _ & _).
  destruct H as (st & p & _ & _ & _ & _ & Hst).
  pose proof (left_eq LA LAok m0 a b (history_built LA _ _ HH) Sh (kept_trans _ _ _ K K2) Hst c) as E. cbv zeta in E.
  rewrite (run_time _ _ _ _ Shm Ha) in E.
  rewrite (rs_cond _ _ S), (rs_len _ _ _ S), (rs_C _ _ S), (rs_sdt _ _ S), (rs_eTran _ _ S), (rs_source _ _ S), (rs_Zs _ _ S) in E.
  exact (E Hc).
Qed.

Lemma right_terminal m0 m T k a b c : history LA m0 m -> run_step LA m T k a b ->
  (c < conductors m)%nat ->
  let n := conductors m in let dt := step_dt m in let t := m_time m + INR k * dt in let e := cells m in
  cell_len m (e - 1) * (mulv n (Zl_ m) (mulv n (C_ m e) (fun p => volt b p e - volt a p e)) c / step_dt m0
                + mulv n (Zl_ m) (mulv n (G_ m0 e) (fun p => volt b p e + volt a p e)) c / 2)
  + volt b c e + volt a c e
  = (source m c e t + source m c e (t - dt)) + 2 * mulv n (Zl_ m) (fun q => curr a q (e - 1)) c
    - cell_len m (e - 1) / dt * mulv n (Zl_ m) (mulv n (C_ m e) (fun p => eTran m p e t - eTran m p e (t - dt))) c.
Proof.
  intros HH H Hc n dt t e. pose proof (history_shape LA _ _ HH) as [Shm K].
  destruct (run_step_states LA _ _ _ _ _ H) as [Ha _].
  destruct (run_state_inv LA _ _ _ _ Shm Ha) as (Sh & K2 & S & _ & _).
  destruct H as (st & p & _ & _ & _ & _ & Hst).
  pose proof (right_eq LA LAok m0 a b (history_built LA _ _ HH) Sh (kept_trans _ _ _ K K2) Hst c) as E. cbv zeta in E.
  rewrite (run_time _ _ _ _ Shm Ha) in E.
  rewrite (rs_cond _ _ S), (rs_cells _ _ S), (rs_len _ _ _ S), (rs_C _ _ S), (rs_sdt _ _ S), (rs_eTran _ _ S), (rs_source _ _ S), (rs_Zl _ _ S) in E.
  exact (E Hc).
Qed.

(** the textbook form, when the time step and the terminal conductance are those of the constructor *)
Lemma mulv_add n A x y c : mulv n A (fun p => x p + y p) c = mulv n A x c + mulv n A y c.
Proof. unfold mulv. rewrite <- sumR_plus. apply sumR_ext; intros; rring. Qed.
Lemma mulv_ext n A x y c : (forall p, (p < n)%nat -> x p = y p) -> mulv n A x c = mulv n A y c.
Proof. intros H. apply sumR_ext; intros p Hp. now rewrite H. Qed.
Lemma mulv_ext2 n A B x y c : (forall p, (p < n)%nat -> A c p = B c p) -> (forall p, (p < n)%nat -> x p = y p) ->
  mulv n A x c = mulv n B y c.
Proof. intros HA H. apply sumR_ext; intros p Hp. now rewrite HA, H. Qed.

Lemma thevenin_form n Z C G h dt v v' de src (i : nat -> R) c :
  h * (mulv n Z (mulv n C (fun p => v' p - v p)) c / dt + mulv n Z (mulv n G (fun p => v' p + v p)) c / 2)
  + v' c + v c = src c - 2 * mulv n Z i c - h / dt * mulv n Z (mulv n C de) c ->
  thevenin n Z C G h dt v v' de src i c.
Proof.
  intros E. unfold thevenin.
  rewrite (mulv_ext n Z _ (fun q => (mulv n C (fun p => v' p - v p) q / dt + mulv n C de q / dt) + mulv n G (fun p => v' p + v p) q / 2)).
  2:{ intros q Hq. rewrite (mulv_add n C (fun p => v' p - v p) de). unfold Rdiv. ring. }
  rewrite !mulv_add.
  assert (F : forall x s, mulv n Z (fun q => x q / s) c = mulv n Z x c / s).
  { intros x s. unfold mulv. rewrite <- sumR_div. apply sumR_ext; intros. unfold Rdiv. rring. }
  rewrite !F. unfold Rdiv in *. nra.
Qed.

End RunEq.
