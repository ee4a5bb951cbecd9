(** One step of a line is the only solution of its equations; symmetries follow. *)
From Coq Require Import String List Arith ZArith Bool Lia Reals Lra.
From Verif Require Import Num Py Arr ArrFacts NumR RFacts LinAlg Probes Dispersive Line LineFacts SpecLine SpecR HistoryFacts LineEqFacts
  PlainFacts TotalFacts TermFacts RunEqFacts EnergyFacts.
Import ListNotations.
Local Open Scope R_scope.

(** [v'], [i'] follow [v], [i] at time [t] on the line [m] (built as [m0]) *)
Definition node_ok (m : mtl NumR) (t : R) (v i v' : nat -> nat -> R) (c j : nat) : Prop :=
  let n := conductors m in let dt := step_dt m in
  let de p := eTran m p j t - eTran m p j (t - dt) in
  width m j * (mulv n (C_ m j) (fun p => v' p j - v p j + de p) c / dt
             + mulv n (G_ m j) (fun p => v' p j + v p j + de p) c / 2) + i c j - i c (j - 1)%nat = 0.
Definition cell_ok (m : mtl NumR) (t : R) (v' i i' : nat -> nat -> R) (c j : nat) : Prop :=
  let n := conductors m in let dt := step_dt m in
  cell_len m j * (mulv n (L_ m j) (fun p => i' p j - i p j) c / dt + mulv n (R_ m j) (fun p => i' p j + i p j) c / 2)
  + (v' c (S j) - v' c j) + (eTran m c (S j) t - eTran m c j t)
  = cell_len m j * (eLong m c j (t + dt / 2) + eLong m c j (t - dt / 2)) / 2.
(** [e] the end node, [q] its cell, [sg] the sign of the current that enters the line *)
Definition end_ok (m0 m : mtl NumR) (Z : nat -> nat -> R) (t : R) (v i v' : nat -> nat -> R) (e q : nat) (sg : R) (c : nat) : Prop :=
  let n := conductors m in let dt := step_dt m in
  cell_len m q * (mulv n Z (mulv n (C_ m e) (fun p => v' p e - v p e)) c / step_dt m0
                + mulv n Z (mulv n (G_ m0 e) (fun p => v' p e + v p e)) c / 2) + v' c e + v c e
  = (source m c e t + source m c e (t - dt)) - sg * (2 * mulv n Z (fun p => i p q) c)
    - cell_len m q / dt * mulv n Z (mulv n (C_ m e) (fun p => eTran m p e t - eTran m p e (t - dt))) c.
Definition follows (m0 m : mtl NumR) (t : R) (v i v' i' : nat -> nat -> R) : Prop :=
  let n := conductors m in let N := cells m in
  (forall c j, (c < n)%nat -> (0 < j < N)%nat -> node_ok m t v i v' c j) /\
  (forall c j, (c < n)%nat -> (j < N)%nat -> cell_ok m t v' i i' c j) /\
  (forall c, (c < n)%nat -> end_ok m0 m (Zs_ m) t v i v' 0 0 1 c) /\
  (forall c, (c < n)%nat -> end_ok m0 m (Zl_ m) t v i v' N (N - 1) (-1) c).

Section Sym.
Variable LA : lapack NumR.
Hypothesis LAok : lapack_ok LA.

Lemma step_follows (m0 m : mtl NumR) T k a b : history LA m0 m -> undispersed m -> run_step LA m T k a b ->
  follows m0 m (m_time m + INR k * step_dt m) (volt a) (curr a) (volt b) (curr b).
Proof.
  intros HH U H. assert (HR : reachable LA m) by (exists m0; auto). split; [|split; [|split]].
  - intros c j Hc Hj. apply (voltage_eq LA LAok m T k a b c j HR H Hc); lia.
  - intros c j Hc Hj. apply (current_eq_plain LA LAok m T k a b c j HR U H Hc Hj).
  - intros c Hc. pose proof (left_terminal LA LAok m0 m T k a b c HH H Hc) as E. cbv zeta in E. unfold end_ok. cbv zeta. rewrite Rmult_1_l. exact E.
  - intros c Hc. pose proof (right_terminal LA LAok m0 m T k a b c HH H Hc) as E. cbv zeta in E. unfold end_ok. cbv zeta. rsimpl. lra.
Qed.

(** ** the equations have one solution *)
Lemma inverse_kernel n (A B : mat NumR) (M : nat -> nat -> R) x : is_inverse n A B ->
  (forall i j, (i < n)%nat -> (j < n)%nat -> get2 A i j = M i j) ->
  (forall i, (i < n)%nat -> mulv n M x i = 0) -> forall i, (i < n)%nat -> x i = 0.
Proof.
  intros HI E H i Hi. apply (inverse_inj n A B x (fun _ => 0) HI); auto.
  intros j Hj. transitivity 0.
  - rewrite <- (H j Hj). apply sumR_ext. intros p Hp. now rewrite E.
  - symmetry. apply sumR_zero. intros. rring.
Qed.
Lemma mulv_mat_add n A B x c : mulv n (fun i j => A i j + B i j) x c = mulv n A x c + mulv n B x c.
Proof. unfold mulv. rewrite <- sumR_plus. apply sumR_ext; intros; rring. Qed.
Lemma mulv_mat_scal n s A x c : mulv n (fun i j => s * A i j) x c = s * mulv n A x c.
Proof. unfold mulv. rewrite <- sumR_scal. apply sumR_ext; intros; rring. Qed.
Lemma mulv_mat_mul n A B x c : mulv n (fun i j => sumR n (fun k => A i k * B k j)) x c = mulv n A (mulv n B x) c.
Proof. unfold mulv. apply sumR_assoc. Qed.

Lemma node_regular (m : mtl NumR) T k a j d : reachable LA m -> run_state LA m T k a -> (0 < j < cells m)%nat ->
  (forall c, (c < conductors m)%nat -> width m j * (mulv (conductors m) (C_ m j) d c / step_dt m + mulv (conductors m) (G_ m j) d c / 2) = 0) ->
  forall c, (c < conductors m)%nat -> d c = 0.
Proof.
  intros HR Ha Hj H. destruct (run_state_inv LA _ _ _ _ (reachable_shape LA _ HR) Ha) as (Sh & _ & S & _ & Hcg).
  destruct (cg_ready_inv LA _ Hcg) as (vt & idf & Ecg & Hinv & Hvt).
  pose proof (rs_cond _ _ S) as Ec. pose proof (rs_cells _ _ S) as EN.
  assert (Hi : is_inverse (conductors m) (cg_F1 (m_core a) j) (getm idf j)).
  { rewrite <- Ec. apply (inv_ok LA LAok), Hinv. fold (cells a). rewrite EN. lia. }
  apply (inverse_kernel _ _ _ (fun i p => width m j * (/ step_dt m * C_ m j i p + / 2 * G_ m j i p)) d Hi).
  - intros i p Hi' Hp. rewrite cg_F1_get by (auto; rewrite ?Ec, ?EN; auto; lia).
    rewrite (rs_width _ _ _ S), (rs_C _ _ S), (rs_G _ _ S), (rs_sdt _ _ S). unfold Rdiv. rring.
  - intros i Hi'. rewrite mulv_mat_scal, mulv_mat_add, !mulv_mat_scal. rewrite <- (H i Hi'). unfold Rdiv. rring.
Qed.
Lemma cell_regular (m : mtl NumR) T k a j d : reachable LA m -> undispersed m -> run_state LA m T k a -> (j < cells m)%nat ->
  (forall c, (c < conductors m)%nat -> cell_len m j * (mulv (conductors m) (L_ m j) d c / step_dt m + mulv (conductors m) (R_ m j) d c / 2) = 0) ->
  forall c, (c < conductors m)%nat -> d c = 0.
Proof.
  intros HR U Ha Hj H. destruct (run_state_inv LA _ _ _ _ (reachable_shape LA _ HR) Ha) as (Sh & _ & S & Hlr & _).
  destruct (lr_ready_inv LA _ Hlr) as (it & vd & Elr & Hinv & Hit).
  pose proof (rs_cond _ _ S) as Ec. pose proof (rs_cells _ _ S) as EN.
  assert (Hi : is_inverse (conductors m) (lr_F1 (m_core a) j) (getm vd j)).
  { rewrite <- Ec. apply (inv_ok LA LAok), Hinv. fold (cells a). rewrite EN. lia. }
  apply (inverse_kernel _ _ _ (fun i p => cell_len m j * (/ step_dt m * L_ m j i p + / 2 * R_ m j i p)) d Hi).
  - intros i p Hi' Hp. rewrite lr_F1_get by (auto; rewrite ?Ec, ?EN; auto; lia).
    rewrite (rs_len _ _ _ S), (rs_L _ _ S), (rs_R _ _ S), (rs_sdt _ _ S), (rs_D _ _ S), (rs_E _ _ S), (rs_Q1 _ _ S).
    destruct (undispersed_zero m j i p U) as (E1 & E2 & E3 & E4). rewrite E1, E2, E3. unfold Rdiv. rring.
  - intros i Hi'. rewrite mulv_mat_scal, mulv_mat_add, !mulv_mat_scal. rewrite <- (H i Hi'). unfold Rdiv. rring.
Qed.
Lemma port_regular n (z c0 g0 : mat NumR) (h dt0 : R) t1 t2 d : port_terms LA n z c0 g0 h dt0 = Ok (t1, t2) ->
  (forall c, (c < n)%nat -> h * (mulv n (get2 z) (mulv n (get2 c0) d) c / dt0 + mulv n (get2 z) (mulv n (get2 g0) d) c / 2) + d c = 0) ->
  forall c, (c < n)%nat -> d c = 0.
Proof.
  intros HP H. unfold port_terms in HP. inv_bind HP. rename a into A. injection HP as Et1 Et2.
  unfold inv, of_option in Ha. destruct (la_inv LA n _) as [A'|] eqn:EI in Ha; [|discriminate].
  injection Ha as ->. apply (inv_ok LA LAok) in EI.
  apply (inverse_kernel _ _ _ (fun i p => (h / dt0) * sumR n (fun k => get2 z i k * get2 c0 k p) + (h / 2) * sumR n (fun k => get2 z i k * get2 g0 k p) + @delta NumR i p) d EI).
  - intros i j Hi Hj. rewrite !get2_madd, !get2_mdivs, !get2_mscal, !get2_mm, get2_eye by auto. rsimpl. unfold Rdiv. ring.
  - intros i Hi. rewrite (mulv_mat_add n (fun i p => h / dt0 * sumR n (fun k => get2 z i k * get2 c0 k p) + h / 2 * sumR n (fun k => get2 z i k * get2 g0 k p)) (@delta NumR)).
    rewrite mulv_mat_add, !mulv_mat_scal, !mulv_mat_mul.
    replace (mulv n (@delta NumR) d i) with (d i) by (symmetry; apply (sumR_delta_l n d i Hi)).
    rewrite <- (H i Hi). unfold Rdiv. rring.
Qed.
Lemma ends_regular (m0 m : mtl NumR) d : history LA m0 m ->
  let n := conductors m in
  ((forall c, (c < n)%nat -> cell_len m 0 * (mulv n (Zs_ m) (mulv n (C_ m 0) d) c / step_dt m0 + mulv n (Zs_ m) (mulv n (G_ m0 0) d) c / 2) + d c = 0) ->
   forall c, (c < n)%nat -> d c = 0) /\
  ((forall c, (c < n)%nat -> cell_len m (cells m - 1) * (mulv n (Zl_ m) (mulv n (C_ m (cells m)) d) c / step_dt m0 + mulv n (Zl_ m) (mulv n (G_ m0 (cells m)) d) c / 2) + d c = 0) ->
   forall c, (c < n)%nat -> d c = 0).
Proof.
  intros HH n. destruct (built_ports LA m0 (history_built LA _ _ HH)) as [H1 H2]. destruct (history_shape LA _ _ HH) as [_ K].
  assert (En : conductors m = conductors m0) by exact (kp_n _ _ K). assert (EN : cells m = cells m0) by exact (kp_N _ _ K).
  unfold n, cell_len, Zs_, Zl_, C_. rewrite En, EN, (kp_h _ _ K), (kp_zs _ _ K), (kp_zl _ _ K), (kp_c _ _ K).
  split; intros H; [exact (port_regular _ _ _ _ _ _ _ _ d H1 H)|exact (port_regular _ _ _ _ _ _ _ _ d H2 H)].
Qed.

Lemma mulv_diff n A x y z c : mulv n A x c - mulv n A y c = mulv n A (fun p => x p - y p + z p - z p) c.
Proof. rewrite <- mulv_sub. apply mulv_ext. intros; rring. Qed.

Lemma follows_unique (m0 m : mtl NumR) T k a t v i v1 i1 v2 i2 : history LA m0 m -> undispersed m -> run_state LA m T k a ->
  follows m0 m t v i v1 i1 -> follows m0 m t v i v2 i2 ->
  (forall c j, (c < conductors m)%nat -> (j <= cells m)%nat -> v1 c j = v2 c j) /\
  (forall c j, (c < conductors m)%nat -> (j < cells m)%nat -> i1 c j = i2 c j).
Proof.
  intros HH U Ha (A1 & A2 & A3 & A4) (B1 & B2 & B3 & B4). assert (HR : reachable LA m) by (exists m0; auto).
  set (n := conductors m) in *. set (N := cells m) in *.
  assert (V : forall c j, (c < n)%nat -> (j <= N)%nat -> v1 c j = v2 c j).
  { intros c j Hc Hj. apply Rminus_diag_uniq.
    destruct (ends_regular m0 m (fun c => v1 c j - v2 c j) HH) as [RL RR]. cbv zeta in RL, RR. fold n N in RL, RR.
    destruct (Nat.eq_dec j 0) as [->|Hj0]; [|destruct (Nat.eq_dec j N) as [->|HjN]].
    - apply RL; auto. intros q Hq. specialize (A3 q Hq). specialize (B3 q Hq). unfold end_ok in A3, B3. cbv zeta in A3, B3. fold n in A3, B3.
      rewrite (mulv_ext n (Zs_ m) (mulv n (C_ m 0) (fun c0 => v1 c0 0%nat - v2 c0 0%nat)) (fun p => mulv n (C_ m 0) (fun p => v1 p 0%nat - v p 0%nat) p - mulv n (C_ m 0) (fun p => v2 p 0%nat - v p 0%nat) p)).
      2:{ intros p Hp. rewrite <- mulv_sub. apply mulv_ext. intros; rring. }
      rewrite (mulv_ext n (Zs_ m) (mulv n (G_ m0 0) (fun c0 => v1 c0 0%nat - v2 c0 0%nat)) (fun p => mulv n (G_ m0 0) (fun p => v1 p 0%nat + v p 0%nat) p - mulv n (G_ m0 0) (fun p => v2 p 0%nat + v p 0%nat) p)).
      2:{ intros p Hp. rewrite <- mulv_sub. apply mulv_ext. intros; rring. }
      rewrite !mulv_sub. unfold Rdiv in *. rsimpl. unfold Rdiv in *. nra.
    - apply RR; auto. intros q Hq. specialize (A4 q Hq). specialize (B4 q Hq). unfold end_ok in A4, B4. cbv zeta in A4, B4. fold n in A4, B4.
      rewrite (mulv_ext n (Zl_ m) (mulv n (C_ m N) (fun c0 => v1 c0 N - v2 c0 N)) (fun p => mulv n (C_ m N) (fun p => v1 p N - v p N) p - mulv n (C_ m N) (fun p => v2 p N - v p N) p)).
      2:{ intros p Hp. rewrite <- mulv_sub. apply mulv_ext. intros; rring. }
      rewrite (mulv_ext n (Zl_ m) (mulv n (G_ m0 N) (fun c0 => v1 c0 N - v2 c0 N)) (fun p => mulv n (G_ m0 N) (fun p => v1 p N + v p N) p - mulv n (G_ m0 N) (fun p => v2 p N + v p N) p)).
      2:{ intros p Hp. rewrite <- mulv_sub. apply mulv_ext. intros; rring. }
      rewrite !mulv_sub. unfold Rdiv in *. rsimpl. unfold Rdiv in *. nra.
    - apply (node_regular m T k a j (fun c => v1 c j - v2 c j) HR Ha ltac:(fold N; lia)); auto. fold n.
      intros q Hq. specialize (A1 q j Hq ltac:(lia)). specialize (B1 q j Hq ltac:(lia)). unfold node_ok in A1, B1. cbv zeta in A1, B1. fold n in A1, B1.
      set (de := fun p => eTran m p j t - eTran m p j (t - step_dt m)) in *.
      change (fun p => v1 p j - v p j + (eTran m p j t - eTran m p j (t - step_dt m))) with (fun p => v1 p j - v p j + de p) in A1.
      change (fun p => v1 p j + v p j + (eTran m p j t - eTran m p j (t - step_dt m))) with (fun p => v1 p j + v p j + de p) in A1.
      change (fun p => v2 p j - v p j + (eTran m p j t - eTran m p j (t - step_dt m))) with (fun p => v2 p j - v p j + de p) in B1.
      change (fun p => v2 p j + v p j + (eTran m p j t - eTran m p j (t - step_dt m))) with (fun p => v2 p j + v p j + de p) in B1.
      rewrite (mulv_ext n (C_ m j) _ (fun p => (v1 p j - v p j + de p) - (v2 p j - v p j + de p))) by (intros; rring).
      rewrite (mulv_ext n (G_ m j) (fun c0 => v1 c0 j - v2 c0 j) (fun p => (v1 p j + v p j + de p) - (v2 p j + v p j + de p))) by (intros; rring).
      rewrite !mulv_sub. unfold Rdiv in *. rsimpl. unfold Rdiv in *. nra. }
  split; auto. intros c j Hc Hj. apply Rminus_diag_uniq.
  apply (cell_regular m T k a j (fun c => i1 c j - i2 c j) HR U Ha Hj); auto. fold n.
  intros q Hq. specialize (A2 q j Hq Hj). specialize (B2 q j Hq Hj). unfold cell_ok in A2, B2. cbv zeta in A2, B2. fold n in A2, B2.
  rewrite (V q j), (V q (S j)) in A2 by (auto; lia).
  rewrite (mulv_ext n (L_ m j) _ (fun p => (i1 p j - i p j) - (i2 p j - i p j))) by (intros; rring).
  rewrite (mulv_ext n (R_ m j) (fun c0 => i1 c0 j - i2 c0 j) (fun p => (i1 p j + i p j) - (i2 p j + i p j))) by (intros; rring).
  rewrite !mulv_sub.
  match type of A2 with ?x = _ => match type of B2 with ?y = _ => transitivity (x - y); [rewrite !mulv_sub; unfold Rdiv; rring|rewrite A2, B2; apply Rminus_diag_eq; reflexivity] end end.
Qed.

Lemma follows_ext (m0 m : mtl NumR) t v i v' i' w j : (1 <= cells m)%nat ->
  (forall c k, (c < conductors m)%nat -> (k <= cells m)%nat -> w c k = v c k) ->
  (forall c k, (c < conductors m)%nat -> (k < cells m)%nat -> j c k = i c k) ->
  follows m0 m t v i v' i' -> follows m0 m t w j v' i'.
Proof.
  intros N1 W J (A1 & A2 & A3 & A4). split; [|split; [|split]].
  - intros c k Hc Hk. specialize (A1 c k Hc Hk). unfold node_ok in *. cbv zeta in *.
    rewrite !J by (auto; lia).
    rewrite (mulv_ext _ (C_ m k) _ (fun p => v' p k - v p k + (eTran m p k t - eTran m p k (t - step_dt m)))) by (intros; now rewrite W by (auto; lia)).
    rewrite (mulv_ext _ (G_ m k) _ (fun p => v' p k + v p k + (eTran m p k t - eTran m p k (t - step_dt m)))) by (intros; now rewrite W by (auto; lia)).
    exact A1.
  - intros c k Hc Hk. specialize (A2 c k Hc Hk). unfold cell_ok in *. cbv zeta in *.
    rewrite (mulv_ext _ (L_ m k) _ (fun p => i' p k - i p k)) by (intros; now rewrite J by (auto; lia)).
    rewrite (mulv_ext _ (R_ m k) _ (fun p => i' p k + i p k)) by (intros; now rewrite J by (auto; lia)).
    exact A2.
  - intros c Hc. specialize (A3 c Hc). unfold end_ok in *. cbv zeta in *. rewrite W by (auto; lia).
    rewrite (mulv_ext _ (Zs_ m) (fun p => j p 0%nat) (fun p => i p 0%nat)) by (intros; now rewrite J by (auto; lia)).
    rewrite (mulv_ext _ (Zs_ m) (mulv _ (C_ m 0) (fun p => v' p 0%nat - w p 0%nat)) (mulv (conductors m) (C_ m 0) (fun p => v' p 0%nat - v p 0%nat))) by (intros; apply mulv_ext; intros; now rewrite W by (auto; lia)).
    rewrite (mulv_ext _ (Zs_ m) (mulv _ (G_ m0 0) (fun p => v' p 0%nat + w p 0%nat)) (mulv (conductors m) (G_ m0 0) (fun p => v' p 0%nat + v p 0%nat))) by (intros; apply mulv_ext; intros; now rewrite W by (auto; lia)).
    exact A3.
  - intros c Hc. specialize (A4 c Hc). unfold end_ok in *. cbv zeta in *. set (N := cells m) in *. rewrite W by (auto; lia).
    rewrite (mulv_ext _ (Zl_ m) (fun p => j p (N - 1)%nat) (fun p => i p (N - 1)%nat)) by (intros; now rewrite J by (auto; lia)).
    rewrite (mulv_ext _ (Zl_ m) (mulv _ (C_ m N) (fun p => v' p N - w p N)) (mulv (conductors m) (C_ m N) (fun p => v' p N - v p N))) by (intros; apply mulv_ext; intros; now rewrite W by (auto; lia)).
    rewrite (mulv_ext _ (Zl_ m) (mulv _ (G_ m0 N) (fun p => v' p N + w p N)) (mulv (conductors m) (G_ m0 N) (fun p => v' p N + v p N))) by (intros; apply mulv_ext; intros; now rewrite W by (auto; lia)).
    exact A4.
Qed.

(** A map of states that carries solutions of [m] to solutions of [m'] carries runs to runs. *)
Lemma related_runs (m0 m m0' m' : mtl NumR) T T' (phi psi : (nat -> nat -> R) -> nat -> nat -> R) :
  history LA m0 m -> undispersed m -> history LA m0' m' -> undispersed m' -> step_dt m' = step_dt m -> m_time m' = m_time m ->
  (forall t v i v' i', follows m0 m t v i v' i' -> follows m0' m' t (phi v) (psi i) (phi v') (psi i')) ->
  (forall v w : nat -> nat -> R, (forall c k, w c k = v c k) -> forall c k, phi w c k = phi v c k) ->
  (forall v w : nat -> nat -> R, (forall c k, w c k = v c k) -> forall c k, psi w c k = psi v c k) ->
  (forall c k, (c < conductors m')%nat -> (k <= cells m')%nat -> volt m' c k = phi (volt m) c k) ->
  (forall c k, (c < conductors m')%nat -> (k < cells m')%nat -> curr m' c k = psi (curr m) c k) ->
  forall n a a', run_state LA m T n a -> run_state LA m' T' n a' ->
  (forall c k, (c < conductors m')%nat -> (k <= cells m')%nat -> volt a' c k = phi (volt a) c k) /\
  (forall c k, (c < conductors m')%nat -> (k < cells m')%nat -> curr a' c k = psi (curr a) c k).
Proof.
  intros HH U HH' U' Edt Et F Ephi Epsi V0 I0.
  assert (HR : reachable LA m) by (exists m0; auto). assert (HR' : reachable LA m') by (exists m0'; auto).
  induction n as [|n IH]; intros b b' Hb Hb'.
  - destruct (run_state_0 LA m T b HR Hb) as [V I]. destruct (run_state_0 LA m' T' b' HR' Hb') as [V' I'].
    split; intros c k Hc Hk.
    + rewrite V', V0 by auto. symmetry. now apply Ephi.
    + rewrite I', I0 by auto. symmetry. now apply Epsi.
  - assert (exists a, run_step LA m T n a b) as [a Hab].
    { destruct Hb as (st & p & H1 & H2 & H3 & H4). rewrite iterM_S in H4. inv_bind H4. exists a, st, p. repeat split; auto; lia. }
    assert (exists a, run_step LA m' T' n a b') as [a' Hab'].
    { destruct Hb' as (st & p & H1 & H2 & H3 & H4). rewrite iterM_S in H4. inv_bind H4. exists a0, st, p. repeat split; auto; lia. }
    destruct (run_step_states LA _ _ _ _ _ Hab) as [Ha _]. destruct (run_step_states LA _ _ _ _ _ Hab') as [Ha' _].
    destruct (IH a a' Ha Ha') as [V I].
    pose proof (step_follows m0 m T n a b HH U Hab) as S1. apply F in S1.
    pose proof (step_follows m0' m' T' n a' b' HH' U' Hab') as S2. rewrite Edt, Et in S2.
    apply (follows_unique m0' m' T' n a' (m_time m + INR n * step_dt m) (volt a') (curr a') _ _ _ _ HH' U' Ha' S2).
    apply (follows_ext m0' m' _ (phi (volt a)) (psi (curr a))); auto. apply (sh_N _ (reachable_shape LA _ HR')).
Qed.
End Sym.
