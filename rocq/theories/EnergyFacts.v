(** Energy balance of the scheme. *)
From Coq Require Import String List Arith ZArith Bool Lia Reals Lra.
From Verif Require Import Num Py Arr ArrFacts NumR RFacts LapackR LinAlg Probes Dispersive Line LineFacts SpecLine SpecR SpecDyn SpecEnergy HistoryFacts
  NearestFacts TotalFacts RunEqFacts StepProps ExampleLine RunProps BounceFacts.
Import ListNotations.
Local Open Scope R_scope.

(** ** scalar products *)
Lemma dot_ext n x y x' y' : (forall c, (c < n)%nat -> x c = x' c) -> (forall c, (c < n)%nat -> y c = y' c) -> dot n x y = dot n x' y'.
Proof. intros H H'. apply sumR_ext. intros c Hc. now rewrite H, H'. Qed.
Lemma dot_comm n x y : dot n x y = dot n y x.
Proof. apply sumR_ext. intros; rring. Qed.
Lemma dot_add_l n x y z : dot n (fun c => x c + y c) z = dot n x z + dot n y z.
Proof. unfold dot. rewrite <- sumR_plus. apply sumR_ext; intros; rring. Qed.
Lemma dot_sub_l n x y z : dot n (fun c => x c - y c) z = dot n x z - dot n y z.
Proof. unfold dot. rewrite <- sumR_minus. apply sumR_ext; intros; rring. Qed.
Lemma dot_scal_l n a x z : dot n (fun c => a * x c) z = a * dot n x z.
Proof. unfold dot. rewrite <- sumR_scal. apply sumR_ext; intros; rring. Qed.
Lemma dot_add_r n x y z : dot n z (fun c => x c + y c) = dot n z x + dot n z y.
Proof. rewrite !(dot_comm n z). apply dot_add_l. Qed.
Lemma dot_sub_r n x y z : dot n z (fun c => x c - y c) = dot n z x - dot n z y.
Proof. rewrite !(dot_comm n z). apply dot_sub_l. Qed.
Lemma dot_scal_r n a x z : dot n z (fun c => a * x c) = a * dot n z x.
Proof. rewrite !(dot_comm n z). apply dot_scal_l. Qed.
Lemma quad_dot n A x : quad n A x = dot n x (mulv n A x).
Proof. reflexivity. Qed.
Lemma mulv_scal n A a x c : mulv n A (fun p => a * x p) c = a * mulv n A x c.
Proof. unfold mulv. rewrite <- sumR_scal. apply sumR_ext; intros; rring. Qed.
Lemma mulv_sub n A x y c : mulv n A (fun p => x p - y p) c = mulv n A x c - mulv n A y c.
Proof. unfold mulv. rewrite <- sumR_minus. apply sumR_ext; intros; rring. Qed.
Lemma dot_mulv_symm n A x y : symm n A -> dot n x (mulv n A y) = dot n y (mulv n A x).
Proof.
  intros S. unfold dot, mulv.
  rewrite (sumR_ext n _ (fun i => sumR n (fun j => x i * (A i j * y j)))) by (intros; rewrite sumR_scal; rring).
  rewrite sumR_swap. apply sumR_ext. intros j Hj. rewrite <- sumR_scal. apply sumR_ext. intros i Hi. rewrite (S i j Hi Hj). rring.
Qed.
Lemma quad_half n A x : quad n A (fun c => x c / 2) = quad n A x / 4.
Proof.
  rewrite !quad_dot. rewrite (dot_ext n _ _ (fun c => / 2 * x c) (fun c => / 2 * mulv n A x c)).
  - rewrite dot_scal_l, dot_scal_r. lra.
  - intros; unfold Rdiv; rring.
  - intros c Hc. rewrite (mulv_ext n A _ (fun p => / 2 * x p)) by (intros; unfold Rdiv; rring). apply mulv_scal.
Qed.
(** x'Ax' - xAx = (x'+x).A(x'-x) *)
Lemma quad_diff n A x x' : symm n A ->
  quad n A x' - quad n A x = dot n (fun c => x' c + x c) (mulv n A (fun c => x' c - x c)).
Proof.
  intros S. rewrite !quad_dot, dot_add_l.
  rewrite (dot_ext n x' (mulv n A (fun c => x' c - x c)) x' (fun c => mulv n A x' c - mulv n A x c)) by (auto; intros; apply mulv_sub).
  rewrite (dot_ext n x (mulv n A (fun c => x' c - x c)) x (fun c => mulv n A x' c - mulv n A x c)) by (auto; intros; apply mulv_sub).
  rewrite !dot_sub_r, (dot_mulv_symm n A x x' S). ring.
Qed.

(** ** summation by parts along the line *)
Lemma by_parts n (i s : nat -> nat -> R) : forall N,
  sumR (S N) (fun k => dot n (i k) (fun c => s (S k) c - s k c)) =
  dot n (s (S N)) (i N) - dot n (s 0%nat) (i 0%nat) - sumR N (fun k => dot n (s (S k)) (fun c => i (S k) c - i k c)).
Proof.
  induction N as [|N IH].
  - rewrite sumR_S, !sumR_0, dot_sub_r, !(dot_comm n (i 0%nat)). rring.
  - rewrite sumR_S, IH, sumR_S, !dot_sub_r, !(dot_comm n (i (S N))). rring.
Qed.
Lemma sumR_ends N f : (1 <= N)%nat -> sumR (S N) f = f 0%nat + sumR (N - 1) (fun k => f (S k)) + f N.
Proof. intros H. rewrite sumR_S. destruct N as [|N]; [lia|]. rewrite sumR_shift. replace (S N - 1)%nat with N by lia. reflexivity. Qed.

(** ** one node, one end, one cell *)
Lemma node_balance n (C G : nat -> nat -> R) w dt v v' (ip im : nat -> R) : symm n C -> dt <> 0 ->
  (forall c, (c < n)%nat ->
     w * (mulv n C (fun p => v' p - v p) c / dt + mulv n G (fun p => v' p + v p) c / 2) + ip c - im c = 0) ->
  w * quad n C v' / 2 - w * quad n C v / 2 =
  - (dt * (w * quad n G (fun c => (v' c + v c) / 2))) - dt / 2 * dot n (fun c => v' c + v c) (fun c => ip c - im c).
Proof.
  intros S D E. set (s := fun c => v' c + v c). set (d := fun c => v' c - v c).
  assert (F : dot n s (fun c => ip c - im c) = - w / dt * dot n s (mulv n C d) - w / 2 * dot n s (mulv n G s)).
  { rewrite <- dot_scal_r, <- dot_scal_r, <- dot_sub_r. apply dot_ext; auto. intros c Hc. specialize (E c Hc). fold d s in E.
    rsimpl. unfold Rdiv in *. lra. }
  change (fun c => (v' c + v c) / 2) with (fun c => s c / 2).
  rewrite quad_half. pose proof (quad_diff n C v v' S) as Q. fold s d in Q. rewrite F.
  replace (w * quad n C v' / 2 - w * quad n C v / 2) with (w / 2 * (quad n C v' - quad n C v)) by (unfold Rdiv; ring).
  rewrite Q, (quad_dot n G s). field. auto.
Qed.

Lemma end_balance n (Z C G : nat -> nat -> R) h dt dt0 v v' (i src : nat -> R) : symm n C -> dt0 <> 0 ->
  (forall c, (c < n)%nat ->
     h * (mulv n Z (mulv n C (fun p => v' p - v p)) c / dt0 + mulv n Z (mulv n G (fun p => v' p + v p)) c / 2)
     + v' c + v c = src c - 2 * mulv n Z i c) ->
  let J := fun c => h / 2 * (mulv n C (fun p => v' p - v p) c / dt0 + mulv n G (fun p => v' p + v p) c / 2) + i c in
  h / 2 * (dt / dt0) * quad n C v' / 2 - h / 2 * (dt / dt0) * quad n C v / 2 =
  - (dt * (h / 2 * quad n G (fun c => (v' c + v c) / 2))) - dt / 2 * dot n (fun c => v' c + v c) i
  + dt * dot n (fun c => src c / 2) J - dt * quad n Z J.
Proof.
  intros S D E J. set (s := fun c => v' c + v c) in *. set (d := fun c => v' c - v c) in *.
  assert (ZJ : forall c, (c < n)%nat -> s c = src c - 2 * mulv n Z J c).
  { intros c Hc. specialize (E c Hc).
    assert (EJ : mulv n Z J c = h / 2 * (mulv n Z (mulv n C d) c / dt0 + mulv n Z (mulv n G s) c / 2) + mulv n Z i c).
    { unfold J. rewrite mulv_add. f_equal. rewrite mulv_scal. f_equal. rewrite mulv_add. f_equal.
      - rewrite (mulv_ext n Z _ (fun p => / dt0 * mulv n C d p)) by (intros; unfold Rdiv; rring). rewrite mulv_scal. unfold Rdiv; rring.
      - rewrite (mulv_ext n Z _ (fun p => / 2 * mulv n G s p)) by (intros; unfold Rdiv; rring). rewrite mulv_scal. unfold Rdiv; rring. }
    rewrite EJ. unfold s. unfold s in E. rsimpl. unfold Rdiv in *. lra. }
  assert (F : dot n s J = dot n src J - 2 * quad n Z J).
  { rewrite (dot_ext n s J (fun c => src c - 2 * mulv n Z J c) J) by auto. rewrite dot_sub_l, dot_scal_l, (dot_comm n (mulv n Z J) J), <- quad_dot. reflexivity. }
  assert (FJ : dot n s J = h / 2 * (dot n s (mulv n C d) / dt0 + dot n s (mulv n G s) / 2) + dot n s i).
  { unfold J. rewrite dot_add_r, dot_scal_r, dot_add_r. f_equal. f_equal. f_equal.
    - rewrite (dot_ext n s _ s (fun p => / dt0 * mulv n C d p)) by (auto; intros; unfold Rdiv; rring). rewrite dot_scal_r. unfold Rdiv; rring.
    - rewrite (dot_ext n s _ s (fun p => / 2 * mulv n G s p)) by (auto; intros; unfold Rdiv; rring). rewrite dot_scal_r. unfold Rdiv; rring. }
  change (fun c => (v' c + v c) / 2) with (fun c => s c / 2).
  rewrite quad_half. pose proof (quad_diff n C v v' S) as Q. fold s d in Q.
  replace (h / 2 * (dt / dt0) * quad n C v' / 2 - h / 2 * (dt / dt0) * quad n C v / 2) with (h / 2 * (dt / dt0) / 2 * (quad n C v' - quad n C v)) by (unfold Rdiv; ring).
  rewrite Q, (quad_dot n G s).
  replace (dot n (fun c => src c / 2) J) with (dot n src J / 2).
  2:{ rewrite (dot_ext n (fun c => src c / 2) J (fun c => / 2 * src c) J) by (auto; intros; unfold Rdiv; rring). rewrite dot_scal_l. unfold Rdiv; ring. }
  replace (dot n src J) with (h / 2 * (dot n s (mulv n C d) / dt0 + dot n s (mulv n G s) / 2) + dot n s i + 2 * quad n Z J) by lra.
  field. auto.
Qed.

Lemma cell_balance n (L Rs : nat -> nat -> R) h dt (i i' dv dv' : nat -> R) : symm n L -> dt <> 0 ->
  (forall c, (c < n)%nat ->
     h * (mulv n L (fun p => i' p - i p) c / dt + mulv n Rs (fun p => i' p + i p) c / 2) + dv' c = 0) ->
  h * quad n L i' / 2 + dt / 2 * dot n i' dv' - (h * quad n L i / 2 + dt / 2 * dot n i dv) =
  - (dt * (h * quad n Rs (fun c => (i' c + i c) / 2))) - dt / 2 * dot n i (fun c => dv' c + dv c).
Proof.
  intros S D E. set (s := fun c => i' c + i c) in *. set (d := fun c => i' c - i c) in *.
  assert (F : dot n s dv' = - h / dt * dot n s (mulv n L d) - h / 2 * dot n s (mulv n Rs s)).
  { rewrite <- dot_scal_r, <- dot_scal_r, <- dot_sub_r. apply dot_ext; auto. intros c Hc. specialize (E c Hc).
    rsimpl. unfold Rdiv in *. lra. }
  assert (F' : dot n s dv' = dot n i' dv' + dot n i dv') by apply dot_add_l.
  change (fun c => (i' c + i c) / 2) with (fun c => s c / 2).
  rewrite quad_half. pose proof (quad_diff n L i i' S) as Q. fold s d in Q. rewrite (quad_dot n Rs s), dot_add_r.
  replace (dot n i' dv') with (- h / dt * dot n s (mulv n L d) - h / 2 * dot n s (mulv n Rs s) - dot n i dv') by lra.
  replace (quad n L i') with (quad n L i + dot n s (mulv n L d)) by lra.
  field. auto.
Qed.

(** ** the whole line *)
Section Balance.
Variable LA : lapack NumR.
Hypothesis LAok : lapack_ok LA.

Lemma run_state_same m T k a : reachable LA m -> run_state LA m T k a -> run_same m a.
Proof. intros HR Ha. now destruct (run_state_inv LA _ _ _ _ (reachable_shape LA _ HR) Ha) as (_ & _ & S & _). Qed.

Lemma run_same_share m a k : run_same m a -> share a k = share m k.
Proof. intros S. unfold share. now rewrite (rs_cells _ _ S), !(rs_len _ _ _ S). Qed.
Lemma run_same_weight dt0 m a k : run_same m a -> weight dt0 a k = weight dt0 m k.
Proof. intros S. unfold weight. now rewrite (rs_cells _ _ S), (rs_sdt _ _ S), (run_same_share _ _ _ S). Qed.

Definition elec (m a : mtl NumR) dt0 := sumR (S (cells m)) (fun k => weight dt0 m k * quad (conductors m) (C_ m k) (at_node a k) / 2).
Definition magn (m a : mtl NumR) := sumR (cells m) (fun k => cell_len m k * quad (conductors m) (L_ m k) (in_cell a k) / 2
  + step_dt m / 2 * dot (conductors m) (in_cell a k) (fun c => volt a c (S k) - volt a c k)).
Lemma energy_split m a dt0 : run_same m a -> energy dt0 a = elec m a dt0 + magn m a.
Proof.
  intros S. unfold energy, stored, elec, magn.
  rewrite (rs_cells _ _ S), (rs_cond _ _ S), (rs_L _ _ S), (rs_C _ _ S), (rs_sdt _ _ S).
  rewrite sumR_plus, sumR_scal, !sumR_div.
  rewrite (sumR_ext (Datatypes.S (cells m)) _ (fun k => weight dt0 m k * quad (conductors m) (C_ m k) (at_node a k)))
    by (intros; now rewrite (run_same_weight _ _ _ _ S)).
  rewrite (sumR_ext (cells m) (fun k => cell_len a k * quad (conductors m) (L_ m k) (in_cell a k)) (fun k => cell_len m k * quad (conductors m) (L_ m k) (in_cell a k)))
    by (intros; now rewrite (rs_len _ _ _ S)). rsimpl. ring.
Qed.

Lemma energy_step m0 m T k a b : history LA m0 m -> run_step LA m T k a b -> undispersed m -> no_field m ->
  (forall j, (j <= cells m)%nat -> symm (conductors m) (C_ m j)) -> (forall j, (j < cells m)%nat -> symm (conductors m) (L_ m j)) ->
  step_dt m <> 0 -> step_dt m0 <> 0 ->
  energy (step_dt m0) b = energy (step_dt m0) a + supplied m0 a b (m_time a) - lost_in_R a b - lost_in_G m0 a b - lost_in_Z m0 a b.
Proof.
  intros HH Hab U (NT & NL) SC SL D D0. assert (HR : reachable LA m) by (exists m0; auto).
  destruct (run_step_states LA _ _ _ _ _ Hab) as [Ha Hb].
  pose proof (run_state_same _ _ _ _ HR Ha) as Sa. pose proof (run_state_same _ _ _ _ HR Hb) as Sb.
  pose proof (run_time LA _ _ _ _ (reachable_shape LA _ HR) Ha) as Ta.
  assert (N1 : (1 <= cells m)%nat) by apply (sh_N _ (reachable_shape _ _ HR)).
  rewrite (energy_split m a _ Sa), (energy_split m b _ Sb).
  unfold supplied, lost_in_R, lost_in_G, lost_in_Z. cbv zeta.
  rewrite !(rs_cells _ _ Sa), !(rs_cond _ _ Sa), !(rs_sdt _ _ Sa), (rs_R _ _ Sa), (rs_Zs _ _ Sa), (rs_Zl _ _ Sa), (rs_source _ _ Sa).
  rewrite (sumR_ext (cells m) (fun k => cell_len a k * _) (fun k => cell_len m k * quad (conductors m) (R_ m k) (fun c => (curr b c k + curr a c k) / 2)))
    by (intros; now rewrite (rs_len _ _ _ Sa)).
  rewrite (sumR_ext (S (cells m)) (fun k => share a k * _) (fun k => share m k * quad (conductors m) (node_G m0 m k) (fun c => (volt b c k + volt a c k) / 2))).
  2:{ intros j Hj. rewrite (run_same_share _ _ _ Sa). unfold node_G. now rewrite (rs_cells _ _ Sa), (rs_G _ _ Sa). }
  set (n := conductors m) in *. set (N := cells m) in *. set (dt := step_dt m) in *. set (dt0 := step_dt m0) in *.
  set (JL := J_left m0 a b). set (JR := J_right m0 a b).
  set (s := fun (k : nat) c => volt b c k + volt a c k).
  (* cells *)
  assert (EM : magn m b - magn m a =
     - (dt * sumR N (fun k => cell_len m k * quad n (R_ m k) (fun c => (curr b c k + curr a c k) / 2)))
     - dt / 2 * sumR N (fun k => dot n (in_cell a k) (fun c => s (S k) c - s k c))).
  { unfold magn. rewrite <- sumR_minus, <- !sumR_scal, <- sumR_opp, <- sumR_minus. apply sumR_ext. intros j Hj.
    pose proof (cell_balance n (L_ m j) (R_ m j) (cell_len m j) dt (in_cell a j) (in_cell b j) (fun c => volt a c (S j) - volt a c j) (fun c => volt b c (S j) - volt b c j) (SL j Hj) D) as E.
    rewrite (dot_ext n (in_cell a j) (fun c => s (S j) c - s j c) (in_cell a j) (fun c => volt b c (S j) - volt b c j + (volt a c (S j) - volt a c j))) by (auto; intros; unfold s; ring).
    apply E. intros c Hc. pose proof (current_eq_plain LA LAok m T k a b c j HR U Hab Hc Hj) as F. cbv zeta in F.
    rewrite !NT, !NL in F by (auto; lia). unfold in_cell. fold n dt in F. rsimpl. unfold Rdiv in *. lra. }
  (* nodes *)
  assert (EE : elec m b dt0 - elec m a dt0 =
     - (dt * sumR (S N) (fun k => share m k * quad n (node_G m0 m k) (fun c => (volt b c k + volt a c k) / 2)))
     - dt / 2 * (dot n (s 0%nat) (in_cell a 0) - dot n (s N) (in_cell a (N - 1)) + sumR (N - 1) (fun k => dot n (s (S k)) (fun c => in_cell a (S k) c - in_cell a k c)))
     + dt * (dot n (fun c => (source m c 0 (m_time a) + source m c 0 (m_time a - dt)) / 2) JL + dot n (fun c => (source m c N (m_time a) + source m c N (m_time a - dt)) / 2) JR)
     - dt * (quad n (Zs_ m) JL + quad n (Zl_ m) JR)).
  { unfold elec. rewrite <- sumR_minus. fold N n. rewrite (sumR_ends N _ N1), (sumR_ends N _ N1).
    assert (E0 : weight dt0 m 0 * quad n (C_ m 0) (at_node b 0) / 2 - weight dt0 m 0 * quad n (C_ m 0) (at_node a 0) / 2 =
      - (dt * (share m 0 * quad n (node_G m0 m 0) (fun c => (volt b c 0%nat + volt a c 0%nat) / 2))) - dt / 2 * dot n (s 0%nat) (in_cell a 0)
      + dt * dot n (fun c => (source m c 0 (m_time a) + source m c 0 (m_time a - dt)) / 2) JL - dt * quad n (Zs_ m) JL).
    { replace (weight dt0 m 0) with (cell_len m 0 / 2 * (dt / dt0)) by reflexivity.
      change (share m 0) with (cell_len m 0 / 2). change (node_G m0 m 0) with (G_ m0 0).
      pose proof (end_balance n (Zs_ m) (C_ m 0) (G_ m0 0) (cell_len m 0) dt dt0 (at_node a 0) (at_node b 0) (in_cell a 0)
        (fun c => source m c 0 (m_time a) + source m c 0 (m_time a - dt)) (SC 0%nat ltac:(lia)) D0) as E.
      cbv zeta in E. unfold JL, J_left. rewrite (rs_cond _ _ Sa), (rs_len _ _ _ Sa), (rs_C _ _ Sa). apply E.
      intros c Hc. pose proof (left_terminal LA LAok m0 m T k a b c HH Hab Hc) as F. cbv zeta in F. fold n dt dt0 in F.
      assert (Z : mulv n (Zs_ m) (mulv n (C_ m 0) (fun p => eTran m p 0 (m_time m + INR k * dt) - eTran m p 0 (m_time m + INR k * dt - dt))) c = 0).
      { apply sumR_zero. intros q Hq. assert (Z2 : mulv n (C_ m 0) (fun p => eTran m p 0 (m_time m + INR k * dt) - eTran m p 0 (m_time m + INR k * dt - dt)) q = 0).
        { apply sumR_zero. intros p Hp. rewrite !NT by (auto; lia). rring. } rewrite Z2. rring. }
      rewrite Z in F. rewrite Ta. fold dt. unfold at_node, in_cell. rsimpl. rewrite F. ring. }
    assert (EN : weight dt0 m N * quad n (C_ m N) (at_node b N) / 2 - weight dt0 m N * quad n (C_ m N) (at_node a N) / 2 =
      - (dt * (share m N * quad n (node_G m0 m N) (fun c => (volt b c N + volt a c N) / 2))) + dt / 2 * dot n (s N) (in_cell a (N - 1))
      + dt * dot n (fun c => (source m c N (m_time a) + source m c N (m_time a - dt)) / 2) JR - dt * quad n (Zl_ m) JR).
    { assert (W : share m N = cell_len m (N - 1) / 2).
      { unfold share. fold N. rewrite (Nat.eqb_refl N). destruct (Nat.eqb_spec N 0); auto; lia. }
      assert (W' : weight dt0 m N = cell_len m (N - 1) / 2 * (dt / dt0)).
      { unfold weight. rewrite W. fold N. rewrite (Nat.eqb_refl N), orb_true_r. reflexivity. }
      assert (G' : node_G m0 m N = G_ m0 N). { unfold node_G. fold N. now rewrite (Nat.eqb_refl N), orb_true_r. }
      rewrite W, W', G'.
      pose proof (end_balance n (Zl_ m) (C_ m N) (G_ m0 N) (cell_len m (N - 1)) dt dt0 (at_node a N) (at_node b N) (fun c => - in_cell a (N - 1) c)
        (fun c => source m c N (m_time a) + source m c N (m_time a - dt)) (SC N ltac:(lia)) D0) as E.
      cbv zeta in E.
      assert (EJ : forall c, JR c = cell_len m (N - 1) / 2 * (mulv n (C_ m N) (fun p => at_node b N p - at_node a N p) c / dt0 + mulv n (G_ m0 N) (fun p => at_node b N p + at_node a N p) c / 2) + - in_cell a (N - 1) c).
      { intros c. unfold JR, J_right. rewrite (rs_cond _ _ Sa), (rs_cells _ _ Sa), (rs_len _ _ _ Sa), (rs_C _ _ Sa). reflexivity. }
      rewrite (dot_ext n _ JR (fun c => (source m c N (m_time a) + source m c N (m_time a - dt)) / 2) _ (fun _ _ => eq_refl) (fun c _ => EJ c)).
      rewrite (quad_ext n (Zl_ m) (Zl_ m) JR _ (fun _ _ _ _ => eq_refl) (fun c _ => EJ c)).
      replace (dot n (s N) (in_cell a (N - 1))) with (- dot n (fun c => at_node b N c + at_node a N c) (fun c => - in_cell a (N - 1) c)).
      2:{ rewrite (dot_ext n _ (fun c => - in_cell a (N - 1) c) (s N) (fun c => (-1) * in_cell a (N - 1) c)) by (auto; intros; rring). rewrite dot_scal_r. ring. }
      etransitivity; [apply E|unfold at_node; rsimpl; ring].
      intros c Hc. pose proof (right_terminal LA LAok m0 m T k a b c HH Hab Hc) as F. cbv zeta in F. fold n dt dt0 N in F.
      assert (Z : mulv n (Zl_ m) (mulv n (C_ m N) (fun p => eTran m p N (m_time m + INR k * dt) - eTran m p N (m_time m + INR k * dt - dt))) c = 0).
      { apply sumR_zero. intros q Hq. assert (Z2 : mulv n (C_ m N) (fun p => eTran m p N (m_time m + INR k * dt) - eTran m p N (m_time m + INR k * dt - dt)) q = 0).
        { apply sumR_zero. intros p Hp. rewrite !NT by (auto; lia). rring. } rewrite Z2. rring. }
      rewrite Z in F. rewrite Ta. fold dt. unfold at_node, in_cell.
      rewrite (mulv_ext n (Zl_ m) (fun c0 => - curr a c0 (N - 1)) (fun c0 => (-1) * curr a c0 (N - 1))) by (intros; rring). rewrite mulv_scal.
      unfold Rminus in *. rsimpl. lra. }
    assert (EI : sumR (N - 1) (fun k => weight dt0 m (S k) * quad n (C_ m (S k)) (at_node b (S k)) / 2 - weight dt0 m (S k) * quad n (C_ m (S k)) (at_node a (S k)) / 2) =
      - (dt * sumR (N - 1) (fun k => share m (S k) * quad n (node_G m0 m (S k)) (fun c => (volt b c (S k) + volt a c (S k)) / 2)))
      - dt / 2 * sumR (N - 1) (fun k => dot n (s (S k)) (fun c => in_cell a (S k) c - in_cell a k c))).
    { rewrite <- !sumR_scal, <- sumR_opp, <- sumR_minus. apply sumR_ext. intros j Hj.
      assert (X : (S j =? N)%nat = false) by (apply Nat.eqb_neq; lia).
      assert (W : share m (S j) = width m (S j)). { unfold share, width. fold N. now rewrite X. }
      assert (W' : weight dt0 m (S j) = width m (S j)). { unfold weight. fold N. now rewrite X, W. }
      assert (G' : node_G m0 m (S j) = G_ m (S j)). { unfold node_G. fold N. now rewrite X. }
      rewrite W, W', G'.
      apply (node_balance n (C_ m (S j)) (G_ m (S j)) (width m (S j)) dt (at_node a (S j)) (at_node b (S j)) (in_cell a (S j)) (in_cell a j)); auto; [apply SC; lia|].
      intros c Hc. pose proof (voltage_eq LA LAok m T k a b c (S j) HR Hab Hc ltac:(lia) ltac:(lia)) as F. cbv zeta in F. fold n dt in F.
      rewrite (mulv_ext n (C_ m (S j)) _ (fun p => volt b p (S j) - volt a p (S j))) in F by (intros p Hp; rewrite !NT by (auto; lia); rring).
      rewrite (mulv_ext n (G_ m (S j)) _ (fun p => volt b p (S j) + volt a p (S j))) in F by (intros p Hp; rewrite !NT by (auto; lia); rring).
      replace (S j - 1)%nat with j in F by lia. exact F. }
    rewrite E0, EN, EI. rsimpl. ring. }
  pose proof (by_parts n (in_cell a) s (N - 1)) as BP. replace (S (N - 1)) with N in BP by lia.
  rewrite BP in EM. rsimpl. lra.
Qed.
End Balance.

(** ** the energy does not grow *)
Section Decrease.
Variable LA : lapack NumR.
Hypothesis LAok : lapack_ok LA.

Lemma share_nonneg (m : mtl NumR) k : (1 <= cells m)%nat -> (forall k, (k < cells m)%nat -> 0 <= cell_len m k) -> (k <= cells m)%nat -> 0 <= share m k.
Proof.
  intros N1 H Hk. unfold share. destruct (Nat.eqb_spec k 0); [pose proof (H 0%nat ltac:(lia)); lra|].
  destruct (Nat.eqb_spec k (cells m)); [pose proof (H (cells m - 1)%nat ltac:(lia)); lra|].
  pose proof (H (k - 1)%nat ltac:(lia)). pose proof (H k ltac:(lia)). lra.
Qed.
Lemma undriven_no_field m : undriven m -> no_field m.
Proof. intros (_ & H2 & H3). split; auto. Qed.

Lemma losses_nonneg m0 m T k a b : history LA m0 m -> run_step LA m T k a b -> lossy m0 m ->
  0 <= lost_in_R a b /\ 0 <= lost_in_G m0 a b /\ 0 <= lost_in_Z m0 a b.
Proof.
  intros HH Hab L. assert (HR : reachable LA m) by (exists m0; auto).
  destruct (run_step_states LA _ _ _ _ _ Hab) as [Ha _]. pose proof (run_state_same LA _ _ _ _ HR Ha) as S.
  assert (N1 : (1 <= cells m)%nat) by apply (sh_N _ (reachable_shape _ _ HR)).
  unfold lost_in_R, lost_in_G, lost_in_Z.
  rewrite (rs_cells _ _ S), (rs_cond _ _ S), (rs_sdt _ _ S), (rs_R _ _ S), (rs_Zs _ _ S), (rs_Zl _ _ S). pose proof (lo_dt _ _ L).
  split; [|split].
  - apply Rmult_le_pos; [lra|]. apply sumR_nonneg. intros j Hj. rewrite (rs_len _ _ _ S). apply Rmult_le_pos; [now apply (lo_h _ _ L)|now apply (lo_R _ _ L)].
  - apply Rmult_le_pos; [lra|]. apply sumR_nonneg. intros j Hj. rewrite (run_same_share _ _ _ S). apply Rmult_le_pos; [apply share_nonneg; auto; [apply (lo_h _ _ L)|lia]|].
    replace (node_G m0 a j) with (node_G m0 m j) by (unfold node_G; now rewrite (rs_cells _ _ S), (rs_G _ _ S)). apply (lo_G _ _ L). lia.
  - apply Rmult_le_pos; [lra|]. apply Rplus_le_le_0_compat; [apply (lo_Zs _ _ L)|apply (lo_Zl _ _ L)].
Qed.
Lemma supplied_none m0 m T k a b t : history LA m0 m -> run_step LA m T k a b -> undriven m -> supplied m0 a b t = 0.
Proof.
  intros HH Hab (U & _). assert (HR : reachable LA m) by (exists m0; auto).
  destruct (run_step_states LA _ _ _ _ _ Hab) as [Ha _]. pose proof (run_state_same LA _ _ _ _ HR Ha) as S.
  unfold supplied. cbv zeta. rewrite (rs_cells _ _ S), (rs_cond _ _ S), (rs_source _ _ S).
  assert (Z : forall k J, (k = 0 \/ k = cells m)%nat -> dot (conductors m) (fun c => (source m c k t + source m c k (t - step_dt a)) / 2) J = 0).
  { intros j J Hj. apply sumR_zero. intros c Hc. destruct Hj as [-> | ->];
      [rewrite !(fun t => proj1 (U c t Hc))|rewrite !(fun t => proj2 (U c t Hc))]; unfold Rdiv; rring. }
  rewrite !Z by auto. ring.
Qed.
Lemma energy_decreases m0 m T k a b : history LA m0 m -> run_step LA m T k a b -> undispersed m -> undriven m -> lossy m0 m ->
  energy (step_dt m0) b = energy (step_dt m0) a - lost_in_R a b - lost_in_G m0 a b - lost_in_Z m0 a b /\
  energy (step_dt m0) b <= energy (step_dt m0) a.
Proof.
  intros HH Hab U Un L.
  pose proof (energy_step LA LAok m0 m T k a b HH Hab U (undriven_no_field _ Un) (lo_C _ _ L) (lo_L _ _ L)) as E.
  pose proof (lo_dt _ _ L). pose proof (lo_dt0 _ _ L). rewrite (supplied_none m0 m T k a b (m_time a) HH Hab Un) in E.
  destruct (losses_nonneg _ _ _ _ _ _ HH Hab L) as (H1 & H2 & H3).
  rewrite E by lra. split; lra.
Qed.
Lemma run_state_0 m T a : reachable LA m -> run_state LA m T 0 a ->
  (forall c k, volt a c k = volt m c k) /\ (forall c k, curr a c k = curr m c k).
Proof.
  intros HR (st & p & _ & _ & Hp & Hi). cbn [iterM] in Hi. injection Hi as <-. apply prepare_inv in Hp as (u1 & u2 & _ & ->). split; reflexivity.
Qed.
Lemma energy_ext dt0 m a : run_same m a -> (forall c k, volt a c k = volt m c k) -> (forall c k, curr a c k = curr m c k) -> energy dt0 a = energy dt0 m.
Proof.
  intros S V I. rewrite (energy_split m a _ S), (energy_split m m _ (run_same_refl m)). unfold elec, magn. f_equal.
  - apply sumR_ext. intros k Hk. unfold Rdiv. rewrite (quad_ext _ (C_ m k) (C_ m k) (at_node a k) (at_node m k)); auto.
    intros; apply V.
  - apply sumR_ext. intros k Hk. rewrite (quad_ext _ (L_ m k) (L_ m k) (in_cell a k) (in_cell m k)); auto; [|intros; apply I].
    rewrite (dot_ext _ (in_cell a k) (fun c => volt a c (Datatypes.S k) - volt a c k) (in_cell m k) (fun c => volt m c (Datatypes.S k) - volt m c k)); auto.
    + intros; apply I.
    + intros; now rewrite !V.
Qed.
Lemma energy_run m0 m T : history LA m0 m -> undispersed m -> undriven m -> lossy m0 m ->
  forall k a, run_state LA m T k a -> energy (step_dt m0) a <= energy (step_dt m0) m.
Proof.
  intros HH U Un L. assert (HR : reachable LA m) by (exists m0; auto).
  induction k as [|k IH]; intros b Hb.
  - destruct (run_state_0 m T b HR Hb) as [V I]. rewrite (energy_ext _ m b (run_state_same _ _ _ _ _ HR Hb) V I). lra.
  - assert (Hb' := Hb). destruct Hb as (st & p & H1 & H2 & H3 & H4). rewrite iterM_S in H4. inv_bind H4.
    assert (Hab : run_step LA m T k a b) by (exists st, p; repeat split; auto; lia).
    destruct (run_step_states LA _ _ _ _ _ Hab) as [Ha' _].
    destruct (energy_decreases m0 m T k a b HH Hab U Un L) as [_ E]. specialize (IH a Ha'). lra.
Qed.
End Decrease.

(** ** the energy is not negative *)
(** the node capacitances are the same along the line, as the constructor makes them *)
Definition same_C (m : mtl NumR) : Prop :=
  forall k i j, (k <= cells m)%nat -> (i < conductors m)%nat -> (j < conductors m)%nat -> C_ m k i j = C_ m 0 i j.

Lemma weights_by_cell dt0 m (q : nat -> R) : (1 <= cells m)%nat ->
  sumR (S (cells m)) (fun k => weight dt0 m k * q k) =
  sumR (cells m) (fun k => cell_len m k / 2 * ((if (k =? 0)%nat then step_dt m / dt0 else 1) * q k + (if (S k =? cells m)%nat then step_dt m / dt0 else 1) * q (S k))).
Proof.
  intros N1. rewrite (sumR_ends _ _ N1).
  rewrite (sumR_ext (cells m) _ (fun k => (fun k => cell_len m k / 2 * (if (k =? 0)%nat then step_dt m / dt0 else 1) * q k) k + (fun k => cell_len m k / 2 * (if (S k =? cells m)%nat then step_dt m / dt0 else 1) * q (S k)) k)) by (intros; rring).
  rewrite sumR_plus. set (N := cells m) in *. set (rho := step_dt m / dt0).
  assert (E : N = S (N - 1)) by lia.
  assert (A : sumR N (fun k => cell_len m k / 2 * (if (k =? 0)%nat then rho else 1) * q k) =
     cell_len m 0 / 2 * rho * q 0%nat + sumR (N - 1) (fun k => cell_len m (S k) / 2 * q (S k))).
  { rewrite E at 1. rewrite sumR_shift. f_equal. apply sumR_ext. intros k Hk. cbn [Nat.eqb]. rring. }
  assert (B : sumR N (fun k => cell_len m k / 2 * (if (S k =? N)%nat then rho else 1) * q (S k)) =
     sumR (N - 1) (fun k => cell_len m k / 2 * q (S k)) + cell_len m (N - 1) / 2 * rho * q N).
  { replace (sumR N) with (sumR (S (N - 1))) by (now rewrite <- E). rewrite sumR_S. rewrite <- E, Nat.eqb_refl. f_equal.
    apply sumR_ext. intros k Hk. destruct (Nat.eqb_spec (S k) N); [lia|rring]. }
  rewrite A, B.
  assert (W0 : weight dt0 m 0 = cell_len m 0 / 2 * rho) by reflexivity.
  assert (WN : weight dt0 m N = cell_len m (N - 1) / 2 * rho).
  { unfold weight, share. fold N. rewrite (Nat.eqb_refl N), orb_true_r. destruct (Nat.eqb_spec N 0); [lia|reflexivity]. }
  rewrite W0, WN.
  rewrite (sumR_ext (N - 1) _ (fun k => (fun k => cell_len m (S k) / 2 * q (S k)) k + (fun k => cell_len m k / 2 * q (S k)) k)).
  2:{ intros k Hk. unfold weight, share. fold N. assert (X : (S k =? N)%nat = false) by (apply Nat.eqb_neq; lia). rewrite X. cbn [Nat.eqb orb].
      replace (S k - 1)%nat with k by lia. rsimpl. unfold Rdiv. ring. }
  rewrite sumR_plus. rring.
Qed.

(** one cell: [A], [B] are the magnetic and electric forms, [p] the scalar product *)
Lemma cell_positive (h dt0 rho A q0 q1 B p al be : R) : 0 <= h -> 0 < rho <= 1 -> 0 <= A -> 0 <= q0 -> 0 <= q1 ->
  0 <= B -> B <= 2 * (q0 + q1) -> rho <= al -> rho <= be -> (dt0 * p) ^ 2 <= h ^ 2 * (A * B) ->
  (1 - sqrt rho) * (h * A / 2 + h / 2 * (al * q0 + be * q1) / 2) <= h * A / 2 + h / 2 * (al * q0 + be * q1) / 2 + rho * dt0 / 2 * p.
Proof.
  intros Hh [R0 R1] HA H0 H1 HB HB2 Hal Hbe HC.
  set (s := sqrt rho). assert (Hs : 0 < s) by (apply sqrt_lt_R0; auto). assert (Ess : s * s = rho) by (apply sqrt_sqrt; lra).
  set (X := h * A + rho * h * B / 4). set (Y := s * dt0 * p).
  assert (HX : 0 <= X) by (unfold X; apply Rplus_le_le_0_compat; [nra|]; apply Rmult_le_pos; [|lra]; apply Rmult_le_pos; nra).
  assert (XY : Y ^ 2 <= X ^ 2).
  { apply Rle_trans with (rho * (h ^ 2 * (A * B))).
    - unfold Y. replace ((s * dt0 * p) ^ 2) with (s * s * (dt0 * p) ^ 2) by ring. rewrite Ess. nra.
    - unfold X. pose proof (Rle_0_sqr (h * A - rho * h * B / 4)) as Q. unfold Rsqr in Q. nra. }
  assert (Yb : - X <= Y).
  { destruct (Rle_dec 0 Y); [lra|]. apply Rsqr_incr_0 with (x := - Y) (y := X) in XY || idtac.
    assert (- Y <= X); [|lra]. apply Rsqr_incr_0; [unfold Rsqr; simpl in XY; nra|lra|lra]. }
  assert (XB : X <= h * A + h / 2 * (al * q0 + be * q1)).
  { unfold X. assert (rho * B / 4 <= (al * q0 + be * q1) / 2) by nra. nra. }
  assert (F : rho * dt0 / 2 * p = s / 2 * Y) by (unfold Y; rewrite <- Ess; field).
  rewrite F. nra.
Qed.


Lemma energy_bound (m0 m : mtl NumR) : (1 <= cells m)%nat -> courant m (step_dt m0) -> same_C m ->
  0 < step_dt m -> step_dt m <= step_dt m0 ->
  (forall k, (k < cells m)%nat -> 0 <= cell_len m k) ->
  (forall k, (k < cells m)%nat -> pos_semidef (conductors m) (L_ m k)) -> (forall k, (k <= cells m)%nat -> pos_semidef (conductors m) (C_ m k)) ->
  (1 - sqrt (step_dt m / step_dt m0)) * stored (step_dt m0) m <= energy (step_dt m0) m.
Proof.
  intros N1 CFL SC D DD HH HL HC.
  set (dt0 := step_dt m0) in *. set (n := conductors m) in *. set (rho := step_dt m / dt0).
  assert (D0 : 0 < dt0) by lra.
  assert (Rho : 0 < rho <= 1).
  { unfold rho. split; [apply Rdiv_lt_0_compat; auto|]. apply (Rmult_le_reg_r dt0); auto. unfold Rdiv. rewrite Rmult_assoc, Rinv_l, Rmult_1_r, Rmult_1_l; lra. }
  unfold energy, stored. fold n. rewrite (weights_by_cell dt0 m (fun k => quad n (C_ m k) (at_node m k)) N1). fold rho.
  replace (step_dt m) with (rho * dt0) by (unfold rho; field; lra).
  rewrite <- !sumR_div, <- sumR_plus, <- !sumR_scal, <- sumR_plus. apply sumR_le. intros k Hk.
  pose proof (cell_positive (cell_len m k) dt0 rho (quad n (L_ m k) (in_cell m k)) (quad n (C_ m k) (at_node m k)) (quad n (C_ m (S k)) (at_node m (S k)))
     (quad n (C_ m k) (fun c => volt m c (S k) - volt m c k)) (dot n (in_cell m k) (fun c => volt m c (S k) - volt m c k))
     (if (k =? 0)%nat then rho else 1) (if (S k =? cells m)%nat then rho else 1)) as P.
  assert (X : (1 - sqrt rho) * (cell_len m k * quad n (L_ m k) (in_cell m k) / 2 + cell_len m k / 2 * ((if (k =? 0)%nat then rho else 1) * quad n (C_ m k) (at_node m k) + (if (S k =? cells m)%nat then rho else 1) * quad n (C_ m (S k)) (at_node m (S k))) / 2) <=
     cell_len m k * quad n (L_ m k) (in_cell m k) / 2 + cell_len m k / 2 * ((if (k =? 0)%nat then rho else 1) * quad n (C_ m k) (at_node m k) + (if (S k =? cells m)%nat then rho else 1) * quad n (C_ m (S k)) (at_node m (S k))) / 2
     + rho * dt0 / 2 * dot n (in_cell m k) (fun c => volt m c (S k) - volt m c k)).
  { apply P; auto.
    - apply HL; auto.
    - apply HC; lia.
    - apply HC; lia.
    - apply HC; lia.
    - (* parallelogram *)
      assert (E : quad n (C_ m (S k)) (at_node m (S k)) = quad n (C_ m k) (at_node m (S k))).
      { apply quad_ext; auto. intros i j Hi Hj. rewrite (SC (S k)), (SC k) by (auto; lia). reflexivity. }
      rewrite E. pose proof (HC k ltac:(lia) (fun c => volt m c (S k) + volt m c k)) as Q.
      assert (PL : quad n (C_ m k) (fun c => volt m c (S k) - volt m c k) + quad n (C_ m k) (fun c => volt m c (S k) + volt m c k) =
        2 * (quad n (C_ m k) (at_node m k) + quad n (C_ m k) (at_node m (S k)))).
      { rewrite !quad_dot. fold (at_node m k) (at_node m (S k)).
        rewrite (dot_ext n (fun c => volt m c (S k) - volt m c k) _ (fun c => at_node m (S k) c - at_node m k c) (fun c => mulv n (C_ m k) (at_node m (S k)) c - mulv n (C_ m k) (at_node m k) c)) by (auto; intros; apply mulv_sub).
        rewrite (dot_ext n (fun c => volt m c (S k) + volt m c k) _ (fun c => at_node m (S k) c + at_node m k c) (fun c => mulv n (C_ m k) (at_node m (S k)) c + mulv n (C_ m k) (at_node m k) c)) by (auto; intros; apply mulv_add).
        rewrite dot_sub_l, dot_add_l, !dot_sub_r, !dot_add_r. ring. }
      lra.
    - destruct (k =? 0)%nat; lra.
    - destruct (S k =? cells m)%nat; lra. }
  rsimpl. lra.
Qed.
