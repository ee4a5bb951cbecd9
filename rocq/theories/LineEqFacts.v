(** The discrete equations solved by one time step, over the reals. *)
From Coq Require Import String List Arith ZArith Bool Lia Reals Lra.
From Verif Require Import Num Py Arr ArrFacts NumR RFacts Probes Dispersive Line LineFacts SpecLine SpecR HistoryFacts.
Import ListNotations.
Local Open Scope R_scope.

Lemma eval_at_get {N : num} (fs : list (list (N -> N))) t c k :
  get2 (eval_at fs t) c k = nth k (nth c fs []) (fun _ => n0) t.
Proof.
  unfold get2, get, eval_at.
  rewrite (map_nth (map (fun f : N -> N => f t)) fs []).
  exact (map_nth (fun f : N -> N => f t) (nth c fs []) (fun _ => n0) k).
Qed.

Lemma mm_diag n (H A : mat NumR) x i j :
  (forall p q, (p < n)%nat -> (q < n)%nat -> get2 H p q = x * @delta NumR p q) ->
  (i < n)%nat -> (j < n)%nat -> get2 (mm n H A) i j = x * get2 A i j.
Proof.
  intros HH Hi Hj. rewrite get2_mm by auto.
  rewrite (sumR_ext n _ (fun k => x * (@delta NumR i k * get2 A k j))).
  - rewrite sumR_scal. f_equal. exact (sumR_delta_l n (fun k => get2 A k j) i Hi).
  - intros k Hk. rsimpl. rewrite HH by auto. rring.
Qed.

Section Eq.
Variable LA : lapack NumR.
Hypothesis LAok : lapack_ok LA.
Implicit Types (m : mtl NumR).

Lemma h_diag m k i j : shape m -> (k < cells m)%nat -> (i < conductors m)%nat -> (j < conductors m)%nat ->
  get3 (k_h (m_core m)) k i j = cell_len m k * @delta NumR i j.
Proof.
  intros Sh Hk Hi Hj. unfold cell_len, get3.
  destruct (sh_h _ Sh k Hk) as [[x ->]| ->].
  - rewrite !get2_mscal by (auto; lia || (pose proof (sh_n _ Sh); unfold conductors in *; lia)).
    rewrite !get2_eye by (pose proof (sh_n _ Sh); unfold conductors in *; lia).
    rewrite deltaR_eq. rring.
  - rewrite !get2_zeros. rring.
Qed.

Lemma node_width_get m k i j : shape m -> (k <= cells m)%nat -> (i < conductors m)%nat -> (j < conductors m)%nat ->
  get2 (node_width (m_core m) k) i j = width m k * @delta NumR i j.
Proof.
  intros Sh Hk Hi Hj. unfold node_width, width.
  pose proof (sh_N _ Sh) as HN.
  fold (cells m) in *.
  destruct (Nat.eqb_spec k 0) as [->|Hk0]; [now apply h_diag|].
  destruct (Nat.eqb_spec k (cells m)) as [->|Hk1]; [apply h_diag; auto; lia|].
  fold (conductors m). rewrite get2_mscal, get2_madd by auto.
  pose proof (h_diag m k i j Sh ltac:(lia) Hi Hj) as E1.
  pose proof (h_diag m (k - 1) i j Sh ltac:(lia) Hi Hj) as E2.
  unfold get3 in E1, E2. rewrite E1, E2. rfield.
Qed.

Lemma cg_F1_get m k i j : shape m -> (k <= cells m)%nat -> (i < conductors m)%nat -> (j < conductors m)%nat ->
  get2 (cg_F1 (m_core m) k) i j = width m k * (C_ m k i j / step_dt m + G_ m k i j / 2).
Proof.
  intros Sh Hk Hi Hj. unfold cg_F1. fold (conductors m). cbv zeta.
  rewrite mm_diag with (x := width m k); auto.
  - rewrite get2_madd, !get2_mdivs by auto. reflexivity.
  - intros; now apply node_width_get.
Qed.
Lemma cg_F2_get m k i j : shape m -> (k <= cells m)%nat -> (i < conductors m)%nat -> (j < conductors m)%nat ->
  get2 (cg_F2 (m_core m) k) i j = width m k * (C_ m k i j / step_dt m - G_ m k i j / 2).
Proof.
  intros Sh Hk Hi Hj. unfold cg_F2. fold (conductors m). cbv zeta.
  rewrite mm_diag with (x := width m k); auto.
  - rewrite get2_msub, !get2_mdivs by auto. reflexivity.
  - intros; now apply node_width_get.
Qed.
Lemma lr_F1_get m k i j : shape m -> (k < cells m)%nat -> (i < conductors m)%nat -> (j < conductors m)%nat ->
  get2 (lr_F1 (m_core m) k) i j =
    cell_len m k * (L_ m k i j / step_dt m + D_ m k i j / 2 + E_ m k i j / step_dt m
                    + R_ m k i j / 2 + Q1_ m k i j).
Proof.
  intros Sh Hk Hi Hj. unfold lr_F1. fold (conductors m). cbv zeta.
  rewrite mm_diag with (x := cell_len m k); auto.
  - rewrite !get2_madd, !get2_mdivs, !get2_mscal by auto.
    unfold L_, D_, E_, R_, Q1_, step_dt, get3. rsimpl. f_equal. unfold Rdiv. ring.
  - intros; now apply h_diag.
Qed.
Lemma lr_F2_get m k i j : shape m -> (k < cells m)%nat -> (i < conductors m)%nat -> (j < conductors m)%nat ->
  get2 (lr_F2 (m_core m) k) i j =
    cell_len m k * (L_ m k i j / step_dt m - D_ m k i j / 2 + E_ m k i j / step_dt m
                    - R_ m k i j / 2 - Q2_ m k i j).
Proof.
  intros Sh Hk Hi Hj. unfold lr_F2. fold (conductors m). cbv zeta.
  rewrite mm_diag with (x := cell_len m k); auto.
  - rewrite !get2_msub, !get2_madd, !get2_msub, !get2_mdivs, !get2_mscal by auto.
    unfold L_, D_, E_, R_, Q2_, step_dt, get3. rsimpl. f_equal. unfold Rdiv. ring.
  - intros; now apply h_diag.
Qed.

(** a sum of products whose first factors are x * (...) *)
Lemma sum_scaled n x (A B : nat -> R) (y : nat -> R) :
  (forall j, (j < n)%nat -> A j = x * B j) ->
  sumR n (fun j => A j * y j) = x * sumR n (fun j => B j * y j).
Proof.
  intros H. rewrite <- sumR_scal. apply sumR_ext; intros j Hj. rewrite H by auto. rring.
Qed.

Lemma voltage_eq_step m (b : mtl NumR) c k : shape m -> cg_ready LA (m_core m) -> mtl_step m = Ok b ->
  (c < conductors m)%nat -> (0 < k)%nat -> (k < cells m)%nat ->
  let dt := step_dt m in let t := m_time m in
  let de p := eTran m p k t - eTran m p k (t - dt) in
  width m k * (sumR (conductors m) (fun p => C_ m k c p * (volt b p k - volt m p k + de p)) / dt
             + sumR (conductors m) (fun p => G_ m k c p * (volt b p k + volt m p k + de p)) / 2)
  + curr m c k - curr m c (k - 1) = 0.
Proof.
  intros Sh Hcg Hst Hc Hk0 Hk1 dt t de.
  destruct (cg_ready_inv LA _ Hcg) as (vt & idf & Ecg & Hinv & Hvt).
  pose proof (sh_N _ Sh) as HN.
  destruct (mtl_step_inv m b HN Hst)
    as (vt' & idf' & it & vd & d1 & d2 & ps & Ecg' & _ & _ & Hv & _).
  rewrite Ecg in Ecg'. injection Ecg' as <- <-.
  fold (cells m) (conductors m) in *.
  assert (Hi : is_inverse (conductors m) (cg_F1 (m_core m) k) (getm idf k))
    by (apply (inv_ok LA LAok), Hinv; lia).
  (* v'' = idf (F2 v - di) *)
  set (di := fun j => curr m j k - curr m j (k - 1)).
  set (y := fun j => sumR (conductors m) (fun p => get2 (cg_F2 (m_core m) k) j p * volt m p k) - di j).
  assert (E : forall j, (j < conductors m)%nat ->
     volt b j k + de j = sumR (conductors m) (fun p => get2 (getm idf k) j p * y p)).
  { intros j Hj. unfold volt at 1. rewrite Hv by (auto; lia). unfold next_v.
    rewrite (proj2 (Nat.eqb_neq k 0)), (proj2 (Nat.eqb_neq k (k_N (m_core m)))) by (unfold cells in *; lia).
    unfold interior_voltage. cbv zeta. fold (conductors m).
    rewrite (sumR_ext _ (fun p => get2 (getm idf k) j p * y p)
      (fun p => get2 (getm idf k) j p * sumR (conductors m) (fun q => get2 (cg_F2 (m_core m) k) p q * volt m q k)
                - get2 (getm idf k) j p * di p)).
    2:{ intros p Hp. unfold y. rring. }
    rewrite sumR_minus.
    rewrite <- (sumR_assoc (conductors m) (conductors m) (fun p => get2 (getm idf k) j p)
                  (fun p q => get2 (cg_F2 (m_core m) k) p q) (fun q => volt m q k)).
    rewrite (sumR_ext _ (fun p => get3 vt k j p * get2 (k_v (m_core m)) p k)%num
       (fun q => sumR (conductors m) (fun p => get2 (getm idf k) j p * get2 (cg_F2 (m_core m) k) p q) * volt m q k)).
    2:{ intros q Hq. unfold get3. rewrite Hvt by (unfold cells in *; lia).
        fold (conductors m). rewrite get2_mm by auto. reflexivity. }
    unfold de, fields, eTran, eT_now, eT_prev, eval_fields. rewrite !eval_at_get.
    unfold di, get3, curr. fold t dt. unfold t, dt, step_dt. rsimpl. ring. }
  pose proof (inverse_cancel_l (conductors m) _ _ y c Hi Hc) as E2.
  rewrite (sumR_ext _ _ (fun j => get2 (cg_F1 (m_core m) k) c j * (volt b j k + de j))) in E2
    by (intros j Hj; now rewrite E).
  unfold y in E2.
  rewrite (sum_scaled _ (width m k) (fun j => get2 (cg_F1 (m_core m) k) c j) (fun j => C_ m k c j / dt + G_ m k c j / 2)) in E2
    by (intros; apply cg_F1_get; auto; lia).
  rewrite (sum_scaled _ (width m k) (fun j => get2 (cg_F2 (m_core m) k) c j) (fun j => C_ m k c j / dt - G_ m k c j / 2)) in E2
    by (intros; apply cg_F2_get; auto; lia).
  rewrite <- !sumR_div, <- sumR_plus.
  assert (E3 : sumR (conductors m) (fun p => C_ m k c p * (volt b p k - volt m p k + de p) / dt
                       + G_ m k c p * (volt b p k + volt m p k + de p) / 2)
     = sumR (conductors m) (fun j => (C_ m k c j / dt + G_ m k c j / 2) * (volt b j k + de j))
     - sumR (conductors m) (fun j => (C_ m k c j / dt - G_ m k c j / 2) * volt m j k)).
  { rewrite <- sumR_minus. apply sumR_ext; intros p Hp. unfold Rdiv. rring. }
  rewrite E3. rewrite Rmult_minus_distr_l. rsimpl. rewrite E2. unfold di. ring.
Qed.

Lemma current_eq_step m (b : mtl NumR) c k : shape m -> lr_ready LA (m_core m) -> mtl_step m = Ok b ->
  (c < conductors m)%nat -> (k < cells m)%nat ->
  let dt := step_dt m in let t := m_time m in let n := conductors m in
  cell_len m k *
    (sumR n (fun p => L_ m k c p * (curr b p k - curr m p k)) / dt
     + sumR n (fun p => R_ m k c p * (curr b p k + curr m p k)) / 2
     + sumR n (fun p => D_ m k c p * (curr b p k + curr m p k)) / 2
     + sumR n (fun p => E_ m k c p * (curr b p k - curr m p k)) / dt
     + sumR n (fun p => Q1_ m k c p * curr b p k)
     + sumR n (fun p => Q2_ m k c p * curr m p k)
     + hist_ b k c)
  + (volt b c (S k) - volt b c k) + (eTran m c (S k) t - eTran m c k t)
  = cell_len m k * (eLong m c k (t + dt / 2) + eLong m c k (t - dt / 2)) / 2.
Proof.
  intros Sh Hlr Hst Hc Hk dt t n.
  destruct (lr_ready_inv LA _ Hlr) as (it & vd & Elr & Hinv & Hit).
  pose proof (sh_N _ Sh) as HN.
  destruct (mtl_step_inv m b HN Hst)
    as (vt' & idf' & it' & vd' & d1 & d2 & ps & _ & Elr' & Hd1 & _ & _ & Hi' & Hd2 & _ & Eb).
  rewrite Elr in Elr'. injection Elr' as <- <-.
  subst n. fold (cells m) (conductors m) in *. set (n := conductors m) in *.
  assert (Hi : is_inverse n (lr_F1 (m_core m) k) (getm vd k))
    by (apply (inv_ok LA LAok), Hinv; auto).
  assert (Hph : k_disp (m_core b) = d2) by (rewrite Eb; reflexivity).
  apply update_phi_same in Hd2 as [_ Hq3].
  set (h := cell_len m k) in *.
  set (x := fun j => volt b j (S k) - volt b j k + (eTran m j (S k) t - eTran m j k t)
              - h * (eLong m j k (t + dt / 2) + eLong m j k (t - dt / 2)) / 2).
  set (y := fun j => sumR n (fun p => get2 (lr_F2 (m_core m) k) j p * curr m p k)
                     - x j - h * hist_ b k j).
  assert (E : forall j, (j < n)%nat -> curr b j k = sumR n (fun p => get2 (getm vd k) j p * y p)).
  { intros j Hj. unfold curr at 1. rewrite Hi'. rewrite get2_mk2 by auto.
    unfold cell_current. cbv zeta. cbn [k_n k_v k_h k_disp k_i set_disp set_i_disp set_v].
    fold (conductors m). fold n.
    rewrite (sumR_ext _ (fun p => get2 (getm vd k) j p * y p)
      (fun p => get2 (getm vd k) j p * sumR n (fun q => get2 (lr_F2 (m_core m) k) p q * curr m q k)
                - (get2 (getm vd k) j p * x p + get2 (getm vd k) j p * (h * hist_ b k p)))).
    2:{ intros p Hp. unfold y. rring. }
    rewrite sumR_minus, sumR_plus.
    rewrite <- (sumR_assoc n n (fun p => get2 (getm vd k) j p)
                  (fun p q => get2 (lr_F2 (m_core m) k) p q) (fun q => curr m q k)).
    rewrite (sumR_ext _ (fun p => get3 it k j p * get2 (k_i (m_core m)) p k)%num
       (fun q => sumR n (fun p => get2 (getm vd k) j p * get2 (lr_F2 (m_core m) k) p q) * curr m q k)).
    2:{ intros q Hq. unfold get3. rewrite Hit by auto. fold (conductors m); fold n.
        rewrite get2_mm by auto. reflexivity. }
    match goal with |- context [nsub (nsub _ ?A) ?B] =>
      assert (EA : A = sumR n (fun p => get2 (getm vd k) j p * x p));
      [|assert (EB : B = sumR n (fun p => get2 (getm vd k) j p * (h * hist_ b k p)))] end.
    - apply sumR_ext; intros p Hp. unfold get3 at 1. f_equal. unfold x.
      rewrite (sumR_ext n _ (fun q => @delta NumR p q * (h * (eLong m q k (t + dt / 2) + eLong m q k (t - dt / 2)) / 2))).
      2:{ intros q Hq. rewrite h_diag by auto. fold h.
          unfold fields, eL_now, eL_prev, eval_fields, eLong. rewrite !eval_at_get.
          fold t. unfold dt, step_dt. rsimpl. field. }
      rewrite sumR_delta_l by auto.
      unfold fields, eT_now, eval_fields, eTran. rewrite !eval_at_get. unfold volt. fold t. rring.
    - apply sumR_ext; intros p Hp. unfold get3 at 1. f_equal.
      rewrite (sumR_ext n _ (fun q => @delta NumR p q * (h * hist_ b k q))).
      2:{ intros q Hq. rewrite h_diag by auto. fold h. unfold hist_. rewrite Hph, Hq3. rring. }
      now rewrite sumR_delta_l by auto.
    - rewrite EA, EB. rring. }
  pose proof (inverse_cancel_l n _ _ y c Hi Hc) as E2.
  rewrite (sumR_ext _ _ (fun j => get2 (lr_F1 (m_core m) k) c j * curr b j k)) in E2
    by (intros j Hj; now rewrite E).
  unfold y in E2.
  rewrite (sum_scaled _ h (fun j => get2 (lr_F1 (m_core m) k) c j) (fun j => L_ m k c j / dt + D_ m k c j / 2 + E_ m k c j / dt + R_ m k c j / 2 + Q1_ m k c j)) in E2
    by (intros; apply lr_F1_get; auto).
  rewrite (sum_scaled _ h (fun j => get2 (lr_F2 (m_core m) k) c j) (fun j => L_ m k c j / dt - D_ m k c j / 2 + E_ m k c j / dt - R_ m k c j / 2 - Q2_ m k c j)) in E2
    by (intros; apply lr_F2_get; auto).
  rewrite <- !sumR_div, <- !sumR_plus.
  match goal with |- context [sumR n ?g] => set (gg := g) end.
  assert (E3 : sumR n gg =
       sumR n (fun j => (L_ m k c j / dt + D_ m k c j / 2 + E_ m k c j / dt + R_ m k c j / 2 + Q1_ m k c j) * curr b j k)
     - sumR n (fun j => (L_ m k c j / dt - D_ m k c j / 2 + E_ m k c j / dt - R_ m k c j / 2 - Q2_ m k c j) * curr m j k)).
  { rewrite <- sumR_minus. apply sumR_ext; intros p Hp. unfold gg, Rdiv. rring. }
  rewrite E3. rewrite Rmult_plus_distr_l, Rmult_minus_distr_l. rsimpl. rewrite E2. unfold x. field.
Qed.

(** terminals *)
Lemma port_eq n (z c0 g0 : mat NumR) (h dt0 : R) (t1 t2 c : mat NumR) (h' dt sgn : R)
    (v i vsn vsp etn etp : vec NumR) (w : nat -> R) :
  port_terms LA n z c0 g0 h dt0 = Ok (t1, t2) ->
  (forall a : nat, (a < n)%nat -> w a = port_voltage n t1 t2 z c h' dt sgn v i vsn vsp etn etp a) ->
  forall a : nat, (a < n)%nat ->
  let zc (A : mat NumR) (x : nat -> R) (p : nat) : R := sumR n (fun q => get2 z p q * sumR n (fun r => get2 A q r * x r)) in
  h * (zc c0 (fun r => w r - get v r) a / dt0 + zc g0 (fun r => w r + get v r) a / 2) + w a + get v a
  = sgn * sumR n (fun q => get2 z a q * get i q) + (get vsn a + get vsp a)
    - h' / dt * zc c (fun r => get etn r - get etp r) a.
Proof.
  intros HP Hw a Ha zc. unfold port_terms in HP. inv_bind HP. rename a0 into A. injection HP as Et1 Et2. subst t2.
  unfold inv, of_option in Ha0. destruct (la_inv LA n _) as [A'|] eqn:EI in Ha0; [|discriminate].
  injection Ha0 as ->. apply (inv_ok LA LAok) in EI.
  pose (zc0 := @mdivs NumR n (@mscal NumR n h (mm n z c0)) dt0).
  pose (zg0 := @mdivs NumR n (@mscal NumR n h (mm n z g0)) 2).
  pose (M1 := madd n (madd n zc0 zg0) (eye n)).
  pose (M2 := msub n (msub n zc0 zg0) (eye n)).
  change (is_inverse n M1 A) in EI.
  assert (Et : t1 = mm n A M2) by (symmetry; exact Et1). clear Et1. subst t1.
  set (s := fun b => sgn * sumR n (fun q => get2 z b q * get i q) + (get vsn b + get vsp b)
    - h' / dt * zc c (fun r => get etn r - get etp r) b).
  set (y := fun b => sumR n (fun q => get2 M2 b q * get v q) + s b).
  assert (E : forall b, (b < n)%nat -> w b = sumR n (fun p => get2 A b p * y p)).
  { intros b Hb. rewrite Hw by auto. unfold port_voltage. rewrite !get_mv by auto.
    rewrite (sumR_ext n (fun p => get2 A b p * y p)
        (fun p => get2 A b p * sumR n (fun q => get2 M2 p q * get v q) + get2 A b p * s p))
      by (intros; unfold y; rring).
    rewrite sumR_plus.
    rewrite <- (sumR_assoc n n (fun p => get2 A b p) (fun p q => get2 M2 p q) (fun q => get v q)).
    apply (f_equal2 Rplus).
    - apply sumR_ext; intros q Hq. rewrite get2_mm by auto. reflexivity.
    - apply sumR_ext; intros q Hq. apply (f_equal (Rmult (get2 A b q))). rewrite get_mk by auto.
      rewrite !get_mv by auto. unfold s. apply (f_equal2 Rminus); [reflexivity|]. apply (f_equal (Rmult (h' / dt))). unfold zc.
      rewrite <- (sumR_assoc n n (fun p => get2 z q p) (fun p r => get2 c p r) (fun r => get etn r - get etp r)).
      apply sumR_ext; intros r Hr. rewrite get2_mm, get_mk by auto. reflexivity. }
  pose proof (inverse_cancel_l n _ _ y a EI Ha) as E2.
  rewrite (sumR_ext _ _ (fun j => get2 M1 a j * w j)) in E2 by (intros j Hj; now rewrite E).
  fold (s a).
  assert (F : forall (sg : R) (B : mat NumR) (x : nat -> R), 
      sumR n (fun j => sumR n (fun k => get2 z a k * get2 B k j) * x j) = zc B x a).
  { intros _ B x. unfold zc. apply sumR_assoc. }
  assert (E1 : sumR n (fun j => get2 M1 a j * w j) = h * (zc c0 w a / dt0 + zc g0 w a / 2) + w a).
  { rewrite <- (F 1 c0 w), <- (F 1 g0 w).
    replace (w a) with (sumR n (fun j => @delta NumR a j * w j)) by (now apply sumR_delta_l).
    rewrite <- !sumR_div, <- sumR_plus, <- sumR_scal, <- sumR_plus.
    apply sumR_ext; intros j Hj. unfold M1, zc0, zg0.
    rewrite !get2_madd, !get2_mdivs, !get2_mscal, !get2_mm, get2_eye by auto. unfold Rdiv. rsimpl. unfold Rdiv. ring. }
  assert (E4 : sumR n (fun j => get2 M2 a j * get v j) = h * (zc c0 (get v) a / dt0 - zc g0 (get v) a / 2) - get v a).
  { rewrite <- (F 1 c0 (get v)), <- (F 1 g0 (get v)).
    replace (get v a) with (sumR n (fun j => @delta NumR a j * get v j)) by (now apply (sumR_delta_l n (get v))).
    rewrite <- !sumR_div, <- sumR_minus, <- sumR_scal, <- sumR_minus.
    apply sumR_ext; intros j Hj. unfold M2, zc0, zg0.
    rewrite !get2_msub, !get2_mdivs, !get2_mscal, !get2_mm, get2_eye by auto. unfold Rdiv. rsimpl. unfold Rdiv. ring. }
  assert (E5 : forall B, zc B (fun r => w r - get v r) a = zc B w a - zc B (get v) a).
  { intros B. rewrite <- !(F 1 B), <- sumR_minus. apply sumR_ext; intros; rring. }
  assert (E6 : forall B, zc B (fun r => w r + get v r) a = zc B w a + zc B (get v) a).
  { intros B. rewrite <- !(F 1 B), <- sumR_plus. apply sumR_ext; intros; rring. }
  rewrite E5, E6. unfold y in E2. rewrite E1, E4 in E2. unfold Rdiv in *. rsimpl. unfold Rdiv in *. nra.
Qed.

End Eq.
