(** Facts on the functions that prepare and export rational fits, over the reals. *)
From Coq Require Import String List Arith ZArith Bool Lia Reals Lra Psatz.
From Verif Require Import Num Py Arr ArrFacts NumR RFacts Dispersive CoreEq NetPlace PlainFacts Fitting SpecFitting.
Import ListNotations.
Local Open Scope R_scope.
Notation cR := (cplx NumR).

Lemma omega_R (f : R) : @omega NumR f = 2 * PI * f.
Proof. unfold omega. rsimpl. ring. Qed.
Lemma sq_pos a b : a <> 0 -> 0 < a * a + b * b.
Proof. intros H. nra. Qed.
Lemma one_sq a : 0 < 1 + a * a. Proof. nra. Qed.
Lemma RC_value (f R0 C : R) : R0 <> 0 -> C <> 0 -> let q := 2 * PI * f * R0 * C in @RCpar NumR f R0 C = (R0 / (1 + q * q), - (R0 * q) / (1 + q * q)).
Proof.
  intros HR HC q. unfold RCpar, cdiv. rewrite omega_R. cbn [fst snd]. unfold q. pose proof (one_sq (2 * PI * f * R0 * C)) as P.
  assert (D : 1 / (C * R0) * (1 / (C * R0)) + 2 * PI * f * (2 * PI * f) = (1 + 2 * PI * f * R0 * C * (2 * PI * f * R0 * C)) / (C * R0 * (C * R0))) by (field; auto).
  rsimpl. rewrite D. f_equal; field; repeat split; auto; lra.
Qed.
Lemma RL_value (f R0 L : R) : R0 <> 0 -> L <> 0 -> let x := 2 * PI * f * L in @RLpar NumR f R0 L = (R0 * (x * x) / (R0 * R0 + x * x), R0 * R0 * x / (R0 * R0 + x * x)).
Proof.
  intros HR HL x. unfold RLpar, cdiv. rewrite omega_R. cbn [fst snd]. unfold x. pose proof (sq_pos R0 (2 * PI * f * L) HR) as P.
  assert (D : R0 / L * (R0 / L) + 2 * PI * f * (2 * PI * f) = (R0 * R0 + 2 * PI * f * L * (2 * PI * f * L)) / (L * L)) by (field; auto).
  rsimpl. rewrite D. f_equal; field; repeat split; auto; lra.
Qed.
Lemma YRL_value (f R0 L : R) : R0 <> 0 -> let x := 2 * PI * f * L in @Y_RLseriesDisp NumR f R0 L 1 = (R0 / (R0 * R0 + x * x), - x / (R0 * R0 + x * x)).
Proof.
  intros HR x. unfold Y_RLseriesDisp, RLseriesDisp, cdiv, c1, npow. rewrite omega_R. cbn [fst snd]. unfold x. pose proof (sq_pos R0 (2 * PI * f * L) HR) as P.
  rsimpl. replace (2 * PI * f * 1 * L) with (2 * PI * f * L) by ring. f_equal; field; lra.
Qed.
Lemma RC_parallel (f R0 C : R) : R0 <> 0 -> C <> 0 -> ctimes (@RCpar NumR f R0 C) (/ R0, 2 * PI * f * C) = (1, 0).
Proof.
  intros HR HC. rewrite (RC_value f R0 C HR HC). cbv zeta. pose proof (one_sq (2 * PI * f * R0 * C)). unfold ctimes. cbn [fst snd]. f_equal; field; split; auto; lra.
Qed.
Lemma RL_parallel (f R0 L : R) : R0 <> 0 -> L <> 0 -> f <> 0 -> ctimes (@RLpar NumR f R0 L) (/ R0, - / (2 * PI * f * L)) = (1, 0).
Proof.
  intros HR HL Hf. rewrite (RL_value f R0 L HR HL). cbv zeta. pose proof (sq_pos R0 (2 * PI * f * L) HR). pose proof PI_RGT_0. unfold ctimes. cbn [fst snd]. f_equal; field; repeat split; auto; lra.
Qed.
Lemma npow_R (x : R) n : @npow NumR x n = x ^ n.
Proof. induction n as [|n IH]; cbn [npow pow]; [reflexivity|]. rewrite IH. reflexivity. Qed.
Lemma RL_power (f R0 L : R) n : @RLseriesDisp NumR f R0 L n = (R0, (2 * PI * f) ^ n * L) /\ (R0 <> 0 -> ctimes (@Y_RLseriesDisp NumR f R0 L n) (R0, (2 * PI * f) ^ n * L) = (1, 0)).
Proof.
  assert (E : @RLseriesDisp NumR f R0 L n = (R0, (2 * PI * f) ^ n * L)) by (unfold RLseriesDisp; rewrite omega_R, npow_R; reflexivity).
  split; [exact E|]. intros HR. unfold Y_RLseriesDisp. rewrite E. set (x := (2 * PI * f) ^ n * L). pose proof (sq_pos R0 x HR) as P.
  unfold cdiv, c1, ctimes. cbn [fst snd]. rsimpl. f_equal; field; nra.
Qed.
Lemma YRL_series (f R0 L : R) : R0 <> 0 -> ctimes (@Y_RLseriesDisp NumR f R0 L 1) (R0, 2 * PI * f * L) = (1, 0).
Proof.
  intros HR. rewrite (YRL_value f R0 L HR). cbv zeta. pose proof (sq_pos R0 (2 * PI * f * L) HR). unfold ctimes. cbn [fst snd]. f_equal; field; lra.
Qed.
Lemma div_le a b c : 0 < b -> a <= c * b -> a / b <= c.
Proof. intros Hb H. apply (Rmult_le_reg_r b); [exact Hb|]. unfold Rdiv. rewrite Rmult_assoc, Rinv_l by lra. lra. Qed.
Lemma div_nonneg a b : 0 < b -> 0 <= a -> 0 <= a / b.
Proof. intros Hb H. unfold Rdiv. apply Rmult_le_pos; [exact H|]. left. now apply Rinv_0_lt_compat. Qed.
Lemma passive_values (f R0 L C : R) : 0 < R0 -> 0 < L -> 0 < C ->
  0 <= fst (@RCpar NumR f R0 C) <= R0 /\ 0 <= fst (@RLpar NumR f R0 L) <= R0 /\ 0 < fst (@Y_RLseriesDisp NumR f R0 L 1) <= / R0.
Proof.
  intros HR HL HC. rewrite (RC_value f R0 C), (RL_value f R0 L), (YRL_value f R0 L) by lra. cbv zeta. cbn [fst].
  pose proof (one_sq (2 * PI * f * R0 * C)) as P1. pose proof (sq_pos R0 (2 * PI * f * L) ltac:(lra)) as P2. repeat split.
  - apply div_nonneg; [exact P1|lra].
  - apply div_le; [exact P1|]. nra.
  - apply div_nonneg; [exact P2|]. nra.
  - apply div_le; [exact P2|]. nra.
  - apply Rdiv_lt_0_compat; assumption.
  - apply div_le; [exact P2|]. rewrite Rmult_plus_distr_l. replace (/ R0 * (R0 * R0)) with R0 by (field; lra). assert (0 <= / R0) by (left; now apply Rinv_0_lt_compat). nra.
Qed.

(** *** sums *)
Lemma py_get_nth {A} (l : list A) i d : (i < length l)%nat -> py_get l i = Ok (nth i l d).
Proof. intros H. unfold py_get. now rewrite (nth_error_nth' l d H). Qed.
Lemma py_get_over {A} (l : list A) i : (length l <= i)%nat -> py_get l i = Err IndexError.
Proof. intros H. unfold py_get. now rewrite (proj2 (nth_error_None l i) H). Qed.
Lemma fold_sum (t : nat -> R * R) (g : cR -> nat -> res cR) n c : (forall out i, (i < n)%nat -> g out i = Ok (@cadd NumR out (t i))) ->
  foldM g (seq 0 n) c = Ok (fst c + sumR n (fun i => fst (t i)), snd c + sumR n (fun i => snd (t i))).
Proof.
  intros H. induction n as [|n IH]; [cbn [seq foldM]; rewrite !sumR_0, !Rplus_0_r; now destruct c|].
  rewrite seq_S, foldM_app, IH by (intros; apply H; lia). cbn [bind foldM Nat.add]. rewrite H by lia. cbn [bind]. unfold cadd. cbn [fst snd]. rewrite !sumR_S. rsimpl. do 2 f_equal; ring.
Qed.
Definition vf_term (f : R) (p r : list (R * R)) (i : nat) : R * R :=
  let a := fst (nth i p (0, 0)) in let b := 2 * PI * f - snd (nth i p (0, 0)) in let u := fst (nth i r (0, 0)) in let v := snd (nth i r (0, 0)) in
  ((b * v - a * u) / (a * a + b * b), - (b * u + a * v) / (a * a + b * b)).
Lemma vf_alg (u v a b : R) : ((u * (0 - a) + v * b) / ((0 - a) * (0 - a) + b * b), (v * (0 - a) - u * b) / ((0 - a) * (0 - a) + b * b))
  = ((b * v - a * u) / (a * a + b * b), - (b * u + a * v) / (a * a + b * b)).
Proof. replace ((0 - a) * (0 - a)) with (a * a) by ring. unfold Rdiv. f_equal; f_equal; ring. Qed.
Lemma vf_value (f : R) (p r : list cR) : (length p <= length r)%nat -> @vf NumR f p r = Ok (sumR (length p) (fun i => fst (vf_term f p r i)), sumR (length p) (fun i => snd (vf_term f p r i))).
Proof.
  intros L. unfold vf. rewrite (fold_sum (vf_term f p r)).
  - unfold c0. cbn [fst snd]. rsimpl. now rewrite !Rplus_0_l.
  - intros out i Hi. unfold vfi. rewrite (py_get_nth r i (0, 0)) by lia. cbn [bind]. rewrite (py_get_nth p i (0, 0)) by lia. cbn [bind]. do 2 f_equal. unfold vf_term, cdiv, csub. rewrite omega_R. cbn [fst snd]. rsimpl. apply vf_alg.
Qed.
Definition eps_term (f : R) (k tau : list R) (i : nat) : R * R := let q := 2 * PI * f * nth i tau 0 in (nth i k 0 / (1 + q * q), - (nth i k 0 * q) / (1 + q * q)).
Lemma eps_value (f : R) (k tau : vec NumR) : (length k <= length tau)%nat ->
  @epsDebye NumR f k tau = Ok (1 + sumR (length k) (fun i => fst (eps_term f k tau i)), sumR (length k) (fun i => snd (eps_term f k tau i))).
Proof.
  intros L. unfold epsDebye. rewrite (fold_sum (eps_term f k tau)).
  - unfold c1. cbn [fst snd]. rsimpl. now rewrite Rplus_0_l.
  - intros out i Hi. rewrite (py_get_nth k i 0) by lia. cbn [bind]. rewrite (py_get_nth tau i 0) by lia. cbn [bind]. do 2 f_equal. unfold eps_term, cdiv. rewrite omega_R. cbn [fst snd]. rsimpl.
    unfold Rdiv. f_equal; f_equal; try ring; f_equal; ring.
Qed.
Lemma err_value (f : R) (k tau : vec NumR) (p rnd : R) : (length k <= length tau)%nat -> let ran := 1 + p * 2 / 100 * rnd - p / 100 in
  @epsDebyeErr NumR f k tau p rnd = Ok (1 + ran * sumR (length k) (fun i => fst (eps_term f k tau i)), ran * sumR (length k) (fun i => snd (eps_term f k tau i))).
Proof.
  intros L ran. unfold epsDebyeErr. cbv zeta. rewrite (fold_sum (fun i => (ran * fst (eps_term f k tau i), ran * snd (eps_term f k tau i)))).
  - unfold c1. cbn [fst snd]. rsimpl. rewrite Rplus_0_l. rewrite <- !sumR_scal. reflexivity.
  - intros out i Hi. rewrite (py_get_nth k i 0) by lia. cbn [bind]. rewrite (py_get_nth tau i 0) by lia. cbn [bind]. do 2 f_equal. unfold eps_term, cdiv. rewrite omega_R. cbn [fst snd]. rsimpl.
    fold ran. replace (1 + 1) with 2 by ring. fold ran. unfold Rdiv. f_equal; rewrite <- ?Rmult_assoc; f_equal; try ring; f_equal; ring.
Qed.

Lemma total_sum n t : ctotal n t = (sumR n (fun i => fst (t i)), sumR n (fun i => snd (t i))).
Proof. induction n as [|n IH]; cbn [ctotal]; [now rewrite !sumR_0|]. rewrite IH, !sumR_S. reflexivity. Qed.
Lemma quot (x d : R * R) (t : R * R) : ctimes t d = x -> 0 < fst d * fst d + snd d * snd d -> t = @cdiv NumR x d.
Proof. intros <- P. unfold cdiv, ctimes. cbn [fst snd]. rsimpl. destruct t as [t1 t2], d as [d1 d2]. cbn [fst snd] in *. f_equal; field; lra. Qed.
(** a sum of partial fractions is the value returned *)
Lemma vf_spec (f : R) (p r : list (R * R)) (t : nat -> R * R) : (length p <= length r)%nat ->
  (forall i, (i < length p)%nat -> ctimes (t i) (minus_c (jw f) (nth i p (0, 0))) = nth i r (0, 0) /\ minus_c (jw f) (nth i p (0, 0)) <> (0, 0)) ->
  @vf NumR f p r = Ok (ctotal (length p) t).
Proof.
  intros L H. rewrite (vf_value f p r L), total_sum. f_equal. f_equal; apply sumR_ext; intros i Hi; destruct (H i Hi) as [E NZ];
    destruct (t i) as [t1 t2]; unfold ctimes, minus_c, jw, vf_term in *; destruct (nth i p (0, 0)) as [a b]; cbn [fst snd] in *; rewrite <- E; cbn [fst snd];
    set (w := 2 * PI * f - b) in *; (assert (P : a * a + w * w <> 0) by (intros X; apply NZ; assert (a = 0) by nra; assert (w = 0) by nra; f_equal; lra)); rfield; intros X; apply P; lra.
Qed.
Lemma vf_short (f : R) (p r : list (R * R)) : (length r < length p)%nat -> @vf NumR f p r = Err IndexError.
Proof.
  intros L. unfold vf. change (@length (cplx NumR) p) with (@length (R * R) p). replace (length p) with (length r + S (length p - length r - 1))%nat by lia. rewrite seq_app, foldM_app.
  rewrite (fold_sum (fun i => @cdiv NumR (nth i r (0, 0)) (@csub NumR (0, @omega NumR f) (nth i p (0, 0))))).
  - cbn [bind seq foldM Nat.add]. unfold vfi. rewrite (@py_get_over (cplx NumR) r (length r)) by apply Nat.le_refl. reflexivity.
  - intros out i Hi. unfold vfi. rewrite (@py_get_nth (cplx NumR) r i (0, 0)) by exact Hi. cbn [bind]. rewrite (@py_get_nth (cplx NumR) p i (0, 0)) by (apply (Nat.lt_trans _ _ _ Hi); exact L). reflexivity.
Qed.
Lemma RC_rational (f R0 C : R) : R0 <> 0 -> C <> 0 -> @vf NumR f [(- / (C * R0), 0)] [(/ C, 0)] = Ok (@RCpar NumR f R0 C).
Proof.
  intros HR HC. rewrite vf_value by (cbn [length]; lia). cbn [length]. rewrite !sumR_S, !sumR_0. unfold vf_term. cbn [nth fst snd]. rewrite (RC_value f R0 C HR HC). cbv zeta.
  pose proof (one_sq (2 * PI * f * R0 * C)) as P. rewrite Rminus_0_r.
  replace (- / (C * R0) * - / (C * R0) + 2 * PI * f * (2 * PI * f)) with ((1 + 2 * PI * f * R0 * C * (2 * PI * f * R0 * C)) / (C * R0 * (C * R0))) by (field; auto). do 2 f_equal; field; repeat split; auto; lra.
Qed.
Lemma RL_rational (f R0 L : R) : R0 <> 0 -> L <> 0 -> exists v, @vf NumR f [(- (R0 / L), 0)] [(- (R0 * R0 / L), 0)] = Ok v /\ @RLpar NumR f R0 L = cplus (R0, 0) v.
Proof.
  intros HR HL. rewrite vf_value by (cbn [length]; lia). eexists. split; [reflexivity|]. cbn [length]. rewrite !sumR_S, !sumR_0. unfold vf_term. cbn [nth fst snd]. rewrite (RL_value f R0 L HR HL). cbv zeta.
  pose proof (sq_pos R0 (2 * PI * f * L) HR) as P. rewrite Rminus_0_r. unfold cplus. cbn [fst snd].
  replace (- (R0 / L) * - (R0 / L) + 2 * PI * f * (2 * PI * f)) with ((R0 * R0 + 2 * PI * f * L * (2 * PI * f * L)) / (L * L)) by (field; auto). f_equal; field; repeat split; auto; lra.
Qed.
Lemma YRL_rational (f R0 L : R) : R0 <> 0 -> L <> 0 -> @vf NumR f [(- (R0 / L), 0)] [(/ L, 0)] = Ok (@Y_RLseriesDisp NumR f R0 L 1).
Proof.
  intros HR HL. rewrite vf_value by (cbn [length]; lia). cbn [length]. rewrite !sumR_S, !sumR_0. unfold vf_term. cbn [nth fst snd]. rewrite (YRL_value f R0 L HR). cbv zeta.
  pose proof (sq_pos R0 (2 * PI * f * L) HR) as P. rewrite Rminus_0_r.
  replace (- (R0 / L) * - (R0 / L) + 2 * PI * f * (2 * PI * f)) with ((R0 * R0 + 2 * PI * f * L * (2 * PI * f * L)) / (L * L)) by (field; auto). do 2 f_equal; field; repeat split; auto; lra.
Qed.
Lemma debye_rational (f : R) (k tau : list R) (p r : list (R * R)) : length tau = length k -> length p = length k -> length r = length k ->
  (forall i, (i < length k)%nat -> nth i tau 0 <> 0 /\ nth i p (0, 0) = (- / nth i tau 0, 0) /\ nth i r (0, 0) = (nth i k 0 / nth i tau 0, 0)) ->
  exists v, @vf NumR f p r = Ok v /\ @epsDebye NumR f k tau = Ok (cplus (1, 0) v).
Proof.
  intros Lt Lp Lr H. rewrite vf_value by (apply Nat.eq_le_incl; exact (eq_trans Lp (eq_sym Lr))). rewrite eps_value by (apply Nat.eq_le_incl; exact (eq_sym Lt)). eexists. split; [reflexivity|]. unfold cplus. cbn [fst snd]. rewrite Rplus_0_l. change (@length (cplx NumR) p) with (@length (R * R) p). change (@length (car NumR) k) with (@length R k). rewrite Lp. f_equal. f_equal; [f_equal|]; apply sumR_ext; intros i Hi;
  destruct (H i Hi) as (T0 & Ep & Er); unfold eps_term, vf_term; rewrite Ep, Er; cbn [fst snd]; set (t := nth i tau 0) in *; rewrite Rminus_0_r; pose proof (one_sq (2 * PI * f * t)) as P;
  replace (- / t * - / t + 2 * PI * f * (2 * PI * f)) with ((1 + 2 * PI * f * t * (2 * PI * f * t)) / (t * t)) by (field; auto); rfield; repeat split; auto; lra.
Qed.
Lemma debye_signs (f : R) (k tau : list R) v : length tau = length k -> 0 <= f -> (forall i, (i < length k)%nat -> 0 <= nth i k 0 /\ 0 <= nth i tau 0) -> @epsDebye NumR f k tau = Ok v ->
  1 <= fst v <= 1 + sumR (length k) (fun i => nth i k 0) /\ snd v <= 0.
Proof.
  intros L Hf H E. rewrite eps_value in E by (apply Nat.eq_le_incl; exact (eq_sym L)). injection E as <-. cbn [fst snd]. change (@length (car NumR) k) with (@length R k). pose proof PI_RGT_0 as HP. split; [split|].
  - assert (0 <= sumR (length k) (fun i => fst (eps_term f k tau i))); [|cbn [eps_term fst snd] in *; rlra]. apply sumR_nonneg. intros i Hi. unfold eps_term. cbn [fst]. apply div_nonneg; [apply one_sq|]. apply H; exact Hi.
  - apply Rplus_le_compat_l. apply sumR_le. intros i Hi. unfold eps_term. cbn [fst]. apply div_le; [apply one_sq|]. pose proof (proj1 (H i Hi)). generalize (2 * PI * f * nth i tau 0). intros q. pose proof (Rle_0_sqr q) as Q. unfold Rsqr in Q. rty. nra.
  - assert (0 <= sumR (length k) (fun i => - snd (eps_term f k tau i))); [|rewrite sumR_opp in *; cbn [eps_term fst snd] in *; rlra]. apply sumR_nonneg. intros i Hi. unfold eps_term. cbn [snd]. destruct (H i Hi) as [Hk Ht]. set (q := 2 * PI * f * nth i tau 0).
    assert (0 <= q) by (unfold q; apply Rmult_le_pos; [nra|exact Ht]). replace (- (- (nth i k 0 * q) / (1 + q * q))) with (nth i k 0 * q / (1 + q * q)) by (field; pose proof (one_sq q); lra). apply div_nonneg; [apply one_sq|]. now apply Rmult_le_pos.
Qed.
Lemma err_alg (r S : R) : 1 + r * S = 1 + r * (1 + S - 1).
Proof. ring. Qed.
Lemma debye_err (f : R) (k tau : list R) p rnd v : length tau = length k -> 0 <= p -> 0 <= rnd <= 1 -> @epsDebye NumR f k tau = Ok v ->
  exists ran, Rabs (ran - 1) <= p / 100 /\ @epsDebyeErr NumR f k tau p rnd = Ok (1 + ran * (fst v - 1), ran * snd v).
Proof.
  intros L Hp Hr E. rewrite eps_value in E by (apply Nat.eq_le_incl; exact (eq_sym L)). injection E as <-. cbn [fst snd]. change (@length (car NumR) k) with (@length R k). exists (1 + p * 2 / 100 * rnd - p / 100). split; [apply Rabs_le; nra|]. rewrite err_value by (apply Nat.eq_le_incl; exact (eq_sym L)). cbv zeta. f_equal. cbn [eps_term fst snd]. f_equal.
  exact (err_alg _ _).
Qed.
Lemma debye_short (f : R) (k tau : list R) p rnd : (length tau < length k)%nat -> @epsDebye NumR f k tau = Err IndexError /\ @epsDebyeErr NumR f k tau p rnd = Err IndexError.
Proof.
  intros L. unfold epsDebye, epsDebyeErr. cbv zeta. change (@length (car NumR) k) with (@length R k). replace (length k) with (length tau + S (length k - length tau - 1))%nat by lia. rewrite seq_app, !foldM_app.
  rewrite (fold_sum (fun i => @cdiv NumR (nth i k 0, 0) (1, @omega NumR f * nth i tau 0))) by (intros out i Hi; rewrite (@py_get_nth (car NumR) k i 0) by (apply (Nat.lt_trans _ _ _ Hi); exact L); cbn [bind]; rewrite (@py_get_nth (car NumR) tau i 0) by exact Hi; reflexivity).
  set (ran := @nsub NumR _ _). rewrite (fold_sum (fun i => @cdiv NumR (ran * nth i k 0, 0) (1, @omega NumR f * nth i tau 0))) by (intros out i Hi; rewrite (@py_get_nth (car NumR) k i 0) by (apply (Nat.lt_trans _ _ _ Hi); exact L); cbn [bind]; rewrite (@py_get_nth (car NumR) tau i 0) by exact Hi; reflexivity).
  cbn [bind seq foldM Nat.add]. rewrite (@py_get_nth (car NumR) k (length tau) 0) by exact L. cbn [bind]. rewrite (@py_get_over (car NumR) tau (length tau)) by apply Nat.le_refl. split; reflexivity.
Qed.

(** *** the skin-effect impedance *)
Lemma z_below (f f0 rdc : R) : f < f0 -> @z NumR f f0 rdc = (rdc, rdc * (f / f0)).
Proof.
  intros H. unfold z, cadd, cscal. cbn [fst snd]. rsimpl. destruct (Rleb_spec f f0); [|lra]. destruct (Rleb_spec f0 f); [lra|]. f_equal; ring.
Qed.
Lemma z_above (f f0 rdc : R) : f0 < f -> @z NumR f f0 rdc = (rdc * sqrt (f / f0), rdc * sqrt (f / f0)).
Proof.
  intros H. unfold z, cadd, cscal. cbn [fst snd]. rsimpl. destruct (Rleb_spec f0 f); [|lra]. destruct (Rleb_spec f f0); [lra|]. f_equal; ring.
Qed.
Lemma z_at (f0 rdc : R) : f0 <> 0 -> @z NumR f0 f0 rdc = (2 * rdc, 2 * rdc).
Proof.
  intros H. unfold z, cadd, cscal. cbn [fst snd]. rsimpl. destruct (Rleb_spec f0 f0); [|lra]. replace (f0 / f0) with 1 by (field; exact H). rewrite sqrt_1. f_equal; ring.
Qed.

(** *** the export *)
Section Export.
Context {N : num}.
Variables (nPoles : nat) (constant proportional : bool) (a b : vec N) (p : list (cplx N)) (r : list (list (cplx N))).
Lemma py_get_index {A} (l : list A) i e : py_get l i = Err e -> e = IndexError.
Proof. unfold py_get. destruct (nth_error l i); cbn; congruence. Qed.
Lemma py_get_some {A} (l : list A) i x : py_get l i = Ok x <-> nth_error l i = Some x.
Proof. unfold py_get. destruct (nth_error l i); cbn; split; congruence. Qed.
Lemma mapM_err {A B} (g : A -> res B) l e : mapM g l = Err e -> exists x, In x l /\ g x = Err e.
Proof.
  induction l as [|x l IH]; cbn [mapM]; [discriminate|]. destruct (g x) eqn:E; cbn [bind]; [|intros [= <-]; exists x; split; [now left|exact E]].
  destruct (mapM g l); cbn [bind]; [discriminate|]. intros H. destruct (IH H) as (y & Hy & Ey). exists y. split; [now right|exact Ey].
Qed.
Lemma mapM_fail {A B} (g : A -> res B) l x e0 : In x l -> g x = Err e0 -> exists e, mapM g l = Err e.
Proof.
  induction l as [|y l IH]; intros H E; [destruct H|]. cbn [mapM]. destruct (g y) as [v|e] eqn:Ey; cbn [bind]; [|eauto]. destruct H as [->|H]; [congruence|]. destruct (IH H E) as [e ->]. cbn [bind]. eauto.
Qed.
Lemma entry_index i e : serialize_entry nPoles constant proportional a b p r i = Err e -> e = IndexError.
Proof.
  unfold serialize_entry. destruct (if constant then _ else _) eqn:E1; cbn [bind].
  2:{ destruct constant; [|discriminate]. intros [= <-]. now apply py_get_index in E1. }
  destruct (if proportional then _ else _) eqn:E2; cbn [bind].
  2:{ destruct proportional; [|discriminate]. intros [= <-]. now apply py_get_index in E2. }
  destruct (mapM _ _) eqn:E3; cbn [bind]; [discriminate|]. intros [= <-]. apply mapM_err in E3 as (j & _ & E3).
  destruct (py_get p j) eqn:Ep; cbn [bind] in E3; [|injection E3 as <-; now apply py_get_index in Ep]. destruct (py_get r _) as [row0|] eqn:Er; cbn [bind] in E3; [|injection E3 as <-; now apply py_get_index in Er].
  destruct (py_get row0 j) eqn:El; cbn [bind] in E3; [discriminate|]. injection E3 as <-. now apply py_get_index in El.
Qed.
Notation exportable := (exportable nPoles constant proportional a b p r).
Notation exported := (exported nPoles constant proportional a b p r).
Lemma firstn_mk {A} (l : list A) n d : (n <= length l)%nat -> firstn n l = mk n (fun j => nth j l d).
Proof.
  intros H. apply (nth_ext _ _ d d); [rewrite firstn_length, length_mk; lia|]. intros j Hj. rewrite firstn_length in Hj. rewrite nth_mk by lia. rewrite <- (firstn_skipn n l) at 2. rewrite app_nth1 by (rewrite firstn_length; lia). reflexivity.
Qed.
Lemma map_mk {A B} (g : A -> B) n h : map g (mk n h) = mk n (fun j => g (h j)).
Proof. unfold mk. now rewrite map_map. Qed.
Lemma entry_ok i : exportable i -> serialize_entry nPoles constant proportional a b p r i = Ok (exported i).
Proof.
  intros (Ha & Hb & Hp). unfold serialize_entry.
  replace (if constant then py_get a (i * nPoles) else Ok n0) with (Ok (if constant then nth (i * nPoles) a n0 else n0) : res N) by (destruct constant; [symmetry; apply py_get_nth; auto|reflexivity]). cbn [bind].
  replace (if proportional then py_get b (i * nPoles) else Ok n0) with (Ok (if proportional then nth (i * nPoles) b n0 else n0) : res N) by (destruct proportional; [symmetry; apply py_get_nth; auto|reflexivity]). cbn [bind].
  destruct (Nat.eq_dec nPoles 0) as [Z|NZ]; [unfold SpecFitting.exported; rewrite Z; cbn [seq mapM bind map firstn]; reflexivity|]. destruct (Hp ltac:(lia)) as (Lp & row & Er & Lr).
  rewrite (mapM_mk _ nPoles (fun j => (nth j p c0, nth j row c0))).
  2:{ intros j Hj. rewrite (py_get_nth p j c0) by lia. cbn [bind]. rewrite (proj2 (py_get_some r (i * nPoles) row) Er). cbn [bind]. rewrite (py_get_nth row j c0) by lia. reflexivity. }
  cbn [bind]. unfold SpecFitting.exported. rewrite (nth_error_nth r (i * nPoles) [] Er), !(firstn_mk p nPoles c0), !(firstn_mk row nPoles c0), !map_mk by assumption. reflexivity.
Qed.
Lemma entry_fail i : ~ exportable i -> serialize_entry nPoles constant proportional a b p r i = Err IndexError.
Proof.
  intros H. destruct (serialize_entry _ _ _ _ _ _ _ i) as [x|e] eqn:E; [|now rewrite (entry_index _ _ E)]. exfalso. apply H. unfold serialize_entry in E. apply bind_Ok in E as (c & Hc & E). apply bind_Ok in E as (g & Hg & E). apply bind_Ok in E as (pq & Hpq & _).
  split; [intros K; rewrite K in Hc; apply py_get_some in Hc; apply nth_error_Some; congruence|]. split; [intros K; rewrite K in Hg; apply py_get_some in Hg; apply nth_error_Some; congruence|].
  intros NZ. pose proof (mapM_seq _ nPoles pq (nPoles - 1) (c0, c0) Hpq ltac:(lia)) as L. cbv beta in L. apply bind_Ok in L as (pj & Ep & E). apply bind_Ok in E as (row & Er & E). apply bind_Ok in E as (rj & El & _). apply py_get_some in Ep, Er, El.
  split; [assert (nPoles - 1 < length p)%nat by (apply nth_error_Some; congruence); lia|]. exists row. split; [exact Er|]. assert (nPoles - 1 < length row)%nat by (apply nth_error_Some; congruence). lia.
Qed.
Lemma export_all dim : (forall i, (i < dim)%nat -> exportable i) -> mapM (serialize_entry nPoles constant proportional a b p r) (seq 0 dim) = Ok (map exported (seq 0 dim)).
Proof. intros H. rewrite (mapM_ext _ (fun i => Ok (exported i))); [apply mapM_total|]. intros i Hi. apply in_seq in Hi. apply entry_ok, H. lia. Qed.
Lemma export_fail dim i : (i < dim)%nat -> ~ exportable i -> mapM (serialize_entry nPoles constant proportional a b p r) (seq 0 dim) = Err IndexError.
Proof.
  intros Hi H. destruct (mapM_fail _ (seq 0 dim) i _ ltac:(apply in_seq; lia) (entry_fail i H)) as [e E]. rewrite E. destruct (mapM_err _ _ _ E) as (j & _ & Ej). now rewrite (entry_index _ _ Ej).
Qed.
End Export.
Section Serialize.
Context {N : num}.
Variables (nReal nCmplx : nat) (constant proportional : bool) (a b : vec N) (p : list (cplx N)) (r : list (list (cplx N))).
Lemma serialize_ok : (forall i, i < Nat.sqrt (length r) -> exportable (nReal + nCmplx * 2) constant proportional a b p r i)%nat ->
  serializeJSON nReal nCmplx constant proportional a b p r = (Some (map (exported (nReal + nCmplx * 2) constant proportional a b p r) (seq 0 (Nat.sqrt (length r)))), Ok tt).
Proof. intros H. unfold serializeJSON. cbv zeta. rewrite (export_all _ _ _ _ _ _ _ _ H). reflexivity. Qed.
Lemma serialize_fail i : (i < Nat.sqrt (length r))%nat -> ~ exportable (nReal + nCmplx * 2) constant proportional a b p r i ->
  serializeJSON nReal nCmplx constant proportional a b p r = (None, Err IndexError).
Proof. intros Hi H. unfold serializeJSON. cbv zeta. rewrite (export_fail _ _ _ _ _ _ _ _ i Hi H). reflexivity. Qed.
End Serialize.
Lemma diagonal_rows dim k : (forall i, (i < dim)%nat -> i * k = diagonal_row dim i)%nat <-> (dim <= 1 \/ k = dim + 1)%nat.
Proof.
  unfold diagonal_row. split.
  - intros H. destruct (Nat.le_gt_cases dim 1) as [L|L]; [now left|]. right. specialize (H 1%nat L). lia.
  - intros [L| ->] i Hi; [replace i with 0%nat by lia; lia|lia].
Qed.

Lemma Zw_value (f f0 r s : R) : @Zw NumR f f0 r s = (exp (- ((f - f0) * (f - f0)) / (2 * (s * s))) * r, exp (- ((f - f0) * (f - f0)) / (2 * (s * s))) * (r * (5 / 2))).
Proof. unfold Zw, cscal. cbn [fst snd]. rsimpl. replace (1 + 1) with 2 by ring. reflexivity. Qed.
Lemma Zw_inverse (f f0 r s : R) : r <> 0 -> ctimes (@Zw NumR f f0 r s) (@Y_Zw NumR f f0 r s) = (1, 0).
Proof.
  intros Hr. unfold Y_Zw, cdiv, c1. rewrite Zw_value. cbn [fst snd]. rsimpl. set (e := exp _). assert (He : e <> 0) by (unfold e; pose proof (exp_pos (- ((f - f0) * (f - f0)) / (2 * (s * s)))); lra).
  assert (D : e * r * (e * r) + e * (r * (5 / 2)) * (e * (r * (5 / 2))) <> 0) by (replace (e * r * (e * r) + e * (r * (5 / 2)) * (e * (r * (5 / 2)))) with (29 / 4 * ((e * r) * (e * r))) by field; assert (e * r <> 0) by (now apply Rmult_integral_contrapositive_currified); nra).
  unfold ctimes. cbn [fst snd]. f_equal; field; intros X; apply D; lra.
Qed.
Lemma Zw_peak (f f0 r s : R) : 0 <= r -> s <> 0 -> 0 <= fst (@Zw NumR f f0 r s) <= r /\ @Zw NumR f0 f0 r s = (r, r * (5 / 2)).
Proof.
  intros Hr Hs. rewrite !Zw_value. cbn [fst]. assert (P : 0 < 2 * (s * s)) by nra. split; [split|].
  - apply Rmult_le_pos; [left; apply exp_pos|exact Hr].
  - assert (E : exp (- ((f - f0) * (f - f0)) / (2 * (s * s))) <= 1).
    { rewrite <- exp_0. destruct (Req_dec (f - f0) 0) as [->|Ne]; [right; f_equal; field; exact Hs|]. left. apply exp_increasing. unfold Rdiv. rewrite Ropp_mult_distr_l_reverse. apply Ropp_lt_gt_0_contravar. apply Rmult_lt_0_compat; [nra|now apply Rinv_0_lt_compat]. }
    pose proof (exp_pos (- ((f - f0) * (f - f0)) / (2 * (s * s)))). nra.
  - replace (- ((f0 - f0) * (f0 - f0)) / (2 * (s * s))) with 0 by (field; exact Hs). rewrite exp_0. f_equal; ring.
Qed.
