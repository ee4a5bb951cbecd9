(** Preparation and export of rational fits: properties C99 to C103. *)
From Coq Require Import String List Arith ZArith Bool Lia Reals Lra.
From Verif Require Import Num Py Arr ArrFacts NumR RFacts Dispersive Fitting SpecFitting FittingFacts.
Import ListNotations.
Local Open Scope R_scope.

(** *** C99: the impedances of the elementary circuits *)
(** resistor and capacitor in parallel: the admittances 1/R and j w C add up *)
Theorem C99_RC (f r c : R) : r <> 0 -> c <> 0 -> ctimes (@RCpar NumR f r c) (cplus (/ r, 0) (ctimes (jw f) (c, 0))) = (1, 0).
Proof. intros Hr Hc. rewrite <- (RC_parallel f r c Hr Hc). f_equal. unfold cplus, ctimes, jw. cbn [fst snd]. f_equal; ring. Qed.
Print Assumptions C99_RC.
(** resistor and inductor in parallel: 1/R and 1/(j w L); at zero frequency the inductor is a short *)
Theorem C99_RL (f r l y : R) : r <> 0 -> l <> 0 -> ctimes (0, y) (ctimes (jw f) (l, 0)) = (1, 0) -> ctimes (@RLpar NumR f r l) (cplus (/ r, 0) (0, y)) = (1, 0).
Proof.
  intros Hr Hl E. unfold ctimes, jw in E. cbn [fst snd] in E. injection E as E _. assert (Ne : 2 * PI * f * l <> 0) by (intros X; replace (0 * (0 * l - 2 * PI * f * 0) - y * (0 * 0 + 2 * PI * f * l)) with (- y * (2 * PI * f * l)) in E by ring; rewrite X in E; lra).
  assert (Hf : f <> 0) by (intros ->; apply Ne; ring). replace y with (- / (2 * PI * f * l)).
  - rewrite <- (RL_parallel f r l Hr Hl Hf). f_equal. unfold cplus. cbn [fst snd]. f_equal; ring.
  - replace (0 * (0 * l - 2 * PI * f * 0) - y * (0 * 0 + 2 * PI * f * l)) with (- y * (2 * PI * f * l)) in E by ring. apply (Rmult_eq_reg_r (2 * PI * f * l)); [|exact Ne]. replace (- / (2 * PI * f * l) * (2 * PI * f * l)) with (-1) by (field; repeat split; auto; intros X; apply Ne; rewrite X; ring). lra.
Qed.
Print Assumptions C99_RL.
Theorem C99_RL_dc (r l : R) : r <> 0 -> l <> 0 -> @RLpar NumR 0 r l = (0, 0).
Proof. intros Hr Hl. rewrite (RL_value 0 r l Hr Hl). cbv zeta. f_equal; field; nra. Qed.
Print Assumptions C99_RL_dc.
(** resistor and inductor in series: the admittance is the inverse of R + j w L *)
Theorem C99_RL_series (f r l : R) : r <> 0 -> ctimes (@Y_RLseriesDisp NumR f r l 1) (cplus (r, 0) (ctimes (jw f) (l, 0))) = (1, 0).
Proof. intros Hr. rewrite <- (YRL_series f r l Hr). f_equal. unfold cplus, ctimes, jw. cbn [fst snd]. f_equal; ring. Qed.
Print Assumptions C99_RL_series.
(** with any other power of the angular frequency in place of the first *)
Theorem C99_RL_series_power (f r l : R) n : @RLseriesDisp NumR f r l n = (r, (2 * PI * f) ^ n * l) /\ (r <> 0 -> ctimes (@Y_RLseriesDisp NumR f r l n) (r, (2 * PI * f) ^ n * l) = (1, 0)).
Proof. exact (RL_power f r l n). Qed.
Print Assumptions C99_RL_series_power.
(** they are passive, and never resist more than their resistor *)
Theorem C99_passive (f r l c : R) : 0 < r -> 0 < l -> 0 < c ->
  0 <= fst (@RCpar NumR f r c) <= r /\ 0 <= fst (@RLpar NumR f r l) <= r /\ 0 < fst (@Y_RLseriesDisp NumR f r l 1) <= / r.
Proof. exact (passive_values f r l c). Qed.
Print Assumptions C99_passive.
(** the Gaussian resonance has the resistance of its peak at its centre and no more elsewhere; its admittance is its inverse *)
Theorem C99_resonance (f f0 r s : R) : 0 < r -> s <> 0 -> 0 <= fst (@Zw NumR f f0 r s) <= r /\ @Zw NumR f0 f0 r s = ctimes (r, 0) (1, 5 / 2) /\ ctimes (@Zw NumR f f0 r s) (@Y_Zw NumR f f0 r s) = (1, 0).
Proof.
  intros Hr Hs. destruct (Zw_peak f f0 r s ltac:(lra) Hs) as [A B]. split; [exact A|]. split; [rewrite B; unfold ctimes; cbn [fst snd]; f_equal; ring|]. apply Zw_inverse. lra.
Qed.
Print Assumptions C99_resonance.
Example C99_example : exists y, ctimes (0, y) (ctimes (jw 1) (2, 0)) = (1, 0) /\ (3 : R) <> 0 /\ (2 : R) <> 0.
Proof.
  pose proof PI_RGT_0 as P. exists (- / (2 * PI * 2)). split; [|split; lra]. unfold ctimes, jw. cbn [fst snd]. f_equal; field; lra.
Qed.

(** *** C100: sums of partial fractions *)
(** vf returns the sum of the terms that times (j w - p_i) give r_i *)
Theorem C100_sum (f : R) (p r : list (R * R)) (t : nat -> R * R) : (length p <= length r)%nat ->
  (forall i, (i < length p)%nat -> ctimes (t i) (minus_c (jw f) (nth i p (0, 0))) = nth i r (0, 0) /\ minus_c (jw f) (nth i p (0, 0)) <> (0, 0)) ->
  @vf NumR f p r = Ok (ctotal (length p) t).
Proof. exact (vf_spec f p r t). Qed.
Print Assumptions C100_sum.
Theorem C100_short (f : R) (p r : list (R * R)) : (length r < length p)%nat -> @vf NumR f p r = Err IndexError.
Proof. exact (vf_short f p r). Qed.
Print Assumptions C100_short.
(** the elementary circuits are exactly such sums *)
Theorem C100_RC (f r c : R) : r <> 0 -> c <> 0 -> @vf NumR f [(- / (c * r), 0)] [(/ c, 0)] = Ok (@RCpar NumR f r c).
Proof. exact (RC_rational f r c). Qed.
Print Assumptions C100_RC.
Theorem C100_RL (f r l : R) : r <> 0 -> l <> 0 -> exists v, @vf NumR f [(- (r / l), 0)] [(- (r * r / l), 0)] = Ok v /\ @RLpar NumR f r l = cplus (r, 0) v.
Proof. exact (RL_rational f r l). Qed.
Print Assumptions C100_RL.
Theorem C100_RL_series (f r l : R) : r <> 0 -> l <> 0 -> @vf NumR f [(- (r / l), 0)] [(/ l, 0)] = Ok (@Y_RLseriesDisp NumR f r l 1).
Proof. exact (YRL_rational f r l). Qed.
Print Assumptions C100_RL_series.
Example C100_example : let t := fun i : nat => match i with O => (1, 0) | _ => (/ 2, - / 2) end in
  (forall i, (i < 2)%nat -> ctimes (t i) (minus_c (jw 0) (nth i [(-1, 0); (-1, -1)] (0, 0))) = nth i [(1, 0); (1, 0)] (0, 0) /\ minus_c (jw 0) (nth i [(-1, 0); (-1, -1)] (0, 0)) <> (0, 0)).
Proof.
  intros t i Hi. destruct i as [|[|i]]; [| |lia]; unfold t, ctimes, minus_c, jw; cbn [nth fst snd]; (split; [f_equal; field|]); intros X; injection X as X Y; lra.
Qed.

(** *** C101: the Debye permittivity *)
Theorem C101_rational (f : R) (k tau : list R) (p r : list (R * R)) : length tau = length k -> length p = length k -> length r = length k ->
  (forall i, (i < length k)%nat -> nth i tau 0 <> 0 /\ nth i p (0, 0) = (- / nth i tau 0, 0) /\ nth i r (0, 0) = (nth i k 0 / nth i tau 0, 0)) ->
  exists v, @vf NumR f p r = Ok v /\ @epsDebye NumR f k tau = Ok (cplus (1, 0) v).
Proof. exact (debye_rational f k tau p r). Qed.
Print Assumptions C101_rational.
(** at least the vacuum's, at most the static value, and lossy *)
Theorem C101_signs (f : R) (k tau : list R) v : length tau = length k -> 0 <= f -> (forall i, (i < length k)%nat -> 0 <= nth i k 0 /\ 0 <= nth i tau 0) -> @epsDebye NumR f k tau = Ok v ->
  1 <= fst v <= 1 + sumR (length k) (fun i => nth i k 0) /\ snd v <= 0.
Proof. exact (debye_signs f k tau v). Qed.
Print Assumptions C101_signs.
(** the noisy one scales the susceptibility by a factor within p percent of 1 *)
Theorem C101_noise (f : R) (k tau : list R) p rnd v : length tau = length k -> 0 <= p -> 0 <= rnd <= 1 -> @epsDebye NumR f k tau = Ok v ->
  exists ran, Rabs (ran - 1) <= p / 100 /\ @epsDebyeErr NumR f k tau p rnd = Ok (1 + ran * (fst v - 1), ran * snd v).
Proof. exact (debye_err f k tau p rnd v). Qed.
Print Assumptions C101_noise.
Theorem C101_short (f : R) (k tau : list R) p rnd : (length tau < length k)%nat -> @epsDebye NumR f k tau = Err IndexError /\ @epsDebyeErr NumR f k tau p rnd = Err IndexError.
Proof. exact (debye_short f k tau p rnd). Qed.
Print Assumptions C101_short.
Example C101_example : exists v, @epsDebye NumR 1 [2; 3] [1; 2] = Ok v /\ (forall i, (i < 2)%nat -> 0 <= nth i [2; 3] 0 /\ 0 <= nth i [1; 2] 0) /\
  (forall i, (i < 2)%nat -> nth i [1; 2] 0 <> 0 /\ nth i [(- / 1, 0); (- / 2, 0)] (0, 0) = (- / nth i [1; 2] 0, 0) /\ nth i [(2 / 1, 0); (3 / 2, 0)] (0, 0) = (nth i [2; 3] 0 / nth i [1; 2] 0, 0)).
Proof.
  rewrite eps_value by (cbn [length]; lia). eexists. split; [reflexivity|]. split; intros i Hi; destruct i as [|[|i]]; try lia; cbn [nth]; repeat split; lra.
Qed.

(** *** C102: the resistance with skin effect *)
Theorem C102_below (f f0 rdc : R) : f < f0 -> @z NumR f f0 rdc = ctimes (rdc, 0) (1, f / f0).
Proof. intros H. rewrite (z_below f f0 rdc H). unfold ctimes. cbn [fst snd]. f_equal; ring. Qed.
Print Assumptions C102_below.
Theorem C102_above (f f0 rdc : R) : f0 < f -> @z NumR f f0 rdc = ctimes (rdc * sqrt (f / f0), 0) (1, 1).
Proof. intros H. rewrite (z_above f f0 rdc H). unfold ctimes. cbn [fst snd]. f_equal; ring. Qed.
Print Assumptions C102_above.
(** both formulas tend to rdc (1 + j) at f0, where the function returns twice that *)
Theorem C102_continuous_refuted (f0 rdc : R) : 0 < f0 -> 0 < rdc -> @z NumR f0 f0 rdc = (2 * rdc, 2 * rdc) /\
  forall f, f0 / 2 < f < 2 * f0 -> f <> f0 -> rdc / 2 <= fst (@z NumR f0 f0 rdc) - fst (@z NumR f f0 rdc).
Proof.
  intros H0 Hr. assert (E := z_at f0 rdc ltac:(lra)). split; [exact E|]. intros f Hf Ne. rewrite E. cbn [fst]. destruct (Rtotal_order f f0) as [L|[L|L]]; [| |].
  - rewrite (z_below f f0 rdc L). cbn [fst]. lra.
  - contradiction.
  - rewrite (z_above f f0 rdc L). cbn [fst]. assert (S : sqrt (f / f0) <= 3 / 2).
    { rewrite <- (sqrt_square (3 / 2)) by lra. apply sqrt_le_1_alt. apply div_le; [exact H0|]. lra. }
    nra.
Qed.
Print Assumptions C102_continuous_refuted.
(** it never resists less than at zero frequency *)
Theorem C102_resistance (f f0 rdc : R) : 0 < f0 -> 0 <= rdc -> rdc <= fst (@z NumR f f0 rdc).
Proof.
  intros H0 Hr. destruct (Rtotal_order f f0) as [L|[->|L]].
  - rewrite (z_below f f0 rdc L). cbn [fst]. lra.
  - rewrite (z_at f0 rdc) by lra. cbn [fst]. lra.
  - rewrite (z_above f f0 rdc L). cbn [fst]. assert (S : 1 <= sqrt (f / f0)).
    { rewrite <- sqrt_1 at 1. apply sqrt_le_1_alt. apply (Rmult_le_reg_r f0); [exact H0|]. replace (f / f0 * f0) with f by (field; lra). lra. }
    nra.
Qed.
Print Assumptions C102_resistance.
Example C102_example : @z NumR 4 1 10 = (10 * 2, 10 * 2).
Proof. rewrite (z_above 4 1 10) by lra. replace (4 / 1) with (2 * 2) by field. now rewrite sqrt_square by lra. Qed.

(** *** C103: the exported fits *)
(** it writes one entry per port, or raises IndexError and leaves the file empty *)
Theorem C103_export (N : num) nReal nCmplx constant proportional (a b : vec N) (p : list (cplx N)) (r : list (list (cplx N))) :
  (forall i, i < Nat.sqrt (length r) -> exportable (nReal + nCmplx * 2) constant proportional a b p r i)%nat ->
  serializeJSON nReal nCmplx constant proportional a b p r = (Some (map (exported (nReal + nCmplx * 2) constant proportional a b p r) (seq 0 (Nat.sqrt (length r)))), Ok tt).
Proof. exact (serialize_ok nReal nCmplx constant proportional a b p r). Qed.
Print Assumptions C103_export.
Theorem C103_fails (N : num) nReal nCmplx constant proportional (a b : vec N) (p : list (cplx N)) (r : list (list (cplx N))) i : (i < Nat.sqrt (length r))%nat ->
  ~ exportable (nReal + nCmplx * 2) constant proportional a b p r i -> serializeJSON nReal nCmplx constant proportional a b p r = (None, Err IndexError).
Proof. exact (serialize_fail nReal nCmplx constant proportional a b p r i). Qed.
Print Assumptions C103_fails.
(** of a [dim] x [dim] matrix the entries are those of the diagonal only if there are dim + 1 poles *)
Theorem C103_diagonal (dim nPoles : nat) : (forall i, (i < dim)%nat -> i * nPoles = diagonal_row dim i)%nat <-> (dim <= 1 \/ nPoles = dim + 1)%nat.
Proof. exact (diagonal_rows dim nPoles). Qed.
Print Assumptions C103_diagonal.
(** so that, whatever the number of ports (at least two) and of poles (at least one, other than dim + 1), some fit is exported with the residues of another entry, or not exported *)
Theorem C103_diagonal_refuted (dim nPoles : nat) : (2 <= dim)%nat -> (1 <= nPoles)%nat -> (nPoles <> dim + 1)%nat ->
  exists (p : list (cplx NumR)) (r : list (list (cplx NumR))), length p = nPoles /\ length r = (dim * dim)%nat /\ Forall (fun row => length row = nPoles) r /\
    forall d, serializeJSON nPoles 0 false false [] [] p r = (Some d, Ok tt) ->
      exists i e, (i < dim)%nat /\ nth_error d i = Some e /\ ft_resR e <> map fst (nth (diagonal_row dim i) r []).
Proof.
  intros Hd Hn Ne. set (r := mk (dim * dim) (fun q => mk nPoles (fun _ => (INR q, 0) : cplx NumR))). exists (mk nPoles (fun _ => (0, 0) : cplx NumR)), r.
  split; [apply length_mk|]. assert (Lr : length r = (dim * dim)%nat) by (unfold r; apply length_mk). split; [exact Lr|].
  assert (Rw : forall q, (q < dim * dim)%nat -> nth q r [] = mk nPoles (fun _ => (INR q, 0) : cplx NumR)) by (intros q Hq; unfold r; now rewrite nth_mk by exact Hq).
  split; [apply Forall_forall; intros row Hrow; apply (In_nth _ _ []) in Hrow as (q & Hq & <-); rewrite Rw by lia; apply length_mk|].
  intros d Ed. set (p := mk nPoles _) in Ed.
  assert (Sq : Nat.sqrt (length r) = dim) by (rewrite Lr; apply Nat.sqrt_square).
  assert (Ex : forall i, (i < dim)%nat -> exportable (nPoles + 0 * 2) false false [] [] p r i).
  { intros i Hi. destruct (Compare_dec.le_lt_dec (dim * dim) (i * (nPoles + 0 * 2))) as [Ov|In].
    - exfalso. rewrite (C103_fails NumR nPoles 0 false false [] [] p r i) in Ed; [discriminate|rewrite Sq; exact Hi|]. intros (_ & _ & X). destruct (X ltac:(lia)) as (_ & row & Er & _). assert (i * (nPoles + 0 * 2) < length r)%nat by (apply nth_error_Some; congruence). lia.
    - split; [discriminate|]. split; [discriminate|]. intros _. split; [unfold p; rewrite length_mk; lia|]. exists (nth (i * (nPoles + 0 * 2)) r []). split; [apply nth_error_nth'; lia|]. rewrite Rw by exact In. rewrite length_mk. lia. }
  rewrite C103_export in Ed by (rewrite Sq; exact Ex). injection Ed as <-. rewrite Sq. exists 1%nat, (exported (nPoles + 0 * 2) false false [] [] p r 1). split; [lia|]. split.
  - rewrite (nth_error_nth' _ (exported (nPoles + 0 * 2) false false [] [] p r 0)) by (rewrite map_length, seq_length; lia). rewrite map_nth, seq_nth by lia. reflexivity.
  - unfold exported, ft_resR, diagonal_row. replace (nPoles + 0 * 2)%nat with nPoles by lia.
    destruct (Ex 1%nat ltac:(lia)) as (_ & _ & X). destruct (X ltac:(lia)) as (_ & row & Er & _). assert (Hq : (1 * (nPoles + 0 * 2) < length r)%nat) by (apply nth_error_Some; congruence).
    rewrite !Rw by nia. intros E. apply (f_equal (fun l => nth 0 l 0)) in E. rewrite firstn_all2 in E by (rewrite length_mk; lia). rewrite !map_mk, !nth_mk in E by lia. cbn [fst] in E. apply INR_eq in E. lia.
Qed.
Print Assumptions C103_diagonal_refuted.
(** two ports and three poles: the diagonal is exported *)
Example C103_example : let p := [(1, 0); (2, 0); (3, 0)] : list (cplx NumR) in let r := map (fun q => [(q, 0); (q, 0); (q, 0)]) [0; 1; 2; 3] : list (list (cplx NumR)) in
  (forall i, (i < Nat.sqrt (length r))%nat -> @exportable NumR (1 + 1 * 2) true false [5; 6; 7; 8] [] p r i) /\
  map (fun e => (@ft_cte NumR e, ft_resR e)) (map (@exported NumR (1 + 1 * 2) true false [5; 6; 7; 8] [] p r) (seq 0 (Nat.sqrt (length r)))) = [(5, [0; 0; 0]); (8, [3; 3; 3])] /\
  ~ @exportable NumR (3 + 1 * 2) true false [5; 6; 7; 8] [] p r 1.
Proof.
  cbn zeta. split; [|split; [reflexivity|]].
  - intros i Hi. change (i < 2)%nat in Hi. unfold exportable. destruct i as [|[|i]]; [| |lia]; (split; [cbn [length Nat.mul Nat.add]; lia|]); (split; [discriminate|]); intros _; (split; [cbn [length]; lia|]); cbn [nth_error map Nat.mul Nat.add]; eexists; (split; [reflexivity|]); cbn [length]; lia.
  - intros (X & _). specialize (X eq_refl). cbn [length Nat.mul Nat.add] in X. lia.
Qed.
