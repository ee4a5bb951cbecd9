(** Facts about power waves and scattering parameters. *)
From Coq Require Import String List Arith ZArith Bool Lia Reals Lra.
From Verif Require Import Num Py Arr ArrFacts NumR RFacts Probes Dispersive Line Extract SpecExtract.
Import ListNotations.
Local Open Scope R_scope.

(** *** lists *)
Lemma zipw_Ok {A B C} (f : A -> B -> C) a b c da db d : zipw f a b = Ok c -> length b = length a /\ length c = length a /\ forall k, (k < length a)%nat -> nth k c d = f (nth k a da) (nth k b db).
Proof.
  unfold zipw. destruct (Nat.eqb_spec (length a) (length b)) as [E|]; [|discriminate]. intros H. injection H as <-. split; [auto|]. rewrite map_length, combine_length, <- E, Nat.min_id. split; [reflexivity|].
  intros k Hk. rewrite (nth_indep _ d (f (fst (da, db)) (snd (da, db)))) by (rewrite map_length, combine_length, <- E, Nat.min_id; exact Hk).
  rewrite (map_nth (fun p => f (fst p) (snd p))). rewrite combine_nth by exact E. reflexivity.
Qed.
Lemma column_Ok {N : num} (rows : mat N) n c : column rows n = Ok c -> length c = length rows /\ forall m, (m < length rows)%nat -> get c m = get2 rows m n.
Proof.
  unfold column. revert c. induction rows as [|r rows IH]; intros c H; cbn [mapM] in H.
  - injection H as <-. split; [reflexivity|intros m Hm; cbn in Hm; lia].
  - inv_bind H. inv_bind H. injection H as <-. destruct (IH _ Ha0) as [L G]. split; [cbn; now rewrite L|]. intros [|m] Hm.
    + unfold get2, get. cbn [nth]. apply (py_get_Ok _ _ _ n0) in Ha as [_ E]. now symmetry.
    + cbn in Hm. change (get (a :: a0) (S m)) with (get a0 m). rewrite G by lia. reflexivity.
Qed.
Lemma nth_fftshift {A} (d : A) l j : (j < length l)%nat -> nth j (fftshift d l) d = nth ((j + (length l - length l / 2)) mod length l) l d.
Proof. intros H. unfold fftshift. now rewrite nth_mk. Qed.
Lemma length_fftshift {A} (d : A) l : length (fftshift d l) = length l. Proof. apply length_mk. Qed.
Lemma length_fft {N : num} (x : vec N) : length (fft x) = length x. Proof. apply length_mk. Qed.

(** position j holds the frequency of index j - n/2, as an integer *)
Lemma shift_index n j : (j < n)%nat -> let b := ((j + (n - n / 2)) mod n)%nat in
  (b < n)%nat /\ ((n / 2 <= j)%nat /\ b = (j - n / 2)%nat /\ (b < (n + 1) / 2)%nat \/ (j < n / 2)%nat /\ (b + n / 2 = j + n)%nat /\ ((n + 1) / 2 <= b)%nat).
Proof.
  intros H b. pose proof (Nat.div_mod n 2 ltac:(lia)) as D. pose proof (Nat.mod_upper_bound n 2 ltac:(lia)) as M. pose proof (Nat.div_mod (n + 1) 2 ltac:(lia)) as D'. pose proof (Nat.mod_upper_bound (n + 1) 2 ltac:(lia)) as M'.
  split; [apply Nat.mod_upper_bound; lia|]. destruct (Nat.lt_ge_cases j (n / 2)) as [L|L].
  - right. assert (E : b = (j + (n - n / 2))%nat) by (apply Nat.mod_small; lia). lia.
  - left. assert (E : b = (j - n / 2)%nat) by (unfold b; replace (j + (n - n / 2))%nat with (j - n / 2 + 1 * n)%nat by lia; rewrite Nat.mod_add by lia; apply Nat.mod_small; lia). lia.
Qed.
Lemma shift_real n j : (j < n)%nat -> let b := ((j + (n - n / 2)) mod n)%nat in INR b = INR j - INR (n / 2) \/ INR b = INR j - INR (n / 2) + INR n.
Proof.
  intros H b. destruct (shift_index n j H) as (_ & [(L & E & _)|(L & E & _)]); fold b in E.
  - left. rewrite E. now apply minus_INR.
  - right. apply (f_equal INR) in E. rewrite !plus_INR in E. lra.
Qed.
Lemma cos_shift n j m : (j < n)%nat -> cos (2 * PI * INR ((j + (n - n / 2)) mod n * m) / INR n) = cos (angle n j m) /\ sin (2 * PI * INR ((j + (n - n / 2)) mod n * m) / INR n) = sin (angle n j m).
Proof.
  intros H. assert (Pn : 0 < INR n) by (apply lt_0_INR; lia). rewrite mult_INR. destruct (shift_real n j H) as [E|E]; cbv zeta in E; rewrite E; unfold angle.
  - replace (2 * PI * ((INR j - INR (n / 2)) * INR m) / INR n) with (2 * PI * (INR j - INR (n / 2)) * INR m / INR n) by (field; lra). auto.
  - replace (2 * PI * ((INR j - INR (n / 2) + INR n) * INR m) / INR n) with (2 * PI * (INR j - INR (n / 2)) * INR m / INR n + 2 * INR m * PI) by (field; lra). rewrite cos_period, sin_period. auto.
Qed.
Lemma fft_spectrum (x : vec NumR) j : (j < length x)%nat -> nth j (fftshift (@c0 NumR) (fft x)) (@c0 NumR) = spectrum (length x) (get x) j.
Proof.
  intros H. rewrite nth_fftshift by (rewrite length_fft; exact H). rewrite length_fft. set (n := length x) in *. unfold fft. fold n. rewrite nth_mk by (apply Nat.mod_upper_bound; lia).
  unfold spectrum. apply f_equal2; [|apply (f_equal Ropp)]; apply sumR_ext; intros m Hm; rsimpl; unfold twopi; rsimpl; rewrite <- !INR_IZR_INZ; f_equal; apply (cos_shift n j m H).
Qed.
Lemma freq_at n (d : R) j : (j < n)%nat -> nth j (fftshift (@n0 NumR) (@fftfreq NumR n d)) 0 = (INR j - INR (n / 2)) / (INR n * d).
Proof.
  intros H. assert (L : length (@fftfreq NumR n d) = n) by apply length_mk. change (nth j (fftshift (@n0 NumR) (@fftfreq NumR n d)) (@n0 NumR) = (INR j - INR (n / 2)) / (INR n * d)). rewrite nth_fftshift by now rewrite L. rewrite L.
  unfold fftfreq. destruct (shift_index n j H) as (B & G). rewrite nth_mk by exact B. rsimpl. rewrite <- INR_IZR_INZ. set (b := ((j + (n - n / 2)) mod n)%nat) in *. destruct G as [(L1 & E & C)|(L1 & E & C)].
  - rewrite (proj2 (Nat.ltb_lt _ _) C), <- INR_IZR_INZ, E, minus_INR by exact L1. reflexivity.
  - rewrite (proj2 (Nat.ltb_ge _ _) C), minus_IZR, <- !INR_IZR_INZ. apply (f_equal INR) in E. rewrite !plus_INR in E. replace (INR b - INR n) with (INR j - INR (n / 2)) by lra. reflexivity.
Qed.

(** *** linearity and orthogonality *)
Lemma spectrum_ext n x y j : (forall m, (m < n)%nat -> x m = y m) -> spectrum n x j = spectrum n y j.
Proof. intros H. unfold spectrum. apply f_equal2; [|apply (f_equal Ropp)]; apply sumR_ext; intros m Hm; now rewrite H. Qed.
Lemma spectrum_mean n x y j : spectrum n (fun m => (x m + y m) / 2) j = ctimes (/ 2) (cplus (spectrum n x j) (spectrum n y j)).
Proof.
  unfold spectrum, ctimes, cplus. cbn [fst snd]. apply f_equal2.
  - rewrite <- sumR_plus, <- sumR_scal. apply sumR_ext. intros m Hm. rfield.
  - rewrite <- Ropp_plus_distr, <- sumR_plus, <- Ropp_mult_distr_r, <- sumR_scal. f_equal. apply sumR_ext. intros m Hm. rfield.
Qed.
Lemma spectrum_opp n x j : spectrum n (fun m => -1 * x m) j = (- fst (spectrum n x j), - snd (spectrum n x j)).
Proof.
  unfold spectrum. cbn [fst snd]. apply f_equal2; [|apply (f_equal Ropp)]; rewrite <- sumR_opp; apply sumR_ext; intros m Hm; rring.
Qed.
Lemma spectrum_one n x j : spectrum n (fun m => 1 * x m) j = spectrum n x j.
Proof. apply spectrum_ext. intros m _. ring. Qed.

Lemma cos_telescope n h al : 2 * sin (al / 2) * sumR n (fun j => cos ((INR j - h) * al)) = sin ((INR n - h - / 2) * al) - sin ((- h - / 2) * al).
Proof.
  induction n as [|n IH]; [rewrite sumR_0; simpl; replace ((0 - h - / 2) * al) with ((- h - / 2) * al) by ring; ring|]. rewrite sumR_S, Rmult_plus_distr_l, IH, S_INR.
  replace ((INR n + 1 - h - / 2) * al) with ((INR n - h) * al + al / 2) by field. replace ((INR n - h - / 2) * al) with ((INR n - h) * al - al / 2) by field. rewrite sin_plus, sin_minus. ring.
Qed.
Lemma orth n h d : (0 < d < n)%nat -> sumR n (fun j => cos ((INR j - h) * (2 * PI * INR d / INR n))) = 0.
Proof.
  intros H. assert (Pn : 0 < INR n) by (apply lt_0_INR; lia). assert (Pd : 0 < INR d) by (apply lt_0_INR; lia). assert (Ld : INR d < INR n) by (apply lt_INR; lia).
  set (al := 2 * PI * INR d / INR n). pose proof (cos_telescope n h al) as T. replace ((INR n - h - / 2) * al) with ((- h - / 2) * al + 2 * INR d * PI) in T by (unfold al; field; lra). rewrite sin_period in T.
  assert (S : 0 < sin (al / 2)). { pose proof PI_RGT_0. assert (E : al / 2 = PI * (INR d / INR n)) by (unfold al; field; lra). assert (0 < INR d / INR n) by (apply Rdiv_lt_0_compat; lra).
    assert (INR d / INR n < 1) by (apply (Rmult_lt_reg_r (INR n)); [lra|]; replace (INR d / INR n * INR n) with (INR d) by (field; lra); lra). apply sin_gt_0; rewrite E; nra. }
  replace (sin ((- h - / 2) * al) - sin ((- h - / 2) * al)) with 0 in T by ring. apply Rmult_integral in T as [T|T]; [lra|exact T].
Qed.
Lemma angle_orth n m l : (m < n)%nat -> (l < n)%nat -> sumR n (fun j => cos (angle n j m) * cos (angle n j l) + sin (angle n j m) * sin (angle n j l)) = if (m =? l)%nat then INR n else 0.
Proof.
  intros Hm Hl. assert (Pn : 0 < INR n) by (apply lt_0_INR; lia). destruct (Nat.eqb_spec m l) as [->|Ne].
  - transitivity (sumR n (fun _ => 1)); [apply sumR_ext; intros j _; pose proof (sin2_cos2 (angle n j l)) as X; unfold Rsqr in X; rlra|]. clear. induction n; [now rewrite sumR_0|]. rewrite sumR_S, IHn, S_INR. reflexivity.
  - assert (G : forall a b, (b < a)%nat -> (a < n)%nat -> sumR n (fun j => cos (angle n j a - angle n j b)) = 0).
    { intros a b L La. rewrite <- (orth n (INR (n / 2)) (a - b) ltac:(lia)). apply sumR_ext. intros j _. f_equal. unfold angle. rewrite minus_INR by lia. field. lra. }
    destruct (Nat.lt_ge_cases l m) as [L|L].
    + rewrite <- (G m l L Hm). apply sumR_ext. intros j _. rewrite cos_minus. rring.
    + rewrite <- (G l m ltac:(lia) Hl). apply sumR_ext. intros j _. rewrite cos_minus. rring.
Qed.
(** Parseval *)
Lemma parseval n x y : sumR n (fun j => re_conj (spectrum n x j) (spectrum n y j)) = INR n * sumR n (fun m => x m * y m).
Proof.
  transitivity (sumR n (fun j => sumR n (fun m => sumR n (fun l => x m * y l * (cos (angle n j m) * cos (angle n j l) + sin (angle n j m) * sin (angle n j l)))))).
  { apply sumR_ext. intros j _. unfold re_conj, spectrum. cbn [fst snd]. rewrite Rmult_opp_opp.
    rewrite <- !sumR_scal_r, <- sumR_plus. apply sumR_ext. intros m _. rewrite <- !sumR_scal, <- sumR_plus. apply sumR_ext. intros l _. rring. }
  rewrite sumR_swap. rewrite <- sumR_scal. apply sumR_ext. intros m Hm. rewrite sumR_swap.
  transitivity (sumR n (fun l => x m * y l * (if (m =? l)%nat then INR n else 0))).
  { apply sumR_ext. intros l Hl. rewrite sumR_scal. f_equal. now apply angle_orth. }
  rewrite (sumR_single n _ m Hm); [rewrite Nat.eqb_refl; rring|]. intros l Hl Ne. destruct (Nat.eqb_spec m l); [congruence|rring].
Qed.

(** *** power waves *)
Lemma fft_inv (p : port NumR) c f v i : get_v_i_fft p c = Ok (f, v, i) ->
  exists n t0 t1, nth_error (pt_t0 p) 0 = Some t0 /\ nth_error (pt_t1 p) 1 = Some t1 /\ length (pt_v0 p) = n /\ length (pt_v1 p) = n /\ (0 < n)%nat /\
    length f = length (pt_t0 p) /\ (forall j, (j < length f)%nat -> nth j f 0 = (INR j - INR (length (pt_t0 p) / 2)) / (INR (length (pt_t0 p)) * (t1 - t0))) /\
    length v = n /\ (forall j, (j < n)%nat -> nth j v (0, 0) = spectrum n (port_v p c) j) /\
    length i = length (pt_i0 p) /\ (forall j, (j < length (pt_i0 p))%nat -> nth j i (0, 0) = spectrum (length (pt_i0 p)) (port_i p c true) j).
Proof.
  unfold get_v_i_fft. intros H.
  inv_bind H. rename a into t1. inv_bind H. rename a into t0. inv_bind H. rename a into x0. inv_bind H. destruct (Nat.eqb_spec (length x0) 0) as [|Ne]; [discriminate|]. clear Ha2. inv_bind H. rename a0 into x1.
  inv_bind H. destruct (Nat.eqb_spec (length x1) 0) as [|Ne1]; [discriminate|]. clear Ha3. inv_bind H. rename a1 into vv. inv_bind H. rename a1 into i0. inv_bind H. rename a1 into ci.
  injection H as Ef Ev Ei. subst vv. apply column_Ok in Ha1 as [L0 G0]. apply column_Ok in Ha2 as [L1 G1]. apply column_Ok in Ha5 as [Li Gi].
  apply (zipw_Ok _ _ _ _ (@c0 NumR) (@c0 NumR) (@c0 NumR)) in Ha3 as (Lz & Lv & Gv). rewrite !length_fftshift, !length_fft in *.
  exists (length (pt_v0 p)), t0, t1. unfold py_get in Ha, Ha0. split; [destruct (nth_error (pt_t0 p) 0); [now injection Ha0 as ->|discriminate]|]. split; [destruct (nth_error (pt_t1 p) 1); [now injection Ha as ->|discriminate]|].
  split; [reflexivity|]. split; [lia|]. split; [lia|]. assert (Lf : length f = length (pt_t0 p)) by (rewrite <- Ef, length_fftshift; apply length_mk). split; [exact Lf|]. split.
  { intros j Hj. rewrite Lf in Hj. rewrite <- Ef. exact (freq_at (length (pt_t0 p)) (t1 - t0) j Hj). }
  split; [cbn in *; lia|]. split.
  { intros j Hj. change (0, 0) with (@c0 NumR). rewrite Gv by lia. rewrite !fft_spectrum by lia. replace (length x0) with (length (pt_v0 p)) by lia. replace (length x1) with (length (pt_v0 p)) by lia.
    rewrite (spectrum_ext _ (get x0) (fun m => @get2 NumR (pt_v0 p) m c)) by (intros m Hm; apply G0; exact Hm). rewrite (spectrum_ext _ (get x1) (fun m => @get2 NumR (pt_v1 p) m c)) by (intros m Hm; apply G1; lia).
    unfold port_v. rewrite (spectrum_mean _ (fun m => @get2 NumR (pt_v0 p) m c) (fun m => @get2 NumR (pt_v1 p) m c)). unfold cdivs, cadd, ctimes, cplus. cbn [fst snd]. rsimpl. unfold n2. rsimpl. apply f_equal2; rfield. }
  cbn [length] in Li. assert (Li' : @length R ci = S (length (pt_i0 p))) by exact Li. change (@length (car NumR) ci) with (@length R ci) in *. assert (Ln : (@length R ci - 1)%nat = length (pt_i0 p)) by lia. rewrite Ln in Ei. assert (Lm : length i = length (pt_i0 p)) by (rewrite <- Ei, length_fftshift, length_fft, length_mk; reflexivity). split; [exact Lm|].
  intros j Hj. rewrite <- Ei. change (0, 0) with (@c0 NumR). rewrite fft_spectrum by (rewrite length_mk; exact Hj). rewrite length_mk.
  unfold port_i. rewrite (spectrum_one _ (fun m => (@get2 NumR (pt_i0 p) (m - 1) c + @get2 NumR (pt_i0 p) m c) / 2)). apply spectrum_ext. intros m Hm. refine (eq_trans (@get_mk NumR _ _ _ Hm) _). rewrite !Gi by (cbn [length]; lia).
  apply (@py_get_Ok (vec NumR) _ _ _ []) in Ha4 as [_ E0]. rsimpl. unfold n2. rsimpl. destruct m as [|m].
  - change (@get2 NumR (i0 :: pt_i0 p) 0 c) with (@get NumR i0 c). change (@get2 NumR (i0 :: pt_i0 p) 1 c) with (@get2 NumR (pt_i0 p) 0 c). cbn [Nat.sub]. replace (@get NumR i0 c) with (@get2 NumR (pt_i0 p) 0 c) by (unfold get2; exact (f_equal (fun r => @get NumR r c) E0)). reflexivity.
  - cbn [Nat.sub]. rewrite Nat.sub_0_r. reflexivity.
Qed.
Lemma power_inv (p : port NumR) c f a b : get_incident_and_reflected_power_wave p c = Ok (f, a, b) ->
  exists z0 start n t0 t1, nth_error (pt_z0 p) c = Some z0 /\ z0 <> 0 /\ (exists x, pt_pos p = [x] /\ start = Reqb x 0) /\
    nth_error (pt_t0 p) 0 = Some t0 /\ nth_error (pt_t1 p) 1 = Some t1 /\
    length (pt_v0 p) = n /\ length (pt_v1 p) = n /\ length (pt_i0 p) = n /\ (0 < n)%nat /\ length f = length (pt_t0 p) /\ length a = n /\ length b = n /\
    (forall j, (j < length f)%nat -> nth j f 0 = (INR j - INR (length (pt_t0 p) / 2)) / (INR (length (pt_t0 p)) * (t1 - t0))) /\
    forall j, (j < n)%nat -> let v := spectrum n (port_v p c) j in let i := spectrum n (port_i p c start) j in
      nth j a (0, 0) = (/ 2 * (fst v + z0 * fst i) / sqrt z0, / 2 * (snd v + z0 * snd i) / sqrt z0) /\
      nth j b (0, 0) = (/ 2 * (fst v - z0 * fst i) / sqrt z0, / 2 * (snd v - z0 * snd i) / sqrt z0).
Proof.
  unfold get_incident_and_reflected_power_wave. intros H. inv_bind H. rename a0 into z0. inv_bind H. apply passert_Ok' in Ha0. inv_bind H. destruct a1 as [[f' v] i]. inv_bind H. rename a1 into start.
  inv_bind H. inv_bind H. injection H as -> -> ->. destruct (fft_inv _ _ _ _ _ Ha1) as (n & t0 & t1 & T0 & T1 & L0 & L1 & Pn & Lf & Gf & Lv & Gv & Li & Gi).
  set (i' := if start : bool then i else map copp i) in *. assert (Li' : length i' = length i) by (unfold i'; destruct start; [reflexivity|apply map_length]).
  apply (zipw_Ok _ _ _ _ (@c0 NumR) (@c0 NumR) (@c0 NumR)) in Ha3 as (A1 & A2 & A3). apply (zipw_Ok _ _ _ _ (@c0 NumR) (@c0 NumR) (@c0 NumR)) in Ha4 as (B1 & B2 & B3).
  assert (Ln : length (pt_i0 p) = n) by lia. rewrite Ln in Gi.
  exists z0, start, n, t0, t1. split; [unfold py_get in Ha; destruct (nth_error (pt_z0 p) c); [now injection Ha as ->|discriminate]|]. split.
  { intros E. apply negb_true_iff in Ha0. change (Reqb z0 0 = false) in Ha0. apply Reqb_false in Ha0. contradiction. }
  split. { unfold getTerminal in Ha2. destruct (pt_pos p) as [|x [|]]; try discriminate. injection Ha2 as <-. exists x. split; reflexivity. }
  do 7 (split; [assumption|]). split; [exact (eq_trans A2 Lv)|]. split; [exact (eq_trans B2 Lv)|]. split; [exact Gf|]. intros j Hj. set (v' := spectrum n (port_v p c) j). set (i'' := spectrum n (port_i p c start) j). cbv zeta.
  assert (Ej : nth j i' (0, 0) = i'').
  { unfold i', i''. destruct start; [apply Gi; exact Hj|]. replace (nth j (map copp i) (0, 0)) with (@copp NumR (nth j i (0, 0))).
    - rewrite Gi by exact Hj. unfold port_i. rewrite (spectrum_one _ (fun m => (@get2 NumR (pt_i0 p) (m - 1) c + @get2 NumR (pt_i0 p) m c) / 2)), (spectrum_opp _ (fun m => (@get2 NumR (pt_i0 p) (m - 1) c + @get2 NumR (pt_i0 p) m c) / 2)). reflexivity.
    - assert (Z : @copp NumR (0, 0) = (0, 0)) by (unfold copp; cbn [fst snd]; rsimpl; now rewrite Ropp_0). pose proof (map_nth (@copp NumR) i (0, 0) j) as M. rewrite Z in M. symmetry. exact M. }
  split; change (0, 0) with (@c0 NumR).
  - rewrite A3 by lia. change (@c0 NumR) with ((0, 0) : R * R). rewrite Ej, Gv by exact Hj. fold v'. unfold cdivs, cscal, cadd. cbn [fst snd]. rsimpl. unfold n2. rsimpl. apply f_equal2; rty; unfold Rdiv; ring.
  - rewrite B3 by lia. change (@c0 NumR) with ((0, 0) : R * R). rewrite Ej, Gv by exact Hj. fold v'. unfold cdivs, cscal, csub. cbn [fst snd]. rsimpl. unfold n2. rsimpl. apply f_equal2; rty; unfold Rdiv; ring.
Qed.
Lemma sqrt_pos_facts z : 0 < z -> 0 < sqrt z /\ sqrt z * sqrt z = z.
Proof. intros H. split; [now apply sqrt_lt_R0|apply sqrt_sqrt; lra]. Qed.
Lemma waves (p : port NumR) c f a b z0 : get_incident_and_reflected_power_wave p c = Ok (f, a, b) -> nth_error (pt_z0 p) c = Some z0 -> 0 < z0 ->
  exists x n, pt_pos p = [x] /\ length a = n /\ length b = n /\ length (pt_v0 p) = n /\ length (pt_i0 p) = n /\ (0 < n)%nat /\
  forall j, (j < n)%nat -> let v := spectrum n (port_v p c) j in let i := spectrum n (port_i p c (Reqb x 0)) j in let A := nth j a (0, 0) in let B := nth j b (0, 0) in
    cplus A B = ctimes (/ sqrt z0) v /\ sqmod A - sqmod B = re_conj v i /\ (B = (0, 0) <-> v = ctimes z0 i) /\ (A = (0, 0) <-> v = ctimes (- z0) i).
Proof.
  intros H Hz P. destruct (power_inv _ _ _ _ _ H) as (z & start & n & t0 & t1 & Ez & _ & (x & Ex & ->) & _ & _ & L0 & L1 & Li & Pn & _ & La & Lb & _ & G). rewrite Hz in Ez. injection Ez as <-.
  exists x, n. repeat (split; [assumption|]). intros j Hj v i A B. destruct (G j Hj) as [EA EB]. fold v i in EA, EB. unfold A, B. rewrite EA, EB. clear EA EB A B G. destruct v as [vr vi], i as [ir ii]. destruct (sqrt_pos_facts z0 P) as [Ps Es]. set (q := sqrt z0) in *.
  unfold cplus, ctimes, sqmod, re_conj. cbn [fst snd]. split; [apply f_equal2; field; lra|]. split; [rewrite <- Es; field; lra|].
  assert (Z : forall e, / 2 * e / q = 0 <-> e = 0).
  { intros e. split; intros E; [|rewrite E; field; lra]. apply (f_equal (fun y => y * (2 * q))) in E. replace (/ 2 * e / q * (2 * q)) with e in E by (field; lra). lra. }
  split; (split; [intros E; injection E as E1 E2; apply (proj1 (Z _)) in E1; apply (proj1 (Z _)) in E2; apply f_equal2; lra|intros E; injection E as -> ->; apply f_equal2; apply (proj2 (Z _)); ring]).
Qed.
Lemma waves_energy (p : port NumR) c f a b z0 : get_incident_and_reflected_power_wave p c = Ok (f, a, b) -> nth_error (pt_z0 p) c = Some z0 -> 0 < z0 ->
  exists x n, pt_pos p = [x] /\ length a = n /\ length b = n /\ length (pt_v0 p) = n /\
  sumR n (fun j => sqmod (nth j a (0, 0)) - sqmod (nth j b (0, 0))) = INR n * sumR n (fun m => port_v p c m * port_i p c (Reqb x 0) m).
Proof.
  intros H Hz P. destruct (waves _ _ _ _ _ _ H Hz P) as (x & n & Ex & La & Lb & L0 & _ & _ & G). exists x, n. repeat (split; [assumption|]). rewrite <- parseval. apply sumR_ext. intros j Hj. destruct (G j Hj) as (_ & E & _). exact E.
Qed.
Lemma waves_freq (p : port NumR) c f a b : get_incident_and_reflected_power_wave p c = Ok (f, a, b) ->
  exists t0 t1, nth_error (pt_t0 p) 0 = Some t0 /\ nth_error (pt_t1 p) 1 = Some t1 /\ length f = length (pt_t0 p) /\
  forall j, (j < length f)%nat -> nth j f 0 = (INR j - INR (length f / 2)) / (INR (length f) * (t1 - t0)).
Proof.
  intros H. destruct (power_inv _ _ _ _ _ H) as (z & start & n & t0 & t1 & _ & _ & _ & T0 & T1 & _ & _ & _ & _ & Lf & _ & _ & G & _). exists t0, t1. repeat (split; [assumption|]). rewrite Lf in *. exact G.
Qed.
Lemma waves_zero {N : num} (p : port N) c z0 : nth_error (pt_z0 p) c = Some z0 -> neqb z0 n0 = true -> get_incident_and_reflected_power_wave p c = Err AssertionError.
Proof. intros H E. unfold get_incident_and_reflected_power_wave, py_get. rewrite H. cbn [of_option bind]. rewrite E. reflexivity. Qed.
Lemma waves_vector {N : num} (p : port N) c r : length (pt_pos p) <> 1%nat -> get_incident_and_reflected_power_wave p c <> Ok r.
Proof.
  intros L H. unfold get_incident_and_reflected_power_wave in H. inv_bind H. inv_bind H. inv_bind H. destruct a1 as [[f v] i]. inv_bind H. unfold getTerminal in Ha2. destruct (pt_pos p) as [|x [|]]; try discriminate. now apply L.
Qed.

(** *** scattering parameters *)
Lemma reciprocal_inv {N : num} (p1 p2 : port N) c1 c2 f s : extract_s_reciprocal p1 c1 p2 c2 = Ok (f, s) ->
  exists a1 b1 f2 a2 b2, get_incident_and_reflected_power_wave p1 c1 = Ok (f, a1, b1) /\ get_incident_and_reflected_power_wave p2 c2 = Ok (f2, a2, b2) /\ length s = length f /\
  forall k, (k < length f)%nat -> let S := nth k s ((@c0 N, @c0 N), (@c0 N, @c0 N)) in let e l := nth k l (@c0 N) in
    s_get S 0 0 = cdiv (e b1) (e a1) /\ s_get S 1 0 = cdiv (e b2) (e a1) /\ s_get S 0 1 = cdiv (e b1) (e a2) /\ s_get S 1 1 = cdiv (e b2) (e a2).
Proof.
  unfold extract_s_reciprocal. intros H. inv_bind H. destruct a as [[f1 a1] b1]. inv_bind H. destruct a as [[f2 a2] b2]. inv_bind H. injection H as <- <-. exists a1, b1, f2, a2, b2. split; [exact Ha|]. split; [exact Ha0|]. split; [apply length_mk|].
  intros k Hk. rewrite nth_mk by exact Hk. repeat split.
Qed.
Lemma filter_map_swap {A B} (g : A -> B) (P : B -> bool) l : filter P (map g l) = map g (filter (fun a => P (g a)) l).
Proof. induction l as [|a l IH]; [reflexivity|]. cbn [map filter]. rewrite IH. destruct (P (g a)); reflexivity. Qed.
Section Assemble.
Context {N : num}.
Variable solved : pname -> pname -> res (vec N * list (smat N)).
Notation sd := ((@c0 N, @c0 N), (@c0 N, @c0 N)).
Lemma filter_combine {B} (P : N -> bool) (f : list N) (s : list B) (d : B) : length s = length f ->
  filter (fun fs => P (fst fs)) (combine f s) = map (fun k => (nth k f n0, nth k s d)) (filter (fun k => P (nth k f n0)) (seq 0 (length f))).
Proof.
  revert s. induction f as [|x f IH]; intros [|y s] L; try discriminate; [reflexivity|]. cbn [length combine filter seq fst]. rewrite <- seq_shift. change (nth 0 (x :: f) n0) with x.
  assert (E : filter (fun k => P (nth k (x :: f) n0)) (map S (seq 0 (length f))) = map S (filter (fun k => P (nth k f n0)) (seq 0 (length f)))).
  { exact (filter_map_swap S (fun k => P (nth k (x :: f) n0)) (seq 0 (length f))). }
  cbn [length] in L. rewrite E, IH by lia. destruct (P x); cbn [map nth]; rewrite !map_map; reflexivity.
Qed.
Lemma assemble_inv fMin fMax p1 p2 F S : assemble solved fMin fMax p1 p2 = Ok (F, S) ->
  exists f1 s1 f2 s2, solved p1 p2 = Ok (f1, s1) /\ solved p2 p1 = Ok (f2, s2) /\ length s1 = length f2 /\ length s2 = length f2 /\
    F = map (get f2) (band fMin fMax f2) /\ length S = length F /\
    forall k, (k < length S)%nat -> let q := nth k (band fMin fMax f2) 0%nat in
      s_get (nth k S sd) 0 0 = s_get (nth q s1 sd) 0 0 /\ s_get (nth k S sd) 1 0 = s_get (nth q s1 sd) 1 0 /\
      s_get (nth k S sd) 0 1 = s_get (nth q s2 sd) 1 0 /\ s_get (nth k S sd) 1 1 = s_get (nth q s2 sd) 0 0.
Proof.
  unfold assemble. intros H. inv_bind H. destruct a as [f1 s1]. inv_bind H. destruct a as [f2 s2]. cbn [fst snd] in H. inv_bind H. cbn [fst snd] in Ha1. exists f1, s1, f2, s2. split; [exact Ha|]. split; [exact Ha0|].
  destruct (Nat.eqb_spec (length s1) (length f2)) as [L1|]; [|discriminate Ha1]. destruct (Nat.eqb_spec (length s2) (length f2)) as [L2|]; [|discriminate Ha1]. clear Ha1 a. split; [exact L1|]. split; [exact L2|].
  match type of H with Ok (map fst (filter _ (combine f2 (mk _ ?g))), _) = _ => set (G := g) in H end.
  change (filter _ (combine f2 (mk (length f2) G))) with (filter (fun fs => in_band fMin fMax (fst fs)) (combine f2 (mk (length f2) G))) in H.
  rewrite (filter_combine (in_band fMin fMax) f2 _ sd (length_mk _ _)) in H. rewrite !map_map in H. cbn [fst snd] in H. injection H as <- <-. split; [reflexivity|]. rewrite !map_length. split; [reflexivity|].
  intros k Hk. change (filter _ (seq 0 (length f2))) with (band fMin fMax f2) in *. rewrite (nth_indep _ sd (nth 0 (mk (length f2) G) sd)) by (rewrite map_length; exact Hk).
  rewrite (map_nth (fun k => nth k (mk (length f2) G) sd) (band fMin fMax f2) 0%nat k). set (q := nth k (band fMin fMax f2) 0%nat) in *.
  assert (Hq : (q < length f2)%nat). { assert (I : In q (band fMin fMax f2)) by (apply nth_In; exact Hk). apply filter_In in I as [I _]. apply in_seq in I. lia. }
  rewrite nth_mk by exact Hq. repeat split.
Qed.
(** swapping the ports swaps both indices *)
Lemma assemble_swap fMin fMax p1 p2 F S F' S' f1 s1 f2 s2 : solved p1 p2 = Ok (f1, s1) -> solved p2 p1 = Ok (f2, s2) -> f1 = f2 ->
  assemble solved fMin fMax p1 p2 = Ok (F, S) -> assemble solved fMin fMax p2 p1 = Ok (F', S') ->
  F' = F /\ length S' = length S /\ forall k i j, (k < length S)%nat -> (i < 2)%nat -> (j < 2)%nat -> s_get (nth k S' sd) i j = s_get (nth k S sd) (1 - i) (1 - j).
Proof.
  intros E1 E2 Ef H H'. subst f2. destruct (assemble_inv _ _ _ _ _ _ H) as (g1 & r1 & g2 & r2 & G1 & G2 & L1 & L2 & EF & LS & ES). destruct (assemble_inv _ _ _ _ _ _ H') as (h1 & q1 & h2 & q2 & G1' & G2' & L1' & L2' & EF' & LS' & ES').
  rewrite E1 in G1, G2'. rewrite E2 in G2, G1'. injection G1 as <- <-. injection G2 as <- <-. injection G1' as <- <-. injection G2' as <- <-.
  assert (FF : F' = F) by (rewrite EF, EF'; reflexivity). split; [exact FF|]. split; [rewrite LS, LS', FF; reflexivity|]. intros k i j Hk Hi Hj. destruct (ES k Hk) as (A & B & C & D). destruct (ES' k) as (A' & B' & C' & D'); [rewrite LS', FF, <- LS; exact Hk|].
  destruct i as [|[|]]; [| |lia]; (destruct j as [|[|]]; [| |lia]); cbn [Nat.sub]; congruence.
Qed.
End Assemble.
Lemma pname_eq (p q : pname) : pname_eqb p q = true <-> p = q.
Proof. destruct p as [a i], q as [b j]. unfold pname_eqb. cbn [fst snd]. rewrite andb_true_iff, String.eqb_eq, Nat.eqb_eq. split; [intros [-> ->]; reflexivity|intros E; injection E; auto]. Qed.
Lemma extract_raises {N : num} (m : mtl N) fMin fMax p1 p2 :
  (p1 = p2 -> extract_2p_network m fMin fMax p1 p2 = Err AssertionError) /\
  (p1 <> p2 -> neqb fMax n0 = true -> extract_2p_network m fMin fMax p1 p2 = Err ZeroDivisionError) /\
  (p1 <> p2 -> neqb fMax n0 = false -> extract_2p_network m fMin fMax p1 p2 = Err AttributeError).
Proof.
  unfold extract_2p_network. destruct (pname_eqb p1 p2) eqn:E.
  - apply pname_eq in E. split; [reflexivity|]. split; congruence.
  - assert (Np : p1 <> p2) by (intros X; apply pname_eq in X; congruence). cbn [negb passert bind]. split; [congruence|]. split; intros _ ->; reflexivity.
Qed.
Lemma columns {N : num} (drv oth : pname -> pname -> port N) fMin fMax p1 p2 F S :
  assemble (fun p q => extract_s_reciprocal (drv p q) (snd p) (oth p q) (snd q)) fMin fMax p1 p2 = Ok (F, S) ->
  exists f1 a11 b11 g1 a21 b21 f2 a22 b22 g2 a12 b12,
    get_incident_and_reflected_power_wave (drv p1 p2) (snd p1) = Ok (f1, a11, b11) /\
    get_incident_and_reflected_power_wave (oth p1 p2) (snd p2) = Ok (g1, a21, b21) /\
    get_incident_and_reflected_power_wave (drv p2 p1) (snd p2) = Ok (f2, a22, b22) /\
    get_incident_and_reflected_power_wave (oth p2 p1) (snd p1) = Ok (g2, a12, b12) /\
    F = map (get f2) (band fMin fMax f2) /\ length S = length F /\
    forall k, (k < length S)%nat ->
      let q := nth k (band fMin fMax f2) 0%nat in
      let s := s_get (nth k S ((c0, c0), (c0, c0))) in
      s 0%nat 0%nat = cdiv (nth q b11 c0) (nth q a11 c0) /\
      s 1%nat 0%nat = cdiv (nth q b21 c0) (nth q a11 c0) /\
      s 0%nat 1%nat = cdiv (nth q b12 c0) (nth q a22 c0) /\
      s 1%nat 1%nat = cdiv (nth q b22 c0) (nth q a22 c0).
Proof.
  intros H. destruct (assemble_inv _ _ _ _ _ _ _ H) as (f1 & s1 & f2 & s2 & E1 & E2 & L1 & L2 & EF & LS & G).
  destruct (reciprocal_inv _ _ _ _ _ _ E1) as (a11 & b11 & g1 & a21 & b21 & W1 & W2 & M1 & R1). destruct (reciprocal_inv _ _ _ _ _ _ E2) as (a22 & b22 & g2 & a12 & b12 & W3 & W4 & M2 & R2).
  exists f1, a11, b11, g1, a21, b21, f2, a22, b22, g2, a12, b12. repeat (split; [assumption|]). intros k Hk. cbv zeta in *. destruct (G k Hk) as (A & B & C & D).
  assert (Hq : (nth k (band fMin fMax f2) 0 < length f2)%nat). { assert (I : In (nth k (band fMin fMax f2) 0%nat) (band fMin fMax f2)) by (apply nth_In; rewrite LS, EF, map_length in Hk; exact Hk). apply filter_In in I as [I _]. apply in_seq in I. lia. }
  destruct (R1 (nth k (band fMin fMax f2) 0%nat)) as (A1 & B1 & _); [rewrite <- M1, L1; exact Hq|]. destruct (R2 _ Hq) as (A2 & B2 & _). rewrite A, B, C, D. repeat split; assumption.
Qed.
Lemma port_probe_raises {N : num} (m : mtl N) terminal :
  (terminal = 0%nat \/ terminal = 1%nat -> add_port_probe m terminal = Err AttributeError) /\
  ((2 <= terminal)%nat -> add_port_probe m terminal = Err NameError).
Proof. unfold add_port_probe. destruct (Nat.leb_spec terminal 1); split; intros; reflexivity || lia. Qed.
Lemma spectrum_scal_ctimes n c x j : spectrum n (fun m => c * x m) j = ctimes c (spectrum n x j).
Proof.
  unfold spectrum, ctimes. cbn [fst snd]. apply f_equal2.
  - rewrite <- (sumR_scal n c). apply sumR_ext. intros m _; cbv beta; rring.
  - rewrite Ropp_mult_distr_r_reverse. f_equal. rewrite <- (sumR_scal n c). apply sumR_ext. intros m _; cbv beta; rring.
Qed.
