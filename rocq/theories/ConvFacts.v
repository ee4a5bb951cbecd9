(** The stored pole weights are the exact weights of piecewise linear currents. *)
From Coq Require Import String List Arith ZArith Bool Lia Reals Lra.
From Coquelicot Require Import Coquelicot.
From Verif Require Import Num Py Arr NumR Dispersive SpecConv.
Local Open Scope R_scope.

Lemma cexp_re (dt : NumR) (p : cR) : fst (@w3 NumR dt p) = exp (fst p * dt) * cos (snd p * dt).
Proof. unfold w3, cexp, cscal. cbn. now rewrite !(Rmult_comm dt). Qed.
Lemma cexp_im (dt : NumR) (p : cR) : snd (@w3 NumR dt p) = exp (fst p * dt) * sin (snd p * dt).
Proof. unfold w3, cexp, cscal. cbn. now rewrite !(Rmult_comm dt). Qed.

(** shifting time multiplies the response by [e^(p dt)] *)
Lemma response_shift (r p : cR) (t dt : R) :
  response_re r p (t + dt) = fst (@w3 NumR dt p) * response_re r p t - snd (@w3 NumR dt p) * response_im r p t /\
  response_im r p (t + dt) = fst (@w3 NumR dt p) * response_im r p t + snd (@w3 NumR dt p) * response_re r p t.
Proof.
  rewrite cexp_re, cexp_im. unfold response_re, response_im.
  rewrite !Rmult_plus_distr_l, exp_plus, cos_plus, sin_plus. split; ring.
Qed.

Section Weights.
Variables (a b r1 r2 dt : R).
Hypothesis Hp : a * a + b * b <> 0.
Hypothesis Hdt : 0 < dt.
Let p : cR := (a, b).
Let r : cR := (r1, r2).
Let n2 := a * a + b * b.
(** u = r/p, v = r/p^2 *)
Let u1 := (r1 * a + r2 * b) / n2.
Let u2 := (r2 * a - r1 * b) / n2.
Let v1 := (u1 * a + u2 * b) / n2.
Let v2 := (u2 * a - u1 * b) / n2.

(** antiderivatives of [response (dt - s)] and [s * response (dt - s)]: minus u E, and minus (s u + v) E *)
Let E (x y s : R) := exp (a * (dt - s)) * (x * cos (b * (dt - s)) - y * sin (b * (dt - s))).
Let F (x y s : R) := exp (a * (dt - s)) * (x * sin (b * (dt - s)) + y * cos (b * (dt - s))).

Ltac fin s :=
  change (dt + - s) with (dt - s); generalize (exp (a * (dt - s))) (cos (b * (dt - s))) (sin (b * (dt - s)));
  intros; field; exact Hp.
Lemma int_const : is_RInt (fun s => response_re r p (dt - s)) 0 dt (E u1 u2 0 - u1) /\
                  is_RInt (fun s => response_im r p (dt - s)) 0 dt (F u1 u2 0 - u2).
Proof.
  split.
  - replace (E u1 u2 0 - u1) with (minus (- E u1 u2 dt) (- E u1 u2 0)).
    2:{ unfold minus, plus, opp. cbn. unfold E. rewrite Rminus_diag_eq by auto. rewrite !Rmult_0_r, exp_0, cos_0, sin_0. ring. }
    apply (is_RInt_derive (fun s => - E u1 u2 s)).
    + intros s _. unfold E, response_re, r, p. cbn [fst snd]. auto_derive; [auto|]. unfold u1, u2, n2. fin s.
    + intros s _. apply (ex_derive_continuous (V := R_NormedModule)). unfold response_re, r, p. cbn [fst snd]. auto_derive. auto.
  - replace (F u1 u2 0 - u2) with (minus (- F u1 u2 dt) (- F u1 u2 0)).
    2:{ unfold minus, plus, opp. cbn. unfold F. rewrite Rminus_diag_eq by auto. rewrite !Rmult_0_r, exp_0, cos_0, sin_0. ring. }
    apply (is_RInt_derive (fun s => - F u1 u2 s)).
    + intros s _. unfold F, response_im, r, p. cbn [fst snd]. auto_derive; [auto|]. unfold u1, u2, n2. fin s.
    + intros s _. apply (ex_derive_continuous (V := R_NormedModule)). unfold response_im, r, p. cbn [fst snd]. auto_derive. auto.
Qed.

Lemma int_lin : is_RInt (fun s => response_re r p (dt - s) * s) 0 dt (E v1 v2 0 - v1 - dt * u1) /\
                is_RInt (fun s => response_im r p (dt - s) * s) 0 dt (F v1 v2 0 - v2 - dt * u2).
Proof.
  split.
  - replace (E v1 v2 0 - v1 - dt * u1) with (minus (- E (dt * u1 + v1) (dt * u2 + v2) dt) (- E (0 * u1 + v1) (0 * u2 + v2) 0)).
    2:{ unfold minus, plus, opp. cbn. unfold E. rewrite (Rminus_diag_eq dt) by auto. rewrite !Rmult_0_r, exp_0, cos_0, sin_0, !Rmult_0_l, !Rplus_0_l. ring. }
    apply (is_RInt_derive (fun s => - E (s * u1 + v1) (s * u2 + v2) s)).
    + intros s _. unfold E, response_re, r, p. cbn [fst snd]. auto_derive; [auto|]. unfold v1, v2, u1, u2, n2. fin s.
    + intros s _. apply (ex_derive_continuous (V := R_NormedModule)). unfold response_re, r, p. cbn [fst snd]. auto_derive. auto.
  - replace (F v1 v2 0 - v2 - dt * u2) with (minus (- F (dt * u1 + v1) (dt * u2 + v2) dt) (- F (0 * u1 + v1) (0 * u2 + v2) 0)).
    2:{ unfold minus, plus, opp. cbn. unfold F. rewrite (Rminus_diag_eq dt) by auto. rewrite !Rmult_0_r, exp_0, cos_0, sin_0, !Rmult_0_l, !Rplus_0_l. ring. }
    apply (is_RInt_derive (fun s => - F (s * u1 + v1) (s * u2 + v2) s)).
    + intros s _. unfold F, response_im, r, p. cbn [fst snd]. auto_derive; [auto|]. unfold v1, v2, u1, u2, n2. fin s.
    + intros s _. apply (ex_derive_continuous (V := R_NormedModule)). unfold response_im, r, p. cbn [fst snd]. auto_derive. auto.
Qed.

(** the code's closed forms *)
Lemma w1_int : (E v1 v2 0 - v1 - dt * u1) / dt = - fst (@w1 NumR dt r p) /\ (F v1 v2 0 - v2 - dt * u2) / dt = - snd (@w1 NumR dt r p).
Proof.
  assert (Hd : dt <> 0) by lra.
  assert (Hn : (dt * a) * (dt * a) + (dt * b) * (dt * b) <> 0).
  { replace ((dt * a) * (dt * a) + (dt * b) * (dt * b)) with (dt * dt * (a * a + b * b)) by ring.
    apply Rmult_integral_contrapositive; split; [nra|exact Hp]. }
  unfold E, F. rewrite Rminus_0_r. rewrite (Rmult_comm a dt), (Rmult_comm b dt).
  unfold w1, cmul, cdiv, csub, cexp, cscal, c1, nsq, r, p. cbn.
  set (e := exp (dt * a)). set (cc := cos (dt * b)). set (ss := sin (dt * b)).
  unfold v1, v2, u1, u2, n2. split; field; repeat split; auto.
Qed.
Lemma w2_int : (E u1 u2 0 - u1) - (E v1 v2 0 - v1 - dt * u1) / dt = fst (@w2 NumR dt r p) /\
               (F u1 u2 0 - u2) - (F v1 v2 0 - v2 - dt * u2) / dt = snd (@w2 NumR dt r p).
Proof.
  assert (Hd : dt <> 0) by lra.
  assert (Hn : (dt * a) * (dt * a) + (dt * b) * (dt * b) <> 0).
  { replace ((dt * a) * (dt * a) + (dt * b) * (dt * b)) with (dt * dt * (a * a + b * b)) by ring.
    apply Rmult_integral_contrapositive; split; [nra|exact Hp]. }
  unfold E, F. rewrite Rminus_0_r. rewrite (Rmult_comm a dt), (Rmult_comm b dt).
  unfold w2, cmul, cdiv, csub, cadd, cexp, cscal, c1, nsq, r, p. cbn.
  set (e := exp (dt * a)). set (cc := cos (dt * b)). set (ss := sin (dt * b)).
  unfold v1, v2, u1, u2, n2. split; field; repeat split; auto.
Qed.
End Weights.

(** integral over one step of a linear current *)
Lemma int_step (dt i0 i1 : R) (r p : cR) : 0 < dt -> p <> c0 ->
  is_RInt (fun s => response_re r p (dt - s) * (i0 + (i1 - i0) * (s / dt))) 0 dt
    (fst (@cadd NumR (@cscal NumR i1 (csub c0 (@w1 NumR dt r p))) (@cscal NumR i0 (@w2 NumR dt r p)))) /\
  is_RInt (fun s => response_im r p (dt - s) * (i0 + (i1 - i0) * (s / dt))) 0 dt
    (snd (@cadd NumR (@cscal NumR i1 (csub c0 (@w1 NumR dt r p))) (@cscal NumR i0 (@w2 NumR dt r p)))).
Proof.
  intros Hdt Hp0. destruct p as [a b], r as [r1 r2].
  assert (Hp : a * a + b * b <> 0).
  { intros H. apply Hp0. assert (a * a = 0) by nra. assert (b * b = 0) by nra.
    apply Rsqr_0_uniq in H0. apply Rsqr_0_uniq in H1. subst. reflexivity. }
  destruct (int_const a b r1 r2 dt Hp) as [c1' c2'].
  destruct (int_lin a b r1 r2 dt Hp) as [l1 l2].
  destruct (w1_int a b r1 r2 dt Hp Hdt) as [W1 W1'].
  destruct (w2_int a b r1 r2 dt Hp Hdt) as [W2 W2'].
  assert (G : forall (f : R -> R) (C L q1 q2 l : R), is_RInt f 0 dt C -> is_RInt (fun s => f s * s) 0 dt L ->
     L / dt = - q1 -> C - L / dt = q2 -> l = i1 * (0 - q1) + i0 * q2 ->
     is_RInt (fun s => f s * (i0 + (i1 - i0) * (s / dt))) 0 dt l).
  { intros f C L q1 q2 l HC HL E1 E2 ->.
    apply is_RInt_ext with (f := fun s => plus (scal i0 (f s)) (scal ((i1 - i0) / dt) (f s * s))).
    { intros s _. unfold plus, scal. cbn. unfold mult. cbn. field. lra. }
    replace (i1 * (0 - q1) + i0 * q2) with (plus (scal i0 C) (scal ((i1 - i0) / dt) L)).
    2:{ subst q2. unfold plus, scal. cbn. unfold mult. cbn.
        replace ((i1 - i0) / dt * L) with ((i1 - i0) * (L / dt)) by (field; lra). rewrite E1. ring. }
    apply (is_RInt_plus (V := R_NormedModule)); apply (is_RInt_scal (V := R_NormedModule)); assumption. }
  split.
  - exact (G _ _ _ _ _ _ c1' l1 W1 W2 eq_refl).
  - exact (G _ _ _ _ _ _ c2' l2 W1' W2' eq_refl).
Qed.

Lemma step_exact (dt : R) (r p : cR) : 0 < dt -> p <> c0 ->
  exact_step dt r p (csub c0 (@w1 NumR dt r p)) (@w2 NumR dt r p) (@w3 NumR dt p).
Proof.
  intros Hdt Hp x t i0 i1 z Ht Hx [Z1 Z2].
  destruct (int_step dt i0 i1 r p Hdt Hp) as [S1 S2].
  set (q := cadd _ _) in S1, S2. change (cadd (@cscal NumR i1 _) (@cscal NumR i0 _)) with q.
  assert (G : forall (h : R -> R) (l : R), is_RInt (fun s => h (dt - s) * (i0 + (i1 - i0) * (s / dt))) 0 dt l ->
            is_RInt (fun s => h (t + dt - s) * x s) t (t + dt) l).
  { intros h l H.
    assert (H' : is_RInt (fun s => scal 1 ((fun s => h (dt - s) * (i0 + (i1 - i0) * (s / dt))) (1 * s + - t))) t (t + dt) l).
    { apply (is_RInt_comp_lin (V := R_NormedModule) (fun s => h (dt - s) * (i0 + (i1 - i0) * (s / dt)))).
      replace (1 * t + - t) with 0 by ring. replace (1 * (t + dt) + - t) with dt by ring. exact H. }
    revert H'. apply is_RInt_ext. intros s Hs. rewrite Rmin_left, Rmax_right in Hs by lra.
    unfold scal. cbn. unfold mult. cbn.
    replace (x s) with (x (t + (s - t))) by (f_equal; ring). rewrite Hx by lra.
    replace (dt - (1 * s + - t)) with (t + dt - s) by ring. field. lra. }
  apply G in S1. apply G in S2. split.
  - replace (fst (cadd q (cmul (@w3 NumR dt p) z)))
      with (plus (minus (scal (fst (@w3 NumR dt p)) (fst z)) (scal (snd (@w3 NumR dt p)) (snd z))) (fst q)).
    2:{ unfold plus, minus, opp, scal, cadd, cmul. cbn. unfold plus, mult. cbn. ring. }
    eapply (is_RInt_Chasles (V := R_NormedModule)); [|exact S1].
    apply is_RInt_ext with (f := fun s => minus (scal (fst (@w3 NumR dt p)) (response_re r p (t - s) * x s))
                                               (scal (snd (@w3 NumR dt p)) (response_im r p (t - s) * x s))).
    { intros s _. replace (t + dt - s) with (t - s + dt) by ring. destruct (response_shift r p (t - s) dt) as [-> _].
      unfold minus, plus, opp, scal. cbn. unfold mult. cbn. ring. }
    apply (is_RInt_minus (V := R_NormedModule)); apply (is_RInt_scal (V := R_NormedModule)); assumption.
  - replace (snd (cadd q (cmul (@w3 NumR dt p) z)))
      with (plus (plus (scal (fst (@w3 NumR dt p)) (snd z)) (scal (snd (@w3 NumR dt p)) (fst z))) (snd q)).
    2:{ unfold plus, minus, opp, scal, cadd, cmul. cbn. unfold plus, mult. cbn. ring. }
    eapply (is_RInt_Chasles (V := R_NormedModule)); [|exact S2].
    apply is_RInt_ext with (f := fun s => plus (scal (fst (@w3 NumR dt p)) (response_im r p (t - s) * x s))
                                              (scal (snd (@w3 NumR dt p)) (response_re r p (t - s) * x s))).
    { intros s _. replace (t + dt - s) with (t - s + dt) by ring. destruct (response_shift r p (t - s) dt) as [_ ->].
      unfold minus, plus, opp, scal. cbn. unfold mult. cbn. ring. }
    apply (is_RInt_plus (V := R_NormedModule)); apply (is_RInt_scal (V := R_NormedModule)); assumption.
Qed.
