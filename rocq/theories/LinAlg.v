(** Positive definite matrices are invertible (over the reals, no symmetry needed). *)
From Coq Require Import List Arith Lia Reals Lra.
From Verif Require Import Num Py Arr ArrFacts NumR SpecR RFacts.
Import ListNotations.
Local Open Scope R_scope.

Lemma quad_ext n A B x y :
  (forall i j, (i < n)%nat -> (j < n)%nat -> A i j = B i j) ->
  (forall i, (i < n)%nat -> x i = y i) -> quad n A x = quad n B y.
Proof.
  intros HA Hx. apply sumR_ext; intros i Hi. rewrite Hx by auto. apply (f_equal (Rmult (y i))).
  apply sumR_ext; intros j Hj. now rewrite HA, Hx by auto.
Qed.

Lemma pd_psd n A : pos_def n A -> pos_semidef n A.
Proof.
  intros H x. destruct (Req_dec (sumR n (fun i => x i * x i)) 0) as [E|E].
  - right. symmetry. apply sumR_zero. intros i Hi.
    assert (x i * x i <= sumR n (fun i => x i * x i)).
    { apply (sumR_term n (fun i => x i * x i)); auto. intros; apply Rle_0_sqr. }
    assert (x i = 0) by (rty; nra). rewrite H1. rring.
  - left. apply H. 
    assert (G : forall n, sumR n (fun i => x i * x i) <> 0 -> exists i, (i < n)%nat /\ x i <> 0).
    { clear. induction n as [|n IH]; intros E; [now elim E|].
      destruct (Req_dec (x n) 0) as [Z|Z]; [|exists n; auto].
      destruct IH as (i & Hi & Hx); [|exists i; auto].
      intros E2. apply E. rewrite sumR_S, E2, Z. rring. }
    auto.
Qed.

Lemma pd_solve n : forall A, pos_def n A -> forall y,
  exists x, forall i, (i < n)%nat -> sumR n (fun j => A i j * x j) = y i.
Proof.
  induction n as [|n IH]; intros A HA y.
  - exists (fun _ => 0). intros; lia.
  - set (a := A 0%nat 0%nat).
    assert (Ha : 0 < a).
    { pose (e := fun i => if (i =? 0)%nat then 1 else 0).
      assert (P : 0 < quad (S n) A e) by (apply HA; exists 0%nat; split; [lia|unfold e; cbn; lra]).
      unfold quad in P. rewrite sumR_shift in P.
      rewrite (sumR_zero n) in P by (intros; unfold e; cbn; rring).
      rewrite sumR_shift in P. rewrite (sumR_zero n (fun k => A 0%nat (S k) * e (S k))) in P
        by (intros; unfold e; cbn; rring).
      unfold e in P; cbn in P. fold a in P. lra. }
    pose (Sc := fun i j => A (S i) (S j) - A (S i) 0%nat * A 0%nat (S j) / a).
    (* extension of a vector on the last n indices *)
    pose (ext := fun (t : R) (z : nat -> R) (i : nat) => match i with O => t | S k => z k end).
    assert (HS : pos_def n Sc).
    { intros z (i & Hi & Hz).
      set (t := - sumR n (fun j => A 0%nat (S j) * z j) / a).
      assert (P : 0 < quad (S n) A (ext t z)) by (apply HA; exists (S i); split; [lia|exact Hz]).
      unfold quad in P. rewrite sumR_shift in P.
      rewrite sumR_shift in P. cbn [ext] in P. fold a in P.
      assert (Z0 : a * t + sumR n (fun k => A 0%nat (S k) * z k) = 0)
        by (unfold t; rty; field; lra).
      rewrite Z0, Rmult_0_r, Rplus_0_l in P.
      erewrite quad_ext; [|reflexivity|reflexivity]. unfold quad.
      erewrite sumR_ext; [exact P|]. intros p Hp. cbn beta.
      apply (f_equal (Rmult (z p))). rewrite sumR_shift. cbn [ext].
      unfold Sc, t.
      rewrite (sumR_ext n _ (fun j => A (S p) (S j) * z j - A (S p) 0%nat / a * (A 0%nat (S j) * z j)))
        by (intros; unfold Rdiv; rring).
      rewrite sumR_minus, sumR_scal. unfold Rdiv. rring. }
    destruct (IH Sc HS (fun i => y (S i) - A (S i) 0%nat * y 0%nat / a)) as [z Hz].
    set (t := (y 0%nat - sumR n (fun j => A 0%nat (S j) * z j)) / a).
    exists (ext t z). intros [|i] Hi; rewrite sumR_shift; cbn [ext].
    + fold a. unfold t. rty. field. lra.
    + pose proof (Hz i ltac:(lia)) as E. unfold Sc in E.
      rewrite (sumR_ext n _ (fun j => A (S i) (S j) * z j - A (S i) 0%nat / a * (A 0%nat (S j) * z j))) in E
        by (intros; unfold Rdiv; rring).
      rewrite sumR_minus, sumR_scal in E. unfold t. rty.
      replace (sumR n (fun k => A (S i) (S k) * z k))
        with (y (S i) - A (S i) 0%nat * y 0%nat / a + A (S i) 0%nat / a * sumR n (fun j => A 0%nat (S j) * z j)).
      * field. lra.
      * rty. rewrite <- E. ring.
Qed.

Lemma pd_kernel n A x : pos_def n A ->
  (forall i, (i < n)%nat -> sumR n (fun j => A i j * x j) = 0) -> forall i, (i < n)%nat -> x i = 0.
Proof.
  intros HA H i Hi. destruct (Req_dec (x i) 0) as [E|E]; auto. exfalso.
  assert (P : 0 < quad n A x) by (apply HA; eauto).
  unfold quad in P. rewrite sumR_zero in P; [lra|]. intros k Hk. rewrite H by auto. rring.
Qed.

(** finite choice *)
Lemma fin_choice {B} (d : B) n (P : nat -> B -> Prop) : (forall i, (i < n)%nat -> exists b, P i b) ->
  exists f, forall i, (i < n)%nat -> P i (f i).
Proof.
  induction n as [|n IH]; intros H.
  - exists (fun _ => d). intros; lia.
  - destruct IH as [f Hf]; [intros; apply H; lia|]. destruct (H n) as [b Hb]; [lia|].
    exists (fun i => if (i =? n)%nat then b else f i). intros i Hi.
    destruct (Nat.eqb_spec i n) as [->|E]; auto. apply Hf; lia.
Qed.

Lemma solve_inverse n (A : mat NumR) :
  (forall y : nat -> R, exists x : nat -> R, forall i, (i < n)%nat -> sumR n (fun j => get2 A i j * x j) = y i) ->
  (forall x : nat -> R, (forall i, (i < n)%nat -> sumR n (fun j => get2 A i j * x j) = 0) ->
     forall i, (i < n)%nat -> x i = 0) ->
  exists B, is_inverse n A B.
Proof.
  intros HS HK.
  destruct (fin_choice (fun _ => 0) n (fun j x => forall i, (i < n)%nat ->
     sumR n (fun k => get2 A i k * x k) = @delta NumR i j)) as [f Hf].
  { intros j _. apply (HS (fun i => @delta NumR i j)). }
  set (B := @mk2 NumR n n (fun i j => f j i)). exists B.
  assert (R1 : forall i j, (i < n)%nat -> (j < n)%nat ->
     sumR n (fun k => get2 A i k * get2 B k j) = @delta NumR i j).
  { intros i j Hi Hj. rewrite <- (Hf j Hj i Hi). apply sumR_ext; intros k Hk.
    unfold B. rewrite get2_mk2 by auto. reflexivity. }
  split; [exact R1|]. intros i j Hi Hj.
  pose (x := fun i => sumR n (fun k => get2 B i k * get2 A k j) - @delta NumR i j).
  assert (X : forall i, (i < n)%nat -> x i = 0).
  { apply HK. intros p Hp. unfold x.
    rewrite (sumR_ext n _ (fun q => get2 A p q * sumR n (fun k => get2 B q k * get2 A k j)
                                     - get2 A p q * @delta NumR q j)) by (intros; rring).
    rewrite sumR_minus.
    rewrite <- (sumR_assoc n n (fun q => get2 A p q) (fun q k => get2 B q k) (fun k => get2 A k j)).
    rewrite (sumR_ext n _ (fun k => @delta NumR p k * get2 A k j))
      by (intros k Hk; apply (f_equal (fun z => Rmult z (get2 A k j))); exact (R1 p k Hp Hk)).
    rewrite (sumR_delta_l n (fun k => get2 A k j) p Hp), (sumR_delta_r n (fun k => get2 A p k) j Hj). rring. }
  specialize (X i Hi). unfold x in X. rlra.
Qed.

Theorem pd_invertible n (A : mat NumR) : pos_def n (get2 A) -> exists B, is_inverse n A B.
Proof.
  intros H. apply solve_inverse.
  - apply (pd_solve n (get2 A) H).
  - intros x. apply (pd_kernel n (get2 A) x H).
Qed.

(** I + Z M with Z diagonal non-negative and M positive definite *)
Theorem port_invertible n (A : mat NumR) (z : nat -> R) (M : nat -> nat -> R) :
  pos_def n M -> (forall i, (i < n)%nat -> 0 <= z i) ->
  (forall i j, (i < n)%nat -> (j < n)%nat -> get2 A i j = z i * M i j + @delta NumR i j) ->
  exists B, is_inverse n A B.
Proof.
  intros HM Hz HA.
  (* A x = z (M x) + x *)
  assert (EA : forall x i, (i < n)%nat ->
     sumR n (fun j => get2 A i j * x j) = z i * sumR n (fun j => M i j * x j) + x i).
  { intros x i Hi. transitivity (sumR n (fun j => z i * (M i j * x j) + @delta NumR i j * x j)).
    - apply sumR_ext; intros j Hj. rsimpl. rewrite HA by auto. rring.
    - rewrite sumR_plus, sumR_scal. f_equal. now apply sumR_delta_l. }
  (* M^-1 =: Minv; K = Minv + Z is positive definite *)
  pose (Mm := @mk2 NumR n n M).
  assert (HMm : pos_def n (get2 Mm)).
  { intros x Hx. rewrite (quad_ext n _ M x x); [now apply HM| |auto].
    intros; unfold Mm; now rewrite get2_mk2 by auto. }
  destruct (pd_invertible n Mm HMm) as [Mi HMi].
  pose (K := fun i j => get2 Mi i j + z i * @delta NumR i j).
  assert (EK : forall x i, (i < n)%nat ->
     sumR n (fun j => K i j * x j) = sumR n (fun j => get2 Mi i j * x j) + z i * x i).
  { intros x i Hi. unfold K.
    transitivity (sumR n (fun j => get2 Mi i j * x j + z i * (@delta NumR i j * x j)));
      [apply sumR_ext; intros; rring|].
    rewrite sumR_plus, sumR_scal. f_equal. f_equal. now apply sumR_delta_l. }
  assert (HK : pos_def n K).
  { intros x (i0 & Hi0 & Hx0). unfold quad.
    rewrite (sumR_ext n _ (fun i => x i * sumR n (fun j => get2 Mi i j * x j) + z i * (x i * x i)))
      by (intros i Hi; rewrite EK by auto; rring).
    rewrite sumR_plus.
    assert (0 <= sumR n (fun i => z i * (x i * x i))).
    { apply sumR_nonneg; intros i Hi. apply Rmult_le_pos; auto. apply Rle_0_sqr. }
    assert (0 < sumR n (fun i => x i * sumR n (fun j => get2 Mi i j * x j))).
    { pose (y := fun i => sumR n (fun j => get2 Mi i j * x j)).
      assert (Q : 0 < quad n (get2 Mm) y).
      { apply HMm. destruct (Classical_Prop.classic (exists i, (i < n)%nat /\ y i <> 0)) as [E|E]; auto.
        exfalso. apply Hx0. rewrite <- (inverse_cancel_l n Mm Mi x i0 HMi Hi0).
        apply sumR_zero. intros k Hk. fold (y k).
        destruct (Req_dec (y k) 0) as [Z|Z]; [rewrite Z; rring|]. elim E; eauto. }
      unfold quad in Q. erewrite sumR_ext; [exact Q|]. intros i Hi. cbn beta.
      fold (y i). rewrite Rmult_comm. apply (f_equal (Rmult (y i))). symmetry.
      exact (inverse_cancel_l n Mm Mi x i HMi Hi). }
    rlra. }
  assert (EMm : forall x i, (i < n)%nat -> sumR n (fun j => get2 Mm i j * x j) = sumR n (fun j => M i j * x j)).
  { intros x i Hi. apply sumR_ext; intros j Hj. unfold Mm. now rewrite get2_mk2 by auto. }
  apply solve_inverse.
  - intros y. destruct (pd_solve n K HK y) as [w Hw].
    exists (fun i => sumR n (fun j => get2 Mi i j * w j)). intros i Hi. rewrite EA by auto.
    rewrite <- EMm by auto. rewrite (inverse_cancel_l n Mm Mi w i HMi Hi).
    rewrite <- Hw, EK by auto. rring.
  - intros x Hx. pose (w := fun i => sumR n (fun j => M i j * x j)).
    assert (Hxw : forall i, (i < n)%nat -> x i = sumR n (fun j => get2 Mi i j * w j)).
    { intros i Hi. rewrite <- (inverse_cancel_r n Mm Mi x i HMi Hi).
      apply sumR_ext; intros j Hj. apply (f_equal (Rmult (get2 Mi i j))). now apply EMm. }
    assert (Hw : forall i, (i < n)%nat -> w i = 0).
    { apply (pd_kernel n K w HK). intros i Hi. rewrite EK, <- Hxw by auto.
      rewrite <- (Hx i Hi), EA by auto. fold (w i). rring. }
    intros i Hi. rewrite Hxw by auto. apply sumR_zero. intros k Hk. rewrite Hw by auto. rring.
Qed.

Lemma pd_add_psd n A B : pos_def n A -> pos_semidef n B -> pos_def n (fun i j => A i j + B i j).
Proof.
  intros HA HB x Hx. unfold quad.
  rewrite (sumR_ext n _ (fun i => x i * sumR n (fun j => A i j * x j) + x i * sumR n (fun j => B i j * x j))).
  - rewrite sumR_plus. pose proof (HA x Hx) as P. pose proof (HB x) as Q. unfold quad in P, Q. rlra.
  - intros i Hi. rewrite <- Rmult_plus_distr_l, <- sumR_plus. apply (f_equal (Rmult (x i))).
    apply sumR_ext; intros; rring.
Qed.
Lemma quad_scal n s A x : quad n (fun i j => s * A i j) x = s * quad n A x.
Proof.
  unfold quad. rewrite <- sumR_scal. apply sumR_ext; intros i Hi.
  rewrite (sumR_ext n _ (fun j => s * (A i j * x j))) by (intros; rring). rewrite sumR_scal. rring.
Qed.
Lemma pd_scal n s A : 0 < s -> pos_def n A -> pos_def n (fun i j => s * A i j).
Proof. intros Hs HA x Hx. rewrite quad_scal. apply Rmult_lt_0_compat; auto. Qed.
Lemma psd_scal n s A : 0 <= s -> pos_semidef n A -> pos_semidef n (fun i j => s * A i j).
Proof. intros Hs HA x. rewrite quad_scal. apply Rmult_le_pos; auto. Qed.
Lemma psd_zero n : pos_semidef n (fun _ _ => 0).
Proof. intros x. right. symmetry. apply sumR_zero. intros i Hi. rewrite sumR_zero; intros; rring. Qed.
Lemma pd_ext n A B : (forall i j, (i < n)%nat -> (j < n)%nat -> A i j = B i j) -> pos_def n A -> pos_def n B.
Proof. intros E H x Hx. rewrite <- (quad_ext n A B x x); auto. Qed.
Lemma psd_ext n A B : (forall i j, (i < n)%nat -> (j < n)%nat -> A i j = B i j) -> pos_semidef n A -> pos_semidef n B.
Proof. intros E H x. rewrite <- (quad_ext n A B x x); auto. Qed.
