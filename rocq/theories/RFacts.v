(** Facts about sums and matrices over the reals. *)
From Coq Require Import List Arith ZArith Bool Lia Reals Lra Psatz.
From Verif Require Import Num Py Arr ArrFacts NumR.
Import ListNotations.
Local Open Scope R_scope.

(** turn the operations of [NumR] into those of R *)
Ltac rsimpl :=
  cbn [car n0 n1 nadd nsub nmul ndiv nopp nabs nsqrt nexp nsin ncos npi nofZ nfloor nltb nleb
       neqb NumR] in *;
  unfold nhalf, n2, nsq in *;
  cbn [car n0 n1 nadd nsub nmul ndiv nopp nabs nsqrt nexp nsin ncos npi nofZ nfloor nltb nleb
       neqb NumR] in *;
  repeat change (car NumR) with R in *.

(** [ring], [field], [lra] on goals whose type is displayed as [car NumR] *)
Ltac rty := repeat change (car NumR) with R in *.
Ltac rring := rsimpl; ring.
Ltac rfield := rsimpl; field.
Ltac rlra := rsimpl; lra.

Lemma Rltb_spec x y : reflect (x < y) (Rltb x y).
Proof. unfold Rltb. destruct (Rlt_dec x y); constructor; auto. Qed.
Lemma Rleb_spec x y : reflect (x <= y) (Rleb x y).
Proof. unfold Rleb. destruct (Rle_dec x y); constructor; auto. Qed.
Lemma Reqb_spec x y : reflect (x = y) (Reqb x y).
Proof. unfold Reqb. destruct (Req_EM_T x y); constructor; auto. Qed.
Lemma Rltb_true x y : Rltb x y = true <-> x < y.
Proof. destruct (Rltb_spec x y); split; intros; auto; try discriminate; contradiction. Qed.
Lemma Rltb_false x y : Rltb x y = false <-> y <= x.
Proof. destruct (Rltb_spec x y); split; intros; auto; try discriminate; lra. Qed.
Lemma Rleb_true x y : Rleb x y = true <-> x <= y.
Proof. destruct (Rleb_spec x y); split; intros; auto; try discriminate; contradiction. Qed.
Lemma Rleb_false x y : Rleb x y = false <-> y < x.
Proof. destruct (Rleb_spec x y); split; intros; auto; try discriminate; lra. Qed.
Lemma Reqb_true x y : Reqb x y = true <-> x = y.
Proof. destruct (Reqb_spec x y); split; intros; auto; try discriminate; contradiction. Qed.
Lemma Reqb_false x y : Reqb x y = false <-> x <> y.
Proof. destruct (Reqb_spec x y); split; intros; auto; try discriminate; contradiction. Qed.


Lemma sumR_S n f : sumR (S n) f = sumR n f + f n.
Proof. reflexivity. Qed.
Lemma sumR_0 f : sumR 0 f = 0.
Proof. reflexivity. Qed.
Lemma sumR_ext n f g : (forall k, (k < n)%nat -> f k = g k) -> sumR n f = sumR n g.
Proof. apply sumn_ext. Qed.
Lemma sumR_zero n f : (forall k, (k < n)%nat -> f k = 0) -> sumR n f = 0.
Proof. induction n as [|n IH]; intros H; [reflexivity|]. rewrite sumR_S, IH, H; auto; rring. Qed.
Lemma sumR_plus n f g : sumR n (fun k => f k + g k) = sumR n f + sumR n g.
Proof. induction n as [|n IH]; rewrite ?sumR_S, ?sumR_0; [rring|]. rewrite IH; rring. Qed.
Lemma sumR_minus n f g : sumR n (fun k => f k - g k) = sumR n f - sumR n g.
Proof. induction n as [|n IH]; rewrite ?sumR_S, ?sumR_0; [rring|]. rewrite IH; rring. Qed.
Lemma sumR_opp n f : sumR n (fun k => - f k) = - sumR n f.
Proof. induction n as [|n IH]; rewrite ?sumR_S, ?sumR_0; [rring|]. rewrite IH; rring. Qed.
Lemma sumR_scal n a f : sumR n (fun k => a * f k) = a * sumR n f.
Proof. induction n as [|n IH]; rewrite ?sumR_S, ?sumR_0; [rring|]. rewrite IH; rring. Qed.
Lemma sumR_scal_r n a f : sumR n (fun k => f k * a) = sumR n f * a.
Proof. induction n as [|n IH]; rewrite ?sumR_S, ?sumR_0; [rring|]. rewrite IH; rring. Qed.
Lemma sumR_div n a f : sumR n (fun k => f k / a) = sumR n f / a.
Proof. unfold Rdiv. apply sumR_scal_r. Qed.
Lemma sumR_swap n m (f : nat -> nat -> R) :
  sumR n (fun i => sumR m (fun j => f i j)) = sumR m (fun j => sumR n (fun i => f i j)).
Proof.
  induction n as [|n IH].
  - rewrite sumR_0. symmetry. apply sumR_zero. intros; apply sumR_0.
  - rewrite sumR_S, IH, <- sumR_plus. apply sumR_ext. intros; now rewrite sumR_S.
Qed.
Lemma sumR_nonneg n f : (forall k, (k < n)%nat -> 0 <= f k) -> 0 <= sumR n f.
Proof.
  induction n as [|n IH]; intros H; [rewrite sumR_0; rlra|].
  rewrite sumR_S. apply Rplus_le_le_0_compat; auto.
Qed.
Lemma sumR_le n f g : (forall k, (k < n)%nat -> f k <= g k) -> sumR n f <= sumR n g.
Proof.
  induction n as [|n IH]; intros H; [rewrite !sumR_0; rlra|].
  rewrite !sumR_S. apply Rplus_le_compat; auto.
Qed.
Lemma sumR_term n f k : (k < n)%nat -> (forall j, (j < n)%nat -> 0 <= f j) -> f k <= sumR n f.
Proof.
  induction n as [|n IH]; intros Hk H; [lia|]. rewrite sumR_S.
  destruct (Nat.eq_dec k n) as [->|E].
  - assert (0 <= sumR n f) by (apply sumR_nonneg; auto). rlra.
  - assert (f k <= sumR n f) by (apply IH; auto; lia). assert (0 <= f n) by auto. rlra.
Qed.
Lemma sumR_shift n f : sumR (S n) f = f 0%nat + sumR n (fun k => f (S k)).
Proof.
  induction n as [|n IH]; [rewrite sumR_S, !sumR_0; rring|].
  rewrite sumR_S, IH, (sumR_S n). rring.
Qed.
Lemma sumR_rev n f : sumR n f = sumR n (fun k => f (n - 1 - k)%nat).
Proof.
  induction n as [|n IH]; [reflexivity|].
  rewrite (sumR_shift n (fun k => f (S n - 1 - k)%nat)), sumR_S, IH.
  rewrite Rplus_comm. rty. f_equal; [f_equal; lia|]. apply sumR_ext. intros; f_equal; lia.
Qed.
(** only one term differs from zero *)
Lemma sumR_single n f k : (k < n)%nat -> (forall j, (j < n)%nat -> j <> k -> f j = 0) ->
  sumR n f = f k.
Proof.
  induction n as [|n IH]; intros Hk H; [lia|]. rewrite sumR_S.
  destruct (Nat.eq_dec k n) as [->|E].
  - rewrite sumR_zero by (intros; apply H; lia). rring.
  - rewrite IH, (H n) by (auto; lia). rring.
Qed.
Lemma deltaR i j : @delta NumR i j = if (i =? j)%nat then 1 else 0.
Proof. reflexivity. Qed.
Lemma deltaR_eq i : @delta NumR i i = 1.
Proof. unfold delta. now rewrite Nat.eqb_refl. Qed.
Lemma deltaR_neq i j : i <> j -> @delta NumR i j = 0.
Proof. intros H. unfold delta. now rewrite (proj2 (Nat.eqb_neq i j) H). Qed.
Lemma sumR_delta_l n f k : (k < n)%nat -> sumR n (fun j => @delta NumR k j * f j) = f k.
Proof.
  intros H. rewrite (sumR_single n _ k H).
  - rewrite deltaR_eq; rring.
  - intros j _ Hj. rewrite deltaR_neq by auto; rring.
Qed.
Lemma sumR_delta_r n f k : (k < n)%nat -> sumR n (fun j => f j * @delta NumR j k) = f k.
Proof.
  intros H. rewrite (sumR_single n _ k H).
  - rewrite deltaR_eq; rring.
  - intros j _ Hj. rewrite deltaR_neq by auto; rring.
Qed.

(** associativity: (A B) x = A (B x) *)
Lemma sumR_assoc n m (A : nat -> R) (B : nat -> nat -> R) (x : nat -> R) :
  sumR m (fun j => sumR n (fun k => A k * B k j) * x j)
  = sumR n (fun k => A k * sumR m (fun j => B k j * x j)).
Proof.
  transitivity (sumR m (fun j => sumR n (fun k => A k * B k j * x j))).
  - apply sumR_ext; intros. now rewrite <- sumR_scal_r.
  - rewrite sumR_swap. apply sumR_ext; intros. rewrite <- sumR_scal.
    apply sumR_ext; intros. rring.
Qed.

(** with B = A^-1: A (B y) = y and B (A y) = y *)
Lemma inverse_cancel_l n (A B : mat NumR) (y : nat -> R) i : is_inverse n A B -> (i < n)%nat ->
  sumR n (fun j => get2 A i j * sumR n (fun k => get2 B j k * y k)) = y i.
Proof.
  intros [H _] Hi.
  transitivity (sumR n (fun k => @delta NumR i k * y k)); [|now apply sumR_delta_l].
  rewrite <- sumR_assoc. apply sumR_ext; intros k Hk. f_equal. now rewrite <- H.
Qed.
Lemma inverse_cancel_r n (A B : mat NumR) (y : nat -> R) i : is_inverse n A B -> (i < n)%nat ->
  sumR n (fun j => get2 B i j * sumR n (fun k => get2 A j k * y k)) = y i.
Proof.
  intros [_ H] Hi.
  transitivity (sumR n (fun k => @delta NumR i k * y k)); [|now apply sumR_delta_l].
  rewrite <- sumR_assoc. apply sumR_ext; intros k Hk. f_equal. now rewrite <- H.
Qed.
(** uniqueness of solutions of A x = y *)
Lemma inverse_solve n (A B : mat NumR) (x y : nat -> R) : is_inverse n A B ->
  (forall i, (i < n)%nat -> sumR n (fun j => get2 A i j * x j) = y i) ->
  forall i, (i < n)%nat -> x i = sumR n (fun j => get2 B i j * y j).
Proof.
  intros HI H i Hi. rewrite <- (inverse_cancel_r n A B x i HI Hi).
  apply sumR_ext; intros j Hj. now rewrite H.
Qed.
Lemma inverse_inj n (A B : mat NumR) (x y : nat -> R) : is_inverse n A B ->
  (forall i, (i < n)%nat -> sumR n (fun j => get2 A i j * x j) = sumR n (fun j => get2 A i j * y j)) ->
  forall i, (i < n)%nat -> x i = y i.
Proof.
  intros HI H i Hi.
  rewrite (inverse_solve n A B x (fun i => sumR n (fun j => get2 A i j * y j)) HI H i Hi).
  now apply inverse_cancel_r.
Qed.
