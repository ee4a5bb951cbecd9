(** Reading the broadcast pole lists; the memory of dispersive elements (any [num]). *)
From Coq Require Import String List Arith ZArith Bool Lia.
From Verif Require Import Num Py Arr ArrFacts Probes Dispersive Line LineFacts Bundle Networks Mtln
  SpecLine SpecBundle HistoryFacts StepTotal DispFacts.
Import ListNotations.

Section Mem.
Context {N : num}.
Local Open Scope num_scope.
Implicit Types (a b r q : qe N) (s : disp N).

(** [l] is an index of [q], or [q] is a scalar *)
Definition readable (l : nat) (q : qe N) : Prop := (l < length q)%nat \/ length q = 1%nat.

Lemma at_lt l q : (l < length q)%nat -> at_ l q = nth l q c0.
Proof. intros H. unfold at_. destruct (Nat.eqb_spec (length q) 1); [|reflexivity]. f_equal. lia. Qed.
Lemma at_one l l' q : length q = 1%nat -> at_ l q = at_ l' q.
Proof. intros H. unfold at_. rewrite H. reflexivity. Qed.
Lemma at_map (f : cplx N -> cplx N) l q : readable l q -> at_ l (map f q) = f (at_ l q).
Proof.
  intros H. unfold at_. rewrite map_length. destruct (Nat.eqb_spec (length q) 1) as [E|E].
  - rewrite (nth_indep _ c0 (f c0)) by (rewrite map_length; lia). apply map_nth.
  - destruct H as [H|H]; [|contradiction]. rewrite (nth_indep _ c0 (f c0)) by (rewrite map_length; lia). apply map_nth.
Qed.
Lemma readable_map (f : cplx N -> cplx N) l q : readable l (map f q) <-> readable l q.
Proof. unfold readable. now rewrite map_length. Qed.

Lemma bop_length f a b r : bop f a b = Ok r ->
  (length a = length r \/ length a = 1%nat) /\ (length b = length r \/ length b = 1%nat) /\
  (length r = length a \/ length r = length b).
Proof.
  unfold bop. destruct (Nat.eqb_spec (length a) (length b)) as [E|E].
  - intros H. injection H as <-. rewrite length_mk. auto.
  - destruct (Nat.eqb_spec (length a) 1) as [E1|E1].
    + intros H. injection H as <-. rewrite map_length. auto.
    + destruct (Nat.eqb_spec (length b) 1) as [E2|E2]; [|discriminate].
      intros H. injection H as <-. rewrite map_length. auto.
Qed.
(** an operand with two or more poles fixes the length of the result *)
Lemma bop_long f a b r : bop f a b = Ok r ->
  (length a <> 1%nat -> length r = length a) /\ (length b <> 1%nat -> length r = length b).
Proof. intros H. apply bop_length in H as (H1 & H2 & H3). lia. Qed.

Lemma bop_at f a b r l : bop f a b = Ok r -> readable l r ->
  readable l a /\ readable l b /\ at_ l r = f (at_ l a) (at_ l b).
Proof.
  intros H Hl. pose proof (bop_length _ _ _ _ H) as (H1 & H2 & _). unfold readable in *.
  split; [lia|]. split; [lia|]. unfold bop in H.
  destruct (Nat.eqb_spec (length a) (length b)) as [E|E].
  - injection H as <-. unfold at_. rewrite length_mk in *. rewrite <- E.
    destruct (Nat.eqb_spec (length a) 1); rewrite nth_mk by lia; reflexivity.
  - destruct (Nat.eqb_spec (length a) 1) as [E1|E1].
    + injection H as <-. rewrite map_length in *.
      rewrite (at_map (f (nth 0 a c0))) by (unfold readable; lia). f_equal. unfold at_. now rewrite E1.
    + destruct (Nat.eqb_spec (length b) 1) as [E2|E2]; [|discriminate]. injection H as <-. rewrite map_length in *.
      rewrite (at_map (fun x => f x (nth 0 b c0))) by (unfold readable; lia). f_equal. unfold at_. now rewrite E2.
Qed.

Lemma bop_error f a b e : bop f a b = Err e -> e = ValueError.
Proof. unfold bop. repeat destruct (_ =? _)%nat; congruence. Qed.
Lemma bop_clash f a b : length a <> 1%nat -> length b <> 1%nat -> length a <> length b ->
  bop f a b = Err ValueError.
Proof.
  intros H1 H2 H3. unfold bop. rewrite (proj2 (Nat.eqb_neq _ _) H3),
    (proj2 (Nat.eqb_neq (length a) 1)), (proj2 (Nat.eqb_neq (length b) 1)) by lia. reflexivity.
Qed.

(** the sums, as an iterated complex addition *)
Fixpoint csumn (n : nat) (f : nat -> cplx N) : cplx N :=
  match n with O => c0 | S O => f 0%nat | S (S _ as k) => cadd (csumn k f) (f k) end.
Lemma csumn_S n (f : nat -> cplx N) : (1 <= n)%nat -> csumn (S n) f = cadd (csumn n f) (f n).
Proof. destruct n; [lia|]. reflexivity. Qed.

Lemma foldM_seq_S {S} (f : S -> nat -> res S) k x : foldM f (seq 1 (Datatypes.S k)) x =
  (y <- foldM f (seq 1 k) x ;; f y (Datatypes.S k)).
Proof.
  rewrite seq_S, foldM_app. cbn [foldM]. destruct (foldM f (seq 1 k) x); cbn [bind]; [|reflexivity].
  change (1 + k)%nat with (Datatypes.S k). destruct (f a (Datatypes.S k)); reflexivity.
Qed.

Definition qdot_S n (row : nat -> qe N) (x : nat -> N) : (1 <= n)%nat -> qdot (S n) row x =
  (acc <- qdot n row x ;; bop cadd acc (map (cscal (x n)) (row n))).
Proof. intros H. destruct n as [|k]; [lia|]. unfold qdot. apply foldM_seq_S. Qed.
Definition qdotq_S n (row x : nat -> qe N) : (1 <= n)%nat -> qdotq (S n) row x =
  (acc <- qdotq n row x ;; p <- bop cmul (row n) (x n) ;; bop cadd acc p).
Proof.
  intros H. destruct n as [|k]; [lia|]. unfold qdotq.
  destruct (bop cmul (row 0%nat) (x 0%nat)); cbn [bind]; [|reflexivity]. apply foldM_seq_S.
Qed.

Lemma qdot_at n (row : nat -> qe N) x r l : (1 <= n)%nat -> qdot n row x = Ok r -> readable l r ->
  (forall j, (j < n)%nat -> readable l (row j)) /\
  at_ l r = csumn n (fun j => cscal (x j) (at_ l (row j))).
Proof.
  intros Hn. revert r. induction n as [|n IH]; intros r H Hl; [lia|]. destruct n as [|k].
  - cbn [qdot seq foldM] in H. injection H as <-. rewrite readable_map in Hl. split.
    + intros j Hj. now replace j with 0%nat by lia.
    + cbn [csumn]. now apply at_map.
  - rewrite qdot_S in H by lia. inv_bind H. destruct (bop_at _ _ _ _ _ H Hl) as (R1 & R2 & E).
    rewrite readable_map in R2. destruct (IH ltac:(lia) _ Ha R1) as [I1 I2]. split.
    + intros j Hj. destruct (Nat.eq_dec j (S k)) as [->|]; [exact R2|apply I1; lia].
    + rewrite E, I2, (csumn_S (S k)) by lia. now rewrite at_map.
Qed.
Lemma qdotq_at n (row x : nat -> qe N) r l : (1 <= n)%nat -> qdotq n row x = Ok r -> readable l r ->
  (forall j, (j < n)%nat -> readable l (row j) /\ readable l (x j)) /\
  at_ l r = csumn n (fun j => cmul (at_ l (row j)) (at_ l (x j))).
Proof.
  intros Hn. revert r. induction n as [|n IH]; intros r H Hl; [lia|]. destruct n as [|k].
  - cbn [qdotq seq foldM] in H. inv_bind H. injection H as <-. destruct (bop_at _ _ _ _ _ Ha Hl) as (R1 & R2 & E). split.
    + intros j Hj. replace j with 0%nat by lia. auto.
    + exact E.
  - rewrite qdotq_S in H by lia. inv_bind H. inv_bind H. destruct (bop_at _ _ _ _ _ H Hl) as (R1 & R2 & E).
    destruct (bop_at _ _ _ _ _ Ha0 R2) as (R3 & R4 & E2).
    destruct (IH ltac:(lia) _ Ha R1) as [I1 I2]. split.
    + intros j Hj. destruct (Nat.eq_dec j (S k)) as [->|]; [auto|apply I1; lia].
    + rewrite E, I2, (csumn_S (S k)) by lia. now rewrite E2.
Qed.

(** lengths *)
Lemma qdot_long n (row : nat -> qe N) x r : qdot n row x = Ok r ->
  forall j, (j < n)%nat -> length (row j) <> 1%nat -> length r = length (row j).
Proof.
  revert r. induction n as [|n IH]; intros r H j Hj Hl; [lia|]. destruct n as [|k].
  - cbn [qdot seq foldM] in H. injection H as <-. replace j with 0%nat by lia. apply map_length.
  - rewrite qdot_S in H by lia. inv_bind H. destruct (bop_long _ _ _ _ H) as [L1 L2]. rewrite map_length in L2.
    destruct (Nat.eq_dec j (S k)) as [->|]; [auto|]. pose proof (IH _ Ha j ltac:(lia) Hl). lia.
Qed.
Lemma qdotq_long n (row x : nat -> qe N) r : qdotq n row x = Ok r ->
  forall j, (j < n)%nat -> (length (row j) <> 1%nat -> length r = length (row j)) /\
                           (length (x j) <> 1%nat -> length r = length (x j)).
Proof.
  revert r. induction n as [|n IH]; intros r H j Hj; [lia|]. destruct n as [|k].
  - cbn [qdotq seq foldM] in H. inv_bind H. injection H as <-. replace j with 0%nat by lia. eapply bop_long; eauto.
  - rewrite qdotq_S in H by lia. inv_bind H. inv_bind H. destruct (bop_long _ _ _ _ H) as [L1 L2].
    destruct (bop_long _ _ _ _ Ha0) as [L3 L4].
    destruct (Nat.eq_dec j (S k)) as [->|].
    + split; intros Hl; [specialize (L3 Hl)|specialize (L4 Hl)]; lia.
    + destruct (IH _ Ha j ltac:(lia)) as [I1 I2]. split; intros Hl; [specialize (I1 Hl)|specialize (I2 Hl)]; lia.
Qed.
(** the error of a product is always a shape mismatch *)
Lemma qdotq_error n (row x : nat -> qe N) e : qdotq n row x = Err e -> e = ValueError.
Proof.
  induction n as [|n IH]; [discriminate|]. destruct n as [|k].
  - cbn [qdotq seq foldM]. destruct (bop _ _ _) eqn:E; cbn [bind]; [discriminate|]. intros H. injection H as <-.
    now apply bop_error in E.
  - rewrite qdotq_S by lia. destruct (qdotq (S k) row x) eqn:E; cbn [bind].
    + destruct (bop cmul (row (S k)) (x (S k))) eqn:E2; cbn [bind]; [apply bop_error|].
      intros H. injection H as <-. now apply bop_error in E2.
    + intros H. injection H as <-. now apply IH.
Qed.
Lemma mapM_error {A B} (f : A -> res B) l e : (forall (a : A) e, f a = Err e -> e = ValueError) ->
  mapM f l = Err e -> e = ValueError.
Proof.
  intros Hf. induction l as [|a l IH]; [discriminate|]. cbn [mapM]. destruct (f a) eqn:E; cbn [bind].
  - destruct (mapM f l); cbn [bind]; [discriminate|]. intros H. injection H as ->. auto.
  - intros H. injection H as <-. eauto.
Qed.
Lemma mapM_seq_Ok {B} (f : nat -> res B) n bs : mapM f (seq 0 n) = Ok bs -> forall k, (k < n)%nat -> exists y : B, f k = Ok y.
Proof.
  intros H k Hk.
  assert (G : forall l bs, mapM f l = Ok bs -> forall x, In x l -> exists y : B, f x = Ok y).
  { induction l as [|x l IH]; intros bs' E y [].
    - subst y. cbn [mapM] in E. inv_bind E. eauto.
    - cbn [mapM] in E. inv_bind E. inv_bind E. eauto. }
  eapply G; eauto. apply in_seq. lia.
Qed.

Lemma q3_error s e : update_q3_phi_term s = Err e -> e = ValueError.
Proof.
  unfold update_q3_phi_term. destruct (mapM _ _) eqn:E; cbn [bind]; [discriminate|]. intros H. injection H as <-.
  eapply mapM_error; [|exact E]. intros k e1. apply mapM_error. intros c e2 H.
  destruct (qdotq _ _ _) eqn:E2; cbn [bind] in H; [discriminate|]. injection H as <-. now apply qdotq_error in E2.
Qed.

(** the updated arrays, entry by entry *)
Lemma q3_entry s s' k c : update_q3_phi_term s = Ok s' -> (k < ds_nx s)%nat -> (c < ds_n s)%nat ->
  exists r, qdotq (ds_n s) (fun j => dP3 s k c j) (fun j => dPhi s k j) = Ok r /\ dMem s' k c = qsum r.
Proof.
  unfold update_q3_phi_term. intros H Hk Hc. inv_bind H. injection H as <-. unfold dMem. cbn [ds_q3phi].
  destruct (mapM_seq_Ok _ _ _ Ha k Hk) as [row Er].
  pose proof (mapM_seq _ _ _ k ([] : vec N) Ha Hk) as E1. cbv beta in E1. rewrite Er in E1.
  destruct (mapM_seq_Ok _ _ _ Er c Hc) as [x Ex].
  pose proof (mapM_seq _ _ _ c (n0 : N) Er Hc) as E2. cbv beta in E2. rewrite Ex in E2.
  inv_bind Ex. exists a0. split; [exact Ha0|]. injection Ex as <-. injection E1 as E1. injection E2 as E2.
  unfold get2. rewrite <- E1. unfold get. symmetry. exact E2.
Qed.
Lemma phi_entry s i i' s' k c : update_phi s i i' = Ok s' -> (k < ds_nx s)%nat -> (c < ds_n s)%nat ->
  exists a b q ab, qdot (ds_n s) (fun j => dP1 s k c j) (fun j => get2 i' j k) = Ok a /\
    qdot (ds_n s) (fun j => dP2 s k c j) (fun j => get2 i j k) = Ok b /\
    qdotq (ds_n s) (fun j => dP3 s k c j) (fun j => dPhi s k j) = Ok q /\
    bop cadd a b = Ok ab /\ bop cadd ab q = Ok (dPhi s' k c).
Proof.
  unfold update_phi. intros H Hk Hc. inv_bind H. injection H as <-. unfold dPhi at 2. cbn [ds_phi].
  destruct (mapM_seq_Ok _ _ _ Ha k Hk) as [row Er].
  pose proof (mapM_seq _ _ _ k ([] : list (qe N)) Ha Hk) as E1. cbv beta in E1. rewrite Er in E1.
  destruct (mapM_seq_Ok _ _ _ Er c Hc) as [x Ex].
  pose proof (mapM_seq _ _ _ c (qzero : qe N) Er Hc) as E2. cbv beta in E2. rewrite Ex in E2.
  inv_bind Ex. inv_bind Ex. inv_bind Ex. inv_bind Ex. exists a0, a1, a2, a3.
  injection E1 as E1. injection E2 as E2. unfold qget2. rewrite <- E1. rewrite <- E2.
  split; [exact Ha0|]. split; [exact Ha1|]. split; [exact Ha2|]. split; [exact Ha3|exact Ex].
Qed.

(** the memory after a step, pole by pole *)
Lemma phi_at s i s' k c l : update_phi s i i = Ok s' -> (k < ds_nx s)%nat -> (c < ds_n s)%nat ->
  readable l (dPhi s' k c) ->
  (forall j, (j < ds_n s)%nat -> readable l (dP1 s k c j) /\ readable l (dP2 s k c j) /\
                                 readable l (dP3 s k c j) /\ readable l (dPhi s k j)) /\
  at_ l (dPhi s' k c) =
  cadd (cadd (csumn (ds_n s) (fun j => cscal (get2 i j k) (at_ l (dP1 s k c j))))
             (csumn (ds_n s) (fun j => cscal (get2 i j k) (at_ l (dP2 s k c j)))))
       (csumn (ds_n s) (fun j => cmul (at_ l (dP3 s k c j)) (at_ l (dPhi s k j)))).
Proof.
  intros H Hk Hc Hl. assert (Hn : (1 <= ds_n s)%nat) by lia. destruct (phi_entry _ _ _ _ _ _ H Hk Hc) as (a & b & q & ab & Ea & Eb & Eq & Eab & E).
  destruct (bop_at _ _ _ _ _ E Hl) as (R1 & R2 & E1). destruct (bop_at _ _ _ _ _ Eab R1) as (R3 & R4 & E2).
  destruct (qdot_at _ _ _ _ _ Hn Ea R3) as [A1 A2]. destruct (qdot_at _ _ _ _ _ Hn Eb R4) as [B1 B2].
  destruct (qdotq_at _ _ _ _ _ Hn Eq R2) as [C1 C2].
  split; [|now rewrite E1, E2, A2, B2, C2].
  intros j Hj. split; [auto|]. split; [auto|]. apply C1; auto.
Qed.

(** two pole lists of different lengths in one cell *)
Lemma q3_clash s k c1 c2 : (k < ds_nx s)%nat -> (c1 < ds_n s)%nat -> (c2 < ds_n s)%nat ->
  length (dPhi s k c1) <> 1%nat -> length (dPhi s k c2) <> 1%nat ->
  length (dPhi s k c1) <> length (dPhi s k c2) -> update_q3_phi_term s = Err ValueError.
Proof.
  intros Hk H1 H2 L1 L2 Hne. destruct (update_q3_phi_term s) as [s'|e] eqn:E.
  - exfalso. destruct (q3_entry _ _ _ _ E Hk H1) as (r & Er & _).
    destruct (qdotq_long _ _ _ _ Er c1 H1) as [_ X1]. destruct (qdotq_long _ _ _ _ Er c2 H2) as [_ X2].
    specialize (X1 L1). specialize (X2 L2). congruence.
  - f_equal. now apply q3_error in E.
Qed.
Lemma phi_long s i s' k c : update_phi s i i = Ok s' -> (k < ds_nx s)%nat -> (c < ds_n s)%nat ->
  length (dP1 s k c c) <> 1%nat -> length (dPhi s' k c) = length (dP1 s k c c).
Proof.
  intros H Hk Hc Hl. destruct (phi_entry _ _ _ _ _ _ H Hk Hc) as (a & b & q & ab & Ea & Eb & Eq & Eab & E).
  pose proof (qdot_long _ _ _ _ Ea c Hc Hl) as L1. destruct (bop_long _ _ _ _ Eab) as [L2 _].
  destruct (bop_long _ _ _ _ E) as [L3 _]. lia.
Qed.
End Mem.
