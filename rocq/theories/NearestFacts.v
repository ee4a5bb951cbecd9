(** The nearest-node search. *)
From Coq Require Import List Arith Lia Reals Lra.
From Verif Require Import Num Py Arr ArrFacts NumR RFacts Probes SpecR.
Import ListNotations.
Local Open Scope R_scope.

(** ** nearest node *)
Lemma argmin_from_lt {N : num} (l : vec N) pos bi b : (bi < pos)%nat ->
  (argmin_from l pos bi b < pos + length l)%nat.
Proof.
  revert pos bi b; induction l as [|a l IH]; intros pos bi b H; simpl; [lia|].
  destruct (a <? b)%num.
  - specialize (IH (S pos) pos a). lia.
  - specialize (IH (S pos) bi b). lia.
Qed.
Lemma argmin_lt {N : num} (l : vec N) : l <> [] -> (argmin l < length l)%nat.
Proof.
  destruct l as [|a l]; [congruence|]. intros _. simpl.
  pose proof (argmin_from_lt l 1 0 a). lia.
Qed.
Lemma nearest_lt {N : num} (u : mat N) p : u <> [] -> (nearest u p < length u)%nat.
Proof.
  intros H. unfold nearest.
  match goal with |- (argmin ?l < _)%nat => pose proof (argmin_lt l) as A; assert (L : length l = length u) end.
  { now rewrite map_length. }
  rewrite L in A. apply A. intros E. apply H. destruct u; [auto|discriminate].
Qed.


(** over the reals: the first of the smallest *)
Lemma argmin_from_spec (l : list R) : forall pos bi (b : R),
  (bi < pos)%nat ->
  let r := @argmin_from NumR l pos bi b in
  let at_ j := if (j <? pos)%nat then b else nth (j - pos) l 0 in
  (r = bi \/ (pos <= r)%nat) /\ 
  at_ r <= b /\
  (forall j, (j < length l)%nat -> at_ r <= nth j l 0) /\
  ((pos <= r)%nat -> at_ r < b /\ forall j, (pos + j < r)%nat -> at_ r < nth j l 0).
Proof.
  induction l as [|a l IH]; intros pos bi b H r at_.
  - subst r at_. cbn [argmin_from length]. cbv beta. rewrite (proj2 (Nat.ltb_lt _ _) H). repeat split; auto; try lra; intros; lia.
  - subst r. cbn [argmin_from]. rsimpl.
    destruct (Rltb_spec a b) as [L|L].
    + destruct (IH (S pos) pos a ltac:(lia)) as (H1 & H2 & H3 & H4).
      set (r := @argmin_from NumR l (S pos) pos a) in *.
      assert (E : at_ r = (if (r <? S pos)%nat then a else nth (r - S pos) l 0)).
      { unfold at_. destruct (Nat.ltb_spec r pos); [lia|].
        destruct (Nat.ltb_spec r (S pos)).
        - replace (r - pos)%nat with 0%nat by lia. reflexivity.
        - replace (r - pos)%nat with (S (r - S pos)) by lia. reflexivity. }
      rewrite <- E in *. repeat split; [lia|lra| |lra|].
      * intros [|j] Hj; simpl in *; [lra|]. apply H3. lia.
      * intros [|j] Hj; simpl.
        -- assert (HS : (S pos <= r)%nat) by lia. destruct (H4 HS). lra.
        -- assert (HS : (S pos <= r)%nat) by lia. destruct (H4 HS) as [_ H5]. apply H5. lia.
    + destruct (IH (S pos) bi b ltac:(lia)) as (H1 & H2 & H3 & H4).
      set (r := @argmin_from NumR l (S pos) bi b) in *.
      assert (E : at_ r = (if (r <? S pos)%nat then b else nth (r - S pos) l 0)).
      { unfold at_. destruct (Nat.ltb_spec r pos).
        - destruct (Nat.ltb_spec r (S pos)); [auto|lia].
        - destruct (Nat.ltb_spec r (S pos)); [lia|].
          replace (r - pos)%nat with (S (r - S pos)) by lia. reflexivity. }
      rewrite <- E in *. assert (~ (b <= at_ r /\ at_ r < b)) by lra. repeat split; [lia|lra| | |].
      * intros [|j] Hj; simpl in *; [|apply H3; lia]. lra.
      * assert (HS : (S pos <= r)%nat) by lia. now destruct (H4 HS).
      * assert (HS : (S pos <= r)%nat) by lia. destruct (H4 HS) as [H6 H7].
        intros [|j] Hj; simpl; [lra|]. apply H7. lia.
Qed.

Lemma argmin_spec (l : list R) : l <> [] ->
  let r := @argmin NumR l in
  (r < length l)%nat /\ (forall j, (j < length l)%nat -> nth r l 0 <= nth j l 0) /\
  (forall j, (j < r)%nat -> nth r l 0 < nth j l 0).
Proof.
  intros Hl r. split; [exact (@argmin_lt NumR l Hl)|].
  destruct l as [|a l]; [congruence|]. subst r. cbn [argmin].
  destruct (argmin_from_spec l 1 0 a ltac:(lia)) as (H1 & H2 & H3 & H4).
  set (r := @argmin_from NumR l 1 0 a) in *.
  assert (E : nth r (a :: l) 0 = if (r <? 1)%nat then a else nth (r - 1) l 0).
  { destruct r as [|r]; auto. simpl. now rewrite Nat.sub_0_r. }
  rewrite E. split.
  - intros [|j] Hj; simpl in *; auto. apply H3; lia.
  - intros [|j] Hj; simpl.
    + apply H4. lia.
    + apply H4; lia.
Qed.

(** the characterisation determines the index *)
Lemma argmin_unique (l : list R) i : (i < length l)%nat ->
  (forall j, (j < length l)%nat -> nth i l 0 <= nth j l 0) ->
  (forall j, (j < i)%nat -> nth i l 0 < nth j l 0) -> @argmin NumR l = i.
Proof.
  intros Hi H1 H2. assert (Hl : l <> []) by (intros ->; simpl in Hi; lia).
  destruct (argmin_spec l Hl) as (A & B & C). set (r := @argmin NumR l) in *.
  destruct (Nat.lt_trichotomy r i) as [L|[E|L]]; auto.
  - specialize (H2 r L). specialize (B i Hi). lra.
  - specialize (C i L). specialize (H1 r A). lra.
Qed.


Lemma Rabs_sq x : Rabs x * Rabs x = x ^ 2.
Proof. rewrite <- Rabs_mult. rewrite Rabs_right; [ring|]. apply Rle_ge. replace (x * x) with (Rsqr x) by reflexivity. apply Rle_0_sqr. Qed.

Lemma vnorm_dist3 (p q : list R) : @vnorm NumR (mk 3 (fun i => @nabs NumR (@nsub NumR (@get NumR p i) (@get NumR q i)))) = dist3 p q.
Proof.
  unfold vnorm, dist3, get, mk. cbn [sumn seq map nth]. rsimpl. rewrite !Rabs_sq. f_equal. ring.
Qed.

Lemma nearest_dist (u : list (list R)) p : @nearest NumR u p = @argmin NumR (map (fun x => dist3 x p) u).
Proof. unfold nearest. f_equal. apply map_ext. intros x. apply vnorm_dist3. Qed.

Lemma nearest_closest (u : list (list R)) (p : list R) : u <> [] -> closest u p (@nearest NumR u p).
Proof.
  intros Hu. rewrite nearest_dist. destruct (argmin_spec (map (fun x => dist3 x p) u)) as (A & B & C).
  { intros E. apply Hu. destruct u; [auto|discriminate]. }
  set (k := @argmin NumR (map (fun x => dist3 x p) u)) in *.
  change (k < length (map (fun x => dist3 x p) u))%nat in A. rewrite map_length in A, B.
  assert (F : forall j, (j < length u)%nat -> nth j (map (fun x => dist3 x p) u) 0 = dist3 (nth j u []) p).
  { intros j Hj. rewrite nth_indep with (d' := dist3 [] p) by (rewrite map_length; auto).
    apply (map_nth (fun x => dist3 x p)). }
  split; [exact A|]. split.
  - intros j Hj. rewrite <- !F by auto. auto.
  - intros j Hj. rewrite <- !F by lia. auto.
Qed.
