(** Proofs about localized longitudinal fields. *)
From Coq Require Import String List Arith ZArith Bool Lia Reals Lra FinFun.
From Verif Require Import Num Py Arr ArrFacts NumR RFacts Utils Probes Dispersive Line LineFacts NearestFacts Bundle
  SpecLine SpecR SpecBundle SpecCore SpecField CoreEq.
Import ListNotations.

Section Dict.
Context {V : Type}.
Implicit Types (d : list (Z * V)).
Lemma zget_set k v d i : dget Z.eqb i (dset Z.eqb k v d) = if (i =? k)%Z then Some v else dget Z.eqb i d.
Proof.
  induction d as [|[a w] d IH]; cbn [dset dget].
  - destruct (Z.eqb_spec i k); reflexivity.
  - destruct (Z.eqb_spec k a) as [->|Hk]; cbn [dget].
    + destruct (Z.eqb_spec i a); reflexivity.
    + destruct (Z.eqb_spec i a) as [Ea|]; [|exact IH]. destruct (Z.eqb_spec i k); congruence.
Qed.
Lemma zset_keys k v d a : In a (map fst (dset Z.eqb k v d)) <-> a = k \/ In a (map fst d).
Proof.
  induction d as [|[b w] d IH]; cbn [dset map fst].
  - cbn. intuition congruence.
  - destruct (Z.eqb_spec k b) as [->|Hk]; cbn [map fst In]; [intuition congruence|]. rewrite IH. intuition congruence.
Qed.
Lemma zset_nodup k v d : NoDup (map fst d) -> NoDup (map fst (dset Z.eqb k v d)).
Proof.
  induction d as [|[b w] d IH]; cbn [dset map fst]; intros H.
  - repeat constructor. intros [].
  - inversion H; subst. destruct (Z.eqb_spec k b) as [->|Hk]; cbn [map fst]; [now constructor|].
    constructor; [|auto]. rewrite zset_keys. intros [->|X]; [congruence|contradiction].
Qed.
Lemma zget_in k d v : dget Z.eqb k d = Some v -> In (k, v) d.
Proof.
  induction d as [|[a w] d IH]; cbn [dget]; [discriminate|]. destruct (Z.eqb_spec k a) as [->|]; [intros E; injection E as <-; now left|right; auto].
Qed.
Lemma zget_none k d : ~ In k (map fst d) -> dget Z.eqb k d = None.
Proof.
  induction d as [|[a w] d IH]; cbn [dget map fst]; [reflexivity|]. intros H. destruct (Z.eqb_spec k a) as [->|]; [exfalso; apply H; now left|].
  apply IH. intros X. apply H. now right.
Qed.
End Dict.

Section Free.
Context {N : num}.
Local Open Scope num_scope.
Definition entry (e : list (list (N -> N))) c k : N -> N := nth k (nth c e []) (fun _ => n0).
Definition rect (n m : nat) (e : list (list (N -> N))) : Prop := length e = n /\ forall c, (c < n)%nat -> length (nth c e []) = m.

Lemma rect_upd n m e c k x : rect n m e -> rect n m (upd2 e c k x).
Proof.
  intros [H1 H2]. unfold upd2. split; [now rewrite length_lset|]. intros i Hi. rewrite nth_lset. destruct (_ && _) eqn:E; [|auto].
  apply andb_prop in E as [E _]. apply Nat.eqb_eq in E. subst i. rewrite length_lset. auto.
Qed.
Lemma entry_upd n m e c k x i j : rect n m e -> (c < n)%nat -> (k < m)%nat ->
  entry (upd2 e c k x) i j = if ((c =? i) && (k =? j))%nat then x else entry e i j.
Proof.
  intros [H1 H2] Hc Hk. unfold entry, upd2. rewrite nth_lset, H1, (proj2 (Nat.ltb_lt _ _) Hc), andb_true_r.
  destruct (Nat.eqb_spec c i) as [->|]; [|reflexivity]. cbn [andb]. rewrite nth_lset, H2, (proj2 (Nat.ltb_lt _ _) Hk) by exact Hc. now rewrite andb_true_r.
Qed.
Lemma pyidx_Some len z k : pyidx len z = Some k -> (k < len)%nat /\ ((0 <= z)%Z -> z = Z.of_nat k).
Proof.
  unfold pyidx. destruct (Z.leb_spec 0 z).
  - destruct (Z.ltb_spec z (Z.of_nat len)); [|discriminate]. intros E. injection E as <-. lia.
  - destruct (Z.leb_spec 0 (z + Z.of_nat len)); [|discriminate]. intros E. injection E as <-. lia.
Qed.
Lemma pyidx_nat len k : (k < len)%nat -> pyidx len (Z.of_nat k) = Some k.
Proof. intros H. unfold pyidx. destruct (Z.leb_spec 0 (Z.of_nat k)); [|lia]. destruct (Z.ltb_spec (Z.of_nat k) (Z.of_nat len)); [|lia]. now rewrite Nat2Z.id. Qed.

(** the loop over the dictionary of factors *)
Lemma fold_fields n m c (g : N -> (N -> N) -> (N -> N)) : forall (d : fdict) e e',
  foldM (fun eL kf => let '(z, factor) := kf in set_eL n m eL c z (g factor)) d e = Ok e' ->
  rect n m e -> NoDup (map fst d) -> (forall z, In z (map fst d) -> (0 <= z)%Z) ->
  rect n m e' /\ (d = [] \/ (c < n)%nat) /\ (forall z, In z (map fst d) -> (z < Z.of_nat m)%Z) /\
  forall i k, entry e' i k = match dget Z.eqb (Z.of_nat k) d with
                             | Some x => if (i =? c)%nat then g x (entry e i k) else entry e i k
                             | None => entry e i k end.
Proof.
  induction d as [|[z x] d IH]; intros e e' H R D P; cbn [foldM] in H.
  - apply OkI in H. subst e'. split; [exact R|]. split; [now left|]. split; [intros z []|]. reflexivity.
  - inv_bind H. unfold set_eL in Ha. destruct (pyidx m z) as [k0|] eqn:E; [|discriminate]. destruct (Nat.ltb_spec c n) as [Hc|]; [|discriminate].
    apply OkI in Ha. subst a. destruct (pyidx_Some _ _ _ E) as [K1 K2]. assert (Z0 : (0 <= z)%Z) by (apply P; now left). specialize (K2 Z0).
    cbn [map fst] in D. inversion D; subst x0 l.
    destruct (IH _ _ H) as (R' & _ & B & F); auto using rect_upd. { intros y Hy. apply P. now right. }
    split; [exact R'|]. split; [now right|]. split.
    { intros y Hy. cbn [map fst In] in Hy. destruct Hy as [<-|Hy]; [lia|auto]. }
    intros i k. rewrite F. cbn [dget]. destruct (Z.eqb_spec (Z.of_nat k) z) as [Ez|Ez].
    + assert (k = k0) by lia. subst k. rewrite (zget_none (Z.of_nat k0) d) by (rewrite <- K2; exact H2).
      rewrite (entry_upd n m) by auto. rewrite Nat.eqb_refl, andb_true_r. rewrite (Nat.eqb_sym i c). destruct (Nat.eqb_spec c i) as [->|]; reflexivity.
    + rewrite (entry_upd n m) by auto. rewrite (proj2 (Nat.eqb_neq k0 k)) by lia. rewrite andb_false_r. reflexivity.
Qed.

(** the loop in general: each factor whose key names the cell is applied, in order *)
Definition hits (m k : nat) (zx : Z * N) : bool := match pyidx m (fst zx) with Some k' => (k' =? k)%nat | None => false end.
Lemma fold_fields_list n m c (g : N -> (N -> N) -> (N -> N)) : forall (d : fdict) e e',
  foldM (fun eL kf => let '(z, factor) := kf in set_eL n m eL c z (g factor)) d e = Ok e' -> rect n m e ->
  rect n m e' /\ (d = [] \/ (c < n)%nat) /\
  forall i k, entry e' i k = if (i =? c)%nat then fold_left (fun o zx => g (snd zx) o) (filter (hits m k) d) (entry e i k) else entry e i k.
Proof.
  induction d as [|[z x] d IH]; intros e e' H R; cbn [foldM] in H.
  - apply OkI in H. subst e'. split; [exact R|]. split; [now left|]. intros i k. cbn [filter fold_left]. destruct (i =? c)%nat; reflexivity.
  - inv_bind H. unfold set_eL in Ha. destruct (pyidx m z) as [k0|] eqn:E; [|discriminate]. destruct (Nat.ltb_spec c n) as [Hc|]; [|discriminate].
    apply OkI in Ha. subst a. destruct (pyidx_Some _ _ _ E) as [K1 _].
    destruct (IH _ _ H) as (R' & _ & F); auto using rect_upd. split; [exact R'|]. split; [now right|].
    intros i k. rewrite F. rewrite (entry_upd n m) by auto. cbn [filter]. unfold hits at 2. cbn [fst]. rewrite E. rewrite (Nat.eqb_sym c i).
    destruct (Nat.eqb_spec i c) as [->|]; cbn [andb]; [|reflexivity].
    destruct (Nat.eqb_spec k0 k) as [->|]; reflexivity.
Qed.
Lemma field_frame b st en c (f : N -> N) ty b' : add_localized_longitudinal_field b st en c f ty = Ok b' -> field_arrays b ->
  field_arrays b' /\
  (exists eL, b' = b_set_core b (set_fields (b_core b) eL (k_eT (b_core b)))) /\
  (forall i k, i <> c -> field_at b' i k = field_at b i k) /\
  exists factors : nat -> list N, forall k, field_at b' c k = fold_left (fun old x t => old t + x * f t) (factors k) (field_at b c k).
Proof.
  unfold add_localized_longitudinal_field. cbv zeta. destruct (_ || _); [discriminate|]. intros H A. inv_bind H. inv_bind H. inv_bind H. apply OkI in H. subst b'.
  set (ei := Z.of_nat (nearest (b_u b) (pos_vec en))) in *. set (si := Z.of_nat (nearest (b_u b) (pos_vec st))) in *.
  set (w := fun x : N => if (ty =? "Planewave")%string then x / nofZ (ei - si) else x).
  destruct (fold_fields_list _ _ c (fun x old t => old t + multiply f (w x) t) a0 _ _ Ha1 A) as (R' & _ & F).
  split; [exact R'|]. split; [now exists a1|]. split.
  - intros i k Hi. specialize (F i k). rewrite (proj2 (Nat.eqb_neq i c) Hi) in F. exact F.
  - exists (fun k => map (fun zx => w (snd zx)) (filter (hits (k_N (b_core b)) k) a0)). intros k. specialize (F c k). rewrite Nat.eqb_refl in F.
    unfold field_at at 1. cbn [b_core b_set_core b_set set_fields k_eL]. fold (entry a1 c k). rewrite F. clear F.
    change (field_at b c k) with (entry (k_eL (b_core b)) c k). generalize (entry (k_eL (b_core b)) c k) as o.
    generalize (filter (hits (k_N (b_core b)) k) a0) as l. induction l as [|zx l IH]; intros o; cbn [map fold_left]; [reflexivity|]. apply IH.
Qed.
End Free.

Local Open Scope R_scope.
Lemma em10 : @n1em10 NumR = / 10000000000.
Proof. unfold n1em10. rsimpl. lra. Qed.

Lemma getZ_err {A} (l : list A) z e : py_getZ l z = Err e -> e = IndexError.
Proof. unfold py_getZ. destruct (pyidx _ _) as [k|]; [|intros E; now injection E as <-]. unfold py_get. destruct (nth_error l k); intros E; [discriminate E|now injection E as <-]. Qed.
Lemma start_err (u du : mat NumR) st si d e : start_factors u du st si d = Err e -> e = IndexError.
Proof.
  unfold start_factors. intros H.
  destruct (py_getZ u si) as [a|] eqn:E1; cbn [bind] in H; [|injection H as <-; apply (getZ_err _ _ _ E1)].
  destruct (_ && negb _); [|discriminate H].
  destruct (py_getZ du (si - 1)) as [a1|] eqn:E2; cbn [bind] in H; [|injection H as <-; apply (getZ_err _ _ _ E2)].
  destruct (py_getZ du si) as [a2|] eqn:E3; cbn [bind] in H; [|injection H as <-; apply (getZ_err _ _ _ E3)].
  repeat match type of H with context [if ?c then _ else _] => destruct c end; discriminate H.
Qed.

Section Straight.
Variable b : bundle NumR.
Variables p w : list R.
Variable x : nat -> R.
Hypothesis ST : straight b p w x.
Let N := b_cells b.

Lemma x_le i j : (i <= j)%nat -> (j <= N)%nat -> x i <= x j.
Proof. intros H. induction H; intros Hj; [lra|]. pose proof (st_up _ _ _ _ ST m ltac:(unfold N in Hj; lia)). assert (x i <= x m) by (apply IHle; lia). lra. Qed.
Lemma x_lt i j : (i < j)%nat -> (j <= N)%nat -> x i < x j.
Proof. intros H Hj. pose proof (x_le (S i) j ltac:(lia) Hj). pose proof (st_up _ _ _ _ ST i ltac:(unfold N in Hj; lia)). lra. Qed.
Lemma x_lt_inv i j : (i <= N)%nat -> (j <= N)%nat -> x i < x j -> (i < j)%nat.
Proof. intros Hi Hj H. destruct (Nat.lt_ge_cases i j); [auto|]. pose proof (x_le j i ltac:(lia) Hi). lra. Qed.

Lemma norm_dir a : sqrt ((a * nth 0 w 0) ^ 2 + (a * nth 1 w 0) ^ 2 + (a * nth 2 w 0) ^ 2) = Rabs a.
Proof.
  replace ((a * nth 0 w 0) ^ 2 + (a * nth 1 w 0) ^ 2 + (a * nth 2 w 0) ^ 2) with (a ^ 2 * (nth 0 w 0 ^ 2 + nth 1 w 0 ^ 2 + nth 2 w 0 ^ 2)) by ring. rewrite (st_unit _ _ _ _ ST), Rmult_1_r.
  replace (a ^ 2) with (Rsqr a) by (unfold Rsqr; ring). apply sqrt_Rsqr_abs.
Qed.
Lemma dist_line k y pt : (k <= N)%nat -> on_line p w y pt -> dist3 (nth k (b_u b) []) pt = Rabs (x k - y).
Proof.
  intros Hk O. unfold dist3. pose proof (st_u _ _ _ _ ST k Hk) as U. rewrite !O, !U by lia.
  rewrite <- (norm_dir (x k - y)). f_equal. ring.
Qed.
Lemma along_norm (d : list R) a : (forall j, (j < 3)%nat -> nth j d 0 = a * nth j w 0) -> @vnorm NumR d = Rabs a.
Proof.
  intros H. unfold vnorm, get. cbn [sumn]. rsimpl. rewrite !H by lia. rewrite <- (norm_dir a). f_equal. ring.
Qed.
Lemma along_cross (d e : list R) a c : (forall j, (j < 3)%nat -> nth j d 0 = a * nth j w 0) -> (forall j, (j < 3)%nat -> nth j e 0 = c * nth j w 0) ->
  @vnorm NumR (@vcross NumR d e) = 0.
Proof.
  intros H1 H2. replace 0 with (Rabs 0) by apply Rabs_R0. apply along_norm. unfold vcross, get. rsimpl. intros j Hj.
  destruct j as [|[|[|j]]]; [| | |lia]; cbn [nth]; rewrite !H1, !H2 by lia; ring.
Qed.
Lemma along_dot (d e : list R) a c : (forall j, (j < 3)%nat -> nth j d 0 = a * nth j w 0) -> (forall j, (j < 3)%nat -> nth j e 0 = c * nth j w 0) ->
  @vdot NumR d e = a * c.
Proof.
  intros H1 H2. unfold vdot, get. cbn [sumn]. rsimpl. rewrite !H1, !H2 by lia. transitivity (a * c * (nth 0 w 0 ^ 2 + nth 1 w 0 ^ 2 + nth 2 w 0 ^ 2)); [ring|]. rewrite (st_unit _ _ _ _ ST). ring.
Qed.
Lemma off_along k y pt : (k <= N)%nat -> on_line p w y pt -> forall j, (j < 3)%nat -> nth j (@vsub NumR pt (nth k (b_u b) [])) 0 = (y - x k) * nth j w 0.
Proof.
  intros Hk O j Hj. unfold vsub. rewrite (nth_mk 3) by auto. unfold get. rsimpl. rewrite O, (st_u _ _ _ _ ST k Hk) by auto. ring.
Qed.

(** the node closest to a point of the line *)
Lemma near_spec y pt : on_line p w y pt -> let s := @nearest NumR (b_u b) pt in
  (s <= N)%nat /\ (forall j, (j <= N)%nat -> Rabs (x s - y) <= Rabs (x j - y)) /\ (forall j, (j < s)%nat -> Rabs (x s - y) < Rabs (x j - y)).
Proof.
  intros O s. assert (L : length (b_u b) = S N) by apply ST.
  assert (C : closest (b_u b) pt s). { apply nearest_closest. intros E. rewrite E in L. discriminate L. }
  destruct C as (C1 & C2 & C3). assert (C1' : (s < S N)%nat) by (rewrite <- L; exact C1).
  assert (C2' : forall j, (j < S N)%nat -> dist3 (nth s (b_u b) []) pt <= dist3 (nth j (b_u b) []) pt) by (intros j Hj; apply C2; rewrite <- L in Hj; exact Hj).
  split; [lia|]. split.
  - intros j Hj. rewrite <- (dist_line s y pt), <- (dist_line j y pt) by (auto; lia). apply C2'. lia.
  - intros j Hj. rewrite <- (dist_line s y pt), <- (dist_line j y pt) by (auto; lia). auto.
Qed.

Lemma near_cases y pt : on_line p w y pt -> let s := @nearest NumR (b_u b) pt in
  y = x s \/ (y < x s /\ forall j, (S j = s)%nat -> x j < y) \/ (x s < y /\ forall j, (j <= N)%nat -> (j = S s)%nat -> y < x j).
Proof.
  intros O s. destruct (near_spec y pt O) as (S1 & S2 & S3). fold s in S1, S2, S3.
  destruct (Rtotal_order y (x s)) as [H|[H|H]]; [right; left|now left|right; right].
  - split; [exact H|]. intros j Hj. specialize (S3 j ltac:(lia)). pose proof (x_lt j s ltac:(lia) S1).
    destruct (Rlt_le_dec (x j) y) as [|C]; [assumption|]. rewrite !Rabs_right in S3 by lra. lra.
  - split; [lra|]. intros j Hj ->. specialize (S2 (S s) Hj). pose proof (x_lt s (S s) ltac:(lia) Hj).
    destruct (Rlt_le_dec y (x (S s))) as [|C]; [assumption|]. rewrite !Rabs_left1 in S2 by lra. lra.
Qed.
(** nodes on either side of a point bound its nearest node *)
Lemma near_ge y pt m : on_line p w y pt -> (m <= N)%nat -> x m <= y -> (m <= @nearest NumR (b_u b) pt)%nat.
Proof.
  intros O Hm H. destruct (near_spec y pt O) as (S1 & S2 & S3). set (s := nearest (b_u b) pt) in *.
  destruct (Nat.lt_ge_cases s m) as [C|]; [|assumption]. specialize (S2 m Hm). pose proof (x_lt s m C Hm). rewrite !Rabs_left1 in S2 by lra. lra.
Qed.
Lemma near_le y pt m : on_line p w y pt -> (m <= N)%nat -> y <= x m -> (@nearest NumR (b_u b) pt <= m)%nat.
Proof.
  intros O Hm H. destruct (near_spec y pt O) as (S1 & S2 & S3). set (s := nearest (b_u b) pt) in *.
  destruct (Nat.lt_ge_cases m s) as [C|]; [|assumption]. specialize (S3 m C). pose proof (x_lt m s C S1). rewrite !Rabs_right in S3 by lra. lra.
Qed.
Lemma du_along k : (k < N)%nat -> exists d, py_getZ (b_du b) (Z.of_nat k) = Ok d /\ forall j, (j < 3)%nat -> nth j d 0 = (x (S k) - x k) * nth j w 0.
Proof.
  intros Hk. assert (L : length (b_du b) = N) by apply ST. exists (nth k (b_du b) []). split.
  - unfold py_getZ. rewrite pyidx_nat by lia. apply py_get_intro. lia.
  - intros j Hj. now apply ST.
Qed.
Lemma u_read k : (k <= N)%nat -> py_getZ (b_u b) (Z.of_nat k) = Ok (nth k (b_u b) []).
Proof. intros Hk. assert (L : length (b_u b) = S N) by apply ST. unfold py_getZ. rewrite pyidx_nat by lia. apply py_get_intro. lia. Qed.
Lemma du_over k : (N <= k)%nat -> py_getZ (b_du b) (Z.of_nat k) = Err IndexError.
Proof.
  intros Hk. assert (L : length (b_du b) = N) by apply ST. unfold py_getZ, pyidx. destruct (Z.leb_spec 0 (Z.of_nat k)); [|lia].
  destruct (Z.ltb_spec (Z.of_nat k) (Z.of_nat (length (b_du b)))); [lia|reflexivity].
Qed.

Definition val (d : @fdict NumR) (k : nat) : R := match dget Z.eqb (Z.of_nat k) d with Some v => v | None => 0 end.
Definition good (d : @fdict NumR) : Prop := NoDup (map fst d) /\ forall z, In z (map fst d) -> (0 <= z)%Z.
Lemma good_set k v d : good d -> good (fset (Z.of_nat k) v d).
Proof. intros [H1 H2]. split; [now apply zset_nodup|]. intros z Hz. apply zset_keys in Hz as [->|]; [lia|auto]. Qed.
Lemma val_set k v d i : val (fset (Z.of_nat k) v d) i = if (i =? k)%nat then v else val d i.
Proof. unfold val, fset. rewrite zget_set. destruct (Z.eqb_spec (Z.of_nat i) (Z.of_nat k)), (Nat.eqb_spec i k); try reflexivity; lia. Qed.

(** what the start position does *)
Lemma start_spec y pt m d d' : on_line p w y pt -> resolved N x y -> (m <= N)%nat -> y <= x m ->
  ((exists k, (k <= N)%nat /\ y = x k) \/ x 0%nat + x 1%nat < 2 * y) ->
  start_factors (b_u b) (b_du b) pt (Z.of_nat (@nearest NumR (b_u b) pt)) d = Ok d' -> good d ->
  (forall k, (k < m)%nat -> val d k = if (nearest (b_u b) pt <=? k)%nat then 1 else 0) ->
  good d' /\ (forall k, (m <= k)%nat -> val d' k = val d k) /\
  forall k, (k < m)%nat -> val d' k = Rmax 0 (x (S k) - Rmax y (x k)) / (x (S k) - x k).
Proof.
  intros O RS Hm Hy Hn. destruct (near_spec y pt O) as (S1 & S2 & _). pose proof (near_cases y pt O) as NC. pose proof (near_le y pt m O Hm Hy) as Hsm.
  cbv zeta in *. set (s := nearest (b_u b) pt) in *. unfold start_factors. rewrite u_read by exact S1. cbn [bind].
  pose proof (off_along s y pt S1 O) as OA. rewrite (along_norm _ _ OA). set (off := @vsub NumR pt (nth s (b_u b) [])) in *. rewrite em10.
  assert (Inside : forall k, (k < m)%nat -> (s <= k)%nat -> (y <= x k) -> Rmax 0 (x (S k) - Rmax y (x k)) / (x (S k) - x k) = 1).
  { intros k Hk _ Hyk. pose proof (x_lt k (S k) ltac:(lia) ltac:(lia)). rewrite (Rmax_right y) by lra. rewrite Rmax_right by lra. field. lra. }
  assert (Outside : forall k, (k < m)%nat -> x (S k) <= y -> Rmax 0 (x (S k) - Rmax y (x k)) / (x (S k) - x k) = 0).
  { intros k Hk Hyk. pose proof (x_lt k (S k) ltac:(lia) ltac:(lia)). rewrite (Rmax_left y) by lra. rewrite Rmax_left by lra. field. lra. }
  destruct (Req_dec y (x s)) as [E|E].
  - replace (Rabs (y - x s)) with 0 by (rewrite E, Rminus_diag_eq, Rabs_R0; auto). rsimpl.
    rewrite (proj2 (Rltb_false _ _)) by lra. cbn [andb]. intros H G V. apply OkI in H. subst d'. split; [exact G|]. split; [reflexivity|].
    intros k Hk. rewrite V by exact Hk. destruct (Nat.leb_spec s k) as [C|C].
    + symmetry. apply Inside; auto. rewrite E. apply x_le; lia.
    + symmetry. apply Outside; auto. rewrite E. apply x_le; lia.
  - assert (Off : / 10000000000 < Rabs (y - x s)) by (destruct (RS s S1); [contradiction|assumption]).
    rewrite (proj2 (Rltb_true _ _)) by exact Off. cbn [andb].
    assert (Not : forall k, (k <= N)%nat -> y <> x k).
    { intros k Hk ->. specialize (S2 k Hk). rewrite (Rminus_diag_eq (x k) (x k) eq_refl), Rabs_R0 in S2. pose proof (Rabs_pos (x s - x k)). 
      assert (Z : Rabs (x s - x k) = 0) by lra. apply E. destruct (Req_dec (x s - x k) 0) as [Q|Q]; [lra|]. apply Rabs_no_R0 in Q. contradiction. }
    destruct (Nat.eq_dec N 0) as [N0|N0].
    { assert (s = 0%nat) as -> by lia. cbn [Z.of_nat Z.eqb negb]. intros H G V. apply OkI in H. subst d'. split; [exact G|]. split; [reflexivity|]. intros k Hk. lia. }
    assert (S0 : s <> 0%nat).
    { intros Es. destruct Hn as [(k & Hk & ->)|Hn]; [exact (Not k Hk eq_refl)|]. destruct NC as [C|[[C _]|[C _]]]; [contradiction| |].
      - rewrite Es in C. pose proof (x_lt 0 1 ltac:(lia) ltac:(lia)). lra.
      - specialize (S2 1%nat ltac:(lia)). rewrite Es in *. rewrite (Rabs_left1 (x 0%nat - y)) in S2 by lra.
        pose proof (x_lt 0 1 ltac:(lia) ltac:(lia)). unfold Rabs in S2. destruct (Rcase_abs (x 1%nat - y)); lra. }
    rewrite (proj2 (Z.eqb_neq (Z.of_nat s) 0)) by lia. cbn [negb].
    replace (Z.of_nat s - 1)%Z with (Z.of_nat (s - 1)) by lia.
    destruct (du_along (s - 1) ltac:(lia)) as (dp & Edp & Dp). rewrite Edp. cbn [bind]. replace (S (s - 1)) with s in Dp by lia.
    destruct (Nat.eq_dec s N) as [EN|EN]. { rewrite du_over by lia. discriminate. }
    destruct (du_along s ltac:(lia)) as (dc & Edc & Dc). rewrite Edc. cbn [bind].
    rewrite (along_cross _ _ _ _ Dp OA), (along_cross _ _ _ _ Dc OA). rsimpl. rewrite (proj2 (Rltb_true _ _)) by lra. cbn [andb].
    rewrite (along_dot _ _ _ _ OA Dc), (along_norm _ _ Dp), (along_norm _ _ Dc).
    pose proof (x_lt (s - 1) s ltac:(lia) S1) as Hp. pose proof (x_lt s (S s) ltac:(lia) ltac:(lia)) as Hc.
    rewrite (Rabs_right (x s - x (s - 1)%nat)), (Rabs_right (x (S s) - x s)) by lra.
    destruct NC as [C|[[C1 C2]|[C1 C2]]]; [contradiction| |].
    + rewrite (proj2 (Rltb_true _ _)) by nra. intros H G V. apply OkI in H. subst d'. specialize (C2 (s - 1)%nat ltac:(lia)).
      split; [now apply good_set|]. split; [intros k Hk; rewrite val_set; destruct (Nat.eqb_spec k (s - 1)); [lia|reflexivity]|].
      intros k Hk. rewrite val_set. destruct (Nat.eqb_spec k (s - 1)) as [->|Hks].
      * replace (S (s - 1)) with s by lia. rewrite (Rmax_left y) by lra. rewrite Rmax_right by lra. rewrite Rabs_left1 by lra. rfield. lra.
      * rewrite V by exact Hk. destruct (Nat.leb_spec s k) as [Cs|Cs]; symmetry.
        -- apply Inside; auto. pose proof (x_le s k Cs ltac:(lia)). lra.
        -- apply Outside; auto. pose proof (x_le (S k) (s - 1) ltac:(lia) ltac:(lia)). lra.
    + rewrite (proj2 (Rltb_false _ _)) by nra. rewrite (proj2 (Rltb_true _ _)) by nra. intros H G V. apply OkI in H. subst d'.
      specialize (C2 (S s) ltac:(lia) eq_refl). assert (Hsm' : (s < m)%nat). { apply x_lt_inv; auto. lra. }
      split; [now apply good_set|]. split; [intros k Hk; rewrite val_set; destruct (Nat.eqb_spec k s); [lia|reflexivity]|].
      intros k Hk. rewrite val_set. destruct (Nat.eqb_spec k s) as [->|Hks].
      * rewrite (Rmax_left y) by lra. rewrite Rmax_right by lra. rewrite Rabs_right by lra. rfield. lra.
      * rewrite V by exact Hk. destruct (Nat.leb_spec s k) as [Cs|Cs]; symmetry.
        -- apply Inside; auto. pose proof (x_le (S s) k ltac:(lia) ltac:(lia)). lra.
        -- apply Outside; auto. pose proof (x_le (S k) s ltac:(lia) ltac:(lia)). lra.
Qed.

(** what the end position does *)
Lemma end_spec z pt m d d' : on_line p w z pt -> resolved N x z -> (m <= N)%nat -> x m <= z ->
  end_factors (b_u b) (b_du b) pt (Z.of_nat (@nearest NumR (b_u b) pt)) d = Ok d' -> good d ->
  (forall k, (m <= k)%nat -> val d k = if (k <? nearest (b_u b) pt)%nat then 1 else 0) ->
  good d' /\ (forall k, (k < m)%nat -> val d' k = val d k) /\
  forall k, (m <= k)%nat -> (k < N)%nat -> val d' k = Rmax 0 (Rmin z (x (S k)) - x k) / (x (S k) - x k).
Proof.
  intros O RS Hm Hz. destruct (near_spec z pt O) as (S1 & S2 & _). pose proof (near_cases z pt O) as NC. pose proof (near_ge z pt m O Hm Hz) as Hsm.
  cbv zeta in *. set (s := nearest (b_u b) pt) in *. unfold end_factors. rewrite u_read by exact S1. cbn [bind].
  pose proof (off_along s z pt S1 O) as OA. rewrite (along_norm _ _ OA). set (off := @vsub NumR pt (nth s (b_u b) [])) in *. rewrite em10.
  assert (Inside : forall k, (k < N)%nat -> x (S k) <= z -> Rmax 0 (Rmin z (x (S k)) - x k) / (x (S k) - x k) = 1).
  { intros k Hk Hyk. pose proof (x_lt k (S k) ltac:(lia) ltac:(lia)). rewrite (Rmin_right z) by lra. rewrite Rmax_right by lra. field. lra. }
  assert (Outside : forall k, (k < N)%nat -> z <= x k -> Rmax 0 (Rmin z (x (S k)) - x k) / (x (S k) - x k) = 0).
  { intros k Hk Hyk. pose proof (x_lt k (S k) ltac:(lia) ltac:(lia)). rewrite (Rmin_left z) by lra. rewrite Rmax_left by lra. field. lra. }
  destruct (Req_dec z (x s)) as [E|E].
  - replace (Rabs (z - x s)) with 0 by (rewrite E, Rminus_diag_eq, Rabs_R0; auto). rsimpl.
    rewrite (proj2 (Rltb_false _ _)) by lra. intros H G V. apply OkI in H. subst d'. split; [exact G|]. split; [reflexivity|].
    intros k Hk HkN. rewrite V by exact Hk. destruct (Nat.ltb_spec k s) as [C|C].
    + symmetry. apply Inside; auto. rewrite E. apply x_le; lia.
    + symmetry. apply Outside; auto. rewrite E. apply x_le; lia.
  - assert (Off : / 10000000000 < Rabs (z - x s)) by (destruct (RS s S1); [contradiction|assumption]).
    rewrite (proj2 (Rltb_true _ _)) by exact Off.
    destruct (py_getZ (b_du b) (Z.of_nat s - 1)) as [dp|] eqn:Edp; [|discriminate]. cbn [bind].
    destruct (Nat.eq_dec s N) as [EN|EN]. { rewrite du_over by lia. discriminate. }
    destruct (du_along s ltac:(lia)) as (dc & Edc & Dc). rewrite Edc. cbn [bind].
    pose proof (x_lt s (S s) ltac:(lia) ltac:(lia)) as Hc.
    rewrite (along_cross _ _ _ _ Dc OA). rsimpl. rewrite (proj2 (Rltb_true 0 (/ 10000000000))) by lra.
    rewrite (along_dot _ _ _ _ OA Dc), (along_norm _ _ Dc). rewrite (Rabs_right (x (S s) - x s)) by lra.
    destruct NC as [C|[[C1 C2]|[C1 C2]]]; [contradiction| |].
    + assert (Hms : (m < s)%nat) by (apply x_lt_inv; auto; lra).
      destruct (du_along (s - 1) ltac:(lia)) as (dp' & Edp' & Dp). replace (Z.of_nat (s - 1)) with (Z.of_nat s - 1)%Z in Edp' by lia.
      rewrite Edp in Edp'. apply OkI in Edp'. subst dp'. replace (S (s - 1)) with s in Dp by lia.
      rewrite (along_cross _ _ _ _ Dp OA), (along_norm _ _ Dp). rewrite (proj2 (Rltb_true 0 (/ 10000000000))) by lra. cbn [andb].
      pose proof (x_lt (s - 1) s ltac:(lia) S1) as Hp. rewrite (Rabs_right (x s - x (s - 1)%nat)) by lra.
      rewrite (proj2 (Rltb_true _ _)) by nra. intros H G V. apply OkI in H. subst d'. specialize (C2 (s - 1)%nat ltac:(lia)).
      replace (Z.of_nat s - 1)%Z with (Z.of_nat (s - 1)) by lia.
      split; [now apply good_set, good_set|]. split.
      { intros k Hk. rewrite !val_set. destruct (Nat.eqb_spec k s); [lia|]. destruct (Nat.eqb_spec k (s - 1)); [lia|reflexivity]. }
      intros k Hk HkN. rewrite !val_set. destruct (Nat.eqb_spec k s) as [->|Hks]; [symmetry; apply Outside; auto; lra|].
      destruct (Nat.eqb_spec k (s - 1)) as [->|Hks'].
      * replace (S (s - 1)) with s by lia. rewrite (Rmin_left z) by lra. rewrite Rmax_right by lra. rewrite Rabs_left1 by lra. rfield. lra.
      * rewrite V by exact Hk. destruct (Nat.ltb_spec k s) as [Cs|Cs]; symmetry.
        -- apply Inside; auto. pose proof (x_le (S k) (s - 1) ltac:(lia) ltac:(lia)). lra.
        -- apply Outside; auto. pose proof (x_le s k ltac:(lia) ltac:(lia)). lra.
    + rewrite andb_true_r. specialize (C2 (S s) ltac:(lia) eq_refl).
      rewrite (proj2 (Rltb_false ((z - x s) * (x (S s) - x s)) 0)) by nra. rewrite (proj2 (Rltb_true 0 ((z - x s) * (x (S s) - x s)))) by nra.
      intros H G V.
      assert (Hb : s <> 0%nat -> Rltb (vnorm (vcross dp off)) (/ 10000000000) = true).
      { intros S0. destruct (du_along (s - 1) ltac:(lia)) as (dp' & Edp' & Dp). replace (Z.of_nat (s - 1)) with (Z.of_nat s - 1)%Z in Edp' by lia.
        rewrite Edp in Edp'. apply OkI in Edp'. subst dp'. rewrite (along_cross _ _ _ _ Dp OA). apply Rltb_true. lra. }
      assert (Hb0 : s = 0%nat -> Rltb (vnorm (vcross dp off)) (/ 10000000000) = true).
      { intros Es. rewrite Es in Edp. destruct (du_along (N - 1) ltac:(lia)) as (dp' & Edp' & Dp).
        assert (L : length (b_du b) = N) by apply ST. cbn [Z.of_nat] in Edp. unfold py_getZ, pyidx in Edp. destruct (Z.leb_spec 0 (0 - 1)); [lia|].
        destruct (Z.leb_spec 0 (0 - 1 + Z.of_nat (length (b_du b)))); [|discriminate].
        unfold py_getZ in Edp'. rewrite pyidx_nat in Edp' by lia. replace (Z.to_nat (0 - 1 + Z.of_nat (length (b_du b)))) with (N - 1)%nat in Edp by lia.
        rewrite Edp in Edp'. apply OkI in Edp'. subst dp'. rewrite (along_cross _ _ _ _ Dp OA). apply Rltb_true. lra. }
      assert (Hb' : Rltb (vnorm (vcross dp off)) (/ 10000000000) = true) by (destruct (Nat.eq_dec s 0); auto).
      rewrite Hb' in H. apply OkI in H. subst d'.
      split; [now apply good_set|]. split; [intros k Hk; rewrite val_set; destruct (Nat.eqb_spec k s); [lia|reflexivity]|].
      intros k Hk HkN. rewrite val_set. destruct (Nat.eqb_spec k s) as [->|Hks].
      * rewrite (Rmin_left z) by lra. rewrite Rmax_right by lra. rewrite Rabs_right by lra. reflexivity.
      * rewrite V by exact Hk. destruct (Nat.ltb_spec k s) as [Cs|Cs]; symmetry.
        -- apply Inside; auto. pose proof (x_le (S k) s ltac:(lia) ltac:(lia)). lra.
        -- apply Outside; auto. pose proof (x_le (S s) k ltac:(lia) ltac:(lia)). lra.
Qed.

Lemma val_base s n k : val (map (fun k => ((Z.of_nat s + Z.of_nat k)%Z, 1)) (seq 0 n)) k = if ((s <=? k) && (k <? s + n))%nat then 1 else 0.
Proof.
  unfold val. revert s. induction n as [|n IH]; intros s.
  - cbn [seq map dget]. destruct (Nat.leb_spec s k), (Nat.ltb_spec k (s + 0)); cbn [andb]; try reflexivity; lia.
  - cbn [seq map dget]. destruct (Z.eqb_spec (Z.of_nat k) (Z.of_nat s + Z.of_nat 0)) as [E|E].
    + assert (k = s) by lia. subst k. rewrite Nat.leb_refl, (proj2 (Nat.ltb_lt s (s + S n))) by lia. reflexivity.
    + rewrite <- seq_shift, map_map. rewrite (map_ext _ (fun k => ((Z.of_nat (S s) + Z.of_nat k)%Z, 1))) by (intros a; f_equal; lia).
      rewrite IH. destruct (Nat.leb_spec s k), (Nat.leb_spec (S s) k), (Nat.ltb_spec k (S s + n)), (Nat.ltb_spec k (s + S n)); cbn [andb]; try reflexivity; lia.
Qed.
Lemma good_base s n : good (map (fun k => ((Z.of_nat s + Z.of_nat k)%Z, 1)) (seq 0 n)).
Proof.
  split.
  - rewrite map_map. cbn [fst]. apply Injective_map_NoDup; [|apply seq_NoDup]. intros i j H. lia.
  - intros z Hz. rewrite map_map in Hz. cbn [fst] in Hz. apply in_map_iff in Hz as (i & <- & _). lia.
Qed.

Lemma field_covered st en c f ty b' y z m :
  add_localized_longitudinal_field b st en c f ty = Ok b' -> field_arrays b ->
  on_line p w y (pos_vec st) -> on_line p w z (pos_vec en) -> resolved N x y -> resolved N x z ->
  (m <= N)%nat -> y <= x m -> x m <= z ->
  ((exists k, (k <= N)%nat /\ y = x k) \/ x 0%nat + x 1%nat < 2 * y) ->
  let share := if String.eqb ty "Planewave" then 1 / IZR (Z.of_nat (@nearest NumR (b_u b) (pos_vec en)) - Z.of_nat (@nearest NumR (b_u b) (pos_vec st))) else 1 in
  forall k t, (k < N)%nat -> field_at b' c k t = field_at b c k t + covered x y z k * share * f t.
Proof.
  intros H A Oy Oz Ry Rz Hm Hy Hz Hn share k t Hk. unfold add_localized_longitudinal_field in H. cbv zeta in H. destruct (_ || _); [discriminate H|].
  inv_bind H. inv_bind H. inv_bind H. apply OkI in H. subst b'.
  pose proof (near_le y _ m Oy Hm Hy) as Hs. pose proof (near_ge z _ m Oz Hm Hz) as He.
  set (s := nearest (b_u b) (pos_vec st)) in *. set (e := nearest (b_u b) (pos_vec en)) in *.
  set (d0 := map (fun k => ((Z.of_nat s + Z.of_nat k)%Z, n1)) (seq 0 (Z.to_nat (Z.of_nat e - Z.of_nat s)))) in *.
  assert (V0 : forall k, val d0 k = if ((s <=? k) && (k <? e))%nat then 1 else 0).
  { intros i. unfold d0. rewrite val_base. replace (s + Z.to_nat (Z.of_nat e - Z.of_nat s))%nat with e by lia. reflexivity. }
  destruct (start_spec y _ m _ _ Oy Ry Hm Hy Hn Ha) as (G1 & K1 & V1); [apply good_base| |].
  { intros i Hi. rewrite V0. fold s. rewrite (proj2 (Nat.ltb_lt i e)) by lia. now rewrite andb_true_r. }
  destruct (end_spec z _ m _ _ Oz Rz Hm Hz Ha0 G1) as (G2 & K2 & V2).
  { intros i Hi. rewrite K1 by exact Hi. rewrite V0. fold e. rewrite (proj2 (Nat.leb_le s i)) by lia. reflexivity. }
  assert (V : val a0 k = covered x y z k).
  { unfold covered. destruct (Nat.lt_ge_cases k m) as [C|C].
    - rewrite K2, V1 by exact C. rewrite (Rmin_right z); [reflexivity|]. pose proof (x_le (S k) m ltac:(lia) Hm). lra.
    - rewrite V2 by auto. rewrite (Rmax_right y); [reflexivity|]. pose proof (x_le m k C ltac:(lia)). lra. }
  rewrite <- V. set (ww := fun v : R => if (ty =? "Planewave")%string then v / IZR (Z.of_nat e - Z.of_nat s) else v).
  assert (HF := fold_fields (k_n (b_core b)) (k_N (b_core b)) c (fun v old t => @nadd NumR (old t) (@multiply NumR f (ww v) t)) a0 (k_eL (b_core b)) a1).
  destruct HF as (_ & _ & _ & F); [exact Ha1|exact A|apply G2|apply G2|].
  unfold field_at at 1. cbn [b_core b_set_core b_set set_fields k_eL]. fold (@entry NumR a1 c k). rewrite F, Nat.eqb_refl.
  change (field_at b c k t) with (@entry NumR (k_eL (b_core b)) c k t). unfold val.
  destruct (dget Z.eqb (Z.of_nat k) a0) as [v|].
  - unfold multiply. rsimpl. unfold ww, share. destruct (ty =? "Planewave")%string; rty; unfold Rdiv; ring.
  - rewrite Rmult_0_l, Rmult_0_l. symmetry. apply Rplus_0_r.
Qed.

(** positions the code accepts *)
Lemma in_box_line y pt : on_line p w y pt -> x 0%nat <= y <= x N -> (forall j, (j < 3)%nat -> 0 <= nth j w 0) -> @out_of_box NumR (b_u b) pt = false.
Proof.
  intros O [H1 H2] Hw. unfold out_of_box. assert (L : length (b_u b) = S N) by apply ST. rewrite L.
  replace (S N - 1)%nat with N by lia. apply orb_false_iff. split; apply not_true_iff_false; intros X; apply existsb_exists in X as (j & Hj & X);
    apply in_seq in Hj; apply Rltb_true in X; unfold get in X.
  - pose proof (st_u _ _ _ _ ST N ltac:(unfold N; lia)) as U. change (@nth (vec NumR)) with (@nth (list R)) in X. 
    assert (U' := U j ltac:(lia)). cbn in U', X. rewrite (O j) in X by lia. pose proof (Hw j ltac:(lia)). 
    assert (nth j (nth N (b_u b) []) 0 = nth j p 0 + x N * nth j w 0) by exact U'.
    assert (E : nth j p 0 + y * nth j w 0 > nth j p 0 + x N * nth j w 0) by (rewrite <- H0; exact X). nra.
  - pose proof (st_u _ _ _ _ ST 0%nat ltac:(lia)) as U. assert (U' := U j ltac:(lia)). pose proof (Hw j ltac:(lia)).
    assert (X' : nth j p 0 + y * nth j w 0 < nth j p 0 + x 0%nat * nth j w 0) by (rewrite <- U', <- (O j) by lia; exact X). nra.
Qed.
Lemma field_accepted (st en : posarg NumR) c f ty y z m :
  on_line p w y (pos_vec st) -> on_line p w z (pos_vec en) -> resolved N x y -> resolved N x z -> (forall j, (j < 3)%nat -> 0 <= nth j w 0) ->
  (c < b_conductors b)%nat -> (m <= N)%nat -> x 0%nat <= y <= x m -> x m <= z <= x N ->
  ((exists k, (k <= N)%nat /\ y = x k) \/ (x 0%nat + x 1%nat < 2 * y /\ 2 * y < x (N - 1)%nat + x N)) ->
  ((exists k, (k <= N)%nat /\ z = x k) \/ 2 * z < x (N - 1)%nat + x N) ->
  exists b', add_localized_longitudinal_field b st en c f ty = Ok b'.
Proof.
  intros Oy Oz Ry Rz Hw Hc Hm Hy Hz Hn Hn'. unfold add_localized_longitudinal_field. cbv zeta.
  pose proof (x_le 0 m ltac:(lia) Hm) as X0m. pose proof (x_le m N ltac:(lia) ltac:(lia)) as XmN.
  rewrite (in_box_line y), (in_box_line z) by (auto; lra). cbn [orb].
  pose proof (near_le y _ m Oy Hm ltac:(lra)) as Hs. pose proof (near_ge z _ m Oz Hm ltac:(lra)) as He.
  destruct (near_spec y _ Oy) as (S1 & S2 & _). destruct (near_spec z _ Oz) as (E1 & E2 & _). cbv zeta in S1, S2, E1, E2.
  set (s := nearest (b_u b) (pos_vec st)) in *. set (e := nearest (b_u b) (pos_vec en)) in *.
  assert (Ls : length (b_du b) = N) by apply ST.
  assert (Not : forall v i, (i <= N)%nat -> (forall j, (j <= N)%nat -> Rabs (x i - v) <= Rabs (x j - v)) -> v <> x i -> forall k, (k <= N)%nat -> v <> x k).
  { intros v i Hi Hv Hne k Hk ->. specialize (Hv k Hk). rewrite (Rminus_diag_eq (x k) (x k) eq_refl), Rabs_R0 in Hv. pose proof (Rabs_pos (x i - x k)).
    apply Hne. destruct (Req_dec (x i - x k) 0) as [Q|Q]; [lra|]. apply Rabs_no_R0 in Q. lra. }
  assert (Last : forall v i, (i <= N)%nat -> (forall j, (j <= N)%nat -> Rabs (x i - v) <= Rabs (x j - v)) -> (1 <= N)%nat -> v <= x N -> 2 * v < x (N - 1)%nat + x N -> (i < N)%nat).
  { intros v i Hi Hv N1 Hle H2. destruct (Nat.eq_dec i N) as [->|]; [|lia]. specialize (Hv (N - 1)%nat ltac:(lia)).
    pose proof (x_lt (N - 1) N ltac:(lia) ltac:(lia)). rewrite (Rabs_right (x N - v)) in Hv by lra. unfold Rabs in Hv. destruct (Rcase_abs (x (N - 1)%nat - v)); lra. }
  assert (rd : forall i, (i < N)%nat -> exists v, py_getZ (b_du b) (Z.of_nat i) = Ok v) by (intros i Hi; destruct (du_along i Hi) as (v & Hv & _); eauto).
  set (d0 := map _ _).
  assert (P0 : forall q, In q (map fst d0) -> (0 <= q < Z.of_nat N)%Z).
  { intros q Hq. unfold d0 in Hq. rewrite map_map in Hq. apply in_map_iff in Hq as (i & <- & Hi). cbn [fst]. apply in_seq in Hi. lia. }
  assert (T1 : exists d1, start_factors (b_u b) (b_du b) (pos_vec st) (Z.of_nat s) d0 = Ok d1 /\ forall q, In q (map fst d1) -> (0 <= q < Z.of_nat N)%Z).
  { unfold start_factors. rewrite u_read by exact S1. cbn [bind]. rewrite (along_norm _ _ (off_along s y _ S1 Oy)), em10.
    destruct (Req_dec y (x s)) as [E|E].
    - replace (Rabs (y - x s)) with 0 by (rewrite E, Rminus_diag_eq, Rabs_R0; auto). rsimpl. rewrite (proj2 (Rltb_false _ _)) by lra. cbn [andb]. eauto.
    - destruct (_ && _) eqn:B; [|eauto]. apply andb_prop in B as [_ B]. apply negb_true_iff, Z.eqb_neq in B.
      assert (Hl : (s < N)%nat). { destruct Hn as [(k & Hk & Ek)|[_ Hn]]; [exfalso; exact (Not y s S1 S2 E k Hk Ek)|]. apply (Last y); auto; [lia|lra]. }
      destruct (rd (s - 1)%nat ltac:(lia)) as (dp & Edp). replace (Z.of_nat (s - 1)) with (Z.of_nat s - 1)%Z in Edp by lia. rewrite Edp. cbn [bind].
      destruct (rd s Hl) as (dc & ->). cbn [bind].
      assert (X : forall k v, (0 <= k < Z.of_nat N)%Z -> forall q, In q (map fst (fset k v d0)) -> (0 <= q < Z.of_nat N)%Z).
      { intros k v Hk q Hq. apply zset_keys in Hq as [->|]; auto. }
      repeat match goal with |- context [if ?t then _ else _] => destruct t end; eexists; (split; [reflexivity|]); auto; apply X; lia. }
  destruct T1 as (d1 & -> & P1). cbn [bind].
  assert (T2 : exists d2, end_factors (b_u b) (b_du b) (pos_vec en) (Z.of_nat e) d1 = Ok d2 /\ forall q, In q (map fst d2) -> (0 <= q < Z.of_nat N)%Z).
  { unfold end_factors. rewrite u_read by exact E1. cbn [bind]. rewrite (along_norm _ _ (off_along e z _ E1 Oz)), em10.
    destruct (Req_dec z (x e)) as [E|E].
    - replace (Rabs (z - x e)) with 0 by (rewrite E, Rminus_diag_eq, Rabs_R0; auto). rsimpl. rewrite (proj2 (Rltb_false _ _)) by lra. eauto.
    - match goal with |- context [if ?t then _ else _] => destruct t; [|eauto] end.
      assert (N1 : (1 <= N)%nat). { destruct (Nat.eq_dec N 0) as [Z0|]; [|lia]. exfalso. assert (e = 0%nat) by lia. assert (m = 0%nat) by lia. subst m. rewrite Z0 in Hz. rewrite H in E. lra. }
      assert (Hl : (e < N)%nat). { destruct Hn' as [(k & Hk & Ek)|Hn']; [exfalso; exact (Not z e E1 E2 E k Hk Ek)|]. apply (Last z); auto. lra. }
      assert (X : forall d (k : Z) (v : R), (forall q, In q (map fst d) -> (0 <= q < Z.of_nat N)%Z) -> (0 <= k < Z.of_nat N)%Z -> forall q, In q (map fst (@fset NumR k v d)) -> (0 <= q < Z.of_nat N)%Z).
      { intros d k v Hd Hk q Hq. apply zset_keys in Hq as [->|]; auto. }
      pose proof (near_cases z _ Oz) as NC. cbv zeta in NC. fold e in NC.
      destruct (rd e Hl) as (dc & Edc). assert (Dc : forall j, (j < 3)%nat -> nth j dc 0 = (x (S e) - x e) * nth j w 0).
      { destruct (du_along e Hl) as (dc' & Edc' & Dc). rewrite Edc in Edc'. apply OkI in Edc'. now subst dc'. }
      pose proof (x_lt e (S e) ltac:(lia) ltac:(lia)) as Hce.
      destruct NC as [C|[[C1 _]|[C1 _]]]; [contradiction| |].
      + assert (e <> 0%nat). { intros Z0. rewrite Z0 in C1. lra. }
        destruct (rd (e - 1)%nat ltac:(lia)) as (dp & Edp). replace (Z.of_nat (e - 1)) with (Z.of_nat e - 1)%Z in Edp by lia. rewrite Edp. cbn [bind].
        rewrite Edc. cbn [bind].
        repeat match goal with |- context [if ?t then _ else _] => destruct t end; eexists; (split; [reflexivity|]); auto; repeat (apply X; [|lia]); auto.
      + assert (Rp : exists dp, py_getZ (b_du b) (Z.of_nat e - 1) = Ok dp /\ vnorm (vcross dp (vsub (pos_vec en) (nth e (b_u b) []))) = 0).
        { destruct (Nat.eq_dec e 0) as [Ee|Ee].
          - destruct (du_along (N - 1)%nat ltac:(lia)) as (dp & Edp & Dp). exists dp. split; [|exact (along_cross _ _ _ _ Dp (off_along e z _ E1 Oz))].
            rewrite Ee. unfold py_getZ in Edp |- *. rewrite pyidx_nat in Edp by lia. unfold pyidx. cbn [Z.of_nat].
            destruct (Z.leb_spec 0 (0 - 1)); [lia|]. destruct (Z.leb_spec 0 (0 - 1 + Z.of_nat (length (b_du b)))); [|lia].
            replace (Z.to_nat (0 - 1 + Z.of_nat (length (b_du b)))) with (N - 1)%nat by lia. exact Edp.
          - destruct (du_along (e - 1)%nat ltac:(lia)) as (dp & Edp & Dp). exists dp. split; [|exact (along_cross _ _ _ _ Dp (off_along e z _ E1 Oz))].
            replace (Z.of_nat e - 1)%Z with (Z.of_nat (e - 1)) by lia. exact Edp. }
        destruct Rp as (dp & -> & Cp). cbn [bind]. rewrite Edc. cbn [bind]. rewrite Cp, (along_cross _ _ _ _ Dc (off_along e z _ E1 Oz)).
        rsimpl. rewrite (proj2 (Rltb_true 0 (/ 10000000000))) by lra. cbn [andb].
        match goal with |- context [@vdot ?a ?u ?v] => replace (@vdot a u v) with ((z - x e) * (x (S e) - x e)) by (symmetry; exact (along_dot _ _ _ _ (off_along e z _ E1 Oz) Dc)) end.
        rewrite (proj2 (Rltb_false _ _)) by nra. rewrite (proj2 (Rltb_true _ _)) by nra. eexists. split; [reflexivity|]. apply X; auto. lia. }
  destruct T2 as (d2 & -> & P2). cbn [bind].
  assert (T3 : forall (g : R -> (R -> R) -> (R -> R)) (d : @fdict NumR) eL, (forall q, In q (map fst d) -> (0 <= q < Z.of_nat N)%Z) ->
    exists eL', foldM (fun (eL : list (list (R -> R))) (kf : Z * R) => let '(z, factor) := kf in @set_eL NumR (k_n (b_core b)) (k_N (b_core b)) eL c z (g factor)) d eL = Ok eL').
  { intros g d. induction d as [|[q v] d IH]; intros eL HP; cbn [foldM]; [eauto|].
    assert (Hq : (0 <= q < Z.of_nat N)%Z) by (apply HP; now left). 
    assert (E0 : exists eL0, @set_eL NumR (k_n (b_core b)) (k_N (b_core b)) eL c q (g v) = Ok eL0).
    { unfold set_eL. replace q with (Z.of_nat (Z.to_nat q)) by lia. rewrite pyidx_nat by (unfold N, b_cells in Hq; lia).
      rewrite (proj2 (Nat.ltb_lt c (k_n (b_core b))) Hc). eauto. }
    destruct E0 as (eL0 & ->). cbn [bind]. refine (IH _ _). intros r Hr. apply HP. now right. }
  destruct (T3 (fun factor old t => @nadd NumR (old t) (@multiply NumR f (if (ty =? "Planewave")%string then @ndiv NumR factor (nofZ (Z.of_nat e - Z.of_nat s)) else factor) t)) d2 (k_eL (b_core b)) P2) as (eL' & E3).
  match goal with |- exists b', (bind ?r _) = _ => assert (Er : r = Ok eL') by exact E3; rewrite Er end. cbn [bind]. eauto.
Qed.
(** an end position in the second half of the last cell, off its nodes, always fails *)
Lemma field_end_fails (st en : posarg NumR) c f ty z : on_line p w z (pos_vec en) -> (forall k, (k <= N)%nat -> / 10000000000 < Rabs (z - x k)) ->
  x (N - 1)%nat + x N < 2 * z -> z < x N -> (1 <= N)%nat -> (forall j, (j < 3)%nat -> 0 <= nth j w 0) ->
  @out_of_box NumR (b_u b) (pos_vec st) = false ->
  add_localized_longitudinal_field b st en c f ty = Err IndexError.
Proof.
  intros O Hr H1 H2 N1 Hw Hst. unfold add_localized_longitudinal_field. cbv zeta. pose proof (x_lt (N - 1) N ltac:(lia) ltac:(lia)).
  pose proof (x_le 0 (N - 1) ltac:(lia) ltac:(lia)). rewrite Hst, (in_box_line z) by (auto; lra). cbn [orb].
  destruct (near_spec z _ O) as (E1 & E2 & _). cbv zeta in E1, E2. set (e := nearest (b_u b) (pos_vec en)) in *.
  assert (e = N). { destruct (Nat.eq_dec e N); [assumption|]. specialize (E2 N ltac:(lia)). pose proof (x_le e (N - 1) ltac:(lia) ltac:(lia)). rewrite (Rabs_left1 (x e - z)), (Rabs_right (x N - z)) in E2 by lra. lra. }
  assert (T : forall d, end_factors (b_u b) (b_du b) (pos_vec en) (Z.of_nat e) d = Err IndexError).
  { intros d. unfold end_factors. rewrite u_read by exact E1. cbn [bind]. rewrite (along_norm _ _ (off_along e z _ E1 O)), em10. rsimpl.
    rewrite (proj2 (Rltb_true _ _)) by (apply Hr; exact E1).
    destruct (du_along (N - 1)%nat ltac:(lia)) as (dp & Edp & _). replace (Z.of_nat e - 1)%Z with (Z.of_nat (N - 1)) by lia. rewrite Edp. cbn [bind].
    rewrite du_over by lia. reflexivity. }
  destruct (start_factors _ _ _ _ _) as [d1|er] eqn:E; cbn [bind]; [now rewrite T|].
  f_equal. apply (start_err _ _ _ _ _ _ E).
Qed.
End Straight.

Lemma field_fraction b p w x st en c f ty b' y z m : straight b p w x ->
  add_localized_longitudinal_field b st en c f ty = Ok b' -> field_arrays b -> ty <> "Planewave"%string ->
  on_line p w y (pos_vec st) -> on_line p w z (pos_vec en) -> resolved (b_cells b) x y -> resolved (b_cells b) x z ->
  (m <= b_cells b)%nat -> y <= x m -> x m <= z ->
  ((exists k, (k <= b_cells b)%nat /\ y = x k) \/ x 0%nat + x 1%nat < 2 * y) ->
  forall k t, (k < b_cells b)%nat -> field_at b' c k t = field_at b c k t + covered x y z k * f t.
Proof.
  intros ST H A Ht Oy Oz Ry Rz Hm Hy Hz Hn k t Hk. rewrite (field_covered b p w x ST _ _ _ _ _ _ _ _ _ H A Oy Oz Ry Rz Hm Hy Hz Hn k t Hk).
  rewrite (proj2 (String.eqb_neq ty "Planewave") Ht). rsimpl. now rewrite Rmult_1_r.
Qed.
Lemma field_nodes b p w x st en c f ty b' s e : straight b p w x ->
  add_localized_longitudinal_field b st en c f ty = Ok b' -> field_arrays b ->
  on_line p w (x s) (pos_vec st) -> on_line p w (x e) (pos_vec en) -> resolved (b_cells b) x (x s) -> resolved (b_cells b) x (x e) ->
  (s < e)%nat -> (e <= b_cells b)%nat ->
  forall k t, (k < b_cells b)%nat ->
    field_at b' c k t = field_at b c k t +
      (if ((s <=? k) && (k <? e))%nat then (if String.eqb ty "Planewave" then / INR (e - s) else 1) * f t else 0).
Proof.
  intros ST H A Oy Oz Ry Rz Hse He k t Hk.
  pose proof (x_le b p w x ST) as XL. pose proof (st_up _ _ _ _ ST k Hk) as Hup.
  assert (Ns : @nearest NumR (b_u b) (pos_vec st) = s).
  { apply Nat.le_antisymm; [eapply (near_le b p w x ST); eauto; [lia|lra]|eapply (near_ge b p w x ST); eauto; [lia|lra]]. }
  assert (Ne : @nearest NumR (b_u b) (pos_vec en) = e).
  { apply Nat.le_antisymm; [eapply (near_le b p w x ST); eauto; lra|eapply (near_ge b p w x ST); eauto; lra]. }
  assert (G := field_covered b p w x ST _ _ _ _ _ _ (x s) (x e) s H A Oy Oz Ry Rz ltac:(lia) (Rle_refl _) (XL s e ltac:(lia) He) ltac:(left; exists s; split; [lia|reflexivity]) k t Hk).
  cbv zeta in G. rewrite Ns, Ne in G. rewrite G. clear G. rsimpl. apply (f_equal (Rplus _)).
  assert (CV : covered x (x s) (x e) k = if ((s <=? k) && (k <? e))%nat then 1 else 0).
  { unfold covered. destruct (Nat.leb_spec s k) as [C1|C1]; [destruct (Nat.ltb_spec k e) as [C2|C2]|]; cbn [andb].
    - rewrite (Rmin_right (x e)) by (apply XL; lia). rewrite (Rmax_right (x s)) by (apply XL; lia). rewrite Rmax_right by lra. field. lra.
    - assert (x e <= x k) by (apply XL; lia). rewrite (Rmin_left (x e)) by lra. rewrite (Rmax_right (x s)) by (apply XL; lia). rewrite Rmax_left by lra. field. lra.
    - assert (x (S k) <= x s) by (apply XL; lia). assert (x s <= x e) by (apply XL; lia). rewrite (Rmin_right (x e)) by lra. rewrite (Rmax_left (x s)) by lra. rewrite Rmax_left by lra. field. lra. }
  rewrite CV. destruct (_ && _); [|ring]. destruct (ty =? "Planewave")%string; [|ring].
  replace (IZR (Z.of_nat e - Z.of_nat s)) with (INR (e - s)); [unfold Rdiv; ring|]. rewrite INR_IZR_INZ. f_equal. lia.
Qed.
Lemma covered_range x y z k : x k < x (S k) -> 0 <= covered x y z k <= 1.
Proof.
  intros H. unfold covered. split.
  - apply Rmult_le_pos; [apply Rmax_l|]. left. apply Rinv_0_lt_compat. lra.
  - apply Rmult_le_reg_r with (x (S k) - x k); [lra|]. unfold Rdiv. rewrite Rmult_assoc, Rinv_l, Rmult_1_r, Rmult_1_l by lra.
    apply Rmax_lub; [lra|]. pose proof (Rmin_r z (x (S k))). pose proof (Rmax_r y (x k)). lra.
Qed.
