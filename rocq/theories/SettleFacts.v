(** The scheme without drive forgets its state: sequences that satisfy the equations of the nodes,
    the cells and the two ends tend to zero if one end takes energy out. *)
From Coq Require Import String List Arith ZArith Bool Lia Reals Lra.
From Verif Require Import Num Py Arr ArrFacts NumR RFacts LapackR LinAlg SpecLine SpecR SpecEnergy RunEqFacts EnergyFacts.
Local Open Scope R_scope.

(** ** sequences that tend to zero *)
Definition van (u : nat -> R) : Prop := Un_cv u 0.
Lemma van_ext u v : (forall j, u j = v j) -> van u -> van v.
Proof. intros H U eps He. destruct (U eps He) as [K HK]. exists K. intros j Hj. rewrite <- H. now apply HK. Qed.
Lemma van_0 : van (fun _ => 0).
Proof. intros eps He. exists 0%nat. intros j _. unfold R_dist. rewrite Rminus_0_r, Rabs_R0. lra. Qed.
Lemma van_plus u v : van u -> van v -> van (fun j => u j + v j).
Proof. intros U V. unfold van. rewrite <- (Rplus_0_r 0). exact (CV_plus u v 0 0 U V). Qed.
Lemma van_scal a u : van u -> van (fun j => a * u j).
Proof. intros U eps He. assert (X : Un_cv (fun _ => a) a) by (intros e E; exists 0%nat; intros; unfold R_dist; rewrite Rminus_eq_0, Rabs_R0; lra).
  pose proof (CV_mult _ _ _ _ X U) as Y. rewrite Rmult_0_r in Y. exact (Y eps He). Qed.
Lemma van_minus u v : van u -> van v -> van (fun j => u j - v j).
Proof. intros U V. apply (van_ext (fun j => u j + (- 1) * v j)); [intros; ring|]. apply van_plus; auto. now apply van_scal. Qed.
Lemma van_sum n (u : nat -> nat -> R) : (forall k, (k < n)%nat -> van (u k)) -> van (fun j => sumR n (fun k => u k j)).
Proof.
  induction n as [|n IH]; intros H.
  - apply (van_ext (fun _ => 0)); [intros; reflexivity|apply van_0].
  - apply (van_ext (fun j => sumR n (fun k => u k j) + u n j)); [intros; now rewrite sumR_S|]. apply van_plus; auto.
Qed.
Lemma van_mulv n A (u : nat -> nat -> R) c : (forall p, (p < n)%nat -> van (fun j => u j p)) -> van (fun j => mulv n A (u j) c).
Proof. intros H. apply (van_sum n (fun k j => A c k * u j k)). intros k Hk. now apply van_scal, H. Qed.
Lemma van_next u : van u -> van (fun j => u (S j)).
Proof. intros U eps He. destruct (U eps He) as [K HK]. exists K. intros j Hj. apply HK. lia. Qed.
Lemma van_prev u : van (fun j => u (S j)) -> van u.
Proof. intros U eps He. destruct (U eps He) as [K HK]. exists (S K). intros [|j] Hj; [lia|]. apply HK. lia. Qed.
Lemma van_between u v : (forall j, 0 <= u j <= v j) -> van v -> van u.
Proof.
  intros H V eps He. destruct (V eps He) as [K HK]. exists K. intros j Hj. specialize (HK j Hj). specialize (H j). unfold R_dist in *.
  rewrite Rminus_0_r in *. rewrite !Rabs_pos_eq in * by lra. lra.
Qed.
Lemma van_sqr u : van (fun j => u j ^ 2) -> van u.
Proof.
  intros U eps He. destruct (U (eps ^ 2)) as [K HK]; [nra|]. exists K. intros j Hj. specialize (HK j Hj). unfold R_dist in *. rewrite Rminus_0_r in *.
  rewrite (Rabs_pos_eq (u j ^ 2)) in HK by apply pow2_ge_0. apply Rsqr_lt_abs_0 in HK || idtac.
  rewrite <- (Rabs_pos_eq eps) by lra. apply Rsqr_lt_abs_0. unfold Rsqr. simpl in HK. lra.
Qed.
Lemma van_bounded u v M : (forall j, Rabs (v j) <= M) -> van u -> van (fun j => u j * v j).
Proof.
  intros B U eps He. assert (M0 : 0 <= M) by (eapply Rle_trans; [apply Rabs_pos|apply (B 0%nat)]).
  destruct (U (eps / (M + 1))) as [K HK]; [apply Rdiv_lt_0_compat; lra|]. exists K. intros j Hj. specialize (HK j Hj). unfold R_dist in *. rewrite Rminus_0_r in *.
  rewrite Rabs_mult. specialize (B j). pose proof (Rabs_pos (v j)). pose proof (Rabs_pos (u j)).
  apply Rle_lt_trans with (Rabs (u j) * (M + 1)); [apply Rmult_le_compat_l; lra|].
  apply (Rmult_lt_compat_r (M + 1)) in HK; [|lra]. unfold Rdiv in HK. rewrite Rmult_assoc, Rinv_l, Rmult_1_r in HK; lra.
Qed.
Lemma van_dot n (u v : nat -> nat -> R) M : (forall j c, (c < n)%nat -> Rabs (v j c) <= M) -> (forall c, (c < n)%nat -> van (fun j => u j c)) -> van (fun j => dot n (v j) (u j)).
Proof.
  intros B U. apply (van_sum n (fun c j => v j c * u j c)). intros c Hc. apply (van_ext (fun j => u j c * v j c)); [intros; ring|].
  apply (van_bounded _ _ M); auto.
Qed.

(** ** a positive form bounds every coordinate *)
Lemma pd_coord n A i : symm n A -> pos_def n A -> (i < n)%nat -> exists K, 0 <= K /\ forall x, x i ^ 2 <= K * quad n A x.
Proof.
  intros S P Hi. destruct (pd_solve n A P (fun c => if (c =? i)%nat then 1 else 0)) as [y Hy].
  exists (quad n A y). pose proof (pd_psd n A P) as PS. split; [apply PS|]. intros x.
  assert (E : dot n x (mulv n A y) = x i).
  { unfold dot. rewrite (sumR_single n _ i Hi).
    - unfold mulv. rewrite Hy, Nat.eqb_refl by auto. ring.
    - intros j Hj Hne. unfold mulv. rewrite Hy by auto. destruct (Nat.eqb_spec j i); [contradiction|ring]. }
  assert (Q : forall t, 0 <= quad n A x + 2 * t * x i + t ^ 2 * quad n A y).
  { intros t. pose proof (PS (fun c => x c + t * y c)) as X. rewrite quad_dot in X.
    rewrite (dot_ext n _ _ (fun c => x c + t * y c) (fun c => mulv n A x c + t * mulv n A y c)) in X.
    2: auto. 2:{ intros c Hc. rewrite (mulv_add n A x (fun p => t * y p)), mulv_scal. reflexivity. }
    rewrite dot_add_l, !dot_add_r, !dot_scal_l, !dot_scal_r, (dot_mulv_symm n A y x S), E in X. rewrite !quad_dot. lra. }
  pose proof (PS y) as Y. set (q := quad n A y) in *. set (p := x i) in *. set (r := quad n A x) in *. clearbody p q r.
  destruct (Req_dec q 0) as [Z|Z].
  - destruct (Req_dec p 0) as [W|W]; [rewrite W, Z; lra|]. exfalso. specialize (Q (- (r + 1) / (2 * p))). rewrite Z in Q.
    replace (2 * (- (r + 1) / (2 * p)) * p) with (- (r + 1)) in Q by (field; auto). lra.
  - specialize (Q (- p / q)). assert (q > 0) by lra.
    replace (r + 2 * (- p / q) * p + (- p / q) ^ 2 * q) with ((q * r - p ^ 2) / q) in Q by (field; lra).
    apply (Rmult_le_compat_r q) in Q; [|lra]. unfold Rdiv in Q. rewrite Rmult_assoc, Rinv_l in Q by lra. lra.
Qed.
Lemma pd_van n A (u : nat -> nat -> R) : symm n A -> pos_def n A -> van (fun j => quad n A (u j)) -> forall c, (c < n)%nat -> van (fun j => u j c).
Proof.
  intros S P V c Hc. destruct (pd_coord n A c S P Hc) as (K & K0 & HK). apply van_sqr. apply (van_between _ (fun j => K * quad n A (u j))).
  - intros j. split; [apply pow2_ge_0|apply HK].
  - now apply van_scal.
Qed.
Lemma pd_bounded n A (u : nat -> nat -> R) B : symm n A -> pos_def n A -> (forall j, quad n A (u j) <= B) -> exists M, forall j c, (c < n)%nat -> Rabs (u j c) <= M.
Proof.
  intros S P HB.
  assert (X : forall m, (m <= n)%nat -> exists M, forall j c, (c < m)%nat -> Rabs (u j c) <= M).
  { induction m as [|m IH]; intros Hm; [exists 0; intros; lia|]. destruct IH as [M HM]; [lia|].
    destruct (pd_coord n A m S P ltac:(lia)) as (K & K0 & HK). exists (Rmax M (K * B + 1)). intros j c Hc.
    destruct (Nat.eq_dec c m) as [->|Hne]; [|eapply Rle_trans; [apply HM; lia|apply Rmax_l]].
    eapply Rle_trans; [|apply Rmax_r]. specialize (HK (u j)). pose proof (Rmult_le_compat_l K _ _ K0 (HB j)).
    assert (Y : u j m ^ 2 <= K * B) by lra. pose proof (pow2_ge_0 (u j m)). pose proof (Rabs_pos (u j m)). rewrite <- pow2_abs in Y. nra. }
  exact (X n (le_n n)).
Qed.

(** ** the scheme *)
Section Scheme.
Variables (n N : nat) (dt : R) (h w sh : nat -> R) (L Rm C G : nat -> nat -> nat -> R) (zs zl : nat -> R).
Variables V I : nat -> nat -> nat -> R.   (* step, node or cell, conductor *)
Definition dif (x : nat -> nat -> nat -> R) j k : nat -> R := fun c => x (S j) k c - x j k c.
Definition sum2 (x : nat -> nat -> nat -> R) j k : nat -> R := fun c => x (S j) k c + x j k c.
(** current into node [k] *)
Definition into j k : nat -> R := fun c => w k * mulv n (C k) (dif V j k) c / dt + sh k * mulv n (G k) (sum2 V j k) c / 2.
Definition JL j : nat -> R := fun c => into j 0 c + I j 0%nat c.
Definition JR j : nat -> R := fun c => into j N c - I j (N - 1)%nat c.

Record scheme : Prop := {
  sc_cell : forall j k c, (k < N)%nat -> (c < n)%nat ->
    h k * (mulv n (L k) (dif I j k) c / dt + mulv n (Rm k) (sum2 I j k) c / 2) + (V (S j) (S k) c - V (S j) k c) = 0;
  sc_node : forall j k c, (S k < N)%nat -> (c < n)%nat -> into j (S k) c + (I j (S k) c - I j k c) = 0;
  sc_left : forall j c, (c < n)%nat -> sum2 V j 0 c = - 2 * (zs c * JL j c);
  sc_right : forall j c, (c < n)%nat -> sum2 V j N c = - 2 * (zl c * JR j c)
}.
(** the power taken by a termination *)
Definition drain (z J : nat -> R) : R := sumR n (fun c => z c * J c ^ 2).
Definition wave j : R := sumR (S N) (fun k => w k * quad n (C k) (V j k)) / 2 + sumR N (fun k => h k * quad n (L k) (I j k)) / 2.
Definition cross j : R := sumR N (fun k => dot n (I j k) (fun c => V j (S k) c - V j k c)).
Definition nrg j : R := wave j + dt / 2 * cross j.
Definition spent j : R := dt * (sumR N (fun k => h k * quad n (Rm k) (fun c => sum2 I j k c / 2)) + sumR (S N) (fun k => sh k * quad n (G k) (fun c => sum2 V j k c / 2))
   + (drain zs (JL j) + drain zl (JR j))).

Hypotheses (N1 : (1 <= N)%nat) (D : 0 < dt) (SL : forall k, (k < N)%nat -> symm n (L k)) (SC : forall k, (k <= N)%nat -> symm n (C k)).

Lemma node_nrg j k : (k <= N)%nat ->
  w k * quad n (C k) (V (S j) k) / 2 - w k * quad n (C k) (V j k) / 2 =
  dt / 2 * dot n (sum2 V j k) (into j k) - dt * (sh k * quad n (G k) (fun c => sum2 V j k c / 2)).
Proof.
  intros Hk. rewrite quad_half, (quad_dot n (G k)).
  assert (F : dot n (sum2 V j k) (into j k) = w k / dt * dot n (sum2 V j k) (mulv n (C k) (dif V j k)) + sh k / 2 * dot n (sum2 V j k) (mulv n (G k) (sum2 V j k))).
  { rewrite <- !dot_scal_r, <- dot_add_r. apply dot_ext; auto. intros c Hc. unfold into. field. lra. }
  rewrite F. pose proof (quad_diff n (C k) (V j k) (V (S j) k) (SC k Hk)) as Q. fold (sum2 V j k) (dif V j k) in Q. rewrite <- Q. field. lra.
Qed.

Hypothesis Sc : scheme.

(** by parts: the work of the cells is the work of the nodes *)
Lemma sum_parts (x : nat -> nat -> R) j :
  sumR (S N) (fun k => dot n (x k) (into j k)) =
  sumR N (fun k => dot n (I j k) (fun c => x (S k) c - x k c)) + dot n (x 0%nat) (JL j) + dot n (x N) (JR j).
Proof.
  rewrite (sumR_ends N _ N1).
  pose proof (by_parts n (I j) x (N - 1)) as BP. replace (S (N - 1)) with N in BP by lia. rewrite BP. clear BP.
  assert (E0 : dot n (x 0%nat) (into j 0) = dot n (x 0%nat) (JL j) - dot n (x 0%nat) (I j 0%nat)) by (unfold JL; rewrite dot_add_r; ring).
  assert (EN : dot n (x N) (into j N) = dot n (x N) (JR j) + dot n (x N) (I j (N - 1)%nat)) by (unfold JR; rewrite dot_sub_r; ring).
  assert (EI : sumR (N - 1) (fun k => dot n (x (S k)) (into j (S k))) = - sumR (N - 1) (fun k => dot n (x (S k)) (fun c => I j (S k) c - I j k c))).
  { rewrite <- sumR_opp. apply sumR_ext. intros k Hk.
    assert (Y : dot n (x (S k)) (into j (S k)) + dot n (x (S k)) (fun c => I j (S k) c - I j k c) = 0).
    { rewrite <- dot_add_r. apply sumR_zero. intros c Hc. rewrite (sc_node Sc) by (auto; lia). ring. }
    rsimpl. lra. }
  rewrite E0, EN, EI. rsimpl. ring.
Qed.

Lemma nrg_step j : nrg (S j) = nrg j - spent j.
Proof.
  assert (EM : (sumR N (fun k => h k * quad n (L k) (I (S j) k)) / 2 + dt / 2 * cross (S j)) - (sumR N (fun k => h k * quad n (L k) (I j k)) / 2 + dt / 2 * cross j) =
    - (dt * sumR N (fun k => h k * quad n (Rm k) (fun c => sum2 I j k c / 2))) - dt / 2 * sumR N (fun k => dot n (I j k) (fun c => sum2 V j (S k) c - sum2 V j k c))).
  { unfold cross. rewrite <- !sumR_div, <- !sumR_scal, <- !sumR_plus, <- sumR_minus, <- sumR_opp, <- sumR_minus. apply sumR_ext. intros k Hk.
    pose proof (cell_balance n (L k) (Rm k) (h k) dt (I j k) (I (S j) k) (fun c => V j (S k) c - V j k c) (fun c => V (S j) (S k) c - V (S j) k c) (SL k Hk) ltac:(lra)) as E.
    rewrite (dot_ext n (I j k) (fun c => sum2 V j (S k) c - sum2 V j k c) (I j k) (fun c => V (S j) (S k) c - V (S j) k c + (V j (S k) c - V j k c))) by (auto; intros; unfold sum2; ring).
    apply E. intros c Hc. apply (sc_cell Sc); auto. }
  assert (EE : sumR (S N) (fun k => w k * quad n (C k) (V (S j) k)) / 2 - sumR (S N) (fun k => w k * quad n (C k) (V j k)) / 2 =
    dt / 2 * sumR (S N) (fun k => dot n (sum2 V j k) (into j k)) - dt * sumR (S N) (fun k => sh k * quad n (G k) (fun c => sum2 V j k c / 2))).
  { rewrite <- !sumR_div, <- !sumR_scal, <- !sumR_minus. apply sumR_ext. intros k Hk. apply node_nrg. lia. }
  rewrite sum_parts in EE.
  assert (FL : dot n (sum2 V j 0) (JL j) = - 2 * drain zs (JL j)).
  { unfold dot, drain. rewrite <- sumR_scal. apply sumR_ext. intros c Hc. rewrite (sc_left Sc) by auto. rsimpl. rty. ring. }
  assert (FR : dot n (sum2 V j N) (JR j) = - 2 * drain zl (JR j)).
  { unfold dot, drain. rewrite <- sumR_scal. apply sumR_ext. intros c Hc. rewrite (sc_right Sc) by auto. rsimpl. rty. ring. }
  rewrite FL, FR in EE. unfold nrg, wave, spent. rsimpl. lra.
Qed.

(** ** losses *)
Hypotheses (PR : forall k, (k < N)%nat -> 0 <= h k /\ pos_semidef n (Rm k)) (PG : forall k, (k <= N)%nat -> 0 <= sh k /\ pos_semidef n (G k))
  (PZs : forall c, (c < n)%nat -> 0 <= zs c) (PZl : forall c, (c < n)%nat -> 0 <= zl c) (Pos : forall j, 0 <= nrg j).

Lemma drain_pos z J : (forall c, (c < n)%nat -> 0 <= z c) -> 0 <= drain z J.
Proof. intros H. apply sumR_nonneg. intros c Hc. apply Rmult_le_pos; auto. apply pow2_ge_0. Qed.
Lemma drain_van z (J : nat -> nat -> R) : (forall c, (c < n)%nat -> 0 <= z c) -> van (fun j => drain z (J j)) -> forall c, (c < n)%nat -> 0 < z c -> van (fun j => J j c).
Proof.
  intros H D0 c Hc Hz. apply van_sqr. apply (van_ext (fun j => / z c * (z c * J j c ^ 2))); [intros; field; lra|]. apply van_scal.
  apply (van_between _ (fun j => drain z (J j))); auto. intros j. split; [apply Rmult_le_pos; [lra|apply pow2_ge_0]|].
  apply (sumR_term n (fun c => z c * J j c ^ 2)); auto. intros i Hi. apply Rmult_le_pos; auto. apply pow2_ge_0.
Qed.
Lemma spent_ends j : 0 <= dt * drain zs (JL j) /\ 0 <= dt * drain zl (JR j) /\ dt * drain zs (JL j) <= spent j /\ dt * drain zl (JR j) <= spent j.
Proof.
  assert (A : 0 <= sumR N (fun k => h k * quad n (Rm k) (fun c => sum2 I j k c / 2))).
  { apply sumR_nonneg. intros k Hk. destruct (PR k Hk) as [H1 H2]. apply Rmult_le_pos; auto. }
  assert (B : 0 <= sumR (S N) (fun k => sh k * quad n (G k) (fun c => sum2 V j k c / 2))).
  { apply sumR_nonneg. intros k Hk. destruct (PG k ltac:(lia)) as [H1 H2]. apply Rmult_le_pos; auto. }
  pose proof (drain_pos zs (JL j) PZs) as Z1. pose proof (drain_pos zl (JR j) PZl) as Z2. unfold spent.
  repeat split; try (apply Rmult_le_pos; lra); apply Rmult_le_compat_l; rsimpl; lra.
Qed.
Lemma nrg_decreasing j : nrg (S j) <= nrg j.
Proof. rewrite nrg_step. pose proof (spent_ends j). lra. Qed.
Lemma nrg_le j : nrg j <= nrg 0.
Proof. induction j as [|j IH]; [lra|]. pose proof (nrg_decreasing j). lra. Qed.
Lemma spent_van : van spent.
Proof.
  destruct (decreasing_cv nrg) as [l Hl].
  - exact nrg_decreasing.
  - exists 0. intros x [j ->]. unfold opp_seq. pose proof (Pos j). lra.
  - assert (X : van (fun j => nrg j - l)). { intros eps He. destruct (Hl eps He) as [K HK]. exists K. intros j Hj. specialize (HK j Hj). unfold R_dist in *. now rewrite Rminus_0_r. }
    apply (van_ext (fun j => (nrg j - l) - (nrg (S j) - l))); [intros j; rewrite nrg_step; ring|]. apply van_minus; auto. exact (van_next _ X).
Qed.
Lemma ends_van : van (fun j => drain zs (JL j)) /\ van (fun j => drain zl (JR j)).
Proof.
  assert (X : forall u, (forall j, 0 <= dt * u j <= spent j) -> van u).
  { intros u H. apply (van_ext (fun j => / dt * (dt * u j))); [intros; field; lra|]. apply van_scal, (van_between _ spent); auto. exact spent_van. }
  split; apply X; intros j; pose proof (spent_ends j); lra.
Qed.

(** ** what holds at an end holds everywhere *)
Definition calm k : Prop := forall c, (c < n)%nat -> van (fun j => sum2 V j k c).
Definition still k : Prop := forall c, (c < n)%nat -> van (fun j => sum2 I j k c).

Lemma into_van k : calm k -> forall c, (c < n)%nat -> van (fun j => into (S j) k c + into j k c).
Proof.
  intros H c Hc.
  apply (van_ext (fun j => w k / dt * (mulv n (C k) (fun p => sum2 V (S j) k p - sum2 V j k p) c) + sh k / 2 * mulv n (G k) (fun p => sum2 V (S j) k p + sum2 V j k p) c)).
  - intros j. unfold into.
    rewrite (mulv_ext n (C k) (fun p => sum2 V (S j) k p - sum2 V j k p) (fun p => dif V (S j) k p + dif V j k p)) by (intros; unfold sum2, dif; ring).
    rewrite (mulv_add n (C k) (dif V (S j) k)), (mulv_add n (G k) (sum2 V (S j) k)). field. lra.
  - apply van_plus; apply van_scal, van_mulv; intros p Hp; [apply van_minus|apply van_plus]; try exact (H p Hp); exact (van_next _ (H p Hp)).
Qed.
Lemma drop_van k : (k < N)%nat -> still k -> forall c, (c < n)%nat -> van (fun j => sum2 V (S j) (S k) c - sum2 V (S j) k c).
Proof.
  intros Hk H c Hc.
  apply (van_ext (fun j => - h k * (/ dt * mulv n (L k) (fun p => sum2 I (S j) k p - sum2 I j k p) c + / 2 * mulv n (Rm k) (fun p => sum2 I (S j) k p + sum2 I j k p) c))).
  - intros j. pose proof (sc_cell Sc j k c Hk Hc) as E1. pose proof (sc_cell Sc (S j) k c Hk Hc) as E2.
    rewrite (mulv_ext n (L k) (fun p => sum2 I (S j) k p - sum2 I j k p) (fun p => dif I (S j) k p + dif I j k p)) by (intros; unfold sum2, dif; ring).
    rewrite (mulv_add n (L k) (dif I (S j) k)), (mulv_add n (Rm k) (sum2 I (S j) k)). fold (sum2 I j k) in *. replace (sum2 V (S j) (S k) c - sum2 V (S j) k c) with ((V (S (S j)) (S k) c - V (S (S j)) k c) + (V (S j) (S k) c - V (S j) k c)) by (unfold sum2; ring). unfold Rdiv in *. lra.
  - apply van_scal, van_plus; apply van_scal, van_mulv; intros p Hp; [apply van_minus|apply van_plus]; try exact (H p Hp); exact (van_next _ (H p Hp)).
Qed.
Lemma calm_right k : (k < N)%nat -> calm k -> still k -> calm (S k).
Proof.
  intros Hk A B c Hc. apply van_prev. apply (van_ext (fun j => (sum2 V (S j) (S k) c - sum2 V (S j) k c) + sum2 V (S j) k c)); [intros; ring|].
  apply van_plus; [apply drop_van; auto|exact (van_next _ (A c Hc))].
Qed.
Lemma calm_left k : (k < N)%nat -> calm (S k) -> still k -> calm k.
Proof.
  intros Hk A B c Hc. apply van_prev. apply (van_ext (fun j => sum2 V (S j) (S k) c - (sum2 V (S j) (S k) c - sum2 V (S j) k c))); [intros; ring|].
  apply van_minus; [exact (van_next _ (A c Hc))|apply drop_van; auto].
Qed.
Lemma still_right k : (S k < N)%nat -> calm (S k) -> still k -> still (S k).
Proof.
  intros Hk A B c Hc. apply (van_ext (fun j => sum2 I j k c - (into (S j) (S k) c + into j (S k) c))).
  - intros j. pose proof (sc_node Sc j k c Hk Hc). pose proof (sc_node Sc (S j) k c Hk Hc). unfold sum2. lra.
  - apply van_minus; [exact (B c Hc)|apply into_van; auto].
Qed.
Lemma still_left k : (S k < N)%nat -> calm (S k) -> still (S k) -> still k.
Proof.
  intros Hk A B c Hc. apply (van_ext (fun j => sum2 I j (S k) c + (into (S j) (S k) c + into j (S k) c))).
  - intros j. pose proof (sc_node Sc j k c Hk Hc). pose proof (sc_node Sc (S j) k c Hk Hc). unfold sum2. lra.
  - apply van_plus; [exact (B c Hc)|apply into_van; auto].
Qed.

Hypothesis Damp : (forall c, (c < n)%nat -> 0 < zs c) \/ (forall c, (c < n)%nat -> 0 < zl c).

Lemma all_calm : (forall k, (k <= N)%nat -> calm k) /\ (forall k, (k < N)%nat -> still k).
Proof.
  destruct ends_van as [E1 E2]. destruct Damp as [PZ|PZ].
  - pose proof (fun c Hc => drain_van zs JL PZs E1 c Hc (PZ c Hc)) as J. cbv beta in J.
    assert (C0 : calm 0). { intros c Hc. apply (van_ext (fun j => - 2 * (zs c * JL j c))); [intros j; symmetry; apply (sc_left Sc); auto|]. apply van_scal, van_scal. exact (J c Hc). }
    assert (S0 : still 0).
    { intros c Hc. apply (van_ext (fun j => (JL (S j) c + JL j c) - (into (S j) 0 c + into j 0 c))); [intros j; unfold JL, sum2; ring|].
      apply van_minus; [|apply into_van; auto]. apply van_plus; [exact (van_next _ (J c Hc))|exact (J c Hc)]. }
    assert (X : forall k, (k < N)%nat -> calm k /\ still k).
    { induction k as [|k IH]; intros Hk; [auto|]. destruct IH as [A B]; [lia|]. assert (calm (S k)) by (apply calm_right; auto; lia). split; auto. apply still_right; auto. }
    split; [|intros k Hk; now apply X]. intros k Hk. destruct (Nat.eq_dec k N) as [->|Hne]; [|apply X; lia].
    replace N with (S (N - 1)) by lia. apply calm_right; [lia|apply X; lia|apply X; lia].
  - pose proof (fun c Hc => drain_van zl JR PZl E2 c Hc (PZ c Hc)) as J. cbv beta in J.
    assert (C0 : calm N). { intros c Hc. apply (van_ext (fun j => - 2 * (zl c * JR j c))); [intros j; symmetry; apply (sc_right Sc); auto|]. apply van_scal, van_scal. exact (J c Hc). }
    assert (S0 : still (N - 1)).
    { intros c Hc. apply (van_ext (fun j => (into (S j) N c + into j N c) - (JR (S j) c + JR j c))); [intros j; unfold JR, sum2; ring|].
      apply van_minus; [apply into_van; auto|]. apply van_plus; [exact (van_next _ (J c Hc))|exact (J c Hc)]. }
    assert (X : forall i, (i < N)%nat -> calm (S (N - 1 - i)) /\ still (N - 1 - i)).
    { induction i as [|i IH]; intros Hi.
      - replace (S (N - 1 - 0)) with N by lia. replace (N - 1 - 0)%nat with (N - 1)%nat by lia. auto.
      - destruct IH as [A B]; [lia|]. replace (N - 1 - i)%nat with (S (N - 1 - S i)) in A, B by lia.
        assert (X : calm (S (N - 1 - S i))) by (apply calm_left; auto; lia). split; auto. apply still_left; auto. lia. }
    split.
    + intros k Hk. destruct k as [|k]; [|destruct (X (N - 1 - k)%nat ltac:(lia)) as [A _]; now replace (S (N - 1 - (N - 1 - k))) with (S k) in A by lia].
      destruct (X (N - 1)%nat ltac:(lia)) as [A B]. replace (N - 1 - (N - 1))%nat with 0%nat in A, B by lia. apply calm_left; auto.
    + intros k Hk. destruct (X (N - 1 - k)%nat ltac:(lia)) as [_ B]. now replace (N - 1 - (N - 1 - k))%nat with k in B by lia.
Qed.

(** ** below the limit of the time step nothing can oscillate from step to step *)
Hypotheses (PL : forall k, (k < N)%nat -> 0 < h k /\ pos_def n (L k)) (PC : forall k, (k <= N)%nat -> 0 < w k /\ pos_def n (C k)).
Hypotheses (EndL : forall c, (c < n)%nat -> 0 < zs c \/ forall j, V j 0%nat c = 0) (EndR : forall c, (c < n)%nat -> 0 < zl c \/ forall j, V j N c = 0).
Variable sg : R.
Hypotheses (Sg : 0 < sg) (Margin : forall j, sg * wave j <= nrg j).

Lemma wave_terms j : (forall k, (k < N)%nat -> h k * quad n (L k) (I j k) / 2 <= wave j) /\ (forall k, (k <= N)%nat -> w k * quad n (C k) (V j k) / 2 <= wave j) /\ 0 <= wave j.
Proof.
  assert (A : forall k, (k < N)%nat -> 0 <= h k * quad n (L k) (I j k)) by (intros k Hk; destruct (PL k Hk) as [X Y]; apply Rmult_le_pos; [lra|now apply pd_psd]).
  assert (B : forall k, (k < S N)%nat -> 0 <= w k * quad n (C k) (V j k)) by (intros k Hk; destruct (PC k ltac:(lia)) as [X Y]; apply Rmult_le_pos; [lra|now apply pd_psd]).
  pose proof (sumR_nonneg _ _ A) as A0. pose proof (sumR_nonneg _ _ B) as B0. unfold wave. split; [|split; [|rsimpl; lra]].
  - intros k Hk. pose proof (sumR_term _ _ k Hk A). rsimpl. lra.
  - intros k Hk. pose proof (sumR_term _ _ k (proj2 (Nat.lt_succ_r k N) Hk) B). rsimpl. lra.
Qed.
Lemma wave_bound j : wave j <= nrg 0 / sg.
Proof.
  pose proof (Margin j). pose proof (nrg_le j). apply (Rmult_le_reg_l sg); auto. replace (sg * (nrg 0 / sg)) with (nrg 0) by (field; lra). lra.
Qed.
Lemma V_bounded k : (k <= N)%nat -> exists M, forall j c, (c < n)%nat -> Rabs (V j k c) <= M.
Proof.
  intros Hk. destruct (PC k Hk) as [X Y]. apply (pd_bounded n (C k) (fun j => V j k) (2 * (nrg 0 / sg) / w k) (SC k Hk) Y).
  intros j. destruct (wave_terms j) as (_ & B & _). specialize (B k Hk). pose proof (wave_bound j).
  apply (Rmult_le_reg_l (w k)); auto. replace (w k * (2 * (nrg 0 / sg) / w k)) with (2 * (nrg 0 / sg)) by (field; split; lra). lra.
Qed.
Lemma I_bounded k : (k < N)%nat -> exists M, forall j c, (c < n)%nat -> Rabs (I j k c) <= M.
Proof.
  intros Hk. destruct (PL k Hk) as [X Y]. apply (pd_bounded n (L k) (fun j => I j k) (2 * (nrg 0 / sg) / h k) (SL k Hk) Y).
  intros j. destruct (wave_terms j) as (B & _ & _). specialize (B k Hk). pose proof (wave_bound j).
  apply (Rmult_le_reg_l (h k)); auto. replace (h k * (2 * (nrg 0 / sg) / h k)) with (2 * (nrg 0 / sg)) by (field; split; lra). lra.
Qed.

(** the mixed term, once from the cells and once from the nodes *)
Lemma cross_cells : van (fun j => cross j + 2 / dt * sumR N (fun k => h k * quad n (L k) (I j k))).
Proof.
  destruct all_calm as [CA ST].
  apply (van_ext (fun j => sumR N (fun k => dot n (I j k) (fun c => (sum2 V j (S k) c - sum2 V j k c) + h k * (/ dt * mulv n (L k) (sum2 I j k) c + / 2 * mulv n (Rm k) (sum2 I j k) c))))).
  - intros j. unfold cross. rewrite <- sumR_scal, <- sumR_plus. apply sumR_ext. intros k Hk.
    rewrite (quad_dot n (L k)). rsimpl. replace (2 / dt * (h k * dot n (I j k) (mulv n (L k) (I j k)))) with (2 / dt * h k * dot n (I j k) (mulv n (L k) (I j k))) by ring.
    rewrite <- dot_scal_r, <- dot_add_r. apply dot_ext; auto. intros c Hc.
    pose proof (sc_cell Sc j k c Hk Hc) as E.
    rewrite (mulv_ext n (L k) (dif I j k) (fun p => sum2 I j k p - 2 * I j k p)) in E by (intros; unfold dif, sum2; ring). rewrite mulv_sub, mulv_scal in E.
    unfold sum2 at 1 2. unfold Rdiv in *. lra.
  - apply (van_sum N (fun k j => dot n (I j k) (fun c => (sum2 V j (S k) c - sum2 V j k c) + h k * (/ dt * mulv n (L k) (sum2 I j k) c + / 2 * mulv n (Rm k) (sum2 I j k) c)))).
    intros k Hk. destruct (I_bounded k Hk) as [M HM]. apply (van_dot n _ (fun j => I j k) M HM). intros c Hc.
    apply van_plus; [apply van_minus; apply CA; auto; lia|]. apply van_scal, van_plus; apply van_scal, van_mulv; apply ST; auto.
Qed.
Lemma cross_nodes : van (fun j => cross j + 2 / dt * sumR (S N) (fun k => w k * quad n (C k) (V j k))).
Proof.
  destruct all_calm as [CA ST]. destruct ends_van as [E1 E2].
  apply (van_ext (fun j => sumR (S N) (fun k => dot n (V j k) (fun c => w k / dt * mulv n (C k) (sum2 V j k) c + sh k / 2 * mulv n (G k) (sum2 V j k) c))
     - (dot n (V j 0%nat) (JL j) + dot n (V j N) (JR j)))).
  - intros j. unfold cross. pose proof (sum_parts (V j) j) as SP.
    assert (X : sumR (S N) (fun k => dot n (V j k) (into j k)) = sumR (S N) (fun k => dot n (V j k) (fun c => w k / dt * mulv n (C k) (sum2 V j k) c + sh k / 2 * mulv n (G k) (sum2 V j k) c))
         - 2 / dt * sumR (S N) (fun k => w k * quad n (C k) (V j k))).
    { rewrite <- sumR_scal, <- sumR_minus. apply sumR_ext. intros k Hk. rewrite (quad_dot n (C k)).
      rsimpl. replace (2 / dt * (w k * dot n (V j k) (mulv n (C k) (V j k)))) with (2 / dt * w k * dot n (V j k) (mulv n (C k) (V j k))) by ring.
      rewrite <- dot_scal_r, <- dot_sub_r. apply dot_ext; auto. intros c Hc. unfold into.
      rewrite (mulv_ext n (C k) (dif V j k) (fun p => sum2 V j k p - 2 * V j k p)) by (intros; unfold dif, sum2; ring). rewrite mulv_sub, mulv_scal. field. lra. }
    rsimpl. lra.
  - apply van_minus.
    + apply (van_sum (S N) (fun k j => dot n (V j k) (fun c => w k / dt * mulv n (C k) (sum2 V j k) c + sh k / 2 * mulv n (G k) (sum2 V j k) c))).
      intros k Hk. destruct (V_bounded k ltac:(lia)) as [M HM]. apply (van_dot n _ (fun j => V j k) M HM). intros c Hc.
      apply van_plus; apply van_scal, van_mulv; apply CA; lia.
    + apply van_plus.
      * apply (van_sum n (fun c j => V j 0%nat c * JL j c)). intros c Hc. destruct (EndL c Hc) as [Hz|Hz].
        -- destruct (V_bounded 0 ltac:(lia)) as [M HM]. apply (van_ext (fun j => JL j c * V j 0%nat c)); [intros; ring|]. apply (van_bounded _ (fun j => V j 0%nat c) M); [intros; now apply HM|exact (drain_van zs JL PZs E1 c Hc Hz)].
        -- apply (van_ext (fun _ => 0)); [intros; rewrite Hz; ring|exact van_0].
      * apply (van_sum n (fun c j => V j N c * JR j c)). intros c Hc. destruct (EndR c Hc) as [Hz|Hz].
        -- destruct (V_bounded N ltac:(lia)) as [M HM]. apply (van_ext (fun j => JR j c * V j N c)); [intros; ring|]. apply (van_bounded _ (fun j => V j N c) M); [intros; now apply HM|exact (drain_van zl JR PZl E2 c Hc Hz)].
        -- apply (van_ext (fun _ => 0)); [intros; rewrite Hz; ring|exact van_0].
Qed.
Lemma wave_van : van wave.
Proof.
  assert (X : van nrg).
  { apply (van_ext (fun j => dt / 4 * ((cross j + 2 / dt * sumR N (fun k => h k * quad n (L k) (I j k))) + (cross j + 2 / dt * sumR (S N) (fun k => w k * quad n (C k) (V j k)))))).
    - intros j. unfold nrg, wave. field. lra.
    - apply van_scal, van_plus; [exact cross_cells|exact cross_nodes]. }
  apply (van_ext (fun j => / sg * (sg * wave j))); [intros; field; lra|]. apply van_scal, (van_between _ nrg); auto.
  intros j. split; [|apply Margin]. apply Rmult_le_pos; [lra|apply wave_terms].
Qed.
Theorem rest : (forall k c, (k <= N)%nat -> (c < n)%nat -> van (fun j => V j k c)) /\ (forall k c, (k < N)%nat -> (c < n)%nat -> van (fun j => I j k c)).
Proof.
  split.
  - intros k c Hk. destruct (PC k Hk) as [X Y]. revert c. apply (pd_van n (C k) (fun j => V j k) (SC k Hk) Y).
    apply (van_ext (fun j => 2 / w k * (w k * quad n (C k) (V j k) / 2))); [intros; field; lra|]. apply van_scal, (van_between _ wave); [|exact wave_van].
    intros j. split; [|apply wave_terms; auto]. pose proof (pd_psd n _ Y (V j k)). apply Rmult_le_pos; [apply Rmult_le_pos; lra|lra].
  - intros k c Hk. destruct (PL k Hk) as [X Y]. revert c. apply (pd_van n (L k) (fun j => I j k) (SL k Hk) Y).
    apply (van_ext (fun j => 2 / h k * (h k * quad n (L k) (I j k) / 2))); [intros; field; lra|]. apply van_scal, (van_between _ wave); [|exact wave_van].
    intros j. split; [|apply wave_terms; auto]. pose proof (pd_psd n _ Y (I j k)). apply Rmult_le_pos; [apply Rmult_le_pos; lra|lra].
Qed.
End Scheme.
