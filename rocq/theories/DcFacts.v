(** Direct-current circuits: a resistive line that is damped at one end has exactly one solution. *)
From Coq Require Import Arith Bool Lia Reals Lra Psatz.
From Verif Require Import Num NumR RFacts LinAlg SpecR RunEqFacts SpecEnergy EnergyFacts.
Local Open Scope R_scope.

(** fewer equations than unknowns *)
Lemma find_nonzero n (f : nat -> R) : (exists r, (r < n)%nat /\ f r <> 0) \/ (forall r, (r < n)%nat -> f r = 0).
Proof.
  induction n as [|n [(r & Hr & H)|IH]]; [right; intros; lia|left; exists r; split; auto; lia|].
  destruct (Req_dec (f n) 0) as [E|E]; [right|left; exists n; split; auto]. intros r Hr. destruct (Nat.eq_dec r n) as [->|]; auto. apply IH. lia.
Qed.
Lemma homog n : forall E : nat -> nat -> R, exists x : nat -> R, (exists j, (j <= n)%nat /\ x j <> 0) /\ forall i, (i < n)%nat -> sumR (S n) (fun j => E i j * x j) = 0.
Proof.
  induction n as [|n IH]; intros E.
  - exists (fun _ => 1). split; [exists 0%nat; split; [lia|lra]|intros; lia].
  - destruct (find_nonzero (S n) (fun r => E r (S n))) as [(r & Hr & Hp)|Z].
    + destruct (IH (fun i j => let i' := if (i <? r)%nat then i else S i in E i' j - E i' (S n) / E r (S n) * E r j)) as (x & (j & Hj & Xj) & HX).
      set (s := sumR (S n) (fun j => E r j * x j)).
      exists (fun j => if (j <=? n)%nat then x j else - s / E r (S n)). split.
      * exists j. split; [lia|]. apply Nat.leb_le in Hj. now rewrite Hj.
      * intros i Hi. rewrite sumR_S. rewrite (sumR_ext (S n) _ (fun j => E i j * x j)).
        2: { intros k Hk. assert (X : (k <=? n)%nat = true) by (apply Nat.leb_le; lia). now rewrite X. }
        assert (X : (S n <=? n)%nat = false) by (apply Nat.leb_gt; lia). rewrite X.
        destruct (Nat.eq_dec i r) as [->|Hne].
        { fold s. rsimpl. rty. field. exact Hp. }
        assert (Hi' : exists i', (i' < n)%nat /\ (if (i' <? r)%nat then i' else S i') = i).
        { destruct (Nat.lt_ge_cases i r) as [L|L].
          - exists i. split; [lia|]. apply Nat.ltb_lt in L. now rewrite L.
          - exists (i - 1)%nat. split; [lia|]. assert (Y : (i - 1 <? r)%nat = false) by (apply Nat.ltb_ge; lia). rewrite Y. lia. }
        destruct Hi' as (i' & Hi' & Ei). specialize (HX i' Hi'). cbv zeta in HX. rewrite Ei in HX.
        rewrite (sumR_ext (S n) _ (fun j => E i j * x j - E i (S n) / E r (S n) * (E r j * x j))) in HX by (intros; rsimpl; rty; ring).
        rewrite sumR_minus, sumR_scal in HX. fold s in HX. rsimpl. rty. unfold Rdiv in *. lra.
    + exists (fun j => if (j =? S n)%nat then 1 else 0). split; [exists (S n); split; [lia|rewrite Nat.eqb_refl; lra]|].
      intros i Hi. rewrite sumR_S, (Nat.eqb_refl (S n)), (Z i Hi), sumR_zero; [rsimpl; rty; ring|].
      intros k Hk. assert (X : (k =? S n)%nat = false) by (apply Nat.eqb_neq; lia). rewrite X. rsimpl. rty. ring.
Qed.

Lemma mulv_sum n A M (x : nat -> R) (u : nat -> nat -> R) c : mulv n A (fun p => sumR M (fun j => x j * u j p)) c = sumR M (fun j => x j * mulv n A (u j) c).
Proof.
  induction M as [|M IH].
  - rewrite sumR_0. apply sumR_zero. intros. rewrite sumR_0. rring.
  - rewrite sumR_S. rewrite (mulv_ext n A _ (fun p => sumR M (fun j => x j * u j p) + x M * u M p)) by (intros; now rewrite sumR_S).
    rewrite mulv_add, mulv_scal, IH. reflexivity.
Qed.

Section Dc.
Variables n N : nat.
Hypothesis N1 : (1 <= N)%nat.
Record dc (h sh : nat -> R) (Rm G : nat -> nat -> nat -> R) (zs zl s r : nat -> R) (V I : nat -> nat -> R) : Prop := {
  d_cell : forall c k, (c < n)%nat -> (k < N)%nat -> V c (S k) - V c k = - (h k * mulv n (Rm k) (fun p => I p k) c);
  d_node : forall c k, (c < n)%nat -> (S k < N)%nat -> I c (S k) - I c k = - (sh (S k) * mulv n (G (S k)) (fun p => V p (S k)) c);
  d_left : forall c, (c < n)%nat -> V c 0%nat = s c - zs c * (I c 0%nat + sh 0%nat * mulv n (G 0%nat) (fun p => V p 0%nat) c);
  d_right : forall c, (c < n)%nat -> V c N = r c + zl c * (I c (N - 1)%nat - sh N * mulv n (G N) (fun p => V p N) c)
}.

(** combinations of solutions *)
Lemma dc_comb h sh Rm G zs zl M (x : nat -> R) s r (V I : nat -> nat -> nat -> R) :
  (forall j, (j < M)%nat -> dc h sh Rm G zs zl (s j) (r j) (V j) (I j)) ->
  dc h sh Rm G zs zl (fun c => sumR M (fun j => x j * s j c)) (fun c => sumR M (fun j => x j * r j c))
    (fun c k => sumR M (fun j => x j * V j c k)) (fun c k => sumR M (fun j => x j * I j c k)).
Proof.
  intros H. split.
  - intros c k Hc Hk. rewrite (mulv_sum n (Rm k) M x (fun j p => I j p k)), <- sumR_minus, <- sumR_scal, <- sumR_opp. apply sumR_ext. intros j Hj.
    pose proof (d_cell _ _ _ _ _ _ _ _ _ _ (H j Hj) c k Hc Hk) as E. rewrite <- Rmult_minus_distr_l, E. rsimpl. rty. ring.
  - intros c k Hc Hk. rewrite (mulv_sum n (G (S k)) M x (fun j p => V j p (S k))), <- sumR_minus, <- sumR_scal, <- sumR_opp. apply sumR_ext. intros j Hj.
    pose proof (d_node _ _ _ _ _ _ _ _ _ _ (H j Hj) c k Hc Hk) as E. rewrite <- Rmult_minus_distr_l, E. rsimpl. rty. ring.
  - intros c Hc. rewrite (mulv_sum n (G 0%nat) M x (fun j p => V j p 0%nat)). rewrite <- sumR_scal, <- sumR_plus, <- sumR_scal, <- sumR_minus. apply sumR_ext. intros j Hj.
    rewrite (d_left _ _ _ _ _ _ _ _ _ _ (H j Hj) c Hc) at 1. rsimpl. rty. ring.
  - intros c Hc. rewrite (mulv_sum n (G N) M x (fun j p => V j p N)). rewrite <- sumR_scal, <- sumR_minus, <- sumR_scal, <- sumR_plus. apply sumR_ext. intros j Hj.
    rewrite (d_right _ _ _ _ _ _ _ _ _ _ (H j Hj) c Hc) at 1. rsimpl. rty. ring.
Qed.

(** the line seen from its other end *)
Lemma dc_mirror h sh Rm G zs zl s r V I : dc h sh Rm G zs zl s r V I ->
  dc (fun k => h (N - 1 - k)%nat) (fun k => sh (N - k)%nat) (fun k => Rm (N - 1 - k)%nat) (fun k => G (N - k)%nat) zl zs r s
     (fun c k => V c (N - k)%nat) (fun c k => - I c (N - 1 - k)%nat).
Proof.
  intros [A B C D]. split.
  - intros c k Hc Hk. rewrite (mulv_ext n _ (fun p => - I p (N - 1 - k)%nat) (fun p => (-1) * I p (N - 1 - k)%nat)) by (intros; ring). rewrite mulv_scal.
    pose proof (A c (N - 1 - k)%nat Hc ltac:(lia)) as E. replace (S (N - 1 - k)) with (N - k)%nat in E by lia. replace (N - S k)%nat with (N - 1 - k)%nat by lia. rsimpl. rty. lra.
  - intros c k Hc Hk. pose proof (B c (N - 2 - k)%nat Hc ltac:(lia)) as E. replace (S (N - 2 - k)) with (N - S k)%nat in E by lia.
    replace (N - 1 - S k)%nat with (N - 2 - k)%nat by lia. replace (N - 1 - k)%nat with (N - S k)%nat by lia. rsimpl. rty. lra.
  - intros c Hc. replace (N - 0)%nat with N by lia. replace (N - 1 - 0)%nat with (N - 1)%nat by lia. rewrite (D c Hc) at 1. rsimpl. rty. ring.
  - intros c Hc. replace (N - N)%nat with 0%nat by lia. replace (N - 1 - (N - 1))%nat with 0%nat by lia. rewrite (C c Hc) at 1. rsimpl. rty. ring.
Qed.

Section Lossy.
Variables (h sh : nat -> R) (Rm G : nat -> nat -> nat -> R) (zs zl : nat -> R).
Hypotheses (Ph : forall k, (k < N)%nat -> 0 <= h k) (Psh : forall k, (k <= N)%nat -> 0 <= sh k)
  (PR : forall k, (k < N)%nat -> pos_semidef n (Rm k)) (PG : forall k, (k <= N)%nat -> pos_semidef n (G k))
  (Pzs : forall c, (c < n)%nat -> 0 < zs c) (Pzl : forall c, (c < n)%nat -> 0 <= zl c).

(** power: what the ends and the line dissipate adds up to nothing *)
Lemma power V I : dc h sh Rm G zs zl (fun _ => 0) (fun _ => 0) V I ->
  let J c := I c 0%nat + sh 0%nat * mulv n (G 0%nat) (fun p => V p 0%nat) c in
  let K c := I c (N - 1)%nat - sh N * mulv n (G N) (fun p => V p N) c in
  sumR n (fun c => zs c * J c ^ 2) + sumR n (fun c => zl c * K c ^ 2)
  + sumR N (fun k => h k * quad n (Rm k) (fun p => I p k)) + sumR (S N) (fun k => sh k * quad n (G k) (fun p => V p k)) = 0.
Proof.
  intros [A B C D] J K.
  assert (E1 : sumR n (fun c => zs c * J c ^ 2) = - dot n (fun c => V c 0%nat) J).
  { unfold dot. rewrite <- sumR_opp. apply sumR_ext. intros c Hc. rewrite (C c Hc). fold (J c). rsimpl. rty. ring. }
  assert (E2 : sumR n (fun c => zl c * K c ^ 2) = dot n (fun c => V c N) K).
  { unfold dot. apply sumR_ext. intros c Hc. rewrite (D c Hc). fold (K c). rsimpl. rty. ring. }
  assert (E3 : sumR N (fun k => h k * quad n (Rm k) (fun p => I p k)) = - sumR N (fun k => dot n (fun p => I p k) (fun c => V c (S k) - V c k))).
  { rewrite <- sumR_opp. apply sumR_ext. intros k Hk. rewrite quad_dot, <- dot_scal_r. unfold dot. rewrite <- sumR_opp. apply sumR_ext. intros c Hc.
    rewrite (A c k Hc Hk). rsimpl. rty. ring. }
  assert (E4 : sumR (S N) (fun k => sh k * quad n (G k) (fun p => V p k)) =
    dot n (fun c => V c 0%nat) (fun c => J c - I c 0%nat) + sumR (N - 1) (fun k => dot n (fun p => V p (S k)) (fun c => I c k - I c (S k))) + dot n (fun c => V c N) (fun c => I c (N - 1)%nat - K c)).
  { rewrite (sumR_ends N _ N1). apply f_equal2; [apply f_equal2|].
    - rewrite quad_dot, <- dot_scal_r. apply dot_ext; auto. intros c Hc. unfold J. rsimpl. rty. ring.
    - apply sumR_ext. intros k Hk. rewrite quad_dot, <- dot_scal_r. apply dot_ext; auto. intros c Hc. pose proof (B c k Hc ltac:(lia)). rsimpl. rty. lra.
    - rewrite quad_dot, <- dot_scal_r. apply dot_ext; auto. intros c Hc. unfold K. rsimpl. rty. ring. }
  rewrite E1, E2, E3, E4. rewrite !dot_sub_r.
  rewrite (sumR_ext N (fun k => dot n (fun p => I p k) (fun c => V c (S k) - V c k)) (fun k => dot n (fun p => V p (S k)) (fun p => I p k) - dot n (fun p => V p k) (fun p => I p k)))
    by (intros k Hk; rewrite dot_sub_r, !(dot_comm n (fun p => I p k)); reflexivity).
  rewrite (sumR_ext (N - 1) _ (fun k => dot n (fun p => V p (S k)) (fun c => I c k) - dot n (fun p => V p (S k)) (fun c => I c (S k)))) by (intros; now rewrite dot_sub_r).
  rewrite !sumR_minus. assert (EN : exists M, N = S M) by (exists (N - 1)%nat; lia). destruct EN as [M EN]. rewrite !EN. replace (S M - 1)%nat with M by lia.
  rewrite (sumR_S M (fun k => dot n (fun p => V p (S k)) (fun p => I p k))), (sumR_shift M (fun k => dot n (fun p => V p k) (fun p => I p k))). rsimpl. rty. ring.
Qed.

Lemma dc_zero V I : dc h sh Rm G zs zl (fun _ => 0) (fun _ => 0) V I ->
  (forall k c, (k <= N)%nat -> (c < n)%nat -> V c k = 0) /\ (forall k c, (k < N)%nat -> (c < n)%nat -> I c k = 0).
Proof.
  intros H. pose proof (power V I H) as P. cbv zeta in P. destruct H as [A B C D].
  cbv beta in P. set (J := fun c => I c 0%nat + sh 0%nat * mulv n (G 0%nat) (fun p => V p 0%nat) c) in *.
  assert (P' : sumR n (fun c => zs c * J c ^ 2) = sumR n (fun c => zs c * (I c 0%nat + sh 0%nat * mulv n (G 0%nat) (fun p => V p 0%nat) c) ^ 2)) by reflexivity.
  rewrite <- P' in P.
  assert (Q1 : 0 <= sumR n (fun c => zl c * (I c (N - 1)%nat - sh N * mulv n (G N) (fun p => V p N) c) ^ 2)) by (apply sumR_nonneg; intros; apply Rmult_le_pos; auto; apply pow2_ge_0).
  assert (Q2 : 0 <= sumR N (fun k => h k * quad n (Rm k) (fun p => I p k))) by (apply sumR_nonneg; intros k Hk; apply Rmult_le_pos; auto; now apply PR).
  assert (Q3 : 0 <= sumR (S N) (fun k => sh k * quad n (G k) (fun p => V p k))) by (apply sumR_nonneg; intros k Hk; apply Rmult_le_pos; [apply Psh; lia|apply PG; lia]).
  assert (J0 : forall c, (c < n)%nat -> J c = 0).
  { intros c Hc. assert (X : zs c * J c ^ 2 <= sumR n (fun c => zs c * J c ^ 2)).
    { apply (sumR_term n (fun c => zs c * J c ^ 2)); auto. intros j Hj. apply Rmult_le_pos; [apply Rlt_le, Pzs; auto|apply pow2_ge_0]. }
    specialize (Pzs c Hc). assert (Y : zs c * J c ^ 2 <= 0) by (rsimpl; rty; lra). pose proof (pow2_ge_0 (J c)).
    assert (Z : J c ^ 2 = 0) by nra. apply Rsqr_0_uniq. unfold Rsqr. simpl in Z. lra. }
  assert (M0 : forall u A', (forall p, (p < n)%nat -> u p = 0) -> forall c, mulv n A' u c = 0).
  { intros u A' Hu c. apply sumR_zero. intros p Hp. rewrite Hu by auto. rring. }
  assert (V0 : forall c, (c < n)%nat -> V c 0%nat = 0) by (intros c Hc; rewrite (C c Hc); fold (J c); rewrite (J0 c Hc); ring).
  assert (I0 : forall c, (c < n)%nat -> I c 0%nat = 0).
  { intros c Hc. pose proof (J0 c Hc) as X. unfold J in X. rewrite (M0 (fun p => V p 0%nat)) in X by auto. lra. }
  assert (S0 : forall k, (k < N)%nat -> (forall c, (c < n)%nat -> V c k = 0) /\ (forall c, (c < n)%nat -> I c k = 0)).
  { induction k as [|k IH]; intros Hk; [split; auto|]. destruct IH as [IV II]; [lia|].
    assert (VS : forall c, (c < n)%nat -> V c (S k) = 0).
    { intros c Hc. pose proof (A c k Hc ltac:(lia)) as E. rewrite (M0 (fun p => I p k)), IV in E by auto. lra. }
    split; auto. intros c Hc. pose proof (B c k Hc Hk) as E. rewrite (M0 (fun p => V p (S k))), II in E by auto. lra. }
  split; [|intros k c Hk; now apply S0]. intros k c Hk Hc. destruct (Nat.eq_dec k N) as [->|]; [|apply S0; auto; lia].
  destruct (S0 (N - 1)%nat ltac:(lia)) as [X Y]. pose proof (A c (N - 1)%nat Hc ltac:(lia)) as E. rewrite (M0 (fun p => I p (N - 1)%nat)), X in E by auto. replace (S (N - 1)) with N in E by lia. lra.
Qed.

(** marching from the damped end *)
Fixpoint march (s v : nat -> R) (k : nat) : (nat -> R) * (nat -> R) :=
  match k with
  | O => (v, fun c => (s c - v c) / zs c - sh 0%nat * mulv n (G 0%nat) v c)
  | S k' => let '(v', i') := march s v k' in let v'' := fun c => v' c - h k' * mulv n (Rm k') i' c in (v'', fun c => i' c - sh (S k') * mulv n (G (S k')) v'' c)
  end.
Lemma march_dc s v : exists r V I, dc h sh Rm G zs zl s r V I /\ forall c, V c 0%nat = v c.
Proof.
  set (V := fun c k => fst (march s v k) c). set (I := fun c k => snd (march s v k) c).
  exists (fun c => V c N - zl c * (I c (N - 1)%nat - sh N * mulv n (G N) (fun p => V p N) c)), V, I. split; [|reflexivity]. split.
  - intros c k Hc Hk. unfold V, I. cbn [march]. destruct (march s v k) as [v' i']. cbn [fst snd]. rsimpl. rty. ring_simplify. apply f_equal. apply f_equal. reflexivity.
  - intros c k Hc Hk. unfold V, I. cbn [march]. destruct (march s v k) as [v' i']. cbn [fst snd]. rsimpl. rty. match goal with |- _ - _ * ?a - _ = - (_ * ?b) => change b with a end. ring.
  - intros c Hc. unfold V, I. cbn [march fst snd]. specialize (Pzs c Hc). match goal with |- context [mulv n ?a ?u c] => change (fun p : nat => v p) with v end. rsimpl. rty. field. lra.
  - intros c Hc. rsimpl. rty. ring.
Qed.
Lemma dc_solve s r : exists V I, dc h sh Rm G zs zl s r V I.
Proof.
  set (sj := fun j => if (j =? n)%nat then s else fun _ => 0). set (vj := fun j c => if (j =? c)%nat then 1 else 0).
  assert (B : forall j, exists q : (nat -> R) * ((nat -> nat -> R) * (nat -> nat -> R)), dc h sh Rm G zs zl (sj j) (fst q) (fst (snd q)) (snd (snd q)) /\ forall c, fst (snd q) c 0%nat = vj j c).
  { intros j. destruct (march_dc (sj j) (vj j)) as (r' & V & I & H). exists (r', (V, I)). exact H. }
  destruct (fin_choice (fun _ : nat => 0, (fun _ _ : nat => 0, fun _ _ : nat => 0)) (S n) _ (fun j _ => B j)) as [q Hq].
  destruct (homog n (fun c j => fst (q j) c - if (j =? n)%nat then r c else 0)) as (x & (j & Hj & Xj) & HX).
  assert (X : forall c, (c < n)%nat -> sumR (S n) (fun j => x j * fst (q j) c) = x n * r c).
  { intros c Hc. specialize (HX c Hc). rewrite (sumR_ext (S n) _ (fun j => x j * fst (q j) c - x j * (if (j =? n)%nat then r c else 0))) in HX by (intros; rsimpl; rty; ring).
    rewrite sumR_minus in HX. rewrite (sumR_single (S n) (fun j => x j * (if (j =? n)%nat then r c else 0)) n) in HX; [rewrite Nat.eqb_refl in HX; rsimpl; rty; lra|lia|].
    intros k Hk Hne. apply Nat.eqb_neq in Hne. rewrite Hne. rring. }
  assert (Y : forall c, sumR (S n) (fun j => x j * sj j c) = x n * s c).
  { intros c. rewrite (sumR_single (S n) (fun j => x j * sj j c) n); [unfold sj; now rewrite Nat.eqb_refl|lia|]. intros k Hk Hne. unfold sj. apply Nat.eqb_neq in Hne. rewrite Hne. rring. }
  pose proof (dc_comb h sh Rm G zs zl (S n) x sj (fun j => fst (q j)) (fun j => fst (snd (q j))) (fun j => snd (snd (q j))) (fun j Hj => proj1 (Hq j Hj))) as [A1 A2 A3 A4].
  destruct (Req_dec (x n) 0) as [E|E].
  - exfalso. apply Xj. destruct (dc_zero (fun c k => sumR (S n) (fun j => x j * fst (snd (q j)) c k)) (fun c k => sumR (S n) (fun j => x j * snd (snd (q j)) c k))) as [Z _].
    { split; auto; [intros c Hc; rewrite (A3 c Hc) at 1; rewrite Y, E|intros c Hc; rewrite (A4 c Hc) at 1; rewrite X, E by auto]; rsimpl; rty; ring. }
    destruct (Nat.eq_dec j n) as [->|Hne]; auto. specialize (Z 0%nat j ltac:(lia) ltac:(lia)). cbv beta in Z.
    rewrite (sumR_single (S n) (fun j' => x j' * fst (snd (q j')) j 0%nat) j) in Z; [|lia|].
    + destruct (Hq j ltac:(lia)) as [_ W]. rewrite W in Z. unfold vj in Z. rewrite Nat.eqb_refl in Z. rsimpl. rty. lra.
    + intros k Hk Hkj. destruct (Hq k ltac:(lia)) as [_ W]. rewrite W. unfold vj. apply Nat.eqb_neq in Hkj. rewrite Hkj. rring.
  - pose proof (dc_comb h sh Rm G zs zl 1 (fun _ => / x n) (fun _ c => sumR (S n) (fun j => x j * sj j c)) (fun _ c => sumR (S n) (fun j => x j * fst (q j) c)) _ _ (fun _ _ => Build_dc _ _ _ _ _ _ _ _ _ _ A1 A2 A3 A4)) as [B1 B2 B3 B4].
    exists (fun c k => sumR 1 (fun _ => / x n * sumR (S n) (fun j => x j * fst (snd (q j)) c k))), (fun c k => sumR 1 (fun _ => / x n * sumR (S n) (fun j => x j * snd (snd (q j)) c k))).
    split; auto; [intros c Hc; rewrite (B3 c Hc) at 1|intros c Hc; rewrite (B4 c Hc) at 1]; apply f_equal2; auto; rewrite sumR_S, sumR_0.
    + rewrite Y. rsimpl. rty. field. exact E.
    + rewrite (X c Hc). rsimpl. rty. field. exact E.
Qed.
End Lossy.
End Dc.
