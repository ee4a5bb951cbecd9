(** Proof that lines of a bundle without transfer impedance do not interact. *)
From Coq Require Import String List Arith ZArith Bool Lia Reals Lra.
From Verif Require Import Num Py Arr ArrFacts NumR RFacts LinAlg Probes Dispersive Line LineFacts Bundle Networks Mtln
  SpecLine SpecR SpecBundle SpecDisp SpecCore SpecAlone HistoryFacts CoreEq BundleFacts BlockFacts DispR DispTotal BundleR SymFacts CoreUnique.
Import ListNotations.
Local Open Scope R_scope.

Lemma sum_window m r n f : (r + n <= m)%nat -> (forall p, (p < m)%nat -> (p < r \/ r + n <= p)%nat -> f p = 0) ->
  sumR m f = sumR n (fun c => f (r + c)%nat).
Proof.
  intros Hm Z. induction m as [|m IH].
  - assert (n = 0)%nat by lia. subst n. now rewrite !sumR_0.
  - rewrite sumR_S. destruct (Nat.eq_dec (r + n) (S m)) as [E|E].
    + destruct n as [|n].
      * rewrite sumR_0. rewrite (Z m) by lia. rewrite (sumR_zero m f); [rsimpl; lra|]. intros k Hk. apply Z; lia.
      * clear IH. assert (A : forall j, (r + j <= m)%nat -> sumR (r + j) f = sumR j (fun c => f (r + c)%nat)).
        { induction j as [|j IHj]; intros Hj.
          - rewrite sumR_0, Nat.add_0_r. apply sumR_zero. intros k Hk. apply Z; lia.
          - replace (r + S j)%nat with (S (r + j)) by lia. rewrite !sumR_S, IHj by lia. reflexivity. }
        rewrite sumR_S, <- A by lia. replace (r + n)%nat with m by lia. reflexivity.
    + rewrite IH by (try lia; intros; apply Z; lia). rewrite (Z m) by lia. rsimpl. lra.
Qed.

(** what marching leaves alone *)
Record dyn_same (s s' : core NumR) : Prop := {
  dy_n : k_n s' = k_n s; dy_N : k_N s' = k_N s; dy_h : k_h s' = k_h s;
  dy_l : k_l s' = k_l s; dy_r : k_r s' = k_r s; dy_c : k_c s' = k_c s; dy_g : k_g s' = k_g s;
  dy_d : ds_d (k_disp s') = ds_d (k_disp s); dy_e : ds_e (k_disp s') = ds_e (k_disp s);
  dy_1 : ds_q1sum (k_disp s') = ds_q1sum (k_disp s); dy_2 : ds_q2sum (k_disp s') = ds_q2sum (k_disp s)
}.
Lemma dyn_refl s : dyn_same s s. Proof. split; reflexivity. Qed.
Lemma dyn_trans a b c : dyn_same a b -> dyn_same b c -> dyn_same a c.
Proof. intros [] []; split; congruence. Qed.
Definition grid (s : core NumR) : Prop := length (k_v s) = k_n s /\ (forall c, (c < k_n s)%nat -> length (nth c (k_v s) []) = S (k_N s)).

Lemma advv_dyn s f s' : advance_voltage s f = Ok s' -> dyn_same s s' /\ k_i s' = k_i s /\ k_dt s' = k_dt s /\ k_eL s' = k_eL s /\ k_eT s' = k_eT s /\
  k_lr s' = k_lr s /\ k_cg s' = k_cg s /\ k_disp s' = k_disp s /\ grid s'.
Proof.
  unfold advance_voltage. destruct (k_cg s) as [[? ?]|] eqn:E; [|discriminate]. intros H. apply OkI in H. subst s'. split; [split; reflexivity|].
  do 5 (split; [reflexivity|]). split; [exact E|]. split; [reflexivity|]. split; cbn [set_v k_n k_v k_N].
  - unfold mk2. apply length_mk.
  - intros c Hc. unfold mk2. rewrite nth_mk by exact Hc. apply length_mk.
Qed.
Lemma advi_dyn s f s' : advance_current s f = Ok s' -> dyn_same s s' /\ k_v s' = k_v s /\ k_dt s' = k_dt s /\ k_eL s' = k_eL s /\ k_eT s' = k_eT s /\
  k_lr s' = k_lr s /\ k_cg s' = k_cg s.
Proof.
  intros H. unfold advance_current in H. inv_bind H. destruct (k_lr s) as [[? ?]|] eqn:E; [|discriminate]. inv_bind H. apply OkI in H. subst s'.
  unfold update_q3_phi_term in Ha. inv_bind Ha. apply OkI in Ha. subst a.
  unfold update_phi in Ha0. inv_bind Ha0. apply OkI in Ha0. subst a0. split; [split; reflexivity|]. do 4 (split; [reflexivity|]). split; [exact E|reflexivity].
Qed.
Lemma advv_dt (s : core NumR) f s' d : advance_voltage s f = Ok s' -> advance_voltage (set_dt s d) f = Ok (set_dt s' d).
Proof. unfold advance_voltage. cbn [set_dt k_cg]. destruct (k_cg s) as [[? ?]|]; [|discriminate]. intros H. apply OkI in H. subst s'. reflexivity. Qed.
Lemma advi_dt (s : core NumR) f s' d : advance_current s f = Ok s' -> advance_current (set_dt s d) f = Ok (set_dt s' d).
Proof.
  unfold advance_current. cbn [set_dt k_lr k_disp]. destruct (update_q3_phi_term (k_disp s)) as [d1|]; [|discriminate]. cbn [bind].
  destruct (k_lr s) as [[? ?]|]; [|discriminate]. cbv zeta.
  change (update_phi d1 ?i ?j) with (update_phi d1 i j).
  assert (E : mk2 (k_n (set_dt s d)) (k_N (set_dt s d)) (fun c k => cell_current (set_disp (set_dt s d) d1) f t t0 c k) =
              mk2 (k_n s) (k_N s) (fun c k => cell_current (set_disp s d1) f t t0 c k)) by reflexivity.
  rewrite E. clear E. destruct (update_phi d1 _ _) as [d2|]; [|discriminate]. cbn [bind]. intros H. apply OkI in H. subst s'. reflexivity.
Qed.

Section Alone.
Variable LA : lapack NumR.
Hypothesis LAok : lapack_ok LA.

Lemma lr_keep s s' d : dyn_same s s' -> k_lr s' = k_lr s -> lr_ready LA (set_dt s d) -> lr_ready LA (set_dt s' d).
Proof.
  intros D E H. destruct D. unfold lr_ready, update_lr_terms in *. cbn [set_dt k_n k_N] in *. rewrite dy_n0, dy_N0.
  assert (F1 : forall k, lr_F1 (set_dt s' d) k = lr_F1 (set_dt s d) k).
  { intros k. unfold lr_F1. cbn [set_dt k_n k_h k_l k_r k_dt k_disp]. now rewrite dy_n0, dy_h0, dy_l0, dy_r0, dy_d0, dy_e0, dy_3. }
  assert (F2 : forall k, lr_F2 (set_dt s' d) k = lr_F2 (set_dt s d) k).
  { intros k. unfold lr_F2. cbn [set_dt k_n k_h k_l k_r k_dt k_disp]. now rewrite dy_n0, dy_h0, dy_l0, dy_r0, dy_d0, dy_e0, dy_4. }
  rewrite (mapM_ext _ (fun k => inv LA (k_n s) (lr_F1 (set_dt s d) k))) by (intros; now rewrite F1).
  destruct (mapM _ _) as [a|]; [|discriminate]. cbn [bind] in *. f_equal. apply OkI in H. apply set_lr_eq.
  cbn [set_dt k_lr]. rewrite E. transitivity (k_lr (set_dt s d)); [reflexivity|]. rewrite <- H. cbn [set_lr k_lr]. f_equal. f_equal.
  apply mk_ext. intros k Hk. now rewrite F2.
Qed.
Lemma cg_keep s s' d : dyn_same s s' -> k_cg s' = k_cg s -> cg_ready LA (set_dt s d) -> cg_ready LA (set_dt s' d).
Proof.
  intros D E H. destruct D. unfold cg_ready, update_cg_terms in *. cbn [set_dt k_n k_N] in *. rewrite dy_n0, dy_N0.
  assert (F1 : forall k, cg_F1 (set_dt s' d) k = cg_F1 (set_dt s d) k).
  { intros k. unfold cg_F1, node_width. cbn [set_dt k_n k_N k_h k_c k_g k_dt]. now rewrite dy_n0, dy_N0, dy_h0, dy_c0, dy_g0. }
  assert (F2 : forall k, cg_F2 (set_dt s' d) k = cg_F2 (set_dt s d) k).
  { intros k. unfold cg_F2, node_width. cbn [set_dt k_n k_N k_h k_c k_g k_dt]. now rewrite dy_n0, dy_N0, dy_h0, dy_c0, dy_g0. }
  rewrite (mapM_ext _ (fun k => inv LA (k_n s) (cg_F1 (set_dt s d) k))) by (intros; now rewrite F1).
  destruct (mapM _ _) as [a|]; [|discriminate]. cbn [bind] in *. f_equal. apply OkI in H. apply set_cg_eq.
  cbn [set_dt k_cg]. rewrite E. transitivity (k_cg (set_dt s d)); [reflexivity|]. rewrite <- H. cbn [set_cg k_cg]. f_equal. f_equal.
  apply mk_ext. intros k Hk. now rewrite F2.
Qed.

(** coefficients of both computed with the same step, or not computed *)
Definition both_lr (s s' : core NumR) : Prop :=
  (k_lr s = None /\ k_lr s' = None) \/ exists d, lr_ready LA (set_dt s d) /\ lr_ready LA (set_dt s' d).
Definition both_cg (s s' : core NumR) : Prop :=
  (k_cg s = None /\ k_cg s' = None) \/ exists d, cg_ready LA (set_dt s d) /\ cg_ready LA (set_dt s' d).

Variable r0 n : nat.
(** static agreement of the block [r0, r0+n) of [s] with [s'] *)
Record block (s s' : core NumR) : Prop := {
  bl_c : cdiag s; bl_c' : cdiag s'; bl_n : k_n s' = n; bl_in : (r0 + n <= k_n s)%nat; bl_N : k_N s' = k_N s;
  bl_h : forall k, (k < k_N s)%nat -> klen s k = klen s' k;
  bl_L : forall k c c', (k < k_N s)%nat -> (c < n)%nat -> (c' < n)%nat ->
    kL s k (r0 + c) (r0 + c') = kL s' k c c' /\ kR s k (r0 + c) (r0 + c') = kR s' k c c';
  bl_C : forall k c c', (k <= k_N s)%nat -> (c < n)%nat -> (c' < n)%nat ->
    kC s k (r0 + c) (r0 + c') = kC s' k c c' /\ kG s k (r0 + c) (r0 + c') = kG s' k c c';
  bl_L0 : forall k c j, (k < k_N s)%nat -> (c < n)%nat -> (j < k_n s)%nat -> (j < r0 \/ r0 + n <= j)%nat ->
    kL s k (r0 + c) j = 0 /\ kR s k (r0 + c) j = 0;
  bl_C0 : forall k c j, (k <= k_N s)%nat -> (c < n)%nat -> (j < k_n s)%nat -> (j < r0 \/ r0 + n <= j)%nat ->
    kC s k (r0 + c) j = 0 /\ kG s k (r0 + c) j = 0;
  bl_D : forall k i j, (k < k_N s)%nat -> (i < k_n s)%nat -> (j < k_n s)%nat -> kD s k i j = 0 /\ kE s k i j = 0 /\ kQ1 s k i j = 0 /\ kQ2 s k i j = 0;
  bl_D' : forall k i j, (k < k_N s)%nat -> (i < n)%nat -> (j < n)%nat -> kD s' k i j = 0 /\ kE s' k i j = 0 /\ kQ1 s' k i j = 0 /\ kQ2 s' k i j = 0
}.
Lemma klen_dyn s s' k : dyn_same s s' -> klen s' k = klen s k.
Proof. intros []. unfold klen. now rewrite dy_h0. Qed.
Lemma cdiag_dyn s s' : dyn_same s s' -> cdiag s -> cdiag s'.
Proof.
  intros [] C. pose proof (cd_h _ C) as X. split; [rewrite dy_n0; apply C|rewrite dy_N0; apply C|]. unfold klen in *.
  rewrite dy_n0, dy_N0, dy_h0. exact X.
Qed.
Lemma block_dyn s s' t t' : dyn_same s t -> dyn_same s' t' -> block s s' -> block t t'.
Proof.
  intros D D' []. pose proof (cdiag_dyn _ _ D bl_c0) as X. pose proof (cdiag_dyn _ _ D' bl_c'0) as X'.
  destruct D, D'. split; auto; unfold klen, kL, kR, kC, kG, kD, kE, kQ1, kQ2 in *; try congruence.
  - now rewrite dy_N0, dy_h0, dy_h1.
  - now rewrite dy_N0, dy_l0, dy_r0, dy_l1, dy_r1.
  - now rewrite dy_N0, dy_c0, dy_g0, dy_c1, dy_g1.
  - now rewrite dy_N0, dy_n0, dy_l0, dy_r0.
  - now rewrite dy_N0, dy_n0, dy_c0, dy_g0.
  - now rewrite dy_N0, dy_n0, dy_d0, dy_e0, dy_3, dy_4.
  - now rewrite dy_N0, dy_d1, dy_e1, dy_5, dy_6.
Qed.

Lemma kwidth_block s s' k : block s s' -> (k <= k_N s)%nat -> kwidth s k = kwidth s' k.
Proof.
  intros B Hk. pose proof (cd_N _ (bl_c _ _ B)). unfold kwidth. rewrite (bl_N _ _ B).
  destruct (Nat.eqb_spec k 0); [apply (bl_h _ _ B); lia|]. destruct (Nat.eqb_spec k (k_N s)); [apply (bl_h _ _ B); lia|].
  rewrite !(bl_h _ _ B) by lia. reflexivity.
Qed.

Definition agree (s s' : core NumR) : Prop := forall c k, (c < n)%nat ->
  ((k <= k_N s)%nat -> kv s (r0 + c) k = kv s' c k) /\ ((k < k_N s)%nat -> ki s (r0 + c) k = ki s' c k).
Definition same_fields (s s' : core NumR) : Prop := forall c k t, (c < n)%nat ->
  kLong s (r0 + c) k t = kLong s' c k t /\ kTran s (r0 + c) k t = kTran s' c k t.

Lemma block_volt s s' t dtn s1 s1' : block s s' -> both_cg s s' -> agree s s' -> same_fields s s' ->
  advance_voltage s (eval_fields (k_eL s) (k_eT s) t dtn) = Ok s1 ->
  advance_voltage s' (eval_fields (k_eL s') (k_eT s') t dtn) = Ok s1' -> agree s1 s1'.
Proof.
  intros B HC A F H H'.
  destruct HC as [[E _]|(d & R & R')]. { unfold advance_voltage in H. rewrite E in H. discriminate H. }
  destruct (advv_dyn _ _ _ H) as (D & Ei & _). destruct (advv_dyn _ _ _ H') as (D' & Ei' & _).
  intros c k Hc. rewrite (dy_N _ _ D). split; intros Hk.
  2:{ unfold ki. rewrite Ei, Ei'. apply A; auto. }
  pose proof (bl_in _ _ B) as Hin. pose proof (bl_n _ _ B) as En. pose proof (bl_N _ _ B) as EN.
  destruct (Nat.eq_dec k 0) as [K0|K0]; [|destruct (Nat.eq_dec k (k_N s)) as [K1|K1]].
  - rewrite (core_volt_end _ _ _ _ _ H) by (auto; lia). rewrite (core_volt_end _ _ _ _ _ H') by (auto; lia). apply A; auto.
  - rewrite (core_volt_end _ _ _ _ _ H) by (auto; lia). rewrite (core_volt_end _ _ _ _ _ H') by (auto; rewrite ?EN; lia). apply A; auto.
  - pose proof (advv_dt _ _ _ d H) as G. pose proof (advv_dt _ _ _ d H') as G'.
    assert (Cd : cdiag (set_dt s d)) by (destruct (bl_c _ _ B); split; auto).
    assert (Cd' : cdiag (set_dt s' d)) by (destruct (bl_c' _ _ B); split; auto).
    apply Rminus_diag_uniq. revert c Hc.
    pose (x := fun c => kv s1 (r0 + c) k - kv s1' c k).
    intros c Hc. change (x c = 0). revert c Hc. rewrite <- En.
    apply (volt_kernel LA LAok (set_dt s' d) k x Cd' R'); [cbn; lia|].
    cbn [set_dt k_n k_dt k_N]. rewrite En. intros c Hc.
    pose proof (core_volt LA LAok _ _ t dtn (r0 + c) k Cd R G) as P. cbn [set_dt k_n k_dt k_N k_eL k_eT] in P.
    specialize (P ltac:(lia) ltac:(lia) ltac:(lia)). cbv zeta in P.
    pose proof (core_volt LA LAok _ _ t dtn c k Cd' R' G') as P'. cbn [set_dt k_n k_dt k_N k_eL k_eT] in P'.
    specialize (P' ltac:(lia) ltac:(lia) ltac:(lia)). cbv zeta in P'.
    change (kwidth (set_dt s d) k) with (kwidth s k) in P. change (kwidth (set_dt s' d) k) with (kwidth s' k) in *.
    change (kC (set_dt s d)) with (kC s) in P. change (kG (set_dt s d)) with (kG s) in P.
    change (kC (set_dt s' d)) with (kC s') in *. change (kG (set_dt s' d)) with (kG s') in *.
    change (kv (set_dt s1 d)) with (kv s1) in P. change (kv (set_dt s d)) with (kv s) in P. change (ki (set_dt s d)) with (ki s) in P.
    change (kv (set_dt s1' d)) with (kv s1') in P'. change (kv (set_dt s' d)) with (kv s') in P'. change (ki (set_dt s' d)) with (ki s') in P'.
    change (kTran (set_dt s d)) with (kTran s) in P. change (kTran (set_dt s' d)) with (kTran s') in P'.
    rewrite En in P'.
    rewrite (sum_window _ r0 n) in P by (try exact Hin; intros p Hp Ho; destruct (bl_C0 _ _ B k c p ltac:(lia) Hc Hp Ho) as [-> _]; rring).
    rewrite (sum_window _ r0 n (fun p => kG s k (r0 + c) p * _)) in P
      by (try exact Hin; intros p Hp Ho; destruct (bl_C0 _ _ B k c p ltac:(lia) Hc Hp Ho) as [_ ->]; rring).
    rewrite (kwidth_block s s' k B ltac:(lia)) in P.
    destruct (A c k Hc) as [_ A2]. rewrite A2 in P by lia. destruct (A c (k - 1)%nat Hc) as [_ A3]. rewrite A3 in P by lia.
    rewrite (sumR_ext n (fun c0 => kC s k (r0 + c) (r0 + c0) * (kv s1 (r0 + c0) k - kv s (r0 + c0) k + (kTran s (r0 + c0) k t - kTran s (r0 + c0) k (t - dtn))))
      (fun p => kC s' k c p * (kv s1' p k - kv s' p k + (kTran s' p k t - kTran s' p k (t - dtn))) + kC s' k c p * x p)) in P.
    2:{ intros p Hp. destruct (bl_C _ _ B k c p ltac:(lia) Hc Hp) as [-> _]. destruct (A p k Hp) as [-> _]; [|lia].
        destruct (F p k t Hp) as [_ ->]. destruct (F p k (t - dtn) Hp) as [_ ->]. unfold x. rring. }
    rewrite (sumR_ext n (fun c0 => kG s k (r0 + c) (r0 + c0) * (kv s1 (r0 + c0) k + kv s (r0 + c0) k + (kTran s (r0 + c0) k t - kTran s (r0 + c0) k (t - dtn))))
      (fun p => kG s' k c p * (kv s1' p k + kv s' p k + (kTran s' p k t - kTran s' p k (t - dtn))) + kG s' k c p * x p)) in P.
    2:{ intros p Hp. destruct (bl_C _ _ B k c p ltac:(lia) Hc Hp) as [_ ->]. destruct (A p k Hp) as [-> _]; [|lia].
        destruct (F p k t Hp) as [_ ->]. destruct (F p k (t - dtn) Hp) as [_ ->]. unfold x. rring. }
    rewrite !sumR_plus in P. rsimpl. unfold Rdiv in *. lra.
Qed.

Lemma plain_curr s t dtn s1 d c k : cdiag s -> lr_ready LA (set_dt s d) ->
  (forall i j, (i < k_n s)%nat -> (j < k_n s)%nat -> kD s k i j = 0 /\ kE s k i j = 0 /\ kQ1 s k i j = 0 /\ kQ2 s k i j = 0) ->
  advance_current s (eval_fields (k_eL s) (k_eT s) t dtn) = Ok s1 -> (c < k_n s)%nat -> (k < k_N s)%nat -> kmem s1 k c = 0 ->
  klen s k * (sumR (k_n s) (fun p => kL s k c p * (ki s1 p k - ki s p k)) / d + sumR (k_n s) (fun p => kR s k c p * (ki s1 p k + ki s p k)) / 2)
  + (kv s c (S k) - kv s c k) + (kTran s c (S k) t - kTran s c k t) = klen s k * (kLong s c k (t + dtn / 2) + kLong s c k (t - dtn / 2)) / 2.
Proof.
  intros Cd R Z H Hc Hk M. pose proof (advi_dt _ _ _ d H) as G.
  assert (Cd' : cdiag (set_dt s d)) by (destruct Cd; split; auto).
  pose proof (core_curr LA LAok _ _ t dtn c k Cd' R G) as P. cbn [set_dt k_n k_dt k_N k_eL k_eT] in P.
  specialize (P Hc Hk). cbv zeta in P.
  change (klen (set_dt s d) k) with (klen s k) in P. change (kL (set_dt s d)) with (kL s) in P. change (kR (set_dt s d)) with (kR s) in P.
  change (kD (set_dt s d)) with (kD s) in P. change (kE (set_dt s d)) with (kE s) in P. change (kQ1 (set_dt s d)) with (kQ1 s) in P. change (kQ2 (set_dt s d)) with (kQ2 s) in P.
  change (ki (set_dt s1 d)) with (ki s1) in P. change (kv (set_dt s d)) with (kv s) in P. change (ki (set_dt s d)) with (ki s) in P.
  change (kTran (set_dt s d)) with (kTran s) in P. change (kLong (set_dt s d)) with (kLong s) in P. change (kmem (set_dt s1 d)) with (kmem s1) in P.
  rewrite M in P.
  rewrite (sumR_zero _ (fun p => kD s k c p * _)) in P by (intros p Hp; destruct (Z c p Hc Hp) as (-> & _); rring).
  rewrite (sumR_zero _ (fun p => kE s k c p * _)) in P by (intros p Hp; destruct (Z c p Hc Hp) as (_ & -> & _); rring).
  rewrite (sumR_zero _ (fun p => kQ1 s k c p * _)) in P by (intros p Hp; destruct (Z c p Hc Hp) as (_ & _ & -> & _); rring).
  rewrite (sumR_zero _ (fun p => kQ2 s k c p * _)) in P by (intros p Hp; destruct (Z c p Hc Hp) as (_ & _ & _ & ->); rring).
  rsimpl. unfold Rdiv in *. lra.
Qed.

Lemma block_curr s s' t dtn s1 s1' : block s s' -> both_lr s s' -> agree s s' -> same_fields s s' ->
  advance_current s (eval_fields (k_eL s) (k_eT s) t dtn) = Ok s1 ->
  advance_current s' (eval_fields (k_eL s') (k_eT s') t dtn) = Ok s1' ->
  (forall k c, (k < k_N s)%nat -> (c < k_n s)%nat -> kmem s1 k c = 0) ->
  (forall k c, (k < k_N s')%nat -> (c < k_n s')%nat -> kmem s1' k c = 0) ->
  agree s1 s1'.
Proof.
  intros B HC A F H H' M M'.
  destruct HC as [[E _]|(d & R & R')]. { unfold advance_current in H. inv_bind H. rewrite E in H. discriminate H. }
  destruct (advi_dyn _ _ _ H) as (D & Ei & _). destruct (advi_dyn _ _ _ H') as (D' & Ei' & _).
  intros c k Hc. rewrite (dy_N _ _ D). split; intros Hk.
  { unfold kv. rewrite Ei, Ei'. apply A; auto. }
  pose proof (bl_in _ _ B) as Hin. pose proof (bl_n _ _ B) as En. pose proof (bl_N _ _ B) as EN.
  assert (Cd' : cdiag (set_dt s' d)) by (destruct (bl_c' _ _ B); split; auto).
  apply Rminus_diag_uniq. revert c Hc.
  pose (x := fun c => ki s1 (r0 + c) k - ki s1' c k).
  intros c Hc. change (x c = 0). revert c Hc. rewrite <- En.
  apply (curr_kernel LA LAok (set_dt s' d) k x Cd' R'); [cbn; lia|].
  cbn [set_dt k_n k_dt k_N]. rewrite En. intros c Hc.
  change (klen (set_dt s' d) k) with (klen s' k). change (kL (set_dt s' d)) with (kL s'). change (kR (set_dt s' d)) with (kR s').
  change (kD (set_dt s' d)) with (kD s'). change (kE (set_dt s' d)) with (kE s'). change (kQ1 (set_dt s' d)) with (kQ1 s').
  rewrite (sumR_zero _ (fun p => kD s' k c p * _)) by (intros p Hp; destruct (bl_D' _ _ B k c p Hk Hc Hp) as (-> & _); rring).
  rewrite (sumR_zero _ (fun p => kE s' k c p * _)) by (intros p Hp; destruct (bl_D' _ _ B k c p Hk Hc Hp) as (_ & -> & _); rring).
  rewrite (sumR_zero _ (fun p => kQ1 s' k c p * _)) by (intros p Hp; destruct (bl_D' _ _ B k c p Hk Hc Hp) as (_ & _ & -> & _); rring).
  pose proof (plain_curr s t dtn s1 d (r0 + c) k (bl_c _ _ B) R (fun i j => bl_D _ _ B k i j Hk) H ltac:(lia) Hk (M k (r0 + c)%nat Hk ltac:(lia))) as P.
  pose proof (plain_curr s' t dtn s1' d c k (bl_c' _ _ B) R') as P'. rewrite En in P'. rewrite EN in P'.
  specialize (P' (fun i j => bl_D' _ _ B k i j Hk) H' Hc Hk (M' k c ltac:(lia) ltac:(lia))).
  rewrite (sum_window _ r0 n) in P by (try exact Hin; intros p Hp Ho; destruct (bl_L0 _ _ B k c p ltac:(lia) Hc Hp Ho) as [-> _]; rring).
  rewrite (sum_window _ r0 n (fun p => kR s k (r0 + c) p * _)) in P
    by (try exact Hin; intros p Hp Ho; destruct (bl_L0 _ _ B k c p ltac:(lia) Hc Hp Ho) as [_ ->]; rring).
  rewrite (bl_h _ _ B k Hk) in P.
  destruct (A c k Hc) as [A1 _]. rewrite A1 in P by lia. destruct (A c (S k) Hc) as [A2 _]. rewrite A2 in P by lia.
  destruct (F c k t Hc) as [_ F1]. rewrite F1 in P. destruct (F c (S k) t Hc) as [_ F2]. rewrite F2 in P.
  destruct (F c k (t + dtn / 2) Hc) as [F3 _]. rewrite F3 in P. destruct (F c k (t - dtn / 2) Hc) as [F4 _]. rewrite F4 in P.
  rewrite (sumR_ext n (fun c0 => kL s k (r0 + c) (r0 + c0) * (ki s1 (r0 + c0) k - ki s (r0 + c0) k))
    (fun p => kL s' k c p * (ki s1' p k - ki s' p k) + kL s' k c p * x p)) in P.
  2:{ intros p Hp. destruct (bl_L _ _ B k c p Hk Hc Hp) as [-> _]. destruct (A p k Hp) as [_ ->]; [|lia]. unfold x. rring. }
  rewrite (sumR_ext n (fun c0 => kR s k (r0 + c) (r0 + c0) * (ki s1 (r0 + c0) k + ki s (r0 + c0) k))
    (fun p => kR s' k c p * (ki s1' p k + ki s' p k) + kR s' k c p * x p)) in P.
  2:{ intros p Hp. destruct (bl_L _ _ B k c p Hk Hc Hp) as [_ ->]. destruct (A p k Hp) as [_ ->]; [|lia]. unfold x. rring. }
  rewrite !sumR_plus in P. rsimpl. unfold Rdiv in *. lra.
Qed.
End Alone.
