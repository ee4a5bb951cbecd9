(** The region edits of a bundle succeed when the edited matrices stay positive semidefinite; examples. *)
From Coq Require Import String List Arith ZArith Bool Lia Reals Lra.
From Verif Require Import Num Py Arr ArrFacts NumR RFacts LinAlg LapackR Utils Probes Dispersive Line LineFacts Bundle Networks Mtln SpecLine SpecBundle SpecGeom SpecCore SpecTele SpecR SpecRegion
  HistoryFacts TotalFacts NearestFacts BundleFacts BundleR BundleMore CoreEq MtlnR MtlnTotal WaveProps GeomProps GeomProps2 GeomProps3 GeomProps4 GeomProps5 ExampleLine ExampleRun ExampleBundle BundleRegion.
Import ListNotations.
Local Open Scope R_scope.

Section A.
Variable LA : lapack NumR.
Hypothesis LAC : lapack_complete LA.

Lemma py_get_ok (l : list (vec NumR)) k : (k < length l)%nat -> py_get l k = Ok (nth k l []).
Proof. intros H. unfold py_get. destruct (nth_error l k) eqn:E; [|apply nth_error_None in E; lia]. now rewrite (nth_error_nth _ _ _ E). Qed.

Lemma bundle_resistance_ok (b : bundle NumR) (p q : posarg NumR) c (x : R) k1 k2 : reachable_bundle LA b -> physical_bundle b ->
  closest (b_u b) (pos_vec p) k1 -> closest (b_u b) (pos_vec q) k2 -> assert_ge q p = Ok tt ->
  (c < b_conductors b)%nat -> (k1 + c <= k2)%nat -> (k1 + c < b_cells b)%nat ->
  (forall k, (k < b_cells b)%nat -> pos_def (b_conductors b) (fun i j => kL (b_core b) k i j / k_dt (b_core b) +
     (if (k =? k1 + c)%nat && (i =? c)%nat then x / bundle_region_len b k1 k2 else kR (b_core b) k i j) / 2)) ->
  exists b', bundle_set_resistance LA b p q c x = Ok b'.
Proof.
  intros HR P C1 C2 HA Hc H12 HN HS. pose proof HR as [b0 HH]. destruct (history_bfull _ _ _ HH) as [[F1 F2] _ Lu Ld].
  unfold bundle_set_resistance. rewrite HA. cbn [bind]. rewrite (closest_nearest _ _ _ C1), (closest_nearest _ _ _ C2).
  assert (E : exists y, (if negb (k1 =? k2)%nat then Ok (@ndiv NumR x (vnorm (vsub (nth k2 (b_u b) []) (nth k1 (b_u b) []))))
     else bind (py_get (b_du b) k1) (fun du => Ok (@ndiv NumR x (vnorm du)))) = Ok y /\ y = x / bundle_region_len b k1 k2).
  { unfold bundle_region_len. destruct (Nat.eqb_spec k1 k2) as [E|E]; cbn [negb].
    - rewrite py_get_ok by (rewrite Ld; lia). cbn [bind]. eexists. split; [reflexivity|]. apply (f_equal (Rdiv x)), norm3_vnorm.
    - eexists. split; [reflexivity|]. apply (f_equal (Rdiv x)), vsub_dist. }
  destruct E as (y & E & Ey). rewrite E. cbn [bind]. unfold region_assign. rewrite F1. fold (b_conductors b).
  replace (c <? Nat.min (S k2) (b_cells b) - k1)%nat with true by (symmetry; apply Nat.ltb_lt; lia).
  replace (c <? b_conductors b)%nat with true by (symmetry; apply Nat.ltb_lt; lia). cbn [andb bind].
  set (r' := lset _ _ _). destruct (update_lr_total LA LAC (set_r (b_core b) r')) as [s' Es]; [|rewrite Es; cbn [bind]; eauto].
  intros k Hk. change (k_N (set_r (b_core b) r')) with (b_cells b) in Hk. change (k_n (set_r (b_core b) r')) with (b_conductors b).
  assert (Cd : cdiag (set_r (b_core b) r')).
  { destruct (bundle_cdiag LA b HR). split; auto. }
  apply pd_ext with (A := fun i j => klen (b_core b) k * (kL (b_core b) k i j / k_dt (b_core b) +
    (if (k =? k1 + c)%nat && (i =? c)%nat then x / bundle_region_len b k1 k2 else kR (b_core b) k i j) / 2)).
  - intros i j Hi Hj. rewrite c_lr_F1 by auto. unfold kL, kR, kD, kE, kQ1, klen. cbn [set_r k_h k_l k_r k_dt k_disp].
    destruct (pb_D _ P k i j) as (D1 & D2 & D3). unfold kD, kE, kQ1 in D1, D2, D3. rewrite D1, D2, D3.
    unfold r'. rewrite set_row; [|rewrite F1; lia|rewrite F2 by lia; exact Hc|exact Hj]. rewrite Ey.
    destruct ((k =? k1 + c)%nat && (i =? c)%nat); unfold Rdiv; rewrite ?Rmult_0_l; rring.
  - apply pd_scal; [exact (pb_len _ P k Hk)|]. exact (HS k Hk).
Qed.
Lemma kwidth_pos (b : bundle NumR) : physical_bundle b -> (1 <= b_cells b)%nat -> forall k, (k <= b_cells b)%nat -> 0 < kwidth (b_core b) k.
Proof.
  intros P HN k Hk. pose proof (pb_len _ P) as H. unfold kwidth. unfold b_cells in *. destruct (Nat.eqb_spec k 0); [apply H; lia|].
  destruct (Nat.eqb_spec k (k_N (b_core b))); [apply H; lia|]. pose proof (H k ltac:(lia)). pose proof (H (k - 1)%nat ltac:(lia)). lra.
Qed.
Lemma bundle_conductance_ok (b : bundle NumR) (p q : posarg NumR) c (x : R) k1 k2 : reachable_bundle LA b -> physical_bundle b ->
  closest (b_u b) (pos_vec p) k1 -> closest (b_u b) (pos_vec q) k2 -> assert_ge q p = Ok tt ->
  (c < b_conductors b)%nat -> (k1 + c <= k2)%nat -> (k1 = k2 -> (k1 < b_cells b)%nat) ->
  (forall k, (k <= b_cells b)%nat -> pos_def (b_conductors b) (fun i j => kC (b_core b) k i j / k_dt (b_core b) +
     (if (k =? k1 + c)%nat && (i =? c)%nat then x / bundle_region_len b k1 k2 else kG (b_core b) k i j) / 2)) ->
  exists b', bundle_add_conductance LA b p q c x = Ok b'.
Proof.
  intros HR P C1 C2 HA Hc H12 HN HS. pose proof HR as [b0 HH]. destruct (history_bfull _ _ _ HH) as [_ [F1 F2] Lu Ld].
  assert (B2 : (k2 < S (b_cells b))%nat) by (rewrite <- Lu; exact (proj1 C2)).
  unfold bundle_add_conductance. rewrite HA. cbn [bind]. rewrite (closest_nearest _ _ _ C1), (closest_nearest _ _ _ C2).
  assert (E : exists y, (if negb (k1 =? k2)%nat then Ok (@ndiv NumR x (vnorm (vsub (nth k2 (b_u b) []) (nth k1 (b_u b) []))))
     else bind (py_get (b_du b) k1) (fun du => Ok (@ndiv NumR x (vnorm du)))) = Ok y /\ y = x / bundle_region_len b k1 k2).
  { unfold bundle_region_len. destruct (Nat.eqb_spec k1 k2) as [E|E]; cbn [negb].
    - rewrite py_get_ok by (rewrite Ld; auto). cbn [bind]. eexists. split; [reflexivity|]. apply (f_equal (Rdiv x)), norm3_vnorm.
    - eexists. split; [reflexivity|]. apply (f_equal (Rdiv x)), vsub_dist. }
  destruct E as (y & E & Ey). rewrite E. cbn [bind]. unfold region_assign. rewrite F1. fold (b_conductors b).
  replace (c <? Nat.min (S k2) (S (b_cells b)) - k1)%nat with true by (symmetry; apply Nat.ltb_lt; lia).
  replace (c <? b_conductors b)%nat with true by (symmetry; apply Nat.ltb_lt; lia). cbn [andb bind].
  set (r' := lset _ _ _). destruct (update_cg_total LA LAC (set_g (b_core b) r')) as [s' Es]; [|rewrite Es; cbn [bind]; eauto].
  intros k Hk. change (k_N (set_g (b_core b) r')) with (b_cells b) in Hk. change (k_n (set_g (b_core b) r')) with (b_conductors b).
  assert (Cd : cdiag (set_g (b_core b) r')).
  { destruct (bundle_cdiag LA b HR). split; auto. }
  apply pd_ext with (A := fun i j => kwidth (b_core b) k * (kC (b_core b) k i j / k_dt (b_core b) +
    (if (k =? k1 + c)%nat && (i =? c)%nat then x / bundle_region_len b k1 k2 else kG (b_core b) k i j) / 2)).
  - intros i j Hi Hj. rewrite c_cg_F1 by auto. unfold kC, kG, kwidth, klen. cbn [set_g k_h k_c k_g k_dt k_N].
    unfold r'. rewrite set_row; [|rewrite F1; lia|rewrite F2 by lia; exact Hc|exact Hj]. rewrite Ey.
    destruct ((k =? k1 + c)%nat && (i =? c)%nat); unfold Rdiv; rring.
  - apply pd_scal; [apply (kwidth_pos b P ltac:(lia) k Hk)|]. exact (HS k Hk).
Qed.
End A.

Lemma pd_two (A : nat -> nat -> R) : (forall x y : R, x <> 0 \/ y <> 0 -> 0 < x * (A 0%nat 0%nat * x + A 0%nat 1%nat * y) + y * (A 1%nat 0%nat * x + A 1%nat 1%nat * y)) -> pos_def 2 A.
Proof.
  intros H x (i & Hi & Hx). rewrite quad2. apply H. assert (i = 0 \/ i = 1)%nat as [-> | ->] by lia; auto.
Qed.
Lemma sq_pos (x y : R) : x <> 0 \/ y <> 0 -> 0 < x * x + y * y.
Proof. intros [H|H]; pose proof (Rle_0_sqr x); pose proof (Rle_0_sqr y); pose proof (Rlt_0_sqr _ H); unfold Rsqr in *; lra. Qed.
Lemma region_example : exists (m : mtl NumR) (b b1 b2 : bundle NumR), mtld_new [[m]; [m]] "b"%string = Ok b /\ reachable_bundle LR b /\
  closest (b_u b) [0; 0; 0] 0 /\ closest (b_u b) [0; 0; 2] 2 /\ bundle_region_len b 0 2 = 2 /\ b_cells b = 3%nat /\
  bundle_set_resistance LR b (@PosF NumR 0) (@PosF NumR 2) 1 2 = Ok b1 /\ kR (b_core b1) 1 1 0 = 1 /\ kR (b_core b1) 0 1 1 = 0 /\
  bundle_add_conductance LR b (@PosF NumR 0) (@PosF NumR 2) 1 (1 / 2) = Ok b2 /\ kG (b_core b2) 1 1 0 = 1 / 4 /\ kG (b_core b2) 0 1 1 = 0.
Proof.
  destruct pair_exists as (m & b & P). destruct (pair_reach _ _ P) as (_ & RB & _). exists m, b.
  pose proof (new_physical LR [[m]; [m]] _ _ ltac:(repeat constructor; exists m; constructor; apply (pr_built _ _ P))
    (Forall_cons [m] (Forall_cons m (pr_phys _ _ P) (Forall_nil physical)) (Forall_cons [m] (Forall_cons m (pr_phys _ _ P) (Forall_nil physical)) (Forall_nil (Forall physical)))) (pr_new _ _ P)) as PB.
  destruct (mtld_new_inv _ _ _ (pr_new _ _ P)) as (o & r & Eo & _ & _ & _ & _ & Eu & _). injection Eo as <- <-.
  assert (U : b_u b = [[0; 0; 0]; [0; 0; 1]; [0; 0; 2]; [0; 0; 3]]).
  { rewrite Eu. exact (pr_u _ _ P). }
  assert (C0 : closest (b_u b) (pos_vec (@PosF NumR 0)) 0). { rewrite U. exact (ex_closest 0 ltac:(lia)). }
  assert (C2 : closest (b_u b) (pos_vec (@PosF NumR 2)) 2). { rewrite U. pose proof (ex_closest 2 ltac:(lia)) as H. replace (INR 2) with 2 in H by (cbn; ring). exact H. }
  assert (Ln : bundle_region_len b 0 2 = 2).
  { unfold bundle_region_len. rewrite U. cbn [Nat.eqb nth]. unfold dist3. cbn [nth]. replace ((0 - 0) ^ 2 + (0 - 0) ^ 2 + (2 - 0) ^ 2) with (2 * 2) by ring. apply sqrt_square. lra. }
  assert (A : assert_ge (@PosF NumR 2) (@PosF NumR 0) = Ok tt).
  { cbn [assert_ge]. replace (@nleb NumR 0 2) with true by (symmetry; apply Rleb_true; lra). reflexivity. }
  pose proof (pr_n _ _ P) as En. pose proof (pr_N _ _ P) as EN. pose proof (pr_dt _ _ P) as Dt.
  destruct (bundle_resistance_ok LR LR_complete b (@PosF NumR 0) (@PosF NumR 2) 1 2 0 2 RB PB C0 C2 A) as [b1 E1]; try lia.
  { intros k Hk. rewrite EN in Hk. rewrite En, Dt, Ln. apply pd_two. intros y0 y1 Hy. apply sq_pos in Hy.
    rewrite !(fun i j Hi Hj => proj1 (pr_L _ _ P k i j Hk Hi Hj)), !(fun i j Hi Hj => proj2 (pr_L _ _ P k i j Hk Hi Hj)) by lia. unfold delta.
    destruct (k =? 0 + 1)%nat; cbn [Nat.eqb andb]; rsimpl; nra. }
  destruct (bundle_conductance_ok LR LR_complete b (@PosF NumR 0) (@PosF NumR 2) 1 (1/2) 0 2 RB PB C0 C2 A) as [b2 E2]; try lia.
  { intros k Hk. rewrite EN in Hk. rewrite En, Dt, Ln. apply pd_two. intros y0 y1 Hy. apply sq_pos in Hy.
    rewrite !(fun i j Hi Hj => proj1 (pr_C _ _ P k i j Hk Hi Hj)), !(fun i j Hi Hj => proj2 (pr_C _ _ P k i j Hk Hi Hj)) by lia. unfold delta.
    destruct (k =? 0 + 1)%nat; cbn [Nat.eqb andb]; rsimpl; nra. }
  exists b1, b2. split; [exact (pr_new _ _ P)|]. split; [exact RB|]. split; [exact C0|]. split; [exact C2|]. split; [exact Ln|]. split; [exact EN|].
  split; [exact E1|]. destruct (bundle_resistance LR b b1 _ _ _ _ _ _ RB C0 C2 E1) as (_ & _ & _ & _ & _ & V1).
  destruct (bundle_conductance LR b b2 _ _ _ _ _ _ RB C0 C2 E2) as (_ & _ & _ & _ & V2).
  unfold kR, kG. rewrite !V1, !V2 by lia. cbn [Nat.eqb Nat.add andb]. rewrite Ln.
  split; [lra|]. split; [exact (proj2 (pr_L _ _ P 0%nat 1%nat 1%nat ltac:(lia) ltac:(lia) ltac:(lia)))|]. split; [exact E2|].
  split; [lra|]. exact (proj2 (pr_C _ _ P 0%nat 1%nat 1%nat ltac:(lia) ltac:(lia) ltac:(lia))).
Qed.
