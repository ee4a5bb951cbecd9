(** Proofs for PropGeom.v, last part: examples and small consequences. *)
From Coq Require Import String List Arith ZArith Bool Lia QArith Reals Lra.
From Verif Require Import Num Py Arr ArrFacts NumR RFacts LapackR Utils Probes Dispersive Line LineFacts SpecLine SpecGeom SpecR
  HistoryFacts GeometryFacts PlainFacts TotalFacts NewTotal NearestFacts ProbeFacts Bundle WaveProps GeomProps GeomProps2 GeomProps3
  GeomProps4 ExampleLine ExampleRun NumQ LapackQ ExampleQ.
Import ListNotations.
Local Open Scope R_scope.

Lemma new_rest {N : num} (LA : lapack N) ju jdu l c r g len np ndiv zs zl name m :
  mtl_new LA ju jdu l c r g len np ndiv zs zl name = Ok m -> at_rest m.
Proof.
  intros H. unfold mtl_new in H.
  inv_bind H. destruct a as [[l' c'] n]. inv_bind H. destruct a as [r' g'].
  inv_bind H. destruct a as [zs' zl']. inv_bind H. destruct a as [[u du] h].
  inv_bind H. rename a into dt. inv_bind H. destruct a as [lp1 lp2]. inv_bind H. destruct a as [rp1 rp2].
  injection H as <-. cbn. repeat split.
Qed.

Definition test_3_2 (ju jdu : nat -> vec NumQ) :=
  mtl_new LQ ju jdu (@PFloat NumQ 1%Q) (@PFloat NumQ 1%Q) (@PFloat NumQ 0%Q) (@PFloat NumQ 0%Q) (1%Q : NumQ)
    [[0; 0; 0]; [0; 0; 1]; [0; 0; 2]]%Q [3; 2]%nat (@ZScal NumQ 1%Q) (@ZScal NumQ 1%Q) "u".
Definition seen_3_2 (r : res (mtl NumQ)) : option (vec NumQ * vec NumQ * NumQ) :=
  match r with Ok m => Some (nth 2 (m_u m) [], nth 4 (m_u m) [], cell_len m 4) | Err _ => None end.
Lemma computed_3_2 ju jdu : seen_3_2 (test_3_2 ju jdu) = Some ([0; 0; 1]%Q, ju 4%nat, 0%Q).
Proof. vm_compute. reflexivity. Qed.
Local Opaque mtl_new.
Lemma geometry_3_2 (ju jdu : nat -> vec NumQ) : exists m : mtl NumQ, test_3_2 ju jdu = Ok m /\
  nth 2 (m_u m) [] = [0; 0; 1]%Q /\ nth 4 (m_u m) [] = ju 4%nat /\ cell_len m 4 = 0%Q.
Proof.
  pose proof (computed_3_2 ju jdu) as H. destruct (test_3_2 ju jdu) as [m|e]; [|discriminate H].
  unfold seen_3_2 in H. injection H as H1 H2 H3. exists m. auto.
Qed.
Local Transparent mtl_new.

Lemma list_ge_refl (v : list R) : @list_ge NumR v v = true.
Proof. induction v; cbn; auto. destruct (Reqb_spec a a); [auto|congruence]. Qed.

Lemma point_others LA (m : mtl NumR) (p : posarg NumR) c (x : R) : reachable LA m -> (1 <= c)%nat ->
  exists e, set_resistance_at_point LA m p c x = Err e /\ (e = IndexError \/ exists v, p = PosA v).
Proof.
  intros Rm Hc. destruct p as [z|v|v].
  - exists IndexError. split; [|now left].
    assert (Hu : m_u m <> []). { intros E. pose proof (sh_u _ (reachable_shape _ _ Rm)) as H. rewrite E in H. discriminate H. }
    pose proof (nearest_closest (m_u m) (pos_vec (@PosF NumR z)) Hu) as Hk.
    eapply resistance_raises; eauto; [cbn; destruct (Rleb_spec z z); [auto|lra]|lia].
  - exists IndexError. split; [|now left].
    assert (Hu : m_u m <> []). { intros E. pose proof (sh_u _ (reachable_shape _ _ Rm)) as H. rewrite E in H. discriminate H. }
    pose proof (nearest_closest (m_u m) (pos_vec (@PosL NumR v)) Hu) as Hk.
    eapply resistance_raises; eauto; [cbn; rewrite list_ge_refl; auto|lia].
  - exists ValueError. split; [reflexivity|]. right. eauto.
Qed.

Lemma bd_lines_size {N : num} (sel : mtl N -> mat N) lines : fst (bd_lines sel lines) = count_conductors lines.
Proof.
  unfold bd_lines, count_conductors. change 0%nat with (fst (0%nat, @nil (vec N))) at 2.
  generalize (0%nat, @nil (vec N)). induction lines as [|m lines IH]; intros [a A]; [reflexivity|]. cbn [fold_left]. rewrite IH. reflexivity.
Qed.
Lemma bd_lines_length {N : num} (sel : mtl N -> mat N) lines : length (snd (bd_lines sel lines)) = count_conductors lines.
Proof.
  unfold bd_lines, count_conductors.
  assert (H : forall acc : nat * mat N, length (snd acc) = fst acc ->
    length (snd (fold_left (fun acc m => let n := k_n (m_core m) in ((fst acc + n)%nat, block_diag (fst acc) (snd acc) n (sel m))) lines acc))
    = fold_left (fun n m => (n + k_n (m_core m))%nat) lines (fst acc)).
  { induction lines as [|m lines IH]; intros acc Ha; [exact Ha|]. cbn [fold_left]. rewrite IH; [reflexivity|].
    cbn [fst snd]. unfold block_diag, mk2. apply length_mk. }
  apply (H (0%nat, [])). reflexivity.
Qed.
Lemma new_bundle_full levels name (b : bundle NumR) : mtld_new levels name = Ok b -> b_u b <> [] ->
  full (k_n (b_core b)) (length (b_u b)) (k_g (b_core b)).
Proof.
  unfold mtld_new. destruct levels as [|[|outer [|]] rest]; try discriminate. intros H Hu. inv_bind H. injection H as <-.
  cbn [b_core k_n k_g b_u] in *. assert (L : (1 <= @length (list R) (m_u outer))%nat) by (destruct (m_u outer); [contradiction|cbn; lia]).
  assert (E : S (@length (list R) (m_u outer) - 1) = @length (list R) (m_u outer)) by lia.
  split.
  - rewrite length_mk. exact E.
  - intros k Hk. rewrite getm_mk; [|exact (eq_ind_r (fun q => (k < q)%nat) Hk E)]. apply bd_lines_length.
Qed.
Lemma new_bundle_conductance LA levels name (b b' : bundle NumR) (p q : posarg NumR) c (x : R) k1 k2 :
  mtld_new levels name = Ok b ->
  closest (b_u b) (pos_vec p) k1 -> closest (b_u b) (pos_vec q) k2 ->
  bundle_add_conductance LA b p q c x = Ok b' ->
  (c < k_n (b_core b))%nat /\ (k1 + c <= k2)%nat /\
  forall k i j, (j < k_n (b_core b))%nat -> get3 (k_g (b_core b')) k i j =
    if (k =? k1 + c)%nat && (i =? c)%nat
    then x / (if (k1 =? k2)%nat then norm3 (nth k1 (b_du b) []) else dist3 (nth k2 (b_u b) []) (nth k1 (b_u b) []))
    else get3 (k_g (b_core b)) k i j.
Proof.
  intros Hb H1 H2. apply bundle_conductance_effect; auto. eapply new_bundle_full; eauto.
  intros E. destruct H1 as [H1 _]. rewrite E in H1. inversion H1.
Qed.

(** the example line, edited *)
Lemma ex_closest k : (k <= 3)%nat ->
  closest [[0; 0; 0]; [0; 0; 1]; [0; 0; 2]; [0; 0; 3]] [0; 0; INR k] k.
Proof.
  intros Hk. set (u := [[0; 0; 0]; [0; 0; 1]; [0; 0; 2]; [0; 0; 3]]).
  assert (N0 : u <> []) by discriminate. pose proof (nearest_closest u [0; 0; INR k] N0) as H.
  replace [0; 0; INR k] with [0; 0; INR k * 1] in H by (f_equal; f_equal; f_equal; ring).
  assert (E : @nearest NumR u [0; 0; INR k * 1] = k).
  { apply (nearest_z u 3 1 k); auto.
    intros j Hj. subst u. do 4 (destruct j as [|j]; [cbn; f_equal; f_equal; f_equal; ring|]). lia. }
  rewrite E in H. replace [0; 0; INR k] with [0; 0; INR k * 1] by (f_equal; f_equal; f_equal; ring). exact H.
Qed.
Lemma physical_r (m : mtl NumR) (r : ten NumR) : physical m -> length r = cells m ->
  (forall k, (k < cells m)%nat -> pos_semidef (conductors m) (get2 (getm r k))) -> physical (m_set_core m (set_r (m_core m) r)).
Proof. intros P Hl H. destruct P as [Sh]. split; auto. destruct Sh. split; auto. Qed.
Lemma physical_g (m : mtl NumR) (g : ten NumR) : physical m -> length g = S (cells m) ->
  (forall k, (k <= cells m)%nat -> pos_semidef (conductors m) (get2 (getm g k))) -> physical (m_set_core m (set_g (m_core m) g)).
Proof. intros P Hl H. destruct P as [Sh]. split; auto. destruct Sh. split; auto. Qed.

Lemma resistance_example : exists (m m' : mtl NumR), reachable LR m /\ closest (m_u m) [0; 0; 1] 1 /\ closest (m_u m) [0; 0; 3] 3 /\
  set_resistance_in_region LR m (@PosF NumR 1) (@PosF NumR 3) 1 2 = Ok m'.
Proof.
  destruct (ex_new_ok (fun _ => []) (fun _ => [])) as (m & Hm & P & Hn & HN & Hh & HLR & _ & _ & Hu).
  assert (B : built LR m) by (unfold ex_new in Hm; repeat eexists; exact Hm).
  assert (R0 : reachable LR m) by (exists m; now constructor).
  assert (C1 : closest (m_u m) [0; 0; 1] 1). { rewrite Hu. exact (ex_closest 1 ltac:(lia)). }
  assert (C3 : closest (m_u m) [0; 0; 3] 3). { rewrite Hu. pose proof (ex_closest 3 (le_n 3)) as H. replace (INR 3) with 3 in H by (cbn; ring). exact H. }
  destruct (history_full LR m m) as [[F1 F2] _]; [now constructor|].
  unfold cells in *. unfold conductors in *.
  assert (E : exists m', set_resistance_in_region LR m (@PosF NumR 1) (@PosF NumR 3) 1 2 = Ok m').
  { unfold set_resistance_in_region. cbn [assert_ge]. replace (@nleb NumR 1 3) with true by (symmetry; apply Rleb_true; lra).
    cbn [passert bind].
    rewrite (closest_nearest _ _ _ C1 : @nearest NumR (m_u m) (pos_vec (@PosF NumR 1)) = 1%nat).
    rewrite (closest_nearest _ _ _ C3 : @nearest NumR (m_u m) (pos_vec (@PosF NumR 3)) = 3%nat).
    rewrite HN. cbn [Nat.eqb negb Nat.sub]. unfold region_assign. rewrite F1, HN, Hn. cbn [Nat.min Nat.sub Nat.ltb Nat.leb andb bind Nat.add].
    set (x := @ndiv NumR 2 _). assert (Hx : x = 2).
    { unfold x. rewrite Hu. cbn [nth]. rewrite vsub_dist. unfold dist3. cbn [nth].
      replace ((0 - 0) ^ 2 + (0 - 0) ^ 2 + (2 - 1) ^ 2) with 1 by ring. rewrite sqrt_1. rsimpl. field. }
    rewrite Hx. clear x Hx.
    set (r' := lset _ _ _).
    assert (P' : physical (m_set_core m (set_r (m_core m) r'))).
    { apply physical_r; auto.
      - unfold r'. rewrite length_lset. exact F1.
      - intros k Hk. unfold conductors, cells in *. rewrite HN in Hk. rewrite Hn.
        assert (G : forall i j, (j < 2)%nat -> get3 r' k i j = if (k =? 2)%nat && (i =? 1)%nat then 2 else R_ m k i j).
        { intros i j Hj. unfold r'. rewrite (set_row 2 (k_r (m_core m)) 2 1 2 k i j); auto; [rewrite F1; lia|].
          rewrite F2 by lia. rewrite Hn. lia. }
        intros y. rewrite quad2. change (get2 (getm r' k)) with (get3 r' k). rewrite !G by lia.
        rewrite !(fun i j => proj2 (HLR k i j Hk)). unfold exR, get2, get. cbn [nth].
        pose proof (Rle_0_sqr (y 0%nat)). pose proof (Rle_0_sqr (y 1%nat)). pose proof (Rle_0_sqr (y 0%nat + y 1%nat)). unfold Rsqr in *.
        destruct (k =? 2)%nat; cbn [Nat.eqb andb nth]; rsimpl; lra. }
    destruct (update_lr_total LR LR_complete (set_r (m_core m) r') (physical_lr _ P')) as [s' ->]. cbn [bind]. eauto. }
  destruct E as [m' E]. exists m, m'. auto.
Qed.

Lemma conductance_example : exists (m m' : mtl NumR), reachable LR m /\ coord (nth 0 (m_u m) []) 0 = 0 /\
  add_conductance_in_region LR m (@PosF NumR 2) (@PosF NumR 2) 0 2 = Ok m' /\ G_ m' 0 0 0 = 2 /\ G_ m' 2 0 0 = G_ m 2 0 0.
Proof.
  destruct (ex_new_ok (fun _ => []) (fun _ => [])) as (m & Hm & P & Hn & HN & Hh & _ & HCG & _ & Hu).
  assert (B : built LR m) by (unfold ex_new in Hm; repeat eexists; exact Hm).
  assert (R0 : reachable LR m) by (exists m; now constructor).
  unfold ex_new in Hm. pose proof (equal_divisions LR _ _ _ _ _ _ _ _ 3 1 _ _ _ m Hm) as (_ & _ & _ & Ldu & Hc & _).
  destruct (history_full LR m m) as [_ [F1 F2]]; [now constructor|].
  assert (Z0 : coord (nth 0 (m_u m) []) 0 = 0) by (rewrite Hu; reflexivity).
  assert (Nd : norm3 (nth 0 (m_du m) []) = 1).
  { assert (D : forall k, (k < 3)%nat -> coord (nth 0 (m_du m) []) k = if (k =? 2)%nat then 1 else 0).
    { intros k Hk. destruct (Hc 0%nat 0%nat k) as [_ E]; [lia|lia|auto|]. cbn [Nat.mul Nat.add] in E. rewrite E. unfold coord. cbn [vertices nth].
      do 3 (destruct k as [|k]; [cbn [nth Nat.eqb]; rsimpl; cbn; field|]). lia. }
    unfold norm3. change (sqrt (coord (nth 0 (m_du m) []) 0 ^ 2 + coord (nth 0 (m_du m) []) 1 ^ 2 + coord (nth 0 (m_du m) []) 2 ^ 2) = 1).
    rewrite !D by lia. cbn [Nat.eqb]. replace (0 ^ 2 + 0 ^ 2 + 1 ^ 2) with 1 by ring. apply sqrt_1. }
  assert (E : exists m', add_conductance_in_region LR m (@PosF NumR 2) (@PosF NumR 2) 0 2 = Ok m').
  { unfold add_conductance_in_region. cbn [assert_ge]. replace (@nleb NumR 2 2) with true by (symmetry; apply Rleb_true; lra).
    cbn [passert bind].
    rewrite (flat_zero (m_u m) 2 ltac:(rewrite Hu; discriminate) Z0 : @flat_argmin NumR (m_u m) (pos_vec (@PosF NumR 2)) = 0%nat).
    cbn [Nat.eqb negb].
    assert (Hg : py_get (m_du m) 0 = Ok (nth 0 (m_du m) [])).
    { unfold py_get. assert (L : (0 < @length (list R) (m_du m))%nat) by (change (0 < length (m_du m))%nat; rewrite Ldu; lia).
      destruct (m_du m); [inversion L|reflexivity]. }
    rewrite Hg. cbn [bind]. rewrite norm3_vnorm, Nd. unfold region_assign. unfold cells, conductors in *.
    rewrite F1, HN, Hn. cbn [Nat.min Nat.sub Nat.ltb Nat.leb andb bind Nat.add].
    set (x := @ndiv NumR 2 _). assert (Hx : x = 2) by (unfold x; rsimpl; field). rewrite Hx. clear x Hx.
    set (g' := lset _ _ _).
    assert (P' : physical (m_set_core m (set_g (m_core m) g'))).
    { apply physical_g; auto.
      - unfold g'. rewrite length_lset. exact F1.
      - intros k Hk. unfold conductors, cells in *. rewrite HN in Hk. rewrite Hn.
        assert (G : forall i j, (j < 2)%nat -> get3 g' k i j = if (k =? 0)%nat && (i =? 0)%nat then 2 else G_ m k i j).
        { intros i j Hj. unfold g'. rewrite (set_row 2 (k_g (m_core m)) 0 0 2 k i j); auto; [rewrite F1; lia|].
          rewrite F2 by lia. rewrite Hn. lia. }
        intros y. rewrite quad2. change (get2 (getm g' k)) with (get3 g' k). rewrite !G by lia.
        rewrite !(fun i j => proj2 (HCG k i j Hk)). unfold exG, get2, get. cbn [nth].
        pose proof (Rle_0_sqr (y 0%nat)). pose proof (Rle_0_sqr (y 1%nat)). pose proof (Rle_0_sqr (y 0%nat + y 1%nat)).
        pose proof (Rle_0_sqr (y 0%nat - y 1%nat)). unfold Rsqr in *.
        destruct (k =? 0)%nat; cbn [Nat.eqb andb nth]; rsimpl; lra. }
    destruct (update_cg_total LR LR_complete (set_g (m_core m) g') (physical_cg _ P')) as [s' ->]. cbn [bind]. eauto. }
  destruct E as [m' E]. exists m, m'. split; auto. split; auto. split; auto.
  destruct (conductance_effect LR m m' 2 2 0 2 R0 Z0 E) as (_ & _ & _ & G). rewrite Hn in G.
  rewrite !G by lia. cbn [Nat.eqb andb]. rewrite Nd. split; [lra|reflexivity].
Qed.
