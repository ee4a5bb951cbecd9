(** A line of four cells with a source and a line of six cells without, in exact rational
    arithmetic: after two steps node 2 of the first has the voltage of node 3 of the second, node
    1 has not that of node 2. *)
From Coq Require Import String List Arith ZArith Bool Lia QArith.
From Verif Require Import Num Py Arr ArrFacts NumQ LapackQ Utils Probes Dispersive Line Bundle Networks Mtln SpecLine SpecBundle SpecNet SpecMtln SpecStretch BundleR ExampleQ.
Import ListNotations.

Definition qs_line (len : Q) (n : nat) : res (mtl NumQ) :=
  mtl_new LQ junk junk (@PFloat NumQ 1%Q) (@PFloat NumQ 1%Q) (@PFloat NumQ 0%Q) (@PFloat NumQ 0%Q) (len : NumQ) [] [n]
    (@ZScal NumQ 1%Q) (@ZScal NumQ 1%Q) "m"%string.
Definition qs_plain : connector NumQ := @Connector NumQ "Conn_R" (Some (50%Q : NumQ)) None None [] None None None.
Definition qs_descr (m : mtl NumQ) (side : string) (id : Z) : list (descr NumQ) := [(m, (side, ("b0", [(id, 0%nat, qs_plain)])))]%string.
(** the network: a source behind one ohm at the near end, two ohm at the far end *)
Definition qs_build (m : mtl NumQ) (f : NumQ -> NumQ) (b : bundle NumQ) : res (network NumQ * (network NumQ * (mtln NumQ * (mtln NumQ * mtln NumQ)))) :=
  w <- network_new (qs_descr m "S" 10) ;; w1 <- do_call w (@GroundR NumQ 10 1%Q (@TFun NumQ f)) ;;
  v <- network_new (qs_descr m "L" 20) ;; v1 <- do_call v (@GroundR NumQ 20 2%Q (@TInt NumQ 0)) ;;
  x0 <- add_bundle mtln_empty b ;; x1 <- add_network x0 [(0%nat, w1)] ;; x <- add_network x1 [(0%nat, v1)] ;;
  Ok (w1, (v1, (x0, (x1, x)))).
Definition last5 (p : network NumQ * (network NumQ * (mtln NumQ * (mtln NumQ * mtln NumQ)))) : mtln NumQ := snd (snd (snd (snd p))).
Definition qs_time (x : mtln NumQ) : Q := t_time x.
Definition qs_state (x : mtln NumQ) (T dt : NumQ) (k : nat) : res (mtln NumQ) :=
  let x0 := override_dt x dt in
  ws <- mapM (fun w => nwd_compute_v_terms w (t_dt x0)) (t_networks x0) ;; n <- time_range_len T (t_dt x0) ;; _ <- passert (k <=? n)%nat ;;
  p <- mtln_prepare LQ (t_set x0 (t_bundles x0) ws) n ;; iterM k (mtln_step LQ) p.

(** the numerical part of [same_cable] and [same_waves] for one conductor, as a test *)
Definition clb (x y : list (cplx NumQ)) : bool := leqb (fun u v => Qsame (fst u) (fst v) && Qsame (snd u) (snd v)) x y.
Definition at_cell (a b : bundle NumQ) (d k : nat) : bool :=
  Qsame (get3 (k_h (b_core b)) (k + d) 0 0) (get3 (k_h (b_core a)) k 0 0) && Qsame (get3 (k_l (b_core b)) (k + d) 0 0) (get3 (k_l (b_core a)) k 0 0) &&
  Qsame (get3 (k_r (b_core b)) (k + d) 0 0) (get3 (k_r (b_core a)) k 0 0) && Qsame (dD (b_disp b) (k + d) 0 0) (dD (b_disp a) k 0 0) &&
  Qsame (dE (b_disp b) (k + d) 0 0) (dE (b_disp a) k 0 0) && clb (dP1 (b_disp b) (k + d) 0 0) (dP1 (b_disp a) k 0 0) &&
  clb (dP2 (b_disp b) (k + d) 0 0) (dP2 (b_disp a) k 0 0) && clb (dP3 (b_disp b) (k + d) 0 0) (dP3 (b_disp a) k 0 0) &&
  Qsame (b_curr b 0 (k + d)) (b_curr a 0 k) && clb (dPhi (b_disp b) (k + d) 0) (dPhi (b_disp a) k 0).
Definition at_node (a b : bundle NumQ) (d k : nat) : bool :=
  Qsame (get3 (k_c (b_core b)) (k + d) 0 0) (get3 (k_c (b_core a)) k 0 0) && Qsame (get3 (k_g (b_core b)) (k + d) 0 0) (get3 (k_g (b_core a)) k 0 0) &&
  Qsame (b_volt b 0 (k + d)) (b_volt a 0 k).
Definition qs_named (x : mtln NumQ) (f : bundle NumQ -> bool) : bool := match bundle_of x "b0" with Some b => f b | None => false end.

Definition qs_test : bool :=
  okb (fun m : mtl NumQ => okb (fun m' : mtl NumQ => okb (fun a : bundle NumQ => okb (fun b : bundle NumQ =>
  okb (fun p => okb (fun q => okb (fun x' : mtln NumQ => okb (fun y' : mtln NumQ =>
    (b_conductors a =? 1)%nat && (b_conductors b =? 1)%nat && (b_cells a =? 4)%nat && (b_cells b =? 6)%nat &&
    forallb (at_cell a b 1) (seq 0 4) && forallb (at_node a b 1) (seq 0 5) && Qsame (qs_time (last5 q)) (qs_time (last5 p)) && String.eqb (b_name a) "b0" && String.eqb (b_name b) "b0" &&
    qs_named x' (fun a' => qs_named y' (fun b' => negb (Qsame (b_volt b' 0 2) (b_volt a' 0 1)) && negb (Qsame (b_volt a' 0 1) 0))))
   (qs_state (last5 q) 4%Q (1#2)%Q 2)) (qs_state (last5 p) 4%Q (1#2)%Q 2))
   (qs_build m' (fun _ => 0%Q) b)) (qs_build m ustep a))
   (mtld_new [[m']] "b0"%string)) (mtld_new [[m]] "b0"%string))
   (qs_line 6%Q 6)) (qs_line 4%Q 4).
Lemma qs_test_ok : qs_test = true.
Proof. vm_compute. reflexivity. Qed.
Local Opaque mtl_new mtld_new mtln_prepare mtln_step network_new do_call time_range_len.
Lemma qs_reaches x T dt k y : qs_state x T dt k = Ok y -> reaches LQ x T dt k y.
Proof.
  unfold qs_state. intros H. apply bind_Ok in H as (ws & E1 & H). apply bind_Ok in H as (n & E2 & H). apply bind_Ok in H as ([] & E3 & H). apply bind_Ok in H as (p & E4 & H).
  exists ws, n, p. cbv zeta. destruct (k <=? n)%nat eqn:K; [|discriminate E3]. apply Nat.leb_le in K. auto 6.
Qed.
Lemma qs_net m f b p : reachable LQ m -> reachable_bundle LQ b -> qs_build m f b = Ok p -> lines_net LQ (last5 p) /\ bundle_of (last5 p) (b_name b) = Some b.
Proof.
  intros Rm Rb H. unfold qs_build in H. apply bind_Ok in H as (w & E1 & H). apply bind_Ok in H as (w1 & E2 & H). apply bind_Ok in H as (v & E3 & H). apply bind_Ok in H as (v1 & E4 & H).
  apply bind_Ok in H as (x0 & E5 & H). apply bind_Ok in H as (x1 & E6 & H). apply bind_Ok in H as (x & E7 & H). injection H as <-. unfold last5. cbn [snd].
  split.
  - eapply ln_network; [eapply ln_network; [eapply ln_bundle; [apply ln_empty|exact Rb|exact E5]| |exact E6]| |exact E7].
    + constructor; [|constructor]. cbn [snd]. eexists. eapply nh_call; [apply nh_new; exact E1|exact E2].
    + constructor; [|constructor]. cbn [snd]. eexists. eapply nh_call; [apply nh_new; exact E3|exact E4].
  - assert (P : forall u u' : mtln NumQ, forall w, add_network u w = Ok u' -> t_bundles u' = t_bundles u).
    { intros u u' ww E. unfold add_network in E. apply bind_Ok in E as (z & _ & E). injection E as <-. reflexivity. }
    unfold bundle_of. rewrite (P _ _ _ E7), (P _ _ _ E6). unfold add_bundle in E5. apply bind_Ok in E5 as (z & _ & E). injection E as <-. cbn [t_bundles mtln_empty app dget].
    rewrite String.eqb_refl. reflexivity.
Qed.
Lemma clb_eq x y : clb x y = true -> x = y.
Proof. apply leqb_eq. intros [a b] [c d] H. cbn [fst snd] in H. apply andb_true_iff in H as [H1 H2]. apply Qsame_eq in H1, H2. congruence. Qed.
Lemma one_0 (i : nat) : (i < 1)%nat -> i = 0%nat. Proof. lia. Qed.
Lemma stretch_example : exists (x y : mtln NumQ) (a b : bundle NumQ) x' y' a' b',
  lines_net LQ x /\ lines_net LQ y /\ bundle_of x "b0" = Some a /\ bundle_of y "b0" = Some b /\ b_conductors a = 1%nat /\ b_cells a = 4%nat /\ b_cells b = 6%nat /\
  same_cable a b 1 0 4 /\ same_waves a b 1 0 4 /\ t_time y = t_time x /\ same_step x y a b (1#2)%Q /\ reaches LQ x 4%Q (1#2)%Q 2 x' /\ reaches LQ y 4%Q (1#2)%Q 2 y' /\
  bundle_of x' "b0" = Some a' /\ bundle_of y' "b0" = Some b' /\ b_volt b' 0 2 <> b_volt a' 0 1.
Proof.
  pose proof qs_test_ok as H. unfold qs_test in H. okb_step H m Em. okb_step H m' Em'. okb_step H a Ea. okb_step H b Eb. okb_step H p Ep. okb_step H q Fq. okb_step H x' Ex. okb_step H y' Ey.
  apply andb_true_iff in H as [H H10]. apply andb_true_iff in H as [H H9]. apply andb_true_iff in H as [H H8]. apply andb_true_iff in H as [H H7]. apply andb_true_iff in H as [H H6]. apply andb_true_iff in H as [H H5].
  apply andb_true_iff in H as [H H4]. apply andb_true_iff in H as [H H3]. apply andb_true_iff in H as [H1 H2].
  apply Nat.eqb_eq in H1, H2, H3, H4. apply String.eqb_eq in H8, H9. apply Qsame_eq in H7. rewrite forallb_forall in H5, H6.
  assert (Rm : reachable LQ m) by (apply built_reachable; unfold qs_line in Em; do 12 eexists; exact Em).
  assert (Rm' : reachable LQ m') by (apply built_reachable; unfold qs_line in Em'; do 12 eexists; exact Em').
  assert (Ra : reachable_bundle LQ a) by (exists a; constructor; exists [[m]], "b0"%string; split; [repeat constructor; exact Rm|exact Ea]).
  assert (Rb : reachable_bundle LQ b) by (exists b; constructor; exists [[m']], "b0"%string; split; [repeat constructor; exact Rm'|exact Eb]).
  destruct (qs_net _ _ _ _ Rm Ra Ep) as [Lx Bx]. destruct (qs_net _ _ _ _ Rm' Rb Fq) as [Ly By]. rewrite H8 in Bx. rewrite H9 in By.
  unfold qs_named in H10. destruct (bundle_of x' "b0") as [a'|] eqn:Ba; [|discriminate H10]. destruct (bundle_of y' "b0") as [b'|] eqn:Bb; [|discriminate H10].
  apply andb_true_iff in H10 as [H10 _]. apply negb_true_iff in H10.
  exists (last5 p), (last5 q), a, b, x', y', a', b'.
  split; [exact Lx|]. split; [exact Ly|]. split; [exact Bx|]. split; [exact By|]. split; [exact H1|]. split; [exact H3|]. split; [exact H4|].
  destruct (new_frame _ _ _ Ea) as (? & ? & _ & _ & _ & _ & _ & _ & La & Ta & _). destruct (new_frame _ _ _ Eb) as (? & ? & _ & _ & _ & _ & _ & _ & Lb & Tb & _).
  change (k_n (b_core a)) with (b_conductors a) in La, Ta. change (k_n (b_core b)) with (b_conductors b) in Lb, Tb. change (k_N (b_core a)) with (b_cells a) in La, Ta. change (k_N (b_core b)) with (b_cells b) in Lb, Tb.
  rewrite H1, H3 in La, Ta. rewrite H2, H4 in Lb, Tb.
  split; [|split].
  - split.
    + rewrite H1. exact H2.
    + rewrite H3. lia.
    + rewrite H4. lia.
    + rewrite H1. intros k i j Hk Hi Hj. rewrite (one_0 i Hi), (one_0 j Hj). assert (I : In k (seq 0 4)) by (apply in_seq; lia). specialize (H5 _ I). unfold at_cell in H5. split_andb H5. apply Qsame_eq. assumption.
    + rewrite H1. intros k i j Hk Hi Hj. rewrite (one_0 i Hi), (one_0 j Hj). assert (I : In k (seq 0 4)) by (apply in_seq; lia). specialize (H5 _ I). unfold at_cell in H5. split_andb H5. apply Qsame_eq. assumption.
    + rewrite H1. intros k i j Hk Hi Hj. rewrite (one_0 i Hi), (one_0 j Hj). assert (I : In k (seq 0 4)) by (apply in_seq; lia). specialize (H5 _ I). unfold at_cell in H5. split_andb H5. apply Qsame_eq. assumption.
    + rewrite H1. intros k i j Hk Hi Hj. rewrite (one_0 i Hi), (one_0 j Hj). assert (I : In k (seq 0 4)) by (apply in_seq; lia). specialize (H5 _ I). unfold at_cell in H5. split_andb H5.
      split; [apply Qsame_eq; assumption|]. split; [apply Qsame_eq; assumption|]. split; [apply clb_eq; assumption|]. split; apply clb_eq; assumption.
    + rewrite H1. intros k c t Hk Hc. rewrite (one_0 c Hc). unfold b_long. rewrite La, Lb. unfold mk2. do 4 (destruct k as [|k]; [reflexivity|]). lia.
    + rewrite H1. intros k i j Hk Hi Hj. rewrite (one_0 i Hi), (one_0 j Hj). assert (I : In k (seq 0 5)) by (apply in_seq; lia). specialize (H6 _ I). unfold at_node in H6. split_andb H6. apply Qsame_eq. assumption.
    + rewrite H1. intros k i j Hk Hi Hj. rewrite (one_0 i Hi), (one_0 j Hj). assert (I : In k (seq 0 5)) by (apply in_seq; lia). specialize (H6 _ I). unfold at_node in H6. split_andb H6. apply Qsame_eq. assumption.
    + rewrite H1. intros k c t Hk Hc. rewrite (one_0 c Hc). unfold b_tran. rewrite Ta, Tb. unfold mk2. do 5 (destruct k as [|k]; [reflexivity|]). lia.
  - split.
    + rewrite H1. intros k c Hk Hc. rewrite (one_0 c Hc). assert (I : In k (seq 0 5)) by (apply in_seq; lia). specialize (H6 _ I). unfold at_node in H6. split_andb H6. apply Qsame_eq. assumption.
    + rewrite H1. intros k c Hk Hc. rewrite (one_0 c Hc). assert (I : In k (seq 0 4)) by (apply in_seq; lia). specialize (H5 _ I). unfold at_cell in H5. split_andb H5. apply Qsame_eq. assumption.
    + rewrite H1. intros k c Hk Hc. rewrite (one_0 c Hc). assert (I : In k (seq 0 4)) by (apply in_seq; lia). specialize (H5 _ I). unfold at_cell in H5. split_andb H5. apply clb_eq. assumption.
  - split; [exact H7|]. split; [left; reflexivity|]. split; [exact (qs_reaches _ _ _ _ _ Ex)|]. split; [exact (qs_reaches _ _ _ _ _ Ey)|]. split; [exact Ba|]. split; [exact Bb|].
    intros X. rewrite X in H10. unfold Qsame in H10. rewrite Z.eqb_refl, Pos.eqb_refl in H10. discriminate H10.
Qed.
