(** Proofs of the statements of PropStep.v. *)
From Coq Require Import String List Arith ZArith Bool Lia Reals Lra.
From Verif Require Import Num Py Arr ArrFacts NumR RFacts LinAlg LapackR Probes Dispersive Line LineFacts
  SpecLine SpecR HistoryFacts NearestFacts LineEqFacts TermFacts PlainFacts RunEqFacts AttachFacts ProbeFacts
  TotalFacts NewTotal ExampleLine ExampleRun.
Import ListNotations.
Local Open Scope R_scope.

Section S.
Variable LA : lapack NumR.
Implicit Types (m a b : mtl NumR).

Lemma u_nonempty m : shape m -> m_u m <> [].
Proof. intros Sh E. pose proof (sh_u _ Sh) as F. rewrite E in F. discriminate. Qed.

Lemma probe_node m m' p ty : reachable LA m -> add_probe m p ty = Ok m' ->
  exists q, m_probes m' = m_probes m ++ [q] /\ p_type q = ty /\ closest (m_u m) (pos_vec p) (p_index q) /\
            (p_index q <= cells m)%nat.
Proof.
  intros HR H. pose proof (reachable_shape LA _ HR) as Sh. unfold add_probe in H.
  destruct (out_of_box _ _); [discriminate|]. injection H as <-. eexists. split; [reflexivity|].
  split; [reflexivity|]. pose proof (nearest_closest (m_u m) (pos_vec p) (u_nonempty _ Sh)) as C.
  split; [exact C|]. destruct C as [C _]. pose proof (sh_u _ Sh) as E. unfold cells. cbn.
  change (@length (list R) (m_u m)) with (@length (vec NumR) (m_u m)) in C. rewrite E in C. lia.
Qed.

Lemma source_node m m' p c f : reachable LA m -> add_voltage_source m p c f = Ok m' ->
  exists k, closest (m_u m) (pos_vec p) k /\ (k <= cells m)%nat /\ (c < conductors m)%nat /\
    source m' c k = f /\ forall c' k', (c', k') <> (c, k) -> source m' c' k' = source m c' k'.
Proof.
  intros HR H. pose proof (reachable_shape LA _ HR) as Sh. destruct HR as [m0 HH].
  pose proof (add_source_effect m p c f m' (history_vsrc LA _ _ HH) H) as [Hc E].
  pose proof (nearest_closest (m_u m) (pos_vec p) (u_nonempty _ Sh)) as C.
  assert (Hk : (@nearest NumR (m_u m) (pos_vec p) < S (cells m))%nat).
  { destruct C as [C _]. pose proof (sh_u _ Sh) as F.
    change (@length (list R) (m_u m)) with (@length (vec NumR) (m_u m)) in C. rewrite F in C. exact C. }
  specialize (E Hk). exists (@nearest NumR (m_u m) (pos_vec p)). split; [exact C|]. split; [lia|]. split; [exact Hc|].
  split.
  - rewrite E, !Nat.eqb_refl. reflexivity.
  - intros c' k' Hne. rewrite E. destruct (Nat.eqb_spec c' c) as [->|]; [|reflexivity].
    destruct (Nat.eqb_spec k' (nearest (m_u m) (pos_vec p))) as [->|]; [congruence|reflexivity].
Qed.

Hypothesis LAok : lapack_ok LA.

Lemma mulv_ext1 n A B x c : (forall p, (p < n)%nat -> A c p = B c p) -> mulv n A x c = mulv n B x c.
Proof. intros H. apply mulv_ext2; auto. Qed.

Lemma thevenin_ext n Z C C' G G' h dt v v' de de' src src' i i' c :
  (forall q p, C q p = C' q p) -> (forall q p, G q p = G' q p) -> (forall p, de p = de' p) -> (forall p, src p = src' p) ->
  (forall p, i p = i' p) ->
  thevenin n Z C G h dt v v' de src i c -> thevenin n Z C' G' h dt v v' de' src' i' c.
Proof.
  intros HC HG Hd Hs Hi. unfold thevenin. rewrite Hs. intros H.
  rewrite (mulv_ext n Z i' i) by auto. rewrite <- H. apply (f_equal (fun x => x + v' c + v c)). apply (f_equal (Rmult h)).
  apply mulv_ext. intros q Hq. apply (f_equal2 Rplus); apply (f_equal (fun x => x / _)).
  - apply mulv_ext2; auto. intros p Hp. now rewrite Hd.
  - apply mulv_ext2; auto.
Qed.

Lemma left_thevenin m0 m a b T k c :
  history LA m0 m -> run_step LA m T k a b -> (c < conductors m)%nat ->
  step_dt m = step_dt m0 -> (forall i j, G_ m 0 i j = G_ m0 0 i j) ->
  let dt := step_dt m in let t := m_time m + INR k * dt in
  thevenin (conductors m) (Zs_ m) (C_ m 0) (G_ m 0) (cell_len m 0) dt
    (fun p => volt a p 0) (fun p => volt b p 0)
    (fun p => eTran m p 0 t - eTran m p 0 (t - dt))
    (fun p => source m p 0 t + source m p 0 (t - dt))
    (fun p => curr a p 0) c.
Proof.
  intros HH H Hc Hdt HG dt t. pose proof (left_terminal LA LAok m0 m T k a b c HH H Hc) as E. cbv zeta in E.
  apply (thevenin_ext _ _ (C_ m 0) (C_ m 0) (G_ m0 0) (G_ m 0) _ _ _ _
    (fun p => eTran m p 0 t - eTran m p 0 (t - dt)) _ (fun p => source m p 0 t + source m p 0 (t - dt)) _ (fun p => curr a p 0)); auto.
  apply thevenin_form. rewrite <- Hdt in E. exact E.
Qed.

Lemma mulv_opp n A x c : mulv n A (fun p => - x p) c = - mulv n A x c.
Proof. unfold mulv. rewrite <- sumR_opp. apply sumR_ext; intros. rring. Qed.

Lemma right_thevenin m0 m a b T k c :
  history LA m0 m -> run_step LA m T k a b -> (c < conductors m)%nat ->
  let e := cells m in
  step_dt m = step_dt m0 -> (forall i j, G_ m e i j = G_ m0 e i j) ->
  let dt := step_dt m in let t := m_time m + INR k * dt in
  thevenin (conductors m) (Zl_ m) (C_ m e) (G_ m e) (cell_len m (e - 1)) dt
    (fun p => volt a p e) (fun p => volt b p e)
    (fun p => eTran m p e t - eTran m p e (t - dt))
    (fun p => source m p e t + source m p e (t - dt))
    (fun p => - curr a p (e - 1)) c.
Proof.
  intros HH H Hc e Hdt HG dt t. pose proof (right_terminal LA LAok m0 m T k a b c HH H Hc) as E. cbv zeta in E.
  apply (thevenin_ext _ _ (C_ m e) (C_ m e) (G_ m0 e) (G_ m e) _ _ _ _
    (fun p => eTran m p e t - eTran m p e (t - dt)) _ (fun p => source m p e t + source m p e (t - dt)) _ (fun p => - curr a p (e - 1))); auto.
  apply thevenin_form. rewrite <- Hdt in E. rewrite mulv_opp.
  fold e in E. fold dt in E. fold t in E.
  match type of E with _ = ?X + 2 * ?Y - ?Z => replace (X - 2 * - Y - Z) with (X + 2 * Y - Z) by ring end. exact E.
Qed.

Lemma mulv_row0 n (A : nat -> nat -> R) x c : (forall j, (j < n)%nat -> A c j = 0) -> mulv n A x c = 0.
Proof. intros H. apply sumR_zero. intros j Hj. rewrite H by auto. rring. Qed.

Lemma left_short m a b T k c :
  reachable LA m -> run_step LA m T k a b -> (c < conductors m)%nat ->
  (forall j, (j < conductors m)%nat -> Zs_ m c j = 0) ->
  let dt := step_dt m in let t := m_time m + INR k * dt in
  (volt b c 0 + volt a c 0) / 2 = (source m c 0 t + source m c 0 (t - dt)) / 2.
Proof.
  intros [m0 HH] H Hc HZ dt t. pose proof (left_terminal LA LAok m0 m T k a b c HH H Hc) as E. cbv zeta in E.
  rewrite !(mulv_row0 _ (Zs_ m)) in E by auto. fold dt in E. fold t in E. unfold Rdiv in *. rewrite !Rmult_0_l, Rplus_0_r, !Rmult_0_r in E. lra.
Qed.
Lemma right_short m a b T k c :
  reachable LA m -> run_step LA m T k a b -> (c < conductors m)%nat ->
  (forall j, (j < conductors m)%nat -> Zl_ m c j = 0) ->
  let dt := step_dt m in let t := m_time m + INR k * dt in let e := cells m in
  (volt b c e + volt a c e) / 2 = (source m c e t + source m c e (t - dt)) / 2.
Proof.
  intros [m0 HH] H Hc HZ dt t e. pose proof (right_terminal LA LAok m0 m T k a b c HH H Hc) as E. cbv zeta in E.
  rewrite !(mulv_row0 _ (Zl_ m)) in E by auto. fold dt in E. fold t in E. fold e in E. unfold Rdiv in *.
  rewrite !Rmult_0_l, Rplus_0_r, !Rmult_0_r in E. lra.
Qed.

Lemma mulv0 n A c : mulv n A (fun _ => 0) c = 0.
Proof. apply sumR_zero. intros. rring. Qed.

Lemma old_step m0 m a b T k c :
  history LA m0 m -> run_step LA m T k a b -> (c < conductors m)%nat ->
  (forall p x, eTran m p 0 x = 0) -> (forall p x, eTran m p (cells m) x = 0) ->
  let dt := step_dt m in let t := m_time m + INR k * dt in let e := cells m in
  thevenin (conductors m) (Zs_ m) (C_ m 0) (G_ m0 0) (cell_len m 0) (step_dt m0)
    (fun p => volt a p 0) (fun p => volt b p 0) (fun _ => 0)
    (fun p => source m p 0 t + source m p 0 (t - dt)) (fun p => curr a p 0) c /\
  thevenin (conductors m) (Zl_ m) (C_ m e) (G_ m0 e) (cell_len m (e - 1)) (step_dt m0)
    (fun p => volt a p e) (fun p => volt b p e) (fun _ => 0)
    (fun p => source m p e t + source m p e (t - dt)) (fun p => - curr a p (e - 1)) c.
Proof.
  intros HH H Hc H0 He dt t e. split.
  - pose proof (left_terminal LA LAok m0 m T k a b c HH H Hc) as E. cbv zeta in E.
    apply thevenin_form. fold dt in E. fold t in E.
    rewrite (mulv_ext _ (Zs_ m) (mulv (conductors m) (C_ m 0) (fun p => eTran m p 0 t - eTran m p 0 (t - dt)))
       (mulv (conductors m) (C_ m 0) (fun _ => 0))) in E.
    2:{ intros q Hq. apply mulv_ext. intros p Hp. rewrite !H0. ring. }
    rewrite (mulv_ext _ _ (mulv (conductors m) (C_ m 0) (fun _ => 0)) (fun _ => 0)), mulv0, Rmult_0_r in * by (intros; apply mulv0).
    rewrite E. reflexivity.
  - pose proof (right_terminal LA LAok m0 m T k a b c HH H Hc) as E. cbv zeta in E.
    apply thevenin_form. fold dt in E. fold t in E. fold e in E, He.
    rewrite (mulv_ext _ (Zl_ m) (mulv (conductors m) (C_ m e) (fun p => eTran m p e t - eTran m p e (t - dt)))
       (mulv (conductors m) (C_ m e) (fun _ => 0))) in E.
    2:{ intros q Hq. apply mulv_ext. intros p Hp. rewrite !He. ring. }
    rewrite (mulv_ext _ _ (mulv (conductors m) (C_ m e) (fun _ => 0)) (fun _ => 0)), mulv0, Rmult_0_r in * by (intros; apply mulv0).
    rewrite E, mulv_opp. ring.
Qed.

Lemma mulv1 A x : mulv 1 A x 0 = A 0%nat 0%nat * x 0%nat.
Proof. unfold mulv. rewrite sumR_S, sumR_0. rring. Qed.

Lemma broken_step m0 m a b T k :
  history LA m0 m -> run_step LA m T k a b -> conductors m = 1%nat ->
  (forall i j, G_ m 0 i j = G_ m0 0 i j) -> (forall p x, eTran m p 0 x = 0) ->
  step_dt m <> step_dt m0 -> 0 < step_dt m -> 0 < step_dt m0 ->
  cell_len m 0 * Zs_ m 0 0 * C_ m 0 0 0 <> 0 -> volt b 0 0 <> volt a 0 0 ->
  let dt := step_dt m in let t := m_time m + INR k * dt in
  ~ thevenin 1 (Zs_ m) (C_ m 0) (G_ m 0) (cell_len m 0) dt
    (fun p => volt a p 0) (fun p => volt b p 0) (fun p => eTran m p 0 t - eTran m p 0 (t - dt))
    (fun p => source m p 0 t + source m p 0 (t - dt)) (fun p => curr a p 0) 0.
Proof.
  intros HH H Hn HG HE Hdt P1 P0 Hz Hv dt t. unfold thevenin. rewrite !mulv1, !HE, HG. intros F.
  pose proof (left_terminal LA LAok m0 m T k a b 0 HH H ltac:(lia)) as E. cbv zeta in E.
  rewrite Hn in E. rewrite !mulv1, !HE in E. fold dt in E. fold t in E.
  assert (X : cell_len m 0 * Zs_ m 0 0 * C_ m 0 0 0 * (volt b 0 0 - volt a 0 0) * (/ dt - / step_dt m0) = 0).
  { unfold Rdiv in *. lra. }
  apply Rmult_integral in X as [X|X].
  - apply Rmult_integral in X as [X|X]; [now apply Hz|]. apply Hv. lra.
  - apply Hdt. fold dt. assert (/ dt = / step_dt m0) by lra. rewrite <- (Rinv_inv dt), H0, Rinv_inv. reflexivity.
Qed.

Lemma resistive_agrees m0 m a b T k c :
  history LA m0 m -> run_step LA m T k a b -> (c < conductors m)%nat ->
  (forall i j, G_ m 0 i j = G_ m0 0 i j) -> (forall i j, C_ m 0 i j = 0) ->
  let dt := step_dt m in let t := m_time m + INR k * dt in
  thevenin (conductors m) (Zs_ m) (C_ m 0) (G_ m 0) (cell_len m 0) dt
    (fun p => volt a p 0) (fun p => volt b p 0)
    (fun p => eTran m p 0 t - eTran m p 0 (t - dt))
    (fun p => source m p 0 t + source m p 0 (t - dt))
    (fun p => curr a p 0) c.
Proof.
  intros HH H Hc HG HC dt t. pose proof (left_terminal LA LAok m0 m T k a b c HH H Hc) as E. cbv zeta in E.
  apply (thevenin_ext _ _ (C_ m 0) (C_ m 0) (G_ m0 0) (G_ m 0) _ _ _ _
    (fun p => eTran m p 0 t - eTran m p 0 (t - dt)) _ (fun p => source m p 0 t + source m p 0 (t - dt)) _ (fun p => curr a p 0)); auto.
  apply thevenin_form. fold dt in E. fold t in E.
  assert (Z : forall x, mulv (conductors m) (Zs_ m) (mulv (conductors m) (C_ m 0) x) c = 0).
  { intros x. rewrite (mulv_ext _ _ _ (fun _ => 0)); [apply mulv0|]. intros. apply mulv_row0. auto. }
  rewrite !Z in *. unfold Rdiv in *. rewrite !Rmult_0_l in *. exact E.
Qed.
End S.

(** *** totality *)
Lemma run_physical LA : lapack_complete LA -> forall (m : mtl NumR) T,
  reachable LA m -> 0 < step_dt m -> (forall k, (k < cells m)%nat -> 0 < cell_len m k) ->
  (forall k, (k <= cells m)%nat -> pos_def (conductors m) (C_ m k) /\ pos_semidef (conductors m) (G_ m k)) ->
  (forall k, (k < cells m)%nat -> pos_def (conductors m) (L_ m k) /\ pos_semidef (conductors m) (R_ m k)) ->
  undispersed m ->
  Forall (fun p => p_type p = "voltage"%string \/ p_type p = "current"%string) (m_probes m) ->
  exists m', run_until LA m T = Ok m' /\ conductors m' = conductors m /\ cells m' = cells m.
Proof.
  intros HC m T HR Hdt Hh HCG HLR HU HP. pose proof (reachable_shape LA _ HR) as Sh.
  assert (P : physical m).
  { split; auto.
    - intros k Hk. now apply HCG.
    - intros k Hk. now apply HCG.
    - intros k Hk. now apply HLR.
    - intros k Hk. now apply HLR.
    - unfold probes_known. destruct HR as [m0 HH]. pose proof (history_probe_index LA _ _ HH) as I.
      apply Forall_forall. intros p Hp. rewrite Forall_forall in HP, I. split; auto. }
  destruct (run_total LA HC m T P) as [m' E]. exists m'. split; [exact E|].
  destruct (shape_run LA _ _ _ Sh E) as [_ K]. split; apply K.
Qed.

Lemma one_conductor_total LA : lapack_ok LA -> lapack_complete LA ->
  forall ju jdu (l c r g len zs zl : R) N name,
  0 < l -> 0 < c -> 0 <= r -> 0 <= g -> len <> 0 -> (1 <= N)%nat -> 0 <= zs -> 0 <= zl ->
  exists m : mtl NumR,
    mtl_new LA ju jdu (@PFloat NumR l) (@PFloat NumR c) (@PFloat NumR r) (@PFloat NumR g) len [] [N]
      (@ZScal NumR zs) (@ZScal NumR zl) name = Ok m /\ physical m.
Proof.
  intros HA HC ju jdu l c r g len zs zl N name. intros.
  destruct (one_conductor LA HA HC ju jdu l c r g len zs zl N name) as (m & E & P & _); eauto.
Qed.

Lemma coupled_total LA : lapack_complete LA ->
  forall ju jdu n (L C R0 G : mat NumR) (len : NumR) (np : mat NumR) d s (zs zl : vec NumR) name,
  let np' : mat NumR := match np with [] => [[0; 0; 0]; [0; 0; len]] | _ => np end in
  (1 <= n)%nat -> (1 <= d)%nat -> (1 <= s)%nat -> (length np' = s + 1)%nat ->
  (forall i, (i < s)%nat -> exists k, (k < 3)%nat /\ @get NumR (nth (S i) np' []) k <> @get NumR (nth i np' []) k) ->
  pos_def n (get2 L) -> pos_def n (get2 C) -> pos_semidef n (get2 R0) -> pos_semidef n (get2 G) ->
  (forall i, (i < n)%nat -> 0 <= get zs i) -> (forall i, (i < n)%nat -> 0 <= get zl i) ->
  real_eigen LA n (mm n (mk2 n n (get2 L)) (mk2 n n (get2 C))) ->
  exists m : mtl NumR,
    mtl_new LA ju jdu (PArr n n L) (PArr n n C) (PArr n n R0) (PArr n n G) len np (repeat d s)
      (ZVec n zs) (ZVec n zl) name = Ok m /\ physical m /\ conductors m = n /\ cells m = (s * d)%nat.
Proof.
  intros HC ju jdu n L C R0 G len np d s zs zl name np' Hn Hd Hs Hl Hseg PL PC PR PG Z1 Z2 HE.
  assert (EG : forall A : mat NumR, forall i j, (i < n)%nat -> (j < n)%nat -> get2 (mk2 n n (get2 A)) i j = get2 A i j).
  { intros A i j Hi Hj. now rewrite get2_mk2. }
  destruct (new_total LA HC ju jdu (PArr n n L) (PArr n n C) (PArr n n R0) (PArr n n G) len np d s
     (ZVec n zs) (ZVec n zl) name n (mk2 n n (get2 L)) (mk2 n n (get2 C)) (mk2 n n (get2 R0)) (mk2 n n (get2 G))
     (mk2 n n (fun i j => get zs i * @delta NumR i j)) (mk2 n n (fun i j => get zl i * @delta NumR i j))
     (fun i => get zs i) (fun i => get zl i)) as (m & E & P & En & EN & _); auto.
  - unfold init_LC. rewrite !Nat.eqb_refl. reflexivity.
  - unfold init_RG, init_rg1. rewrite !Nat.eqb_refl. reflexivity.
  - unfold init_Zt. rewrite !Nat.eqb_refl. reflexivity.
  - apply pd_ext with (A := get2 L); auto. intros; symmetry; auto.
  - apply pd_ext with (A := get2 C); auto. intros; symmetry; auto.
  - apply psd_ext with (A := get2 R0); auto. intros; symmetry; auto.
  - apply psd_ext with (A := get2 G); auto. intros; symmetry; auto.
  - split; auto. intros i j Hi Hj. rewrite (@get2_mk2 NumR) by auto. reflexivity.
  - split; auto. intros i j Hi Hj. rewrite (@get2_mk2 NumR) by auto. reflexivity.
  - exists m. auto.
Qed.

(** *** witnesses *)
Lemma tie_example : closest [[0; 0; 0]; [0; 0; 1]] [0; 0; / 2] 0.
Proof.
  unfold closest, dist3. cbn [length nth]. split; [lia|]. split; [|intros; lia].
  intros j Hj. apply Req_le. assert (j = 0 \/ j = 1)%nat as [-> | ->] by lia; cbn [nth]; f_equal; field.
Qed.
Lemma step_example_plain : exists m a b T k, lapack_ok LR /\ reachable LR m /\ undispersed m /\ run_step LR m T k a b /\
  conductors m = 2%nat /\ cells m = 3%nat.
Proof.
  destruct ex_run as (m0 & m & a & b & _ & _ & HH & P & Hn & HN & _ & _ & H).
  exists m, a, b, (5.5 * step_dt m), 3%nat. split; [apply LR_ok|]. split; [exists m0; auto|]. split; [apply P|]. auto.
Qed.
Lemma step_example : exists m a b T k, lapack_ok LR /\ reachable LR m /\ run_step LR m T k a b /\ conductors m = 2%nat /\ cells m = 3%nat.
Proof. destruct step_example_plain as (m & a & b & T & k & ? & ? & ? & ?). exists m, a, b, T, k. tauto. Qed.
Lemma terminal_example : exists m0 m a b T k, lapack_ok LR /\ history LR m0 m /\ run_step LR m T k a b /\
  conductors m = 2%nat /\ cells m = 3%nat /\ step_dt m = step_dt m0 /\
  (forall k i j, G_ m k i j = G_ m0 k i j) /\ (forall j, (j < 2)%nat -> Zs_ m 1 j = 0).
Proof.
  destruct ex_run as (m0 & m & a & b & E0 & Em & HH & P & Hn & HN & Hd & HG & H).
  exists m0, m, a, b, (5.5 * step_dt m), 3%nat. split; [apply LR_ok|].
  do 6 (split; [assumption|]).
  destruct (ex_new_ok (fun _ => []) (fun _ => [])) as (m0' & E0' & _ & _ & _ & _ & _ & _ & Z & _).
  assert (m0' = m0) as -> by congruence.
  pose proof (history_shape LR _ _ HH) as [_ K]. intros j Hj. unfold Zs_. rewrite (kp_zs _ _ K), Z.
  assert (j = 0 \/ j = 1)%nat as [-> | ->] by lia; cbn; rsimpl; ring.
Qed.
Lemma physical_example : lapack_ok LR /\ lapack_complete LR /\ exists m, ex_new (fun _ => []) (fun _ => []) = Ok m /\ physical m.
Proof.
  split; [apply LR_ok|]. split; [apply LR_complete|].
  destruct (ex_new_ok (fun _ => []) (fun _ => [])) as (m & E & P & _). eauto.
Qed.

Lemma broken_exists : exists LA (m0 m1 m a b : mtl NumR) T k,
  lapack_ok LA /\ built LA m0 /\ add_voltage_source m0 (@PosF NumR 0) 0 (fun _ => 1) = Ok m1 /\
  m = set_time_step m1 2 1 /\ history LA m0 m /\ run_step LA m T k a b /\ conductors m = 1%nat /\
  let dt := step_dt m in let t := m_time m + INR k * dt in
  ~ thevenin 1 (Zs_ m) (C_ m 0) (G_ m 0) (cell_len m 0) dt
    (fun p => volt a p 0) (fun p => volt b p 0) (fun p => eTran m p 0 t - eTran m p 0 (t - dt))
    (fun p => source m p 0 t + source m p 0 (t - dt)) (fun p => curr a p 0) 0.
Proof.
  destruct (driven_line LR (fun _ => []) (fun _ => []) 1 1 0 0 2 1 1 2 "x"%string (fun _ => 1) LR_ok LR_complete)
    as (m0 & m1 & E0 & E1 & HH & P & O & Ed & Ed1 & Hs & Hv & Hi & HeT & HeL & Ht & HG); try lra; try lia.
  set (m := set_time_step m1 2 1).
  assert (Hd0 : step_dt m0 = 1).
  { rewrite Ed. rewrite Rmult_1_r, sqrt_1, Rabs_right by lra. simpl. field. }
  assert (Hd : step_dt m = / 2). { unfold m, step_dt, set_time_step. cbn. rsimpl. field. }
  assert (Pm : physical m). { apply physical_time_step; auto. lra. }
  assert (HHm : history LR m0 m) by (apply h_time_step; auto).
  destruct (run_step_total LR LR_complete m 1 0 Pm) as (a & b & H).
  { rewrite Hd. replace (1 / / 2) with 2 by field.
    assert (E : Int_part 2 = 2%Z). { unfold Int_part. assert (up 2 = 3%Z) as ->; [|reflexivity]. symmetry. apply tech_up; simpl; lra. }
    rewrite E. simpl. lia. }
  exists LR, m0, m1, m, a, b, 1, 0%nat. split; [apply LR_ok|].
  split; [eapply history_built; eauto|]. split; [exact E1|]. split; [reflexivity|]. split; [exact HHm|]. split; [exact H|].
  assert (Hn : conductors m = 1%nat) by apply O. split; [exact Hn|].
  apply (broken_step LR LR_ok m0 m a b 1 0 HHm H Hn).
  - intros; apply HG.
  - intros p x. change (eTran m p 0 x) with (eTran m1 p 0 x). now rewrite HeT.
  - rewrite Hd, Hd0. lra.
  - rewrite Hd. lra.
  - rewrite Hd0. lra.
  - change (cell_len m1 0 * Zs_ m1 0 0 * C_ m1 0 0 0 <> 0).
    rewrite (ol_h _ _ _ _ _ _ _ _ _ O), (ol_zs _ _ _ _ _ _ _ _ _ O), (ol_C _ _ _ _ _ _ _ _ _ O) by lia.
    rewrite Rabs_right by lra. simpl. lra.
  - intros Ev.
    pose proof (left_terminal LR LR_ok m0 m 1 0 a b 0 HHm H ltac:(lia)) as E. cbv zeta in E. rewrite Hn in E.
    rewrite !mulv1 in E. rewrite Ev in E.
    assert (Ha : volt a 0 0 = 0 /\ curr a 0 0 = 0).
    { destruct H as (st & p & _ & _ & Hp & Hi0 & _). cbn in Hi0. injection Hi0 as <-.
      apply prepare_inv in Hp as (t1 & t2 & _ & ->). split; [apply (Hv 0%nat 0%nat)|apply (Hi 0%nat 0%nat)]. }
    destruct Ha as [Va Ia]. rewrite Va, Ia in E.
    assert (Hsrc : forall x, source m 0 0 x = 1). { intros x. change (source m 0 0 x) with (source m1 0 0 x). rewrite Hs. reflexivity. }
    rewrite !Hsrc in E. assert (HeT' : forall x, eTran m 0 0 x = 0). { intros x. change (eTran m 0 0 x) with (eTran m1 0 0 x). now rewrite HeT. }
    rewrite !HeT' in E. unfold Rdiv in E. rewrite ?Rmult_0_r, ?Rmult_0_l, ?Rplus_0_r, ?Rminus_0_r in E.
    replace (0 - 0) with 0 in E by ring. rewrite ?Rmult_0_r, ?Rmult_0_l, ?Rplus_0_r, ?Rminus_0_r in E. lra.
Qed.
