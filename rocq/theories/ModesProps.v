(** Linear combinations of the conductors of a line. *)
From Coq Require Import String List Arith ZArith Bool Lia Reals Lra.
From Verif Require Import Num Py Arr ArrFacts NumR RFacts LinAlg LapackR Probes Dispersive Line LineFacts SpecLine SpecR HistoryFacts LineEqFacts
  PlainFacts TotalFacts NewTotal GeometryFacts TermFacts RunEqFacts EnergyFacts SpecSym SymFacts SymProps SpecModes.
Import ListNotations.
Local Open Scope R_scope.

Lemma comb_mulv n A x i : combination n A x i = mulv n A x i.
Proof. reflexivity. Qed.
Lemma mul_mul n n' (A B : nat -> nat -> R) x c : mulv n' A (mulv n B x) c = sumR n (fun j => sumR n' (fun p => A c p * B p j) * x j).
Proof.
  unfold mulv. rewrite (sumR_ext n' _ (fun i => sumR n (fun j => A c i * (B i j * x j)))) by (intros; now rewrite sumR_scal).
  rewrite sumR_swap. apply sumR_ext. intros j Hj. rewrite <- sumR_scal_r. apply sumR_ext. intros; rring.
Qed.
Lemma twine n n' A X Y B x c : intertwined n n' A X Y B -> (c < n')%nat -> mulv n' Y (mulv n B x) c = mulv n A (mulv n X x) c.
Proof.
  intros H Hc. rewrite !mul_mul. apply sumR_ext. intros j Hj. apply (f_equal (fun y => y * x j)). symmetry. now apply H.
Qed.
Lemma twine' n n' A X Y B x y c : intertwined n n' A X Y B -> (c < n')%nat -> (forall p, (p < n')%nat -> y p = mulv n B x p) -> mulv n' Y y c = mulv n A (mulv n X x) c.
Proof. intros H Hc E. rewrite (mulv_ext n' Y y (mulv n B x)) by auto. now apply twine. Qed.

Section Props.
Variable LA : lapack NumR.
Hypothesis LAok : lapack_ok LA.

Definition via (n : nat) (A : nat -> nat -> R) (v : nat -> nat -> R) (c k : nat) : R := mulv n A (fun p => v p k) c.
Lemma lin4 n A (x y z w : nat -> R) a b d c : mulv n A (fun p => a * x p + b * y p + d * z p + w p) c = a * mulv n A x c + b * mulv n A y c + d * mulv n A z c + mulv n A w c.
Proof. rewrite (mulv_add n A (fun p => a * x p + b * y p + d * z p) w), (mulv_add n A (fun p => a * x p + b * y p) (fun p => d * z p)), (mulv_add n A (fun p => a * x p) (fun p => b * y p)), !mulv_scal. reflexivity. Qed.

Lemma follows_transform TV TI (m0 m m0' m' : mtl NumR) t v i v' i' : (1 <= cells m)%nat -> transformed TV TI m0 m m0' m' -> follows m0 m t v i v' i' ->
  follows m0' m' t (via (conductors m) TV v) (via (conductors m) TI i) (via (conductors m) TV v') (via (conductors m) TI i').
Proof.
  intros N1 M (A1 & A2 & A3 & A4). unfold follows. rewrite (tr_N _ _ _ _ _ _ M).
  set (n := conductors m) in *. set (N := cells m) in *. set (n' := conductors m') in *.
  assert (EV : forall (x y : nat -> nat -> R) k p, via n TV x p k - via n TV y p k = mulv n TV (fun q => x q k - y q k) p) by (intros; unfold via; now rewrite mulv_sub).
  assert (EI : forall (x y : nat -> nat -> R) k p, via n TI x p k - via n TI y p k = mulv n TI (fun q => x q k - y q k) p) by (intros; unfold via; now rewrite mulv_sub).
  assert (SV : forall (x y : nat -> nat -> R) k p, via n TV x p k + via n TV y p k = mulv n TV (fun q => x q k + y q k) p) by (intros; unfold via; now rewrite mulv_add).
  assert (SI : forall (x y : nat -> nat -> R) k p, via n TI x p k + via n TI y p k = mulv n TI (fun q => x q k + y q k) p) by (intros; unfold via; now rewrite mulv_add).
  assert (ET : forall k p t', (p < n')%nat -> (k <= N)%nat -> eTran m' p k t' = mulv n TV (fun q => eTran m q k t') p) by (intros; now apply (tr_eT _ _ _ _ _ _ M)).
  assert (EL : forall k p t', (p < n')%nat -> (k < N)%nat -> eLong m' p k t' = mulv n TV (fun q => eLong m q k t') p) by (intros; now apply (tr_eL _ _ _ _ _ _ M)).
  split; [|split; [|split]].
  - intros c j Hc Hj. unfold node_ok. cbv zeta. fold n'.
    assert (Ew : width m' j = width m j).
    { unfold width. rewrite (tr_N _ _ _ _ _ _ M). fold N. rewrite !(tr_len _ _ _ _ _ _ M) by (fold N; lia). reflexivity. }
    rewrite (tr_dt _ _ _ _ _ _ M), Ew.
    set (x := fun p => v' p j - v p j + (eTran m p j t - eTran m p j (t - step_dt m))).
    set (y := fun p => v' p j + v p j + (eTran m p j t - eTran m p j (t - step_dt m))).
    rewrite (twine' n n' TI (C_ m j) (C_ m' j) TV x _ c); [|apply (tr_C _ _ _ _ _ _ M); fold N; lia|exact Hc|].
    2: { intros p Hp. rewrite !ET, EV, <- !mulv_sub, <- mulv_add by (auto; lia). reflexivity. }
    rewrite (twine' n n' TI (G_ m j) (G_ m' j) TV y _ c); [|apply (tr_G _ _ _ _ _ _ M); fold N; lia|exact Hc|].
    2: { intros p Hp. rewrite !ET, SV, <- !mulv_sub, <- mulv_add by (auto; lia). reflexivity. }
    transitivity (mulv n TI (fun p => (width m j / step_dt m) * mulv n (C_ m j) x p + (width m j / 2) * mulv n (G_ m j) y p + 1 * i p j + (-1) * i p (j - 1)%nat) c).
    + rewrite lin4, (mulv_scal n TI (-1)). unfold via. unfold Rdiv. rsimpl. rty. ring.
    + transitivity (mulv n TI (fun _ => 0) c); [|apply sumR_zero; intros; rring]. apply mulv_ext. intros p Hp. specialize (A1 p j Hp Hj). unfold node_ok in A1. cbv zeta in A1. fold n in A1.
      fold x y in A1. rewrite <- A1. unfold Rdiv. rsimpl. rty. ring.
  - intros c j Hc Hj. unfold cell_ok. cbv zeta. fold n'. rewrite (tr_dt _ _ _ _ _ _ M), (tr_len _ _ _ _ _ _ M) by (fold N; lia).
    rewrite (twine' n n' TV (L_ m j) (L_ m' j) TI (fun p => i' p j - i p j) _ c); [|apply (tr_L _ _ _ _ _ _ M); fold N; lia|exact Hc|intros; apply EI].
    rewrite (twine' n n' TV (R_ m j) (R_ m' j) TI (fun p => i' p j + i p j) _ c); [|apply (tr_R _ _ _ _ _ _ M); fold N; lia|exact Hc|intros; apply SI].
    rewrite !ET, !EL by (auto; lia). unfold via.
    set (l := mulv n (L_ m j) (fun p => i' p j - i p j)). set (r := mulv n (R_ m j) (fun p => i' p j + i p j)).
    transitivity (mulv n TV (fun p => (cell_len m j / step_dt m) * l p + (cell_len m j / 2) * r p + 1 * (v' p (S j) - v' p j) + (eTran m p (S j) t - eTran m p j t)) c).
    + rewrite lin4, !mulv_sub. unfold Rdiv. rsimpl. rty. ring.
    + transitivity (mulv n TV (fun p => (cell_len m j / 2) * (eLong m p j (t + step_dt m / 2) + eLong m p j (t - step_dt m / 2))) c).
      * apply mulv_ext. intros p Hp. specialize (A2 p j Hp Hj). unfold cell_ok in A2. cbv zeta in A2. fold n in A2. fold (l p) (r p) in A2. unfold Rdiv in *. rsimpl. rty. lra.
      * rewrite mulv_scal, mulv_add. unfold Rdiv. rsimpl. rty. ring.
  - intros c Hc. specialize (A3). unfold end_ok. cbv zeta. fold n'. rewrite (tr_dt _ _ _ _ _ _ M), (tr_dt0 _ _ _ _ _ _ M), (tr_len _ _ _ _ _ _ M) by (fold N; lia).
    pose proof (proj1 (tr_Z _ _ _ _ _ _ M)) as HZ. fold n n' in HZ.
    rewrite (twine' n n' TV (Zs_ m) (Zs_ m') TI (mulv n (C_ m 0) (fun p => v' p 0%nat - v p 0%nat)) _ c HZ Hc).
    2: { intros p Hp. apply (twine' n n' TI _ _ TV); [apply (tr_C _ _ _ _ _ _ M); lia|exact Hp|intros; apply EV]. }
    rewrite (twine' n n' TV (Zs_ m) (Zs_ m') TI (mulv n (G_ m0 0) (fun p => v' p 0%nat + v p 0%nat)) _ c HZ Hc).
    2: { intros p Hp. apply (twine' n n' TI _ _ TV); [apply (tr_G0 _ _ _ _ _ _ M)|exact Hp|intros; apply SV]. }
    rewrite (twine' n n' TV (Zs_ m) (Zs_ m') TI (fun p => i p 0%nat) (fun p => via n TI i p 0%nat) c HZ Hc) by (intros; reflexivity).
    rewrite (twine' n n' TV (Zs_ m) (Zs_ m') TI (mulv n (C_ m 0) (fun p => eTran m p 0 t - eTran m p 0 (t - step_dt m))) _ c HZ Hc).
    2: { intros p Hp. apply (twine' n n' TI _ _ TV); [apply (tr_C _ _ _ _ _ _ M); lia|exact Hp|intros q Hq; rewrite !ET, <- mulv_sub by (auto; lia); reflexivity]. }
    assert (ES : forall t, source m' c 0 t = mulv n TV (fun p => source m p 0 t) c) by (intros; now apply (tr_src _ _ _ _ _ _ M)). rewrite !ES. unfold via.
    set (x := mulv n (Zs_ m) (mulv n (C_ m 0) (fun p => v' p 0%nat - v p 0%nat))). set (y := mulv n (Zs_ m) (mulv n (G_ m0 0) (fun p => v' p 0%nat + v p 0%nat))).
    set (z := mulv n (Zs_ m) (fun p => i p 0%nat)). set (w := mulv n (Zs_ m) (mulv n (C_ m 0) (fun p => eTran m p 0 t - eTran m p 0 (t - step_dt m)))).
    transitivity (mulv n TV (fun p => (cell_len m 0 / step_dt m0) * x p + (cell_len m 0 / 2) * y p + 1 * v' p 0%nat + v p 0%nat) c).
    { rewrite lin4. unfold Rdiv. rsimpl. rty. ring. }
    transitivity (mulv n TV (fun p => 1 * source m p 0 t + (- 2) * z p + (- (cell_len m 0 / step_dt m)) * w p + source m p 0 (t - step_dt m)) c).
    { apply mulv_ext. intros p Hp. specialize (A3 p Hp). unfold end_ok in A3. cbv zeta in A3. fold n in A3. fold (x p) (y p) (z p) (w p) in A3. unfold Rdiv in *. rsimpl. rty. lra. }
    rewrite lin4. unfold Rdiv. rsimpl. rty. ring.
  - intros c Hc. unfold end_ok. cbv zeta. fold n'. rewrite (tr_dt _ _ _ _ _ _ M), (tr_dt0 _ _ _ _ _ _ M), (tr_len _ _ _ _ _ _ M) by (fold N; lia).
    pose proof (proj2 (tr_Z _ _ _ _ _ _ M)) as HZ. fold n n' in HZ.
    rewrite (twine' n n' TV (Zl_ m) (Zl_ m') TI (mulv n (C_ m N) (fun p => v' p N - v p N)) _ c HZ Hc).
    2: { intros p Hp. apply (twine' n n' TI _ _ TV); [apply (tr_C _ _ _ _ _ _ M); fold N; lia|exact Hp|intros; apply EV]. }
    rewrite (twine' n n' TV (Zl_ m) (Zl_ m') TI (mulv n (G_ m0 N) (fun p => v' p N + v p N)) _ c HZ Hc).
    2: { intros p Hp. apply (twine' n n' TI _ _ TV); [apply (tr_G0 _ _ _ _ _ _ M)|exact Hp|intros; apply SV]. }
    rewrite (twine' n n' TV (Zl_ m) (Zl_ m') TI (fun p => i p (N - 1)%nat) (fun p => via n TI i p (N - 1)%nat) c HZ Hc) by (intros; reflexivity).
    rewrite (twine' n n' TV (Zl_ m) (Zl_ m') TI (mulv n (C_ m N) (fun p => eTran m p N t - eTran m p N (t - step_dt m))) _ c HZ Hc).
    2: { intros p Hp. apply (twine' n n' TI _ _ TV); [apply (tr_C _ _ _ _ _ _ M); fold N; lia|exact Hp|intros q Hq; rewrite !ET, <- mulv_sub by (auto; lia); reflexivity]. }
    assert (ES : forall t, source m' c N t = mulv n TV (fun p => source m p N t) c) by (intros; now apply (tr_src _ _ _ _ _ _ M)). rewrite !ES. unfold via.
    set (x := mulv n (Zl_ m) (mulv n (C_ m N) (fun p => v' p N - v p N))). set (y := mulv n (Zl_ m) (mulv n (G_ m0 N) (fun p => v' p N + v p N))).
    set (z := mulv n (Zl_ m) (fun p => i p (N - 1)%nat)). set (w := mulv n (Zl_ m) (mulv n (C_ m N) (fun p => eTran m p N t - eTran m p N (t - step_dt m)))).
    transitivity (mulv n TV (fun p => (cell_len m (N - 1) / step_dt m0) * x p + (cell_len m (N - 1) / 2) * y p + 1 * v' p N + v p N) c).
    { rewrite lin4. unfold Rdiv. rsimpl. rty. ring. }
    transitivity (mulv n TV (fun p => 1 * source m p N t + 2 * z p + (- (cell_len m (N - 1) / step_dt m)) * w p + source m p N (t - step_dt m)) c).
    { apply mulv_ext. intros p Hp. specialize (A4 p Hp). unfold end_ok in A4. cbv zeta in A4. fold n N in A4. fold (x p) (y p) (z p) (w p) in A4. unfold Rdiv in *. rsimpl. rty. lra. }
    rewrite lin4. unfold Rdiv. rsimpl. rty. ring.
Qed.

Theorem transform_runs TV TI (m0 m m0' m' : mtl NumR) T T' : history LA m0 m -> undispersed m -> history LA m0' m' -> undispersed m' ->
  transformed TV TI m0 m m0' m' -> combined TV TI m m' -> forall k a a', run_state LA m T k a -> run_state LA m' T' k a' -> combined TV TI a a'.
Proof.
  intros HH U HH' U' M [V0 I0] k a a' Ha Ha'.
  assert (N1 : (1 <= cells m)%nat) by (apply (sh_N _ (proj1 (history_shape LA _ _ HH)))).
  assert (HR : reachable LA m) by (exists m0; auto). assert (HR' : reachable LA m') by (exists m0'; auto).
  destruct (run_state_inv LA _ _ _ _ (reachable_shape LA _ HR) Ha) as (_ & _ & S & _).
  destruct (run_state_inv LA _ _ _ _ (reachable_shape LA _ HR') Ha') as (_ & _ & S' & _).
  pose proof (related_runs LA LAok m0 m m0' m' T T' (via (conductors m) TV) (via (conductors m) TI) HH U HH' U'
    (tr_dt _ _ _ _ _ _ M) (tr_time _ _ _ _ _ _ M)) as P. rewrite (tr_N _ _ _ _ _ _ M) in P.
  unfold combined. rewrite (rs_cond _ _ S), (rs_cells _ _ S), (rs_cond _ _ S').
  apply (P (fun t v i v' i' => follows_transform TV TI m0 m m0' m' t v i v' i' N1 M)) with (n := k); auto; intros v w E c j; apply mulv_ext; auto.
Qed.
End Props.
