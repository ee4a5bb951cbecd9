(** C48-C50: assembly of bundles, lines that do not interact, localized longitudinal fields.
    Vocabulary: SpecBundle.v, SpecAlone.v (a line inside a bundle and alone), SpecField.v
    (straight bundles and covered fractions of cells). *)
From Coq Require Import String List Arith ZArith Bool Lia Reals Lra.
From Verif Require Import Num Py Arr NumR RFacts LapackR Probes Dispersive Line Bundle Networks Mtln SpecLine SpecGeom SpecR SpecBundle SpecCore SpecAlone
  SpecField TotalFacts ArrFacts BundleFacts BundleR BundleMore AloneRun FieldFacts GeomProps2 ExampleLine ExampleRun ExampleBundle PropGeom.
Import ListNotations.
Local Open Scope R_scope.

(** ** C48 *)
Theorem C48_block_diagonal (N : num) levels name (b : bundle N) q q' m m' c c' k : mtld_new levels name = Ok b ->
  let ls := concat levels in
  nth_error ls q = Some m -> nth_error ls q' = Some m' -> (c < conductors m)%nat -> (c' < conductors m')%nat ->
  let i := (first_row ls q + c)%nat in let j := (first_row ls q' + c')%nat in
  let block {A} (x zero : A) := if (q =? q')%nat then x else zero in
  ((k < b_cells b)%nat ->
     get3 (k_l (b_core b)) k i j = block (L_ m k c c') n0 /\ get3 (k_r (b_core b)) k i j = block (R_ m k c c') n0 /\
     dD (b_disp b) k i j = block (dD (m_disp m) k c c') n0 /\ dE (b_disp b) k i j = block (dE (m_disp m) k c c') n0 /\
     dP1 (b_disp b) k i j = block (dP1 (m_disp m) k c c') qzero /\ dP2 (b_disp b) k i j = block (dP2 (m_disp m) k c c') qzero /\
     dP3 (b_disp b) k i j = block (dP3 (m_disp m) k c c') qzero) /\
  ((k <= b_cells b)%nat ->
     get3 (k_c (b_core b)) k i j = block (C_ m k c c') n0 /\ get3 (k_g (b_core b)) k i j = block (G_ m k c c') n0).
Proof. exact (new_blocks levels name b q q' m m' c c' k). Qed.
Print Assumptions C48_block_diagonal.
(** every row belongs to one conductor of one line *)
Theorem C48_rows (N : num) levels name (b : bundle N) i : mtld_new levels name = Ok b ->
  (i < b_conductors b)%nat <->
  exists q m c, nth_error (concat levels) q = Some m /\ (c < conductors m)%nat /\ i = (first_row (concat levels) q + c)%nat.
Proof. exact (row_owner levels name b i). Qed.
Print Assumptions C48_rows.
Theorem C48_rows_distinct (N : num) levels name (b : bundle N) q m c q' m' c' : mtld_new levels name = Ok b ->
  nth_error (concat levels) q = Some m -> nth_error (concat levels) q' = Some m' -> (c < conductors m)%nat -> (c' < conductors m')%nat ->
  (first_row (concat levels) q + c = first_row (concat levels) q' + c')%nat -> q = q' /\ c = c'.
Proof. exact (row_unique levels name b q m c q' m' c'). Qed.
Print Assumptions C48_rows_distinct.
Theorem C48_counts (N : num) levels name (b : bundle N) : mtld_new levels name = Ok b ->
  b_conductors b = list_sum (map conductors (concat levels)) /\
  b_cil b = map (fun l => list_sum (map conductors l)) levels /\
  b_conductors b = list_sum (b_cil b) /\ b_levels b = levels /\ b_name b = name /\ b_probes b = [] /\
  (forall c k, b_volt b c k = n0 /\ b_curr b c k = n0).
Proof. exact (new_counts levels name b). Qed.
Print Assumptions C48_counts.
Theorem C48_smallest_step levels name (b : bundle NumR) : mtld_new levels name = Ok b ->
  (forall m, In m (concat levels) -> k_dt (b_core b) <= step_dt m) /\
  ((forall m, In m (concat levels) -> step_dt m < 10000000000) -> exists m, In m (concat levels) /\ k_dt (b_core b) = step_dt m) /\
  k_dt (b_core b) <= 10000000000.
Proof. exact (new_step levels name b). Qed.
Print Assumptions C48_smallest_step.
Theorem C48_common_nodes levels name (b : bundle NumR) : mtld_new levels name = Ok b ->
  (exists outer rest, levels = [outer] :: rest /\ b_u b = m_u outer /\ b_du b = m_du outer) /\
  forall m, In m (concat levels) -> m_u m = b_u b.
Proof. exact (new_nodes levels name b). Qed.
Print Assumptions C48_common_nodes.
Theorem C48_accepted_iff (N : num) (levels : list (list (mtl N))) name : (exists b, mtld_new levels name = Ok b) <->
  exists outer rest, levels = [outer] :: rest /\ forall m, In m (concat levels) -> u_eqb (m_u outer) (m_u m) = true.
Proof. exact (new_accepts levels name). Qed.
Print Assumptions C48_accepted_iff.
Theorem C48_rejected_with (N : num) (levels : list (list (mtl N))) name e : mtld_new levels name = Err e ->
  (levels = [] /\ e = KeyError) \/ (levels <> [] /\ e = AssertionError).
Proof. exact (new_rejects levels name e). Qed.
Print Assumptions C48_rejected_with.
(** two levels of one line each: the second line's inductance is entry (1,1), entry (0,1) is 0 *)
Example C48_example : exists (m : mtl NumR) b, mtld_new [[m]; [m]] "b" = Ok b /\ nth_error (concat [[m]; [m]]) 1 = Some m /\ conductors m = 1%nat /\
  first_row (concat [[m]; [m]]) 1 = 1%nat /\ L_ m 0 0 0 = 4 /\ get3 (k_l (b_core b)) 0 1 1 = 4 /\ get3 (k_l (b_core b)) 0 0 1 = 0.
Proof.
  destruct pair_exists as (m & b & P). pose proof (pr_one _ _ P) as O. exists m, b. split; [apply (pr_new _ _ P)|]. split; [reflexivity|].
  assert (E : conductors m = 1%nat) by apply (ol_n _ _ _ _ _ _ _ _ _ O). split; [exact E|].
  assert (F : first_row (concat [[m]; [m]]) 1 = 1%nat) by (unfold first_row; cbn; now rewrite E). split; [exact F|].
  assert (EL : L_ m 0 0 0 = 4). { destruct (pr_L _ _ P 0%nat 0%nat 0%nat) as [X _]; try lia.
    destruct (C48_block_diagonal NumR _ _ _ 0%nat 0%nat m m 0%nat 0%nat 0%nat (pr_new _ _ P) eq_refl eq_refl) as [Y _]; try (rewrite E; lia).
    destruct Y as (Y & _); [rewrite (pr_N _ _ P); lia|]. cbn in Y. unfold kL in X. cbn in X. rewrite <- Y, X. lra. }
  split; [exact EL|].
  destruct (C48_block_diagonal NumR _ _ _ 1%nat 1%nat m m 0%nat 0%nat 0%nat (pr_new _ _ P) eq_refl eq_refl) as [Y _]; try (rewrite E; lia).
  destruct (C48_block_diagonal NumR _ _ _ 0%nat 1%nat m m 0%nat 0%nat 0%nat (pr_new _ _ P) eq_refl eq_refl) as [Z _]; try (rewrite E; lia).
  destruct Y as (Y & _); [rewrite (pr_N _ _ P); lia|]. destruct Z as (Z & _); [rewrite (pr_N _ _ P); lia|].
  rewrite F in Y, Z. cbn [Nat.eqb] in Y, Z. rewrite EL in Y. split; [exact Y|exact Z].
Qed.

(** ** C49: line number [q] of a bundle without transfer impedances and the same line in a bundle of
    its own, both using the same time step, the same end voltages and the same fields *)
Theorem C49_line_as_if_alone (LA : lapack NumR) levels q (m : mtl NumR) b a : lapack_ok LA ->
  Forall (Forall (reachable LA)) levels -> Forall (Forall undispersed) levels ->
  nth_error (concat levels) q = Some m -> own_cells levels m ->
  beside LA levels q m b a ->
  forall c k, (c < conductors m)%nat ->
    ((k <= b_cells b)%nat -> b_volt b (first_row (concat levels) q + c) k = b_volt a c k) /\
    ((k < b_cells b)%nat -> b_curr b (first_row (concat levels) q + c) k = b_curr a c k).
Proof. intros LAok HR HU Hm HC. exact (beside_rows LA LAok levels q m HR HU Hm HC b a). Qed.
Print Assumptions C49_line_as_if_alone.
(** a bundle of two equal lines: 1 V is written at the start of the inner one, 5 V at the start of the
    other, and a whole step is taken *)
Example C49_example : exists m b a, Forall (Forall (reachable LR)) [[m]; [m]] /\ Forall (Forall undispersed) [[m]; [m]] /\
  nth_error (concat [[m]; [m]]) 1 = Some m /\ own_cells [[m]; [m]] m /\ beside LR [[m]; [m]] 1 m b a /\
  b_volt a 0 0 = 1 /\ b_volt b 0 0 = 5.
Proof.
  destruct pair_exists as (m & b & P). pose proof (pr_one _ _ P) as O. exists m.
  assert (R1 : reachable LR m) by (exists m; constructor; apply (pr_built _ _ P)).
  assert (R : Forall (Forall (reachable LR)) [[m]; [m]]) by (repeat constructor; exact R1).
  assert (U : Forall (Forall undispersed) [[m]; [m]]) by (repeat constructor; apply (pr_und _ _ P)).
  assert (Ph : Forall (Forall physical) [[m]; [m]]) by (pose proof (pr_phys _ _ P); auto 8).
  assert (E : conductors m = 1%nat) by apply (ol_n _ _ _ _ _ _ _ _ _ O).
  destruct (bundle_of_one m "a") as (a & Ha & _).
  pose proof (be_new LR [[m]; [m]] 1 m _ _ b a (pr_new _ _ P) Ha) as B0.
  apply (be_dt LR _ _ _ _ _ 1) in B0. set (b0 := b_set_core b (set_dt (b_core b) 1)) in *.
  destruct (new_prepare LR LR_complete _ _ b 1 5 R Ph (pr_new _ _ P)) as (b1 & Hb1 & Sb1); [lra|]. fold b0 in Hb1.
  destruct (new_prepare LR LR_complete [[m]] "a"%string a 1 5) as (a1 & Ha1 & Sa1); auto; try (pose proof (pr_phys _ _ P); auto 8); [lra|].
  pose proof (be_prepare LR _ _ _ _ _ 5 5 b1 a1 B0 Hb1) as B1. specialize (B1 Ha1).
  assert (B2 : beside LR [[m]; [m]] 1 m (put_end b1 1 false 1) (put_end a1 0 false 1)).
  { assert (X := be_own LR [[m]; [m]] 1 m _ _ 0%nat false 1 B1). unfold first_row in X. cbn [concat app firstn map list_sum fold_right] in X. rewrite E in X.
    cbn in X. apply X. lia. }
  assert (Nb : k_n (b_core b1) = 2%nat /\ k_v (b_core b1) = @zeros2 NumR 2 4 /\ k_n (b_core a1) = 1%nat /\ k_v (b_core a1) = @zeros2 NumR 1 4).
  { assert (Pk : forall (x y : bundle NumR), bundle_prepare LR 5 x = Ok y -> k_n (b_core y) = k_n (b_core x) /\ k_v (b_core y) = k_v (b_core x)).
    { clear. intros x y H. unfold bundle_prepare in H. inv_bind H. inv_bind H. apply CoreEq.OkI in H. subst y. apply LineFacts.update_lr_inv in Ha as [t ->]. apply LineFacts.update_cg_inv in Ha0 as [t' ->]. split; reflexivity. }
    destruct (Pk _ _ Hb1) as [-> ->]. destruct (Pk _ _ Ha1) as [-> ->]. cbn.
    destruct (new_frame _ _ _ (pr_new _ _ P)) as (o1 & r1 & X1 & Y1 & Z1 & _ & V1 & _). destruct (new_frame _ _ _ Ha) as (o2 & r2 & X2 & Y2 & Z2 & _ & V2 & _).
    injection X1 as <- <-. injection X2 as <- <-. pose proof (pr_n _ _ P) as E1. pose proof (pr_N _ _ P) as E2. unfold b_conductors, b_cells in *.
    rewrite V1, V2, E1, E2. split; [reflexivity|]. split; [reflexivity|]. rewrite Y2, Z2, <- Z1, E2. rewrite count_sum. cbn. rewrite E. split; reflexivity. }
  destruct Nb as (N1 & V1 & N2 & V2).
  assert (B3 : beside LR [[m]; [m]] 1 m (put_end (put_end b1 1 false 1) 0 false 5) (put_end a1 0 false 1)).
  { apply be_other; [exact B2| |]. - unfold b_conductors, put_end. cbn. rewrite N1. lia.
    - intros c Hc. unfold first_row. cbn. rewrite E. lia. }
  destruct (volt_total (put_end (put_end b1 1 false 1) 0 false 5) 0 1 (put_steady _ _ _ _ (put_steady _ _ _ _ Sb1))) as (b2 & Hb2 & Sb2).
  destruct (volt_total (put_end a1 0 false 1) 0 1 (put_steady _ _ _ _ Sa1)) as (a2 & Ha2 & Sa2).
  pose proof (be_volt LR _ _ _ _ _ 0 1 _ _ B3 Hb2 Ha2) as B4.
  destruct (curr_total b2 0 1 Sb2) as (b3 & Hb3 & _). destruct (curr_total a2 0 1 Sa2) as (a3 & Ha3 & _).
  pose proof (be_curr LR _ _ _ _ _ 0 1 _ _ B4 Hb3 Ha3) as B5. exists b3, a3.
  split; [exact R|]. split; [exact U|]. split; [reflexivity|]. split. { intros outer rest X k Hk. injection X as <- <-. reflexivity. }
  split; [exact B5|].
  assert (Vk : forall (x y z : bundle NumR) c, @bundle_advance_voltage NumR 0 1 x = Ok y -> @bundle_advance_current NumR 0 1 y = Ok z -> (c < k_n (b_core x))%nat -> b_volt z c 0 = b_volt x c 0).
  { clear. intros x y z c H1 H2 Hc. unfold bundle_advance_voltage, advance_voltage in H1. destruct (k_cg (b_core x)) as [[vt idf]|]; [|discriminate H1].
    cbn [bind] in H1. apply CoreEq.OkI in H1. subst y. unfold bundle_advance_current, advance_current in H2. cbn [b_core b_set_core b_set set_v k_lr k_disp k_v k_n k_N] in H2.
    inv_bind H2. inv_bind Ha. destruct (k_lr (b_core x)) as [[it vd]|]; [|discriminate Ha]. inv_bind Ha. apply CoreEq.OkI in Ha. apply CoreEq.OkI in H2. subst.
    unfold b_volt. cbn [b_core b_set_core b_set set_v set_i_disp set_disp k_v]. rewrite get2_mk2 by lia. reflexivity. }
  split.
  - rewrite (Vk _ _ _ 0%nat Ha2 Ha3) by (cbn; rewrite N2; lia). unfold b_volt, put_end. cbn. rewrite V2. reflexivity.
  - rewrite (Vk _ _ _ 0%nat Hb2 Hb3) by (cbn; rewrite N1; lia). unfold b_volt, put_end. cbn. rewrite V1. reflexivity.
Qed.

(** ** C50 *)
(** nothing but the fields of the given conductor changes, and they are only added to *)
Theorem C50_accumulates (N : num) (b : bundle N) st en c f ty b' : add_localized_longitudinal_field b st en c f ty = Ok b' -> field_arrays b ->
  field_arrays b' /\
  (exists eL, b' = b_set_core b (set_fields (b_core b) eL (k_eT (b_core b)))) /\
  (forall i k, i <> c -> field_at b' i k = field_at b i k) /\
  exists factors : nat -> list N, forall k, field_at b' c k = fold_left (fun old x t => (old t + x * f t)%num) (factors k) (field_at b c k).
Proof. exact (field_frame b st en c f ty b'). Qed.
Print Assumptions C50_accumulates.
(** on a straight bundle every cell gets the fraction of it that lies between the two positions *)
Theorem C50_fraction_of_the_cell b p w x st en c f ty b' y z m : straight b p w x ->
  add_localized_longitudinal_field b st en c f ty = Ok b' -> field_arrays b -> ty <> "Planewave"%string ->
  on_line p w y (pos_vec st) -> on_line p w z (pos_vec en) -> resolved (b_cells b) x y -> resolved (b_cells b) x z ->
  (m <= b_cells b)%nat -> y <= x m -> x m <= z ->
  ((exists k, (k <= b_cells b)%nat /\ y = x k) \/ x 0%nat + x 1%nat < 2 * y) ->
  forall k t, (k < b_cells b)%nat -> field_at b' c k t = field_at b c k t + covered x y z k * f t.
Proof. exact (field_fraction b p w x st en c f ty b' y z m). Qed.
Print Assumptions C50_fraction_of_the_cell.
Theorem C50_fraction_range x y z k : x k < x (S k) -> 0 <= covered x y z k <= 1.
Proof. exact (covered_range x y z k). Qed.
Print Assumptions C50_fraction_range.
(** positions on nodes *)
Theorem C50_on_nodes b p w x st en c f ty b' s e : straight b p w x ->
  add_localized_longitudinal_field b st en c f ty = Ok b' -> field_arrays b ->
  on_line p w (x s) (pos_vec st) -> on_line p w (x e) (pos_vec en) -> resolved (b_cells b) x (x s) -> resolved (b_cells b) x (x e) ->
  (s < e)%nat -> (e <= b_cells b)%nat ->
  forall k t, (k < b_cells b)%nat ->
    field_at b' c k t = field_at b c k t +
      (if ((s <=? k) && (k <? e))%nat then (if String.eqb ty "Planewave" then / INR (e - s) else 1) * f t else 0).
Proof. exact (field_nodes b p w x st en c f ty b' s e). Qed.
Print Assumptions C50_on_nodes.
Theorem C50_accepted b p w x (st en : posarg NumR) c f ty y z m : straight b p w x ->
  on_line p w y (pos_vec st) -> on_line p w z (pos_vec en) -> resolved (b_cells b) x y -> resolved (b_cells b) x z ->
  (forall j, (j < 3)%nat -> 0 <= nth j w 0) -> (c < b_conductors b)%nat ->
  (m <= b_cells b)%nat -> x 0%nat <= y <= x m -> x m <= z <= x (b_cells b) ->
  ((exists k, (k <= b_cells b)%nat /\ y = x k) \/ (x 0%nat + x 1%nat < 2 * y /\ 2 * y < x (b_cells b - 1)%nat + x (b_cells b))) ->
  ((exists k, (k <= b_cells b)%nat /\ z = x k) \/ 2 * z < x (b_cells b - 1)%nat + x (b_cells b)) ->
  exists b', add_localized_longitudinal_field b st en c f ty = Ok b'.
Proof. intros ST. exact (field_accepted b p w x ST st en c f ty y z m). Qed.
Print Assumptions C50_accepted.
(** a position the code cannot handle: the field ends past the middle of the last cell but not on
    the last node *)
Theorem C50_end_in_last_half_cell_raises b p w x (st en : posarg NumR) c f ty z : straight b p w x -> on_line p w z (pos_vec en) ->
  (forall k, (k <= b_cells b)%nat -> / 10000000000 < Rabs (z - x k)) ->
  x (b_cells b - 1)%nat + x (b_cells b) < 2 * z -> z < x (b_cells b) -> (1 <= b_cells b)%nat -> (forall j, (j < 3)%nat -> 0 <= nth j w 0) ->
  @out_of_box NumR (b_u b) (pos_vec st) = false ->
  add_localized_longitudinal_field b st en c f ty = Err IndexError.
Proof. intros ST. exact (field_end_fails b p w x ST st en c f ty z). Qed.
Print Assumptions C50_end_in_last_half_cell_raises.

(** the three-cell line along z in a bundle; a field from z = 5/4 to z = 9/4 *)
Lemma ex_straight : exists b, (exists m, mtld_new [[m]] "b" = Ok b) /\ b_cells b = 3%nat /\ b_conductors b = 2%nat /\ field_arrays b /\ straight b [0; 0; 0] [0; 0; 1] INR.
Proof.
  destruct (ex_new_ok (fun _ => []) (fun _ => [])) as (m & Hm & P & Hn & HN & _ & _ & _ & _ & Hu).
  destruct (bundle_of_one m "b") as (b & Hb & Hbu). exists b. split; [now exists m|]. unfold ex_new in Hm.
  pose proof (equal_divisions LR _ _ _ _ _ _ _ _ 3 1 _ _ _ m Hm) as (_ & _ & L1 & L2 & Hc & _).
  destruct (mtld_new_inv _ _ _ Hb) as (o & r & E & _ & _ & _ & _ & _ & Ed & Ec & Ex). injection E as <- <-.
  assert (X : b_cells b = 3%nat) by (rewrite Ex, L1; reflexivity). 
  assert (Y : b_conductors b = 2%nat) by (rewrite Ec, count_sum; cbn; now rewrite Hn).
  destruct (new_frame _ _ _ Hb) as (o' & r' & _ & _ & _ & _ & _ & _ & HeL & _). unfold b_cells, b_conductors in *.
  split; [exact X|]. split; [exact Y|]. split.
  { unfold field_arrays, b_cells, b_conductors. rewrite HeL. split; [unfold mk2; now rewrite length_mk|]. intros c Hc'. unfold mk2. rewrite nth_mk by exact Hc'. now rewrite length_mk. }
  split; unfold b_cells; rewrite ?X, ?Hbu, ?Ed; auto.
  - cbn. lra.
  - rewrite Hu. intros k Hk j Hj. assert (k = 0 \/ k = 1 \/ k = 2 \/ k = 3)%nat as [-> |[-> |[-> | ->]]] by lia;
      (assert (j = 0 \/ j = 1 \/ j = 2)%nat as [-> |[-> | ->]] by lia); cbn; lra.
  - intros k j Hk Hj. destruct (Hc 0%nat k j) as [_ Q]; [lia|lia|lia|]. cbn [Nat.mul Nat.add] in Q. unfold coord in Q. 
    rewrite S_INR. match type of Q with ?l = _ => change (l = (INR k + 1 - INR k) * nth j [0; 0; 1] 0) end. rewrite Q.
    assert (j = 0 \/ j = 1 \/ j = 2)%nat as [-> |[-> | ->]] by lia; cbn; lra.
  - intros k Hk. rewrite S_INR. lra.
Qed.
Lemma near_quarter (y : R) (i : Z) : y = IZR i / 4 -> (i mod 4 <> 0)%Z -> resolved 3 INR y.
Proof.
  intros -> H k _. right. rewrite INR_IZR_INZ. assert (4 * Z.of_nat k <> i)%Z by (intros <-; apply H; rewrite Z.mul_comm; apply Z_mod_mult).
  replace (IZR i / 4 - IZR (Z.of_nat k)) with (IZR (i - 4 * Z.of_nat k) / 4) by (rewrite minus_IZR, mult_IZR; field).
  assert (G : 1 <= Rabs (IZR (i - 4 * Z.of_nat k))) by (rewrite <- abs_IZR; apply IZR_le; lia).
  unfold Rdiv. rewrite Rabs_mult, (Rabs_right (/ 4)) by lra. lra.
Qed.
Example C50_example : exists b b', straight b [0; 0; 0] [0; 0; 1] INR /\ b_cells b = 3%nat /\ field_arrays b /\
  on_line [0; 0; 0] [0; 0; 1] (5/4) (pos_vec (@PosF NumR (5/4))) /\ on_line [0; 0; 0] [0; 0; 1] (9/4) (pos_vec (@PosF NumR (9/4))) /\
  resolved 3 INR (5/4) /\ resolved 3 INR (9/4) /\
  add_localized_longitudinal_field b (@PosF NumR (5/4)) (@PosF NumR (9/4)) 1 (fun t => t) "Delta" = Ok b' /\
  covered INR (5/4) (9/4) 0 = 0 /\ covered INR (5/4) (9/4) 1 = 3/4 /\ covered INR (5/4) (9/4) 2 = 1/4.
Proof.
  destruct ex_straight as (b & _ & X & Y & A & ST). 
  assert (O : forall y, on_line [0; 0; 0] [0; 0; 1] y (pos_vec (@PosF NumR y))).
  { intros y j Hj. assert (j = 0 \/ j = 1 \/ j = 2)%nat as [-> |[-> | ->]] by lia; cbn; lra. }
  assert (R1 : resolved 3 INR (5/4)) by (apply (near_quarter _ 5); [reflexivity|discriminate]).
  assert (R2 : resolved 3 INR (9/4)) by (apply (near_quarter _ 9); [reflexivity|discriminate]).
  assert (H : exists b', add_localized_longitudinal_field b (@PosF NumR (5/4)) (@PosF NumR (9/4)) 1 (fun t => t) "Delta" = Ok b').
  { apply (C50_accepted b _ _ _ (@PosF NumR (5/4)) (@PosF NumR (9/4)) 1 (fun t => t) "Delta" (5/4) (9/4) 2 ST); rewrite ?X, ?Y; auto.
    - intros j Hj. assert (j = 0 \/ j = 1 \/ j = 2)%nat as [-> |[-> | ->]] by lia; cbn; lra.
    - cbn; lra.
    - cbn; lra.
    - right. cbn; lra.
    - right. cbn; lra. }
  destruct H as (b' & H).
  exists b, b'. do 8 (split; [auto|]). unfold covered. cbn [INR].
    rewrite (Rmax_left (5/4) 0), (Rmin_right (9/4) 1), (Rmax_left 0 (1 - 5/4)) by lra. split; [lra|].
    rewrite (Rmax_left (5/4) 1), (Rmin_right (9/4) (1 + 1)), (Rmax_right 0) by lra. split; [lra|].
    rewrite (Rmax_right (5/4) (1 + 1)), (Rmin_left (9/4)), (Rmax_right 0) by lra. lra.
Qed.
