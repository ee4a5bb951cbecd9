(** Networks of resistors and capacitors always step. *)
From Coq Require Import String List Arith ZArith Bool Permutation Sorted Lia Reals Lra.
From Verif Require Import Num Py Arr ArrFacts NumR RFacts LinAlg LapackR Utils Probes Dispersive Line Bundle Networks Mtln
  SpecLine SpecBundle SpecNet SpecR HistoryFacts TotalFacts NetFacts NetBuild CoreEq BundleMore NetStamp NetStamp2 NetRLC NetPlace.
Import ListNotations.
Local Open Scope R_scope.

(** *** positive definite blocks *)
Fixpoint blockmat (l : list (nat * (nat -> nat -> R))) (i j : nat) : R :=
  match l with
  | [] => 0
  | (n, M) :: l' => if (i <? n)%nat then (if (j <? n)%nat then M i j else 0) else (if (j <? n)%nat then 0 else blockmat l' (i - n) (j - n))
  end.
Definition btotal (l : list (nat * (nat -> nat -> R))) : nat := list_sum (map fst l).
Definition boff (l : list (nat * (nat -> nat -> R))) (q : nat) : nat := list_sum (map fst (firstn q l)).
Lemma pd_two a b A : pos_def a A -> pos_def b (fun i j => A (a + i)%nat (a + j)%nat) ->
  (forall i j, (i < a)%nat -> (j < b)%nat -> A i (a + j)%nat = 0) -> (forall i j, (i < b)%nat -> (j < a)%nat -> A (a + i)%nat j = 0) -> pos_def (a + b) A.
Proof.
  intros Ha Hb Z1 Z2 x (i & Hi & Hx). rewrite quad_split.
  rewrite (sumR_zero a) by (intros k Hk; rewrite sumR_zero; [rring|intros j Hj; rewrite Z1 by auto; rring]).
  rewrite (sumR_zero b) by (intros k Hk; rewrite sumR_zero; [rring|intros j Hj; rewrite Z2 by auto; rring]).
  pose proof (pd_psd _ _ Ha x) as P1. pose proof (pd_psd _ _ Hb (fun i => x (a + i)%nat)) as P2.
  destruct (Nat.lt_ge_cases i a) as [L|L].
  - assert (0 < quad a A x) by (apply Ha; eauto). lra.
  - assert (0 < quad b (fun i j => A (a + i)%nat (a + j)%nat) (fun i => x (a + i)%nat)).
    { apply Hb. exists (i - a)%nat. split; [lia|]. now replace (a + (i - a))%nat with i by lia. } lra.
Qed.
Lemma pd_0 A : pos_def 0 A. Proof. intros x (i & Hi & _). lia. Qed.
Lemma blockmat_pd l : Forall (fun b => pos_def (fst b) (snd b)) l -> pos_def (btotal l) (blockmat l).
Proof.
  induction l as [|[n M] l IH]; intros F; [apply pd_0|]. inversion F as [|? ? F1 F2]; subst. cbn [fst snd] in F1.
  change (btotal ((n, M) :: l)) with (n + btotal l)%nat. apply pd_two.
  - apply (pd_ext _ M); [|exact F1]. intros i j Hi Hj. cbn [blockmat]. apply (proj2 (Nat.ltb_lt i n)) in Hi. apply (proj2 (Nat.ltb_lt j n)) in Hj. now rewrite Hi, Hj.
  - apply (pd_ext _ (blockmat l)); [|exact (IH F2)]. intros i j Hi Hj. cbn [blockmat].
    rewrite !(proj2 (Nat.ltb_ge _ _)) by lia. f_equal; lia.
  - intros i j Hi Hj. cbn [blockmat]. rewrite (proj2 (Nat.ltb_lt i n) Hi), (proj2 (Nat.ltb_ge _ _)) by lia. reflexivity.
  - intros i j Hi Hj. cbn [blockmat]. rewrite (proj2 (Nat.ltb_ge (n + i) n)), (proj2 (Nat.ltb_lt j n) Hj) by lia. reflexivity.
Qed.
Lemma boff_S n M l q : boff ((n, M) :: l) (S q) = (n + boff l q)%nat. Proof. reflexivity. Qed.
Lemma blockmat_at l : forall q n M q' n' M' x y, nth_error l q = Some (n, M) -> nth_error l q' = Some (n', M') -> (x < n)%nat -> (y < n')%nat ->
  blockmat l (boff l q + x) (boff l q' + y) = if (q =? q')%nat then M x y else 0.
Proof.
  induction l as [|[n0 M0] l IH]; intros q n M q' n' M' x y H H' Hx Hy; [destruct q; discriminate H|].
  destruct q as [|q], q' as [|q']; cbn [nth_error] in H, H'.
  - injection H as -> ->. injection H' as -> ->. cbn [blockmat Nat.eqb]. change (boff _ 0) with 0%nat. rewrite !Nat.add_0_l.
    now rewrite (proj2 (Nat.ltb_lt x n') Hx), (proj2 (Nat.ltb_lt y n') Hy).
  - injection H as -> ->. rewrite boff_S. cbn [blockmat Nat.eqb]. change (boff _ 0) with 0%nat. rewrite Nat.add_0_l.
    rewrite (proj2 (Nat.ltb_lt x n) Hx), (proj2 (Nat.ltb_ge _ _)) by lia. reflexivity.
  - injection H' as -> ->. rewrite boff_S. cbn [blockmat Nat.eqb]. change (boff _ 0) with 0%nat. rewrite Nat.add_0_l.
    rewrite (proj2 (Nat.ltb_ge (n' + _ + x) n')), (proj2 (Nat.ltb_lt y n') Hy) by lia. reflexivity.
  - rewrite !boff_S. cbn [blockmat Nat.eqb]. rewrite !(proj2 (Nat.ltb_ge _ _)) by lia.
    replace (n0 + boff l q + x - n0)%nat with (boff l q + x)%nat by lia. replace (n0 + boff l q' + y - n0)%nat with (boff l q' + y)%nat by lia.
    eapply IH; eauto.
Qed.
Lemma block_owner l : forall i, (i < btotal l)%nat -> exists q n M x, nth_error l q = Some (n, M) /\ (x < n)%nat /\ i = (boff l q + x)%nat.
Proof.
  induction l as [|[n M] l IH]; intros i Hi; [cbn in Hi; lia|]. change (btotal ((n, M) :: l)) with (n + btotal l)%nat in Hi.
  destruct (Nat.lt_ge_cases i n) as [L|L].
  - exists 0%nat, n, M, i. repeat split; auto.
  - destruct (IH (i - n)%nat ltac:(lia)) as (q & n' & M' & x & A & B & C). exists (S q), n', M', x. rewrite boff_S. repeat split; auto. lia.
Qed.
Lemma blocks_pd l A : Forall (fun b => pos_def (fst b) (snd b)) l ->
  (forall q n M q' n' M' x y, nth_error l q = Some (n, M) -> nth_error l q' = Some (n', M') -> (x < n)%nat -> (y < n')%nat ->
     A (boff l q + x)%nat (boff l q' + y)%nat = if (q =? q')%nat then M x y else 0) -> pos_def (btotal l) A.
Proof.
  intros F E. apply (pd_ext _ (blockmat l)); [|exact (blockmat_pd l F)]. intros i j Hi Hj.
  destruct (block_owner l i Hi) as (q & n & M & x & H1 & H2 & ->). destruct (block_owner l j Hj) as (q' & n' & M' & y & H1' & H2' & ->).
  rewrite (E _ _ _ _ _ _ _ _ H1 H1' H2 H2'). eapply blockmat_at; eauto.
Qed.

Section S.
Variable LA : lapack NumR.
Hypothesis LAok : lapack_ok LA.
Hypothesis LAc : lapack_complete LA.
Implicit Types w : network NumR.
Implicit Types ds : list (descr NumR).

(** the capacitance of the end cells, seen from the nodes, is positive definite *)
Definition end_blocks ds : list (nat * (nat -> nat -> R)) :=
  map (fun d : descr NumR => (conductors (d_line d), fun x y => cell_len (d_line d) (end_cell d) * C_ (d_line d) (end_node d) x y)) ds.
Lemma nth_blocks ds q n M : nth_error (end_blocks ds) q = Some (n, M) -> exists d, nth_error ds q = Some d /\ n = conductors (d_line d) /\
  M = fun x y => cell_len (d_line d) (end_cell d) * C_ (d_line d) (end_node d) x y.
Proof.
  unfold end_blocks. rewrite nth_error_map. destruct (nth_error ds q) as [d|]; cbn [option_map]; [|discriminate]. intros H. injection H as <- <-. eauto.
Qed.
Lemma end_boff ds q : all_connected ds -> boff (end_blocks ds) q = first_node ds q.
Proof.
  intros A. rewrite (first_node_row ds q A). unfold boff, end_blocks, first_row_of. rewrite firstn_map, map_map. reflexivity.
Qed.
Lemma nodes_total ds w : network_new ds = Ok w -> all_connected ds -> btotal (end_blocks ds) = w_nodes w /\ w_csize w = w_nodes w.
Proof.
  intros H A. destruct (new_built _ _ H) as (a & nds & B & E1 & E2 & E3 & E4 & _).
  assert (T : btotal (end_blocks ds) = list_sum (map (fun d => conductors (d_line d)) ds)) by (unfold btotal, end_blocks; rewrite map_map; reflexivity).
  assert (L : length (a_conns a) = list_sum (map (fun d => conductors (d_line d)) ds)).
  { rewrite (bt_conns _ _ _ B). pose proof (bt_nodes _ _ _ B) as F. clear - F A. revert A. induction F as [|d l ds nds [_ F1] F IH]; intros A; [reflexivity|].
    inversion A as [|? ? A1 A2]; subst. cbn [concat map list_sum]. rewrite app_length, (IH A2).
    change (list_sum (conductors (d_line d) :: map (fun d0 => conductors (d_line d0)) ds)) with (conductors (d_line d) + list_sum (map (fun d0 => conductors (d_line d0)) ds))%nat. f_equal.
    assert (length l = length (sort_conns (d_conns d))) as -> by (clear - F1; induction F1; cbn; congruence).
    rewrite sort_length. apply Permutation_length in A1. now rewrite map_length, seq_length in A1. }
  split; [congruence|]. rewrite E4, (bt_cs _ _ _ B). congruence.
Qed.
Lemma dxc_pd ds w : net_history LA ds w -> all_connected ds -> Forall (fun d : descr NumR => physical (d_line d)) ds ->
  pos_def (w_nodes w) (fun i j => nLen w i * nCap w i j) /\ w_csize w = w_nodes w.
Proof.
  intros H A F. destruct (history_kept _ _ _ H) as (w0 & H0 & K). destruct (nodes_total _ _ H0 A) as [T C]. split; [|rewrite (nk_cs _ _ K), (nk_n _ _ K); exact C].
  rewrite (nk_n _ _ K), <- T. apply blocks_pd.
  - unfold end_blocks. apply Forall_map. revert F. apply Forall_impl. intros d P. cbn [fst snd].
    assert (E : (end_cell d < cells (d_line d))%nat /\ (end_node d <= cells (d_line d))%nat).
    { assert (1 <= cells (d_line d))%nat by (apply (sh_N _ (ph_shape _ P))). unfold end_cell, end_node. destruct (d_end d); lia. }
    apply pd_scal; [apply (ph_h _ P)|apply (ph_C _ P)]; apply E.
  - intros q n M q' n' M' x y Hq Hq' Hx Hy. destruct (nth_blocks _ _ _ _ Hq) as (d & D1 & -> & ->). destruct (nth_blocks _ _ _ _ Hq') as (d' & D1' & -> & ->).
    rewrite !end_boff by exact A. destruct (node_ends LA ds w q d x H A D1 Hx) as (_ & E1 & _ & E2 & E3). cbv zeta in E1, E2, E3.
    rewrite E1. destruct (Nat.eqb_spec q q') as [Eq|Nq].
    + subst q'. assert (d' = d) by congruence. subst d'. now rewrite (E2 y Hy).
    + rewrite (E3 q' d' y D1' Hy Nq). rring.
Qed.

(** *** grounds *)
Record rc_net w : Prop := {
  rc_shape : nshape w; rc_G : pos_semidef (w_nodes w) (fun i j => - nG w i j); rc_Q : pos_semidef (w_nodes w) (fun i j => - nQ w i j);
  rc_src : Forall (fun V => exists f, V = TFun f) (w_vsrc w)
}.
Record rc_diag w : Prop := {
  rd_rc : Forall (fun V => exists f, V = TFun f) (w_vsrc w);
  rd_G : forall i j, i <> j -> nG w i j = 0; rd_G' : forall i, nG w i i <= 0;
  rd_Q : forall i j, i <> j -> nQ w i j = 0; rd_Q' : forall i, nQ w i i <= 0 }.
Lemma diag_psd n (A : nat -> nat -> R) : (forall i j, i <> j -> A i j = 0) -> (forall i, A i i <= 0) -> pos_semidef n (fun i j => - A i j).
Proof.
  intros Z P x. unfold quad. apply sumR_nonneg. intros i Hi.
  rewrite (sumR_single n _ i) by (auto; intros j _ Nj; rewrite Z by auto; rring). specialize (P i). nra.
Qed.
Lemma new_diag ds w : network_new ds = Ok w -> rc_diag w.
Proof.
  intros H. destruct (new_zero _ _ H) as (G & _ & _). destruct (new_built _ _ H) as (a & nds & B & E).
  assert (Eq : w_Q1 w = zeros2 (w_nodes w) (w_nodes w)) by tauto. assert (Ev : w_vsrc w = mk (w_nodes w) (fun _ => TFun (fun _ => @n0 NumR))) by tauto. clear E.
  assert (Q : forall i j, nQ w i j = 0) by (intros; unfold nQ; rewrite Eq; exact (get2_zeros _ _ _ _)).
  split.
  - rewrite Ev. apply Forall_forall. intros V HV. unfold mk in HV. apply in_map_iff in HV as (k & <- & _). eauto.
  - auto.
  - intros i. rewrite G. right. reflexivity.
  - auto.
  - intros i. rewrite Q. right. reflexivity.
Qed.
Lemma lset_Forall {A} (P : A -> Prop) l k x : Forall P l -> P x -> Forall P (lset l k x).
Proof. intros F. revert k. induction F as [|a l Pa F IH]; intros [|k] Px; cbn; auto. Qed.
Lemma diag_upd n (A : mat NumR) k (x : NumR) : rectm n n A -> (k < n)%nat -> (forall i j, i <> j -> get2 A i j = 0) -> (forall i, get2 A i i <= 0) -> x <= 0 ->
  (forall i j, i <> j -> get2 (upd2 A k k x) i j = 0) /\ (forall i, get2 (upd2 A k k x) i i <= 0).
Proof.
  intros S Hk Z P Hx. split.
  - intros i j Nij. rewrite (get2_upd2 n n A k k x i j S Hk Hk). destruct (Nat.eqb_spec k i), (Nat.eqb_spec k j); cbn [andb]; try (apply Z; exact Nij). congruence.
  - intros i. rewrite (get2_upd2 n n A k k x i i S Hk Hk). destruct (Nat.eqb_spec k i); cbn [andb]; [exact Hx|apply P].
Qed.
Lemma pninv_neg (R : NumR) y : 0 < R -> pninv R = Ok y -> y <= 0.
Proof.
  intros H E. apply pninv_R in E as [_ ->]. assert (0 < 1 / R) by (apply Rdiv_lt_0_compat; [lra|exact H]). lra.
Qed.
Lemma ground_diag w c w' : nshape w -> rc_diag w -> to_ground c -> do_call w c = Ok w' -> rc_diag w'.
Proof.
  intros S D T H. destruct c as [id R V|id R L C V|id C V|id|id1 id2 R V|id1 id2]; try (exfalso; exact T); cbn [do_call] in H.
  - destruct T as [HR HV]. unfold connect_to_ground in H. inv_bind H. apply of_option_Ok in Ha. pose proof (find_index _ _ _ S Ha) as Hk. cbv zeta in H. inv_bind H. rename a into nd. rename a0 into P1.
    assert (E : P1 = upd2 (w_P1 w) (nd_index nd) (nd_index nd) (- (1 / R))).
    { rewrite inv_R in Ha0 by lra. cbn [negb] in Ha0. inv_bind Ha0. apply pninv_R in Ha1 as [_ Ey]. rewrite Ey in Ha0. now apply OkI in Ha0. }
    assert (HR' : - (1 / R) <= 0) by (assert (0 < 1 / R) by (apply Rdiv_lt_0_compat; [lra|exact HR]); lra).
    destruct (diag_upd _ (w_P1 w) (nd_index nd) (- (1 / R)) (sh_P1 _ S) Hk (rd_G _ D) (rd_G' _ D) HR') as [Z1 Z2]. rewrite <- E in Z1, Z2.
    destruct (tf_nonzero V) eqn:EV.
    + inv_bind H. apply OkI in H. subst w'. split; try exact Z1; try exact Z2; try exact (rd_Q _ D); try exact (rd_Q' _ D).
      apply lset_Forall; [exact (rd_rc _ D)|]. destruct HV as [->|HV]; [discriminate EV|exact HV].
    + apply OkI in H. subst w'. split; try exact Z1; try exact Z2; try exact (rd_Q _ D); try exact (rd_Q' _ D). exact (rd_rc _ D).
  - destruct T as [HC HV]. unfold connect_to_ground_C in H. inv_bind H. apply of_option_Ok in Ha. pose proof (find_index _ _ _ S Ha) as Hk. cbv zeta in H. rename a into nd.
    set (Q1 := if negb (@neqb NumR C n0) then upd2 (w_Q1 w) (nd_index nd) (nd_index nd) (@nopp NumR C) else w_Q1 w) in H.
    assert (Z : (forall i j, i <> j -> get2 Q1 i j = 0) /\ (forall i, get2 Q1 i i <= 0)).
    { subst Q1. destruct (negb _); [|split; [exact (rd_Q _ D)|exact (rd_Q' _ D)]]. apply (diag_upd (w_nodes w)); [exact (sh_Q1 _ S)|exact Hk|exact (rd_Q _ D)|exact (rd_Q' _ D)|].
      assert (HC' : - C <= 0) by lra. exact HC'. }
    destruct Z as [Z1 Z2]. destruct (tf_nonzero V) eqn:EV.
    + apply OkI in H. subst w'. split; try exact Z1; try exact Z2; try exact (rd_G _ D); try exact (rd_G' _ D).
      apply lset_Forall; [exact (rd_rc _ D)|]. destruct HV as [->|HV]; [discriminate EV|exact HV].
    + apply OkI in H. subst w'. split; try exact Z1; try exact Z2; try exact (rd_G _ D); try exact (rd_G' _ D). exact (rd_rc _ D).
  - unfold short_to_ground in H. inv_bind H. apply of_option_Ok in Ha. pose proof (find_index _ _ _ S Ha) as Hk. cbv zeta in H. rename a into nd.
    assert (N1 : @nopp NumR n1e10 <= 0) by (unfold n1e10; rsimpl; cbn; lra).
    destruct (diag_upd _ (w_P1 w) (nd_index nd) _ (sh_P1 _ S) Hk (rd_G _ D) (rd_G' _ D) N1) as [Z1 Z2].
    apply OkI in H. subst w'. split; try exact Z1; try exact Z2; try exact (rd_Q _ D); try exact (rd_Q' _ D). exact (rd_rc _ D).
Qed.
Lemma grounds_diag gs : forall w w', nshape w -> rc_diag w -> Forall to_ground gs -> do_calls w gs = Ok w' -> nshape w' /\ rc_diag w'.
Proof.
  induction gs as [|c gs IH]; intros w w' S D F H; [apply OkI in H; subst; split; assumption|]. unfold do_calls in H. cbn [foldM] in H. inv_bind H.
  inversion F as [|? ? F1 F2]; subst. destruct (call_shape _ _ _ S Ha) as [S1 _]. apply (IH a w'); auto. exact (ground_diag w c a S D F1 Ha).
Qed.
Lemma branch_src w c w' : nshape w -> Forall (fun V : tfun NumR => exists f, V = TFun f) (w_vsrc w) -> between_nodes c -> do_call w c = Ok w' ->
  Forall (fun V : tfun NumR => exists f, V = TFun f) (w_vsrc w').
Proof.
  intros S F B H. destruct c as [id R V|id R L C V|id C V|id|id1 id2 R V|id1 id2]; try (exfalso; exact B); cbn [do_call] in H.
  - unfold connect_nodes in H. inv_bind H. inv_bind H. inv_bind H. cbv zeta in H. inv_bind H. inv_bind H.
    apply of_option_Ok in Ha, Ha0. apply (find_index _ _ _ S) in Ha, Ha0.
    assert (AT : forall g W, (exists f : NumR -> NumR, g = TFun f) -> exists f : NumR -> NumR, add_t_functions g W = TFun f).
    { intros g W [f ->]. unfold add_t_functions. destruct W; eauto. }
    assert (NT : forall l k, Forall (fun V : tfun NumR => exists f, V = TFun f) l -> (k < length l)%nat -> exists f, nth k l (TInt 0) = TFun f).
    { intros l k Fl Hk. rewrite Forall_forall in Fl. apply Fl, nth_In. exact Hk. }
    destruct (tf_nonzero V); apply OkI in H; subst w'; [|exact F]. cbn [set_P set_stamps w_vsrc]. pose proof (sh_vs _ S) as SV.
    apply lset_Forall; [apply lset_Forall; [exact F|apply AT, NT; auto; rewrite SV; auto]|].
    apply AT, NT; [apply lset_Forall; [exact F|apply AT, NT; auto; rewrite SV; auto]|]. rewrite length_lset, SV. auto.
  - unfold short_nodes in H. inv_bind H. inv_bind H. apply OkI in H. subst w'. exact F.
Qed.
Lemma branches_src bs : forall w w', nshape w -> Forall (fun V : tfun NumR => exists f, V = TFun f) (w_vsrc w) -> Forall between_nodes bs -> do_calls w bs = Ok w' ->
  nshape w' /\ Forall (fun V : tfun NumR => exists f, V = TFun f) (w_vsrc w').
Proof.
  induction bs as [|c bs IH]; intros w w' S D F H; [apply OkI in H; subst; split; assumption|]. unfold do_calls in H. cbn [foldM] in H. inv_bind H.
  inversion F as [|? ? F1 F2]; subst. destruct (call_shape _ _ _ S Ha) as [S1 _]. apply (IH a w'); auto. exact (branch_src w c a S D F1 Ha).
Qed.
Lemma built_rc ds w0 gs bs w : network_new ds = Ok w0 -> Forall to_ground gs -> Forall between_nodes bs -> do_calls w0 (gs ++ bs) = Ok w -> rc_net w.
Proof.
  intros H G B E. unfold do_calls in E. rewrite foldM_app in E. inv_bind E. rename a into w1. pose proof (new_shape _ _ H) as S0.
  destruct (grounds_diag gs _ _ S0 (new_diag _ _ H) G Ha) as [S1 D1]. destruct (branches_src bs _ _ S1 (rd_rc _ D1) B E) as [S2 F2].
  pose proof (calls_effect bs _ _ S1 B E) as Ef. destruct (branches_passive _ _ _ S1 B E) as (_ & _ & Pb). cbv zeta in Pb.
  assert (En : w_nodes w = w_nodes w1) by (destruct (es_same _ _ _ Ef) as (P & Q & V & ->); reflexivity).
  assert (Eq : forall i j, nQ w i j = nQ w1 i j) by (destruct (es_same _ _ _ Ef) as (P & Q & V & ->); reflexivity).
  split; [exact S2| | |exact F2]; rewrite En.
  - pose proof (diag_psd (w_nodes w1) (nG w1) (rd_G _ D1) (rd_G' _ D1)) as P1. intros x. specialize (P1 x). specialize (Pb x).
    assert (Q : quad (w_nodes w1) (fun i j => - nG w i j) x = quad (w_nodes w1) (fun i j => - nG w1 i j) x - quad (w_nodes w1) (fun i j => nG w i j - nG w1 i j) x).
    { unfold quad. rewrite <- sumR_minus. apply sumR_ext. intros i Hi. rewrite <- Rmult_minus_distr_l. f_equal. rewrite <- sumR_minus. apply sumR_ext. intros. rring. }
    rewrite Q. lra.
  - apply (psd_ext _ (fun i j => - nQ w1 i j)); [intros; now rewrite Eq|]. exact (diag_psd _ (nQ w1) (rd_Q _ D1) (rd_Q' _ D1)).
Qed.
Lemma after_rc w w' : rc_net w -> after LA (@no_call NumR) w w' -> rc_net w'.
Proof.
  intros R. induction 1 as [|x c w' _ Rx [] |x bs level conns _ Rx H|x dt w' _ Rx H|x t dt w' _ Rx H|x bs w' _ Rx H]; [exact R| | | |].
  - destruct (register_shape _ _ _ _ (rc_shape _ Rx) H) as [S' _]. destruct Rx as [? RG RQ RS]. split; auto.
  - destruct (terms_shape _ _ _ (rc_shape _ Rx) H) as [S' _]. unfold compute_v_terms in H. destruct (negb _); [discriminate H|]. cbv zeta in H. apply OkI in H. subst w'.
    destruct Rx as [? RG RQ RS]. split; [exact S'|exact RG|exact RQ|exact RS].
  - destruct (volt_shape LA _ _ _ _ (rc_shape _ Rx) H) as [S' _]. unfold nw_advance_voltage in H. inv_bind H. cbv zeta in H. destruct (w_AB x) as [[[A B1] B2]|]; [|discriminate H]. inv_bind H.
    apply OkI in H. subst w'. destruct Rx as [? RG RQ RS]. split; [exact S'|exact RG|exact RQ|exact RS].
  - destruct (curr_shape _ _ _ (rc_shape _ Rx) H) as [S' _]. unfold nw_update_currents in H. inv_bind H. apply OkI in H. subst w'.
    destruct Rx as [? RG RQ RS]. split; [exact S'|exact RG|exact RQ|exact RS].
Qed.
Lemma eval_total (l : list (tfun NumR)) t : Forall (fun V => exists f, V = TFun f) l -> exists a, eval_tfuns l t = Ok a.
Proof.
  unfold eval_tfuns. induction 1 as [|V l [f ->] F [a IH]]; [exists []; reflexivity|]. cbn [mapM bind]. rewrite IH. cbn [bind]. eauto.
Qed.

(** the step never raises *)
Lemma rc_step w (dt t : NumR) : rc_net w -> pos_def (w_nodes w) (fun i j => nLen w i * nCap w i j) -> w_ns w = 0%nat -> fresh_terms w dt -> 0 < dt ->
  exists w', nw_advance_voltage LA w t dt = Ok w'.
Proof.
  intros R P Ns (wt & Ht & Eab) Hdt. unfold nw_advance_voltage.
  destruct (eval_total _ t (rc_src _ R)) as [a Ea]. destruct (eval_total _ (t - dt) (rc_src _ R)) as [b Eb]. destruct (eval_total _ (t - n2 * dt)%num (rc_src _ R)) as [c Ec].
  unfold w_sources. setoid_rewrite Ea. cbn [bind]. setoid_rewrite Eb. cbn [bind]. setoid_rewrite Ec. cbn [bind]. cbv zeta.
  unfold compute_v_terms in Ht. destruct (negb _); [discriminate Ht|]. cbv zeta in Ht. apply OkI in Ht. rewrite <- Eab, <- Ht. cbn [w_AB].
  set (n := w_nodes w) in *.
  assert (PA : pos_def n (fun i j => 1 / dt * (nLen w i * nCap w i j) + (- nG w i j + 1 / dt * (- nQ w i j)))).
  { apply pd_add_psd; [apply pd_scal; [apply Rdiv_lt_0_compat; [lra|exact Hdt]|exact P]|].
    intros y. pose proof (rc_G _ R y) as P1. pose proof (psd_scal n (1 / dt) _ ltac:(left; apply Rdiv_lt_0_compat; [lra|exact Hdt]) (rc_Q _ R) y) as P2. fold n in P1.
    assert (Q : quad n (fun i j => - nG w i j + 1 / dt * (- nQ w i j)) y = quad n (fun i j => - nG w i j) y + quad n (fun i j => 1 / dt * - nQ w i j) y).
    { unfold quad. rewrite <- sumR_plus. apply sumR_ext. intros i Hi. rewrite <- Rmult_plus_distr_l. f_equal. rewrite <- sumR_plus. apply sumR_ext. intros. rring. }
    rewrite Q. apply Rplus_le_le_0_compat; [exact P1|exact P2]. }
  match goal with |- exists w', bind (of_option _ (la_solve LA ?n ?A ?r)) _ = _ => destruct (solve_complete LA LAc n A r) as [x Ex]; [| |rewrite Ex; cbn [bind of_option]; eauto] end.
  all: rewrite Ns, Nat.add_0_r.
  2: { intros y Hy. apply (pd_kernel n _ y PA). intros i Hi. eapply eq_trans; [|exact (Hy i Hi)]. apply sumR_ext. intros j Hj.
    rewrite get2_mk2 by lia. rewrite !(proj2 (Nat.ltb_lt _ _)) by assumption.
    unfold w_dxc. fold n. rewrite get2_mk2 by assumption. unfold nLen, nCap, nG, nQ. rsimpl. f_equal. rty. field. lra. }
  match goal with |- exists x : vec NumR, forall i, (i < n)%nat -> _ = get ?r i => destruct (pd_solve n _ PA (get r)) as [y Hy] end.
  exists (@mk NumR n y). intros i Hi. rewrite <- (Hy i Hi). apply sumR_ext. intros j Hj. rewrite (@get_mk NumR n y j Hj).
  rewrite get2_mk2 by (fold n; lia). rewrite !(proj2 (Nat.ltb_lt _ _)) by (fold n; assumption).
  unfold w_dxc. fold n. rewrite get2_mk2 by assumption. unfold nLen, nCap, nG, nQ. rsimpl. f_equal. rty. field. lra.
Qed.
Lemma rc_terms ds w (dt : NumR) : net_history LA ds w -> all_connected ds -> Forall (fun d : descr NumR => physical (d_line d)) ds -> exists w', compute_v_terms w dt = Ok w'.
Proof.
  intros H A F. destruct (dxc_pd ds w H A F) as [_ E]. unfold compute_v_terms. rewrite E, Nat.eqb_refl. cbn [negb]. cbv zeta. eauto.
Qed.

(** a network of lines with positive capacitance, resistors and capacitors never raises *)
Lemma rc_total ds w0 gs bs w1 w (dt : NumR) : Forall (fun d : descr NumR => physical (d_line d)) ds -> all_connected ds -> network_new ds = Ok w0 -> w_ns w0 = 0%nat ->
  Forall to_ground gs -> Forall between_nodes bs -> do_calls w0 (gs ++ bs) = Ok w1 -> after LA (@no_call NumR) w1 w -> 0 < dt ->
  (exists w', compute_v_terms w dt = Ok w') /\ (net_run LA ds dt w -> forall t, exists w', nw_advance_voltage LA w t dt = Ok w').
Proof.
  intros F A H Ns G B E Af Hdt.
  assert (H1 : net_history LA ds w1).
  { clear - H E. revert E. generalize (gs ++ bs). intros l. assert (H0 : net_history LA ds w0) by now apply nh_new. clear H. revert w0 H0.
    induction l as [|c l IH]; intros w0 H0 E; [apply OkI in E; subst; exact H0|]. unfold do_calls in E. cbn [foldM] in E. inv_bind E. apply (IH a); [eapply nh_call; eauto|exact E]. }
  pose proof (after_run LA _ ds _ _ H1 Af) as Hw. split; [eapply rc_terms; eauto|]. intros Hr t.
  apply rc_step; auto.
  - eapply after_rc; [eapply built_rc; eauto|exact Af].
  - exact (proj1 (dxc_pd ds w Hw A F)).
  - destruct (history_kept _ _ _ Hw) as (w0' & H0' & K). assert (w0' = w0) by congruence. subst w0'. rewrite (nk_ns _ _ K). exact Ns.
  - eapply run_terms; eauto.
Qed.
End S.
