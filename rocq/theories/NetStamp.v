(** Effect of the calls that describe the circuit of a network. *)
From Coq Require Import String List Arith ZArith Bool Permutation Sorted Lia Reals Lra.
From Verif Require Import Num Py Arr ArrFacts NumR RFacts Utils Probes Dispersive Line Bundle Networks Mtln SpecLine SpecBundle SpecNet SpecR LinAlg NetFacts NetBuild CoreEq BundleMore.
Import ListNotations.
Local Open Scope R_scope.

Ltac nring := rsimpl; rty; first [ring | symmetry; ring | apply Rminus_diag_uniq; rsimpl; ring].
Implicit Types w : network NumR.
Implicit Types c : call NumR.

Definition num_of w (id : Z) : nat := match find_node w id with Some nd => nd_index nd | None => 0%nat end.
Definition c_g c : R := match c with Branch _ _ R _ => 1 / R | Short _ _ => @n1e10 NumR | _ => 0 end.
Definition c_a w c : nat := match c with Branch a _ _ _ | Short a _ => num_of w a | _ => 0%nat end.
Definition c_b w c : nat := match c with Branch _ b _ _ | Short _ b => num_of w b | _ => 0%nat end.
Definition c_V c : tfun NumR := match c with Branch _ _ _ V => V | _ => TInt 0 end.
Definition tval (V : tfun NumR) (t : R) : R := match V with TFun f => f t | TInt _ => 0 end.
Definition c_s c : R := if tf_nonzero (c_V c) then c_g c else 0.
Definition dl (a b i : nat) : R := @delta NumR i a - @delta NumR i b.
Definition sm (a b i : nat) : R := @delta NumR i a + @delta NumR i b.

Lemma delta_sym i j : @delta NumR i j = @delta NumR j i.
Proof. unfold delta. now rewrite Nat.eqb_sym. Qed.
Lemma incr_entry n m (A : mat NumR) a b x i j : rectm n m A -> (a < n)%nat -> (b < m)%nat ->
  get2 (incr2 A a b x) i j = get2 A i j + @delta NumR i a * @delta NumR j b * x.
Proof.
  intros H Ha Hb. rewrite (get2_incr2 n m) by auto. unfold delta. rewrite (Nat.eqb_sym a i), (Nat.eqb_sym b j).
  destruct (i =? a)%nat, (j =? b)%nat; cbn [andb]; nring.
Qed.
Lemma stamp_entry n (P : mat NumR) a b (g : NumR) i j : rectm n n P -> (a < n)%nat -> (b < n)%nat ->
  get2 (stamp P a b (- g) g) i j = get2 P i j - g * dl a b i * dl a b j.
Proof.
  intros H Ha Hb. unfold stamp. rewrite !(incr_entry n n) by (auto; repeat apply rectm_incr; auto). unfold dl. nring.
Qed.
Lemma source_add w a V i t : length (w_vsrc w) = w_nodes w -> (a < w_nodes w)%nat ->
  tval (nth i (lset (w_vsrc w) a (add_t_functions (nth a (w_vsrc w) (TInt 0)) V)) (TInt 0)) t = nSrc w i t + @delta NumR i a * tval V t.
Proof.
  intros L Ha. rewrite nth_lset, L, (proj2 (Nat.ltb_lt _ _) Ha), andb_true_r. unfold nSrc, delta. rewrite (Nat.eqb_sym a i).
  destruct (Nat.eqb_spec i a) as [->|]; [|unfold tval; nring].
  unfold add_t_functions, tval. destruct (nth a (w_vsrc w) (TInt 0)), V; nring.
Qed.

Lemma inv_R (R : R) : R <> 0 -> @neqb NumR R 0 = false.
Proof. intros. now apply Reqb_false. Qed.
Lemma pninv_R (R : NumR) y : pninv R = Ok y -> R <> 0 /\ y = - (1 / R).
Proof. unfold pninv. destruct (_ =? _)%num eqn:E; [discriminate|]. apply Reqb_false in E. intros H. injection H as <-. split; [exact E|]. rsimpl. field. exact E. Qed.
Lemma pinv_R (R : NumR) y : pinv R = Ok y -> R <> 0 /\ y = 1 / R.
Proof. unfold pinv. destruct (_ =? _)%num eqn:E; [discriminate|]. apply Reqb_false in E. intros H. injection H as <-. split; [exact E|reflexivity]. Qed.
Lemma set_P_id w : set_P w (w_P1 w) (w_Ps w) (w_vsrc w) = w.
Proof. now destruct w. Qed.

Record effect w c w' : Prop := {
  ef_a : (c_a w c < w_nodes w)%nat; ef_b : (c_b w c < w_nodes w)%nat;
  ef_same : same_but_resistors w w';
  ef_G : forall i j, nG w' i j = nG w i j - c_g c * dl (c_a w c) (c_b w c) i * dl (c_a w c) (c_b w c) j;
  ef_Gs : forall i j, nGs w' i j = nGs w i j + @delta NumR i j * (c_s c * dl (c_a w c) (c_b w c) i);
  ef_src : forall i t, nSrc w' i t = nSrc w i t + sm (c_a w c) (c_b w c) i * tval (c_V c) t
}.
Lemma branch_effect w c w' : nshape w -> between_nodes c -> do_call w c = Ok w' -> effect w c w'.
Proof.
  intros S Hb H. destruct c as [| | | |id1 id2 R V|id1 id2]; try contradiction; cbn [between_nodes do_call] in *.
  - unfold connect_nodes in H. do 3 inv_bind H. cbv zeta in H. do 2 inv_bind H. apply of_option_Ok in Ha, Ha0.
    pose proof (find_index _ _ _ S Ha) as La. pose proof (find_index _ _ _ S Ha0) as Lb.
    apply pninv_R in Ha2 as [HR ->]. apply pinv_R in Ha3 as [_ ->].
    assert (EA : c_a w (Branch id1 id2 R V) = nd_index a) by (cbn [c_a]; unfold num_of; now rewrite Ha).
    assert (EB : c_b w (Branch id1 id2 R V) = nd_index a0) by (cbn [c_b]; unfold num_of; now rewrite Ha0).
    assert (G : forall i j, get2 (stamp (w_P1 w) (nd_index a) (nd_index a0) (- (1 / R)) (1 / R)) i j = nG w i j - 1 / R * dl (nd_index a) (nd_index a0) i * dl (nd_index a) (nd_index a0) j)
      by (intros; apply (stamp_entry (w_nodes w)); auto; apply S).
    destruct (tf_nonzero V) eqn:Et; injection H as <-; split; rewrite ?EA, ?EB; auto.
    + do 3 eexists. reflexivity.
    + intros i j. unfold nGs, c_s, c_V. rewrite Et. unfold set_P, set_stamps. cbn [w_Ps c_g].
      rewrite !(incr_entry (w_nodes w) (w_nodes w)) by (auto; repeat apply rectm_incr; apply S). unfold dl. rsimpl.
      assert (X : forall k, @delta NumR i k * @delta NumR j k = @delta NumR i j * @delta NumR i k).
      { intros k. unfold delta. destruct (Nat.eqb_spec i j) as [->|Hn]; [destruct (j =? k)%nat; nring|]. destruct (Nat.eqb_spec i k) as [->|]; [|nring]. destruct (Nat.eqb_spec j k); [congruence|nring]. }
      rewrite !X. ring.
    + intros i t. set (vs1 := lset (w_vsrc w) (nd_index a) (add_t_functions (nth (nd_index a) (w_vsrc w) (TInt 0)) V)).
      pose (w1 := set_P w (w_P1 w) (w_Ps w) vs1).
      transitivity (nSrc w1 i t + @delta NumR i (nd_index a0) * tval V t).
      * apply (source_add w1 (nd_index a0) V i t); unfold w1, set_P, set_stamps, vs1; cbn [w_vsrc w_nodes]; [rewrite length_lset; apply S|exact Lb].
      * replace (nSrc w1 i t) with (nSrc w i t + @delta NumR i (nd_index a) * tval V t) by (symmetry; apply (source_add w (nd_index a) V i t); [apply S|exact La]).
        cbn [c_V]. unfold sm. nring.
    + do 3 eexists. reflexivity.
    + intros i j. unfold nGs, c_s, c_V. rewrite Et. unfold set_P, set_stamps. cbn [w_Ps]. nring.
    + intros i t. cbn [c_V]. destruct V as [z|f]; [|discriminate Et]. unfold nSrc, tval, set_P, set_stamps. cbn [w_vsrc]. nring.
  - unfold short_nodes in H. do 2 inv_bind H. apply of_option_Ok in Ha, Ha0.
    pose proof (find_index _ _ _ S Ha) as La. pose proof (find_index _ _ _ S Ha0) as Lb. injection H as <-.
    split; cbn [c_a c_b c_g]; unfold num_of; rewrite ?Ha, ?Ha0; auto.
    + do 3 eexists. reflexivity.
    + intros. apply (stamp_entry (w_nodes w)); auto; apply S.
    + intros i j. unfold nGs, c_s. cbn [c_V tf_nonzero]. unfold set_P, set_stamps. cbn [w_Ps]. cbn. nring.
    + intros i t. cbn [c_V]. unfold nSrc, tval, set_P, set_stamps. cbn [w_vsrc]. nring.
Qed.
Lemma branch_accept w c : between_nodes c -> (exists w', do_call w c = Ok w') <->
  match c with Branch a b _ _ | Short a b => (exists n, find_node w a = Some n) /\ exists n, find_node w b = Some n | _ => False end.
Proof.
  intros Hb. destruct c as [| | | |id1 id2 R V|id1 id2]; try contradiction; cbn [between_nodes do_call] in *.
  - unfold connect_nodes. destruct (find_node w id1) as [x1|], (find_node w id2) as [x2|]; cbn [of_option bind];
      try (split; [intros [? X]; discriminate X|intros [[? X] [? Y]]; discriminate]).
    assert (E : @neqb NumR R n0 = false) by (apply Reqb_false; rsimpl; lra).
    unfold pninv, pinv. rewrite E. cbn [negb passert bind]. split; [eauto|]. intros _. destruct (tf_nonzero V); eauto.
  - unfold short_nodes. destruct (find_node w id1) as [x1|], (find_node w id2) as [x2|]; cbn [of_option bind];
      try (split; [intros [? X]; discriminate X|intros [[? X] [? Y]]; discriminate]).
    split; eauto.
Qed.
Lemma same_conns w w' : same_but_resistors w w' -> w_conns w' = w_conns w /\ w_nodes w' = w_nodes w.
Proof. intros (P1 & Ps & vs & ->). split; reflexivity. Qed.
Lemma same_trans w1 w2 w3 : same_but_resistors w1 w2 -> same_but_resistors w2 w3 -> same_but_resistors w1 w3.
Proof. intros (P1 & Ps & vs & ->) (P1' & Ps' & vs' & ->). exists P1', Ps', vs'. reflexivity. Qed.

Fixpoint lsum {A} (f : A -> R) (l : list A) : R := match l with [] => 0 | a :: l' => f a + lsum f l' end.
Lemma lsum_perm {A} (f : A -> R) l l' : Permutation l l' -> lsum f l = lsum f l'.
Proof. induction 1; cbn [lsum]; lra. Qed.
Lemma lsum_ext {A} (f g : A -> R) l : (forall a, f a = g a) -> lsum f l = lsum g l.
Proof. intros E. induction l as [|a l IH]; cbn [lsum]; [reflexivity|]. now rewrite E, IH. Qed.

Record effects w (l : list (call NumR)) w' : Prop := {
  es_a : forall c, In c l -> (c_a w c < w_nodes w)%nat /\ (c_b w c < w_nodes w)%nat;
  es_same : same_but_resistors w w';
  es_G : forall i j, nG w' i j = nG w i j - lsum (fun c => c_g c * dl (c_a w c) (c_b w c) i * dl (c_a w c) (c_b w c) j) l;
  es_Gs : forall i j, nGs w' i j = nGs w i j + @delta NumR i j * lsum (fun c => c_s c * dl (c_a w c) (c_b w c) i) l;
  es_src : forall i t, nSrc w' i t = nSrc w i t + lsum (fun c => sm (c_a w c) (c_b w c) i * tval (c_V c) t) l
}.
Lemma calls_effect l : forall w w', nshape w -> Forall between_nodes l -> do_calls w l = Ok w' -> effects w l w'.
Proof.
  induction l as [|c l IH]; intros w w' S Hb H; unfold do_calls in H; cbn [foldM] in H.
  - injection H as <-. split; try (intros; cbn [lsum]; nring).
    + intros c [].
    + exists (w_P1 w), (w_Ps w), (w_vsrc w). symmetry. apply set_P_id.
  - inv_bind H. inversion Hb as [|? ? Hc Hl]; subst. rename a into w1.
    destruct (branch_effect _ _ _ S Hc Ha) as [Ea Eb Es EG EGs Esr]. destruct (call_shape _ _ _ S Ha) as [S1 _].
    destruct (same_conns _ _ Es) as [Ec En].
    assert (A1 : forall c, c_a w1 c = c_a w c) by (intros []; cbn [c_a]; unfold num_of, find_node; now rewrite ?Ec).
    assert (B1 : forall c, c_b w1 c = c_b w c) by (intros []; cbn [c_b]; unfold num_of, find_node; now rewrite ?Ec).
    destruct (IH _ _ S1 Hl H) as [Fa Fs FG FGs Fsr]. split.
    + intros c0 [<-|Hi]; [auto|]. specialize (Fa _ Hi). rewrite A1, B1, En in Fa. exact Fa.
    + eapply same_trans; eauto.
    + intros. rewrite FG, EG. cbn [lsum]. rewrite (lsum_ext _ (fun c0 => c_g c0 * dl (c_a w c0) (c_b w c0) i * dl (c_a w c0) (c_b w c0) j)) by (intros; now rewrite A1, B1).
      nring.
    + intros. rewrite FGs, EGs. cbn [lsum]. rewrite (lsum_ext _ (fun c0 => c_s c0 * dl (c_a w c0) (c_b w c0) i)) by (intros; now rewrite A1, B1).
      nring.
    + intros. rewrite Fsr, Esr. cbn [lsum]. rewrite (lsum_ext _ (fun c0 => sm (c_a w c0) (c_b w c0) i * tval (c_V c0) t)) by (intros; now rewrite A1, B1).
      nring.
Qed.
Lemma calls_accept l : forall w, Forall between_nodes l -> (exists w', do_calls w l = Ok w') <->
  forall c, In c l -> match c with Branch a b _ _ | Short a b => (exists n, find_node w a = Some n) /\ exists n, find_node w b = Some n | _ => False end.
Proof.
  induction l as [|c l IH]; intros w Hb; unfold do_calls in *; cbn [foldM].
  - split; [intros _ c []|eauto].
  - inversion Hb as [|? ? Hc Hl]; subst.
    assert (K : forall w1, do_call w c = Ok w1 -> w_conns w1 = w_conns w).
    { intros w1 H1. destruct c as [| | | |id1 id2 R V|id1 id2]; try contradiction; cbn [do_call] in H1.
      - unfold connect_nodes in H1. do 3 inv_bind H1. cbv zeta in H1. do 2 inv_bind H1. destruct (tf_nonzero V); injection H1 as <-; reflexivity.
      - unfold short_nodes in H1. do 2 inv_bind H1. injection H1 as <-. reflexivity. }
    split.
    + intros [w' H]. inv_bind H. intros c0 [<-|Hi]; [apply (proj1 (branch_accept w c Hc)); eauto|].
      pose proof (proj1 (IH a Hl) (ex_intro _ w' H) c0 Hi) as X. unfold find_node in X. rewrite (K _ Ha) in X. exact X.
    + intros H. destruct (proj2 (branch_accept w c Hc) (H c (or_introl eq_refl))) as [w1 E]. rewrite E. cbn [bind]. apply (IH w1 Hl).
      intros c0 Hi. specialize (H c0 (or_intror Hi)). unfold find_node in *. rewrite (K _ E). exact H.
Qed.

Lemma dl_sum n a b (x : nat -> R) : (a < n)%nat -> (b < n)%nat -> sumR n (fun j => dl a b j * x j) = x a - x b.
Proof.
  intros Ha Hb. unfold dl. rewrite (sumR_ext n _ (fun j => @delta NumR a j * x j - @delta NumR b j * x j)) by (intros; rewrite (delta_sym k a), (delta_sym k b); nring).
  now rewrite sumR_minus, !sumR_delta_l.
Qed.
Lemma c_g_pos c : between_nodes c -> 0 < c_g c.
Proof.
  destruct c; try contradiction; cbn [between_nodes c_g]; intros H; [apply Rdiv_lt_0_compat; lra|]. unfold n1e10. rsimpl. lra.
Qed.
Lemma sum_lsum {A} n (f : A -> nat -> R) l : sumR n (fun j => lsum (fun a => f a j) l) = lsum (fun a => sumR n (f a)) l.
Proof. induction l as [|a l IH]; cbn [lsum]; [now apply sumR_zero|]. rewrite sumR_plus. f_equal. exact IH. Qed.
Lemma lsum_scal_r {A} (f : A -> R) x l : lsum f l * x = lsum (fun a => f a * x) l.
Proof. induction l as [|a l IH]; cbn [lsum]; [ring|]. rewrite Rmult_plus_distr_r. f_equal. exact IH. Qed.
Lemma lsum_scal_l {A} (f : A -> R) x l : x * lsum f l = lsum (fun a => x * f a) l.
Proof. induction l as [|a l IH]; cbn [lsum]; [ring|]. rewrite Rmult_plus_distr_l. f_equal. exact IH. Qed.
Lemma lsum_nonneg {A} (f : A -> R) l : (forall a, In a l -> 0 <= f a) -> 0 <= lsum f l.
Proof.
  induction l as [|a l IH]; cbn [lsum]; intros H; [lra|]. pose proof (H a (or_introl eq_refl)).
  assert (0 <= lsum f l) by (apply IH; intros; apply H; now right). lra.
Qed.

(** C52 *)
Lemma branches_passive w l w' : nshape w -> Forall between_nodes l -> do_calls w l = Ok w' ->
  let n := w_nodes w in let D i j := nG w' i j - nG w i j in
  symm n D /\ (forall i, (i < n)%nat -> sumR n (fun j => D i j) = 0) /\ (forall x, quad n D x <= 0).
Proof.
  intros S Hb H n D. destruct (calls_effect _ _ _ S Hb H) as [Ea _ EG _ _].
  assert (ED : forall i j, D i j = - lsum (fun c => c_g c * dl (c_a w c) (c_b w c) i * dl (c_a w c) (c_b w c) j) l) by (intros; unfold D; rewrite EG; ring).
  split; [|split].
  - intros i j _ _. rewrite !ED. f_equal. apply lsum_ext. intros c. ring.
  - intros i Hi. rewrite (sumR_ext n _ (fun j => - lsum (fun c => c_g c * dl (c_a w c) (c_b w c) i * dl (c_a w c) (c_b w c) j) l)) by (intros; apply ED).
    rewrite sumR_opp, (sum_lsum n (fun c j => c_g c * dl (c_a w c) (c_b w c) i * dl (c_a w c) (c_b w c) j) l).
    match goal with |- - ?x = 0 => assert (Z : x = 0); [|rewrite Z; apply Ropp_0] end. clear - Ea. induction l as [|c l IH]; cbn [lsum]; [reflexivity|].
    rewrite IH by (intros; apply Ea; now right). rewrite sumR_scal.
    destruct (Ea c (or_introl eq_refl)) as [X Y]. rewrite (sumR_ext n _ (fun j => dl (c_a w c) (c_b w c) j * 1)) by (intros; rring). rewrite (dl_sum n _ _ (fun _ => 1)) by auto. ring.
  - intros x. unfold quad.
    rewrite (sumR_ext n _ (fun i => - lsum (fun c => c_g c * (x i * dl (c_a w c) (c_b w c) i) * (x (c_a w c) - x (c_b w c))) l)).
    + rewrite sumR_opp, (sum_lsum n (fun c i => c_g c * (x i * dl (c_a w c) (c_b w c) i) * (x (c_a w c) - x (c_b w c))) l).
      apply Ropp_le_cancel. rewrite Ropp_0, Ropp_involutive.
      apply lsum_nonneg. intros c Hc. destruct (Ea c Hc) as [X Y]. rewrite sumR_scal_r, sumR_scal.
      rewrite (sumR_ext n _ (fun i => dl (c_a w c) (c_b w c) i * x i)) by (intros; rring). rewrite dl_sum by auto.
      rewrite Forall_forall in Hb. pose proof (c_g_pos c (Hb c Hc)). rewrite Rmult_assoc. apply Rmult_le_pos; [now apply Rlt_le|]. apply Rle_0_sqr.
    + intros i Hi. rewrite (sumR_ext n _ (fun j => - lsum (fun c => c_g c * dl (c_a w c) (c_b w c) i * dl (c_a w c) (c_b w c) j * x j) l)).
      2:{ intros j Hj. rewrite ED, <- Ropp_mult_distr_l, lsum_scal_r. reflexivity. }
      rewrite sumR_opp, (sum_lsum n (fun c j => c_g c * dl (c_a w c) (c_b w c) i * dl (c_a w c) (c_b w c) j * x j) l), <- Ropp_mult_distr_r, lsum_scal_l.
      f_equal. clear - Ea. induction l as [|c l IH]; cbn [lsum]; [reflexivity|]. rewrite IH by (intros; apply Ea; now right). f_equal.
      destruct (Ea c (or_introl eq_refl)) as [X Y].
      rewrite (sumR_ext n _ (fun j => (c_g c * dl (c_a w c) (c_b w c) i) * (dl (c_a w c) (c_b w c) j * x j))) by (intros; rring). rewrite sumR_scal, dl_sum by auto. ring.
Qed.
Lemma branches_order w l l' w1 : nshape w -> Forall between_nodes l -> Permutation l l' -> do_calls w l = Ok w1 ->
  exists w2, do_calls w l' = Ok w2 /\ same_but_resistors w1 w2 /\
    (forall i j, nG w2 i j = nG w1 i j) /\ (forall i j, nGs w2 i j = nGs w1 i j) /\ (forall i t, nSrc w2 i t = nSrc w1 i t).
Proof.
  intros S Hb P H. assert (Hb' : Forall between_nodes l') by (rewrite Forall_forall in *; intros c Hc; apply Hb; eapply Permutation_in; [apply Permutation_sym|]; eauto).
  destruct (proj2 (calls_accept l' w Hb')) as [w2 H2].
  { intros c Hc. apply (proj1 (calls_accept l w Hb)); [eauto|]. eapply Permutation_in; [apply Permutation_sym|]; eauto. }
  exists w2. split; [exact H2|]. destruct (calls_effect _ _ _ S Hb H) as [_ Es EG EGs Esr]. destruct (calls_effect _ _ _ S Hb' H2) as [_ Es' EG' EGs' Esr'].
  split.
  - destruct Es as (P1 & Ps & vs & ->), Es' as (P1' & Ps' & vs' & ->). exists P1', Ps', vs'. reflexivity.
  - repeat split; intros; rewrite ?EG, ?EG', ?EGs, ?EGs', ?Esr, ?Esr'; erewrite (lsum_perm _ l l') by exact P; reflexivity.
Qed.
