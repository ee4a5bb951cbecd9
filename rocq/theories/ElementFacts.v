(** The current a circuit sends into a node is that of the components its calls describe. *)
From Coq Require Import String List Arith ZArith Bool Permutation Lia Reals Lra.
From Verif Require Import Num Py Arr ArrFacts NumR RFacts Utils Probes Dispersive Line Bundle Networks Mtln SpecLine SpecBundle SpecNet SpecRLC SpecElement SpecR LinAlg
  NetFacts NetBuild NetR CoreEq BundleMore NetStamp NetStamp2 NetRLC NetPlace.
Import ListNotations.
Local Open Scope R_scope.

Implicit Types w : network NumR.
Implicit Types c : call NumR.

Lemma e10 : @n1e10 NumR = 10 ^ 10.
Proof. unfold n1e10. rsimpl. cbn. lra. Qed.

(** diagonal circuits: no component between two nodes *)
Record diag w : Prop := {
  dg_G : forall i j, i <> j -> nG w i j = 0; dg_Gs : forall i j, i <> j -> nGs w i j = 0;
  dg_Q : forall i j, i <> j -> nQ w i j = 0; dg_Qs : forall i j, i <> j -> nQs w i j = 0 }.
Record blank w k : Prop := {
  bl_O : forall j, nO w k j = 0; bl_G : nG w k k = 0; bl_Gs : nGs w k k = 0; bl_Q : nQ w k k = 0; bl_Qs : nQs w k k = 0;
  bl_src : forall t, nSrc w k t = 0 }.
Record same_line w w' i : Prop := {
  sl_ns : w_ns w' = w_ns w;
  sl_O : forall j, nO w' i j = nO w i j; sl_G : nG w' i i = nG w i i; sl_Gs : nGs w' i i = nGs w i i; sl_Q : nQ w' i i = nQ w i i; sl_Qs : nQs w' i i = nQs w i i;
  sl_src : forall t, nSrc w' i t = nSrc w i t }.
Definition row_current w (dt t : R) (v vp x : nat -> R) i : R :=
  sumR (w_ns w) (fun j => nO w i j * x j) + nG w i i * v i + nGs w i i * nSrc w i t + nQ w i i * (v i - vp i) / dt + nQs w i i * (nSrc w i t - nSrc w i (t - dt)) / dt.
Definition all_current w (dt t : R) (v vp x : nat -> R) i : R :=
  @circuit_current NumR w dt v vp x (fun j => nSrc w j t) (fun j => nSrc w j (t - dt)) i.

Lemma diag_current w dt t v vp x i : diag w -> (i < w_nodes w)%nat -> all_current w dt t v vp x i = row_current w dt t v vp x i.
Proof.
  intros D Hi. unfold row_current. transitivity (sumR (w_ns w) (fun j => nO w i j * x j) + sumR (w_nodes w) (fun j => nG w i j * v j) + sumR (w_nodes w) (fun j => nGs w i j * nSrc w j t)
    + sumR (w_nodes w) (fun j => nQ w i j * (v j - vp j)) / dt + sumR (w_nodes w) (fun j => nQs w i j * (nSrc w j t - nSrc w j (t - dt))) / dt); [reflexivity|].
  rewrite (sumR_single (w_nodes w) (fun j => nG w i j * v j) i) by (auto; intros j _ Nj; rewrite (dg_G _ D) by auto; rsimpl; ring).
  rewrite (sumR_single (w_nodes w) (fun j => nGs w i j * nSrc w j t) i) by (auto; intros j _ Nj; rewrite (dg_Gs _ D) by auto; rsimpl; ring).
  rewrite (sumR_single (w_nodes w) (fun j => nQ w i j * (v j - vp j)) i) by (auto; intros j _ Nj; rewrite (dg_Q _ D) by auto; rsimpl; ring).
  rewrite (sumR_single (w_nodes w) (fun j => nQs w i j * (nSrc w j t - nSrc w j (t - dt))) i) by (auto; intros j _ Nj; rewrite (dg_Qs _ D) by auto; rsimpl; ring).
  reflexivity.
Qed.
Lemma same_line_refl w i : same_line w w i. Proof. split; reflexivity. Qed.
Lemma same_line_trans w1 w2 w3 i : same_line w1 w2 i -> same_line w2 w3 i -> same_line w1 w3 i.
Proof. intros [] []. split; intros; congruence. Qed.
Lemma same_line_current w w' dt t v vp x i : same_line w w' i -> row_current w' dt t v vp x i = row_current w dt t v vp x i.
Proof.
  intros [E1 E2 E3 E4 E5 E6 E7]. unfold row_current. rewrite E1, E3, E4, E5, E6, !E7. f_equal. f_equal. f_equal. f_equal. apply sumR_ext. intros j _. now rewrite E2.
Qed.
Lemma same_line_blank w w' i : same_line w w' i -> blank w i -> blank w' i.
Proof. intros [] []. split; intros; congruence. Qed.
Lemma blank_current w dt t v vp x i : blank w i -> row_current w dt t v vp x i = 0.
Proof.
  intros []. unfold row_current. rewrite bl_G0, bl_Gs0, bl_Q0, bl_Qs0. rewrite sumR_zero by (intros; rewrite bl_O0; ring). unfold Rdiv. ring.
Qed.

(** the four ways to end a node *)
Lemma diag_set n (A : mat NumR) k (y : NumR) : rectm n n A -> (k < n)%nat -> (forall i j, i <> j -> get2 A i j = 0) -> forall i j, i <> j -> get2 (upd2 A k k y) i j = 0.
Proof.
  intros S Hk Z i j Nij. rewrite (get2_upd2 n n A k k y i j S Hk Hk). destruct (Nat.eqb_spec k i), (Nat.eqb_spec k j); cbn [andb]; try (apply Z; exact Nij). congruence.
Qed.
Lemma set_at n m (A : mat NumR) k q (y : NumR) : rectm n m A -> (k < n)%nat -> (q < m)%nat -> get2 (upd2 A k q y) k q = y.
Proof. intros S Hk Hq. rewrite (get2_upd2 n m) by auto. now rewrite !Nat.eqb_refl. Qed.
Lemma set_off n m (A : mat NumR) k q (y : NumR) i j : rectm n m A -> (k < n)%nat -> (q < m)%nat -> i <> k -> get2 (upd2 A k q y) i j = get2 A i j.
Proof. intros S Hk Hq Ni. rewrite (get2_upd2 n m) by auto. now rewrite (proj2 (Nat.eqb_neq k i)) by congruence. Qed.
Lemma src_at (l : list (tfun NumR)) k V t : (k < length l)%nat -> match nth k (lset l k V) (TInt 0) with TFun f => f t | TInt _ => @n0 NumR end = source_value V t.
Proof. intros H. rewrite nth_lset, Nat.eqb_refl, (proj2 (Nat.ltb_lt _ _) H). cbn [andb]. now destruct V. Qed.
Lemma src_off (l : list (tfun NumR)) k V i : i <> k -> nth i (lset l k V) (TInt 0) = nth i l (TInt 0).
Proof. intros H. rewrite nth_lset. now rewrite (proj2 (Nat.eqb_neq k i)) by congruence. Qed.
Lemma no_source V t : tf_nonzero V = false -> source_value V t = 0.
Proof. now destruct V. Qed.

Definition ended w c w' k : Prop :=
  diag w' /\ (forall i, i <> k -> same_line w w' i) /\
  (blank w k -> forall dt t v vp x, row_current w' dt t v vp x k = ground_current c dt t (v k) (vp k) (x (first_state w (ground_id c)))).

Ltac offs S := repeat first [rewrite (set_off (w_nodes _) (w_nodes _)) by (auto; apply S) | rewrite (set_off (w_nodes _) (w_ns _)) by (auto; repeat apply rectm_upd; auto; apply S)].

Lemma ground_ends w c w' : nshape w -> diag w -> grounds c -> do_call w c = Ok w' -> exists k, numbered w (ground_id c) k /\ ended w c w' k.
Proof.
  intros Sh D G H. destruct c as [id r V|id r L C V|id C V|id|id1 id2 r V|id1 id2]; try contradiction; cbn [do_call grounds ground_id] in *.
  - unfold connect_to_ground in H. inv_bind H. cbv zeta in H. apply of_option_Ok in Ha. rename a into nd. pose proof (find_index _ _ _ Sh Ha) as Hk. set (k := nd_index nd) in *.
    exists k. split; [exists nd; auto|]. inv_bind H. rewrite inv_R in Ha0 by exact G. cbn [negb] in Ha0. inv_bind Ha0. apply pninv_R in Ha1 as [_ ->]. apply OkI in Ha0. subst a.
    destruct (tf_nonzero V) eqn:EV.
    + inv_bind H. apply pinv_R in Ha0 as [_ ->]. apply OkI in H. subst w'. split; [|split].
      * split; [apply (diag_set (w_nodes w)); auto; [apply Sh|apply D]|apply (diag_set (w_nodes w)); auto; [apply Sh|apply D]|apply D|apply D].
      * intros i Ni. split; try reflexivity; [exact (set_off _ _ _ _ _ _ _ _ (sh_P1 _ Sh) Hk Hk Ni)|exact (set_off _ _ _ _ _ _ _ _ (sh_Ps _ Sh) Hk Hk Ni)|].
        intros t. unfold nSrc, set_P, set_stamps. cbn [w_vsrc]. now rewrite src_off.
      * intros B dt t v vp x. unfold row_current, nG, nGs, nSrc, set_P, set_stamps. cbn [w_P1 w_Ps w_ns w_vsrc].
        rewrite (set_at _ _ _ _ _ _ (sh_P1 _ Sh) Hk Hk), (set_at _ _ _ _ _ _ (sh_Ps _ Sh) Hk Hk), !src_at by (rewrite (sh_vs _ Sh); exact Hk).
        unfold nQ, nQs, nO. cbn [w_O w_Q1 w_Qs]. rewrite (sumR_zero (w_ns w)) by (intros; rewrite (bl_O _ _ B : forall j, get2 (w_O w) k j = 0); rsimpl; ring).
        rewrite (bl_Q _ _ B : get2 (w_Q1 w) k k = 0), (bl_Qs _ _ B : get2 (w_Qs w) k k = 0). cbn [ground_current]. rsimpl. unfold Rdiv. ring.
    + apply OkI in H. subst w'. split; [|split].
      * split; [apply (diag_set (w_nodes w)); auto; [apply Sh|apply D]|apply D|apply D|apply D].
      * intros i Ni. split; try reflexivity. exact (set_off _ _ _ _ _ _ _ _ (sh_P1 _ Sh) Hk Hk Ni).
      * intros B dt t v vp x. unfold row_current, nG, set_P, set_stamps. cbn [w_P1 w_ns].
        rewrite (set_at _ _ _ _ _ _ (sh_P1 _ Sh) Hk Hk). unfold nQ, nQs, nO, nGs. cbn [w_O w_Q1 w_Qs w_Ps].
        rewrite (sumR_zero (w_ns w)) by (intros; rewrite (bl_O _ _ B : forall j, get2 (w_O w) k j = 0); rsimpl; ring).
        rewrite (bl_Q _ _ B : get2 (w_Q1 w) k k = 0), (bl_Qs _ _ B : get2 (w_Qs w) k k = 0), (bl_Gs _ _ B : get2 (w_Ps w) k k = 0).
        cbn [ground_current]. rewrite (no_source V t EV). rsimpl. unfold Rdiv. ring.
  - unfold connect_to_ground_LCpRs in H. inv_bind H. cbv zeta in H. apply of_option_Ok in Ha. rename a into nd. pose proof (find_index _ _ _ Sh Ha) as Hk. set (k := nd_index nd) in *.
    exists k. split; [exists nd; auto|].
    assert (FS : first_state w id = hd 0%nat (nd_state nd)) by (unfold first_state; now rewrite Ha).
    pose proof (states_nodup w id nd Sh Ha) as ND. pose proof (fun y => find_states w id nd y Sh Ha) as Hs.
    destruct (nd_state nd) as [|x0 [|x1 [|]]] eqn:Es; try (inv_bind H; discriminate H). cbn [hd] in FS.
    assert (L0 : (x0 < w_ns w)%nat) by (apply Hs; now left). assert (L1 : (x1 < w_ns w)%nat) by (apply Hs; right; now left).
    assert (N01 : x1 <> x0) by (inversion ND as [|? ? X _]; subst; intros ->; apply X; now left).
    do 7 inv_bind H. apply pninv_R in Ha6 as [HR ->]. apply pinv_R in Ha5 as [_ ->].
    assert (RO : rectm (w_nodes w) (w_ns w) (upd2 (w_O w) k x0 (1 / r))) by (apply rectm_upd; apply Sh).
    assert (SO : forall x : nat -> R, blank w k -> sumR (w_ns w) (fun j => get2 (upd2 (upd2 (w_O w) k x0 (1 / r)) k x1 0) k j * x j) = 1 / r * x x0).
    { intros x B. rewrite (sumR_single _ _ x0 L0).
      2:{ intros j _ Nj. rewrite (get2_upd2 (w_nodes w) (w_ns w)) by auto. destruct ((k =? k) && (x1 =? j))%nat; [apply Rmult_0_l|].
          rewrite (get2_upd2 (w_nodes w) (w_ns w)) by (auto; apply Sh). rewrite (proj2 (Nat.eqb_neq x0 j)) by congruence. rewrite andb_false_r, (bl_O _ _ B : forall j, get2 (w_O w) k j = 0). rsimpl. ring. }
      rewrite (get2_upd2 (w_nodes w) (w_ns w)) by auto. rewrite (proj2 (Nat.eqb_neq x1 x0)) by congruence. rewrite andb_false_r.
      rewrite (set_at _ _ _ _ _ _ (sh_O _ Sh) Hk L0). reflexivity. }
    assert (OO : forall i j, i <> k -> get2 (upd2 (upd2 (w_O w) k x0 (1 / r)) k x1 0) i j = get2 (w_O w) i j).
    { intros i j Ni. rewrite (set_off _ _ _ _ _ _ _ _ RO Hk L1 Ni). exact (set_off _ _ _ _ _ _ _ _ (sh_O _ Sh) Hk L0 Ni). }
    destruct (tf_nonzero V) eqn:EV; apply OkI in H; subst w'; (split; [|split]).
    + split; [apply (diag_set (w_nodes w)); auto; [apply Sh|apply D]|apply (diag_set (w_nodes w)); auto; [apply Sh|apply D]|apply D|apply D].
    + intros i Ni. split; try reflexivity; [intros j; exact (OO i j Ni)|exact (set_off _ _ _ _ _ _ _ _ (sh_P1 _ Sh) Hk Hk Ni)|exact (set_off _ _ _ _ _ _ _ _ (sh_Ps _ Sh) Hk Hk Ni)|].
      intros t. unfold nSrc, set_stamps. cbn [w_vsrc]. now rewrite src_off.
    + intros B dt t v vp x. unfold row_current, nG, nGs, nSrc, nO, nQ, nQs, set_stamps. cbn [w_P1 w_Ps w_ns w_vsrc w_O w_Q1 w_Qs].
      rewrite (set_at _ _ _ _ _ _ (sh_P1 _ Sh) Hk Hk), (set_at _ _ _ _ _ _ (sh_Ps _ Sh) Hk Hk), !src_at by (rewrite (sh_vs _ Sh); exact Hk).
      pose proof (SO x B) as SOx. cbn [ground_id]. rewrite FS. rewrite (bl_Q _ _ B : get2 (w_Q1 w) k k = 0), (bl_Qs _ _ B : get2 (w_Qs w) k k = 0). cbn [ground_current].
      replace (sumR (w_ns w) _) with (1 / r * x x0). rsimpl. unfold Rdiv. ring.
    + split; [apply (diag_set (w_nodes w)); auto; [apply Sh|apply D]|apply D|apply D|apply D].
    + intros i Ni. split; try reflexivity; [intros j; exact (OO i j Ni)|exact (set_off _ _ _ _ _ _ _ _ (sh_P1 _ Sh) Hk Hk Ni)].
    + intros B dt t v vp x. unfold row_current, nG, nGs, nO, nQ, nQs, set_stamps. cbn [w_P1 w_Ps w_ns w_O w_Q1 w_Qs].
      rewrite (set_at _ _ _ _ _ _ (sh_P1 _ Sh) Hk Hk).
      pose proof (SO x B) as SOx. cbn [ground_id]. rewrite FS. rewrite (bl_Q _ _ B : get2 (w_Q1 w) k k = 0), (bl_Qs _ _ B : get2 (w_Qs w) k k = 0), (bl_Gs _ _ B : get2 (w_Ps w) k k = 0). cbn [ground_current].
      rewrite (no_source V t EV). replace (sumR (w_ns w) _) with (1 / r * x x0). rsimpl. unfold Rdiv. ring.
  - unfold connect_to_ground_C in H. inv_bind H. cbv zeta in H. apply of_option_Ok in Ha. rename a into nd. pose proof (find_index _ _ _ Sh Ha) as Hk. set (k := nd_index nd) in *.
    exists k. split; [exists nd; auto|]. set (Q1 := if negb (@neqb NumR C n0) then upd2 (w_Q1 w) k k (@nopp NumR C) else w_Q1 w) in H.
    assert (QD : forall i j, i <> j -> get2 Q1 i j = 0) by (subst Q1; destruct (negb _); [apply (diag_set (w_nodes w)); auto; [apply Sh|apply D]|apply D]).
    assert (QO : forall i j, i <> k -> get2 Q1 i j = get2 (w_Q1 w) i j) by (intros i j Ni; subst Q1; destruct (negb _); [exact (set_off _ _ _ _ _ _ _ _ (sh_Q1 _ Sh) Hk Hk Ni)|reflexivity]).
    assert (QK : blank w k -> get2 Q1 k k = - C).
    { intros B. subst Q1. destruct (@neqb NumR C n0) eqn:EC; cbn [negb].
      - apply Reqb_true in EC. rewrite (bl_Q _ _ B : get2 (w_Q1 w) k k = 0). rewrite EC. rsimpl. ring.
      - exact (set_at _ _ _ _ _ _ (sh_Q1 _ Sh) Hk Hk). }
    clearbody Q1. destruct (tf_nonzero V) eqn:EV; apply OkI in H; subst w'; (split; [|split]).
    + split; [apply D|apply D|exact QD|apply (diag_set (w_nodes w)); auto; [apply Sh|apply D]].
    + intros i Ni. split; try reflexivity; [exact (QO i i Ni)|exact (set_off _ _ _ _ _ _ _ _ (sh_Qs _ Sh) Hk Hk Ni)|].
      intros t. unfold nSrc, set_Q, set_stamps. cbn [w_vsrc]. now rewrite src_off.
    + intros B dt t v vp x. unfold row_current, nG, nGs, nSrc, nO, nQ, nQs, set_Q, set_stamps. cbn [w_P1 w_Ps w_ns w_vsrc w_O w_Q1 w_Qs].
      rewrite (set_at _ _ _ _ _ _ (sh_Qs _ Sh) Hk Hk), (QK B), !src_at by (rewrite (sh_vs _ Sh); exact Hk).
      rewrite (sumR_zero (w_ns w)) by (intros; rewrite (bl_O _ _ B : forall j, get2 (w_O w) k j = 0); rsimpl; ring).
      rewrite (bl_G _ _ B : get2 (w_P1 w) k k = 0), (bl_Gs _ _ B : get2 (w_Ps w) k k = 0). cbn [ground_current]. rsimpl. unfold Rdiv. ring.
    + split; [apply D|apply D|exact QD|apply D].
    + intros i Ni. split; try reflexivity. exact (QO i i Ni).
    + intros B dt t v vp x. unfold row_current, nG, nGs, nO, nQ, nQs, set_Q, set_stamps. cbn [w_P1 w_Ps w_ns w_O w_Q1 w_Qs].
      rewrite (QK B). rewrite (sumR_zero (w_ns w)) by (intros; rewrite (bl_O _ _ B : forall j, get2 (w_O w) k j = 0); rsimpl; ring).
      rewrite (bl_G _ _ B : get2 (w_P1 w) k k = 0), (bl_Gs _ _ B : get2 (w_Ps w) k k = 0), (bl_Qs _ _ B : get2 (w_Qs w) k k = 0). cbn [ground_current].
      rewrite !(no_source V _ EV). rsimpl. unfold Rdiv. ring.
  - unfold short_to_ground in H. inv_bind H. cbv zeta in H. apply of_option_Ok in Ha. rename a into nd. pose proof (find_index _ _ _ Sh Ha) as Hk. set (k := nd_index nd) in *.
    exists k. split; [exists nd; auto|]. apply OkI in H. subst w'. split; [|split].
    + split; [apply (diag_set (w_nodes w)); auto; [apply Sh|apply D]|apply D|apply D|apply D].
    + intros i Ni. split; try reflexivity. exact (set_off _ _ _ _ _ _ _ _ (sh_P1 _ Sh) Hk Hk Ni).
    + intros B dt t v vp x. unfold row_current, nG, nGs, nO, nQ, nQs, set_P, set_stamps. cbn [w_P1 w_Ps w_ns w_O w_Q1 w_Qs].
      rewrite (set_at _ _ _ _ _ _ (sh_P1 _ Sh) Hk Hk). rewrite (sumR_zero (w_ns w)) by (intros; rewrite (bl_O _ _ B : forall j, get2 (w_O w) k j = 0); rsimpl; ring).
      rewrite (bl_Gs _ _ B : get2 (w_Ps w) k k = 0), (bl_Q _ _ B : get2 (w_Q1 w) k k = 0), (bl_Qs _ _ B : get2 (w_Qs w) k k = 0). cbn [ground_current].
      change (@nopp NumR n1e10) with (- @n1e10 NumR). rewrite e10. rsimpl. unfold Rdiv. ring.
Qed.

(** *** any number of components to ground, one per node *)
Lemma numbered_differ w id id' k k' : nshape w -> numbered w id k -> numbered w id' k' -> id <> id' -> k <> k'.
Proof.
  intros Sh (nd & F & <-) (nd' & F' & <-) Ni E. apply dget_in in F, F'. pose proof (index_inj w (id, nd) (id', nd') Sh F F' E) as X. congruence.
Qed.
Lemma call_conns w c w' : nshape w -> do_call w c = Ok w' -> w_conns w' = w_conns w.
Proof. intros Sh H. apply call_shape in H as (_ & P1 & Ps & M & N1 & Ns & O & Q1 & Qs & vs & ->); auto. Qed.
Lemma conns_find w w' id : w_conns w' = w_conns w -> find_node w' id = find_node w id.
Proof. unfold find_node. now intros ->. Qed.
Lemma conns_numbered w w' id k : w_conns w' = w_conns w -> numbered w id k -> numbered w' id k.
Proof. intros E (nd & F & X). exists nd. now rewrite (conns_find _ _ _ E). Qed.
Lemma conns_state w w' id : w_conns w' = w_conns w -> first_state w' id = first_state w id /\ node_number w' id = node_number w id.
Proof. intros E. unfold first_state, node_number. now rewrite (conns_find _ _ _ E). Qed.

Lemma grounds_rows gs : forall w w', nshape w -> diag w -> Forall grounds gs -> NoDup (map ground_id gs) -> do_calls w gs = Ok w' ->
  nshape w' /\ diag w' /\ w_conns w' = w_conns w /\
  (forall id k, numbered w id k -> ~ In id (map ground_id gs) -> same_line w w' k) /\
  (forall id k, numbered w id k -> blank w k -> forall dt t v vp x, row_current w' dt t v vp x k =
     total (map (fun c => if (ground_id c =? id)%Z then ground_current c dt t (v k) (vp k) (x (first_state w id)) else 0) gs)).
Proof.
  induction gs as [|c gs IH]; intros w w' Sh D F ND H; unfold do_calls in H; cbn [foldM] in H.
  - apply OkI in H. subst w'. split; [exact Sh|]. split; [exact D|]. split; [reflexivity|]. split; [intros; apply same_line_refl|]. intros id k _ B *. exact (blank_current w dt t v vp x k B).
  - inv_bind H. rename a into w1. inversion F as [|? ? F1 F2]; subst. cbn [map] in ND. inversion ND as [|? ? NI ND']; subst.
    destruct (call_shape _ _ _ Sh Ha) as [Sh1 _]. pose proof (call_conns _ _ _ Sh Ha) as C1.
    destruct (ground_ends w c w1 Sh D F1 Ha) as (q & Hq & D1 & Off & At).
    destruct (IH w1 w' Sh1 D1 F2 ND' H) as (Sh' & D' & C' & Same & Row). split; [exact Sh'|]. split; [exact D'|]. split; [congruence|]. split.
    + intros id k Hn Hi. cbn [map] in Hi. assert (NIc : ground_id c <> id) by (intros X; apply Hi; now left).
      eapply same_line_trans; [apply Off; intros ->; exact (numbered_differ w _ _ q q Sh Hq Hn NIc eq_refl)|].
      apply (Same id k); [exact (conns_numbered _ _ _ _ C1 Hn)|]. intros X. apply Hi. now right.
    + intros id k Hn B dt t v vp x. cbn [map total fold_right]. fold (total (map (fun c0 => if (ground_id c0 =? id)%Z then ground_current c0 dt t (v k) (vp k) (x (first_state w id)) else 0) gs)).
      destruct (Z.eqb_spec (ground_id c) id) as [E|Nid].
      * subst id. assert (k = q) by (destruct Hn as (n1 & X1 & <-), Hq as (n2 & X2 & <-); congruence). subst q.
        rewrite (same_line_current w1 w' dt t v vp x k) by (apply (Same (ground_id c)); [exact (conns_numbered _ _ _ _ C1 Hn)|exact NI]).
        rewrite (At B). replace (total _) with 0; [lra|]. symmetry. clear - NI. induction gs as [|d gs IH]; [reflexivity|]. cbn [map total fold_right] in *.
        destruct (Z.eqb_spec (ground_id d) (ground_id c)) as [E|_]; [exfalso; apply NI; left; exact E|]. unfold total in IH. rewrite IH by (intros X; apply NI; now right). lra.
      * assert (Nk : k <> q) by (apply (numbered_differ w id (ground_id c)); auto).
        rewrite (Row id k (conns_numbered _ _ _ _ C1 Hn) (same_line_blank _ _ _ (Off k Nk) B)), (proj1 (conns_state _ _ id C1)). lra.
Qed.

(** *** branches *)
Lemma new_blank ds w : network_new ds = Ok w -> diag w /\ forall k, blank w k.
Proof.
  intros H. destruct (new_zero _ _ H) as (G & Gs & Sr). destruct (new_built _ _ H) as (a & nds & B & E).
  assert (E1 : w_Q1 w = zeros2 (w_nodes w) (w_nodes w)) by tauto. assert (E2 : w_Qs w = zeros2 (w_nodes w) (w_nodes w)) by tauto. assert (E3 : w_O w = zeros2 (w_nodes w) (w_ns w)) by tauto. clear E.
  assert (Q : forall i j, nQ w i j = 0) by (intros; unfold nQ; rewrite E1; exact (get2_zeros _ _ _ _)).
  assert (Qs : forall i j, nQs w i j = 0) by (intros; unfold nQs; rewrite E2; exact (get2_zeros _ _ _ _)).
  assert (O : forall i j, nO w i j = 0) by (intros; unfold nO; rewrite E3; exact (get2_zeros _ _ _ _)).
  split; [split; auto|]. intros k. split; auto.
Qed.
Lemma sum_lsum {A} n (f : A -> nat -> R) (v : nat -> R) (l : list A) : sumR n (fun j => lsum (fun a => f a j) l * v j) = lsum (fun a => sumR n (fun j => f a j * v j)) l.
Proof.
  induction l as [|a l IH]; cbn [lsum]; [apply sumR_zero; intros; ring|]. rewrite <- IH, <- sumR_plus. apply sumR_ext. intros. nring.
Qed.
Lemma sum_delta n (v : nat -> R) a : (a < n)%nat -> sumR n (fun j => @delta NumR j a * v j) = v a.
Proof.
  intros H. rewrite (sumR_single n _ a H); unfold delta; [rewrite Nat.eqb_refl; rsimpl; ring|]. intros j _ Nj. rewrite (proj2 (Nat.eqb_neq j a)) by auto. rsimpl. ring.
Qed.
Lemma lsum_total {A} (f : A -> R) l : lsum f l = total (map f l).
Proof. induction l as [|a l IH]; [reflexivity|]. cbn [lsum map total fold_right]. now rewrite IH. Qed.
Lemma lsum_zero {A} (f : A -> R) l : (forall a, In a l -> f a = 0) -> lsum f l = 0.
Proof. induction l as [|a l IH]; intros H; cbn [lsum]; [reflexivity|]. rewrite (H a) by now left. rewrite IH by (intros; apply H; now right). lra. Qed.
Lemma lsum_in {A} (f g : A -> R) l : (forall a, In a l -> f a = g a) -> lsum f l = lsum g l.
Proof. induction l as [|a l IH]; intros H; cbn [lsum]; [reflexivity|]. rewrite (H a) by now left. rewrite IH by (intros; apply H; now right). reflexivity. Qed.

Lemma delta_id w id id' k : nshape w -> numbered w id k -> (exists nd, find_node w id' = Some nd) -> @delta NumR k (num_of w id') = if (id' =? id)%Z then 1 else 0.
Proof.
  intros Sh Hn (nd & F). assert (Hn' : numbered w id' (num_of w id')) by (exists nd; unfold num_of; rewrite F; auto).
  unfold delta. destruct (Z.eqb_spec id' id) as [->|Ni].
  - assert (k = num_of w id) by (destruct Hn as (n1 & X1 & <-); unfold num_of; now rewrite X1). subst. rewrite Nat.eqb_refl. reflexivity.
  - rewrite (proj2 (Nat.eqb_neq k (num_of w id'))); [reflexivity|]. apply (numbered_differ w id id'); auto.
Qed.
Lemma branches_add w bs w' id k : nshape w -> Forall sourceless bs -> do_calls w bs = Ok w' -> numbered w id k -> forall dt t v vp x,
  all_current w' dt t v vp x k = all_current w dt t v vp x k + total (map (fun c => branch_current w c v id) bs).
Proof.
  intros Sh F H Hn dt t v vp x.
  assert (FB : Forall between_nodes bs) by (revert F; apply Forall_impl; intros [] X; cbn in *; tauto).
  assert (F' : forall c, In c bs -> sourceless c) by (now apply Forall_forall).
  assert (HF : forall c, In c bs -> (exists nd, find_node w (first_end c) = Some nd) /\ exists nd, find_node w (second_end c) = Some nd).
  { assert (A : exists w1, do_calls w bs = Ok w1) by eauto. rewrite (calls_accept bs w FB) in A. intros c Hc. specialize (A c Hc). destruct c; cbn [first_end second_end]; tauto. }
  destruct (calls_effect bs w w' Sh FB H) as [Ea Es EG EGs Esr].
  assert (EGs' : forall i j, nGs w' i j = nGs w i j).
  { intros i j. rewrite EGs, lsum_zero; [rsimpl; ring|]. intros c Hc. apply F' in Hc. unfold c_s. destruct c; cbn in Hc; try contradiction; cbn [c_V]; [|apply Rmult_0_l]. destruct Hc as [_ ->]. apply Rmult_0_l. }
  assert (Esr' : forall i u, nSrc w' i u = nSrc w i u).
  { intros i u. rewrite Esr, lsum_zero; [rsimpl; ring|]. intros c Hc. apply F' in Hc. destruct c; cbn in Hc; try contradiction; cbn [c_V]; [|unfold tval; ring]. destruct Hc as [_ ->]. unfold tval. ring. }
  assert (X : w_nodes w' = w_nodes w /\ w_ns w' = w_ns w /\ (forall i j, nO w' i j = nO w i j) /\ (forall i j, nQ w' i j = nQ w i j) /\ (forall i j, nQs w' i j = nQs w i j)).
  { destruct Es as (P & Q & V & ->). repeat split. }
  destruct X as (X1 & X2 & X3 & X4 & X5).
  set (n := w_nodes w) in *.
  transitivity (sumR (w_ns w) (fun j => nO w k j * x j) + sumR n (fun j => nG w' k j * v j) + sumR n (fun j => nGs w k j * nSrc w j t)
    + sumR n (fun j => nQ w k j * (v j - vp j)) / dt + sumR n (fun j => nQs w k j * (nSrc w j t - nSrc w j (t - dt))) / dt).
  { transitivity (sumR (w_ns w') (fun j => nO w' k j * x j) + sumR (w_nodes w') (fun j => nG w' k j * v j) + sumR (w_nodes w') (fun j => nGs w' k j * nSrc w' j t)
      + sumR (w_nodes w') (fun j => nQ w' k j * (v j - vp j)) / dt + sumR (w_nodes w') (fun j => nQs w' k j * (nSrc w' j t - nSrc w' j (t - dt))) / dt); [reflexivity|].
    rewrite X1, X2. apply f_equal2; [apply f_equal2; [apply f_equal2; [apply f_equal2|]|]|].
    4, 5: apply f_equal2; [|reflexivity].
    all: apply sumR_ext; intros j _; rewrite ?X3, ?X4, ?X5, ?EGs', ?Esr'; reflexivity. }
  transitivity (sumR (w_ns w) (fun j => nO w k j * x j) + sumR n (fun j => nG w k j * v j) + sumR n (fun j => nGs w k j * nSrc w j t)
    + sumR n (fun j => nQ w k j * (v j - vp j)) / dt + sumR n (fun j => nQs w k j * (nSrc w j t - nSrc w j (t - dt))) / dt + total (map (fun c => branch_current w c v id) bs)); [|reflexivity].
  assert (Y : sumR n (fun j => nG w' k j * v j) = sumR n (fun j => nG w k j * v j) + total (map (fun c => branch_current w c v id) bs)); [|rewrite Y; ring].
  rewrite <- lsum_total.
  transitivity (sumR n (fun j => nG w k j * v j) - lsum (fun c => c_g c * dl (c_a w c) (c_b w c) k * (v (c_a w c) - v (c_b w c))) bs).
  - transitivity (sumR n (fun j => nG w k j * v j) - sumR n (fun j => lsum (fun c => c_g c * dl (c_a w c) (c_b w c) k * dl (c_a w c) (c_b w c) j) bs * v j)).
    { rewrite <- sumR_minus. apply sumR_ext. intros j _. rewrite EG. rsimpl. ring. }
    f_equal. rewrite (sum_lsum n (fun c j => c_g c * dl (c_a w c) (c_b w c) k * dl (c_a w c) (c_b w c) j) v bs). apply lsum_in. intros c Hc. destruct (Ea c Hc) as [La Lb].
    rewrite (sumR_ext n _ (fun j => c_g c * dl (c_a w c) (c_b w c) k * (@delta NumR j (c_a w c) * v j - @delta NumR j (c_b w c) * v j))) by (intros j _; unfold dl; rsimpl; ring).
    rewrite sumR_scal, sumR_minus, !sum_delta by assumption. reflexivity.
  - assert (Z : - lsum (fun c => c_g c * dl (c_a w c) (c_b w c) k * (v (c_a w c) - v (c_b w c))) bs = lsum (fun c => branch_current w c v id) bs); [|lra].
    clear - F' HF Sh Hn. induction bs as [|c bs IH]; cbn [lsum]; [lra|]. rewrite <- IH by (intros; first [apply F'; now right|apply HF; now right]). 
    destruct (HF c) as [HA HB]; [now left|]. specialize (F' c (or_introl eq_refl)).
    assert (E : - (c_g c * dl (c_a w c) (c_b w c) k * (v (c_a w c) - v (c_b w c))) = branch_current w c v id); [|lra].
    unfold branch_current, dl. destruct c as [| | | |a b r V|a b]; cbn in F'; try contradiction; cbn [c_g c_a c_b first_end second_end branch_flow] in *;
      change (node_number w a) with (num_of w a); change (node_number w b) with (num_of w b);
      rewrite (delta_id w id a k Sh Hn HA), (delta_id w id b k Sh Hn HB); [|rewrite e10]; destruct (a =? id)%Z, (b =? id)%Z; unfold Rdiv; rsimpl; ring.
Qed.

(** *** the whole circuit, then its steps *)
Lemma components ds w0 gs bs w id : network_new ds = Ok w0 -> Forall grounds gs -> NoDup (map ground_id gs) -> Forall sourceless bs -> do_calls w0 (gs ++ bs) = Ok w ->
  forall k, numbered w0 id k -> forall dt t v vp x, all_current w dt t v vp x k = component_current w0 gs bs dt t v vp x id.
Proof.
  intros H G ND B E k Hn dt t v vp x. pose proof (new_shape _ _ H) as Sh. destruct (new_blank _ _ H) as [D Bl].
  unfold do_calls in E. rewrite foldM_app in E. inv_bind E. rename a into w1.
  destruct (grounds_rows gs w0 w1 Sh D G ND Ha) as (Sh1 & D1 & C1 & _ & Row).
  pose proof (conns_numbered _ _ _ _ C1 Hn) as Hn1.
  rewrite (branches_add w1 bs w id k Sh1 B E Hn1), (diag_current w1) by (auto; exact (numbered_lt _ _ _ Sh1 Hn1)).
  rewrite (Row id k Hn (Bl k)). unfold component_current. cbv zeta.
  assert (EN : node_number w0 id = k) by (destruct Hn as (nd & F & <-); unfold node_number; now rewrite F). rewrite EN. f_equal.
  f_equal. apply map_ext. intros c. unfold branch_current, branch_flow. destruct c; cbn [first_end second_end]; rewrite ?(proj2 (conns_state _ _ _ C1)); reflexivity.
Qed.
Lemma after_circuit LA w w' : after LA (@no_call NumR) w w' -> forall dt t v vp x k, all_current w' dt t v vp x k = all_current w dt t v vp x k.
Proof.
  intros A dt t v vp x k. assert (X : w_nodes w' = w_nodes w /\ w_ns w' = w_ns w /\ w_O w' = w_O w /\ w_P1 w' = w_P1 w /\ w_Ps w' = w_Ps w /\ w_Q1 w' = w_Q1 w /\ w_Qs w' = w_Qs w /\ w_vsrc w' = w_vsrc w).
  { induction A as [|y c w' _ IH [] |y bs level conns _ IH H|y d w' _ IH H|y u d w' _ IH H|y bs w' _ IH H]; [repeat split| | | |].
    - exact IH.
    - unfold compute_v_terms in H. destruct (negb _); [discriminate H|]. cbv zeta in H. apply OkI in H. subst w'. exact IH.
    - unfold nw_advance_voltage in H. inv_bind H. cbv zeta in H. destruct (w_AB y) as [[[A1 B1] B2]|]; [|discriminate H]. inv_bind H. apply OkI in H. subst w'. exact IH.
    - unfold nw_update_currents in H. inv_bind H. apply OkI in H. subst w'. exact IH. }
  destruct X as (X1 & X2 & X3 & X4 & X5 & X6 & X7 & X8). unfold all_current, circuit_current, nO, nG, nGs, nQ, nQs, nSrc. now rewrite X1, X2, X3, X4, X5, X6, X7, X8.
Qed.
Lemma after_numbered LA w w' id k : nshape w -> after LA (@no_call NumR) w w' -> numbered w id k -> numbered w' id k /\ nshape w'.
Proof.
  intros Sh A (nd & F & <-). destruct (after_rows LA (@no_call NumR) id w ltac:(intros c []) Sh w' A) as (Sh' & Sn & _). destruct (Sn nd F) as (nd' & F' & E & _).
  split; [exists nd'; auto|exact Sh'].
Qed.
Lemma calls_shape l : forall w w', nshape w -> do_calls w l = Ok w' -> nshape w' /\ w_conns w' = w_conns w.
Proof.
  induction l as [|c l IH]; intros w w' Sh H; unfold do_calls in H; cbn [foldM] in H; [apply OkI in H; subst; auto|]. inv_bind H.
  destruct (call_shape _ _ _ Sh Ha) as [S1 _]. destruct (IH a w' S1 H) as [S2 E2]. split; [exact S2|]. rewrite E2. exact (call_conns _ _ _ Sh Ha).
Qed.
Lemma component_kirchhoff (LA : lapack NumR) (OK : lapack_ok LA) ds w0 gs bs w1 w w' (dt t : NumR) id k : network_new ds = Ok w0 -> Forall grounds gs -> NoDup (map ground_id gs) -> Forall sourceless bs ->
  do_calls w0 (gs ++ bs) = Ok w1 -> after LA (@no_call NumR) w1 w -> net_run LA ds dt w -> nw_advance_voltage LA w t dt = Ok w' -> numbered w0 id k ->
  let n := w_nodes w in
  sumR n (fun j => nLen w k * nCap w k j * (nV w' j - nV w j)) / dt
  = component_current w0 gs bs dt t (nV w') (nV w) (nX w') id + component_current w0 gs bs dt (t - dt) (nV w) (nVprev w) (nX w) id
    - 2 * nI w k - sumR n (fun j => nLen w k * nCap w k j * (nField w j t - nField w j (t - dt))) / dt.
Proof.
  intros H G ND B E A Hr Hs Hn n.
  destruct (calls_shape _ _ _ (new_shape _ _ H) E) as [Sh1 C1]. destruct (after_numbered LA w1 w id k Sh1 A (conns_numbered _ _ _ _ C1 Hn)) as [Hn2 Sh2].
  pose proof (net_kcl LA OK ds dt w w' t k Hr Hs (numbered_lt _ _ _ Sh2 Hn2)) as K. cbv zeta in K. fold n in K. etransitivity; [exact K|]. clear K. f_equal. f_equal. f_equal.
  - rewrite <- (components ds w0 gs bs w1 id H G ND B E k Hn). rewrite <- (after_circuit LA w1 w A). reflexivity.
  - rewrite <- (components ds w0 gs bs w1 id H G ND B E k Hn). rewrite <- (after_circuit LA w1 w A). unfold all_current.
    assert (T : t - dt - dt = t - 2 * dt) by ring. rewrite <- T. reflexivity.
Qed.
