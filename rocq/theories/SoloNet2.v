(** A line in a bundle with both ends connected to ground: how such a network comes to be. *)
From Coq Require Import String List Arith ZArith Bool Permutation Lia Reals Lra.
From Verif Require Import Num Py Arr ArrFacts NumR RFacts LinAlg Utils Probes Dispersive Line LineFacts Bundle Networks Mtln
  SpecLine SpecR SpecBundle SpecNet SpecMtln SpecCore SpecTele SpecSuper SpecSolo HistoryFacts BundleFacts BundleR BundleMore CoreEq CoreUnique SymFacts
  AloneFacts AloneRun NetFacts NetBuild NetR NetStamp NetStamp2 NetPlace NetMore MtlnFacts MtlnProps MtlnR SuperNet SoloNet.
Import ListNotations.
Local Open Scope R_scope.

Lemma F2_len {A B} (R : A -> B -> Prop) la lb : Forall2 R la lb -> length la = length lb.
Proof. induction 1; cbn [length]; congruence. Qed.
(** *** the calls that connect the conductors to ground, one by one *)
Section C.
Variables (Z : nat -> nat -> R) (f : nat -> R -> R).
Record done (w0 w : network NumR) (l : list nat) : Prop := {
  dn_shape : nshape w; dn_same : same_but_resistors w0 w;
  dn_G : forall i j, nG w i j = if ((i =? j) && existsb (Nat.eqb i) l)%nat then - (1 / Z i i) else 0;
  dn_Gs : forall i j, ((i =? j) && existsb (Nat.eqb i) l)%nat = false -> nGs w i j = 0;
  dn_S : forall i t, existsb (Nat.eqb i) l = true -> nGs w i i * nSrc w i t = f i t / Z i i
}.
Lemma same_resistors_trans {N : num} (a b c : network N) : same_but_resistors a b -> same_but_resistors b c -> same_but_resistors a c.
Proof. intros (p & q & v & ->) (p' & q' & v' & ->). exists p', q', v'. reflexivity. Qed.
Lemma done_call w0 w l id k V w' : done w0 w l -> numbered w id k -> ~ In k l -> drives V (f k) -> Z k k <> 0 ->
  connect_to_ground w id (Z k k) V = Ok w' -> done w0 w' (k :: l).
Proof.
  intros D Hn Hk HV HZ H. destruct (ground_effect w id k (Z k k) V (dn_shape _ _ _ D) Hn HZ) as (w2 & E & G). rewrite H in E. injection E as <-. destruct G as [G1 G2 G3 G4].
  assert (Fk : existsb (Nat.eqb k) l = false).
  { destruct (existsb (Nat.eqb k) l) eqn:E; [|reflexivity]. apply existsb_exists in E as (j & Hj & Ej). apply Nat.eqb_eq in Ej. subst j. contradiction. }
  split.
  - exact (proj1 (call_shape w (@GroundR NumR id (Z k k) V) w' (dn_shape _ _ _ D) H)).
  - eapply same_resistors_trans; [exact (dn_same _ _ _ D)|exact G1].
  - intros i j. rewrite G2, (dn_G _ _ _ D). cbn [existsb]. destruct (Nat.eqb_spec k i) as [->|Ni].
    + rewrite Nat.eqb_refl, Fk, andb_false_r. cbn [orb]. rewrite andb_true_r. reflexivity.
    + rewrite (proj2 (Nat.eqb_neq i k)) by congruence. reflexivity.
  - intros i j Hij. cbn [existsb] in Hij. rewrite G3. destruct (Nat.eqb_spec k i) as [->|Ni].
    + rewrite Nat.eqb_refl in Hij. cbn [orb] in Hij. rewrite andb_true_r in Hij. rewrite Hij, andb_false_r. apply (dn_Gs _ _ _ D). now rewrite Hij.
    + rewrite (proj2 (Nat.eqb_neq i k)) in Hij by congruence. rewrite andb_false_r. cbn [andb]. apply (dn_Gs _ _ _ D). exact Hij.
  - intros i t Hi. cbn [existsb] in Hi. rewrite G3, G4. destruct (Nat.eqb_spec k i) as [->|Ni].
    + rewrite andb_true_r. destruct HV as [(g & -> & Hg)|[-> Hg]]; cbn [tf_nonzero Z.eqb negb andb].
      * cbn [tval]. rewrite Hg. unfold Rdiv. ring.
      * rewrite (dn_Gs _ _ _ D) by (now rewrite Fk, andb_false_r). rewrite Hg. unfold Rdiv. ring.
    + rewrite (proj2 (Nat.eqb_neq i k)) in Hi by congruence. cbn [orb] in Hi. rewrite !andb_false_r. cbn [andb]. exact (dn_S _ _ _ D i t Hi).
Qed.
Lemma done_calls w0 conns cs : Forall2 (fun x c => exists V, drives V (f (c_cond x)) /\ c = @GroundR NumR (c_id x) (Z (c_cond x) (c_cond x)) V) conns cs ->
  (forall x, In x conns -> numbered w0 (@c_id NumR x) (c_cond x) /\ Z (c_cond x) (c_cond x) <> 0) ->
  forall w l w', done w0 w l -> NoDup (map c_cond conns ++ l) -> do_calls w cs = Ok w' -> exists l', done w0 w' l' /\ forall i, In i l' <-> In i (map c_cond conns ++ l).
Proof.
  induction 1 as [|x c conns cs (V & HV & ->) F IH]; intros Hx w l w' D ND H; cbn [do_calls foldM] in H.
  - injection H as <-. exists l. split; [exact D|reflexivity].
  - unfold do_calls in H. cbn [foldM do_call] in H. inv_bind H. cbn [map app] in ND. inversion ND as [|? ? ND1 ND2]; subst.
    destruct (Hx x (or_introl eq_refl)) as [Hn HZ].
    assert (D' : done w0 a (c_cond x :: l)).
    { eapply done_call; [exact D| |intros I; apply ND1, in_or_app; now right|exact HV|exact HZ|exact Ha]. eapply same_numbered; [exact (dn_same _ _ _ D)|exact Hn]. }
    destruct (IH (fun y Hy => Hx y (or_intror Hy)) a (c_cond x :: l) w' D') as (l' & D2 & E); [|exact H|].
    + apply (Permutation_NoDup (l := c_cond x :: map c_cond conns ++ l)); [apply Permutation_middle|exact ND].
    + exists l'. split; [exact D2|]. intros i. rewrite E. cbn [map app]. rewrite in_app_iff. cbn [In]. rewrite in_app_iff. tauto.
Qed.
End C.
Lemma new_quiet ds (w : network NumR) : network_new ds = Ok w -> (forall i j, nQ w i j = 0) /\ (forall i j, nQs w i j = 0) /\ (forall i j, nO w i j = 0).
Proof.
  intros H. destruct (new_built _ _ H) as (a & nds & B & E).
  assert (E1 : w_Q1 w = zeros2 (w_nodes w) (w_nodes w)) by tauto. assert (E2 : w_Qs w = zeros2 (w_nodes w) (w_nodes w)) by tauto.
  assert (E3 : w_O w = zeros2 (w_nodes w) (w_ns w)) by tauto. unfold nQ, nQs, nO. rewrite E1, E2, E3. repeat split; intros; exact (get2_zeros _ _ _ _).
Qed.

Section S.
Variable LA : lapack NumR.
Lemma each_shore m side name conns Z f w (w' : network NumR) (bs : bdict NumR) : let d : descr NumR := (m, (side, (name, conns))) in
  to_ground_each d Z f w -> (forall i, (i < conductors m)%nat -> Z i i <> 0) -> (forall c k t, (c < conductors m)%nat -> eTran m c k t = 0) ->
  update_index_numbers [(0%nat, w)] bs = Ok [(0%nat, w')] ->
  shore (conductors m) name (d_end d) (cell_len m (end_cell d)) (C_ m (end_node d)) (fun i => Z i i) f w' /\
  net_history LA [d] w /\ net_history LA [d] w' /\ (forall i, nV w' i = 0) /\ (forall i, nI w' i = 0).
Proof.
  intros d (P & w0 & cs & Hn & Hc & F) HZ HT Hu. set (n := conductors m).
  assert (AC : all_connected [d]) by (constructor; [exact P|constructor]).
  assert (At : forall x, (x < n)%nat -> exists kn, nth_error (w_conns w0) x = Some kn /\ nd_index (snd kn) = x /\ nd_row (snd kn) = x /\
    nd_end (snd kn) = d_end d /\ nd_bundle (snd kn) = name /\ exists c, In c conns /\ c_cond c = x /\ fst kn = c_id c).
  { intros x Hx. exact (new_node_at [d] w0 0 d x Hn AC eq_refl Hx). }
  pose proof (new_shape _ _ Hn) as S0.
  assert (Ln : w_nodes w0 = n).
  { destruct (new_nodes _ _ Hn) as (nds & E & F0). inversion F0 as [|? l ? ls (cs0 & (Pm & _) & F1) F2]; subst. inversion F2; subst. cbn [concat] in E. rewrite app_nil_r in E.
    rewrite (sh_len _ S0), E. rewrite <- (F2_len _ _ _ F1), <- (Permutation_length Pm). cbn [d_conns snd] in *.
    rewrite <- (map_length c_cond), (Permutation_length P), seq_length. reflexivity. }
  assert (ND : NoDup (map c_cond conns)) by (apply (Permutation_NoDup (l := seq 0 n)); [apply Permutation_sym; exact P|apply seq_NoDup]).
  assert (Num : forall x, In x conns -> numbered w0 (@c_id NumR x) (c_cond x) /\ Z (c_cond x) (c_cond x) <> 0).
  { intros x Hx. assert (Lx : (c_cond x < n)%nat) by (assert (I : In (c_cond x) (seq 0 n)) by (eapply Permutation_in; [exact P|now apply in_map]); apply in_seq in I; lia).
    split; [|now apply HZ]. destruct (At _ Lx) as (kn & Hk & Ei & _ & _ & _ & c & Ic & Ec & Eid).
    assert (c = x). { clear - ND Ic Hx Ec. induction conns as [|y l IH]; [destruct Hx|]. cbn [map] in ND. inversion ND as [|? ? A B]; subst.
      destruct Hx as [->|Hx], Ic as [->|Ic]; auto; exfalso; apply A; [rewrite <- Ec|rewrite Ec]; now apply in_map. }
    subst c. exists (snd kn). split; [|exact Ei]. rewrite <- Eid. unfold find_node.
    apply nth_error_In in Hk. clear - Hk S0. pose proof (sh_ids _ S0) as ND. induction (w_conns w0) as [|[i v] l IH]; [destruct Hk|]. cbn [dget]. cbn [map fst] in ND. inversion ND as [|? ? A B]; subst.
    destruct Hk as [<-|Hk]; [cbn [fst snd]; now rewrite Z.eqb_refl|]. destruct (Z.eqb_spec (fst kn) i) as [<-|]; [exfalso; apply A; now apply in_map|auto]. }
  destruct (new_zero _ _ Hn) as (G0 & Gs0 & Sr0). destruct (new_quiet _ _ Hn) as (Q0 & Qs0 & O0).
  assert (D0 : done Z f w0 w0 []).
  { split; auto.
    - exists (w_P1 w0), (w_Ps w0), (w_vsrc w0). now destruct w0.
    - intros i j. cbn [existsb]. now rewrite andb_false_r.
    - intros i t E. discriminate E. }
  destruct (done_calls Z f w0 conns cs F Num w0 [] w D0) as (l & D & El); [now rewrite app_nil_r|exact Hc|]. rewrite app_nil_r in El.
  assert (Hist : net_history LA [d] w).
  { clear - Hn Hc. assert (G : forall l w, net_history LA [d] w -> forall w', do_calls w l = Ok w' -> net_history LA [d] w').
    { induction l as [|c l IH]; intros u Hu u' H; unfold do_calls in H; cbn [foldM] in H; [injection H as <-; exact Hu|]. inv_bind H. eapply IH; [eapply nh_call; eauto|exact H]. }
    eapply G; [apply nh_new; exact Hn|exact Hc]. }
  unfold update_index_numbers in Hu. cbn [mapM fst snd] in Hu. inv_bind Hu. inv_bind Ha. rename a0 into cn. injection Ha as <-. injection Hu as <-.
  assert (Hist' : net_history LA [d] (set_conns w cn)) by (eapply nh_register; [exact Hist|exact Ha0]).
  pose proof (dn_same _ _ _ _ _ D) as (p1 & ps & vs & Ew). destruct (register_shape _ _ _ _ (dn_shape _ _ _ _ _ D) Ha0) as [Sw _].
  assert (Ec0 : w_conns w = w_conns w0) by now rewrite Ew.
  assert (Mem : forall i, existsb (Nat.eqb i) l = true <-> (i < n)%nat).
  { intros i. rewrite existsb_exists. split.
    - intros (j & Hj & E). apply Nat.eqb_eq in E. subst j. apply El in Hj. assert (I : In i (seq 0 n)) by (eapply Permutation_in; [exact P|exact Hj]). apply in_seq in I. lia.
    - intros Hi. exists i. split; [|apply Nat.eqb_refl]. apply El. eapply Permutation_in; [apply Permutation_sym; exact P|]. apply in_seq. split; [lia|exact Hi]. }
  split; [split|].
  - exact Sw.
  - cbn [set_conns w_nodes]. rewrite Ew. exact Ln.
  - intros kn Hk. cbn [set_conns w_conns] in Hk. apply mapM_F2 in Ha0. rewrite Ec0 in Ha0.
    destruct (In_nth_error _ _ Hk) as [i Hi]. assert (Li : (i < length cn)%nat) by (apply nth_error_Some; congruence).
    pose proof (F2_len _ _ _ Ha0) as LL. rewrite <- LL, <- (sh_len _ S0), Ln in Li. destruct (At i Li) as ([id nd] & Hk0 & Ei & Er & Ee & Eb & _).
    assert (Sh : shift_node bs 0 (id, nd) = Ok kn).
    { clear - Ha0 Hi Hk0. revert i Hi Hk0. induction Ha0 as [|x y lx ly E F IH]; intros [|i] Hi Hk; cbn [nth_error] in *; try discriminate; [congruence|eauto]. }
    unfold shift_node in Sh. inv_bind Sh. cbv zeta in Sh. injection Sh as <-. cbn [fst snd nd_bundle nd_row nd_index nd_end] in *. split; [exact Eb|]. split; [|exact Ee]. rewrite Er, Ei. unfold n_before. cbn. lia.
  - intros i Hi. exact (proj1 (proj2 (node_ends LA [d] _ 0 d i Hist' AC eq_refl Hi))).
  - intros i j Hi Hj. exact (proj1 (proj2 (proj2 (proj2 (node_ends LA [d] _ 0 d i Hist' AC eq_refl Hi)))) j Hj).
  - intros i t Hi. etransitivity; [exact (proj1 (proj2 (proj2 (node_ends LA [d] _ 0 d i Hist' AC eq_refl Hi))) t)|]. apply HT. exact Hi.
  - intros i j Hi Hj. change (nG w i j = if (i =? j)%nat then - (1 / Z i i) else 0). rewrite (dn_G _ _ _ _ _ D). rewrite (proj2 (Mem i) Hi), andb_true_r. reflexivity.
  - intros i t Hi. change (sumR n (fun j => nGs w i j * nSrc w j t) = f i t / Z i i). rewrite (sumR_single n _ i Hi).
    + apply (dn_S _ _ _ _ _ D). now apply Mem.
    + intros j Hj Hne. rewrite (dn_Gs _ _ _ _ _ D); [apply Rmult_0_l|]. now rewrite (proj2 (Nat.eqb_neq i j)) by congruence.
  - intros i j. change (nO w i j = 0). rewrite Ew. exact (O0 i j).
  - intros i j. change (nQ w i j = 0). rewrite Ew. exact (Q0 i j).
  - intros i j. change (nQs w i j = 0). rewrite Ew. exact (Qs0 i j).
  - split; [exact Hist|]. split; [exact Hist'|]. destruct (new_built _ _ Hn) as (a & nds & B & E). assert (Ev : w_v w0 = zeros (w_nodes w0)) by tauto. assert (Ei : w_i w0 = zeros (w_nodes w0)) by tauto.
    split; intros i; [change (nV w i = 0)|change (nI w i = 0)]; rewrite Ew; [change (get (w_v w0) i = 0); rewrite Ev|change (get (w_i w0) i = 0); rewrite Ei]; exact (get_zeros _ _).
Qed.
End S.
