(** Further facts on networks: grounding after branching is not passive, rows of registered nodes. *)
From Coq Require Import String List Arith ZArith Bool Permutation Sorted Lia Reals Lra.
From Verif Require Import Num Py Arr ArrFacts NumR RFacts LinAlg LapackR Utils Probes Dispersive Line Bundle Networks Mtln
  SpecLine SpecBundle SpecAlone SpecNet SpecR HistoryFacts TotalFacts BundleFacts NetFacts NetBuild CoreEq NetR NetStamp NetStamp2 NetPlace.
Import ListNotations.
Local Open Scope R_scope.

(** grounding a node after connecting it lets the resistors deliver power *)
Lemma quad_two n (A : nat -> nat -> R) a b : (a < n)%nat -> (b < n)%nat -> a <> b ->
  quad n A (fun i => @delta NumR i a + @delta NumR i b) = A a a + A a b + A b a + A b b.
Proof.
  intros Ha Hb Nab.
  assert (E : forall i, sumR n (fun j => A i j * (@delta NumR j a + @delta NumR j b)) = A i a + A i b).
  { intros i. rewrite (sumR_ext n _ (fun j => A i j * @delta NumR j a + A i j * @delta NumR j b)) by (intros; rring). rewrite sumR_plus. f_equal.
    - rewrite (sumR_single n _ a Ha) by (intros j _ Nj; rewrite deltaR_neq by auto; rring). rewrite deltaR_eq. rring.
    - rewrite (sumR_single n _ b Hb) by (intros j _ Nj; rewrite deltaR_neq by auto; rring). rewrite deltaR_eq. rring. }
  unfold quad. rewrite (sumR_ext n _ (fun i => @delta NumR i a * (A i a + A i b) + @delta NumR i b * (A i a + A i b))) by (intros; rewrite E; rring).
  rewrite sumR_plus. rewrite (sumR_single n _ a Ha) by (intros j _ Nj; rewrite deltaR_neq by auto; rring).
  rewrite (sumR_single n _ b Hb) by (intros j _ Nj; rewrite deltaR_neq by auto; rring). rewrite !deltaR_eq. rring.
Qed.
Lemma ground_after_active ds w0 id k id2 k2 (R Rg : NumR) V Vg w : network_new ds = Ok w0 -> numbered w0 id k -> numbered w0 id2 k2 -> k <> k2 -> 0 < R -> R < Rg ->
  do_calls w0 [Branch id id2 R V; GroundR id Rg Vg] = Ok w -> exists x, 0 < quad (w_nodes w0) (nG w) x.
Proof.
  intros H N1 N2 Nk HR HRg E. pose proof (new_shape _ _ H) as S. destruct (two_calls _ _ _ _ E) as (w1 & E1 & E2).
  destruct (numbered_num _ _ _ N1) as [M1 _]. destruct (numbered_num _ _ _ N2) as [M2 _].
  pose proof (branch_effect _ _ _ S (HR : between_nodes (Branch id id2 R V)) E1) as Ef. destruct (call_shape _ _ _ S E1) as [S1 _].
  pose proof (same_numbered _ _ _ _ (ef_same _ _ _ Ef) N1) as N1'. assert (Rg0 : Rg <> 0) by (intros Q; rewrite Q in HRg; lra).
  cbn [do_call] in E2. destruct (ground_overwrites _ _ _ _ _ _ S1 N1' Rg0 E2) as (G1 & G2 & _).
  destruct (new_zero _ _ H) as (Z & _ & _). pose proof (ef_G _ _ _ Ef) as G. cbn [c_a c_b c_g] in G. rewrite M1, M2 in G.
  exists (fun i => @delta NumR i k + @delta NumR i k2). rewrite quad_two by (auto; eapply numbered_lt; eauto).
  rewrite G1, !G2 by auto. rewrite !G, !Z. rewrite (dl_first k k2 Nk), (dl_second k k2 Nk).
  assert (1 / Rg < 1 / R) by (apply Rmult_lt_compat_l; [lra|]; apply Rinv_lt_contravar; [apply Rmult_lt_0_compat; lra|exact HRg]).
  replace (- (1 / Rg) + (0 - 1 / R * 1 * -1) + (0 - 1 / R * -1 * 1) + (0 - 1 / R * -1 * -1)) with (1 / R - 1 / Rg) by rring. lra.
Qed.

Section Gen.
Context {N : num}.
Variable LA : lapack N.
(** after [k] registrations a node points to its own conductor of a deeper level only if k = 1 *)
Lemma registered_once (bs : bdict N) k (d d' : networkd N) : (forall bn b, dget String.eqb bn bs = Some b -> reachable_bundle LA b) ->
  (forall lw kn, In lw d -> In kn (w_conns (snd lw)) -> exists b, dget String.eqb (nd_bundle (snd kn)) bs = Some b) ->
  registered bs k d = Ok d' ->
  Forall2 (fun lw lw' => fst lw' = fst lw /\ snd lw' = set_conns (snd lw) (w_conns (snd lw')) /\
    Forall2 (fun kn kn' => exists b, dget String.eqb (nd_bundle (snd kn)) bs = Some b /\ fst kn' = fst kn /\
        nd_bundle (snd kn') = nd_bundle (snd kn) /\ nd_end (snd kn') = nd_end (snd kn) /\ nd_index (snd kn') = nd_index (snd kn) /\
        nd_row (snd kn') = (nd_row (snd kn) + k * level_offset b (fst lw))%nat /\
        (nd_row (snd kn') = nd_row (snd kn) + level_offset b (fst lw) <-> k = 1 \/ level_offset b (fst lw) = 0)%nat)
      (w_conns (snd lw)) (w_conns (snd lw'))) d d'.
Proof.
  intros B K H. assert (B' : forall bn b, dget String.eqb bn bs = Some b -> binv b) by (intros bn b Hb; eapply reachable_binv; eauto).
  eapply F2_impl; [|exact (registered_spec bs k d d' B' K H)]. intros lw lw' (E1 & E2 & F). split; [exact E1|]. split; [exact E2|].
  eapply F2_impl; [|exact F]. intros kn kn' (b & Hb & E3 & E4). exists b. rewrite E4. cbn. repeat split; auto.
  - intros E. destruct (level_offset b (fst lw)) as [|o]; [now right|left]. nia.
  - intros [-> | E]; [lia|]. rewrite E. lia.
Qed.
Lemma collide ds (w w' : network N) (bs : bdict N) bn b l m0 m1 rest q d x : reachable_bundle LA b -> dget String.eqb bn bs = Some b ->
  nth_error (b_levels b) l = Some (m0 :: m1 :: rest) -> (0 < conductors m0)%nat ->
  network_new ds = Ok w -> all_connected ds -> nth_error ds q = Some d -> d_line d = m1 -> d_bundle d = bn -> (x < conductors m1)%nat ->
  update_index_numbers [(l, w)] bs = Ok [(l, w')] ->
  let lines := concat (b_levels b) in let p := length (concat (firstn l (b_levels b))) in
  nth_error lines p = Some m0 /\ nth_error lines (S p) = Some m1 /\
  exists kn, In kn (w_conns w') /\ nd_index (snd kn) = (first_node ds q + x)%nat /\ nd_bundle (snd kn) = bn /\
    nd_row (snd kn) = (first_row lines p + x)%nat /\ nd_row (snd kn) <> (first_row lines (S p) + x)%nat.
Proof.
  intros R Hb Hl Hm0 Hw A Hd Ed Eb Hx H lines p. destruct (second_line_row b l m0 m1 rest Hl) as (N0 & N1 & F0 & F1). fold lines p in N0, N1, F0, F1.
  split; [exact N0|]. split; [exact N1|].
  subst m1. destruct (new_node_at ds w q d x Hw A Hd Hx) as (kn & Hk & Ei & Er & Ee & Ebn & _).
  unfold update_index_numbers in H. cbn [mapM] in H. inv_bind H. inv_bind Ha. cbn [fst snd] in *.
  apply (f_equal (fun r => match r with Ok ((_, z) :: _) => w_conns z | _ => [] end)) in H. apply (f_equal (fun r => match r with Ok (_, z) => w_conns z | _ => [] end)) in Ha.
  destruct a as [l0 w0]. cbn [w_conns] in Ha, H. cbn in H, Ha. 
  pose proof (mapM_F2 _ _ _ Ha0) as F. destruct (F2_nth _ _ _ _ _ F Hk) as (kn' & Hk' & Hs). apply shift_spec in Hs as (b' & Hb' & _ & Rr & _ & _ & Ri & Rb & _).
  assert (b' = b) by congruence. subst b'.
  exists kn'. split; [rewrite <- H, <- Ha; eapply nth_error_In; eauto|]. split; [congruence|]. split; [congruence|].
  assert (Eo : nd_row (snd kn') = (first_row lines p + x)%nat).
  { rewrite Rr, Er, F0. rewrite (bi_cil _ (reachable_binv LA b R)), n_before_levels. unfold level_offset. lia. }
  split; [exact Eo|]. rewrite Eo, F0, F1. lia.
Qed.
End Gen.

(** calls on known nodes are accepted *)
Definition c_ids {N : num} (c : call N) : list Z :=
  match c with GroundR a _ _ | GroundLCpRs a _ _ _ _ | GroundC a _ _ | GroundShort a => [a] | Branch a b _ _ | Short a b => [a; b] end.
Lemma call_accept (w : network NumR) c : nshape w -> to_ground c \/ between_nodes c -> (forall id, In id (c_ids c) -> exists nd, find_node w id = Some nd) ->
  exists w', do_call w c = Ok w' /\ w_conns w' = w_conns w.
Proof.
  intros S T K. assert (X : exists w', do_call w c = Ok w').
  { destruct c as [id R V|id R L C V|id C V|id|id1 id2 R V|id1 id2]; cbn [c_ids] in K.
    - destruct T as [[HR _]|[]]. destruct (K id ltac:(now left)) as [nd Hn]. destruct (ground_effect w id (nd_index nd) R V S) as (w' & E & _); [exists nd; auto|intros Q; rewrite Q in HR; lra|eauto].
    - destruct T as [[]|[]].
    - destruct (K id ltac:(now left)) as [nd Hn]. cbn [do_call]. unfold connect_to_ground_C. rewrite Hn. cbn [of_option bind]. cbv zeta. destruct (tf_nonzero V); eauto.
    - destruct (K id ltac:(now left)) as [nd Hn]. cbn [do_call]. unfold short_to_ground. rewrite Hn. cbn [of_option bind]. eauto.
    - destruct T as [[]|T]. apply (branch_accept w (Branch id1 id2 R V) T). split; apply K; cbn; auto.
    - destruct T as [[]|T]. apply (branch_accept w (Short id1 id2) T). split; apply K; cbn; auto. }
  destruct X as [w' E]. exists w'. split; [exact E|]. destruct (call_shape _ _ _ S E) as (_ & P1 & Ps & M & N1 & Ns & O & Q1 & Qs & vs & ->). reflexivity.
Qed.
Lemma calls_total l : forall (w : network NumR), nshape w -> Forall (fun c => to_ground c \/ between_nodes c) l ->
  (forall c id, In c l -> In id (c_ids c) -> exists nd, find_node w id = Some nd) -> exists w', do_calls w l = Ok w' /\ w_conns w' = w_conns w.
Proof.
  induction l as [|c l IH]; intros w S F K; [exists w; split; reflexivity|]. inversion F as [|? ? F1 F2]; subst.
  destruct (call_accept w c S F1) as (w1 & E & C); [intros id Hi; apply (K c id); [now left|exact Hi]|]. destruct (call_shape _ _ _ S E) as [S1 _].
  destruct (IH w1 S1 F2) as (w' & E' & C'). { intros c' id Hc Hi. unfold find_node. rewrite C. apply (K c' id); [now right|exact Hi]. }
  exists w'. split; [unfold do_calls in *; cbn [foldM]; rewrite E; exact E'|congruence].
Qed.
Lemma calls_history {N : num} (LA : lapack N) ds l : forall (w w' : network N), net_history LA ds w -> do_calls w l = Ok w' -> net_history LA ds w'.
Proof.
  induction l as [|c l IH]; intros w w' H E; [unfold do_calls in E; cbn [foldM] in E|].
  - apply (f_equal (fun r => match r with Ok a => a | _ => w' end)) in E. subst. exact H.
  - unfold do_calls in E. cbn [foldM] in E. inv_bind E. apply (IH a); [eapply nh_call; eauto|exact E].
Qed.
Lemma mapM_accept {A B} (f : A -> res B) l : (forall a, In a l -> exists b, f a = Ok b) -> exists l', mapM f l = Ok l'.
Proof.
  induction l as [|a l IH]; intros H; [exists []; reflexivity|]. destruct (H a ltac:(now left)) as [b Hb]. destruct (IH ltac:(intros; apply H; now right)) as [l' Hl].
  exists (b :: l'). cbn [mapM]. rewrite Hb. cbn [bind]. rewrite Hl. reflexivity.
Qed.
Lemma register_accept {N : num} (bs : bdict N) (d : networkd N) : (forall lw kn, In lw d -> In kn (w_conns (snd lw)) -> exists b, dget String.eqb (nd_bundle (snd kn)) bs = Some b) ->
  exists d', update_index_numbers d bs = Ok d'.
Proof.
  intros H. unfold update_index_numbers. apply mapM_accept. intros lw Hlw.
  destruct (mapM_accept (shift_node bs (fst lw)) (w_conns (snd lw))) as [c Hc].
  { intros [id nd] Hk. destruct (H lw (id, nd) Hlw Hk) as [b Hb]. cbn [snd] in Hb. unfold shift_node. rewrite Hb. cbn [of_option bind]. eauto. }
  rewrite Hc. cbn [bind]. eauto.
Qed.
