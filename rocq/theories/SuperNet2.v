(** Superposition in networks of lines: circuits of resistors and capacitors, circuits built by
    the same calls, networks built from the same bundles, and rest. *)
From Coq Require Import String List Arith ZArith Bool Lia Reals Lra.
From Verif Require Import Num Py Arr ArrFacts NumR RFacts LinAlg Utils Probes Dispersive Line LineFacts Bundle Networks Mtln
  SpecLine SpecR SpecBundle SpecNet SpecMtln SpecCore SpecDyn SpecTele SpecSuper HistoryFacts ConeFacts SuperFacts BundleFacts StepTotal BundleR BundleMore CoreEq
  NetFacts NetBuild NetPlace NetR NetRLC NetTotal MtlnFacts MtlnPerm SuperNet.
Import ListNotations.
Local Open Scope R_scope.

(** *** circuits of resistors and capacitors *)
Lemma rc_det w (dt : R) : rc_net w -> pos_def (w_nodes w) (fun i j => nLen w i * nCap w i j) -> w_ns w = 0%nat -> 0 < dt -> determined w dt.
Proof.
  intros R P Ns Hdt y x H1 _. rewrite Ns in *. split; [|intros i Hi; lia]. set (n := w_nodes w) in *.
  assert (PA : pos_def n (fun i j => 1 / dt * (nLen w i * nCap w i j) + (- nG w i j + 1 / dt * (- nQ w i j)))).
  { apply pd_add_psd; [apply pd_scal; [apply Rdiv_lt_0_compat; [lra|exact Hdt]|exact P]|].
    intros z. pose proof (rc_G _ R z) as P1. pose proof (psd_scal n (1 / dt) _ ltac:(left; apply Rdiv_lt_0_compat; [lra|exact Hdt]) (rc_Q _ R) z) as P2. fold n in P1.
    assert (Q : quad n (fun i j => - nG w i j + 1 / dt * (- nQ w i j)) z = quad n (fun i j => - nG w i j) z + quad n (fun i j => 1 / dt * - nQ w i j) z).
    { unfold quad. rewrite <- sumR_plus. apply sumR_ext. intros i Hi. rewrite <- Rmult_plus_distr_l. f_equal. rewrite <- sumR_plus. apply sumR_ext. intros. rring. }
    rewrite Q. apply Rplus_le_le_0_compat; [exact P1|exact P2]. }
  apply (pd_kernel n _ y PA). intros i Hi. specialize (H1 i Hi). rewrite sumR_0, Rminus_0_r in H1. rewrite <- H1. apply sumR_ext. intros j Hj. rty. field. lra.
Qed.
Lemma circuit_det LA ds w (dt : R) : rc_circuit LA ds w -> 0 < dt -> determined w dt.
Proof.
  intros (F & A & w0 & gs & bs & w1 & H & Ns & G & B & E & Af) Hdt.
  assert (H1 : net_history LA ds w1).
  { clear - H E. revert E. generalize (gs ++ bs). intros l. assert (H0 : net_history LA ds w0) by now apply nh_new. clear H. revert w0 H0.
    induction l as [|c l IH]; intros w0 H0 E; [apply OkI in E; subst; exact H0|]. unfold do_calls in E. cbn [foldM] in E. inv_bind E. apply (IH a); [eapply nh_call; eauto|exact E]. }
  pose proof (after_run LA _ ds _ _ H1 Af) as Hw. apply rc_det; auto.
  - eapply after_rc; [eapply built_rc; eauto|exact Af].
  - exact (proj1 (dxc_pd LA ds w Hw A F)).
  - destruct (history_kept LA _ _ Hw) as (w0' & H0' & K). assert (w0' = w0) by congruence. subst w0'. rewrite (nk_ns _ _ K). exact Ns.
Qed.

Section S.
Variables al be dy dz : R.
Variable seen : R -> Prop.
Notation lin := (SpecDyn.lin al be).
Notation bsum := (bsum al be dy dz seen).
Notation csum := (csum al be dy dz seen).

(** *** the same calls *)
Inductive srel : tfun NumR -> tfun NumR -> tfun NumR -> Prop :=
| sr_none : srel (@TInt NumR 0) (@TInt NumR 0) (@TInt NumR 0)
| sr_fun f g h : (forall t ty tz, seen t -> ty = t + dy -> tz = t + dz -> lin (f t) (g ty) (h tz)) -> srel (@TFun NumR f) (@TFun NumR g) (@TFun NumR h).
(** the same call with related time functions in series *)
Inductive call3 : call NumR -> call NumR -> call NumR -> Prop :=
| c3_R id R f g h : srel f g h -> call3 (@GroundR NumR id R f) (@GroundR NumR id R g) (@GroundR NumR id R h)
| c3_L id R L C f g h : srel f g h -> call3 (@GroundLCpRs NumR id R L C f) (@GroundLCpRs NumR id R L C g) (@GroundLCpRs NumR id R L C h)
| c3_C id C f g h : srel f g h -> call3 (@GroundC NumR id C f) (@GroundC NumR id C g) (@GroundC NumR id C h)
| c3_S id : call3 (@GroundShort NumR id) (@GroundShort NumR id) (@GroundShort NumR id)
| c3_B i j R f g h : srel f g h -> call3 (@Branch NumR i j R f) (@Branch NumR i j R g) (@Branch NumR i j R h)
| c3_2 i j : call3 (@Short NumR i j) (@Short NumR i j) (@Short NumR i j).
Lemma srel_add f g h f' g' h' : srel f g h -> srel f' g' h' -> srel (add_t_functions f f') (add_t_functions g g') (add_t_functions h h').
Proof.
  intros [|f1 g1 h1 E1] [|f2 g2 h2 E2]; cbn [add_t_functions]; constructor; intros t ty tz Ht Hy Hz; [exact (E2 t ty tz Ht Hy Hz)|exact (E1 t ty tz Ht Hy Hz)|].
  specialize (E1 t ty tz Ht Hy Hz). specialize (E2 t ty tz Ht Hy Hz). unfold SpecDyn.lin in *. rsimpl. rewrite E1, E2. rring.
Qed.
Lemma F3_nth {A} (P : A -> A -> A -> Prop) l m n d e f : Forall3 P l m n -> P d e f -> forall k, P (nth k l d) (nth k m e) (nth k n f).
Proof. intros F p. induction F as [|x y z l m n q F IH]; intros [|k]; cbn [nth]; auto. Qed.
Lemma F3_lset {A} (P : A -> A -> A -> Prop) l m n x y z k : Forall3 P l m n -> P x y z -> Forall3 P (lset l k x) (lset m k y) (lset n k z).
Proof. intros F p. revert k. induction F as [|a b c l m n q F IH]; intros [|k]; cbn [lset]; constructor; auto. Qed.

(** same circuit, combined state, sources combined one by one *)
Record crel (u v w : network NumR) : Prop := {
  k_uv : same_circuit u v; k_uw : same_circuit u w;
  k_V : forall i, (i < w_nodes u)%nat -> lin (nV u i) (nV v i) (nV w i);
  k_P : forall i, (i < w_nodes u)%nat -> lin (nVprev u i) (nVprev v i) (nVprev w i);
  k_I : forall i, (i < w_nodes u)%nat -> lin (nI u i) (nI v i) (nI w i);
  k_X : forall i, (i < w_ns u)%nat -> lin (nX u i) (nX v i) (nX w i);
  k_S : Forall3 srel (w_vsrc u) (w_vsrc v) (w_vsrc w);
  k_F : forall i t ty tz, seen t -> ty = t + dy -> tz = t + dz -> (i < w_nodes u)%nat -> lin (nField u i t) (nField v i ty) (nField w i tz)
}.
Lemma crel_sum u v w : crel u v w -> csum u v w.
Proof.
  intros []. split; auto. intros i t ty tz Ht Hy Hz _. unfold nSrc.
  pose proof (F3_nth srel _ _ _ (@TInt NumR 0) (@TInt NumR 0) (@TInt NumR 0) k_S0 sr_none i) as S. destruct S as [|f g h E]; [|now apply (E t ty tz)].
  unfold SpecDyn.lin. rring.
Qed.
Lemma stamps_crel u v w P1 Ps M N1 Ns O Q1 Qs vs vs' vs'' : crel u v w -> Forall3 srel vs vs' vs'' ->
  crel (set_stamps u P1 Ps M N1 Ns O Q1 Qs vs) (set_stamps v P1 Ps M N1 Ns O Q1 Qs vs') (set_stamps w P1 Ps M N1 Ns O Q1 Qs vs'').
Proof.
  intros [[] [] ? ? ? ? ? ?] F. split; try assumption.
  - split; try assumption; reflexivity.
  - split; try assumption; reflexivity.
Qed.
Ltac same H u v Suv := unfold find_node, set_P, set_Q in H; rewrite ?(sc_conns u v Suv), ?(sc_P1 u v Suv), ?(sc_Ps u v Suv), ?(sc_M u v Suv), ?(sc_N1 u v Suv), ?(sc_Ns u v Suv), ?(sc_O u v Suv), ?(sc_Q1 u v Suv), ?(sc_Qs u v Suv) in H.
Ltac meet := repeat match goal with A : ?x = Ok ?a, B : ?x = Ok ?b |- _ => let E := fresh in assert (E : b = a) by congruence; subst b; clear B end.
Lemma call_crel a b c u v w u' v' w' : call3 a b c -> crel u v w -> do_call u a = Ok u' -> do_call v b = Ok v' -> do_call w c = Ok w' -> crel u' v' w'.
Proof.
  intros K C H1 H2 H3. pose proof (k_uv _ _ _ C) as Suv. pose proof (k_uw _ _ _ C) as Suw. pose proof (k_S _ _ _ C) as SS.
  assert (NZ : forall f g h, srel f g h -> tf_nonzero g = tf_nonzero f /\ tf_nonzero h = tf_nonzero f) by (intros ? ? ? []; auto).
  destruct K as [id R f g h D|id R L Cc f g h D|id Cc f g h D|id|i j R f g h D|i j]; cbn [do_call] in *.
  - destruct (NZ _ _ _ D) as [Z1 Z2]. unfold connect_to_ground in *. rewrite Z1 in H2. rewrite Z2 in H3.
    same H1 u u (same_circuit_trans _ _ _ Suv (same_circuit_sym _ _ Suv)). same H2 u v Suv. same H3 u w Suw.
    inv_bind H1. inv_bind H2. inv_bind H3. meet. cbv zeta in *. inv_bind H1. inv_bind H2. inv_bind H3. meet. destruct (tf_nonzero f).
    + inv_bind H1. inv_bind H2. inv_bind H3. meet. apply OkI in H1, H2, H3. subst. apply stamps_crel; [exact C|]. now apply F3_lset.
    + apply OkI in H1, H2, H3. subst. now apply stamps_crel.
  - destruct (NZ _ _ _ D) as [Z1 Z2]. unfold connect_to_ground_LCpRs in *. rewrite Z1 in H2. rewrite Z2 in H3.
    same H1 u u (same_circuit_trans _ _ _ Suv (same_circuit_sym _ _ Suv)). same H2 u v Suv. same H3 u w Suw.
    inv_bind H1. inv_bind H2. inv_bind H3. meet. cbv zeta in *. destruct (nd_state a) as [|x0 [|x1 [|x2 l]]]; try (inv_bind H1; discriminate H1).
    do 7 (inv_bind H1). do 7 (inv_bind H2). do 7 (inv_bind H3). meet. destruct (tf_nonzero f); apply OkI in H1, H2, H3; subst; (apply stamps_crel; [exact C|]); [now apply F3_lset|exact SS].
  - destruct (NZ _ _ _ D) as [Z1 Z2]. unfold connect_to_ground_C in *. rewrite Z1 in H2. rewrite Z2 in H3.
    same H1 u u (same_circuit_trans _ _ _ Suv (same_circuit_sym _ _ Suv)). same H2 u v Suv. same H3 u w Suw.
    inv_bind H1. inv_bind H2. inv_bind H3. meet. cbv zeta in *. destruct (tf_nonzero f); apply OkI in H1, H2, H3; subst; (apply stamps_crel; [exact C|]); [now apply F3_lset|exact SS].
  - unfold short_to_ground in *. same H1 u u (same_circuit_trans _ _ _ Suv (same_circuit_sym _ _ Suv)). same H2 u v Suv. same H3 u w Suw.
    inv_bind H1. inv_bind H2. inv_bind H3. meet. cbv zeta in *. apply OkI in H1, H2, H3; subst; apply stamps_crel; [exact C|exact SS].
  - destruct (NZ _ _ _ D) as [Z1 Z2]. unfold connect_nodes in *. rewrite Z1 in H2. rewrite Z2 in H3.
    same H1 u u (same_circuit_trans _ _ _ Suv (same_circuit_sym _ _ Suv)). same H2 u v Suv. same H3 u w Suw.
    do 3 (inv_bind H1). do 3 (inv_bind H2). do 3 (inv_bind H3). meet. cbv zeta in *. do 2 (inv_bind H1). do 2 (inv_bind H2). do 2 (inv_bind H3). meet.
    destruct (tf_nonzero f); apply OkI in H1, H2, H3; subst; (apply stamps_crel; [exact C|]); [|exact SS].
    assert (F1 : forall k, Forall3 srel (lset (w_vsrc u) k (add_t_functions (nth k (w_vsrc u) (TInt 0)) f)) (lset (w_vsrc v) k (add_t_functions (nth k (w_vsrc v) (TInt 0)) g)) (lset (w_vsrc w) k (add_t_functions (nth k (w_vsrc w) (TInt 0)) h))).
    { intros k. apply F3_lset; [exact SS|]. apply srel_add; [|exact D]. apply F3_nth; [exact SS|constructor]. }
    apply F3_lset; [apply F1|]. apply srel_add; [|exact D]. apply F3_nth; [apply F1|constructor].
  - unfold short_nodes in *. same H1 u u (same_circuit_trans _ _ _ Suv (same_circuit_sym _ _ Suv)). same H2 u v Suv. same H3 u w Suw.
    do 2 (inv_bind H1). do 2 (inv_bind H2). do 2 (inv_bind H3). meet. apply OkI in H1, H2, H3; subst; apply stamps_crel; [exact C|exact SS].
Qed.
Lemma new_crel ds (w : network NumR) : network_new ds = Ok w -> (forall i t, (i < w_nodes w)%nat -> nField w i t = 0) -> crel w w w.
Proof.
  intros H F. unfold network_new in H. inv_bind H. destruct a as [[[[[ns cn] cs] c] dx] eT]. apply OkI in H.
  assert (Z : forall n i, lin (@get NumR (@zeros NumR n) i) (@get NumR (@zeros NumR n) i) (@get NumR (@zeros NumR n) i)) by (intros n i; rewrite (@get_zeros NumR); unfold SpecDyn.lin; rsimpl; rring).
  split; try (split; reflexivity).
  - intros i _. unfold nV. rewrite <- H. apply Z.
  - intros i _. unfold nVprev. rewrite <- H. apply Z.
  - intros i _. unfold nI. rewrite <- H. apply Z.
  - intros i _. unfold nX. rewrite <- H. apply Z.
  - rewrite <- H. cbn [w_vsrc]. apply F3_refl. intros V HV. unfold mk in HV. apply in_map_iff in HV as (k & <- & _). constructor. intros t ty tz _ _ _. unfold SpecDyn.lin. rring.
  - intros i t ty tz _ _ _ Hi. rewrite !F by exact Hi. unfold SpecDyn.lin. rring.
Qed.
Lemma calls_csum ds (w0 : network NumR) a b c u v w : network_new ds = Ok w0 -> (forall i t, (i < w_nodes w0)%nat -> nField w0 i t = 0) -> Forall3 call3 a b c ->
  do_calls w0 a = Ok u -> do_calls w0 b = Ok v -> do_calls w0 c = Ok w -> csum u v w.
Proof.
  intros H F K A B C. apply crel_sum.
  exact (foldM_F3 (@do_call NumR) (@do_call NumR) (@do_call NumR) call3 crel a b c (fun x y z s t q s' t' q' p r => call_crel x y z s t q s' t' q' p r) K w0 w0 w0 u v w (new_crel ds w0 H F) A B C).
Qed.

(** *** the same bundles and networks *)
Lemma conns_sum u v w c : csum u v w -> csum (set_conns u c) (set_conns v c) (set_conns w c).
Proof. intros [[] [] ? ? ? ? ? ?]. split; try assumption; split; try assumption; reflexivity. Qed.
Definition crel_b (a b c : bundle NumR) : Prop := bsum a b c /\ b_cil b = b_cil a /\ b_cil c = b_cil a.
Definition bsum_named (a b c : bundle NumR) : Prop := b_name b = b_name a /\ b_name c = b_name a /\ b_cil b = b_cil a /\ b_cil c = b_cil a /\ bsum a b c.
Record frel (x y z : mtln NumR) : Prop := {
  f_W : Forall3 (Forall3 (named_sum csum)) (t_networks x) (t_networks y) (t_networks z);
  f_D : t_dt y = t_dt x /\ t_dt z = t_dt x; f_T : t_time y = t_time x /\ t_time z = t_time x;
  f_B : Forall3 (named_sum crel_b) (t_bundles x) (t_bundles y) (t_bundles z)
}.
Lemma add_bundle_sum x y z a b c x' y' z' : bsum_named a b c -> frel x y z -> add_bundle x a = Ok x' -> add_bundle y b = Ok y' -> add_bundle z c = Ok z' -> frel x' y' z'.
Proof.
  intros (N1 & N2 & C1 & C2 & S) [W [D1 D2] [T1 T2] B'] H1 H2 H3. unfold add_bundle in *. inv_bind H1. inv_bind H2. inv_bind H3. apply OkI in H1, H2, H3. subst.
  split; cbn [t_bundles t_networks t_dt t_time]; auto.
  - rewrite D1, D2, (sb_dt _ _ (bg_ab _ _ _ _ _ _ _ _ S)), (sb_dt _ _ (bg_ac _ _ _ _ _ _ _ _ S)). auto.
  - apply F3_app; [exact B'|]. constructor; [|constructor]. split; [exact N1|]. split; [exact N2|]. split; [exact S|]. auto.
Qed.
Lemma shift_same (d e f : bdict NumR) : Forall3 (named_sum crel_b) d e f -> forall level l, mapM (shift_node e level) l = mapM (shift_node d level) l /\ mapM (shift_node f level) l = mapM (shift_node d level) l.
Proof.
  intros F level l. assert (G : forall kn, shift_node e level kn = shift_node d level kn /\ shift_node f level kn = shift_node d level kn).
  { intros [id nd]. unfold shift_node. destruct (named_get crel_b d e f (nd_bundle nd) F) as [(b & b' & b'' & E1 & E2 & E3 & _ & C1 & C2)|(E1 & E2 & E3)]; rewrite E1, E2, E3; cbn [of_option bind]; [rewrite C1, C2|]; auto. }
  split; apply mapM_ext; intros; apply G.
Qed.
Lemma add_network_sum x y z (d e f : networkd NumR) x' y' z' : Forall3 (named_sum csum) d e f -> frel x y z ->
  add_network x d = Ok x' -> add_network y e = Ok y' -> add_network z f = Ok z' -> frel x' y' z'.
Proof.
  intros F [W [D1 D2] [T1 T2] B'] H1 H2 H3. unfold add_network in *. inv_bind H1. inv_bind H2. inv_bind H3. apply OkI in H1, H2, H3. subst.
  split; cbn [t_set t_bundles t_networks t_dt t_time]; auto.
  apply F3_app; [exact W|]. constructor; [|constructor]. unfold update_index_numbers in Ha, Ha0, Ha1.
  eapply mapM_F3; [|exact F|exact Ha|exact Ha0|exact Ha1]. cbv beta. intros [l u] [l' v] [l'' w] p q r (E1 & E2 & S) H1 H2 H3. cbn [fst snd] in *. subst l' l''.
  rewrite (sc_conns _ _ (cg_uv _ _ _ _ _ _ _ _ S)) in H2. rewrite (sc_conns _ _ (cg_uw _ _ _ _ _ _ _ _ S)) in H3.
  destruct (shift_same _ _ _ B' l (w_conns u)) as [G1 G2]. rewrite G1 in H2. rewrite G2 in H3. inv_bind H1. inv_bind H2. inv_bind H3. meet. apply OkI in H1, H2, H3. subst.
  split; [reflexivity|]. split; [reflexivity|]. cbn [snd]. now apply conns_sum.
Qed.
Lemma new_frel a b c d e f x y z : Forall3 bsum_named a b c -> Forall3 (Forall3 (named_sum csum)) d e f ->
  mtln_new a d = Ok x -> mtln_new b e = Ok y -> mtln_new c f = Ok z -> frel x y z.
Proof.
  intros B W H1 H2 H3. unfold mtln_new in *. inv_bind H1. inv_bind H2. inv_bind H3.
  assert (F : frel a0 a1 a2).
  { refine (foldM_F3 _ _ _ _ frel _ _ _ _ B _ _ _ _ _ _ _ Ha Ha0 Ha1); [intros; eapply add_bundle_sum; eauto|]. split; try constructor; reflexivity. }
  refine (foldM_F3 _ _ _ _ frel _ _ _ _ W _ _ _ _ _ _ F H1 H2 H3). intros. eapply add_network_sum; eauto.
Qed.
End S.

(** *** one clock *)
Lemma call_sum_3 al be a b c : call_sum al be a b c -> call3 al be 0 0 always a b c.
Proof.
  assert (D : forall f g h, drive_sum al be f g h -> srel al be 0 0 always f g h).
  { intros f g h []; constructor. intros t ty tz _ -> ->. rewrite Rplus_0_r. reflexivity. }
  intros []; constructor; auto.
Qed.
Lemma calls_sum al be ds (w0 : network NumR) a b c u v w : network_new ds = Ok w0 -> (forall i t, (i < w_nodes w0)%nat -> nField w0 i t = 0) -> Forall3 (call_sum al be) a b c ->
  do_calls w0 a = Ok u -> do_calls w0 b = Ok v -> do_calls w0 c = Ok w -> circuit_sum al be u v w.
Proof.
  intros H F K A B C. apply csum_always. refine (calls_csum al be 0 0 always ds w0 a b c u v w H F _ A B C). eapply F3_impl; [|exact K]. intros. now apply call_sum_3.
Qed.
Lemma new_sum al be a b c d e f x y z : Forall3 (bundle_sum_named al be) a b c -> Forall3 (Forall3 (named_sum (circuit_sum al be))) d e f ->
  mtln_new a d = Ok x -> mtln_new b e = Ok y -> mtln_new c f = Ok z -> lines_sum al be x y z.
Proof.
  intros B W H1 H2 H3. assert (F : frel al be 0 0 always x y z).
  { refine (new_frel al be 0 0 always a b c d e f x y z _ _ H1 H2 H3).
    - eapply F3_impl; [|exact B]. intros p q r (E1 & E2 & E3 & E4 & K). do 4 (split; [assumption|]). now apply bsum_always.
    - eapply F3_impl; [|exact W]. intros p q r. apply named_iff. intros u v w. pose proof (csum_always al be u v w). tauto. }
  destruct F as [W' D T B']. split; auto.
  - eapply F3_impl; [|exact B']. intros p q r (E1 & E2 & K & _). split; [exact E1|]. split; [exact E2|]. now apply bsum_always.
  - eapply F3_impl; [|exact W']. intros p q r. apply named_iff. intros u v w. pose proof (csum_always al be u v w). tauto.
Qed.

(** *** rest *)
Lemma q_rest (q : qe NumR) : qlin 0 0 q q q <-> forall p, In p q -> p = (0, 0).
Proof.
  split.
  - intros (_ & _ & H) p Hp. apply In_nth with (d := c0) in Hp as (i & Hi & <-). destruct (H i) as [H1 H2]. unfold lin in *. destruct (nth i q c0) as [u w]. cbn [fst snd] in *. f_equal; [rewrite H1|rewrite H2]; rring.
  - intros Q. split; [reflexivity|]. split; [reflexivity|]. intros p.
    assert (E : nth p q c0 = (0, 0)) by (destruct (Nat.lt_ge_cases p (length q)) as [L|L]; [apply Q; now apply nth_In|now rewrite nth_overflow]).
    rewrite E. unfold lin. cbn [fst snd]. split; rring.
Qed.
Lemma lin_00 (x : R) : lin 0 0 x x x <-> x = 0.
Proof. unfold lin. split; intros H; lra. Qed.
Lemma bundle_rest_sum b : bundle_rest b <-> bundle_sum 0 0 b b b.
Proof.
  split.
  - intros []. split; try (split; reflexivity); intros; try (apply lin_00; auto). apply q_rest. intros p Hp. eapply br_q; eauto.
  - intros []. split; intros; try (apply lin_00; auto). eapply q_rest; [apply bs_q; eauto|assumption].
Qed.
Lemma circuit_rest_sum w : circuit_rest w <-> circuit_sum 0 0 w w w.
Proof.
  split.
  - intros []. split; try (split; reflexivity); intros; apply lin_00; auto.
  - intros []. split; intros; apply lin_00; auto.
Qed.
Lemma lines_rest_sum x : lines_rest x <-> lines_sum 0 0 x x x.
Proof.
  unfold lines_rest, nets, tiers. split.
  - intros [B W]. rewrite Forall_forall in B, W. split; auto.
    + apply F3_refl. intros kb Hk. split; [reflexivity|]. split; [reflexivity|]. apply bundle_rest_sum. now apply B.
    + apply F3_refl. intros d Hd. apply F3_refl. intros lw Hw. split; [reflexivity|]. split; [reflexivity|]. apply circuit_rest_sum. apply W. apply in_flat_map. exists d. split; [exact Hd|]. now apply in_map.
  - intros [B W _ _]. apply F3_diag in B, W. rewrite Forall_forall in B, W. split; apply Forall_forall.
    + intros kb Hk. apply bundle_rest_sum. apply (B kb Hk).
    + intros w Hw. apply in_flat_map in Hw as (d & Hd & Hw). apply in_map_iff in Hw as (lw & <- & Hl). apply circuit_rest_sum. specialize (W d Hd). cbv beta in W. apply F3_diag in W. rewrite Forall_forall in W. apply (W lw Hl).
Qed.

Lemma sourceless_sum c : sourceless c -> call_sum 0 0 c c c.
Proof. destruct c; cbn [sourceless]; intros H; subst; repeat constructor. Qed.
Lemma calls_rest ds (w0 : network NumR) cs w : network_new ds = Ok w0 -> (forall i t, (i < w_nodes w0)%nat -> nField w0 i t = 0) -> Forall sourceless cs -> do_calls w0 cs = Ok w -> circuit_rest w.
Proof.
  intros H F S E. apply circuit_rest_sum. refine (calls_sum 0 0 ds w0 cs cs cs w w w H F _ E E E). apply F3_refl. intros c Hc. apply sourceless_sum. rewrite Forall_forall in S. now apply S.
Qed.
Lemma new_bundle_rest levels name (b : bundle NumR) : mtld_new levels name = Ok b -> bundle_rest b.
Proof.
  intros H. destruct (new_frame _ _ _ H) as (outer & rest & _ & _ & _ & _ & Hv & Hi & HEL & HET & _).
  assert (Q : forall j k, dPhi (b_disp b) k j = @qzero NumR).
  { intros j k. unfold mtld_new in H. destruct levels as [|[|o [|]] r]; try discriminate H. inv_bind H. apply OkI in H. rewrite <- H. unfold dPhi, b_disp. cbn [b_core k_disp ds_phi disp_new]. apply qget2_qzeros. }
  split.
  - intros j k _ _. unfold b_volt. rewrite Hv. apply (@get2_zeros NumR).
  - intros j k _ _. unfold b_curr. rewrite Hi. apply (@get2_zeros NumR).
  - intros j k p _ _ Hp. rewrite Q in Hp. destruct Hp as [<-|[]]. reflexivity.
  - intros j k t Hj Hk. unfold kTran. rewrite HET. unfold mk2. unfold b_conductors, b_cells in *. rewrite nth_mk by lia. rewrite nth_mk by lia. reflexivity.
  - intros j k t Hj Hk. unfold kLong. rewrite HEL. unfold mk2. unfold b_conductors, b_cells in *. rewrite nth_mk by lia. rewrite nth_mk by lia. reflexivity.
Qed.
Lemma new_lines_rest bs ds x : Forall bundle_rest bs -> Forall (Forall (fun lw => circuit_rest (snd lw))) ds -> mtln_new bs ds = Ok x -> lines_rest x.
Proof.
  intros B D H. apply lines_rest_sum. rewrite Forall_forall in B, D. refine (new_sum 0 0 bs bs bs ds ds ds x x x _ _ H H H); apply F3_refl.
  - intros b Hb. do 4 (split; [reflexivity|]). apply bundle_rest_sum. now apply B.
  - intros d Hd. apply F3_refl. intros lw Hl. split; [reflexivity|]. split; [reflexivity|]. apply circuit_rest_sum. specialize (D d Hd). rewrite Forall_forall in D. now apply D.
Qed.

(** *** runs *)
Section Runs.
Variables (LA : lapack NumR) (LAok : lapack_ok LA).
Lemma step_pos (x : mtln NumR) (dt : R) : 0 < dt \/ dt = 0 /\ 0 < t_dt x -> 0 < t_dt (override_dt x dt).
Proof.
  intros H. unfold override_dt. destruct (@neqb NumR dt n0) eqn:E; cbn [negb].
  - apply Reqb_true in E. destruct H as [H|[_ H]]; [exfalso; change (dt = 0) in E; lra|exact H].
  - apply Reqb_false in E. destruct H as [H|[H _]]; [exact H|exfalso; apply E; exact H].
Qed.
Lemma super_reaches al be x y z (T dt : R) k x' y' z' : lines_net LA x -> lines_net LA y -> lines_net LA z -> lines_sum al be x y z ->
  regular LA \/ (forall w, In w (nets x) -> exists ds, rc_circuit LA ds w) /\ (0 < dt \/ dt = 0 /\ 0 < t_dt x) ->
  reaches LA x T dt k x' -> reaches LA y T dt k y' -> reaches LA z T dt k z' -> lines_sum al be x' y' z'.
Proof.
  intros Lx Ly Lz S D Rx Ry Rz. apply lsum_always. apply (lrel_sum al be 0 0 always LA).
  refine (start_rel al be 0 0 always LA LAok x y z T T T dt k x' y' z' (lines_ninv LA x Lx) (lines_ninv LA y Ly) (lines_ninv LA z Lz) (proj1 (lsum_always _ _ _ _ _) S) _ (fun _ _ => looks_always _ _) Rx Ry Rz).
  destruct D as [D|[D Hd]]; [now left|right]. intros w Hw. destruct (D w Hw) as [ds C]. eapply circuit_det; [exact C|]. now apply step_pos.
Qed.
Lemma super_run al be x y z (T dt : R) x' y' z' : lines_net LA x -> lines_net LA y -> lines_net LA z -> lines_sum al be x y z ->
  regular LA \/ (forall w, In w (nets x) -> exists ds, rc_circuit LA ds w) /\ (0 < dt \/ dt = 0 /\ 0 < t_dt x) ->
  mtln_run_until LA x T dt = Ok x' -> mtln_run_until LA y T dt = Ok y' -> mtln_run_until LA z T dt = Ok z' -> lines_sum al be x' y' z'.
Proof.
  intros Lx Ly Lz S D Rx Ry Rz. apply run_reaches in Rx as (n & En & Rx), Ry as (n' & En' & Ry), Rz as (n'' & En'' & Rz).
  assert (O : forall q, t_dt q = t_dt x -> t_dt (override_dt q dt) = t_dt (override_dt x dt)) by (intros q Hq; unfold override_dt; destruct (negb _); [reflexivity|exact Hq]).
  rewrite (O y (proj1 (ls_dt _ _ _ _ _ S))) in En'. rewrite (O z (proj2 (ls_dt _ _ _ _ _ S))) in En''.
  assert (n' = n) by congruence. assert (n'' = n) by congruence. subst n' n''. exact (super_reaches al be x y z T dt n x' y' z' Lx Ly Lz S D Rx Ry Rz).
Qed.
Lemma rest_reaches x (T dt : R) k x' : lines_net LA x -> lines_rest x ->
  regular LA \/ (forall w, In w (nets x) -> exists ds, rc_circuit LA ds w) /\ (0 < dt \/ dt = 0 /\ 0 < t_dt x) ->
  reaches LA x T dt k x' -> lines_rest x'.
Proof. intros L Rt D R. apply lines_rest_sum. apply lines_rest_sum in Rt. exact (super_reaches 0 0 x x x T dt k x' x' x' L L L Rt D R R R). Qed.
Lemma rest_run x (T dt : R) x' : lines_net LA x -> lines_rest x ->
  regular LA \/ (forall w, In w (nets x) -> exists ds, rc_circuit LA ds w) /\ (0 < dt \/ dt = 0 /\ 0 < t_dt x) ->
  mtln_run_until LA x T dt = Ok x' -> lines_rest x'.
Proof. intros L Rt D R. apply lines_rest_sum. apply lines_rest_sum in Rt. exact (super_run 0 0 x x x T dt x' x' x' L L L Rt D R R R). Qed.
End Runs.
