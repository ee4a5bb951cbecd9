(** Balance of the charge of a network of lines. *)
From Coq Require Import String List Arith ZArith Bool Permutation Lia Reals Lra.
From Verif Require Import Num Py Arr ArrFacts NumR RFacts Utils Probes Dispersive Line LineFacts Bundle Networks Mtln SpecLine SpecR SpecBundle SpecCore SpecDisp SpecNet SpecMtln SpecEnergy SpecTele SpecSuper SpecElement SpecCharge SpecNetEnergy
  BundleFacts BundleMore CoreEq NetFacts NetBuild NetR NetStamp NetStamp2 NetPlace MtlnFacts MtlnProps MtlnR SuperNet SuperNet2 StepTotal MtlnPerm ElementFacts EnergyFacts NetEnergy NetEnergyRun.
Import ListNotations.
Local Open Scope R_scope.

Section Charge.
Variable LA : lapack NumR.
Hypothesis LAok : lapack_ok LA.
Implicit Types b : bundle NumR.

(** charge that enters a conductor at an end during a step *)
Definition inq (dt : R) b b' (e : bool) (r : nat) : R :=
  sumR (b_conductors b) (fun r' => b_end_cap b e r r' * (eV b' e r' - eV b e r')) / 2 + dt * in_cur b e r.

Lemma telescope (f : nat -> R) N : (1 <= N)%nat -> sumR (N - 1) (fun k => f k - f (S k)) = f 0%nat - f (N - 1)%nat.
Proof.
  intros _. induction (N - 1)%nat as [|q IH]; [change (sumR 0 (fun k => f k - f (S k))) with 0; change (0 = (f 0%nat - f 0%nat)%R); ring|].
  rewrite sumR_S, IH. rsimpl. ring.
Qed.
Lemma b_charge_step dt t b b' : unlit_bundle LA b -> dt <> 0 -> (1 <= b_cells b)%nat -> telegraph dt dt t b b' ->
  b_cells b' = b_cells b -> b_conductors b' = b_conductors b -> (forall k, klen (b_core b') k = klen (b_core b) k) ->
  (forall k i j, kC (b_core b') k i j = kC (b_core b) k i j) ->
  b_charge b' - b_charge b = - (dt * b_leak b b') + sumR (b_conductors b) (fun r => inq dt b b' false r + inq dt b b' true r).
Proof.
  intros U D N1 [TV _] EN En Eh EM. set (n := b_conductors b) in *. set (N := b_cells b) in *.
  set (q := fun k => b_share b k * sumR n (fun c => sumR n (fun p => kC (b_core b) k c p * (b_volt b' p k - b_volt b p k)))).
  assert (Q : b_charge b' - b_charge b = sumR (S N) q).
  { unfold b_charge. rewrite EN, En. fold n N. rewrite <- sumR_minus. apply sumR_ext. intros k _. unfold q.
    assert (Es : b_share b' k = b_share b k) by (unfold b_share; now rewrite EN, !Eh). rewrite Es, <- Rmult_minus_distr_l. f_equal. rewrite <- sumR_minus. apply sumR_ext. intros c _.
    rewrite <- sumR_minus. apply sumR_ext. intros p _. rewrite EM. rsimpl. ring. }
  rewrite Q, (sumR_ends N q N1).
  assert (IN : sumR (N - 1) (fun k => q (S k)) = - (dt * b_leak b b') + dt * sumR n (fun c => bI b 0 c - bI b (N - 1) c)).
  { transitivity (sumR (N - 1) (fun k => dt * (sumR n (fun c => bI b k c) - sumR n (fun c => bI b (S k) c))
      - dt * (b_share b (S k) * sumR n (fun c => sumR n (fun p => kG (b_core b) (S k) c p * ((b_volt b' p (S k) + b_volt b p (S k)) / 2)))))).
    - apply sumR_ext. intros k Hk. unfold q. rewrite <- sumR_minus, <- !sumR_scal, <- sumR_minus. apply sumR_ext. intros c Hc.
      pose proof (TV c (S k) Hc ltac:(lia) ltac:(fold N; lia)) as F. cbv zeta in F. fold n in F.
      rewrite (sumR_ext n (fun p => kC _ _ _ _ * _) (fun p => kC (b_core b) (S k) c p * (b_volt b' p (S k) - b_volt b p (S k)))) in F by (intros p Hp; rewrite !(ub_T _ _ U) by (auto; fold N; lia); rring).
      rewrite (sumR_ext n (fun p => kG _ _ _ _ * _) (fun p => 2 * (kG (b_core b) (S k) c p * ((b_volt b' p (S k) + b_volt b p (S k)) / 2)))) in F by (intros p Hp; rewrite !(ub_T _ _ U) by (auto; fold N; lia); rsimpl; field).
      rewrite sumR_scal in F.
      assert (W : b_share b (S k) = kwidth (b_core b) (S k)).
      { unfold b_share, kwidth. change (k_N (b_core b)) with N. fold N. assert (Y : (S k =? N)%nat = false) by (apply Nat.eqb_neq; lia). now rewrite Y. }
      rewrite W. replace (S k - 1)%nat with k in F by lia. unfold bI.
      set (A := sumR n (fun p => kC (b_core b) (S k) c p * (b_volt b' p (S k) - b_volt b p (S k)))) in *.
      set (G := sumR n (fun p => kG (b_core b) (S k) c p * ((b_volt b' p (S k) + b_volt b p (S k)) / 2))) in *.
      change (car NumR) with R in *.
      assert (X : kwidth (b_core b) (S k) * A = dt * (b_curr b c k - b_curr b c (S k) - kwidth (b_core b) (S k) * G)).
      { assert (Z : kwidth (b_core b) (S k) * A / dt = b_curr b c k - b_curr b c (S k) - kwidth (b_core b) (S k) * G) by (unfold Rdiv in *; rsimpl; lra). rewrite <- Z. field. exact D. }
      rewrite X. rsimpl. ring.
    - rewrite sumR_minus, !sumR_scal. unfold b_leak. fold n N. rewrite (telescope (fun k => sumR n (fun c => bI b k c)) N N1), sumR_minus. rsimpl. change (sumR n (bI b 0)) with (sumR n (fun c => bI b 0 c)). change (sumR n (bI b (N - 1))) with (sumR n (fun c => bI b (N - 1) c)). ring. }
  rewrite IN. unfold q, inq, in_cur, eV, b_end_cap, bV. cbv iota. rewrite EN. fold n N.
  assert (S0 : b_share b 0 = klen (b_core b) 0 / 2) by reflexivity.
  assert (SN : b_share b N = klen (b_core b) (N - 1) / 2) by (unfold b_share; destruct (Nat.eqb_spec N 0) as [E0|_]; [lia|]; fold N; now rewrite Nat.eqb_refl).
  rewrite S0, SN.
  assert (E : forall (h : R) (A : nat -> nat -> R) (y : nat -> R), h / 2 * sumR n (fun c => sumR n (fun p => A c p * y p)) = sumR n (fun c => sumR n (fun p => h * A c p * y p) / 2)).
  { intros h A y. rewrite <- sumR_scal. apply sumR_ext. intros c _. rewrite (sumR_ext n (fun p => h * A c p * y p) (fun p => h * (A c p * y p))) by (intros; exact (Rmult_assoc _ _ _)). rewrite sumR_scal. set (s := sumR n _). change (h / 2 * s = (h * s / 2)%R). field. }
  rewrite !E. rewrite sumR_plus, !sumR_plus, !sumR_scal, sumR_opp, sumR_minus. rsimpl. ring.
Qed.

Definition flowq (dt : R) y z (c : cend) : R :=
  match bundle_of y (fst (fst c)), bundle_of z (fst (fst c)) with Some b, Some b' => inq dt b b' (snd c) (snd (fst c)) | _, _ => 0 end.
Lemma node_charge y z w w1 w' (bs : bdict NumR) ds kn : ninv LA y -> closed LA y -> joined y -> joined z -> kept LA y z -> t_dt y <> 0 ->
  In w (nets y) -> In w' (nets z) -> net_run LA ds (t_dt y) w -> nw_advance_voltage LA w (t_time y) (t_dt y) = Ok w1 -> nw_update_currents w1 bs = Ok w' -> In kn (w_conns w) ->
  let i := nd_index (snd kn) in let dt := t_dt y in let t := t_time y in
  flowq dt y z (cend_of kn) = dt * ((@circuit_current NumR w dt (nV w') (nV w) (nX w') (fun j => nSrc w j t) (fun j => nSrc w j (t - dt)) i
     + @circuit_current NumR w dt (nV w) (nVprev w) (nX w) (fun j => nSrc w j (t - dt)) (fun j => nSrc w j (t - 2 * dt)) i) / 2).
Proof.
  intros I Cl J J' K D Hw Hw' Rw V C Hk i dt t. pose proof (history_shape LA ds w (run_history LA ds _ w Rw)) as S.
  destruct (currents_kept _ _ _ C) as (Kc & Ev & _ & EX). pose proof (volt_kept _ _ _ _ _ V) as Kv. pose proof (kept_net_trans _ _ _ Kv Kc) as Kw.
  assert (Hk' : In kn (w_conns w')) by (rewrite (sc_conns _ _ (proj1 Kw)); exact Hk).
  destruct (J w kn Hw Hk) as (b & G & _). destruct (kept_get _ _ _ _ _ K G) as (b' & G' & M).
  destruct (joined_V y w kn b J Hw Hk G) as [EV EI]. destruct (joined_V z w' kn b' J' Hw' Hk' G') as [EV' _].
  pose proof (conn_index w kn S Hk) as Hi.
  pose proof (net_kcl LA LAok ds dt w w1 t i Rw V Hi) as Q. cbv zeta in Q.
  rewrite (sumR_zero (w_nodes w) (fun j => nLen w i * nCap w i j * (nField w j t - nField w j (t - dt)))) in Q.
  2:{ intros j Hj. rewrite !(un_F _ (cl_nets _ _ Cl w Hw)) by exact Hj. rring. }
  assert (E1 : nV w1 = nV w') by (unfold nV; now rewrite Ev). assert (E2 : nX w1 = nX w') by (unfold nX; now rewrite EX). rewrite E1, E2 in Q.
  assert (MS : sumR (w_nodes w) (fun j => nLen w i * nCap w i j * (nV w' j - nV w j)) = sumR (b_conductors b) (fun r' => b_end_cap b (nd_end (snd kn)) (nd_row (snd kn)) r' * (eV b' (nd_end (snd kn)) r' - eV b (nd_end (snd kn)) r'))).
  { apply (match_sum LA y w kn b (fun j => nV w' j - nV w j) (nv_keys _ _ I) Cl S Hw Hk G (fun r => eV b' (nd_end (snd kn)) r - eV b (nd_end (snd kn)) r)).
    intros kn' Hk1 B1 B2. destruct (joined_V y w kn' b J Hw Hk1 ltac:(rewrite B1; exact G)) as [A1 _].
    destruct (joined_V z w' kn' b' J' Hw' ltac:(rewrite (sc_conns _ _ (proj1 Kw)); exact Hk1) ltac:(rewrite B1; exact G')) as [A2 _]. rewrite A1, A2, B2. reflexivity. }
  change (@sumn NumR) with sumR in *. rewrite MS in Q.
  unfold flowq, cend_of. cbn [fst snd]. rewrite G, G'. unfold inq. rewrite <- EI. fold i.
  set (q := sumR (b_conductors b) _) in *. fold dt in D.
  set (c1 := circuit_current w dt (nV w') (nV w) (nX w') (fun j => nSrc w j t) (fun j => nSrc w j (t - dt)) i) in *.
  set (c0 := circuit_current w dt (nV w) (nVprev w) (nX w) (fun j => nSrc w j (t - dt)) (fun j => nSrc w j (t - 2 * dt)) i) in *.
  assert (Qq : q = dt * (c1 + c0 - 2 * nI w i)).
  { change (car NumR) with R in *. assert (X : q / dt = c1 + c0 - 2 * nI w i) by (rewrite Q; unfold Rdiv; rsimpl; ring). rewrite <- X. field. exact D. }
  rewrite Qq. rsimpl. unfold Rdiv. field || ring.
Qed.
Lemma step_charge y z : ninv LA y -> ninv LA z -> closed LA y -> joined y -> joined z -> kept LA y z -> mtln_step LA y = Ok z -> t_dt y <> 0 ->
  (forall w, In w (nets y) -> exists ds, net_run LA ds (t_dt y) w) ->
  (forall name b b', bundle_of y name = Some b -> bundle_of z name = Some b' -> telegraph (t_dt y) (t_dt y) (t_time y) b b') ->
  net_charge z = net_charge y + t_dt y * (net_supply y z - net_leak y z).
Proof.
  intros I I' Cl J J' K St D Run Tel. pose proof K as [KB KN]. set (dt := t_dt y) in *. set (t := t_time y) in *.
  pose proof (nv_keys _ _ I) as ND. pose proof (nv_keys _ _ I') as ND'.
  pose proof (F2_length _ _ _ KB) as LB. pose proof (step_nets LA _ _ St) as SN. pose proof (F2_length _ _ _ SN) as LN.
  assert (EB : net_charge z - net_charge y = - (dt * net_leak y z) + total (flowq dt y z) (flat_map cends (t_bundles y))).
  { unfold net_charge, net_leak. rewrite total_flat. rewrite <- (total_fst (fun kb => total (flowq dt y z) (cends kb)) (t_bundles y) (t_bundles z) LB).
    rewrite <- (total_snd (fun kb => b_charge (snd kb)) (t_bundles y) (t_bundles z) LB), <- (total_fst (fun kb => b_charge (snd kb)) (t_bundles y) (t_bundles z) LB).
    unfold over_bundles. rewrite <- total_minus, <- total_scal, <- total_opp, <- total_plus. eapply F2_total; [exact KB|].
    intros [name b] [name' b'] Hb Hb' [E M]. cbn [fst snd] in *. subst name'.
    assert (G : bundle_of y name = Some b) by now apply sget_in. assert (G' : bundle_of z name = Some b') by now apply sget_in.
    pose proof (cl_bundles _ _ Cl name b G) as U. pose proof (marches_statics _ _ _ M) as S.
    rewrite (b_charge_step dt t b b' U D (bundle_cells LA b (proj1 (bundle_in LA y _ b I G))) (Tel name b b' G G') (st_N _ _ S) (st_n _ _ S) (st_h _ _ S)).
    - rewrite total_cends. cbn [fst snd]. unfold flowq. cbn [fst snd]. rewrite G, G'. reflexivity.
    - intros k i j. rewrite (st_C _ _ S). reflexivity. }
  rewrite <- (total_perm _ _ _ (cl_wired _ _ Cl)), total_flat in EB.
  assert (EN : total (fun w => total (flowq dt y z) (map cend_of (w_conns w))) (nets y) = dt * net_supply y z).
  { rewrite <- (total_fst (fun w => total (flowq dt y z) (map cend_of (w_conns w))) (nets y) (nets z) LN).
    unfold net_supply, over_nets. rewrite <- total_scal. eapply F2_total; [exact SN|].
    intros w w' Hw Hw' (w1 & bs & V & C). cbn [fst snd]. destruct (Run w Hw) as [ds Rw].
    pose proof (history_shape LA ds w (run_history LA ds _ w Rw)) as S.
    unfold w_supply. rewrite (conn_sum w _ S), <- total_scal, total_map. apply total_ext. intros kn Hk.
    exact (node_charge y z w w1 w' bs ds kn I Cl J J' K D Hw Hw' Rw V C Hk). }
  rewrite EN in EB. lra.
Qed.
Lemma run_charge x T dt n y z : lines_net LA x -> closed LA x -> one_step x dt -> (0 < n)%nat \/ joined x -> steps_to LA x T dt n y z ->
  net_charge z = net_charge y + t_dt y * (net_supply y z - net_leak y z).
Proof.
  intros L Cl O J S. pose proof S as (R & St & R'). pose proof (lines_ninv LA x L) as I. destruct (one_step_dt _ _ _ _ _ _ L O R) as [Dp Db].
  apply step_charge; auto.
  - eapply reaches_ninv; eauto. - eapply reaches_ninv; eauto.
  - eapply closed_keep; [eapply reaches_kept; eauto|exact Cl].
  - eapply run_joined; eauto. apply Cl. - eapply run_joined; [exact L|apply Cl| |exact R']. left. lia.
  - eapply kept_step; [eapply reaches_ninv; eauto|exact St].
  - lra.
  - eapply run_nets; eauto.
  - intros name b b' G G'. rewrite <- (Db name b G) at 1. eapply run_telegraph; eauto.
Qed.
End Charge.

(** *** what the components send in, all together *)
Lemma tot_total {A} (f : A -> R) l : SpecElement.total (map f l) = total f l.
Proof. induction l as [|a l IH]; [reflexivity|]. rewrite total_cons, <- IH. reflexivity. Qed.
Lemma once {B} (l : list (Z * B)) id (y : R) : NoDup (map fst l) -> In id (map fst l) -> total (fun kn => if (id =? fst kn)%Z then y else 0) l = y.
Proof.
  induction l as [|[i a] l IH]; intros ND H; [destruct H|]. cbn [map fst] in *. inversion ND as [|? ? Ni ND']; subst. rewrite total_cons. cbn [fst].
  destruct (Z.eqb_spec id i) as [->|Nid].
  - rewrite (total_ext _ (fun _ => 0)).
    + assert (X : total (fun _ : Z * B => 0) l = 0) by (clear; induction l as [|a l IH]; [reflexivity|]; rewrite total_cons, IH; lra). rewrite X. lra.
    + intros [j c] Hj. cbn [fst]. destruct (Z.eqb_spec i j) as [->|]; [exfalso; apply Ni; apply in_map_iff; exists (j, c); auto|reflexivity].
  - destruct H as [->|H]; [congruence|]. rewrite IH by auto. lra.
Qed.
Lemma swap {A B} (f : A -> B -> R) (l : list A) (m : list B) : total (fun a => total (f a) m) l = total (fun b => total (fun a => f a b) l) m.
Proof.
  induction l as [|a l IH].
  - rewrite total_nil. induction m as [|b m IH]; [reflexivity|]. rewrite total_cons, <- IH. rewrite total_nil. lra.
  - rewrite total_cons, IH, <- total_plus. apply total_ext. intros b _. rewrite total_cons. reflexivity.
Qed.
Lemma zero_total {A} (f : A -> R) l : (forall a, In a l -> f a = 0) -> total f l = 0.
Proof. induction l as [|a l IH]; intros H; [reflexivity|]. rewrite total_cons, (H a), IH by (try (intros; apply H; now right); now left). lra. Qed.
Lemma known (w : network NumR) id nd : find_node w id = Some nd -> In id (map fst (w_conns w)).
Proof. intros H. apply dget_in in H. apply in_map_iff. exists (id, nd). auto. Qed.
Lemma grounded_known gs : forall w w', nshape w -> diag w -> Forall grounds gs -> do_calls w gs = Ok w' -> forall c, In c gs -> exists k, numbered w (ground_id c) k.
Proof.
  induction gs as [|c gs IH]; intros w w' Sh D F H d Hd; [destruct Hd|]. unfold do_calls in H. cbn [foldM] in H. inv_bind H. inversion F as [|? ? F1 F2]; subst.
  destruct (ground_ends w c a Sh D F1 Ha) as (k & Hk & D1 & _). destruct Hd as [<-|Hd]; [eauto|]. destruct (call_shape _ _ _ Sh Ha) as [S1 _].
  destruct (IH a w' S1 D1 F2 H d Hd) as (q & nd & Fq & Eq). exists q, nd. split; [|exact Eq]. rewrite <- (conns_find w a _ (call_conns _ _ _ Sh Ha)). exact Fq.
Qed.
Lemma supply_of_grounds ds (w0 w : network NumR) gs bs : network_new ds = Ok w0 -> Forall grounds gs -> NoDup (map ground_id gs) -> Forall sourceless bs -> do_calls w0 (gs ++ bs) = Ok w ->
  forall (dt t : NumR) (v vp x : nat -> R),
  sumR (w_nodes w) (fun i => @circuit_current NumR w dt v vp x (fun j => nSrc w j t) (fun j => nSrc w j (t - dt)) i) = ground_total w0 gs dt t v vp x.
Proof.
  intros H G ND B E dt t v vp x. pose proof (new_shape _ _ H) as Sh. destruct (new_blank _ _ H) as [D _].
  destruct (calls_shape _ _ _ Sh E) as [Sh' C']. pose proof E as E'. unfold do_calls in E'. rewrite foldM_app in E'. inv_bind E'. rename a into w1.
  pose proof (grounded_known gs w0 w1 Sh D G Ha) as Kn.
  destruct (grounds_rows gs w0 w1 Sh D G ND Ha) as (Sh1 & _ & C1 & _).
  rewrite (conn_sum w _ Sh'), C'.
  transitivity (total (fun kn => component_current w0 gs bs dt t v vp x (fst kn)) (w_conns w0)).
  { apply total_ext. intros [id nd] Hk. cbn [fst snd]. apply (components ds w0 gs bs w id H G ND B E). exists nd. split; [|reflexivity].
    unfold find_node. apply dget_nodup; [apply Sh|exact Hk]. }
  unfold component_current. cbv zeta. rewrite total_plus.
  assert (P1 : total (fun kn => SpecElement.total (map (fun c => if (ground_id c =? fst kn)%Z then ground_current c dt t (v (node_number w0 (fst kn))) (vp (node_number w0 (fst kn))) (x (first_state w0 (fst kn))) else 0) gs)) (w_conns w0) = ground_total w0 gs dt t v vp x).
  { rewrite (total_ext _ (fun kn => total (fun c => if (ground_id c =? fst kn)%Z then ground_current c dt t (v (node_number w0 (ground_id c))) (vp (node_number w0 (ground_id c))) (x (first_state w0 (ground_id c))) else 0) gs)).
    2:{ intros kn _. rewrite tot_total. apply total_ext. intros c _. destruct (Z.eqb_spec (ground_id c) (fst kn)) as [->|]; reflexivity. }
    rewrite swap. unfold ground_total. apply total_ext. intros c Hc. destruct (Kn c Hc) as (k & nd & Fk & _). apply once; [apply Sh|exact (known _ _ _ Fk)]. }
  assert (P2 : total (fun kn => SpecElement.total (map (fun c => branch_current w0 c v (fst kn)) bs)) (w_conns w0) = 0).
  { rewrite (total_ext _ (fun kn => total (fun c => branch_current w0 c v (fst kn)) bs)) by (intros; apply tot_total). rewrite swap. apply zero_total. intros c Hc. unfold branch_current.
    rewrite total_minus.
    assert (FB : Forall between_nodes bs) by (revert B; apply Forall_impl; intros [] X; cbn in *; tauto).
    assert (HF : (exists nd, find_node w1 (first_end c) = Some nd) /\ exists nd, find_node w1 (second_end c) = Some nd).
    { assert (A : exists u, do_calls w1 bs = Ok u) by eauto. rewrite (calls_accept bs w1 FB) in A. specialize (A c Hc). destruct c; cbn [first_end second_end]; tauto. }
    destruct HF as [[n1 F1] [n2 F2]]. rewrite (conns_find _ _ _ C1) in F1. rewrite (conns_find _ _ _ C1) in F2. rewrite !once by (try apply Sh; eapply known; eassumption). lra. }
  rewrite P1, P2. lra.
Qed.
Lemma supply_after (LA : lapack NumR) ds (w0 w1 w w' : network NumR) gs bs (dt t : R) : network_new ds = Ok w0 -> Forall grounds gs -> NoDup (map ground_id gs) -> Forall sourceless bs ->
  do_calls w0 (gs ++ bs) = Ok w1 -> after LA (@no_call NumR) w1 w ->
  w_supply dt t w w' = (ground_total w0 gs dt t (nV w') (nV w) (nX w') + ground_total w0 gs dt (t - dt) (nV w) (nVprev w) (nX w)) / 2.
Proof.
  intros H G ND B E A. unfold w_supply. destruct (calls_shape _ _ _ (new_shape _ _ H) E) as [Sh1 _].
  pose proof (supply_of_grounds ds w0 w1 gs bs H G ND B E dt) as P. pose proof (after_circuit LA w1 w A) as AC.
  assert (NW : w_nodes w = w_nodes w1).
  { clear - A. induction A as [|y c w' _ IH [] |y bs level conns _ IH H|y d w' _ IH H|y u d w' _ IH H|y bs w' _ IH H]; [reflexivity| | | |].
    - exact IH.
    - unfold compute_v_terms in H. destruct (negb _); [discriminate H|]. cbv zeta in H. apply OkI in H. subst w'. exact IH.
    - unfold nw_advance_voltage in H. inv_bind H. cbv zeta in H. destruct (w_AB y) as [[[A1 B1] B2]|]; [|discriminate H]. inv_bind H. apply OkI in H. subst w'. exact IH.
    - unfold nw_update_currents in H. inv_bind H. apply OkI in H. subst w'. exact IH. }
  rewrite <- !P, NW. rewrite sumR_div. f_equal. rewrite sumR_plus. f_equal; apply sumR_ext; intros i _.
  - exact (AC dt t (nV w') (nV w) (nX w') i).
  - assert (T : t - dt - dt = t - 2 * dt) by ring. rewrite <- T. exact (AC dt (t - dt) (nV w) (nVprev w) (nX w) i).
Qed.
Lemma floating (LA : lapack NumR) ds (w0 w1 w w' : network NumR) bs (dt t : R) : network_new ds = Ok w0 ->
  Forall sourceless bs -> do_calls w0 bs = Ok w1 -> after LA (@no_call NumR) w1 w -> w_supply dt t w w' = 0.
Proof.
  intros H B E A. rewrite (supply_after LA ds w0 w1 w w' [] bs dt t H (Forall_nil _) (NoDup_nil _) B E A). unfold ground_total. rewrite !total_nil. lra.
Qed.


