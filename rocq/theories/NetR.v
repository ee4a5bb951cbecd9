(** The equations solved by one voltage step of a network. *)
From Coq Require Import String List Arith ZArith Bool Permutation Sorted Lia Reals Lra.
From Verif Require Import Num Py Arr ArrFacts NumR RFacts Utils Probes Dispersive Line Bundle Networks Mtln SpecLine SpecBundle SpecNet SpecR NetFacts NetBuild CoreEq BundleMore.
Import ListNotations.
Local Open Scope R_scope.

Section S.
Variable LA : lapack NumR.
Hypothesis LAok : lapack_ok LA.
Implicit Types w : network NumR.

Lemma eval_nSrc w t a i : eval_tfuns (w_vsrc w) t = Ok a -> length (w_vsrc w) = w_nodes w -> (i < w_nodes w)%nat -> get a i = nSrc w i t.
Proof.
  unfold eval_tfuns. intros H L Hi. pose proof (mapM_nth _ _ _ i (TInt 0) 0 H ltac:(lia)) as E. unfold nSrc, get.
  destruct (nth i (w_vsrc w) (TInt 0)) as [z|f]; [discriminate E|]. injection E as E. exact (eq_sym E).
Qed.
Lemma get_fields w t i : get (map (fun f => f t) (w_eT w)) i = nField w i t.
Proof.
  unfold get, nField. change (@n0 NumR) with ((fun f : NumR -> NumR => f t) (fun _ => @n0 NumR)). now rewrite map_nth.
Qed.

(** the linear system of one step, row by row *)
Lemma step_system w w' t (dt : NumR) : nshape w -> fresh_terms w dt -> nw_advance_voltage LA w t dt = Ok w' ->
  let s0 j := nSrc w j t in let s1 j := nSrc w j (t - dt) in let s2 j := nSrc w j (t - 2 * dt) in
  (forall i, (i < w_nodes w)%nat ->
     sumR (w_nodes w) (fun j => (nLen w i * nCap w i j / dt - nG w i j - nQ w i j / dt) * nV w' j)
     - sumR (w_ns w) (fun j => nO w i j * nX w' j)
     = sumR (w_nodes w) (fun j => (nLen w i * nCap w i j / dt - nQ w i j / dt) * nV w j)
       + sumR (w_nodes w) (fun j => (nGs w i j + nQs w i j / dt) * s0 j)
       + (circuit_current w dt (nV w) (nVprev w) (nX w) s1 s2 i
          - sumR (w_nodes w) (fun j => nQs w i j * s1 j) / dt - 2 * nI w i
          - sumR (w_nodes w) (fun j => nLen w i * nCap w i j * (nField w j t - nField w j (t - dt))) / dt)) /\
  (forall i, (i < w_ns w)%nat ->
     sumR (w_nodes w) (fun j => - dt * nB w i j * nV w' j) + sumR (w_ns w) (fun j => (@delta NumR i j - dt * nM w i j) * nX w' j)
     = nX w i + sumR (w_nodes w) (fun j => dt * nBs w i j * s0 j)).
Proof.
  intros S (wt & Ht & Eab) H s0 s1 s2. unfold nw_advance_voltage in H. inv_bind H. rename a into q. cbv zeta in H.
  unfold compute_v_terms in Ht. destruct (w_csize w =? w_nodes w)%nat; cbn [negb] in Ht; [|discriminate Ht]. cbv zeta in Ht.
  destruct (w_AB w) as [[[A B1] B2]|] eqn:Ew; [|discriminate H].
  apply (f_equal (fun r => match r with Ok a => w_AB a | _ => None end)) in Ht. cbn [w_AB] in Ht. rewrite Eab in Ht.
  injection Ht as EA EB1 EB2. inv_bind H. rename a into Hs. apply of_option_Ok in Ha0.
  pose proof (solve_ok LA LAok _ _ _ _ Ha0) as Sv. clear Ha0. apply OkI in H.
  unfold w_sources in Ha. do 3 inv_bind Ha. apply OkI in Ha.
  assert (Q0 : forall j, (j < w_nodes w)%nat -> get (vs_now q) j = s0 j) by (intros; subst q; cbn [vs_now]; eapply eval_nSrc; eauto; apply S).
  assert (Q1 : forall j, (j < w_nodes w)%nat -> get (vs_prev q) j = s1 j) by (intros; subst q; cbn [vs_prev]; eapply eval_nSrc; eauto; apply S).
  assert (Q2 : forall j, (j < w_nodes w)%nat -> get (vs_prev2 q) j = s2 j) by (intros; subst q; cbn [vs_prev2]; eapply eval_nSrc; eauto; apply S).
  assert (F0 : forall j, get (we_now q) j = nField w j t) by (intros; subst q; cbn [we_now]; apply get_fields).
  assert (F1 : forall j, get (we_prev q) j = nField w j (t - dt)) by (intros; subst q; cbn [we_prev]; apply get_fields).
  clear Ha1 Ha0 Ha2 Ha.
  assert (HV : forall j, (j < w_nodes w)%nat -> get Hs j = nV w' j).
  { intros j Hj. subst w'. unfold nV. cbn [w_v]. now rewrite get_mk. }
  assert (HX : forall j, (j < w_ns w)%nat -> get Hs (w_nodes w + j) = nX w' j).
  { intros j Hj. subst w'. unfold nX. cbn [w_X]. now rewrite get_mk. }
  clear H. set (nn := w_nodes w) in *. set (ns := w_ns w) in *.
  assert (P : forall i, (i < nn + ns)%nat -> sumR (nn + ns) (fun k => get2 A i k * get Hs k) =
     sumR (nn + ns) (fun j => get2 B1 i j * get (w_H w) j) + sumR nn (fun j => get2 B2 i j * get (vs_now q) j) +
     (if (i <? nn)%nat then w_Is w q dt i - sumR nn (fun j => get2 (w_Qs w) i j * get (vs_prev q) j) / dt - 2 * nI w i
         - sumR nn (fun j => get2 (w_dxc w) i j * (get (we_now q) j - get (we_prev q) j)) / dt else 0)).
  { intros i Hi. etransitivity; [exact (Sv i Hi)|]. rewrite get_mk by exact Hi. rewrite get_mk by exact Hi. reflexivity. }
  assert (Hc : forall i j, (i < nn)%nat -> (j < nn)%nat -> get2 (w_dxc w) i j = nLen w i * nCap w i j).
  { intros i j Hi Hj. unfold w_dxc. fold nn. now rewrite get2_mk2. }
  assert (GA : forall i j, (i < nn + ns)%nat -> (j < nn + ns)%nat -> get2 A i j =
     if (i <? nn)%nat then if (j <? nn)%nat then get2 (w_dxc w) i j / dt - get2 (w_P1 w) i j - get2 (w_Q1 w) i j / dt else - get2 (w_O w) i (j - nn)
     else if (j <? nn)%nat then - dt * get2 (w_N1 w) (i - nn) j else @delta NumR (i - nn) (j - nn) - dt * get2 (w_M w) (i - nn) (j - nn)).
  { intros i j Hi Hj. rewrite <- EA. exact (get2_mk2 _ _ _ _ _ Hi Hj). }
  assert (GB1 : forall i j, (i < nn + ns)%nat -> (j < nn + ns)%nat -> get2 B1 i j =
     if (i <? nn)%nat then if (j <? nn)%nat then get2 (w_dxc w) i j / dt - get2 (w_Q1 w) i j / dt else 0
     else if (j <? nn)%nat then 0 else @delta NumR (i - nn) (j - nn)).
  { intros i j Hi Hj. rewrite <- EB1. exact (get2_mk2 _ _ _ _ _ Hi Hj). }
  assert (GB2 : forall i j, (i < nn + ns)%nat -> (j < nn)%nat -> get2 B2 i j =
     if (i <? nn)%nat then get2 (w_Ps w) i j + get2 (w_Qs w) i j / dt else dt * get2 (w_Ns w) (i - nn) j).
  { intros i j Hi Hj. rewrite <- EB2. exact (get2_mk2 _ _ _ _ _ Hi Hj). }
  clear EA EB1 EB2.
  split; intros i Hi.
  - specialize (P i ltac:(lia)). rewrite (proj2 (Nat.ltb_lt i nn) Hi) in P. rewrite !sumR_split in P.
    rewrite (sumR_ext nn (fun k => get2 A i k * get Hs k) (fun j => (nLen w i * nCap w i j / dt - nG w i j - nQ w i j / dt) * nV w' j)) in P.
    2:{ intros j Hj. rewrite GA by lia. rewrite !(proj2 (Nat.ltb_lt _ nn)) by lia. rewrite Hc, HV by lia. reflexivity. }
    rewrite (sumR_ext ns (fun k => get2 A i (nn + k) * get Hs (nn + k)) (fun j => - (nO w i j * nX w' j))) in P.
    2:{ intros j Hj. rewrite GA by lia. rewrite (proj2 (Nat.ltb_lt i nn)), (proj2 (Nat.ltb_ge (nn + j) nn)) by lia.
        replace (nn + j - nn)%nat with j by lia. rewrite HX by lia. unfold nO. rsimpl. ring. }
    rewrite (sumR_ext nn (fun j => get2 B1 i j * get (w_H w) j) (fun j => (nLen w i * nCap w i j / dt - nQ w i j / dt) * nV w j)) in P.
    2:{ intros j Hj. rewrite GB1 by lia. rewrite !(proj2 (Nat.ltb_lt _ nn)) by lia. rewrite Hc by lia. rewrite (sh_H _ S) by (unfold nn in *; lia).
        fold nn. rewrite (proj2 (Nat.ltb_lt j nn)) by lia. reflexivity. }
    rewrite (sumR_zero ns (fun j => get2 B1 i (nn + j) * get (w_H w) (nn + j))) in P.
    2:{ intros j Hj. rewrite GB1 by lia. rewrite (proj2 (Nat.ltb_lt i nn)), (proj2 (Nat.ltb_ge (nn + j) nn)) by lia. apply Rmult_0_l. }
    rewrite (sumR_ext nn (fun j => get2 B2 i j * get (vs_now q) j) (fun j => (nGs w i j + nQs w i j / dt) * s0 j)) in P.
    2:{ intros j Hj. rewrite GB2 by lia. rewrite (proj2 (Nat.ltb_lt i nn)) by lia. rewrite Q0 by lia. reflexivity. }
    rewrite (sumR_ext nn (fun j => get2 (w_Qs w) i j * get (vs_prev q) j) (fun j => nQs w i j * s1 j)) in P by (intros; rewrite Q1 by auto; reflexivity).
    rewrite (sumR_ext nn (fun j => get2 (w_dxc w) i j * (get (we_now q) j - get (we_prev q) j)) (fun j => nLen w i * nCap w i j * (nField w j t - nField w j (t - dt)))) in P
      by (intros j Hj; rewrite Hc, F0, F1 by auto; reflexivity).
    rewrite sumR_opp in P. replace (circuit_current w dt (nV w) (nVprev w) (nX w) s1 s2 i) with (w_Is w q dt i).
    + fold nn ns. clear -P. unfold Rminus in P |- *. rewrite Rplus_0_r in P. exact P.
    + unfold w_Is, circuit_current. cbv zeta. fold nn ns. change (@sumn NumR) with sumR.
      rewrite (sumR_ext nn (fun j => get2 (w_Ps w) i j * get (vs_prev q) j)%num (fun j => nGs w i j * s1 j)) by (intros; rewrite Q1 by auto; reflexivity).
      rewrite (sumR_ext nn (fun j => get2 (w_Qs w) i j * (get (vs_prev q) j - get (vs_prev2 q) j))%num (fun j => nQs w i j * (s1 j - s2 j))) by (intros; rewrite Q1, Q2 by auto; reflexivity).
      reflexivity.
  - specialize (P (nn + i)%nat ltac:(lia)). rewrite (proj2 (Nat.ltb_ge (nn + i) nn)) in P by lia. rewrite !sumR_split in P.
    rewrite (sumR_ext nn (fun k => get2 A (nn + i) k * get Hs k) (fun j => - dt * nB w i j * nV w' j)) in P.
    2:{ intros j Hj. rewrite GA by lia. rewrite (proj2 (Nat.ltb_ge (nn + i) nn)), (proj2 (Nat.ltb_lt j nn)) by lia.
        replace (nn + i - nn)%nat with i by lia. rewrite HV by lia. reflexivity. }
    rewrite (sumR_ext ns (fun k => get2 A (nn + i) (nn + k) * get Hs (nn + k)) (fun j => (@delta NumR i j - dt * nM w i j) * nX w' j)) in P.
    2:{ intros j Hj. rewrite GA by lia. rewrite !(proj2 (Nat.ltb_ge _ nn)) by lia.
        replace (nn + i - nn)%nat with i by lia. replace (nn + j - nn)%nat with j by lia. rewrite HX by lia. reflexivity. }
    rewrite (sumR_zero nn (fun j => get2 B1 (nn + i) j * get (w_H w) j)) in P.
    2:{ intros j Hj. rewrite GB1 by lia. rewrite (proj2 (Nat.ltb_ge (nn + i) nn)), (proj2 (Nat.ltb_lt j nn)) by lia. apply Rmult_0_l. }
    rewrite (sumR_ext ns (fun j => get2 B1 (nn + i) (nn + j) * get (w_H w) (nn + j)) (fun j => @delta NumR i j * nX w j)) in P.
    2:{ intros j Hj. rewrite GB1 by lia. rewrite !(proj2 (Nat.ltb_ge _ nn)) by lia. rewrite (sh_H _ S) by (unfold nn, ns in *; lia). fold nn.
        rewrite (proj2 (Nat.ltb_ge (nn + j) nn)) by lia. replace (nn + i - nn)%nat with i by lia. replace (nn + j - nn)%nat with j by lia. reflexivity. }
    rewrite sumR_delta_l in P by exact Hi.
    rewrite (sumR_ext nn (fun j => get2 B2 (nn + i) j * get (vs_now q) j) (fun j => dt * nBs w i j * s0 j)) in P.
    2:{ intros j Hj. rewrite GB2 by lia. rewrite (proj2 (Nat.ltb_ge (nn + i) nn)) by lia. replace (nn + i - nn)%nat with i by lia. rewrite Q0 by lia. reflexivity. }
    rewrite Rplus_0_l, Rplus_0_r in P. exact P.
Qed.

(** Kirchhoff's current law and the state equation *)
Lemma net_kcl ds (dt : NumR) w w' t i : net_run LA ds dt w -> nw_advance_voltage LA w t dt = Ok w' -> (i < w_nodes w)%nat ->
  let n := w_nodes w in
  sumR n (fun j => nLen w i * nCap w i j * (nV w' j - nV w j)) / dt
  = circuit_current w dt (nV w') (nV w) (nX w') (fun j => nSrc w j t) (fun j => nSrc w j (t - dt)) i
    + circuit_current w dt (nV w) (nVprev w) (nX w) (fun j => nSrc w j (t - dt)) (fun j => nSrc w j (t - 2 * dt)) i
    - 2 * nI w i
    - sumR n (fun j => nLen w i * nCap w i j * (nField w j t - nField w j (t - dt))) / dt.
Proof.
  intros Hr Hst Hi n. destruct (step_system w w' t dt) as [E _]; eauto using run_terms, history_shape, run_history.
  specialize (E i Hi). fold n in E |- *.
  set (I1 := circuit_current w dt (nV w) (nVprev w) (nX w) (fun j => nSrc w j (t - dt)) (fun j => nSrc w j (t - 2 * dt)) i) in *.
  unfold circuit_current. fold n. set (ns := w_ns w) in *. change (@sumn NumR) with sumR. change (@ndiv NumR) with Rdiv. change (@nadd NumR) with Rplus.
  rewrite <- !sumR_div in E |- *.
  assert (E2 : sumR n (fun j => (nLen w i * nCap w i j / dt - nG w i j - nQ w i j / dt) * nV w' j)
     = sumR n (fun j => nLen w i * nCap w i j * (nV w' j - nV w j) / dt) - sumR n (fun j => nG w i j * nV w' j)
       - sumR n (fun j => nQ w i j * (nV w' j - nV w j) / dt)
       + sumR n (fun j => (nLen w i * nCap w i j / dt - nQ w i j / dt) * nV w j)).
  { rewrite <- !sumR_minus, <- sumR_plus. apply sumR_ext. intros j Hj. unfold Rdiv. rring. }
  assert (E3 : sumR n (fun j => (nGs w i j + nQs w i j / dt) * nSrc w j t) - sumR n (fun j => nQs w i j * nSrc w j (t - dt) / dt)
     = sumR n (fun j => nGs w i j * nSrc w j t) + sumR n (fun j => nQs w i j * (nSrc w j t - nSrc w j (t - dt)) / dt)).
  { rewrite <- sumR_minus, <- sumR_plus. apply sumR_ext. intros j Hj. unfold Rdiv. rring. }
  rewrite E2 in E. clear E2. rsimpl. rewrite <- ?sumR_div.
  match type of E3 with ?a - ?b = ?c + ?d => set (z1 := a) in *; set (z2 := b) in *; set (z3 := c) in *; set (z4 := d) in * end.
  lra.
Qed.
Lemma net_states ds (dt : NumR) w w' t i : net_run LA ds dt w -> nw_advance_voltage LA w t dt = Ok w' -> (i < w_ns w)%nat ->
  nX w' i = nX w i + dt * (sumR (w_ns w) (fun j => nM w i j * nX w' j) + sumR (w_nodes w) (fun j => nB w i j * nV w' j)
                           + sumR (w_nodes w) (fun j => nBs w i j * nSrc w j t)).
Proof.
  intros Hr Hst Hi. destruct (step_system w w' t dt) as [_ E]; eauto using run_terms, history_shape, run_history.
  specialize (E i Hi).
  rewrite (sumR_ext (w_nodes w) (fun j => - dt * nB w i j * nV w' j) (fun j => (- dt) * (nB w i j * nV w' j))) in E by (intros; rring).
  rewrite (sumR_ext (w_ns w) _ (fun j => @delta NumR i j * nX w' j - dt * (nM w i j * nX w' j))) in E by (intros; rring).
  rewrite (sumR_ext (w_nodes w) (fun j => dt * nBs w i j * nSrc w j t) (fun j => dt * (nBs w i j * nSrc w j t))) in E by (intros; rring).
  rewrite sumR_minus, !sumR_scal, sumR_delta_l in E by exact Hi. rlra.
Qed.
End S.
