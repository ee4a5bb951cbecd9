(** What the constructor of a network does with its description. *)
From Coq Require Import String List Arith ZArith Bool Permutation Sorted Lia.
From Verif Require Import Num Py Arr ArrFacts Utils Probes Dispersive Line Bundle Networks Mtln SpecLine SpecBundle SpecNet NetFacts.
Import ListNotations.

Section Free.
Context {N : num}.
Local Open Scope num_scope.
Implicit Types w : network N.
Implicit Types ds : list (descr N).

Definition end_cap (d : descr N) : mat N := getm (k_c (m_core (d_line d))) (if d_end d then k_N (m_core (d_line d)) else 0%nat).
(** size of the capacitance block of the first [q] lines *)
Definition first_row_of ds (q : nat) : nat := list_sum (map (fun d => conductors (d_line d)) (firstn q ds)).

Record built ds (a : @nacc N) (nds : list (list (Z * node))) : Prop := {
  bt_inv : ainv a;
  bt_conns : a_conns a = concat nds;
  bt_nodes : Forall2 (fun d l => (d_side d = "S" \/ d_side d = "L")%string /\
      Forall2 (fun x kn => describes d x kn /\ state_vars (c_cond x) (c_mat x) = Ok (length (nd_state (snd kn)))) (sort_conns (d_conns d)) l) ds nds;
  bt_dx : a_dx a = flat_map (fun d => map (fun _ => end_len (d_line d) (d_end d)) (sort_conns (d_conns d))) ds;
  bt_eT : a_eT a = flat_map (fun d => map (fun x => end_field (d_line d) (d_end d) (c_cond x)) (sort_conns (d_conns d))) ds;
  bt_cs : a_cs a = list_sum (map (fun d => conductors (d_line d)) ds);
  bt_cap : forall q d x y, nth_error ds q = Some d -> (x < conductors (d_line d))%nat -> (y < conductors (d_line d))%nat ->
      get2 (a_c a) (first_row_of ds q + x) (first_row_of ds q + y) = get2 (end_cap d) x y;
  bt_cap0 : forall q d x q' d' y, nth_error ds q = Some d -> (x < conductors (d_line d))%nat -> nth_error ds q' = Some d' -> (y < conductors (d_line d'))%nat ->
      q <> q' -> get2 (a_c a) (first_row_of ds q + x) (first_row_of ds q' + y) = n0
}.
Lemma nth_snoc {A} (l : list A) d q x : nth_error (l ++ [d]) q = Some x -> (q < length l)%nat /\ nth_error l q = Some x \/ q = length l /\ x = d.
Proof.
  intros H. destruct (Nat.lt_ge_cases q (length l)) as [L|L].
  - left. split; [exact L|]. now rewrite nth_error_app1 in H.
  - right. rewrite nth_error_app2 in H by exact L. destruct (q - length l)%nat as [|k] eqn:E; [|destruct k; discriminate H]. split; [lia|]. now injection H.
Qed.
Lemma first_row_le ds q d : nth_error ds q = Some d -> (first_row_of ds q + conductors (d_line d) <= list_sum (map (fun d => conductors (d_line d)) ds))%nat.
Proof.
  unfold first_row_of. revert q. induction ds as [|e ds IH]; intros [|q] H; try discriminate H; cbn [nth_error firstn map list_sum fold_right] in *.
  - injection H as <-. cbn. lia.
  - specialize (IH _ H). unfold list_sum in *. cbn [fold_right] in *. lia.
Qed.
Lemma first_row_snoc ds d q : (q <= length ds)%nat -> first_row_of (ds ++ [d]) q = first_row_of ds q.
Proof. intros H. unfold first_row_of. rewrite firstn_app. replace (q - length ds)%nat with 0%nat by lia. cbn [firstn]. now rewrite app_nil_r. Qed.
Lemma first_row_all ds : first_row_of ds (length ds) = list_sum (map (fun d => conductors (d_line d)) ds).
Proof. unfold first_row_of. now rewrite firstn_all. Qed.

Lemma build ds : forall a, foldM add_nodes_in_line ds (0%nat, [], 0%nat, [], [], []) = Ok a -> exists nds, built ds a nds.
Proof.
  induction ds as [|d ds IH] using rev_ind; intros a H.
  - cbn [foldM] in H. injection H as <-. exists []. split; try reflexivity.
    + split; cbn; auto; try constructor. intros ? [].
    + constructor.
    + intros [|q] d x y H; discriminate H.
    + intros [|q] d x q' d' y H; discriminate H.
  - rewrite foldM_app in H. inv_bind H. destruct (IH _ Ha) as [nds B]. cbn [foldM] in H. inv_bind H. injection H as <-.
    rename a0 into a. rename a1 into a'. clear IH Ha. destruct B as [I Bc Bn Bd Be Bs Bm Bm0].
    destruct d as [line [side [bn cs]]] eqn:Ed. unfold add_nodes_in_line in Ha0. cbv zeta in Ha0. inv_bind Ha0. apply passert_Ok' in Ha.
    destruct a as [[[[[ns cn] csz] c] dx] eT]. cbn [a_ns a_conns a_cs a_c a_dx a_eT] in *.
    match type of Ha0 with foldM _ _ ?acc = _ => set (acc0 := acc) in * end.
    assert (I0 : ainv acc0) by (destruct I; split; auto).
    destruct (fold_nodes _ _ _ _ _ _ Ha0 I0) as (I1 & C1 & C2 & l & N1 & N2 & N3 & N4).
    cbn [acc0 a_ns a_conns a_cs a_c a_dx a_eT] in *.
    exists (nds ++ [l]). split.
    + exact I1.
    + rewrite N1, Bc, concat_app. cbn [concat]. now rewrite app_nil_r.
    + apply Forall2_app; [exact Bn|]. constructor; [|constructor]. split.
      * unfold d_side. cbn [fst snd]. apply orb_prop in Ha as [E|E]; apply String.eqb_eq in E; auto.
      * unfold d_conns. cbn [fst snd]. clear - N2. induction N2 as [|x kn xs l (E1 & E2 & E3 & E4 & E5 & E6) N2 IH]; constructor; auto.
        split; [|exact E6]. unfold describes, d_line, d_end, d_bundle, d_side. cbn [fst snd]. auto.
    + rewrite N3, Bd, flat_map_app. cbn [flat_map]. rewrite app_nil_r. reflexivity.
    + rewrite N4, Be, flat_map_app. cbn [flat_map]. rewrite app_nil_r. reflexivity.
    + rewrite C1, Bs, map_app, list_sum_app. cbn [map list_sum fold_right]. unfold conductors, d_line. cbn [fst]. lia.
    + intros q d0 x y Hq Hx Hy. rewrite C2. pose proof Hq as Hq0. apply nth_snoc in Hq as [[L Hq]|[-> ->]].
      * rewrite first_row_snoc by lia. pose proof (first_row_le _ _ _ Hq). rewrite get2_block_diag by lia.
        rewrite !(proj2 (Nat.ltb_lt _ csz)) by lia. eapply Bm; eauto.
      * rewrite first_row_snoc, first_row_all, <- Bs by lia. unfold conductors, d_line in Hx, Hy. cbn [fst] in Hx, Hy.
        rewrite get2_block_diag by lia. rewrite !(proj2 (Nat.ltb_ge _ csz)) by lia.
        replace (csz + x - csz)%nat with x by lia. replace (csz + y - csz)%nat with y by lia. reflexivity.
    + intros q d0 x q' d0' y Hq Hx Hq' Hy Hn. rewrite C2. apply nth_snoc in Hq as [[L Hq]|[-> ->]]; apply nth_snoc in Hq' as [[L' Hq']|[-> ->]].
      * rewrite !first_row_snoc by lia. pose proof (first_row_le _ _ _ Hq). pose proof (first_row_le _ _ _ Hq'). rewrite get2_block_diag by lia.
        rewrite !(proj2 (Nat.ltb_lt _ csz)) by lia. eapply Bm0; eauto.
      * rewrite !first_row_snoc, first_row_all, <- Bs by lia. pose proof (first_row_le _ _ _ Hq). unfold conductors, d_line in Hy; cbn [fst] in Hy.
        rewrite get2_block_diag by lia. rewrite (proj2 (Nat.ltb_lt _ csz)), (proj2 (Nat.ltb_ge _ csz)) by lia. reflexivity.
      * rewrite !first_row_snoc, first_row_all, <- Bs by lia. pose proof (first_row_le _ _ _ Hq'). unfold conductors, d_line in Hx; cbn [fst] in Hx.
        rewrite get2_block_diag by lia. rewrite (proj2 (Nat.ltb_ge (csz + x) csz)), (proj2 (Nat.ltb_lt (first_row_of ds q' + y) csz)) by lia. reflexivity.
      * lia.
Qed.

Lemma new_built ds w : network_new ds = Ok w -> exists a nds, built ds a nds /\ w_conns w = a_conns a /\ w_nodes w = length (a_conns a) /\ w_ns w = a_ns a /\
  w_csize w = a_cs a /\ w_c w = a_c a /\ w_dx w = a_dx a /\ w_eT w = a_eT a /\
  w_v w = zeros (w_nodes w) /\ w_vprev w = zeros (w_nodes w) /\ w_i w = zeros (w_nodes w) /\ w_X w = zeros (w_ns w) /\
  w_P1 w = zeros2 (w_nodes w) (w_nodes w) /\ w_Ps w = zeros2 (w_nodes w) (w_nodes w) /\ w_Q1 w = zeros2 (w_nodes w) (w_nodes w) /\ w_Qs w = zeros2 (w_nodes w) (w_nodes w) /\
  w_M w = zeros2 (w_ns w) (w_ns w) /\ w_N1 w = zeros2 (w_ns w) (w_nodes w) /\ w_Ns w = zeros2 (w_ns w) (w_nodes w) /\ w_O w = zeros2 (w_nodes w) (w_ns w) /\
  w_vsrc w = mk (w_nodes w) (fun _ => TFun (fun _ => n0)) /\ w_AB w = None.
Proof.
  unfold network_new. intros H. inv_bind H. destruct (build _ _ Ha) as [nds B]. exists a, nds. split; [exact B|].
  destruct a as [[[[[ns cn] csz] c] dx] eT]. cbv zeta in H. apply (f_equal (fun r => match r with Ok a => a | _ => w end)) in H. subst w.
  cbn [a_ns a_conns a_cs a_c a_dx a_eT w_nodes w_ns w_conns w_csize w_c w_dx w_eT w_v w_vprev w_i w_X w_P1 w_Ps w_Q1 w_Qs w_M w_N1 w_Ns w_O w_vsrc w_AB]. repeat split; reflexivity.
Qed.
Lemma new_shape ds w : network_new ds = Ok w -> nshape w.
Proof.
  intros H. pose proof H as H0. apply new_built in H as (a & nds & B & E1 & E2 & E3 & E4 & E5 & E6 & E7 & V & Vp & Ii & X & P1 & Ps & Q1 & Qs & M & N1 & Ns & O & Vs & AB).
  destruct B as [[A1 A2 A3 A4 A5 A6] _ _ _ _ _ _ _].
  assert (HH : w_H w = zeros (w_nodes w + w_ns w)).
  { unfold network_new in H0. inv_bind H0. destruct a0 as [[[[[ns cn] csz] c] dx] eT]. cbv zeta in H0. apply (f_equal (fun r => match r with Ok a => a | _ => w end)) in H0. subst w. reflexivity. }
  split; rewrite ?V, ?Ii, ?X, ?P1, ?Ps, ?Q1, ?Qs, ?M, ?N1, ?Ns, ?O, ?Vs, ?HH, ?E6, ?E7; try (unfold zeros; rewrite length_mk; reflexivity); try apply rectm_mk2; try (rewrite length_mk; reflexivity).
  - congruence.
  - now rewrite E1.
  - rewrite E1. exact A2.
  - rewrite E1, E2. exact A3.
  - rewrite E1, E3. exact A4.
  - intros k Hk. rewrite !get_zeros. now destruct (_ <? _)%nat.
  - congruence.
  - congruence.
Qed.

Variable LA : lapack N.
Lemma history_shape ds w : net_history LA ds w -> nshape w.
Proof.
  induction 1 as [w H|w c w' _ IH H|w bs lv cs _ IH H|w dt w' _ IH H|w t dt w' _ IH H|w bs w' _ IH H].
  - eapply new_shape; eauto.
  - eapply call_shape; eauto.
  - eapply register_shape; eauto.
  - eapply terms_shape; eauto.
  - eapply volt_shape; eauto.
  - eapply curr_shape; eauto.
Qed.
Lemma history_kept ds w : net_history LA ds w -> exists w0, network_new ds = Ok w0 /\ nkept w0 w.
Proof.
  induction 1 as [w H|w c w' Hh IH H|w bs lv cs Hh IH H|w dt w' Hh IH H|w t dt w' Hh IH H|w bs w' Hh IH H]; try (apply history_shape in Hh; destruct IH as (w0 & E & K); exists w0; split; [exact E|]; eapply nkept_trans; [exact K|]).
  - exists w. split; [exact H|apply nkept_refl].
  - eapply call_kept; eauto.
  - eapply register_shape; eauto.
  - eapply terms_shape; eauto.
  - eapply volt_shape; eauto.
  - eapply curr_shape; eauto.
Qed.
Lemma run_history ds dt w : net_run LA ds dt w -> net_history LA ds w.
Proof. induction 1; [eapply nh_terms|eapply nh_volt|eapply nh_curr]; eauto. Qed.

(** during a run the terms are those of the current circuit *)
Definition fresh_terms (w : network N) (dt : N) : Prop := exists w', compute_v_terms w dt = Ok w' /\ w_AB w' = w_AB w.
Lemma run_terms ds dt w : net_run LA ds dt w -> fresh_terms w dt.
Proof.
  unfold fresh_terms. induction 1 as [w0 w _ H|w t dt' w' _ (w1 & IH & E) H|w bs w' _ (w1 & IH & E) H].
  - unfold compute_v_terms in *. destruct (w_csize w0 =? w_nodes w0)%nat eqn:X; cbn [negb] in H; [|discriminate H]. cbv zeta in H.
    apply (f_equal (fun r => match r with Ok a => a | _ => w end)) in H. subst w. cbn [w_csize w_nodes]. rewrite X. cbn [negb]. eexists. split; reflexivity.
  - unfold nw_advance_voltage in H. inv_bind H. cbv zeta in H. destruct (w_AB w) as [[[A B1] B2]|] eqn:Eab; [|discriminate H]. inv_bind H.
    apply (f_equal (fun r => match r with Ok a => a | _ => w' end)) in H. subst w'. cbn [w_AB].
    unfold compute_v_terms in IH |- *. cbn [w_csize w_nodes] in *. destruct (w_csize w =? w_nodes w)%nat; cbn [negb] in IH |- *; [|discriminate IH]. cbv zeta in IH |- *.
    eexists. split; [reflexivity|]. apply (f_equal (fun r => match r with Ok a => w_AB a | _ => None end)) in IH. cbn [w_AB] in IH |- *. rewrite <- E, <- IH. reflexivity.
  - unfold nw_update_currents in H. inv_bind H. apply (f_equal (fun r => match r with Ok a => a | _ => w' end)) in H. subst w'. cbn [set_wi w_AB].
    unfold compute_v_terms in IH |- *. cbn [set_wi w_csize w_nodes] in *. destruct (w_csize w =? w_nodes w)%nat; cbn [negb] in IH |- *; [|discriminate IH]. cbv zeta in IH |- *.
    eexists. split; [reflexivity|]. apply (f_equal (fun r => match r with Ok a => w_AB a | _ => None end)) in IH. cbn [w_AB] in IH |- *. rewrite <- E, <- IH. reflexivity.
Qed.
End Free.
