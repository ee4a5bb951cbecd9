(** Bundles over the reals: entries of the constructed matrices, equations, totality. *)
From Coq Require Import String List Arith ZArith Bool Lia Reals Lra.
From Verif Require Import Num Py Arr ArrFacts NumR RFacts Probes Dispersive Line LineFacts Bundle Networks Mtln
  SpecLine SpecR SpecBundle HistoryFacts LineEqFacts SpecCore CoreEq LinAlg LapackR StepTotal TotalFacts DispFacts BundleFacts BlockFacts FitFacts ConnFacts MemFacts DispR DispTotal.
Import ListNotations.
Local Open Scope R_scope.

Section Built.
Context {N : num}.
Local Open Scope num_scope.
Variable LA : lapack N.
Implicit Types (b : bundle N) (m : mtl N).

Definition no_line : mtl N := {|
  m_name := ""; m_u := []; m_du := []; m_zs := []; m_zl := []; m_lp1 := []; m_lp2 := []; m_rp1 := []; m_rp2 := [];
  m_core := {| k_n := 0; k_N := 0; k_h := []; k_l := []; k_r := []; k_c := []; k_g := []; k_dt := n0;
     k_disp := disp_new 0 0 [] n0; k_v := []; k_i := []; k_eL := []; k_eT := []; k_lr := None; k_cg := None |};
  m_vsrc := []; m_probes := []; m_time := n0 |}.

(** what the constructor stores *)
Lemma new_entries levels name b q q' c c' k : mtld_new levels name = Ok b ->
  let ls := concat levels in let m := nth q ls no_line in let m' := nth q' ls no_line in
  (q < length ls)%nat -> (q' < length ls)%nat -> (c < conductors m)%nat -> (c' < conductors m')%nat ->
  let s := b_core b in let i := (off ls q + c)%nat in let j := (off ls q' + c')%nat in
  ((k < k_N s)%nat -> get3 (k_l s) k i j = if (q =? q')%nat then L_ m k c c' else n0) /\
  ((k < k_N s)%nat -> get3 (k_r s) k i j = if (q =? q')%nat then R_ m k c c' else n0) /\
  ((k <= k_N s)%nat -> get3 (k_c s) k i j = if (q =? q')%nat then C_ m k c c' else n0) /\
  ((k <= k_N s)%nat -> get3 (k_g s) k i j = if (q =? q')%nat then G_ m k c c' else n0).
Proof.
  intros H ls m m' Hq Hq' Hc Hc' s i j.
  destruct (mtld_new_inv _ _ _ H) as (outer & rest & E & _ & E1 & E2 & _ & _ & _ & E3 & E4).
  subst levels. unfold mtld_new in H. inv_bind H. injection H as Hb. unfold s. rewrite <- Hb.
  cbn [b_core k_N k_l k_r k_c k_g].
  assert (A : forall sel : mtl N -> mat N, get2 (snd (bd_lines sel ls)) i j = if (q =? q')%nat then get2 (sel m) c c' else n0).
  { intros sel. unfold i, j. destruct (Nat.eqb_spec q q') as [<-|Hne].
    - apply (bd_same sel ls no_line q c c'); auto.
    - apply (bd_cross sel ls no_line q c q' c'); auto. }
  repeat split; intros Hk; unfold get3, getm; rewrite nth_mk by lia; fold ls; rewrite A; reflexivity.
Qed.

Lemma new_frame levels name b : mtld_new levels name = Ok b ->
  exists outer rest, levels = [outer] :: rest /\
  let s := b_core b in
  k_n s = count_conductors (concat levels) /\ k_N s = (length (m_u outer) - 1)%nat /\
  (forall k i j, (k < k_N s)%nat -> (i < k_n s)%nat -> (j < k_n s)%nat ->
     get3 (k_h s) k i j = cell_len outer k * delta i j) /\
  k_v s = zeros2 (k_n s) (S (k_N s)) /\ k_i s = zeros2 (k_n s) (k_N s) /\
  k_eL s = mk2 (k_n s) (k_N s) (fun _ _ _ => n0) /\ k_eT s = mk2 (k_n s) (S (k_N s)) (fun _ _ _ => n0) /\
  k_dt s = fold_left (fun dt m => if k_dt (m_core m) <? dt then k_dt (m_core m) else dt) (concat levels) n1e10 /\
  k_lr s = None /\ k_cg s = None /\ b_probes b = [].
Proof.
  intros H. destruct (mtld_new_inv _ _ _ H) as (outer & rest & E & _). exists outer, rest. split; [exact E|].
  subst levels. unfold mtld_new in H. inv_bind H. injection H as Hb. intros s. unfold s. rewrite <- Hb.
  cbn [b_core k_n k_N k_h k_v k_i k_eL k_eT k_dt k_lr k_cg b_probes].
  do 2 (split; [reflexivity|]). split.
  { intros k i j Hk Hi Hj. unfold get3 at 1, getm. rewrite nth_mk by auto. rewrite get2_mscal, get2_eye by auto. reflexivity. }
  repeat split.
Qed.
End Built.

Lemma new_cdiag LA levels name (b : bundle NumR) : Forall (Forall (reachable LA)) levels -> mtld_new levels name = Ok b ->
  cdiag (b_core b) /\ (forall k, (k < k_N (b_core b))%nat -> klen (b_core b) k = cell_len (hd no_line (concat levels)) k) /\
  Forall (fun m : mtl NumR => cells m = b_cells b) (concat levels).
Proof.
  intros R H. destruct (new_frame _ _ _ H) as (outer & rest & E & En & EN & Hh & _).
  destruct (mtld_new_inv _ _ _ H) as (outer' & rest' & E' & Hu & _). rewrite E in E'. injection E' as <- <-.
  assert (RO : shape outer). { apply (reachable_shape LA). subst levels. inversion R; subst. inversion H2; auto. }
  assert (Hn : (0 < k_n (b_core b))%nat).
  { rewrite En, E. cbn [concat app]. rewrite count_sum. cbn [map list_sum fold_right]. pose proof (sh_n _ RO). unfold conductors. lia. }
  assert (HN : (0 < k_N (b_core b))%nat) by (rewrite EN, (sh_u _ RO); pose proof (sh_N _ RO); lia).
  assert (L : forall k, (k < k_N (b_core b))%nat -> klen (b_core b) k = cell_len outer k).
  { intros k Hk. unfold klen. rewrite Hh by auto. rewrite deltaR_eq. rring. }
  split; [|split].
  - split; auto. intros k i j Hk Hi Hj. rewrite L by auto. now apply Hh.
  - intros k Hk. rewrite L by auto. subst levels. reflexivity.
  - apply Forall_forall. intros m Hm. unfold b_cells. rewrite EN.
    assert (Sm : shape m).
    { apply (reachable_shape LA). apply in_concat in Hm as (l & Hl & Hm). rewrite Forall_forall in R. specialize (R l Hl).
      rewrite Forall_forall in R. auto. }
    specialize (Hu m Hm). unfold u_eqb in Hu. apply andb_true_iff in Hu as [Hu _]. apply Nat.eqb_eq in Hu.
    rewrite Hu, (sh_u _ Sm). unfold cells. lia.
Qed.

Lemma history_cdiag LA b0 (b : bundle NumR) : bundle_history LA b0 b -> cdiag (b_core b).
Proof.
  intros H. destruct (history_binv LA _ _ H) as [_ K].
  assert (B : bundle_built LA b0) by (clear K; induction H; auto).
  destruct B as (levels & name & R & E). destruct (new_cdiag LA _ _ _ R E) as [[A1 A2 A3] _].
  destruct K. unfold b_conductors, b_cells in *. split.
  - now rewrite bk_n.
  - now rewrite bk_N.
  - unfold klen. rewrite bk_n, bk_N, bk_h. exact A3.
Qed.

Section Total.
Variable LA : lapack NumR.
Hypothesis LAc : lapack_complete LA.
Implicit Types b : bundle NumR.

Lemma core_prepare s : cdiag s -> 0 < k_dt s -> (forall k, (k < k_N s)%nat -> 0 < klen s k) ->
  (forall k, (k <= k_N s)%nat -> pos_def (k_n s) (kC s k) /\ pos_semidef (k_n s) (kG s k)) ->
  (forall k, (k < k_N s)%nat -> pos_def (k_n s) (fun i j => kL s k i j / k_dt s + kD s k i j / 2 + kE s k i j / k_dt s + kR s k i j / 2 + kQ1 s k i j)) ->
  exists s1 s2, update_lr_terms LA s = Ok s1 /\ update_cg_terms LA s1 = Ok s2.
Proof.
  intros Cd Hdt Hh HC HL.
  destruct (update_lr_total LA LAc s) as [s1 E1].
  { intros k Hk. eapply pd_ext; [|apply pd_scal; [apply (Hh k Hk)|apply (HL k Hk)]].
    intros i j Hi Hj. rewrite c_lr_F1 by auto. reflexivity. }
  exists s1. destruct (update_lr_inv LA _ _ E1) as [t ->].
  destruct (update_cg_total LA LAc (set_lr s t)) as [s2 E2]; [|exists s2; split; assumption].
  intros k Hk. change (pos_def (k_n s) (get2 (cg_F1 s k))). change (k <= k_N s)%nat in Hk.
  destruct (HC k Hk) as [H1 H2].
  assert (W : 0 < kwidth s k).
  { unfold kwidth. pose proof (cd_N _ Cd). destruct (Nat.eqb_spec k 0); [apply Hh; lia|].
    destruct (Nat.eqb_spec k (k_N s)); [apply Hh; lia|]. pose proof (Hh (k - 1)%nat ltac:(lia)). pose proof (Hh k ltac:(lia)). lra. }
  eapply pd_ext; [|apply pd_scal; [exact W|apply pd_add_psd; [apply pd_scal; [apply Rinv_0_lt_compat, Hdt|exact H1]|apply psd_scal; [|exact H2]]]].
  - intros i j Hi Hj. rewrite c_cg_F1 by auto. instantiate (1 := / 2). unfold Rdiv. rring.
  - lra.
Qed.
End Total.

Section Zero.
Context {N : num}.
Implicit Types (b : bundle N).
Lemma cube_over {A} (d : A) nx n t k i j : cube nx n t -> ~ ((k < nx)%nat /\ (i < n)%nat /\ (j < n)%nat) ->
  nth j (nth i (nth k t []) []) d = d.
Proof.
  intros [H1 H2] H. destruct (Nat.lt_ge_cases k nx) as [Hk|Hk].
  2:{ rewrite (nth_overflow t) by lia. destruct i, j; reflexivity. }
  destruct (H2 k Hk) as [H3 H4]. destruct (Nat.lt_ge_cases i n) as [Hi|Hi].
  2:{ rewrite (nth_overflow (nth k t [])) by lia. destruct j; reflexivity. }
  apply nth_overflow. rewrite H4 by auto. lia.
Qed.
Lemma bd_zero (sel : mtl N -> mat N) ls i j : (forall m, In m ls -> forall p q, get2 (sel m) p q = n0) ->
  (i < count_conductors ls)%nat -> (j < count_conductors ls)%nat -> get2 (snd (bd_lines sel ls)) i j = n0.
Proof.
  intros H Hi Hj. destruct (locate ls no_line i Hi) as (q & c & Hq & Hc & ->).
  destruct (locate ls no_line j Hj) as (q' & c' & Hq' & Hc' & ->).
  destruct (Nat.eq_dec q q') as [<-|Hne].
  - destruct (bd_same sel ls no_line q c c' Hq Hc Hc') as [-> _]. apply H. now apply nth_In.
  - now destruct (bd_cross sel ls no_line q c q' c' Hq Hc Hq' Hc' Hne) as [-> _].
Qed.

(** a bundle of lines without dispersive elements has none *)
Lemma new_zero levels name b : Forall (Forall undispersed) levels -> mtld_new levels name = Ok b ->
  (forall k i j, dP1 (b_disp b) k i j = qzero /\ dP2 (b_disp b) k i j = qzero /\ dP3 (b_disp b) k i j = qzero) /\
  (forall k i j, dD (b_disp b) k i j = n0 /\ dE (b_disp b) k i j = n0) /\
  (forall k c, dPhi (b_disp b) k c = qzero /\ dMem (b_disp b) k c = n0).
Proof.
  intros HU H. pose proof (bi_disp _ (mtld_new_binv _ _ _ H)) as Sh.
  pose proof (bi_n _ (mtld_new_binv _ _ _ H)) as En. pose proof (bi_nx _ (mtld_new_binv _ _ _ H)) as Ex.
  pose proof (bi_cnt _ (mtld_new_binv _ _ _ H)) as Ec.
  destruct (mtld_new_inv _ _ _ H) as (outer & rest & E & _ & El & _).
  assert (U : forall m, In m (concat levels) -> exists u dt, k_disp (m_core m) = disp_new (conductors m) (cells m) u dt).
  { intros m Hm. apply in_concat in Hm as (l & Hl & Hm). rewrite Forall_forall in HU. pose proof (HU _ Hl) as X.
    rewrite Forall_forall in X. exact (X _ Hm). }
  assert (D : forall k i j, (k < ds_nx (b_disp b))%nat /\ (i < ds_n (b_disp b))%nat /\ (j < ds_n (b_disp b))%nat \/
     ~ ((k < ds_nx (b_disp b))%nat /\ (i < ds_n (b_disp b))%nat /\ (j < ds_n (b_disp b))%nat)).
  { intros. destruct (lt_dec k (ds_nx (b_disp b))), (lt_dec i (ds_n (b_disp b))), (lt_dec j (ds_n (b_disp b))); tauto. }
  rewrite En, Ec, El in D. destruct Sh as [c1 c2 c3 c4 c5].
  rewrite En, Ec, El in c1, c2, c3, c4, c5.
  subst levels. unfold mtld_new in H. inv_bind H. injection H as Hb.
  split; [|split].
  - intros k i j. destruct (D k i j) as [(Hk & Hi & Hj)|Hn].
    + rewrite <- Hb in *. unfold dP1, dP2, dP3, qget3, b_disp. cbn [b_core k_disp ds_q1 ds_q2 ds_q3 ds_nx b_disp] in *.
      rewrite !nth_mk by auto.
      rewrite !(qbd_zero _ (concat ([outer] :: rest)) i j); auto;
        intros m Hm p q; destruct (U m Hm) as (u & dt & ->); apply qget3_qzeros.
    + repeat split; eapply (cube_over qzero); eauto.
  - intros k i j. destruct (D k i j) as [(Hk & Hi & Hj)|Hn].
    + rewrite <- Hb in *. unfold dD, dE, get3, getm, b_disp. cbn [b_core k_disp ds_d ds_e ds_nx b_disp] in *.
      rewrite !nth_mk by auto.
      split; (apply bd_zero; [|exact Hi|exact Hj]); intros m Hm p q; destruct (U m Hm) as (u & dt & ->);
        cbn [disp_new ds_d ds_e]; apply zeros3_get.
    + split; eapply (cube_over n0); eauto.
  - intros k c. rewrite <- Hb. unfold dPhi, dMem, b_disp. cbn [b_core k_disp ds_phi ds_q3phi disp_new].
    rewrite qget2_qzeros. split; [reflexivity|apply get2_zeros].
Qed.
End Zero.
