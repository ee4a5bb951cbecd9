(** Facts about the line update, valid for every [num] (so also for binary64). *)
From Coq Require Import String List Arith ZArith Bool Lia.
From Verif Require Import Num Py Arr ArrFacts Probes Dispersive Line.
Import ListNotations.

Section LineFacts.
Context {N : num}.
Local Open Scope num_scope.
Variable LA : lapack N.
Implicit Types (s : core N) (m : mtl N) (d : disp N) (t : ten N * ten N).

(** everything in the line state that a time step does not change *)
Record same_static (s s' : core N) : Prop := {
  ss_n : k_n s' = k_n s; ss_N : k_N s' = k_N s; ss_h : k_h s' = k_h s;
  ss_l : k_l s' = k_l s; ss_r : k_r s' = k_r s; ss_c : k_c s' = k_c s; ss_g : k_g s' = k_g s;
  ss_dt : k_dt s' = k_dt s; ss_eL : k_eL s' = k_eL s; ss_eT : k_eT s' = k_eT s;
  ss_lr : k_lr s' = k_lr s; ss_cg : k_cg s' = k_cg s
}.
(** everything in the dispersive model that a time step does not change *)
Record same_disp (d d' : disp N) : Prop := {
  sd_n : ds_n d' = ds_n d; sd_nx : ds_nx d' = ds_nx d; sd_u : ds_u d' = ds_u d;
  sd_dt : ds_dt d' = ds_dt d; sd_q1 : ds_q1 d' = ds_q1 d; sd_q2 : ds_q2 d' = ds_q2 d;
  sd_q3 : ds_q3 d' = ds_q3 d; sd_d : ds_d d' = ds_d d; sd_e : ds_e d' = ds_e d;
  sd_q1s : ds_q1sum d' = ds_q1sum d; sd_q2s : ds_q2sum d' = ds_q2sum d
}.
Record same_line (m m' : mtl N) : Prop := {
  sl_name : m_name m' = m_name m; sl_u : m_u m' = m_u m; sl_du : m_du m' = m_du m;
  sl_zs : m_zs m' = m_zs m; sl_zl : m_zl m' = m_zl m;
  sl_lp1 : m_lp1 m' = m_lp1 m; sl_lp2 : m_lp2 m' = m_lp2 m;
  sl_rp1 : m_rp1 m' = m_rp1 m; sl_rp2 : m_rp2 m' = m_rp2 m;
  sl_vsrc : m_vsrc m' = m_vsrc m;
  sl_core : same_static (m_core m) (m_core m');
  sl_disp : same_disp (k_disp (m_core m)) (k_disp (m_core m'))
}.

Lemma same_static_refl s : same_static s s. Proof. split; auto. Qed.
Lemma same_static_trans a b c : same_static a b -> same_static b c -> same_static a c.
Proof. intros [] []; split; congruence. Qed.
Lemma same_disp_refl d : same_disp d d. Proof. split; auto. Qed.
Lemma same_disp_trans a b c : same_disp a b -> same_disp b c -> same_disp a c.
Proof. intros [] []; split; congruence. Qed.
Lemma same_line_refl m : same_line m m.
Proof. split; auto using same_static_refl, same_disp_refl. Qed.
Lemma same_line_trans a b c : same_line a b -> same_line b c -> same_line a c.
Proof. intros [] []; split; eauto using same_static_trans, same_disp_trans; congruence. Qed.

Lemma update_q3_phi_same d d' : update_q3_phi_term d = Ok d' -> same_disp d d' /\ ds_phi d' = ds_phi d.
Proof. unfold update_q3_phi_term. intros H. inv_bind H. injection H as <-. split; [split|]; auto. Qed.
Lemma update_phi_same d i i' d' : update_phi d i i' = Ok d' -> same_disp d d' /\ ds_q3phi d' = ds_q3phi d.
Proof. unfold update_phi. intros H. inv_bind H. injection H as <-. split; [split|]; auto. Qed.

(** *** What a step does, read off the record *)

Definition sources_now (m : mtl N) : mat N := eval_at (m_vsrc m) (m_time m).
Definition sources_prev (m : mtl N) : mat N := eval_at (m_vsrc m) (m_time m - k_dt (m_core m)).
Definition fields (m : mtl N) : fsrc N :=
  eval_fields (k_eL (m_core m)) (k_eT (m_core m)) (m_time m) (k_dt (m_core m)).

Definition left_voltage (m : mtl N) (a : nat) : N :=
  let s := m_core m in let f := fields m in let n := k_n s in
  port_voltage n (m_lp1 m) (m_lp2 m) (m_zs m) (getm (k_c s) 0) (get3 (k_h s) 0 0 0) (k_dt s) (- n2)
     (col n (k_v s) 0) (col n (k_i s) 0) (col n (sources_now m) 0) (col n (sources_prev m) 0)
     (col n (eT_now f) 0) (col n (eT_prev f) 0) a.
Definition right_voltage (m : mtl N) (a : nat) : N :=
  let s := m_core m in let f := fields m in let n := k_n s in let e := k_N s in
  port_voltage n (m_rp1 m) (m_rp2 m) (m_zl m) (getm (k_c s) e) (get3 (k_h s) (e - 1) 0 0) (k_dt s) n2
     (col n (k_v s) e) (col n (k_i s) (e - 1)) (col n (sources_now m) e) (col n (sources_prev m) e)
     (col n (eT_now f) e) (col n (eT_prev f) e) a.

(** the voltage of conductor [c] at node [k] after one step *)
Definition next_v (m : mtl N) (vt idf : ten N) (c k : nat) : N :=
  if (k =? 0)%nat then left_voltage m c
  else if (k =? k_N (m_core m))%nat then right_voltage m c
  else interior_voltage (m_core m) (fields m) vt idf c k.

Lemma col_ext n (A B : mat N) k :
  (forall j, (j < n)%nat -> get2 A j k = get2 B j k) -> col n A k = col n B k.
Proof. intros H. unfold col. apply mk_ext. auto. Qed.

Lemma get2_set_col n nodes (v : mat N) k f c j :
  (c < n)%nat -> (j < nodes)%nat ->
  get2 (set_col n nodes v k f) c j = if (j =? k)%nat then f c else get2 v c j.
Proof. intros. unfold set_col. now rewrite get2_mk2. Qed.

(** full decomposition of a step *)
Lemma mtl_step_inv m m' : (1 <= k_N (m_core m))%nat -> mtl_step m = Ok m' ->
  exists vt idf it vd d1 d2 ps,
    k_cg (m_core m) = Some (vt, idf) /\ k_lr (m_core m) = Some (it, vd) /\
    update_q3_phi_term (k_disp (m_core m)) = Ok d1 /\
    let s := m_core m in
    let v' := k_v (m_core m') in
    let i' := k_i (m_core m') in
    (forall c k, (c < k_n s)%nat -> (k <= k_N s)%nat -> get2 v' c k = next_v m vt idf c k) /\
    v' = mk2 (k_n s) (S (k_N s)) (get2 v') /\
    i' = mk2 (k_n s) (k_N s) (fun c k => cell_current (set_disp (set_v s v') d1) (fields m) it vd c k) /\
    update_phi d1 i' i' = Ok d2 /\
    update_probes (m_core m') (m_time m + k_dt s) (m_probes m) = Ok ps /\
    m' = m_set m (set_i_disp (set_v s v') i' d2) (m_time m + k_dt s) ps.
Proof.
  intros HN H. unfold mtl_step in H.
  fold (sources_now m) (sources_prev m) (fields m) in H.
  inv_bind H. rename a into s2. rename Ha into H2.
  unfold advance_voltage in H2.
  destruct (k_cg (m_core m)) as [[vt idf]|] eqn:Ecg;
    [|cbn in H2; rewrite Ecg in H2; discriminate].
  cbn [advance_left_terminal k_cg set_v] in H2. rewrite Ecg in H2.
  injection H2 as H2.
  inv_bind H. rename a into s4. rename Ha into H4.
  inv_bind H. rename a into ps. rename Ha into Hp.
  injection H as H.
  unfold advance_current in H4. inv_bind H4. rename a into d1. rename Ha into Hd1.
  destruct (k_lr (m_core m)) as [[it vd]|] eqn:Elr.
  2:{ subst s2. cbn in H4. rewrite Elr in H4. discriminate. }
  assert (E : k_lr (advance_right_terminal m s2 (fields m) (sources_now m) (sources_prev m)) = Some (it, vd))
    by (subst s2; exact Elr).
  rewrite E in H4. inv_bind H4. rename a into d2. rename Ha into Hd2. injection H4 as H4.
  exists vt, idf, it, vd, d1, d2, ps.
  subst s2. cbn in Hd1.
  set (v' := k_v (m_core m')) in *. cbv zeta.
  assert (Ev : v' = k_v (advance_right_terminal m
                 (set_v (m_core m) (mk2 (k_n (m_core m)) (S (k_N (m_core m))) (fun c k =>
                   if (0 <? k)%nat && (k <? k_N (m_core m))%nat
                   then interior_voltage (advance_left_terminal m (m_core m) (fields m) (sources_now m) (sources_prev m)) (fields m) vt idf c k
                   else get2 (k_v (advance_left_terminal m (m_core m) (fields m) (sources_now m) (sources_prev m))) c k))) (fields m) (sources_now m) (sources_prev m))).
  { unfold v'. rewrite <- H, <- H4. reflexivity. }
  assert (Hv : forall c k, (c < k_n (m_core m))%nat -> (k <= k_N (m_core m))%nat ->
                 get2 v' c k = next_v m vt idf c k).
  { intros c k Hc Hk. rewrite Ev. unfold next_v.
    cbn [advance_right_terminal k_v set_v k_n k_N].
    rewrite get2_set_col by lia.
    destruct (Nat.eqb_spec k (k_N (m_core m))) as [->|Hne].
    - rewrite (proj2 (Nat.eqb_neq (k_N (m_core m)) 0)) by lia.
      unfold right_voltage, port_voltage; cbv zeta.
      cbn [k_c k_h k_dt k_i k_n k_N].
      rewrite (col_ext (k_n (m_core m)) (mk2 _ _ _) (k_v (m_core m))); [reflexivity|].
      intros j Hj. rewrite get2_mk2 by lia. rewrite Nat.ltb_irrefl, andb_false_r.
      cbn [k_v set_v advance_left_terminal]. rewrite get2_set_col by lia.
      now rewrite (proj2 (Nat.eqb_neq (k_N (m_core m)) 0)) by lia.
    - rewrite get2_mk2 by lia. destruct (Nat.eqb_spec k 0) as [->|Hk0].
      + cbn [Nat.ltb Nat.leb andb]. cbn [k_v set_v advance_left_terminal]. rewrite get2_set_col by lia. reflexivity.
      + rewrite (proj2 (Nat.ltb_lt 0 k)), (proj2 (Nat.ltb_lt k (k_N (m_core m)))) by lia.
        cbn [andb]. unfold interior_voltage; cbv zeta. cbn [advance_left_terminal k_v set_v k_i k_n].
        f_equal. f_equal. apply sumn_ext. intros j Hj. f_equal.
        rewrite get2_set_col by lia.
        now rewrite (proj2 (Nat.eqb_neq k 0)) by lia. }
  assert (Hs : v' = mk2 (k_n (m_core m)) (S (k_N (m_core m))) (get2 v')).
  { rewrite Ev at 1. cbn [advance_right_terminal k_v set_v]. unfold set_col at 1.
    apply mk_ext; intros c Hc. apply mk_ext; intros k Hk.
    rewrite Ev. cbn [advance_right_terminal k_v set_v k_n k_N]. now rewrite get2_set_col by auto. }
  assert (Hcore : m_core m' = s4) by (rewrite <- H; reflexivity).
  assert (Hi : k_i (m_core m') = mk2 (k_n (m_core m)) (k_N (m_core m))
            (fun c k => cell_current (set_disp (set_v (m_core m) v') d1) (fields m) it vd c k)).
  { rewrite Hcore, <- H4. cbn [k_i set_i_disp k_n k_N advance_right_terminal set_v].
    apply mk_ext; intros c Hc. apply mk_ext; intros k Hk.
    unfold cell_current. cbn [k_n k_v k_h k_disp k_i set_disp set_i_disp set_v].
    rewrite Ev. reflexivity. }
  split; [reflexivity|]. split; [reflexivity|]. split; [exact Hd1|].
  split; [exact Hv|]. split; [exact Hs|]. split; [exact Hi|]. split.
  { rewrite Hi. rewrite Ev. exact Hd2. }
  split.
  { rewrite Hcore. exact Hp. }
  rewrite <- H at 1. rewrite Hi, <- H4, Ev. reflexivity.
Qed.

Lemma mtl_step_same m m' : (1 <= k_N (m_core m))%nat -> mtl_step m = Ok m' -> same_line m m'.
Proof.
  intros HN H. destruct (mtl_step_inv m m' HN H)
    as (vt & idf & it & vd & d1 & d2 & ps & Hcg & Hlr & Hd1 & _ & _ & _ & Hd2 & _ & E).
  rewrite E. cbn. split; auto.
  - split; auto.
  - cbn. apply update_q3_phi_same in Hd1 as [Hd1 _]. apply update_phi_same in Hd2 as [Hd2 _].
    eapply same_disp_trans; eauto.
Qed.

Lemma mtl_step_time (m m' : mtl N) : (1 <= k_N (m_core m))%nat -> mtl_step m = Ok m' ->
  m_time m' = m_time m + k_dt (m_core m).
Proof.
  intros HN H. destruct (mtl_step_inv m m' HN H)
    as (vt & idf & it & vd & d1 & d2 & ps & _ & _ & _ & _ & _ & _ & _ & _ & E).
  now rewrite E.
Qed.

Lemma iter_step_same n (m m' : mtl N) : (1 <= k_N (m_core m))%nat -> iterM n mtl_step m = Ok m' -> same_line m m'.
Proof.
  intros HN. revert m HN; induction n as [|n IH]; simpl; intros m HN H.
  - injection H as <-. apply same_line_refl.
  - inv_bind H. pose proof (mtl_step_same _ _ HN Ha) as S1.
    eapply same_line_trans; [eassumption|]. apply IH; auto.
    now rewrite (ss_N _ _ (sl_core _ _ S1)).
Qed.

(** coefficients up to date with the matrices *)
Definition lr_ready (s : core N) : Prop := update_lr_terms LA s = Ok s.
Definition cg_ready (s : core N) : Prop := update_cg_terms LA s = Ok s.

Lemma set_lr_eq s t : k_lr s = Some t -> set_lr s t = s.
Proof. intros H. destruct s; cbn in *. now rewrite H. Qed.
Lemma set_cg_eq s t : k_cg s = Some t -> set_cg s t = s.
Proof. intros H. destruct s; cbn in *. now rewrite H. Qed.

Lemma lr_F1_same s s' k : same_static s s' -> same_disp (k_disp s) (k_disp s') -> lr_F1 s' k = lr_F1 s k.
Proof. intros [] []. unfold lr_F1. congruence. Qed.
Lemma lr_F2_same s s' k : same_static s s' -> same_disp (k_disp s) (k_disp s') -> lr_F2 s' k = lr_F2 s k.
Proof. intros [] []. unfold lr_F2. congruence. Qed.
Lemma node_width_same s s' k : same_static s s' -> node_width s' k = node_width s k.
Proof. intros S. unfold node_width. now rewrite (ss_N _ _ S), (ss_n _ _ S), (ss_h _ _ S). Qed.
Lemma cg_F1_same s s' k : same_static s s' -> cg_F1 s' k = cg_F1 s k.
Proof. intros S. unfold cg_F1. rewrite (node_width_same s s' k S). destruct S. congruence. Qed.
Lemma cg_F2_same s s' k : same_static s s' -> cg_F2 s' k = cg_F2 s k.
Proof. intros S. unfold cg_F2. rewrite (node_width_same s s' k S). destruct S. congruence. Qed.

Lemma lr_ready_inv s : lr_ready s ->
  exists it vd, k_lr s = Some (it, vd) /\
    (forall k, (k < k_N s)%nat -> la_inv LA (k_n s) (lr_F1 s k) = Some (getm vd k)) /\
    (forall k, (k < k_N s)%nat -> getm it k = mm (k_n s) (getm vd k) (lr_F2 s k)).
Proof.
  unfold lr_ready, update_lr_terms. intros H. inv_bind H. injection H as H.
  exists (mk (k_N s) (fun k => mm (k_n s) (getm a k) (lr_F2 s k))), a.
  split; [rewrite <- H at 1; reflexivity|]. split; intros k Hk.
  - pose proof (mapM_seq _ _ _ k [] Ha Hk) as E. unfold inv, of_option in E.
    destruct (la_inv LA (k_n s) (lr_F1 s k)); [|discriminate]. injection E as ->. reflexivity.
  - now rewrite getm_mk.
Qed.

Lemma cg_ready_inv s : cg_ready s ->
  exists vt idf, k_cg s = Some (vt, idf) /\
    (forall k, (k <= k_N s)%nat -> la_inv LA (k_n s) (cg_F1 s k) = Some (getm idf k)) /\
    (forall k, (k <= k_N s)%nat -> getm vt k = mm (k_n s) (getm idf k) (cg_F2 s k)).
Proof.
  unfold cg_ready, update_cg_terms. intros H. inv_bind H. injection H as H.
  exists (mk (S (k_N s)) (fun k => mm (k_n s) (getm a k) (cg_F2 s k))), a.
  split; [rewrite <- H at 1; reflexivity|]. split; intros k Hk.
  - pose proof (mapM_seq _ _ _ k [] Ha (le_n_S _ _ Hk)) as E. unfold inv, of_option in E.
    destruct (la_inv LA (k_n s) (cg_F1 s k)); [|discriminate]. injection E as ->. reflexivity.
  - rewrite getm_mk; auto. lia.
Qed.

(** update_*_terms fails or makes the state ready *)
Lemma update_lr_ready s s' : update_lr_terms LA s = Ok s' -> lr_ready s'.
Proof.
  unfold lr_ready, update_lr_terms. intros H. inv_bind H. injection H as <-.
  cbn [k_N set_lr k_n].
  rewrite (mapM_ext _ (fun k => inv LA (k_n s) (lr_F1 s k))) by reflexivity.
  rewrite Ha. reflexivity.
Qed.
Lemma update_cg_ready s s' : update_cg_terms LA s = Ok s' -> cg_ready s'.
Proof.
  unfold cg_ready, update_cg_terms. intros H. inv_bind H. injection H as <-.
  cbn [k_N set_cg k_n].
  rewrite (mapM_ext _ (fun k => inv LA (k_n s) (cg_F1 s k))) by reflexivity.
  rewrite Ha. reflexivity.
Qed.

Lemma update_lr_inv s s' : update_lr_terms LA s = Ok s' -> exists t, s' = set_lr s t.
Proof. unfold update_lr_terms. intros H. inv_bind H. injection H as <-. eauto. Qed.
Lemma update_cg_inv s s' : update_cg_terms LA s = Ok s' -> exists t, s' = set_cg s t.
Proof. unfold update_cg_terms. intros H. inv_bind H. injection H as <-. eauto. Qed.

Lemma lr_ready_same s s' : same_static s s' -> same_disp (k_disp s) (k_disp s') ->
  lr_ready s -> lr_ready s'.
Proof.
  intros S D H. pose proof S as S'. destruct S'. unfold lr_ready, update_lr_terms in *.
  inv_bind H. injection H as H.
  rewrite ss_n0, ss_N0.
  rewrite (mapM_ext _ (fun k => inv LA (k_n s) (lr_F1 s k))) by (intros; now rewrite (lr_F1_same s s')).
  rewrite Ha. cbn [bind]. f_equal. apply set_lr_eq. rewrite ss_lr0.
  assert (E : k_lr (set_lr s (mk (k_N s) (fun k => mm (k_n s) (getm a k) (lr_F2 s k)), a)) = k_lr s)
    by now rewrite H.
  rewrite <- E. cbn [k_lr set_lr]. f_equal. f_equal. apply mk_ext. intros.
  now rewrite (lr_F2_same s s').
Qed.
Lemma cg_ready_same s s' : same_static s s' -> cg_ready s -> cg_ready s'.
Proof.
  intros S H. pose proof S as S'. destruct S'. unfold cg_ready, update_cg_terms in *.
  inv_bind H. injection H as H.
  rewrite ss_n0, ss_N0.
  rewrite (mapM_ext _ (fun k => inv LA (k_n s) (cg_F1 s k))) by (intros; now rewrite (cg_F1_same s s')).
  rewrite Ha. cbn [bind]. f_equal. apply set_cg_eq. rewrite ss_cg0.
  assert (E : k_cg (set_cg s (mk (Datatypes.S (k_N s)) (fun k => mm (k_n s) (getm a k) (cg_F2 s k)), a)) = k_cg s)
    by now rewrite H.
  rewrite <- E. cbn [k_cg set_cg]. f_equal. f_equal. apply mk_ext. intros.
  now rewrite (cg_F2_same s s').
Qed.

(** setting one pair of coefficients keeps the other up to date *)
Lemma lr_ready_set_cg s t : lr_ready s -> lr_ready (set_cg s t).
Proof.
  unfold lr_ready, update_lr_terms. intros H. inv_bind H. injection H as H.
  cbn [k_n k_N set_cg].
  rewrite (mapM_ext _ (fun k => inv LA (k_n s) (lr_F1 s k))) by reflexivity.
  rewrite Ha. cbn [bind]. f_equal. rewrite <- H at 3. destruct s; reflexivity.
Qed.
Lemma cg_ready_set_lr s t : cg_ready s -> cg_ready (set_lr s t).
Proof.
  unfold cg_ready, update_cg_terms. intros H. inv_bind H. injection H as H.
  cbn [k_n k_N set_lr].
  rewrite (mapM_ext _ (fun k => inv LA (k_n s) (cg_F1 s k))) by reflexivity.
  rewrite Ha. cbn [bind]. f_equal. rewrite <- H at 3. destruct s; reflexivity.
Qed.

Lemma prepare_ready m steps m1 : mtl_prepare LA m steps = Ok m1 ->
  lr_ready (m_core m1) /\ cg_ready (m_core m1).
Proof.
  unfold mtl_prepare. intros H. inv_bind H. inv_bind H. injection H as <-. cbn.
  split; [|eapply update_cg_ready; eauto].
  pose proof (update_lr_ready _ _ Ha) as R1.
  apply update_cg_inv in Ha0 as [t ->]. now apply lr_ready_set_cg.
Qed.

Lemma prepare_inv m steps m1 : mtl_prepare LA m steps = Ok m1 ->
  exists t1 t2, m_core m1 = set_cg (set_lr (m_core m) t1) t2 /\
    m1 = m_set m (set_cg (set_lr (m_core m) t1) t2) (m_time m)
           (map (fun p => resize_frames p steps (k_n (m_core m))) (m_probes m)).
Proof.
  unfold mtl_prepare. intros H. inv_bind H. inv_bind H. injection H as <-.
  apply update_lr_inv in Ha as [t1 ->]. apply update_cg_inv in Ha0 as [t2 ->].
  exists t1, t2. split; reflexivity.
Qed.

Lemma ready_steps j (m m' : mtl N) : (1 <= k_N (m_core m))%nat -> iterM j mtl_step m = Ok m' ->
  lr_ready (m_core m) -> cg_ready (m_core m) -> lr_ready (m_core m') /\ cg_ready (m_core m').
Proof.
  intros HN H R1 R2. pose proof (iter_step_same j m m' HN H) as S.
  split; [eapply lr_ready_same|eapply cg_ready_same]; eauto using sl_core, sl_disp.
Qed.

End LineFacts.
