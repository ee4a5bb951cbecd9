(** Structure of networks: shapes, node numbers, state variables, kept by every method. *)
From Coq Require Import String List Arith ZArith Bool Permutation Sorted Lia.
From Verif Require Import Num Py Arr ArrFacts Utils Probes Dispersive Line Bundle Networks Mtln SpecLine SpecBundle SpecNet.
Import ListNotations.

Definition rectm {A} (n m : nat) (e : list (list A)) : Prop := length e = n /\ forall c, (c < n)%nat -> length (nth c e []) = m.
Lemma rectm_upd {A} n m (e : list (list A)) c k x : rectm n m e -> rectm n m (upd2 e c k x).
Proof.
  intros [H1 H2]. unfold upd2. split; [now rewrite length_lset|]. intros i Hi. rewrite nth_lset. destruct (_ && _) eqn:E; [|auto].
  apply andb_prop in E as [E _]. apply Nat.eqb_eq in E. subst i. rewrite length_lset. auto.
Qed.
Lemma rectm_mk2 {A} n m (f : nat -> nat -> A) : rectm n m (mk2 n m f).
Proof. unfold rectm, mk2. rewrite length_mk. split; auto. intros c Hc. now rewrite nth_mk, length_mk. Qed.

Section Free.
Context {N : num}.
Local Open Scope num_scope.
Implicit Types w : network N.

Lemma get2_upd2 n m (A : mat N) c k x i j : rectm n m A -> (c < n)%nat -> (k < m)%nat ->
  get2 (upd2 A c k x) i j = if ((c =? i) && (k =? j))%nat then x else get2 A i j.
Proof.
  intros [H1 H2] Hc Hk. unfold get2, upd2, get, vec in *. rewrite nth_lset, H1, (proj2 (Nat.ltb_lt _ _) Hc), andb_true_r.
  destruct (Nat.eqb_spec c i) as [->|]; [|reflexivity]. cbn [andb]. rewrite nth_lset, H2, (proj2 (Nat.ltb_lt _ _) Hk) by exact Hc. now rewrite andb_true_r.
Qed.
Lemma rectm_incr n m (A : mat N) c k x : rectm n m A -> rectm n m (incr2 A c k x).
Proof. apply rectm_upd. Qed.
Lemma get2_incr2 n m (A : mat N) c k x i j : rectm n m A -> (c < n)%nat -> (k < m)%nat ->
  get2 (incr2 A c k x) i j = if ((c =? i) && (k =? j))%nat then get2 A i j + x else get2 A i j.
Proof.
  intros H Hc Hk. unfold incr2. rewrite (get2_upd2 n m) by auto.
  destruct (Nat.eqb_spec c i) as [->|]; [|reflexivity]. destruct (Nat.eqb_spec k j) as [->|]; reflexivity.
Qed.

(** node numbers, ids and shapes *)
Record nshape w : Prop := {
  sh_len : w_nodes w = length (w_conns w);
  sh_ids : NoDup (map fst (w_conns w));
  sh_pos : forall kn, In kn (w_conns w) -> (0 <= fst kn)%Z;
  sh_idx : map (fun kn => nd_index (snd kn)) (w_conns w) = seq 0 (w_nodes w);
  sh_st : concat (map (fun kn => nd_state (snd kn)) (w_conns w)) = seq 0 (w_ns w);
  sh_v : length (w_v w) = w_nodes w; sh_i : length (w_i w) = w_nodes w; sh_X : length (w_X w) = w_ns w;
  sh_H : forall k, (k < w_nodes w + w_ns w)%nat ->
           get (w_H w) k = if (k <? w_nodes w)%nat then get (w_v w) k else get (w_X w) (k - w_nodes w);
  sh_P1 : rectm (w_nodes w) (w_nodes w) (w_P1 w); sh_Ps : rectm (w_nodes w) (w_nodes w) (w_Ps w);
  sh_Q1 : rectm (w_nodes w) (w_nodes w) (w_Q1 w); sh_Qs : rectm (w_nodes w) (w_nodes w) (w_Qs w);
  sh_M : rectm (w_ns w) (w_ns w) (w_M w); sh_N1 : rectm (w_ns w) (w_nodes w) (w_N1 w);
  sh_Ns : rectm (w_ns w) (w_nodes w) (w_Ns w); sh_O : rectm (w_nodes w) (w_ns w) (w_O w);
  sh_vs : length (w_vsrc w) = w_nodes w;
  sh_dx : length (w_dx w) = w_nodes w; sh_eT : length (w_eT w) = w_nodes w
}.

(** what no method changes *)
Record nkept w w' : Prop := {
  nk_n : w_nodes w' = w_nodes w; nk_ns : w_ns w' = w_ns w; nk_cs : w_csize w' = w_csize w;
  nk_c : w_c w' = w_c w; nk_dx : w_dx w' = w_dx w; nk_eT : w_eT w' = w_eT w;
  nk_ids : map fst (w_conns w') = map fst (w_conns w);
  nk_idx : map (fun kn => nd_index (snd kn)) (w_conns w') = map (fun kn => nd_index (snd kn)) (w_conns w);
  nk_st : map (fun kn => nd_state (snd kn)) (w_conns w') = map (fun kn => nd_state (snd kn)) (w_conns w)
}.
Lemma nkept_refl w : nkept w w. Proof. split; auto. Qed.
Lemma nkept_trans a b c : nkept a b -> nkept b c -> nkept a c.
Proof. intros [] []; split; congruence. Qed.

Lemma dget_in (id : Z) {V} (d : list (Z * V)) v : dget Z.eqb id d = Some v -> In (id, v) d.
Proof.
  induction d as [|[a x] d IH]; cbn [dget]; [discriminate|]. destruct (Z.eqb_spec id a) as [->|]; [intros E; injection E as <-; now left|right; auto].
Qed.
Lemma dget_nodup (id : Z) {V} (d : list (Z * V)) v : NoDup (map fst d) -> In (id, v) d -> dget Z.eqb id d = Some v.
Proof.
  induction d as [|[a x] d IH]; cbn [dget map fst]; [intros _ []|]. intros H [E|E].
  - injection E as -> ->. now rewrite Z.eqb_refl.
  - inversion H; subst. destruct (Z.eqb_spec id a) as [->|]; [|auto]. exfalso. apply H2. apply in_map_iff. now exists (a, v).
Qed.
Lemma find_index w id nd : nshape w -> find_node w id = Some nd -> (nd_index nd < w_nodes w)%nat.
Proof.
  intros S H. apply dget_in in H.
  assert (I : In (nd_index nd) (seq 0 (w_nodes w))).
  { rewrite <- (sh_idx _ S). apply in_map_iff. exists (id, nd). auto. }
  apply in_seq in I. lia.
Qed.
Lemma find_states w id nd x : nshape w -> find_node w id = Some nd -> In x (nd_state nd) -> (x < w_ns w)%nat.
Proof.
  intros S H Hx. apply dget_in in H.
  assert (I : In x (seq 0 (w_ns w))).
  { rewrite <- (sh_st _ S). apply in_concat. exists (nd_state nd). split; [|exact Hx]. apply in_map_iff. exists (id, nd). auto. }
  apply in_seq in I. lia.
Qed.

(** a call changes only the coefficients and the sources *)
Definition stamped w P1 Ps M N1 Ns O Q1 Qs vs w' := w' = set_stamps w P1 Ps M N1 Ns O Q1 Qs vs.
Lemma set_stamps_shape w P1 Ps M N1 Ns O Q1 Qs vs : nshape w ->
  rectm (w_nodes w) (w_nodes w) P1 -> rectm (w_nodes w) (w_nodes w) Ps ->
  rectm (w_ns w) (w_ns w) M -> rectm (w_ns w) (w_nodes w) N1 -> rectm (w_ns w) (w_nodes w) Ns -> rectm (w_nodes w) (w_ns w) O ->
  rectm (w_nodes w) (w_nodes w) Q1 -> rectm (w_nodes w) (w_nodes w) Qs -> length vs = w_nodes w ->
  nshape (set_stamps w P1 Ps M N1 Ns O Q1 Qs vs).
Proof. intros [] *. split; cbn [set_stamps w_nodes w_ns w_conns w_v w_i w_X w_H w_P1 w_Ps w_Q1 w_Qs w_M w_N1 w_Ns w_O w_vsrc w_dx w_eT]; auto. Qed.

Lemma of_option_Ok {A} e (o : option A) a : of_option e o = Ok a -> o = Some a.
Proof. destruct o; [now intros [= ->]|discriminate]. Qed.

Ltac rect_tac := repeat first [assumption | apply rectm_upd | apply rectm_incr | now rewrite ?length_lset].

Lemma call_shape w c w' : nshape w -> do_call w c = Ok w' ->
  nshape w' /\ exists P1 Ps M N1 Ns O Q1 Qs vs, w' = set_stamps w P1 Ps M N1 Ns O Q1 Qs vs.
Proof.
  intros S H. pose proof S as S'.
  assert (K : forall P1 Ps M N1 Ns O Q1 Qs vs,
     rectm (w_nodes w) (w_nodes w) P1 -> rectm (w_nodes w) (w_nodes w) Ps ->
     rectm (w_ns w) (w_ns w) M -> rectm (w_ns w) (w_nodes w) N1 -> rectm (w_ns w) (w_nodes w) Ns -> rectm (w_nodes w) (w_ns w) O ->
     rectm (w_nodes w) (w_nodes w) Q1 -> rectm (w_nodes w) (w_nodes w) Qs -> length vs = w_nodes w ->
     w' = set_stamps w P1 Ps M N1 Ns O Q1 Qs vs ->
     nshape w' /\ exists P1 Ps M N1 Ns O Q1 Qs vs, w' = set_stamps w P1 Ps M N1 Ns O Q1 Qs vs).
  { intros P1 Ps M N1 Ns O Q1 Qs vs * ? ? ? ? ? ? ? ? ? ->. split; [now apply set_stamps_shape|]. now exists P1, Ps, M, N1, Ns, O, Q1, Qs, vs. }
  destruct S'.
  destruct c as [id R Vt|id R L C Vt|id C Vt|id|id1 id2 R Vt|id1 id2]; cbn [do_call] in H.
  - unfold connect_to_ground in H. inv_bind H. cbv zeta in H. inv_bind H.
    assert (rectm (w_nodes w) (w_nodes w) a0).
    { destruct (negb _) in Ha0; [inv_bind Ha0|]; injection Ha0 as <-; rect_tac. }
    destruct (tf_nonzero Vt); [inv_bind H|]; injection H as <-; eapply K; unfold set_P; try reflexivity; rect_tac.
  - unfold connect_to_ground_LCpRs in H. inv_bind H. cbv zeta in H.
    destruct (nd_state a) as [|x0 [|x1 [|]]]; try (inv_bind H; discriminate H). do 7 inv_bind H.
    destruct (tf_nonzero Vt); injection H as <-; eapply K; try reflexivity; rect_tac.
  - unfold connect_to_ground_C in H. inv_bind H. cbv zeta in H.
    destruct (tf_nonzero Vt); injection H as <-; eapply K; unfold set_Q; try reflexivity; rect_tac; destruct (negb _); rect_tac.
  - unfold short_to_ground in H. inv_bind H. cbv zeta in H. injection H as <-; eapply K; unfold set_P; try reflexivity; rect_tac.
  - unfold connect_nodes in H. do 3 inv_bind H. cbv zeta in H. do 2 inv_bind H.
    destruct (tf_nonzero Vt); injection H as <-; eapply K; unfold set_P, stamp; try reflexivity; rect_tac.
  - unfold short_nodes in H. do 2 inv_bind H. injection H as <-; eapply K; unfold set_P, stamp; try reflexivity; rect_tac.
Qed.
Lemma call_kept w c w' : nshape w -> do_call w c = Ok w' -> nkept w w'.
Proof. intros S H. apply call_shape in H as (_ & P1 & Ps & M & N1 & Ns & O & Q1 & Qs & vs & ->); auto. split; reflexivity. Qed.

Lemma register_shape w (bs : bdict N) level conns : nshape w -> mapM (shift_node bs level) (w_conns w) = Ok conns ->
  nshape (set_conns w conns) /\ nkept w (set_conns w conns).
Proof.
  intros S H.
  assert (E : forall l l', mapM (shift_node bs level) l = Ok l' ->
     length l' = length l /\ map fst l' = map fst l /\ map (fun kn => nd_index (snd kn)) l' = map (fun kn => nd_index (snd kn)) l /\
     map (fun kn => nd_state (snd kn)) l' = map (fun kn => nd_state (snd kn)) l).
  { clear. induction l as [|[id nd] l IH]; cbn [mapM]; intros l' H.
    - injection H as <-. auto.
    - inv_bind H. inv_bind H. injection H as <-. destruct (IH _ Ha0) as (E0 & E1 & E2 & E3).
      unfold shift_node in Ha. inv_bind Ha. cbv zeta in Ha. injection Ha as <-.
      cbn [map length fst snd nd_index nd_state]. rewrite E0, E1, E2, E3. auto. }
  destruct (E _ _ H) as (E0 & E1 & E2 & E3). destruct S.
  split; split; cbn [set_conns w_nodes w_ns w_conns w_v w_i w_X w_H w_P1 w_Ps w_Q1 w_Qs w_M w_N1 w_Ns w_O w_vsrc w_dx w_eT w_c w_csize]; auto; try congruence.
  intros kn Hk. assert (I : In (fst kn) (map fst (w_conns w))) by (rewrite <- E1; now apply in_map).
  apply in_map_iff in I as (kn' & <- & I). auto.
Qed.

Lemma terms_shape w dt w' : nshape w -> compute_v_terms w dt = Ok w' -> nshape w' /\ nkept w w'.
Proof.
  unfold compute_v_terms. intros S H. destruct (negb _); [discriminate H|]. cbv zeta in H. apply (f_equal (fun r => match r with Ok a => a | _ => w' end)) in H.
  cbn [bind] in H. subst w'. destruct S. split; split; auto.
Qed.
Variable LA : lapack N.
Lemma volt_shape w t dt w' : nshape w -> nw_advance_voltage LA w t dt = Ok w' -> nshape w' /\ nkept w w'.
Proof.
  unfold nw_advance_voltage. intros S H. inv_bind H. cbv zeta in H. destruct (w_AB w) as [[[A B1] B2]|]; [|discriminate H]. inv_bind H.
  apply (f_equal (fun r => match r with Ok a => a | _ => w' end)) in H. subst w'. destruct S. split; split; auto; cbn [w_v w_X w_H w_nodes w_ns]; rewrite ?length_mk; auto.
  intros k Hk. rewrite get_mk by exact Hk. destruct (Nat.ltb_spec k (w_nodes w)) as [L|L]; [now rewrite get_mk|]. rewrite get_mk by lia. f_equal. lia.
Qed.
Lemma curr_shape w (bs : bdict N) w' : nshape w -> nw_update_currents w bs = Ok w' -> nshape w' /\ nkept w w'.
Proof.
  unfold nw_update_currents. intros S H. inv_bind H. apply (f_equal (fun r => match r with Ok a => a | _ => w' end)) in H. subst w'.
  assert (E : length a = length (w_i w)).
  { refine (foldM_inv (fun i => length i = length (w_i w)) _ _ _ _ _ _ Ha); [|reflexivity]. intros kn i i2 _ Hi Hs. inv_bind Hs. injection Hs as <-. now rewrite length_lset. }
  destruct S. split; split; auto. cbn [set_wi w_i w_nodes]. congruence.
Qed.

(** *** construction *)
Lemma insert_perm (x : @connection N) l : Permutation (x :: l) (insert_conn x l).
Proof.
  induction l as [|y l IH]; cbn [insert_conn]; [apply Permutation_refl|]. destruct (_ <=? _)%nat; [|apply Permutation_refl].
  eapply perm_trans; [apply perm_swap|]. now constructor.
Qed.

Notation csorted := (StronglySorted (fun x y : @connection N => (c_cond x <= c_cond y)%nat)).
Notation only c := (filter (fun x : @connection N => (c_cond x =? c)%nat)).
Lemma insert_in (x y : @connection N) l : In y (insert_conn x l) -> y = x \/ In y l.
Proof. intros H. apply (Permutation_in _ (Permutation_sym (insert_perm x l))) in H as [<-|H]; auto. Qed.
Lemma insert_sorted (x : @connection N) l : csorted l -> csorted (insert_conn x l) /\
  forall c, only c (insert_conn x l) = only c l ++ only c [x].
Proof.
  induction l as [|y l IH]; intros S.
  - cbn [insert_conn]. split; [repeat constructor|reflexivity].
  - inversion S as [|? ? S1 S2]; subst. destruct (IH S1) as [I1 I2]. rewrite Forall_forall in S2.
    cbn [insert_conn]. fold (c_cond x). fold (c_cond y). destruct (Nat.leb_spec (c_cond y) (c_cond x)) as [L|L].
    + split.
      * constructor; [exact I1|]. apply Forall_forall. intros z Hz. apply insert_in in Hz as [->|Hz]; auto.
      * intros c. cbn [filter] in *. rewrite I2. now destruct (c_cond y =? c)%nat.
    + split.
      * constructor; [exact S|]. apply Forall_forall. intros z [<-|Hz]; [lia|]. specialize (S2 z Hz). lia.
      * intros c. cbn [filter]. destruct (Nat.eqb_spec (c_cond x) c) as [Ec|Ec]; [|now rewrite app_nil_r].
        rewrite (proj2 (Nat.eqb_neq (c_cond y) c)) by lia.
        replace (only c l) with (@nil (@connection N)); [reflexivity|]. symmetry.
        clear - S2 L Ec. induction l as [|z l IH]; [reflexivity|]. cbn [filter]. rewrite (proj2 (Nat.eqb_neq (c_cond z) c)).
        -- apply IH. intros u Hu. apply S2. now right.
        -- specialize (S2 z (or_introl eq_refl)). lia.
Qed.
Lemma sort_stable (l : list (@connection N)) : stable_sort l (sort_conns l).
Proof.
  unfold sort_conns.
  assert (G : forall l a, csorted a ->
     Permutation (a ++ l) (fold_left (fun acc x => insert_conn x acc) l a) /\ csorted (fold_left (fun acc x => insert_conn x acc) l a) /\
     forall c, only c (fold_left (fun acc x => insert_conn x acc) l a) = only c a ++ only c l).
  { clear l. induction l as [|x l IH]; intros a Sa; cbn [fold_left].
    - rewrite app_nil_r. split; [apply Permutation_refl|]. split; [exact Sa|]. intros c. cbn [filter]. now rewrite app_nil_r.
    - destruct (insert_sorted x a Sa) as [S1 F1]. destruct (IH _ S1) as (P & S2 & F2). split; [|split; [exact S2|]].
      + eapply perm_trans; [|exact P]. eapply perm_trans; [apply Permutation_sym, Permutation_middle|].
        rewrite app_comm_cons. apply Permutation_app_tail, insert_perm.
      + intros c. rewrite F2, F1, <- app_assoc. f_equal. cbn [filter]. destruct (c_cond x =? c)%nat; reflexivity. }
  destruct (G l [] ltac:(constructor)) as (P & S & F). split; [exact P|]. split; [exact S|]. intros c. apply F.
Qed.

(** the accumulator while nodes are added *)
Definition a_ns (a : @nacc N) := let '(ns, _, _, _, _, _) := a in ns.
Definition a_conns (a : @nacc N) := let '(_, c, _, _, _, _) := a in c.
Definition a_cs (a : @nacc N) := let '(_, _, c, _, _, _) := a in c.
Definition a_c (a : @nacc N) := let '(_, _, _, c, _, _) := a in c.
Definition a_dx (a : @nacc N) := let '(_, _, _, _, c, _) := a in c.
Definition a_eT (a : @nacc N) := let '(_, _, _, _, _, c) := a in c.
Implicit Types a : @nacc N.
Record ainv a : Prop := {
  ai_ids : NoDup (map fst (a_conns a));
  ai_pos : forall kn, In kn (a_conns a) -> (0 <= fst kn)%Z;
  ai_idx : map (fun kn => nd_index (snd kn)) (a_conns a) = seq 0 (length (a_conns a));
  ai_st : concat (map (fun kn => nd_state (snd kn)) (a_conns a)) = seq 0 (a_ns a);
  ai_dx : length (a_dx a) = length (a_conns a);
  ai_eT : length (a_eT a) = length (a_conns a)
}.
(** what one node adds *)
Definition end_len (m : mtl N) (e : bool) : N := get3 (k_h (m_core m)) (if e then (k_N (m_core m) - 1)%nat else 0%nat) 0 0.
Definition end_field (m : mtl N) (e : bool) (c : nat) : N -> N := nth (if e then k_N (m_core m) else 0%nat) (nth c (k_eT (m_core m)) []) (fun _ => n0).
Lemma add_node_inv a x e line bn a' : add_node a x e line bn = Ok a' -> ainv a ->
  ainv a' /\ a_cs a' = a_cs a /\ a_c a' = a_c a /\
  exists sv, state_vars (c_cond x) (c_mat x) = Ok sv /\ a_ns a' = (a_ns a + sv)%nat /\
    a_conns a' = a_conns a ++ [(c_id x, {| nd_line := m_name line; nd_row := c_cond x; nd_end := e; nd_index := length (a_conns a);
                                           nd_bundle := bn; nd_state := seq (a_ns a) sv |})] /\
    a_dx a' = a_dx a ++ [end_len line e] /\ a_eT a' = a_eT a ++ [end_field line e (c_cond x)].
Proof.
  destruct a as [[[[[ns conns] cs] c] dx] eT]. destruct x as [[id cond] k]. unfold add_node. intros H [A1 A2 A3 A4 A5 A6].
  cbn [a_ns a_conns a_cs a_c a_dx a_eT] in *.
  do 3 inv_bind H. cbv zeta in H. inv_bind H. injection H as <-. cbn [a_ns a_conns a_cs a_c a_dx a_eT].
  apply passert_Ok', Z.leb_le in Ha. apply passert_Ok' in Ha0. unfold dmem in Ha0.
  destruct (dget Z.eqb id conns) eqn:Ed; [discriminate Ha0|].
  assert (Hn : ~ In id (map fst conns)).
  { intros I. apply in_map_iff in I as ([i v] & E & I). cbn in E. subst i. rewrite (dget_nodup _ _ _ A1 I) in Ed. discriminate Ed. }
  split.
  - split; cbn [a_ns a_conns a_cs a_c a_dx a_eT].
    + rewrite map_app. cbn [map fst]. apply (Permutation_NoDup (Permutation_cons_append _ _)). now constructor.
    + intros kn I. apply in_app_or in I as [I|[<-|[]]]; auto.
    + rewrite map_app, app_length, Nat.add_1_r, seq_S, A3. reflexivity.
    + rewrite map_app, concat_app, A4. cbn [map concat snd nd_state]. now rewrite app_nil_r, seq_app.
    + rewrite !app_length. cbn [length]. congruence.
    + rewrite !app_length. cbn [length]. congruence.
  - split; [reflexivity|]. split; [reflexivity|]. exists a1. split; [exact Ha1|]. split; [reflexivity|]. split; [reflexivity|]. split; [reflexivity|].
    f_equal. f_equal. unfold end_field. cbn [c_cond fst snd]. destruct (py_get_Ok _ _ _ [] Ha2) as [_ ->]. reflexivity.
Qed.

(** what the nodes of one line add *)
Lemma fold_nodes e line bn l : forall a a', foldM (fun a x => add_node a x e line bn) l a = Ok a' -> ainv a ->
  ainv a' /\ a_cs a' = a_cs a /\ a_c a' = a_c a /\ exists nds, a_conns a' = a_conns a ++ nds /\
    Forall2 (fun x kn => fst kn = c_id x /\ nd_line (snd kn) = m_name line /\ nd_row (snd kn) = c_cond x /\ nd_end (snd kn) = e /\ nd_bundle (snd kn) = bn /\
                         state_vars (c_cond x) (c_mat x) = Ok (length (nd_state (snd kn)))) l nds /\
    a_dx a' = a_dx a ++ map (fun _ => end_len line e) l /\ a_eT a' = a_eT a ++ map (fun x => end_field line e (c_cond x)) l.
Proof.
  induction l as [|x l IH]; intros a a' H I; cbn [foldM] in H.
  - injection H as <-. split; [exact I|]. split; [reflexivity|]. split; [reflexivity|]. exists []. cbn [map]. rewrite !app_nil_r. repeat split. constructor.
  - inv_bind H. destruct (add_node_inv _ _ _ _ _ _ Ha I) as (I1 & C1 & C2 & sv & Es & En & Ec & Ed & Ee).
    destruct (IH _ _ H I1) as (I2 & C3 & C4 & nds & N1 & N2 & N3 & N4).
    split; [exact I2|]. split; [congruence|]. split; [congruence|]. rewrite N1, Ec, <- app_assoc.
    eexists. split; [reflexivity|]. split; [|split].
    + constructor; [|exact N2]. cbn [fst snd nd_line nd_row nd_end nd_bundle nd_state]. repeat split; auto. rewrite seq_length. exact Es.
    + rewrite N3, Ed, <- app_assoc. reflexivity.
    + rewrite N4, Ee, <- app_assoc. reflexivity.
Qed.
End Free.
