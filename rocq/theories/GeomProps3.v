(** Proofs for PropGeom.v, third part: unequal divisions, probe boxes, regions, clean copies,
    bundle probes. *)
From Coq Require Import String List Arith ZArith Bool Lia Reals Lra.
From Verif Require Import Num Py Arr ArrFacts NumR RFacts LapackR Utils Probes Dispersive Line LineFacts SpecLine SpecGeom SpecR
  HistoryFacts GeometryFacts PlainFacts TotalFacts NewTotal NearestFacts ProbeFacts Bundle WaveProps GeomProps GeomProps2.
Import ListNotations.

(** *** C06 *)
Section Box.
Context {N : num}.
Lemma out_of_box_iff (u : mat N) (p : vec N) : out_of_box u p = true <-> outside u p.
Proof.
  unfold out_of_box, outside. rewrite orb_true_iff, !existsb_exists. split.
  - intros [(k & Hk & E)|(k & Hk & E)]; apply in_seq in Hk; exists k; split; auto; lia.
  - intros (k & Hk & [E|E]); [left|right]; exists k; (split; [apply in_seq; lia|exact E]).
Qed.
Lemma add_probe_iff (m : mtl N) p ty : add_probe m p ty = Err ValueError <-> outside (m_u m) (pos_vec p).
Proof.
  unfold add_probe. rewrite <- out_of_box_iff. destruct (out_of_box _ _); split; auto; discriminate.
Qed.
Lemma add_probe_else (m : mtl N) p ty : add_probe m p ty = Err ValueError \/ exists m', add_probe m p ty = Ok m'.
Proof. unfold add_probe. destruct (out_of_box _ _); eauto. Qed.
End Box.
Local Open Scope R_scope.
Lemma rising_le u i j k : rising u -> (i <= j)%nat -> (j < length u)%nat -> (k < 3)%nat ->
  coord (nth i u []) k <= coord (nth j u []) k.
Proof.
  intros H Hij Hj Hk. induction j as [|j IH]; [replace i with 0%nat by lia; lra|].
  destruct (Nat.eq_dec i (S j)) as [->|E]; [lra|]. apply Rle_trans with (coord (nth j u []) k); [apply IH; lia|]. apply H; auto.
Qed.
Lemma rising_box (m : mtl NumR) p ty k : rising (m_u m) -> (k < length (m_u m))%nat -> pos_vec p = nth k (m_u m) [] ->
  exists m', add_probe m p ty = Ok m'.
Proof.
  intros H Hk E. destruct (add_probe_else m p ty) as [X|X]; auto. exfalso.
  apply add_probe_iff in X as (q & Hq & X). rewrite E in X.
  assert (X' : coord (nth (length (m_u m) - 1) (m_u m) []) q < coord (nth k (m_u m) []) q \/
               coord (nth k (m_u m) []) q < coord (nth 0 (m_u m) []) q).
  { destruct X as [X|X]; [left|right]; apply Rltb_true in X; exact X. }
  clear X. assert (Hk' : (k < @length (list R) (m_u m))%nat) by exact Hk.
  assert (A := rising_le (m_u m) 0 k q H (Nat.le_0_l k) Hk' Hq).
  assert (B := rising_le (m_u m) k (@length (list R) (m_u m) - 1) q H ltac:(lia) ltac:(lia) Hq).
  destruct X' as [X|X]; [exact (Rlt_irrefl _ (Rlt_le_trans _ _ _ X B))|exact (Rlt_irrefl _ (Rlt_le_trans _ _ _ X A))].
Qed.
Lemma falling_box (m : mtl NumR) p ty k : (k < 3)%nat ->
  coord (nth (length (m_u m) - 1) (m_u m) []) k < coord (nth 0 (m_u m) []) k -> add_probe m p ty = Err ValueError.
Proof.
  intros Hk H. apply add_probe_iff. exists k. split; auto.
  destruct (Rlt_dec (coord (nth (length (m_u m) - 1) (m_u m) []) k) (coord (pos_vec p) k)) as [X|X].
  - left. apply Rltb_true. exact X.
  - right. apply Rltb_true. apply Rle_lt_trans with (2 := H). apply Rnot_lt_le. exact X.
Qed.

(** *** C25 *)
Section Copy.
Context {N : num}.
Variable LA : lapack N.
Local Open Scope num_scope.
Definition same_probe (p q : probe N) : Prop := p_type q = p_type p /\ p_index q = p_index p /\ p_dt q = p_dt p.
(** [b] is [a] after some marching: only fields, clock, coefficients and recorded frames differ *)
Record moved (a b : mtl N) : Prop := {
  mv_name : m_name b = m_name a; mv_u : m_u b = m_u a; mv_du : m_du b = m_du a;
  mv_zs : m_zs b = m_zs a; mv_zl : m_zl b = m_zl a; mv_lp1 : m_lp1 b = m_lp1 a; mv_lp2 : m_lp2 b = m_lp2 a;
  mv_rp1 : m_rp1 b = m_rp1 a; mv_rp2 : m_rp2 b = m_rp2 a; mv_vsrc : m_vsrc b = m_vsrc a;
  mv_n : k_n (m_core b) = k_n (m_core a); mv_N : k_N (m_core b) = k_N (m_core a); mv_h : k_h (m_core b) = k_h (m_core a);
  mv_l : k_l (m_core b) = k_l (m_core a); mv_r : k_r (m_core b) = k_r (m_core a); mv_c : k_c (m_core b) = k_c (m_core a);
  mv_g : k_g (m_core b) = k_g (m_core a); mv_dt : k_dt (m_core b) = k_dt (m_core a);
  mv_eL : k_eL (m_core b) = k_eL (m_core a); mv_eT : k_eT (m_core b) = k_eT (m_core a);
  mv_disp : k_disp (m_core b) = k_disp (m_core a);
  mv_ps : Forall2 same_probe (m_probes a) (m_probes b)
}.
Lemma same_probes_refl ps : Forall2 same_probe ps ps.
Proof. induction ps; constructor; auto. split; auto. Qed.
Lemma same_probes_trans a b c : Forall2 same_probe a b -> Forall2 same_probe b c -> Forall2 same_probe a c.
Proof.
  intros H. revert c. induction H as [|x y l l' P _ IH]; intros c H2; inversion H2; subst; constructor; eauto.
  destruct P as (A & B & C). match goal with X : same_probe y _ |- _ => destruct X as (A2 & B2 & C2) end.
  repeat split; congruence.
Qed.
Lemma moved_refl a : moved a a. Proof. split; auto using same_probes_refl. Qed.
Lemma moved_trans a b c : moved a b -> moved b c -> moved a c.
Proof. intros [] []; split; try congruence. eapply same_probes_trans; eauto. Qed.
Lemma moved_prepare a n b : mtl_prepare LA a n = Ok b -> moved a b.
Proof.
  intros H. apply prepare_inv in H as (t1 & t2 & _ & ->). split; auto. cbn.
  generalize (m_probes a). induction l; constructor; auto. split; auto.
Qed.
Lemma moved_step a b : (1 <= k_N (m_core a))%nat -> mtl_step a = Ok b -> k_disp (m_core b) = k_disp (m_core a) -> moved a b.
Proof.
  intros HN H D. pose proof (mtl_step_same a b HN H) as [? ? ? ? ? ? ? ? ? ? SC ?]. destruct SC. split; auto.
  destruct (mtl_step_inv a b HN H) as (vt & idf & it & vd & d1 & d2 & ps & _ & _ & _ & _ & _ & _ & _ & Hp & E).
  rewrite E. cbn. apply update_probes_kept in Hp. eapply Forall2_impl; [|exact Hp].
  intros p q K. exact K.
Qed.
Lemma copy_prepare a b n : at_rest a -> moved a b -> mtl_prepare LA (create_clean_copy b) n = mtl_prepare LA a n.
Proof.
  intros (Rv & Ri & Rt) M. pose proof M as M'.
  destruct M' as [E_name E_u E_du E_zs E_zl E_lp1 E_lp2 E_rp1 E_rp2 E_vsrc E_n E_N E_h E_l E_r E_c E_g E_dt E_eL E_eT E_disp E_ps].
  unfold mtl_prepare, create_clean_copy. cbn [m_core m_set m_time m_probes].
  set (s1 := set_i_disp _ _ _).
  assert (E1 : update_lr_terms LA s1 = (x <- update_lr_terms LA (m_core a) ;; Ok (set_lr s1 (match k_lr x with Some t => t | None => ([], []) end)))).
  { unfold update_lr_terms. unfold s1. cbn [k_n k_N set_i_disp set_v].
    rewrite E_n, E_N.
    rewrite (mapM_ext _ (fun k => inv LA (k_n (m_core a)) (lr_F1 (m_core a) k))).
    - destruct (mapM _ _); cbn [bind k_cg k_lr set_cg set_lr]; auto. do 2 f_equal. f_equal. apply mk_ext. intros k _.
      unfold lr_F2. cbn. rewrite E_n, E_h, E_l, E_r, E_dt, E_disp. reflexivity.
    - intros k _. f_equal. unfold lr_F1. cbn. now rewrite E_n, E_h, E_l, E_r, E_dt, E_disp. }
  rewrite E1. destruct (update_lr_terms LA (m_core a)) as [x|e] eqn:EL; cbn [bind]; auto.
  destruct (update_lr_inv LA _ _ EL) as [t Ex]. rewrite Ex. cbn [k_lr set_lr].
  set (s2 := set_lr s1 t).
  assert (E2 : update_cg_terms LA s2 = (x <- update_cg_terms LA (set_lr (m_core a) t) ;; Ok (set_cg s2 (match k_cg x with Some t => t | None => ([], []) end)))).
  { unfold update_cg_terms. unfold s2, s1. cbn [k_n k_N set_lr set_i_disp set_v].
    rewrite E_n, E_N.
    rewrite (mapM_ext _ (fun k => inv LA (k_n (m_core a)) (cg_F1 (set_lr (m_core a) t) k))).
    - destruct (mapM _ _); cbn [bind k_cg k_lr set_cg set_lr]; auto. do 2 f_equal. f_equal. apply mk_ext. intros k _.
      unfold cg_F2, node_width. cbn [k_n k_N k_h k_c k_g k_dt set_lr set_i_disp set_v]. rewrite E_n, E_N, E_h, E_c, E_g, E_dt. reflexivity.
    - intros k _. f_equal. unfold cg_F1, node_width. cbn. now rewrite E_n, E_N, E_h, E_c, E_g, E_dt. }
  rewrite E2. destruct (update_cg_terms LA (set_lr (m_core a) t)) as [y|e] eqn:EC; cbn [bind]; auto.
  destruct (update_cg_inv LA _ _ EC) as [t2 Ey]. rewrite Ey. cbn [k_cg set_cg k_n].
  apply (f_equal Ok). unfold s2, s1, m_set, set_cg, set_lr, set_i_disp, set_v. cbn. rewrite E_n, E_N, E_h, E_l, E_r, E_c, E_g, E_dt, E_eL, E_eT, E_disp,
    E_name, E_u, E_du, E_zs, E_zl, E_lp1, E_lp2, E_rp1, E_rp2, E_vsrc.
  unfold conductors, cells in Rv, Ri. rewrite <- Rv, <- Ri, Rt.
  f_equal.
  rewrite map_map. clear - E_ps. induction E_ps as [|p q l l' P _ IH]; cbn; auto. f_equal; auto.
  destruct P as (A & B & C). unfold resize_frames. cbn. congruence.
Qed.
Lemma copy_run a b T : at_rest a -> moved a b -> run_until LA (create_clean_copy b) T = run_until LA a T.
Proof.
  intros R M. unfold run_until. cbn [create_clean_copy m_core m_set set_i_disp set_v k_dt]. rewrite (mv_dt _ _ M).
  destruct (time_range_len T (k_dt (m_core a))); cbn [bind]; auto. now rewrite (copy_prepare a b).
Qed.
(** marching from [a] to [b]: any number of single steps and runs *)
End Copy.

Lemma marched_moved LA (a b : mtl NumR) : shape a -> undispersed a -> marched LA a b -> moved a b /\ shape b /\ undispersed b.
Proof.
  intros S U H. induction H as [|b c H IH E|b T c H IH E].
  - auto using moved_refl.
  - destruct IH as (M & Sb & Ub). destruct (undispersed_step _ _ Sb Ub E) as (D & U' & _).
    destruct (shape_step _ _ Sb E) as [Sc _]. split; auto. eapply moved_trans; [exact M|]. apply moved_step; auto. apply (sh_N _ Sb).
  - destruct IH as (M & Sb & Ub). unfold run_until in E. inv_bind E. inv_bind E.
    destruct (shape_prepare LA _ _ _ Sb Ha0) as [Sp _]. pose proof (moved_prepare LA _ _ _ Ha0) as Mp.
    assert (Up : undispersed a1).
    { destruct Ub as (u & dt & Eu). exists u, dt. unfold conductors, cells. rewrite (mv_disp _ _ Mp), (mv_n _ _ Mp), (mv_N _ _ Mp). exact Eu. }
    assert (X : forall j (x y : mtl NumR), shape x -> undispersed x -> iterM j mtl_step x = Ok y -> moved x y /\ shape y /\ undispersed y).
    { clear. induction j as [|j IH]; simpl; intros x y Sx Ux E.
      - injection E as <-. auto using moved_refl.
      - inv_bind E. destruct (undispersed_step _ _ Sx Ux Ha) as (D & U' & _).
        destruct (shape_step _ _ Sx Ha) as [Sc _]. destruct (IH _ _ Sc U' E) as (M & R). split; auto.
        eapply moved_trans; [|exact M]. apply moved_step; auto. apply (sh_N _ Sx). }
    destruct (X _ _ _ Sp Up E) as (M' & Sc & Uc). split; auto. eapply moved_trans; [exact M|]. eapply moved_trans; eauto.
Qed.

(** *** C27 *)
Section Unequal.
Context {N : num}.
Variable LA : lapack N.
Lemma foldM_Ok_each {A S} (P : S -> Prop) (f : S -> A -> res S) l s s' : foldM f l s = Ok s' -> P s ->
  (forall a s b, In a l -> P s -> f s a = Ok b -> P b) ->
  forall a, In a l -> exists s1 s2, P s1 /\ f s1 a = Ok s2.
Proof.
  revert s. induction l as [|x l IH]; intros s H Hs Hf a Ha; [destruct Ha|]. simpl in H. inv_bind H.
  destruct Ha as [<-|Ha]; [eauto|]. eapply IH; eauto.
  - eapply Hf; eauto. now left.
  - intros; eapply Hf; eauto. now right.
Qed.
Lemma foldM_err {A S} (f : S -> A -> res S) e0 l s e : (forall a s e, f s a = Err e -> e = e0) -> foldM f l s = Err e -> e = e0.
Proof.
  intros H. revert s. induction l as [|x l IH]; simpl; intros s E; [discriminate|].
  destruct (f s x) eqn:F; cbn in E; eauto. injection E as <-. eauto.
Qed.
Lemma py_set_err {A} (l : list A) i x e : py_set l i x = Err e -> e = IndexError.
Proof. unfold py_set. destruct (_ <? _)%nat; congruence. Qed.
Lemma geometry_err n (np : mat N) ndiv ju jdu e : length np = S (length ndiv) -> geometry n np ndiv ju jdu = Err e -> e = IndexError.
Proof.
  intros L H. unfold geometry in H. rewrite L in H. replace (S (length ndiv) =? length ndiv + 1)%nat with true in H
    by (symmetry; apply Nat.eqb_eq; lia). cbn [passert bind] in H.
  match type of H with (bind ?x _ = _) => destruct x as [[[u du] h]|e'] eqn:E end; cbn [bind] in H; [discriminate|].
  injection H as <-. eapply foldM_err; [|exact E]. intros [i d] st e1 E1.
  eapply foldM_err; [|exact E1]. cbv beta. intros k [[u du] h] e2 E2.
  destruct (py_set u _ _) eqn:P1; cbn [bind] in E2; [|injection E2 as <-; eapply py_set_err; eauto].
  destruct (py_set du _ _) eqn:P2; cbn [bind] in E2; [|injection E2 as <-; eapply py_set_err; eauto].
  destruct (py_set h _ _) eqn:P3; cbn [bind] in E2; [discriminate|injection E2 as <-; eapply py_set_err; eauto].
Qed.
Definition lens (T : nat) (st : mat N * mat N * ten N) : Prop := let '(u, du, h) := st in length u = S T /\ length du = T /\ length h = T.
Lemma geometry_fits n (np : mat N) ndiv ju jdu g : geometry n np ndiv ju jdu = Ok g ->
  forall i, (i < length ndiv)%nat -> (0 < nth i ndiv 0)%nat -> (S i * nth i ndiv 0 <= total ndiv)%nat.
Proof.
  unfold geometry. fold (total ndiv). intros H i Hi Hd. inv_bind H. inv_bind H. clear H.
  set (inner := fun (np : mat N) (i divisions : nat) (st : mat N * mat N * ten N) (k : nat) =>
           let '(u, dus, h) := st in
           let idx := (i * divisions + k)%nat in
           u' <- py_set u idx (vadd (nth i np []) (vscal (nofZ (Z.of_nat k)) (vdivs (vsub (nth (S i) np []) (nth i np [])) (nofZ (Z.of_nat divisions))))) ;;
           dus' <- py_set dus idx (vdivs (vsub (nth (S i) np []) (nth i np [])) (nofZ (Z.of_nat divisions))) ;;
           h' <- py_set h idx (mscal n (vnorm (vdivs (vsub (nth (S i) np []) (nth i np [])) (nofZ (Z.of_nat divisions)))) (eye n)) ;;
           Ok (u', dus', h')).
  assert (IN : forall a b st k st', lens (total ndiv) st -> inner np a b st k = Ok st' -> lens (total ndiv) st' /\ (a * b + k < total ndiv)%nat).
  { clear. intros a b [[u du] h] k st' (L1 & L2 & L3) E. unfold inner in E. inv_bind E. inv_bind E. inv_bind E. injection E as <-.
    apply py_set_Ok in Ha as [B1 ->], Ha0 as [B2 ->], Ha1 as [B3 ->]. unfold lens. rewrite !length_lset. repeat split; auto. lia. }
  assert (I0 : lens (total ndiv) (mk (S (total ndiv)) ju, mk (total ndiv) jdu, zeros3 (total ndiv) n n)).
  { unfold lens, zeros3. rewrite !length_mk. auto. }
  assert (Hin : In (i, nth i ndiv 0%nat) (combine (seq 0 (length ndiv)) ndiv)).
  { replace (i, nth i ndiv 0%nat) with (nth i (combine (seq 0 (length ndiv)) ndiv) (0, 0)%nat).
    - apply nth_In. rewrite combine_length, seq_length. lia.
    - rewrite combine_nth by (now rewrite seq_length). now rewrite seq_nth by auto. }
  destruct (foldM_Ok_each (lens (total ndiv)) _ _ _ _ Ha0 I0) with (a := (i, nth i ndiv 0%nat)) as (s1 & s2 & P1 & E1); auto.
  - intros [a1 b1] st st' _ P E. revert E. apply foldM_inv; [|exact P]. intros k st1 st2 _ P1 E1. eapply (IN a1 b1); eauto.
  - cbv zeta beta in E1.
    destruct (foldM_Ok_each (lens (total ndiv)) _ _ _ _ E1 P1) with (a := (nth i ndiv 0 - 1)%nat) as (s3 & s4 & P3 & E3).
    + intros k st1 st2 _ P2 E2. eapply (IN i (nth i ndiv 0%nat)); eauto.
    + apply in_seq. lia.
    + apply (IN i (nth i ndiv 0%nat)) in E3 as [_ B]; auto. lia.
Qed.
Lemma overflow_raises ju jdu (l c r g : pulin N) len np ndiv zs zl name i :
  lc_ok l c -> rg_ok (size_of l) r -> rg_ok (size_of l) g -> zt_ok (size_of l) zs zl ->
  length (vertices len np) = S (length ndiv) ->
  (i < length ndiv)%nat -> (total ndiv < S i * nth i ndiv 0)%nat ->
  mtl_new LA ju jdu l c r g len np ndiv zs zl name = Err IndexError.
Proof.
  intros H HR HG HZ HL Hi Hd. destruct (args_total ndiv _ _ _ _ H HR HG) as (l' & c' & rg & E1 & E2).
  destruct (Zt_total _ _ _ HZ) as [z E3].
  destruct (geometry (size_of l) (vertices len np) ndiv ju jdu) as [ge|e] eqn:E4.
  - exfalso. pose proof (geometry_fits _ _ _ _ _ _ E4 i Hi ltac:(lia)). lia.
  - rewrite (geometry_err _ _ _ _ _ _ HL E4) in E4. eapply new_geo_err; eauto.
Qed.

(** what the constructor may have written at a node before the last one *)
Lemma geometry_origin n (np : mat N) ndiv ju jdu u du h : geometry n np ndiv ju jdu = Ok (u, du, h) ->
  forall j, (j < total ndiv)%nat -> nth j u [] = ju j \/
   exists i q, (i < length ndiv)%nat /\ (q < nth i ndiv 0)%nat /\ j = (i * nth i ndiv 0 + q)%nat /\
     nth j u [] = vadd (nth i np []) (vscal (nofZ (Z.of_nat q)) (seg_du np (nth i ndiv 0%nat) i)).
Proof.
  unfold geometry. fold (total ndiv). intros H. inv_bind H. inv_bind H. destruct a0 as [[u1 du1] h1]. injection H as <- _ _.
  intros j Hj. rewrite nth_lset_neq by lia. revert j Hj.
  set (P := fun st : mat N * mat N * ten N => let '(u, du, h) := st in
   forall j, (j < total ndiv)%nat -> nth j u [] = ju j \/
   exists i q, (i < length ndiv)%nat /\ (q < nth i ndiv 0)%nat /\ j = (i * nth i ndiv 0 + q)%nat /\
     nth j u [] = vadd (nth i np []) (vscal (nofZ (Z.of_nat q)) (seg_du np (nth i ndiv 0%nat) i))).
  change (P (u1, du1, h1)). revert Ha0. apply foldM_inv.
  - intros [i d] st st' Hin HP. apply foldM_inv; [|exact HP].
    assert (Hi : (i < length ndiv)%nat /\ d = nth i ndiv 0%nat).
    { apply (In_nth _ _ (0, 0)%nat) in Hin as (k & Hk & E). rewrite combine_length, seq_length in Hk.
      rewrite combine_nth in E by (now rewrite seq_length). rewrite seq_nth in E by lia. injection E as <- <-. split; auto. lia. }
    destruct Hi as [Hi ->].
    intros q [[u2 du2] h2] st3 Hq P2 E. inv_bind E. inv_bind E. inv_bind E. injection E as <-.
    apply py_set_Ok in Ha0 as [B1 ->]. intros j Hj.
    destruct (Nat.eq_dec j (i * nth i ndiv 0 + q)%nat) as [Ej|Ej]; [|rewrite nth_lset_neq by lia; exact (P2 j Hj)].
    apply in_seq in Hq. rewrite Ej, nth_lset_eq by auto.
    right. exists i, q. repeat split; auto. lia.
  - intros j Hj. left. now rewrite nth_mk by lia.
Qed.
End Unequal.

Lemma total_cons d l : total (d :: l) = (d + total l)%nat.
Proof.
  unfold total. cbn [fold_left]. assert (X : forall l a b, fold_left Nat.add l (a + b)%nat = (a + fold_left Nat.add l b)%nat).
  { induction l0 as [|x l0 IH]; intros; cbn; auto. rewrite <- Nat.add_assoc. apply IH. }
  rewrite Nat.add_0_l. rewrite <- (Nat.add_0_r d) at 1. apply X.
Qed.
Lemma total_firstn l i : (i < length l)%nat -> (total (firstn i l) + nth i l 0 <= total l)%nat.
Proof.
  revert i. induction l as [|d l IH]; intros i Hi; [simpl in Hi; lia|]. destruct i as [|i].
  - cbn [firstn nth]. rewrite total_cons. unfold total at 1. cbn. lia.
  - cbn [firstn nth]. rewrite !total_cons. simpl in Hi. specialize (IH i ltac:(lia)). lia.
Qed.
Lemma total_const l i d : (i <= length l)%nat -> (forall q, (q < i)%nat -> nth q l 0%nat = d) -> total (firstn i l) = (i * d)%nat.
Proof.
  revert i. induction l as [|x l IH]; intros i Hi H; [simpl in Hi; replace i with 0%nat by lia; reflexivity|].
  destruct i as [|i]; [reflexivity|]. cbn [firstn]. rewrite total_cons. rewrite (IH i).
  - specialize (H 0%nat ltac:(lia)). cbn in H. subst. cbn. lia.
  - simpl in Hi. lia.
  - intros q Hq. apply (H (S q)). lia.
Qed.
Lemma least_diff (l : list nat) d : (exists i, (i < length l)%nat /\ nth i l 0%nat <> d) ->
  exists i, (i < length l)%nat /\ nth i l 0%nat <> d /\ forall q, (q < i)%nat -> nth q l 0%nat = d.
Proof.
  intros (i & Hi & H). revert Hi H. induction i as [i IH] using lt_wf_ind. intros Hi H.
  destruct (forallb (fun q => nth q l 0%nat =? d)%nat (seq 0 i)) eqn:F.
  - exists i. split; auto. split; auto. intros q Hq. rewrite forallb_forall in F. apply Nat.eqb_eq, F, in_seq. lia.
  - assert (exists q, (q < i)%nat /\ nth q l 0%nat <> d) as (q & Hq & E).
    { clear - F. assert (X : forall l2, forallb (fun q => nth q l 0%nat =? d)%nat l2 = false -> exists q, In q l2 /\ nth q l 0%nat <> d).
      { induction l2 as [|x l2 IH]; [discriminate|]. cbn. intros E. apply andb_false_iff in E as [E|E].
        - apply Nat.eqb_neq in E. eauto. - destruct (IH E) as (q & A & B). eauto. }
      destruct (X _ F) as (q & A & B). apply in_seq in A. exists q. split; auto. lia. }
    apply (IH q); auto. lia.
Qed.
(** equally spaced vertices on the z axis *)
Lemma unequal_wrong (LA : lapack NumR) ju jdu (l c r g : pulin NumR) len ndiv zs zl name (m : mtl NumR) :
  (forall d, In d ndiv -> (1 <= d)%nat) -> (exists i, (i < length ndiv)%nat /\ nth i ndiv 0%nat <> nth 0 ndiv 0%nat) ->
  (forall j, coord (ju j) 2 < 0) ->
  mtl_new LA ju jdu l c r g len (ladder (length ndiv)) ndiv zs zl name = Ok m ->
  exists i, (i < length ndiv)%nat /\ coord (nth (total (firstn i ndiv)) (m_u m) []) 2 <> coord (nth i (ladder (length ndiv)) []) 2.
Proof.
  intros Hpos Hne Hju H. apply least_diff in Hne as (i & Hi & Hd & Heq).
  apply new_parts in H as (_ & _ & _ & H & _).
  assert (V : vertices len (ladder (length ndiv)) = ladder (length ndiv)) by reflexivity. rewrite V in H. clear V.
  exists i. split; auto. rewrite (total_const _ _ _ (Nat.lt_le_incl _ _ Hi) Heq).
  pose proof (total_firstn ndiv i Hi) as B. rewrite (total_const _ _ _ (Nat.lt_le_incl _ _ Hi) Heq) in B.
  assert (Hdi : (1 <= nth i ndiv 0)%nat) by (apply Hpos, nth_In; auto).
  unfold ladder at 1. rewrite nth_mk by lia. intros E. cbn [coord nth] in E. change (coord [0; 0; INR i] 2) with (INR i) in E.
  destruct (geometry_origin _ _ _ _ _ _ _ _ H (i * nth 0 ndiv 0)%nat ltac:(lia)) as [O|(a & q & Ha & Hq & Ej & O)].
  - rewrite O in E. specialize (Hju (i * nth 0 ndiv 0)%nat). pose proof (pos_INR i). lra.
  - assert (Ez : coord (nth (i * nth 0 ndiv 0)%nat (m_u m) []) 2 = INR a + INR q * ((INR (S a) - INR a) / INR (nth a ndiv 0%nat))).
    { rewrite O. set (P := ladder (length ndiv)).
      transitivity (coord (nth a P []) 2 + INR q * coord (@seg_du NumR P (nth a ndiv 0%nat) a) 2).
      - rewrite coord_get. unfold vadd, vscal. rewrite !get_mk by lia. rewrite (INR_IZR_INZ q). reflexivity.
      - rewrite seg_du_coord by lia. unfold P, ladder. rewrite !nth_mk by lia. reflexivity. }
    rewrite Ez, S_INR in E.
    assert (P : 0 < INR (nth a ndiv 0%nat)) by (apply lt_0_INR; lia).
    assert (Hq' : INR q < INR (nth a ndiv 0%nat)) by (now apply lt_INR). pose proof (pos_INR q) as Q0.
    assert (F : 0 <= INR q * ((INR a + 1 - INR a) / INR (nth a ndiv 0%nat)) < 1).
    { replace (INR q * ((INR a + 1 - INR a) / INR (nth a ndiv 0%nat))) with (INR q / INR (nth a ndiv 0%nat)) by (field; lra).
      split; [apply Rmult_le_pos; [lra|left; now apply Rinv_0_lt_compat]|].
      apply (Rmult_lt_reg_r (INR (nth a ndiv 0%nat))); auto. unfold Rdiv. rewrite Rmult_assoc, Rinv_l by lra. lra. }
    assert (a = i).
    { assert (INR a <= INR i) by lra. assert (INR i < INR (S a)) by (rewrite S_INR; lra).
      apply INR_le in H0. apply INR_lt in H1. lia. }
    subst a. assert (Q : INR q * ((INR i + 1 - INR i) / INR (nth i ndiv 0%nat)) = 0) by lra.
    replace (INR q * ((INR i + 1 - INR i) / INR (nth i ndiv 0%nat))) with (INR q / INR (nth i ndiv 0%nat)) in Q by (field; lra).
    assert (INR q = 0).
    { apply (Rmult_eq_reg_r (/ INR (nth i ndiv 0%nat))); [unfold Rdiv in Q; lra|]. apply Rinv_neq_0_compat. lra. }
    assert (q = 0)%nat by (apply INR_eq; simpl; auto). subst q.
    destruct (Nat.eq_dec i 0) as [->|Hi0]; [congruence|]. apply Hd. nia.
Qed.
