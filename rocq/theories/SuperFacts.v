(** The step is linear in state, sources and fields (real arithmetic). *)
From Coq Require Import String List Arith ZArith Bool Lia Reals Lra.
From Verif Require Import Num Py Arr ArrFacts NumR RFacts Probes Dispersive Line LineFacts SpecLine SpecDyn HistoryFacts ConeFacts.
Import ListNotations.
Local Open Scope R_scope.

Section Super.
Variables al be : R.
Notation lin := (lin al be).
Notation qlin := (qlin al be).

Lemma lin_add x y z x' y' z' : lin x y z -> lin x' y' z' -> lin (x + x') (y + y') (z + z').
Proof. unfold SpecDyn.lin. intros -> ->. ring. Qed.
Lemma lin_sub x y z x' y' z' : lin x y z -> lin x' y' z' -> lin (x - x') (y - y') (z - z').
Proof. unfold SpecDyn.lin. intros -> ->. ring. Qed.
Lemma lin_mul w x y z : lin x y z -> lin (w * x) (w * y) (w * z).
Proof. unfold SpecDyn.lin. intros ->. ring. Qed.
Lemma lin_sum n f g h : (forall j, (j < n)%nat -> lin (f j) (g j) (h j)) -> lin (@sumn NumR n f) (@sumn NumR n g) (@sumn NumR n h).
Proof.
  intros H. induction n as [|n IH]; [unfold SpecDyn.lin; cbn; rsimpl; ring|].
  rewrite !sumR_S. apply lin_add; [apply IH; intros; apply H; lia|apply H; lia].
Qed.
Lemma lin_0 : lin 0 0 0. Proof. unfold SpecDyn.lin. ring. Qed.

(** complex numbers and pole-wise lists *)
Definition clin (x y z : @cplx NumR) : Prop := lin (fst x) (fst y) (fst z) /\ lin (snd x) (snd y) (snd z).
Lemma clin_add x y z x' y' z' : clin x y z -> clin x' y' z' -> clin (cadd x x') (cadd y y') (cadd z z').
Proof. intros [] []. split; apply lin_add; auto. Qed.
Lemma clin_mul w x y z : clin x y z -> clin (cmul w x) (cmul w y) (cmul w z).
Proof. intros []. split; cbn; [apply lin_sub|apply lin_add]; apply lin_mul; auto. Qed.
Lemma clin_scal w x y z : lin x y z -> clin (@cscal NumR x w) (@cscal NumR y w) (@cscal NumR z w).
Proof. unfold clin, SpecDyn.lin. cbn. intros ->. split; rring. Qed.
Lemma qlin_nth p q r k : qlin p q r -> clin (nth k p c0) (nth k q c0) (nth k r c0).
Proof. intros (_ & _ & H). apply H. Qed.
Lemma clin_0 : clin c0 c0 c0. Proof. split; apply lin_0. Qed.
Lemma nth_map_in {A B} (f : A -> B) l k d d' : (k < length l)%nat -> nth k (map f l) d' = f (nth k l d).
Proof. intros H. rewrite nth_indep with (d' := f d) by now rewrite map_length. apply map_nth. Qed.
Lemma qlin_intro (p q r : qe NumR) n : length p = n -> length q = n -> length r = n ->
  (forall k, (k < n)%nat -> clin (nth k p c0) (nth k q c0) (nth k r c0)) -> qlin p q r.
Proof.
  intros Hp Hq Hr H. split; [congruence|]. split; [congruence|]. intros k. destruct (Nat.lt_ge_cases k n).
  - apply H; auto.
  - rewrite !nth_overflow by lia. apply clin_0.
Qed.
(** [bop f] where [f] respects the combination *)
Lemma bop_lin f (p q r p' q' r' a b c : qe NumR) (P : qe NumR -> qe NumR -> qe NumR -> Prop) :
  length p = length r -> length q = length r -> length p' = length r' -> length q' = length r' ->
  (forall k k', clin (f (nth k p c0) (nth k' p' c0)) (f (nth k q c0) (nth k' q' c0)) (f (nth k r c0) (nth k' r' c0))) ->
  bop f p p' = Ok a -> bop f q q' = Ok b -> bop f r r' = Ok c -> qlin a b c.
Proof.
  intros E1 E2 E3 E4 H Ha Hb Hc. unfold bop in *. rewrite E1, E3 in Ha. rewrite E2, E4 in Hb.
  destruct (length r =? length r')%nat eqn:EL.
  - injection Ha as <-. injection Hb as <-. injection Hc as <-.
    apply (qlin_intro _ _ _ (length r)); rewrite ?length_mk; auto. intros k Hk. rewrite !nth_mk by auto. apply H.
  - destruct (length r =? 1)%nat eqn:E1'.
    + injection Ha as <-. injection Hb as <-. injection Hc as <-.
      apply (qlin_intro _ _ _ (length r')); rewrite ?map_length; auto. intros k Hk.
      rewrite !nth_map_in with (d := c0) by lia. apply H.
    + destruct (length r' =? 1)%nat; [|discriminate].
      injection Ha as <-. injection Hb as <-. injection Hc as <-.
      apply (qlin_intro _ _ _ (length r)); rewrite ?map_length; auto. intros k Hk.
      rewrite !nth_map_in with (d := c0) by lia. apply H.
Qed.
Lemma badd_lin (p q r p' q' r' a b c : qe NumR) : qlin p q r -> qlin p' q' r' ->
  bop cadd p p' = Ok a -> bop cadd q q' = Ok b -> bop cadd r r' = Ok c -> qlin a b c.
Proof.
  intros H H'. apply (bop_lin cadd p q r p' q' r' a b c (fun _ _ _ => True)); try apply H; try apply H'.
  intros. apply clin_add; now apply qlin_nth.
Qed.
Lemma bmul_lin (w p q r a b c : qe NumR) : qlin p q r ->
  bop cmul w p = Ok a -> bop cmul w q = Ok b -> bop cmul w r = Ok c -> qlin a b c.
Proof.
  intros H. apply (bop_lin cmul w w w p q r a b c (fun _ _ _ => True)); auto; try apply H.
  intros. apply clin_mul; now apply qlin_nth.
Qed.
Lemma scal_lin (w : qe NumR) (x y z : R) : lin x y z ->
  qlin (map (@cscal NumR x) w) (map (@cscal NumR y) w) (map (@cscal NumR z) w).
Proof.
  intros H. apply (qlin_intro _ _ _ (length w)); rewrite ?map_length; auto. intros k Hk.
  rewrite !nth_map_in with (d := c0) by lia. now apply clin_scal.
Qed.
Lemma fold3 {A} (f g h : qe NumR -> A -> res (qe NumR)) (l : list A) : forall p q r a b c,
  qlin p q r ->
  (forall x p q r a b c, In x l -> qlin p q r -> f p x = Ok a -> g q x = Ok b -> h r x = Ok c -> qlin a b c) ->
  foldM f l p = Ok a -> foldM g l q = Ok b -> foldM h l r = Ok c -> qlin a b c.
Proof.
  induction l as [|x l IH]; intros p q r a b c Q H Ha Hb Hc; cbn [foldM] in *.
  - injection Ha as <-. injection Hb as <-. injection Hc as <-. exact Q.
  - inv_bind Ha. inv_bind Hb. inv_bind Hc. eapply IH; [|intros y; intros; eapply (H y); eauto; now right|exact Ha|exact Hb|exact Hc].
    eapply (H x); [left; reflexivity|exact Q|eassumption..].
Qed.
Lemma qdot_lin n (w : nat -> qe NumR) (x y z : nat -> R) (a b c : qe NumR) :
  (forall j, (j < n)%nat -> lin (x j) (y j) (z j)) ->
  @qdot NumR n w x = Ok a -> @qdot NumR n w y = Ok b -> @qdot NumR n w z = Ok c -> qlin a b c.
Proof.
  intros H Ha Hb Hc. unfold qdot in *. destruct n as [|n].
  - injection Ha as <-. injection Hb as <-. injection Hc as <-. apply (qlin_intro _ _ _ 1%nat); auto.
    intros k Hk. destruct k; [apply clin_0|lia].
  - eapply fold3; [| |exact Ha|exact Hb|exact Hc].
    + apply scal_lin, H. lia.
    + cbn beta. intros j p q r a' b' c' Hj Q A B C. apply in_seq in Hj.
      eapply badd_lin; [exact Q| |exact A|exact B|exact C]. apply scal_lin, H. lia.
Qed.
Lemma qdotq_lin n (w : nat -> qe NumR) (x y z : nat -> qe NumR) (a b c : qe NumR) :
  (forall j, (j < n)%nat -> qlin (x j) (y j) (z j)) ->
  qdotq n w x = Ok a -> qdotq n w y = Ok b -> qdotq n w z = Ok c -> qlin a b c.
Proof.
  intros H Ha Hb Hc. unfold qdotq in *. destruct n as [|n].
  - injection Ha as <-. injection Hb as <-. injection Hc as <-. apply (qlin_intro _ _ _ 1%nat); auto.
    intros k Hk. destruct k; [apply clin_0|lia].
  - inv_bind Ha. rename a0 into a1, Ha0 into A1. inv_bind Hb. rename a0 into b1, Ha0 into B1. inv_bind Hc. rename a0 into c2, Ha0 into C1.
    eapply fold3; [| |exact Ha|exact Hb|exact Hc].
    + eapply bmul_lin; [apply (H 0%nat); lia|exact A1|exact B1|exact C1].
    + cbn beta. intros j p q r a' b' c' Hj Q A B C. apply in_seq in Hj.
      inv_bind A. rename a0 into a3, Ha0 into A3. inv_bind B. rename a0 into b3, Ha0 into B3. inv_bind C. rename a0 into c3, Ha0 into C3.
      eapply badd_lin; [exact Q| |exact A|exact B|exact C]. eapply bmul_lin; [apply (H j); lia|exact A3|exact B3|exact C3].
Qed.
Lemma qsum_fst (a : qe NumR) x : fst (fold_left cadd a x) = fst x + @sumn NumR (length a) (fun k => fst (nth k a c0)).
Proof.
  revert x. induction a as [|y a IH]; intros x; cbn [fold_left length].
  - rewrite sumR_0. rring.
  - rewrite IH. change (fst (cadd x y)) with (fst x + fst y).
    assert (E : @sumn NumR (S (length a)) (fun k => fst (nth k (y :: a) c0)) = fst y + @sumn NumR (length a) (fun k => fst (nth k a c0))).
    { clear. generalize (length a) as n. induction n as [|n IH]; [rewrite sumR_S, !sumR_0; cbn; rring|].
      rewrite sumR_S, IH, sumR_S. cbn [nth]. rring. }
    etransitivity; [|apply (f_equal (Rplus (fst x))); symmetry; exact E]. rring.
Qed.
Lemma qsum_lin (a b c : qe NumR) : qlin a b c -> lin (qsum a) (qsum b) (qsum c).
Proof.
  intros Q. unfold qsum. rewrite !qsum_fst. destruct Q as (E1 & E2 & Q). rewrite E1, E2.
  apply lin_add; [apply lin_0|]. apply lin_sum. intros. apply Q.
Qed.

(** ** one step *)
Lemma lin_col n (A B C : mat NumR) k : (forall j, (j < n)%nat -> lin (get2 A j k) (get2 B j k) (get2 C j k)) ->
  forall j, (j < n)%nat -> lin (get (col n A k) j) (get (col n B k) j) (get (col n C k) j).
Proof. intros H j Hj. rewrite !get_col by auto. auto. Qed.
Lemma lin_mv n (M : mat NumR) (x y z : vec NumR) : (forall j, (j < n)%nat -> lin (get x j) (get y j) (get z j)) ->
  forall i, (i < n)%nat -> lin (get (mv n M x) i) (get (mv n M y) i) (get (mv n M z) i).
Proof. intros H i Hi. rewrite !get_mv by auto. apply lin_sum. intros j Hj. apply lin_mul; auto. Qed.
Lemma lin_port n t1 t2 z c h dt sgn (v1 v2 v3 i1 i2 i3 s1 s2 s3 p1 p2 p3 e1 e2 e3 f1 f2 f3 : vec NumR) q : (q < n)%nat ->
  (forall j, (j < n)%nat -> lin (get v1 j) (get v2 j) (get v3 j)) -> (forall j, (j < n)%nat -> lin (get i1 j) (get i2 j) (get i3 j)) ->
  (forall j, (j < n)%nat -> lin (get s1 j) (get s2 j) (get s3 j)) -> (forall j, (j < n)%nat -> lin (get p1 j) (get p2 j) (get p3 j)) ->
  (forall j, (j < n)%nat -> lin (get e1 j) (get e2 j) (get e3 j)) -> (forall j, (j < n)%nat -> lin (get f1 j) (get f2 j) (get f3 j)) ->
  lin (@port_voltage NumR n t1 t2 z c h dt sgn v1 i1 s1 p1 e1 f1 q) (@port_voltage NumR n t1 t2 z c h dt sgn v2 i2 s2 p2 e2 f2 q)
      (@port_voltage NumR n t1 t2 z c h dt sgn v3 i3 s3 p3 e3 f3 q).
Proof.
  intros Hq Hv Hi Hs Hp He Hf. unfold port_voltage. apply lin_add; [apply lin_mv; auto|].
  apply lin_mv; auto. intros j Hj. rewrite !get_mk by auto. apply lin_sub; [apply lin_add|].
  - apply lin_mul, lin_mv; auto.
  - apply lin_add; auto.
  - apply lin_mul, lin_mv; auto. intros k Hk. rewrite !get_mk by auto. apply lin_sub; auto.
Qed.

Lemma twin_sized (a b : mtl NumR) : sized a -> twin a b -> sized b.
Proof.
  intros (S1 & S2 & S3) T. unfold sized.
  rewrite (tw_N _ _ T), (tw_n _ _ T), (sd_n _ _ (tw_disp _ _ T)), (sd_nx _ _ (tw_disp _ _ T)). auto.
Qed.
Lemma super_step (a b c a' b' c' : mtl NumR) : sized a -> twin a b -> twin a c -> coefs a b -> coefs a c ->
  mtl_step a = Ok a' -> mtl_step b = Ok b' -> mtl_step c = Ok c' ->
  lin_state al be a b c -> lin_drive al be a b c -> lin_state al be a' b' c'.
Proof.
  intros Sz Tb Tc [Lb Cb] [Lc Cc] Ha Hb Hc (Av & Ai & Aq) (S0 & SN & FT & FL).
  pose proof (twin_sized a b Sz Tb) as Szb. pose proof (twin_sized a c Sz Tc) as Szc.
  pose proof (mtl_step_same a a' (proj1 Sz) Ha) as Sa.
  assert (Hn : conductors a' = conductors a) by (unfold conductors; apply (ss_n _ _ (sl_core _ _ Sa))).
  assert (HN : cells a' = cells a) by (unfold cells; apply (ss_N _ _ (sl_core _ _ Sa))).
  destruct (step_voltage a a' Sz Ha) as (vt & idf & Ea & Va). destruct (step_voltage b b' Szb Hb) as (vt2 & idf2 & Eb & Vb).
  destruct (step_voltage c c' Szc Hc) as (vt3 & idf3 & Ec & Vc).
  assert (vt2 = vt /\ idf2 = idf) as [-> ->] by (rewrite Cb, Ea in Eb; injection Eb; auto).
  assert (vt3 = vt /\ idf3 = idf) as [-> ->] by (rewrite Cc, Ea in Ec; injection Ec; auto).
  destruct (step_current a a' Sz Ha) as (it & vd & Ela & Ca). destruct (step_current b b' Szb Hb) as (it2 & vd2 & Elb & CCb).
  destruct (step_current c c' Szc Hc) as (it3 & vd3 & Elc & CCc).
  assert (it2 = it /\ vd2 = vd) as [-> ->] by (rewrite Lb, Ela in Elb; injection Elb; auto).
  assert (it3 = it /\ vd3 = vd) as [-> ->] by (rewrite Lc, Ela in Elc; injection Elc; auto).
  assert (TB := tw_time _ _ Tb). assert (TC := tw_time _ _ Tc).
  pose proof (step_memory a a' Sz Ha) as Ma. pose proof (step_memory b b' Szb Hb) as Mb. pose proof (step_memory c c' Szc Hc) as Mc.
  unfold conductors, cells in *.
  rewrite (tw_n _ _ Tb), (tw_N _ _ Tb) in *. rewrite (tw_n _ _ Tc), (tw_N _ _ Tc) in *.
  assert (ET : forall j k, (j < k_n (m_core a))%nat -> (k <= k_N (m_core a))%nat ->
     lin (get2 (eT_now (fields a)) j k) (get2 (eT_now (fields b)) j k) (get2 (eT_now (fields c)) j k) /\
     lin (get2 (eT_prev (fields a)) j k) (get2 (eT_prev (fields b)) j k) (get2 (eT_prev (fields c)) j k)).
  { intros j k Hj Hk. rewrite !eT_now_get, !eT_prev_get, TB, TC, (tw_dt _ _ Tb), (tw_dt _ _ Tc). split; apply FT; auto. }
  assert (EL : forall j k, (j < k_n (m_core a))%nat -> (k < k_N (m_core a))%nat ->
     lin (get2 (eL_now (fields a)) j k) (get2 (eL_now (fields b)) j k) (get2 (eL_now (fields c)) j k) /\
     lin (get2 (eL_prev (fields a)) j k) (get2 (eL_prev (fields b)) j k) (get2 (eL_prev (fields c)) j k)).
  { intros j k Hj Hk. rewrite !eL_now_get, !eL_prev_get, TB, TC, (tw_dt _ _ Tb), (tw_dt _ _ Tc). split; apply FL; auto. }
  assert (V : forall j k, (j < k_n (m_core a))%nat -> (k <= k_N (m_core a))%nat -> lin (volt a' j k) (volt b' j k) (volt c' j k)).
  { intros j k Hj Hk. rewrite Va, Vb, Vc by auto. unfold next_v. rewrite (tw_N _ _ Tb), (tw_N _ _ Tc).
    destruct (Nat.eqb_spec k 0) as [->|Hk0]; [|destruct (Nat.eqb_spec k (k_N (m_core a))) as [->|Hk1]].
    - unfold left_voltage. rewrite (tw_n _ _ Tb), (tw_lp1 _ _ Tb), (tw_lp2 _ _ Tb), (tw_zs _ _ Tb), (tw_c _ _ Tb), (tw_h _ _ Tb), (tw_dt _ _ Tb).
      rewrite (tw_n _ _ Tc), (tw_lp1 _ _ Tc), (tw_lp2 _ _ Tc), (tw_zs _ _ Tc), (tw_c _ _ Tc), (tw_h _ _ Tc), (tw_dt _ _ Tc).
      destruct Sz as [HN1 _]. apply lin_port; auto; apply lin_col; intros q Hq; try (apply ET; auto).
      + apply Av; auto.
      + apply Ai; auto.
      + unfold sources_now. rewrite !eval_get, TB, TC. apply S0; auto.
      + unfold sources_prev. rewrite !eval_get, TB, TC, (tw_dt _ _ Tb), (tw_dt _ _ Tc). apply S0; auto.
    - unfold right_voltage. rewrite (tw_n _ _ Tb), (tw_N _ _ Tb), (tw_rp1 _ _ Tb), (tw_rp2 _ _ Tb), (tw_zl _ _ Tb), (tw_c _ _ Tb), (tw_h _ _ Tb), (tw_dt _ _ Tb).
      rewrite (tw_n _ _ Tc), (tw_N _ _ Tc), (tw_rp1 _ _ Tc), (tw_rp2 _ _ Tc), (tw_zl _ _ Tc), (tw_c _ _ Tc), (tw_h _ _ Tc), (tw_dt _ _ Tc).
      destruct Sz as [HN1 _]. apply lin_port; auto; apply lin_col; intros q Hq; try (apply ET; auto).
      + apply Av; auto.
      + apply Ai; auto. lia.
      + unfold sources_now. rewrite !eval_get, TB, TC. apply SN; auto.
      + unfold sources_prev. rewrite !eval_get, TB, TC, (tw_dt _ _ Tb), (tw_dt _ _ Tc). apply SN; auto.
    - unfold interior_voltage. rewrite (tw_n _ _ Tb), (tw_n _ _ Tc). apply lin_sub; [apply lin_sub|].
      + apply lin_sum. intros q Hq. apply lin_mul, Av; auto.
      + apply lin_sum. intros q Hq. apply lin_mul, lin_sub; apply Ai; auto; lia.
      + apply lin_sub; apply ET; auto. }
  assert (W : forall j k p q r, (j < k_n (m_core a))%nat -> (k < k_N (m_core a))%nat ->
     qdotq (k_n (m_core a)) (fun j0 => qget3 (ds_q3 (k_disp (m_core a))) k j j0) (fun j0 => memory a k j0) = Ok p ->
     qdotq (k_n (m_core a)) (fun j0 => qget3 (ds_q3 (k_disp (m_core b))) k j j0) (fun j0 => memory b k j0) = Ok q ->
     qdotq (k_n (m_core a)) (fun j0 => qget3 (ds_q3 (k_disp (m_core c))) k j j0) (fun j0 => memory c k j0) = Ok r -> qlin p q r).
  { intros j k p q r Hj Hk. rewrite (sd_q3 _ _ (tw_disp _ _ Tb)), (sd_q3 _ _ (tw_disp _ _ Tc)). apply qdotq_lin. intros; apply Aq; auto. }
  assert (I : forall j k, (j < k_n (m_core a))%nat -> (k < k_N (m_core a))%nat -> lin (curr a' j k) (curr b' j k) (curr c' j k)).
  { intros j k Hj Hk.
    destruct (Ca k j Hk Hj) as (w & Hw & ->). destruct (CCb k j Hk Hj) as (w2 & Hw2 & ->). destruct (CCc k j Hk Hj) as (w3 & Hw3 & ->).
    cbv zeta. rewrite (tw_h _ _ Tb), (tw_h _ _ Tc). apply lin_sub; [apply lin_sub|].
    - apply lin_sum. intros q Hq. apply lin_mul, Ai; auto.
    - apply lin_sum. intros q Hq. apply lin_mul. apply lin_sub; [apply lin_add; apply lin_sub|].
      + apply V; auto. + apply V; auto. lia.
      + apply ET; auto. + apply ET; auto. lia.
      + apply lin_sum. intros p Hp. apply lin_mul, lin_add; apply EL; auto.
    - apply lin_sum. intros q Hq. apply lin_mul. apply lin_sum. intros p Hp. apply lin_mul.
      destruct (Hw p Hp) as (x & Ex & ->). destruct (Hw2 p Hp) as (y & Ey & ->). destruct (Hw3 p Hp) as (z & Ez & ->).
      apply qsum_lin. eapply W; [exact Hp|exact Hk|exact Ex|exact Ey|exact Ez]. }
  split; [|split]; unfold conductors, cells; rewrite Hn, HN; auto.
  intros j k Hj Hk. specialize (Ma k j Hk Hj). specialize (Mb k j Hk Hj). specialize (Mc k j Hk Hj).
  inv_bind Ma. rename a0 into x1, Ha0 into X1. inv_bind Ma. rename a0 into y1, Ha0 into Y1. inv_bind Ma. rename a0 into q1, Ha0 into Q1. inv_bind Ma. rename a0 into z1, Ha0 into Z1.
  inv_bind Mb. rename a0 into x2, Ha0 into X2. inv_bind Mb. rename a0 into y2, Ha0 into Y2. inv_bind Mb. rename a0 into q2, Ha0 into Q2. inv_bind Mb. rename a0 into z2, Ha0 into Z2.
  inv_bind Mc. rename a0 into x3, Ha0 into X3. inv_bind Mc. rename a0 into y3, Ha0 into Y3. inv_bind Mc. rename a0 into q3, Ha0 into Q3. inv_bind Mc. rename a0 into z3, Ha0 into Z3.
  rewrite (sd_q1 _ _ (tw_disp _ _ Tb)) in X2. rewrite (sd_q2 _ _ (tw_disp _ _ Tb)) in Y2.
  rewrite (sd_q1 _ _ (tw_disp _ _ Tc)) in X3. rewrite (sd_q2 _ _ (tw_disp _ _ Tc)) in Y3.
  eapply badd_lin; [| |exact Ma|exact Mb|exact Mc].
  - eapply badd_lin; [| |exact Z1|exact Z2|exact Z3].
    + eapply qdot_lin; [|exact X1|exact X2|exact X3]. intros; apply I; auto.
    + eapply qdot_lin; [|exact Y1|exact Y2|exact Y3]. intros; apply I; auto.
  - eapply W; [exact Hj|exact Hk|exact Q1|exact Q2|exact Q3].
Qed.

Lemma lin_drive_step (a b c a' b' c' : mtl NumR) : (1 <= k_N (m_core a))%nat -> twin a b -> twin a c ->
  mtl_step a = Ok a' -> mtl_step b = Ok b' -> mtl_step c = Ok c' -> lin_drive al be a b c -> lin_drive al be a' b' c'.
Proof.
  intros HN Tb Tc Ha Hb Hc D.
  pose proof (mtl_step_same a a' HN Ha) as Sa.
  assert (HNb : (1 <= k_N (m_core b))%nat) by (rewrite (tw_N _ _ Tb); auto). pose proof (mtl_step_same b b' HNb Hb) as Sb.
  assert (HNc : (1 <= k_N (m_core c))%nat) by (rewrite (tw_N _ _ Tc); auto). pose proof (mtl_step_same c c' HNc Hc) as Sc.
  unfold lin_drive, source, eTran, eLong, conductors, cells in *.
  rewrite (sl_vsrc _ _ Sa), (sl_vsrc _ _ Sb), (sl_vsrc _ _ Sc).
  destruct Sa as [_ _ _ _ _ _ _ _ _ _ Sa _], Sb as [_ _ _ _ _ _ _ _ _ _ Sb _], Sc as [_ _ _ _ _ _ _ _ _ _ Sc _].
  rewrite (ss_n _ _ Sa), (ss_N _ _ Sa), (ss_eT _ _ Sa), (ss_eT _ _ Sb), (ss_eT _ _ Sc), (ss_eL _ _ Sa), (ss_eL _ _ Sb), (ss_eL _ _ Sc).
  exact D.
Qed.
Lemma super_steps n : forall a b c a' b' c' : mtl NumR, sized a -> twin a b -> twin a c -> coefs a b -> coefs a c ->
  iterM n mtl_step a = Ok a' -> iterM n mtl_step b = Ok b' -> iterM n mtl_step c = Ok c' ->
  lin_state al be a b c -> lin_drive al be a b c -> lin_state al be a' b' c'.
Proof.
  induction n as [|n IH]; intros a b c a' b' c' Sz Tb Tc Cb Cc Ha Hb Hc S D; cbn [iterM] in *.
  - injection Ha as <-. injection Hb as <-. injection Hc as <-. exact S.
  - inv_bind Ha. rename a0 into a1, Ha0 into A1. inv_bind Hb. rename a0 into b1, Ha0 into B1. inv_bind Hc. rename a0 into d1, Ha0 into D1.
    destruct (twin_step a b a1 b1 (proj1 Sz) Tb Cb A1 B1) as [Tb' Cb'].
    destruct (twin_step a c a1 d1 (proj1 Sz) Tc Cc A1 D1) as [Tc' Cc'].
    apply (IH a1 b1 d1); auto.
    + eapply sized_step; eauto.
    + exact (super_step a b c a1 b1 d1 Sz Tb Tc Cb Cc A1 B1 D1 S D).
    + exact (lin_drive_step a b c a1 b1 d1 (proj1 Sz) Tb Tc A1 B1 D1 D).
Qed.
End Super.

Section Run.
Variable LA : lapack NumR.
Lemma super_run al be (m : mtl NumR) (x y z : inputs NumR) T n a b c : reachable LA m ->
  lin_state al be (with_inputs m x) (with_inputs m y) (with_inputs m z) ->
  lin_drive al be (with_inputs m x) (with_inputs m y) (with_inputs m z) ->
  run_state LA (with_inputs m x) T n a -> run_state LA (with_inputs m y) T n b -> run_state LA (with_inputs m z) T n c ->
  lin_state al be a b c.
Proof.
  intros R S D (s1 & pa & Ht1 & Hs1 & Hp1 & Hi1) (s2 & pb & Ht2 & Hs2 & Hp2 & Hi2) (s3 & pc & Ht3 & Hs3 & Hp3 & Hi3).
  assert (s2 = s1) by (change (k_dt (m_core (with_inputs m y))) with (k_dt (m_core (with_inputs m x))) in Ht2; congruence). subst s2.
  assert (s3 = s1) by (change (k_dt (m_core (with_inputs m z))) with (k_dt (m_core (with_inputs m x))) in Ht3; congruence). subst s3.
  destruct (twin_prepare _ _ _ _ _ _ (with_inputs_twin m x y) Hp1 Hp2) as (T1 & C1 & _ & _).
  destruct (twin_prepare _ _ _ _ _ _ (with_inputs_twin m x z) Hp1 Hp3) as (T2 & C2 & _ & _).
  pose proof (reachable_shape _ _ R) as Sh.
  apply prepare_inv in Hp1 as (u1 & u2 & _ & Ea). apply prepare_inv in Hp2 as (u3 & u4 & _ & Eb). apply prepare_inv in Hp3 as (u5 & u6 & _ & Ec).
  apply (super_steps al be n pa pb pc a b c); auto.
  - rewrite Ea. split; [apply (sh_N _ Sh)|split; [apply (sh_dn _ Sh)|apply (sh_dx _ Sh)]].
  - rewrite Ea, Eb, Ec. exact S.
  - rewrite Ea, Eb, Ec. exact D.
Qed.
End Run.
