(** Two runs of one line with different inputs: what each step can see.  No numeric law. *)
From Coq Require Import String List Arith ZArith Bool Lia.
From Verif Require Import Num Py Arr ArrFacts Probes Dispersive Line LineFacts SpecLine SpecDyn HistoryFacts.
Import ListNotations.

Section Cone.
Context {N : num}.
Variable LA : lapack N.
Implicit Types (a b m : mtl N).

(** same line, up to inputs; [coefs]: with the same update coefficients *)
Record twin a b : Prop := {
  tw_n : k_n (m_core b) = k_n (m_core a); tw_N : k_N (m_core b) = k_N (m_core a); tw_h : k_h (m_core b) = k_h (m_core a);
  tw_l : k_l (m_core b) = k_l (m_core a); tw_r : k_r (m_core b) = k_r (m_core a); tw_c : k_c (m_core b) = k_c (m_core a);
  tw_g : k_g (m_core b) = k_g (m_core a); tw_dt : k_dt (m_core b) = k_dt (m_core a);
  tw_disp : same_disp (k_disp (m_core a)) (k_disp (m_core b));
  tw_zs : m_zs b = m_zs a; tw_zl : m_zl b = m_zl a; tw_lp1 : m_lp1 b = m_lp1 a; tw_lp2 : m_lp2 b = m_lp2 a;
  tw_rp1 : m_rp1 b = m_rp1 a; tw_rp2 : m_rp2 b = m_rp2 a; tw_time : m_time b = m_time a
}.
Definition coefs a b : Prop := k_lr (m_core b) = k_lr (m_core a) /\ k_cg (m_core b) = k_cg (m_core a).

Lemma same_disp_sym (d e : disp N) : same_disp d e -> same_disp e d.
Proof. intros []; split; congruence. Qed.
Lemma with_inputs_twin m x y : twin (with_inputs m x) (with_inputs m y).
Proof. split; auto. split; reflexivity. Qed.
Lemma twin_lr a b k : twin a b -> lr_F1 (m_core b) k = lr_F1 (m_core a) k /\ lr_F2 (m_core b) k = lr_F2 (m_core a) k.
Proof. intros T. pose proof (tw_disp _ _ T) as []. destruct T. unfold lr_F1, lr_F2. split; congruence. Qed.
Lemma twin_width a b k : twin a b -> node_width (m_core b) k = node_width (m_core a) k.
Proof. intros T. unfold node_width. now rewrite (tw_N _ _ T), (tw_n _ _ T), (tw_h _ _ T). Qed.
Lemma twin_cg a b k : twin a b -> cg_F1 (m_core b) k = cg_F1 (m_core a) k /\ cg_F2 (m_core b) k = cg_F2 (m_core a) k.
Proof. intros T. unfold cg_F1, cg_F2. rewrite (twin_width a b k T). destruct T. split; congruence. Qed.

Lemma twin_prepare a b n pa pb : twin a b -> mtl_prepare LA a n = Ok pa -> mtl_prepare LA b n = Ok pb ->
  twin pa pb /\ coefs pa pb /\ inputs_of pa = {| in_v := k_v (m_core a); in_i := k_i (m_core a);
     in_phi := ds_phi (k_disp (m_core a)); in_src := m_vsrc a; in_eL := k_eL (m_core a); in_eT := k_eT (m_core a); in_probes := m_probes pa |}
  /\ inputs_of pb = {| in_v := k_v (m_core b); in_i := k_i (m_core b);
     in_phi := ds_phi (k_disp (m_core b)); in_src := m_vsrc b; in_eL := k_eL (m_core b); in_eT := k_eT (m_core b); in_probes := m_probes pb |}.
Proof.
  intros T Ha Hb. unfold mtl_prepare in *.
  inv_bind Ha. rename a0 into s1. rename Ha0 into A1. inv_bind Ha. rename a0 into s2. rename Ha0 into A2. injection Ha as <-.
  inv_bind Hb. rename a0 into s3. rename Ha into B1. inv_bind Hb. rename a0 into s4. rename Ha into B2. injection Hb as <-.
  unfold update_lr_terms in A1, B1. inv_bind A1. inv_bind B1. injection A1 as <-. injection B1 as <-.
  assert (E1 : a1 = a0).
  { rewrite (tw_N _ _ T), (tw_n _ _ T) in Ha0.
    rewrite (mapM_ext _ (fun k => inv LA (k_n (m_core a)) (lr_F1 (m_core a) k))) in Ha0
      by (intros; now rewrite (proj1 (twin_lr a b _ T))). congruence. }
  subst a1.
  unfold update_cg_terms in A2, B2. inv_bind A2. inv_bind B2. injection A2 as <-. injection B2 as <-.
  cbn [k_N k_n set_lr] in *.
  assert (E2 : a2 = a1).
  { rewrite (tw_N _ _ T), (tw_n _ _ T) in Ha2.
    rewrite (mapM_ext _ (fun k => inv LA (k_n (m_core a)) (cg_F1 (m_core a) k))) in Ha2
      by (intros; apply (f_equal (inv LA _)); exact (proj1 (twin_cg a b _ T))).
    rewrite (mapM_ext _ (fun k => inv LA (k_n (m_core a)) (cg_F1 (m_core a) k))) in Ha1 by reflexivity. congruence. }
  subst a2. split; [|split].
  - destruct T. split; cbn; auto.
  - split; cbn [m_core m_set k_lr k_cg set_lr set_cg]; rewrite (tw_N _ _ T), (tw_n _ _ T).
    + apply (f_equal Some), (f_equal2 pair); [|reflexivity]. apply mk_ext. intros k Hk. now rewrite (proj2 (twin_lr a b _ T)).
    + apply (f_equal Some), (f_equal2 pair); [|reflexivity]. apply mk_ext. intros k Hk. apply (f_equal (mm _ _)). exact (proj2 (twin_cg a b k T)).
  - split; reflexivity.
Qed.

Lemma twin_step a b a' b' : (1 <= k_N (m_core a))%nat -> twin a b -> coefs a b -> mtl_step a = Ok a' -> mtl_step b = Ok b' ->
  twin a' b' /\ coefs a' b'.
Proof.
  intros HN T [C1 C2] Ha Hb. pose proof (mtl_step_same a a' HN Ha) as [].
  assert (HNb : (1 <= k_N (m_core b))%nat) by (rewrite (tw_N _ _ T); auto).
  pose proof (mtl_step_same b b' HNb Hb) as [].
  pose proof (mtl_step_time a a' HN Ha) as Ta. pose proof (mtl_step_time b b' HNb Hb) as Tb.
  destruct T, sl_core, sl_core0. split; [split|]; try congruence.
  - eapply same_disp_trans; [apply same_disp_sym; exact sl_disp|]. eapply same_disp_trans; [exact tw_disp0|exact sl_disp0].
  - unfold coefs. split; congruence.
Qed.

(** what the evaluated sources and fields depend on *)
Lemma eval_get (fs : list (list (N -> N))) t c k : get2 (eval_at fs t) c k = nth k (nth c fs []) (fun _ => n0) t.
Proof.
  unfold get2, get, eval_at.
  rewrite (map_nth (map (fun f : N -> N => f t)) fs []).
  exact (map_nth (fun f : N -> N => f t) (nth c fs []) (fun _ => n0) k).
Qed.
Lemma eT_now_get m c k : get2 (eT_now (fields m)) c k = eTran m c k (m_time m). Proof. apply eval_get. Qed.
Lemma eT_prev_get m c k : get2 (eT_prev (fields m)) c k = eTran m c k (nsub (m_time m) (k_dt (m_core m))). Proof. apply eval_get. Qed.
Lemma eL_now_get m c k : get2 (eL_now (fields m)) c k = eLong m c k (nadd (m_time m) (ndiv (k_dt (m_core m)) n2)). Proof. apply eval_get. Qed.
Lemma eL_prev_get m c k : get2 (eL_prev (fields m)) c k = eLong m c k (nsub (m_time m) (ndiv (k_dt (m_core m)) n2)). Proof. apply eval_get. Qed.

Lemma interior_local a b vt idf c k : twin a b -> (c < k_n (m_core a))%nat ->
  (forall j, (j < k_n (m_core a))%nat -> volt b j k = volt a j k /\ curr b j k = curr a j k /\ curr b j (k - 1) = curr a j (k - 1)) ->
  (forall j t, (j < k_n (m_core a))%nat -> eTran b j k t = eTran a j k t) ->
  interior_voltage (m_core b) (fields b) vt idf c k = interior_voltage (m_core a) (fields a) vt idf c k.
Proof.
  intros T Hc Hs Hf. unfold interior_voltage. rewrite (tw_n _ _ T), !eT_now_get, !eT_prev_get, (tw_time _ _ T), (tw_dt _ _ T).
  rewrite !Hf by auto. f_equal. f_equal; apply sumn_ext; intros j Hj; destruct (Hs j Hj) as (E1 & E2 & E3); unfold volt, curr in *; congruence.
Qed.
Lemma left_local a b c : twin a b ->
  (forall j, (j < k_n (m_core a))%nat -> volt b j 0 = volt a j 0 /\ curr b j 0 = curr a j 0) ->
  (forall j t, (j < k_n (m_core a))%nat -> eTran b j 0 t = eTran a j 0 t /\ source b j 0 t = source a j 0 t) ->
  left_voltage b c = left_voltage a c.
Proof.
  intros T Hs Hf. unfold left_voltage. rewrite (tw_n _ _ T), (tw_lp1 _ _ T), (tw_lp2 _ _ T), (tw_zs _ _ T), (tw_c _ _ T), (tw_h _ _ T), (tw_dt _ _ T).
  rewrite (col_ext _ (k_v (m_core b)) (k_v (m_core a))) by (intros j Hj; apply Hs; auto).
  rewrite (col_ext _ (k_i (m_core b)) (k_i (m_core a))) by (intros j Hj; apply Hs; auto).
  rewrite (col_ext _ (sources_now b) (sources_now a)).
  2:{ intros j Hj. unfold sources_now. rewrite !eval_get, (tw_time _ _ T). apply (Hf j _ Hj). }
  rewrite (col_ext _ (sources_prev b) (sources_prev a)).
  2:{ intros j Hj. unfold sources_prev. rewrite !eval_get, (tw_time _ _ T), (tw_dt _ _ T). apply (Hf j _ Hj). }
  rewrite (col_ext _ (eT_now (fields b)) (eT_now (fields a))).
  2:{ intros j Hj. rewrite !eT_now_get, (tw_time _ _ T). apply (Hf j _ Hj). }
  rewrite (col_ext _ (eT_prev (fields b)) (eT_prev (fields a))).
  2:{ intros j Hj. rewrite !eT_prev_get, (tw_time _ _ T), (tw_dt _ _ T). apply (Hf j _ Hj). }
  reflexivity.
Qed.
Lemma right_local a b c : twin a b -> let e := k_N (m_core a) in
  (forall j, (j < k_n (m_core a))%nat -> volt b j e = volt a j e /\ curr b j (e - 1) = curr a j (e - 1)) ->
  (forall j t, (j < k_n (m_core a))%nat -> eTran b j e t = eTran a j e t /\ source b j e t = source a j e t) ->
  right_voltage b c = right_voltage a c.
Proof.
  intros T e Hs Hf. unfold right_voltage. rewrite (tw_n _ _ T), (tw_N _ _ T), (tw_rp1 _ _ T), (tw_rp2 _ _ T), (tw_zl _ _ T), (tw_c _ _ T), (tw_h _ _ T), (tw_dt _ _ T).
  fold e.
  rewrite (col_ext _ (k_v (m_core b)) (k_v (m_core a))) by (intros j Hj; apply Hs; auto).
  rewrite (col_ext _ (k_i (m_core b)) (k_i (m_core a))) by (intros j Hj; apply Hs; auto).
  rewrite (col_ext _ (sources_now b) (sources_now a)).
  2:{ intros j Hj. unfold sources_now. rewrite !eval_get, (tw_time _ _ T). apply (Hf j _ Hj). }
  rewrite (col_ext _ (sources_prev b) (sources_prev a)).
  2:{ intros j Hj. unfold sources_prev. rewrite !eval_get, (tw_time _ _ T), (tw_dt _ _ T). apply (Hf j _ Hj). }
  rewrite (col_ext _ (eT_now (fields b)) (eT_now (fields a))).
  2:{ intros j Hj. rewrite !eT_now_get, (tw_time _ _ T). apply (Hf j _ Hj). }
  rewrite (col_ext _ (eT_prev (fields b)) (eT_prev (fields a))).
  2:{ intros j Hj. rewrite !eT_prev_get, (tw_time _ _ T), (tw_dt _ _ T). apply (Hf j _ Hj). }
  reflexivity.
Qed.

(** the connector memory of a cell depends on that cell only *)
Lemma q3phi_row (d d1 : disp N) kz c : update_q3_phi_term d = Ok d1 -> (kz < ds_nx d)%nat -> (c < ds_n d)%nat ->
  exists q, qdotq (ds_n d) (fun j => qget3 (ds_q3 d) kz c j) (fun j => qget2 (ds_phi d) kz j) = Ok q /\ get2 (ds_q3phi d1) kz c = qsum q.
Proof.
  intros H Hk Hc. unfold update_q3_phi_term in H. inv_bind H. injection H as <-. cbn [ds_q3phi].
  pose proof (mapM_seq _ _ _ kz [] Ha Hk) as E. cbn beta in E.
  pose proof (mapM_seq _ _ _ c n0 E Hc) as E2. cbn beta in E2. inv_bind E2. injection E2 as E2.
  eexists. split; [eassumption|]. unfold get2, get. symmetry. exact E2.
Qed.
Lemma phi_row (d d2 : disp N) i1 i2 kz c : update_phi d i1 i2 = Ok d2 -> (kz < ds_nx d)%nat -> (c < ds_n d)%nat ->
  (x <- qdot (ds_n d) (fun j => qget3 (ds_q1 d) kz c j) (fun j => get2 i2 j kz) ;;
   y <- qdot (ds_n d) (fun j => qget3 (ds_q2 d) kz c j) (fun j => get2 i1 j kz) ;;
   q <- qdotq (ds_n d) (fun j => qget3 (ds_q3 d) kz c j) (fun j => qget2 (ds_phi d) kz j) ;;
   xy <- bop cadd x y ;; bop cadd xy q) = Ok (qget2 (ds_phi d2) kz c).
Proof.
  intros H Hk Hc. unfold update_phi in H. inv_bind H. injection H as <-. cbn [ds_phi].
  pose proof (mapM_seq _ _ _ kz [] Ha Hk) as E. cbn beta in E.
  pose proof (mapM_seq _ _ _ c qzero E Hc) as E2. exact E2.
Qed.
Lemma foldM_ext_in {A S} (f g : S -> A -> res S) l s : (forall x s, In x l -> f s x = g s x) -> foldM f l s = foldM g l s.
Proof.
  revert s; induction l as [|x l IH]; intros s H; [reflexivity|]. cbn [foldM]. rewrite H by (left; auto).
  destruct (g s x); cbn [bind]; auto. apply IH. intros; apply H; now right.
Qed.
Lemma qdot_ext n (r1 r2 : nat -> qe N) (x y : nat -> N) : (forall j, (j < n)%nat -> r1 j = r2 j /\ x j = y j) -> qdot n r1 x = qdot n r2 y.
Proof.
  intros H. unfold qdot. destruct n as [|k]; auto. destruct (H 0%nat ltac:(lia)) as [-> ->].
  apply foldM_ext_in. intros j s Hj. apply in_seq in Hj. destruct (H j ltac:(lia)) as [-> ->]. reflexivity.
Qed.
Lemma qdotq_ext n (r1 r2 : nat -> qe N) (x y : nat -> qe N) : (forall j, (j < n)%nat -> r1 j = r2 j /\ x j = y j) -> qdotq n r1 x = qdotq n r2 y.
Proof.
  intros H. unfold qdotq. destruct n as [|k]; auto. destruct (H 0%nat ltac:(lia)) as [-> ->].
  destruct (bop cmul (r2 0%nat) (y 0%nat)); cbn [bind]; auto.
  apply foldM_ext_in. intros j s Hj. apply in_seq in Hj. destruct (H j ltac:(lia)) as [-> ->]. reflexivity.
Qed.

(** the state of the dispersive model agrees with the line's sizes *)
Definition sized m : Prop := (1 <= k_N (m_core m))%nat /\ ds_n (k_disp (m_core m)) = k_n (m_core m) /\ ds_nx (k_disp (m_core m)) = k_N (m_core m).
Lemma sized_step a a' : sized a -> mtl_step a = Ok a' -> sized a'.
Proof.
  intros (H1 & H2 & H3) Ha. pose proof (mtl_step_same a a' H1 Ha) as S. unfold sized.
  rewrite (ss_N _ _ (sl_core _ _ S)), (ss_n _ _ (sl_core _ _ S)), (sd_n _ _ (sl_disp _ _ S)), (sd_nx _ _ (sl_disp _ _ S)). auto.
Qed.

Lemma step_memory a a' : sized a -> mtl_step a = Ok a' -> forall k c, (k < k_N (m_core a))%nat -> (c < k_n (m_core a))%nat ->
  (x <- qdot (k_n (m_core a)) (fun j => qget3 (ds_q1 (k_disp (m_core a))) k c j) (fun j => curr a' j k) ;;
   y <- qdot (k_n (m_core a)) (fun j => qget3 (ds_q2 (k_disp (m_core a))) k c j) (fun j => curr a' j k) ;;
   q <- qdotq (k_n (m_core a)) (fun j => qget3 (ds_q3 (k_disp (m_core a))) k c j) (fun j => memory a k j) ;;
   xy <- bop cadd x y ;; bop cadd xy q) = Ok (memory a' k c).
Proof.
  intros (H1 & H2 & H3) Ha k c Hk Hc.
  destruct (mtl_step_inv a a' H1 Ha) as (vt & idf & it & vd & d1 & d2 & ps & _ & _ & Hd1 & _ & _ & _ & Hd2 & _ & E).
  destruct (update_q3_phi_same _ _ Hd1) as [S1 P1].
  assert (M : memory a' k c = qget2 (ds_phi d2) k c) by (rewrite E; reflexivity).
  rewrite M, <- (phi_row d1 d2 _ _ k c Hd2); [|rewrite (sd_nx _ _ S1); lia|rewrite (sd_n _ _ S1); lia].
  rewrite (sd_n _ _ S1), (sd_q1 _ _ S1), (sd_q2 _ _ S1), (sd_q3 _ _ S1), P1, H2. reflexivity.
Qed.
Lemma step_current a a' : sized a -> mtl_step a = Ok a' ->
  exists it vd, k_lr (m_core a) = Some (it, vd) /\ forall k c, (k < k_N (m_core a))%nat -> (c < k_n (m_core a))%nat ->
  exists w : nat -> N, (forall m : nat, (m < k_n (m_core a))%nat -> exists q, qdotq (k_n (m_core a)) (fun j => qget3 (ds_q3 (k_disp (m_core a))) k m j) (fun j => memory a k j) = Ok q /\ w m = qsum q) /\
  let n := k_n (m_core a) in
  curr a' c k = nsub (nsub (sumn n (fun j => nmul (get3 it k c j) (curr a j k)))
    (sumn n (fun j => nmul (get3 vd k c j)
       (nsub (nadd (nsub (volt a' j (S k)) (volt a' j k)) (nsub (get2 (eT_now (fields a)) j (S k)) (get2 (eT_now (fields a)) j k)))
          (sumn n (fun m : nat => nmul (ndiv (get3 (k_h (m_core a)) k j m) n2) (nadd (get2 (eL_now (fields a)) m k) (get2 (eL_prev (fields a)) m k))))))))
    (sumn n (fun j => nmul (get3 vd k c j) (sumn n (fun m : nat => nmul (get3 (k_h (m_core a)) k j m) (w m))))).
Proof.
  intros (H1 & H2 & H3) Ha.
  destruct (mtl_step_inv a a' H1 Ha) as (vt & idf & it & vd & d1 & d2 & ps & _ & Hlr & Hd1 & _ & _ & Hi & _ & _ & E).
  exists it, vd. split; auto. intros k c Hk Hc. exists (fun m : nat => get2 (ds_q3phi d1) k m). split.
  - intros m Hm. destruct (q3phi_row (k_disp (m_core a)) d1 k m Hd1) as (q & Hq & Eq); [lia|lia|]. exists q. rewrite H2 in Hq. auto.
  - cbv zeta. unfold curr at 1. rewrite Hi. rewrite get2_mk2 by auto. reflexivity.
Qed.
Lemma step_voltage a a' : sized a -> mtl_step a = Ok a' ->
  exists vt idf, k_cg (m_core a) = Some (vt, idf) /\ forall k c, (k <= k_N (m_core a))%nat -> (c < k_n (m_core a))%nat ->
  volt a' c k = next_v a vt idf c k.
Proof.
  intros (H1 & H2 & H3) Ha.
  destruct (mtl_step_inv a a' H1 Ha) as (vt & idf & it & vd & d1 & d2 & ps & Hcg & _ & Hd1 & Hv & _).
  exists vt, idf. split; auto. intros k c Hk Hc. apply Hv; auto.
Qed.

Lemma cone_step a b a' b' lo hi lo' hi' : sized a -> twin a b -> coefs a b -> mtl_step a = Ok a' -> mtl_step b = Ok b' ->
  (hi <= k_N (m_core a))%nat -> agree a b lo hi -> same_field a b lo hi ->
  (lo' = S lo \/ lo' = lo /\ lo = 0%nat /\ same_source a b 0) ->
  (S hi' = hi \/ hi' = hi /\ hi = k_N (m_core a) /\ same_source a b (k_N (m_core a))) ->
  agree a' b' lo' hi'.
Proof.
  intros Sz T [Clr Ccg] Ha Hb Hhi (Av & Ai & Aq) (FT & FL) Hlo' Hhi'.
  assert (Szb : sized b).
  { destruct Sz as (S1 & S2 & S3). unfold sized. rewrite (tw_N _ _ T), (tw_n _ _ T), (sd_n _ _ (tw_disp _ _ T)), (sd_nx _ _ (tw_disp _ _ T)). auto. }
  pose proof (mtl_step_same a a' (proj1 Sz) Ha) as Sa. pose proof (mtl_step_same b b' (proj1 Szb) Hb) as Sb.
  assert (Hn : conductors a' = conductors a) by (unfold conductors; apply (ss_n _ _ (sl_core _ _ Sa))).
  destruct (step_voltage a a' Sz Ha) as (vt & idf & Ecg & Va). destruct (step_voltage b b' Szb Hb) as (vt2 & idf2 & Ecg2 & Vb).
  assert (vt2 = vt /\ idf2 = idf) as [-> ->] by (rewrite Ccg, Ecg in Ecg2; injection Ecg2; auto).
  unfold conductors in *.
  assert (HB1 : lo' = S lo \/ lo' = 0%nat /\ lo = 0%nat) by (destruct Hlo' as [?|(? & ? & _)]; lia).
  assert (HB2 : S hi' = hi \/ hi' = hi /\ hi = k_N (m_core a)) by (destruct Hhi' as [?|(? & ? & _)]; lia).
  assert (HB3 := proj1 Sz).
  assert (V : forall c k, (c < k_n (m_core a))%nat -> (lo' <= k <= hi')%nat -> volt a' c k = volt b' c k).
  { intros c k Hc Hk. rewrite Va, Vb by (rewrite ?(tw_N _ _ T), ?(tw_n _ _ T); lia). unfold next_v. rewrite (tw_N _ _ T).
    destruct (Nat.eqb_spec k 0) as [->|Hk0].
    - destruct Hlo' as [?|(? & ? & Hs)]; [lia|]. symmetry. apply left_local; auto.
      + intros j Hj. rewrite Av, Ai by lia. auto.
      + intros j t Hj. rewrite (FT j 0%nat t), (Hs j t Hj) by lia. auto.
    - destruct (Nat.eqb_spec k (k_N (m_core a))) as [->|Hk1].
      + destruct Hhi' as [?|(? & ? & Hs)]; [lia|]. symmetry. apply right_local; auto.
        * intros j Hj. rewrite Av, Ai by lia. auto.
        * intros j t Hj. rewrite (FT j _ t), (Hs j t Hj) by lia. auto.
      + symmetry. apply interior_local; auto.
        * intros j Hj. rewrite Av by lia. rewrite (Ai j k), (Ai j (k - 1)%nat) by lia. auto.
        * intros j t Hj. rewrite FT by lia. auto. }
  assert (I : forall c k, (c < k_n (m_core a))%nat -> (lo' <= k < hi')%nat -> curr a' c k = curr b' c k).
  { intros c k Hc Hk. destruct (step_current a a' Sz Ha) as (it & vd & Elr & Ca). destruct (step_current b b' Szb Hb) as (it2 & vd2 & Elr2 & Cb).
    assert (it2 = it /\ vd2 = vd) as [-> ->] by (rewrite Clr, Elr in Elr2; injection Elr2; auto).
    destruct (Ca k c) as (w & Hw & ->); [lia|lia|]. destruct (Cb k c) as (w2 & Hw2 & ->); [rewrite (tw_N _ _ T); lia|rewrite (tw_n _ _ T); lia|].
    cbv zeta. rewrite (tw_n _ _ T) in *. rewrite (tw_h _ _ T).
    assert (W : forall m : nat, (m < k_n (m_core a))%nat -> w2 m = w m).
    { intros m Hm. destruct (Hw m Hm) as (q & Hq & ->). destruct (Hw2 m Hm) as (q2 & Hq2 & ->).
      rewrite (qdotq_ext _ _ (fun j => qget3 (ds_q3 (k_disp (m_core a))) k m j) _ (fun j => memory a k j)) in Hq2; [congruence|].
      intros j Hj. rewrite (sd_q3 _ _ (tw_disp _ _ T)), Aq by lia. auto. }
    f_equal; [f_equal|].
    - apply sumn_ext; intros j Hj. rewrite Ai by lia. auto.
    - apply sumn_ext; intros j Hj. rewrite !V, !eT_now_get, (tw_time _ _ T), !FT by lia. f_equal. f_equal.
      apply sumn_ext; intros m Hm. rewrite !eL_now_get, !eL_prev_get, (tw_time _ _ T), (tw_dt _ _ T), !FL by lia. auto.
    - apply sumn_ext; intros j Hj. f_equal. apply sumn_ext; intros m Hm. rewrite W by auto. auto. }
  split; [|split]; rewrite ?Hn; unfold conductors; auto.
  - intros c k Hc Hk. rewrite Hn in Hc. auto.
  - intros c k Hc Hk. rewrite Hn in Hc. auto.
  - intros c k Hc Hk. rewrite Hn in Hc.
    pose proof (step_memory a a' Sz Ha k c ltac:(lia) Hc) as Ma.
    pose proof (step_memory b b' Szb Hb k c ltac:(rewrite (tw_N _ _ T); lia) ltac:(rewrite (tw_n _ _ T); lia)) as Mb.
    rewrite (tw_n _ _ T), (sd_q1 _ _ (tw_disp _ _ T)), (sd_q2 _ _ (tw_disp _ _ T)), (sd_q3 _ _ (tw_disp _ _ T)) in Mb.
    rewrite (qdot_ext _ (fun j => qget3 (ds_q1 (k_disp (m_core a))) k c j) (fun j => qget3 (ds_q1 (k_disp (m_core a))) k c j) _ (fun j => curr a' j k)) in Mb
      by (intros j Hj; rewrite I by lia; auto).
    rewrite (qdot_ext _ (fun j => qget3 (ds_q2 (k_disp (m_core a))) k c j) (fun j => qget3 (ds_q2 (k_disp (m_core a))) k c j) _ (fun j => curr a' j k)) in Mb
      by (intros j Hj; rewrite I by lia; auto).
    rewrite (qdotq_ext _ (fun j => qget3 (ds_q3 (k_disp (m_core a))) k c j) (fun j => qget3 (ds_q3 (k_disp (m_core a))) k c j) _ (fun j => memory a k j)) in Mb
      by (intros j Hj; rewrite Aq by lia; auto).
    rewrite Ma in Mb. congruence.
Qed.

Lemma cone_steps n : forall a b a' b' lo hi lo' hi', sized a -> twin a b -> coefs a b -> iterM n mtl_step a = Ok a' -> iterM n mtl_step b = Ok b' ->
  (hi <= k_N (m_core a))%nat -> agree a b lo hi -> same_field a b lo hi ->
  (lo' = (lo + n)%nat \/ lo' = lo /\ lo = 0%nat /\ same_source a b 0) ->
  ((hi' + n)%nat = hi \/ hi' = hi /\ hi = k_N (m_core a) /\ same_source a b (k_N (m_core a))) ->
  agree a' b' lo' hi'.
Proof.
  induction n as [|n IH]; intros a b a' b' lo hi lo' hi' Sz T C Ha Hb Hhi A F Hlo' Hhi'; cbn [iterM] in Ha, Hb.
  - injection Ha as <-. injection Hb as <-. replace lo' with lo by lia. replace hi' with hi by lia. exact A.
  - inv_bind Ha. rename a0 into a1. inv_bind Hb. rename a0 into b1.
    pose proof (sized_step _ _ Sz Ha0) as Sz1. destruct (twin_step a b a1 b1 (proj1 Sz) T C Ha0 Ha1) as [T1 C1].
    pose proof (mtl_step_same a a1 (proj1 Sz) Ha0) as Sa.
    assert (Szb : (1 <= k_N (m_core b))%nat) by (rewrite (tw_N _ _ T); apply Sz).
    pose proof (mtl_step_same b b1 Szb Ha1) as Sb.
    assert (Src : forall k, same_source a b k -> same_source a1 b1 k).
    { intros k H c t Hc. unfold source. rewrite (sl_vsrc _ _ Sa), (sl_vsrc _ _ Sb). apply H. unfold conductors in *. rewrite (ss_n _ _ (sl_core _ _ Sa)) in Hc. exact Hc. }
    assert (Fld : forall l h, same_field a b l h -> same_field a1 b1 l h).
    { intros l h (H1 & H2). unfold same_field, eTran, eLong, conductors. rewrite (ss_n _ _ (sl_core _ _ Sa)), (ss_eT _ _ (sl_core _ _ Sa)), (ss_eL _ _ (sl_core _ _ Sa)), (ss_eT _ _ (sl_core _ _ Sb)), (ss_eL _ _ (sl_core _ _ Sb)). split; auto. }
    assert (L1 : exists l1, (l1 = S lo \/ l1 = lo /\ lo = 0%nat /\ same_source a b 0) /\ (lo' = (l1 + n)%nat \/ lo' = l1 /\ l1 = 0%nat /\ same_source a1 b1 0) /\ (lo <= l1)%nat).
    { destruct Hlo' as [->|(-> & -> & Hs)]; [exists (S lo)|exists 0%nat]; [repeat split; auto; left; lia|]. split; [auto|]. split; auto. }
    assert (H1 : hi = 0%nat /\ (lo' > hi' \/ True)%nat \/ exists h1, (S h1 = hi \/ h1 = hi /\ hi = k_N (m_core a) /\ same_source a b (k_N (m_core a))) /\
       ((hi' + n)%nat = h1 \/ hi' = h1 /\ h1 = k_N (m_core a1) /\ same_source a1 b1 (k_N (m_core a1))) /\ (h1 <= hi)%nat).
    { destruct Hhi' as [E|(-> & E & Hs)].
      - right. exists (hi - 1)%nat. split; [left; lia|]. split; [left; lia|lia].
      - right. exists hi. split; auto. split; auto. right. rewrite (ss_N _ _ (sl_core _ _ Sa)). auto. }
    destruct L1 as (l1 & L1 & L2 & L3). destruct H1 as [[E _]|(h1 & H1 & H2 & H3)].
    { exfalso. destruct Hhi' as [E'|(_ & E' & _)]; [lia|]. destruct Sz. lia. }
    apply (IH a1 b1 a' b' l1 h1 lo' hi'); auto.
    + rewrite (ss_N _ _ (sl_core _ _ Sa)). lia.
    + exact (cone_step a b a1 b1 lo hi l1 h1 Sz T C Ha0 Ha1 Hhi A F L1 H1).
    + apply Fld. destruct F as [F1 F2]. split; intros c k t Hc Hk; [apply F1|apply F2]; auto; lia.
Qed.

Lemma cone_run m (x y : inputs N) T n a b lo hi lo' hi' : reachable LA m -> (hi <= cells m)%nat ->
  agree (with_inputs m x) (with_inputs m y) lo hi -> same_field (with_inputs m x) (with_inputs m y) lo hi ->
  (lo' = (lo + n)%nat \/ lo' = 0%nat /\ lo = 0%nat /\ same_source (with_inputs m x) (with_inputs m y) 0) ->
  ((hi' + n)%nat = hi \/ hi' = hi /\ hi = cells m /\ same_source (with_inputs m x) (with_inputs m y) (cells m)) ->
  run_state LA (with_inputs m x) T n a -> run_state LA (with_inputs m y) T n b ->
  agree a b lo' hi'.
Proof.
  intros R Hhi A F L H (s1 & pa & Ht1 & Hs1 & Hp1 & Hi1) (s2 & pb & Ht2 & Hs2 & Hp2 & Hi2).
  assert (s2 = s1) by (change (k_dt (m_core (with_inputs m y))) with (k_dt (m_core (with_inputs m x))) in Ht2; congruence). subst s2.
  destruct (twin_prepare _ _ _ _ _ (with_inputs_twin m x y) Hp1 Hp2) as (T1 & C1 & I1 & I2).
  pose proof (reachable_shape _ _ R) as Sh.
  apply prepare_inv in Hp1 as (u1 & u2 & _ & Ea). apply prepare_inv in Hp2 as (u3 & u4 & _ & Eb).
  apply (cone_steps n pa pb a b lo hi lo' hi'); auto.
  - rewrite Ea. split; [apply (sh_N _ Sh)|split; [apply (sh_dn _ Sh)|apply (sh_dx _ Sh)]].
  - rewrite Ea. exact Hhi.
  - rewrite Ea, Eb. exact A.
  - rewrite Ea, Eb. exact F.
  - destruct L as [L|(L1 & L2 & L3)]; [now left|]. right. rewrite Ea, Eb. split; [congruence|]. split; auto.
  - destruct H as [H|(H1 & H2 & H3)]; [now left|]. right. rewrite Ea, Eb. split; [auto|]. split; auto.
Qed.
End Cone.
