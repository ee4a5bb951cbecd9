(** A stretch of a line cannot know at once what lies outside it.  No numeric law. *)
From Coq Require Import String List Arith ZArith Bool Lia.
From Verif Require Import Num Py Arr ArrFacts Utils Probes Dispersive DispFacts Line LineFacts Bundle BundleFacts Networks Mtln SpecLine SpecBundle SpecNet SpecMtln HistoryFacts NetFacts NetPlace MtlnFacts MtlnProps ConeFacts SpecStretch.
Import ListNotations.

Section Stretch.
Context {N : num}.
Variable LA : lapack N.
Implicit Types (s t : core N) (a b : bundle N) (x y : mtln N).

Lemma unOk {A} (u v : A) : Ok u = Ok v -> v = u.
Proof. intros H. injection H. auto. Qed.
Lemma qsum3_in (t : list (list (list (qe N)))) nx n k i j : cube nx n t -> (k < nx)%nat -> (i < n)%nat -> (j < n)%nat -> get3 (qsum3 t) k i j = qsum (qget3 t k i j).
Proof.
  intros [L C] Hk Hi Hj. destruct (C k Hk) as [L1 C1]. specialize (C1 i Hi).
  unfold get3, getm, qsum3, get2, get, qget3, qget2.
  rewrite (nth_indep (map (map (map qsum)) t) [] (map (map qsum) [])) by (rewrite map_length; lia). rewrite map_nth.
  rewrite (nth_indep (map (map qsum) (nth k t [])) [] (map qsum [])) by (rewrite map_length; lia). rewrite map_nth.
  rewrite (nth_indep (map qsum (nth i (nth k t []) [])) n0 (qsum qzero)) by (rewrite map_length; lia). now rewrite map_nth.
Qed.

(** matrices computed entry by entry *)
Lemma mm_same n (A B A' B' : mat N) : (forall i j, (i < n)%nat -> (j < n)%nat -> get2 A' i j = get2 A i j) -> (forall i j, (i < n)%nat -> (j < n)%nat -> get2 B' i j = get2 B i j) ->
  mm n A' B' = mm n A B.
Proof. intros HA HB. unfold mm, mk2. apply mk_ext. intros i Hi. apply mk_ext. intros j Hj. apply sumn_ext. intros k Hk. now rewrite HA, HB. Qed.
Definition eqm n (A A' : mat N) : Prop := forall i j, (i < n)%nat -> (j < n)%nat -> get2 A' i j = get2 A i j.
Lemma eqm_zip f n (A B A' B' : mat N) : eqm n A A' -> eqm n B B' -> eqm n (mzip f n A B) (mzip f n A' B').
Proof. intros HA HB i j Hi Hj. unfold mzip. rewrite !get2_mk2 by auto. now rewrite HA, HB. Qed.
Lemma eqm_map f n (A A' : mat N) : eqm n A A' -> eqm n (mmap f n A) (mmap f n A').
Proof. intros HA i j Hi Hj. unfold mmap. rewrite !get2_mk2 by auto. now rewrite HA. Qed.

(** what a run reads of the tables *)
Record tables s t (d lo hi : nat) : Prop := {
  tb_n : k_n t = k_n s; tb_a : (hi <= k_N s)%nat; tb_b : (hi + d <= k_N t)%nat;
  tb_dn : ds_n (k_disp s) = k_n s; tb_dx : ds_nx (k_disp s) = k_N s; tb_dn' : ds_n (k_disp t) = k_n t; tb_dx' : ds_nx (k_disp t) = k_N t;
  tb_h : forall k i j, (lo <= k < hi)%nat -> (i < k_n s)%nat -> (j < k_n s)%nat -> get3 (k_h t) (k + d) i j = get3 (k_h s) k i j;
  tb_q : forall k i j, (lo <= k < hi)%nat -> (i < k_n s)%nat -> (j < k_n s)%nat ->
    qget3 (ds_q1 (k_disp t)) (k + d) i j = qget3 (ds_q1 (k_disp s)) k i j /\ qget3 (ds_q2 (k_disp t)) (k + d) i j = qget3 (ds_q2 (k_disp s)) k i j /\
    qget3 (ds_q3 (k_disp t)) (k + d) i j = qget3 (ds_q3 (k_disp s)) k i j;
  tb_L : forall k c u, (lo <= k < hi)%nat -> (c < k_n s)%nat -> nth (k + d) (nth c (k_eL t) []) (fun _ => n0) u = nth k (nth c (k_eL s) []) (fun _ => n0) u;
  tb_T : forall k c u, (lo <= k <= hi)%nat -> (c < k_n s)%nat -> nth (k + d) (nth c (k_eT t) []) (fun _ => n0) u = nth k (nth c (k_eT s) []) (fun _ => n0) u;
  tb_cg : exists vt idf vt' idf', k_cg s = Some (vt, idf) /\ k_cg t = Some (vt', idf') /\ forall k i j, (lo < k < hi)%nat -> (i < k_n s)%nat -> (j < k_n s)%nat ->
    get3 vt' (k + d) i j = get3 vt k i j /\ get3 idf' (k + d) i j = get3 idf k i j;
  tb_lr : exists it vd it' vd', k_lr s = Some (it, vd) /\ k_lr t = Some (it', vd') /\ forall k i j, (lo <= k < hi)%nat -> (i < k_n s)%nat -> (j < k_n s)%nat ->
    get3 it' (k + d) i j = get3 it k i j /\ get3 vd' (k + d) i j = get3 vd k i j
}.
Record moving s t (d lo hi : nat) : Prop := {
  mv_v : forall k c, (lo <= k <= hi)%nat -> (c < k_n s)%nat -> get2 (k_v t) c (k + d) = get2 (k_v s) c k;
  mv_i : forall k c, (lo <= k < hi)%nat -> (c < k_n s)%nat -> get2 (k_i t) c (k + d) = get2 (k_i s) c k;
  mv_q : forall k c, (lo <= k < hi)%nat -> (c < k_n s)%nat -> qget2 (ds_phi (k_disp t)) (k + d) c = qget2 (ds_phi (k_disp s)) k c
}.
Lemma tables_less s t d lo hi lo' hi' : tables s t d lo hi -> (lo <= lo')%nat -> (hi' <= hi)%nat -> tables s t d lo' hi'.
Proof.
  intros [n a b dn dx dn' dx' h q L T (vt & idf & vt' & idf' & C1 & C2 & C) (it & vd & it' & vd' & R1 & R2 & R)] Hl Hh. split; auto; try lia.
  - intros; apply h; auto; lia.
  - intros; apply q; auto; lia.
  - intros; apply L; auto; lia.
  - intros; apply T; auto; lia.
  - exists vt, idf, vt', idf'. repeat (split; [assumption|]). intros; apply C; auto; lia.
  - exists it, vd, it', vd'. repeat (split; [assumption|]). intros; apply R; auto; lia.
Qed.
(** the tables do not change *)
Record holds s s' : Prop := {
  hd_n : k_n s' = k_n s; hd_N : k_N s' = k_N s; hd_h : k_h s' = k_h s; hd_L : k_eL s' = k_eL s; hd_T : k_eT s' = k_eT s;
  hd_cg : k_cg s' = k_cg s; hd_lr : k_lr s' = k_lr s; hd_d : same_disp (k_disp s) (k_disp s')
}.
Lemma tables_hold s t s' t' d lo hi : holds s s' -> holds t t' -> tables s t d lo hi -> tables s' t' d lo hi.
Proof.
  intros A B T. pose proof (hd_d _ _ A) as DA. pose proof (hd_d _ _ B) as DB. destruct A as [a1 a2 a3 a4 a5 a6 a7 _], B as [b1 b2 b3 b4 b5 b6 b7 _], T as [n a b dn dx dn' dx' h q L F C R].
  destruct DA, DB. split; rewrite ?a1, ?a2, ?a3, ?a4, ?a5, ?a6, ?a7, ?b1, ?b2, ?b3, ?b4, ?b5, ?b6, ?b7; auto; try congruence.
  intros k i j Hk Hi Hj. destruct (q k i j Hk Hi Hj) as (q1 & q2 & q3). repeat split; congruence.
Qed.

(** the two halves of a step *)
Lemma volt_inv s f s' : advance_voltage s f = Ok s' -> holds s s' /\ k_i s' = k_i s /\ k_disp s' = k_disp s /\
  exists vt idf, k_cg s = Some (vt, idf) /\ forall c k, (c < k_n s)%nat -> (0 < k < k_N s)%nat -> get2 (k_v s') c k = interior_voltage s f vt idf c k.
Proof.
  unfold advance_voltage. destruct (k_cg s) as [[vt idf]|] eqn:E; [|discriminate]. intros H. apply unOk in H. subst s'.
  split; [split; cbn; auto; split; auto|]. do 2 (split; [reflexivity|]). exists vt, idf. split; [reflexivity|]. intros c k Hc Hk. cbn [set_v k_v].
  rewrite get2_mk2 by lia. destruct (Nat.ltb_spec 0 k); [|lia]. destruct (Nat.ltb_spec k (k_N s)); [|lia]. reflexivity.
Qed.
Lemma curr_inv s f s' : advance_current s f = Ok s' -> ds_n (k_disp s) = k_n s -> ds_nx (k_disp s) = k_N s -> holds s s' /\ k_v s' = k_v s /\
  exists it vd, k_lr s = Some (it, vd) /\ forall k c, (k < k_N s)%nat -> (c < k_n s)%nat ->
  (exists w : nat -> N, (forall m : nat, (m < k_n s)%nat -> exists q, qdotq (k_n s) (fun j => qget3 (ds_q3 (k_disp s)) k m j) (fun j => qget2 (ds_phi (k_disp s)) k j) = Ok q /\ w m = qsum q) /\
    let n := k_n s in
    get2 (k_i s') c k = nsub (nsub (sumn n (fun j => nmul (get3 it k c j) (get2 (k_i s) j k)))
    (sumn n (fun j => nmul (get3 vd k c j)
       (nsub (nadd (nsub (get2 (k_v s) j (S k)) (get2 (k_v s) j k)) (nsub (get2 (eT_now f) j (S k)) (get2 (eT_now f) j k)))
          (sumn n (fun m : nat => nmul (ndiv (get3 (k_h s) k j m) n2) (nadd (get2 (eL_now f) m k) (get2 (eL_prev f) m k))))))))
    (sumn n (fun j => nmul (get3 vd k c j) (sumn n (fun m : nat => nmul (get3 (k_h s) k j m) (w m)))))) /\
  (x <- qdot (k_n s) (fun j => qget3 (ds_q1 (k_disp s)) k c j) (fun j => get2 (k_i s') j k) ;;
   y <- qdot (k_n s) (fun j => qget3 (ds_q2 (k_disp s)) k c j) (fun j => get2 (k_i s') j k) ;;
   q <- qdotq (k_n s) (fun j => qget3 (ds_q3 (k_disp s)) k c j) (fun j => qget2 (ds_phi (k_disp s)) k j) ;;
   xy <- bop cadd x y ;; bop cadd xy q) = Ok (qget2 (ds_phi (k_disp s')) k c).
Proof.
  intros H Hn Hx. unfold advance_current in H. inv_bind H. rename a into d1. destruct (k_lr s) as [[it vd]|] eqn:E; [|discriminate H]. inv_bind H. rename a into d2.
  apply unOk in H. destruct (update_q3_phi_same _ _ Ha) as [S1 P1]. destruct (update_phi_same _ _ _ _ Ha0) as [S2 _].
  assert (Hh : holds s s') by (subst s'; split; cbn; auto; eapply same_disp_trans; eauto).
  split; [exact Hh|]. split; [now subst s'|]. exists it, vd. split; [reflexivity|]. intros k c Hk Hc. split.
  - exists (fun m : nat => get2 (ds_q3phi d1) k m). split.
    + intros m Hm. destruct (q3phi_row (k_disp s) d1 k m Ha) as (q & Hq & Eq); [lia|lia|]. exists q. rewrite Hn in Hq. auto.
    + cbv zeta. subst s'. cbn [set_i_disp k_i]. rewrite get2_mk2 by auto. reflexivity.
  - pose proof (phi_row d1 d2 _ _ k c Ha0 ltac:(rewrite (sd_nx _ _ S1); lia) ltac:(rewrite (sd_n _ _ S1); lia)) as Q.
    rewrite (sd_n _ _ S1), (sd_q1 _ _ S1), (sd_q2 _ _ S1), (sd_q3 _ _ S1), P1, Hn in Q. subst s'. cbn [set_i_disp k_i k_disp]. exact Q.
Qed.

Lemma half_volt s t s' t' time dt d lo hi : tables s t d lo hi -> moving s t d lo hi ->
  advance_voltage s (eval_fields (k_eL s) (k_eT s) time dt) = Ok s' -> advance_voltage t (eval_fields (k_eL t) (k_eT t) time dt) = Ok t' ->
  tables s' t' d lo hi /\ (forall k c, (lo < k < hi)%nat -> (c < k_n s)%nat -> get2 (k_v t') c (k + d) = get2 (k_v s') c k) /\
  k_n s' = k_n s /\ k_i s' = k_i s /\ k_i t' = k_i t /\ k_disp s' = k_disp s /\ k_disp t' = k_disp t.
Proof.
  intros T W Hs Ht. destruct (volt_inv _ _ _ Hs) as (A & A1 & A2 & vt & idf & C1 & V). destruct (volt_inv _ _ _ Ht) as (B & B1 & B2 & vt' & idf' & C2 & V').
  split; [exact (tables_hold _ _ _ _ _ _ _ A B T)|]. split; [|repeat split; auto; apply (hd_n _ _ A)].
  pose proof (tb_a _ _ _ _ _ T) as Ba. pose proof (tb_b _ _ _ _ _ T) as Bb. pose proof (tb_n _ _ _ _ _ T) as En.
  destruct (tb_cg _ _ _ _ _ T) as (? & ? & ? & ? & E1 & E2 & G). rewrite C1 in E1. rewrite C2 in E2. injection E1 as <- <-. injection E2 as <- <-.
  intros k c Hk Hc. rewrite V, V' by lia. unfold interior_voltage, eval_fields. cbn [eT_now eT_prev]. rewrite En, !eval_get, !(tb_T _ _ _ _ _ T) by (auto; lia).
  f_equal. replace (k + d - 1)%nat with (k - 1 + d)%nat by lia.
  f_equal; apply sumn_ext; intros j Hj; destruct (G k c j Hk Hc Hj) as [Gv Gi]; rewrite ?Gv, ?Gi.
  - rewrite (mv_v _ _ _ _ _ W) by (auto; lia). reflexivity.
  - rewrite !(mv_i _ _ _ _ _ W) by (auto; lia). reflexivity.
Qed.
Lemma half_curr s t s' t' time dt d lo hi : tables s t d lo hi -> moving s t d lo hi ->
  advance_current s (eval_fields (k_eL s) (k_eT s) time dt) = Ok s' -> advance_current t (eval_fields (k_eL t) (k_eT t) time dt) = Ok t' ->
  tables s' t' d lo hi /\ moving s' t' d lo hi.
Proof.
  intros T W Hs Ht. destruct (curr_inv _ _ _ Hs (tb_dn _ _ _ _ _ T) (tb_dx _ _ _ _ _ T)) as (A & A1 & it & vd & C1 & F).
  destruct (curr_inv _ _ _ Ht (tb_dn' _ _ _ _ _ T) (tb_dx' _ _ _ _ _ T)) as (B & B1 & it' & vd' & C2 & G).
  split; [exact (tables_hold _ _ _ _ _ _ _ A B T)|].
  pose proof (tb_a _ _ _ _ _ T) as Ba. pose proof (tb_b _ _ _ _ _ T) as Bb. pose proof (tb_n _ _ _ _ _ T) as En.
  destruct (tb_lr _ _ _ _ _ T) as (? & ? & ? & ? & E1 & E2 & Lr). rewrite C1 in E1. rewrite C2 in E2. injection E1 as <- <-. injection E2 as <- <-.
  assert (I : forall k c, (lo <= k < hi)%nat -> (c < k_n s)%nat -> get2 (k_i t') c (k + d) = get2 (k_i s') c k).
  { intros k c Hk Hc. destruct (F k c ltac:(lia) Hc) as [(w & Hw & ->) _]. destruct (G (k + d)%nat c ltac:(lia) ltac:(lia)) as [(w2 & Hw2 & ->) _].
    cbv zeta. rewrite En in *. unfold eval_fields. cbn [eT_now eL_now eL_prev].
    assert (Wm : forall m : nat, (m < k_n s)%nat -> w2 m = w m).
    { intros m Hm. destruct (Hw m Hm) as (q & Hq & ->). destruct (Hw2 m Hm) as (q2 & Hq2 & ->).
      rewrite (qdotq_ext _ _ (fun j => qget3 (ds_q3 (k_disp s)) k m j) _ (fun j => qget2 (ds_phi (k_disp s)) k j)) in Hq2; [congruence|].
      intros j Hj. destruct (tb_q _ _ _ _ _ T k m j Hk Hm Hj) as (_ & _ & ->). rewrite (mv_q _ _ _ _ _ W) by auto. auto. }
    replace (S (k + d)) with (S k + d)%nat by lia.
    f_equal; [f_equal|].
    - apply sumn_ext; intros j Hj. destruct (Lr k c j Hk Hc Hj) as [-> _]. rewrite (mv_i _ _ _ _ _ W) by (auto; lia). reflexivity.
    - apply sumn_ext; intros j Hj. destruct (Lr k c j Hk Hc Hj) as [_ ->]. rewrite !(mv_v _ _ _ _ _ W), !eval_get, !(tb_T _ _ _ _ _ T) by (auto; lia). f_equal. f_equal.
      apply sumn_ext; intros m Hm. rewrite !eval_get, !(tb_L _ _ _ _ _ T), (tb_h _ _ _ _ _ T) by (auto; lia). reflexivity.
    - apply sumn_ext; intros j Hj. destruct (Lr k c j Hk Hc Hj) as [_ ->]. f_equal. apply sumn_ext; intros m Hm. rewrite Wm, (tb_h _ _ _ _ _ T) by auto. reflexivity. }
  split; rewrite ?(hd_n _ _ A).
  - intros k c Hk Hc. rewrite A1, B1. now apply (mv_v _ _ _ _ _ W).
  - exact I.
  - intros k c Hk Hc. destruct (F k c ltac:(lia) Hc) as [_ Q]. destruct (G (k + d)%nat c ltac:(lia) ltac:(lia)) as [_ Q2]. rewrite En in Q2.
    rewrite (qdot_ext _ (fun j => qget3 (ds_q1 (k_disp t)) (k + d) c j) (fun j => qget3 (ds_q1 (k_disp s)) k c j) _ (fun j => get2 (k_i s') j k)) in Q2
      by (intros j Hj; rewrite I by auto; destruct (tb_q _ _ _ _ _ T k c j Hk Hc Hj) as (-> & _); auto).
    rewrite (qdot_ext _ (fun j => qget3 (ds_q2 (k_disp t)) (k + d) c j) (fun j => qget3 (ds_q2 (k_disp s)) k c j) _ (fun j => get2 (k_i s') j k)) in Q2
      by (intros j Hj; rewrite I by auto; destruct (tb_q _ _ _ _ _ T k c j Hk Hc Hj) as (_ & -> & _); auto).
    rewrite (qdotq_ext _ (fun j => qget3 (ds_q3 (k_disp t)) (k + d) c j) (fun j => qget3 (ds_q3 (k_disp s)) k c j) _ (fun j => qget2 (ds_phi (k_disp s)) k j)) in Q2
      by (intros j Hj; rewrite (mv_q _ _ _ _ _ W) by auto; destruct (tb_q _ _ _ _ _ T k c j Hk Hc Hj) as (_ & _ & ->); auto).
    rewrite Q in Q2. congruence.
Qed.

(** one step of a network of lines, seen from the inside of a bundle *)
Lemma inside x y name b : ninv LA x -> mtln_step LA x = Ok y -> bundle_of x name = Some b ->
  exists b1 b2 b3 b', bundle_advance_voltage (t_time x) (t_dt x) b = Ok b1 /\ only_voltages b1 b2 /\
    (forall r k, (0 < k < b_cells b)%nat -> b_volt b2 r k = b_volt b1 r k) /\
    bundle_advance_current (t_time x) (t_dt x) b2 = Ok b3 /\ b_core b' = b_core b3 /\ bundle_of y name = Some b'.
Proof.
  intros I H Hb. destruct (bundle_in LA x name b I Hb) as [Rb _]. pose proof (reachable_vgrid LA b Rb) as Gb.
  apply step_split in H as (bs1 & ws & bs2 & bs3 & [H1 H2 H3 H4 H5 H6 H7 H8]).
  destruct (map_bundles_get _ _ _ _ _ H1 Hb) as (b1 & V & G1).
  assert (Gr : vgrid b1) by (apply (marches_vgrid LA b); [exact Gb|]; eapply ma_volt; [constructor|exact V]).
  assert (Ec : b_cells b1 = b_cells b).
  { pose proof V as V'. unfold bundle_advance_voltage in V'. inv_bind V'. apply unOk in V'. subst b1. apply volt_inv in Ha as (A & _). exact (hd_N _ _ A). }
  destruct (proj2 (put_all_val _ _ _ H3) _ _ G1 Gr) as (b2 & G2 & O & _ & Vals).
  destruct (map_bundles_get _ _ _ _ _ H4 G2) as (b3 & C & G3). destruct (map_bundles_get _ _ _ _ _ H6 G3) as (b' & U & G4).
  exists b1, b2, b3, b'. split; [exact V|]. split; [exact O|]. split; [|split; [exact C|]; split; [exact (probes_core _ _ _ U)|exact G4]].
  intros r k Hk. rewrite Vals. generalize (puts ws). intros l. generalize (b_volt b1 r k). induction l as [|nv l IH]; intros v; cbn [fold_left]; [reflexivity|].
  rewrite IH. replace (hits b1 name (fst nv) r k) with false; [reflexivity|]. symmetry. unfold hits. rewrite Ec.
  destruct (nd_end (fst nv)); [destruct (Nat.eqb_spec (b_cells b) k)|destruct (Nat.eqb_spec 0 k)]; try lia; apply andb_false_r.
Qed.
Definition along a b d lo hi : Prop := tables (b_core a) (b_core b) d lo hi /\ moving (b_core a) (b_core b) d lo hi.
Lemma along_step x y x' y' na nb a b d lo hi : ninv LA x -> ninv LA y -> mtln_step LA x = Ok x' -> mtln_step LA y = Ok y' ->
  bundle_of x na = Some a -> bundle_of y nb = Some b -> t_time y = t_time x -> t_dt y = t_dt x -> along a b d lo hi ->
  exists a' b', bundle_of x' na = Some a' /\ bundle_of y' nb = Some b' /\ along a' b' d (S lo) (hi - 1).
Proof.
  intros Ix Iy Hx Hy Ha Hb Et Ed [T W]. destruct (inside x x' na a Ix Hx Ha) as (a1 & a2 & a3 & a' & A1 & (va & A2) & A3 & A4 & A5 & A6).
  destruct (inside y y' nb b Iy Hy Hb) as (b1 & b2 & b3 & b' & B1 & (vb & B2) & B3 & B4 & B5 & B6). rewrite Et, Ed in B1, B4.
  exists a', b'. do 2 (split; [assumption|]). unfold along. rewrite A5, B5.
  unfold bundle_advance_voltage in A1, B1. inv_bind A1. rename a0 into s1. apply unOk in A1. inv_bind B1. rename a0 into t1. apply unOk in B1.
  destruct (half_volt _ _ _ _ _ _ _ _ _ T W Ha0 Ha1) as (T1 & V1 & N1 & I1 & I2 & D1 & D2).
  unfold bundle_advance_current in A4, B4. inv_bind A4. rename a0 into s3. apply unOk in A4. inv_bind B4. rename a0 into t3. apply unOk in B4.
  assert (Ca : b_core a2 = set_v s1 va) by (rewrite A2, A1; reflexivity). assert (Cb : b_core b2 = set_v t1 vb) by (rewrite B2, B1; reflexivity).
  replace (b_core a3) with s3 by (rewrite A4; reflexivity). replace (b_core b3) with t3 by (rewrite B4; reflexivity).
  pose proof (tb_a _ _ _ _ _ T) as Ba. pose proof (tb_b _ _ _ _ _ T) as Bb. pose proof (tb_n _ _ _ _ _ T) as En.
  refine (half_curr _ _ _ _ _ _ _ _ _ _ _ Ha2 Ha3).
  - apply (tables_less _ _ _ lo hi); [|lia|lia]. rewrite Ca, Cb. apply (tables_hold s1 t1); [| |exact T1]; split; cbn; auto; split; auto.
  - rewrite Ca, Cb. split; cbn [set_v k_n k_v k_i k_disp]; rewrite ?N1, ?I1, ?I2, ?D1, ?D2.
    + intros k c Hk Hc. specialize (A3 c k). specialize (B3 c (k + d)%nat). unfold b_volt in A3, B3. rewrite Ca in A3. rewrite Cb in B3. cbn [set_v k_v] in A3, B3.
      rewrite A3, B3 by (unfold b_cells; lia). rewrite A1, B1. cbn [b_set_core b_set b_core]. apply V1; lia.
    + intros k c Hk Hc. apply (mv_i _ _ _ _ _ W); auto; lia.
    + intros k c Hk Hc. apply (mv_q _ _ _ _ _ W); auto; lia.
Qed.
Lemma along_steps n : forall x y x' y' na nb a b d lo hi, ninv LA x -> ninv LA y -> iterM n (mtln_step LA) x = Ok x' -> iterM n (mtln_step LA) y = Ok y' ->
  bundle_of x na = Some a -> bundle_of y nb = Some b -> t_time y = t_time x -> t_dt y = t_dt x -> along a b d lo hi ->
  exists a' b', bundle_of x' na = Some a' /\ bundle_of y' nb = Some b' /\ along a' b' d (lo + n) (hi - n).
Proof.
  induction n as [|n IH]; intros x y x' y' na nb a b d lo hi Ix Iy Hx Hy Ha Hb Et Ed A; cbn [iterM] in Hx, Hy.
  - apply unOk in Hx. apply unOk in Hy. subst x' y'. exists a, b. rewrite Nat.add_0_r, Nat.sub_0_r. auto.
  - inv_bind Hx. rename a0 into x1. inv_bind Hy. rename a0 into y1.
    destruct (along_step _ _ _ _ _ _ _ _ _ _ _ Ix Iy Ha0 Ha1 Ha Hb Et Ed A) as (a1 & b1 & G1 & G2 & A1).
    destruct (step_clock LA _ _ Ha0) as [C1 C2]. destruct (step_clock LA _ _ Ha1) as [C3 C4].
    replace (lo + S n)%nat with (S lo + n)%nat by lia. replace (hi - S n)%nat with (hi - 1 - n)%nat by lia.
    pose proof (ninv_step LA _ _ Ix Ha0) as I1. pose proof (ninv_step LA _ _ Iy Ha1) as I2.
    assert (E1 : t_time y1 = t_time x1) by congruence. assert (E2 : t_dt y1 = t_dt x1) by congruence.
    exact (IH x1 y1 x' y' na nb a1 b1 d (S lo) (hi - 1)%nat I1 I2 Hx Hy G1 G2 E1 E2 A1).
Qed.

(** the coefficients of a cell are computed from that cell, those of a node from its two cells *)
Lemma terms_lr s s' : update_lr_terms LA s = Ok s' -> exists it vd, s' = set_lr s (it, vd) /\ forall k, (k < k_N s)%nat ->
  inv LA (k_n s) (lr_F1 s k) = Ok (getm vd k) /\ getm it k = mm (k_n s) (getm vd k) (lr_F2 s k).
Proof.
  unfold update_lr_terms. intros H. inv_bind H. apply unOk in H. subst s'. eexists. exists a. split; [reflexivity|]. intros k Hk. split.
  - exact (mapM_seq _ _ _ k [] Ha Hk).
  - now rewrite getm_mk.
Qed.
Lemma terms_cg s s' : update_cg_terms LA s = Ok s' -> exists vt idf, s' = set_cg s (vt, idf) /\ forall k, (k <= k_N s)%nat ->
  inv LA (k_n s) (cg_F1 s k) = Ok (getm idf k) /\ getm vt k = mm (k_n s) (getm idf k) (cg_F2 s k).
Proof.
  unfold update_cg_terms. intros H. inv_bind H. apply unOk in H. subst s'. eexists. exists a. split; [reflexivity|]. intros k Hk. split.
  - apply (mapM_seq _ _ _ k [] Ha). lia.
  - rewrite getm_mk by lia. reflexivity.
Qed.
Lemma start_along steps steps' a b a' b' d lo hi : binv a -> binv b -> same_cable a b d lo hi -> same_waves a b d lo hi -> k_dt (b_core b) = k_dt (b_core a) ->
  bundle_prepare LA steps a = Ok a' -> bundle_prepare LA steps' b = Ok b' -> along a' b' d lo hi.
Proof.
  intros Ia Ib S W Ed Ha Hb. unfold bundle_prepare in Ha, Hb.
  inv_bind Ha. rename a0 into s1. inv_bind Ha. rename a0 into s2. apply unOk in Ha. inv_bind Hb. rename a0 into t1. inv_bind Hb. rename a0 into t2. apply unOk in Hb.
  apply terms_lr in Ha0 as (it & vd & -> & Ls). apply terms_cg in Ha1 as (vt & idf & -> & Cs).
  apply terms_lr in Ha2 as (it' & vd' & -> & Lt). apply terms_cg in Ha3 as (vt' & idf' & -> & Ct). cbn [set_lr k_N k_n] in Cs, Ct.
  destruct S as [n ba bb h l r D L c g T], W as [v i q]. unfold along, b_conductors, b_cells, b_disp, b_volt, b_curr, dPhi, dD, dE, dP1, dP2, dP3, b_long, b_tran in *. subst a' b'. cbn [b_set b_core].
  pose proof (bi_n _ Ia) as Na. pose proof (bi_nx _ Ia) as Xa. pose proof (bi_n _ Ib) as Nb. pose proof (bi_nx _ Ib) as Xb. unfold b_conductors, b_cells, b_disp in Na, Xa, Nb, Xb.
  assert (Q : forall k i j, (lo <= k < hi)%nat -> (i < k_n (b_core a))%nat -> (j < k_n (b_core a))%nat ->
     get3 (ds_q1sum (k_disp (b_core b))) (k + d) i j = get3 (ds_q1sum (k_disp (b_core a))) k i j /\ get3 (ds_q2sum (k_disp (b_core b))) (k + d) i j = get3 (ds_q2sum (k_disp (b_core a))) k i j).
  { intros k i0 j Hk Hi Hj. pose proof (bi_s1 _ Ia) as A1. pose proof (bi_s2 _ Ia) as A2. pose proof (bi_s1 _ Ib) as B1. pose proof (bi_s2 _ Ib) as B2. unfold b_disp in A1, A2, B1, B2.
    pose proof (bi_disp _ Ia) as [_ _ Ca1 Ca2 _]. pose proof (bi_disp _ Ib) as [_ _ Cb1 Cb2 _]. unfold b_disp in *. rewrite Na, Xa in *. rewrite Nb, Xb, n in *.
    rewrite A1, A2, B1, B2, (qsum3_in _ _ _ _ _ _ Ca1), (qsum3_in _ _ _ _ _ _ Ca2), (qsum3_in _ _ _ _ _ _ Cb1), (qsum3_in _ _ _ _ _ _ Cb2) by lia.
    destruct (D k i0 j Hk Hi Hj) as (_ & _ & -> & -> & _). auto. }
  split; [split|split]; cbn [set_lr set_cg k_n k_N k_disp k_h k_eL k_eT k_cg k_lr k_v k_i]; auto.
  - intros k i0 j Hk Hi Hj. destruct (D k i0 j Hk Hi Hj) as (_ & _ & E1 & E2 & E3). auto.
  - exists vt, idf, vt', idf'. do 2 (split; [reflexivity|]). intros k i0 j Hk Hi Hj. destruct (Cs k ltac:(lia)) as [I1 V1]. destruct (Ct (k + d)%nat ltac:(lia)) as [I2 V2]. rewrite n in I2, V2.
    assert (Wd : eqm (k_n (b_core a)) (node_width (set_lr (b_core a) (it, vd)) k) (node_width (set_lr (b_core b) (it', vd')) (k + d))).
    { unfold node_width. cbn [set_lr k_N k_n k_h]. destruct (Nat.eqb_spec (k + d) 0), (Nat.eqb_spec k 0), (Nat.eqb_spec (k + d) (k_N (b_core b))), (Nat.eqb_spec k (k_N (b_core a))); try lia.
      rewrite n. replace (k + d - 1)%nat with (k - 1 + d)%nat by lia. apply eqm_map, eqm_zip; intros p o Hp Ho; apply h; auto; lia. }
    assert (F1 : cg_F1 (set_lr (b_core b) (it', vd')) (k + d) = cg_F1 (set_lr (b_core a) (it, vd)) k).
    { unfold cg_F1. cbn [set_lr k_n k_c k_g k_dt]. rewrite n, Ed. apply mm_same; [exact Wd|]. apply eqm_zip; apply eqm_map; intros p o Hp Ho; [apply c|apply g]; auto; lia. }
    assert (F2 : cg_F2 (set_lr (b_core b) (it', vd')) (k + d) = cg_F2 (set_lr (b_core a) (it, vd)) k).
    { unfold cg_F2. cbn [set_lr k_n k_c k_g k_dt]. rewrite n, Ed. apply mm_same; [exact Wd|]. apply eqm_zip; apply eqm_map; intros p o Hp Ho; [apply c|apply g]; auto; lia. }
    unfold get3. rewrite V1, V2, F2. rewrite F1, I1 in I2. apply unOk in I2. rewrite I2. auto.
  - exists it, vd, it', vd'. do 2 (split; [reflexivity|]). intros k i0 j Hk Hi Hj. destruct (Ls k ltac:(lia)) as [I1 V1]. destruct (Lt (k + d)%nat ltac:(lia)) as [I2 V2]. rewrite n in I2, V2.
    assert (Eh : eqm (k_n (b_core a)) (getm (k_h (b_core a)) k) (getm (k_h (b_core b)) (k + d))) by (intros p o Hp Ho; apply h; auto).
    assert (El : eqm (k_n (b_core a)) (getm (k_l (b_core a)) k) (getm (k_l (b_core b)) (k + d))) by (intros p o Hp Ho; apply l; auto).
    assert (Er : eqm (k_n (b_core a)) (getm (k_r (b_core a)) k) (getm (k_r (b_core b)) (k + d))) by (intros p o Hp Ho; apply r; auto).
    assert (E1 : eqm (k_n (b_core a)) (getm (ds_d (k_disp (b_core a))) k) (getm (ds_d (k_disp (b_core b))) (k + d))) by (intros p o Hp Ho; apply D; auto).
    assert (E2 : eqm (k_n (b_core a)) (getm (ds_e (k_disp (b_core a))) k) (getm (ds_e (k_disp (b_core b))) (k + d))) by (intros p o Hp Ho; apply D; auto).
    assert (E3 : eqm (k_n (b_core a)) (getm (ds_q1sum (k_disp (b_core a))) k) (getm (ds_q1sum (k_disp (b_core b))) (k + d))) by (intros p o Hp Ho; apply Q; auto).
    assert (E4 : eqm (k_n (b_core a)) (getm (ds_q2sum (k_disp (b_core a))) k) (getm (ds_q2sum (k_disp (b_core b))) (k + d))) by (intros p o Hp Ho; apply Q; auto).
    assert (F1 : lr_F1 (b_core b) (k + d) = lr_F1 (b_core a) k).
    { unfold lr_F1. rewrite n, Ed. apply mm_same; [exact Eh|]. repeat (apply eqm_zip); try assumption; apply eqm_map; assumption. }
    assert (F2 : lr_F2 (b_core b) (k + d) = lr_F2 (b_core a) k).
    { unfold lr_F2. rewrite n, Ed. apply mm_same; [exact Eh|]. repeat (apply eqm_zip); try assumption; apply eqm_map; assumption. }
    unfold get3. rewrite V1, V2, F2. rewrite F1, I1 in I2. apply unOk in I2. rewrite I2. auto.
Qed.

Lemma steps_conductors n : forall x y name a b, iterM n (mtln_step LA) x = Ok y -> bundle_of x name = Some a -> bundle_of y name = Some b -> b_conductors b = b_conductors a.
Proof.
  induction n as [|n IH]; intros x y name a b H Ha Hb; cbn [iterM] in H.
  - apply unOk in H. subst y. congruence.
  - inv_bind H. destruct (step_marches LA _ _ _ _ Ha0 Ha) as (c & Gc & M). rewrite (IH _ _ _ _ _ H Gc Hb). apply marches_same in M as (M & _). exact (cs_n _ _ M).
Qed.

(** ** The theorem *)
Lemma stretch_run x y T T' dt n x' y' na nb a b d lo hi : lines_net LA x -> lines_net LA y -> bundle_of x na = Some a -> bundle_of y nb = Some b ->
  same_cable a b d lo hi -> same_waves a b d lo hi -> t_time y = t_time x -> same_step x y a b dt ->
  reaches LA x T dt n x' -> reaches LA y T' dt n y' ->
  exists a' b', bundle_of x' na = Some a' /\ bundle_of y' nb = Some b' /\ b_conductors a' = b_conductors a /\ same_waves a' b' d (lo + n) (hi - n).
Proof.
  intros Lx Ly Ha Hb S W Et Hd Rx Ry. pose proof (lines_ninv LA x Lx) as Ix. pose proof (lines_ninv LA y Ly) as Iy.
  destruct (run_start LA _ _ _ _ _ Rx) as (ws & steps & p & _ & _ & _ & X4 & _ & X6 & X7 & _ & X9 & _ & X11).
  destruct (run_start LA _ _ _ _ _ Ry) as (ws' & steps' & p' & _ & _ & _ & Y4 & _ & Y6 & Y7 & _ & Y9 & _ & Y11).
  pose proof (reaches_ninv LA _ _ _ _ _ Ix X11) as Ip. pose proof (reaches_ninv LA _ _ _ _ _ Iy Y11) as Ip'.
  destruct (X9 na a Ha) as (pa & Pa & Ga). destruct (Y9 nb b Hb) as (pb & Pb & Gb).
  destruct (bundle_in LA x na a Ix Ha) as [[a0 Ra] _]. destruct (bundle_in LA y nb b Iy Hb) as [[b0 Rb] _].
  destruct (history_binv LA _ _ Ra) as [Ba _]. destruct (history_binv LA _ _ Rb) as [Bb _].
  assert (Dt : t_dt p' = t_dt p).
  { rewrite X7, Y7. unfold override_dt. destruct Hd as [-> | [E1 E2]]; [reflexivity|]. destruct (negb (dt =? n0)%num); [reflexivity|exact E1]. }
  assert (Al : along pa pb d lo hi).
  { destruct (neqb dt n0) eqn:E; cbn [negb] in Pa, Pb.
    - destruct Hd as [Hd | [E1 E2]]; [congruence|]. exact (start_along _ _ _ _ _ _ _ _ _ Ba Bb S W E2 Pa Pb).
    - apply (start_along steps steps' (b_set_core a (set_dt (b_core a) dt)) (b_set_core b (set_dt (b_core b) dt)) pa pb d lo hi); [| | | |reflexivity|exact Pa|exact Pb].
      + destruct Ba. split; auto.
      + destruct Bb. split; auto.
      + destruct S. split; auto.
      + destruct W. split; auto. }
  assert (Tm : t_time p' = t_time p) by congruence.
  destruct (along_steps n p p' x' y' na nb pa pb d lo hi Ip Ip' X4 Y4 Ga Gb Tm Dt Al) as (a' & b' & G1 & G2 & [Tb Mv]).
  exists a', b'. do 2 (split; [assumption|]).
  split; [|destruct Mv; split; auto].
  pose proof (steps_conductors n p x' na pa a' X4 Ga G1) as E. rewrite E. clear - Pa.
  unfold bundle_prepare in Pa. inv_bind Pa. inv_bind Pa. apply unOk in Pa. subst pa. apply terms_lr in Ha as (? & ? & -> & _). apply terms_cg in Ha0 as (? & ? & -> & _).
  destruct (negb _); reflexivity.
Qed.
End Stretch.
