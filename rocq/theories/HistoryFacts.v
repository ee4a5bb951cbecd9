(** What no method call changes, and shape invariants of reachable lines (any [num]). *)
From Coq Require Import String List Arith ZArith Bool Lia.
From Verif Require Import Num Py Arr ArrFacts Probes Dispersive Line LineFacts SpecLine.
Import ListNotations.

Section HistoryFacts.
Context {N : num}.
Local Open Scope num_scope.
Variable LA : lapack N.
Implicit Types (s : core N) (m : mtl N) (d : disp N).

(** a matrix that is x*eye(n) or all zeros *)
Definition diag_or_zero (n : nat) (A : mat N) : Prop :=
  (exists x, A = mscal n x (eye n)) \/ A = zeros2 n n.

Record shape (m : mtl N) : Prop := {
  sh_N : (1 <= k_N (m_core m))%nat;
  sh_n : (1 <= k_n (m_core m))%nat;
  sh_h : forall k, (k < k_N (m_core m))%nat -> diag_or_zero (k_n (m_core m)) (getm (k_h (m_core m)) k);
  sh_hl : length (k_h (m_core m)) = k_N (m_core m);
  sh_u : length (m_u m) = S (k_N (m_core m));
  sh_du : length (m_du m) = k_N (m_core m);
  sh_dn : ds_n (k_disp (m_core m)) = k_n (m_core m);
  sh_dx : ds_nx (k_disp (m_core m)) = k_N (m_core m);
  sh_rl : length (k_r (m_core m)) = k_N (m_core m);
  sh_gl : length (k_g (m_core m)) = S (k_N (m_core m));
  sh_vl : length (k_v (m_core m)) = k_n (m_core m);
  sh_il : length (k_i (m_core m)) = k_n (m_core m)
}.

(** what the constructor fixes for ever *)
Record kept (m0 m : mtl N) : Prop := {
  kp_n : k_n (m_core m) = k_n (m_core m0);
  kp_N : k_N (m_core m) = k_N (m_core m0);
  kp_h : k_h (m_core m) = k_h (m_core m0);
  kp_l : k_l (m_core m) = k_l (m_core m0);
  kp_c : k_c (m_core m) = k_c (m_core m0);
  kp_u : m_u m = m_u m0;
  kp_du : m_du m = m_du m0;
  kp_zs : m_zs m = m_zs m0;
  kp_zl : m_zl m = m_zl m0;
  kp_lp1 : m_lp1 m = m_lp1 m0;
  kp_lp2 : m_lp2 m = m_lp2 m0;
  kp_rp1 : m_rp1 m = m_rp1 m0;
  kp_rp2 : m_rp2 m = m_rp2 m0;
  kp_dn : ds_n (k_disp (m_core m)) = ds_n (k_disp (m_core m0));
  kp_dx : ds_nx (k_disp (m_core m)) = ds_nx (k_disp (m_core m0));
  kp_ddt : ds_dt (k_disp (m_core m)) = ds_dt (k_disp (m_core m0));
  kp_uu : ds_u (k_disp (m_core m)) = ds_u (k_disp (m_core m0))
}.

Lemma kept_refl m : kept m m. Proof. split; auto. Qed.
Lemma kept_trans a b c : kept a b -> kept b c -> kept a c.
Proof. intros [] []; split; congruence. Qed.
Lemma same_line_kept m m' : same_line m m' -> kept m m'.
Proof. intros [? ? ? ? ? ? ? ? ? ? [] []]; split; auto. Qed.

Lemma step_lengths m m' : (1 <= k_N (m_core m))%nat -> mtl_step m = Ok m' ->
  length (k_v (m_core m')) = k_n (m_core m) /\ length (k_i (m_core m')) = k_n (m_core m).
Proof.
  intros HN H. destruct (mtl_step_inv m m' HN H)
    as (vt & idf & it & vd & d1 & d2 & ps & _ & _ & _ & _ & Hv & Hi & _ & _ & _).
  split; [rewrite Hv|rewrite Hi]; apply length_mk.
Qed.

Lemma shape_step m m' : shape m -> mtl_step m = Ok m' -> shape m' /\ kept m m'.
Proof.
  intros Sh H. pose proof (sh_N _ Sh) as HN.
  pose proof (mtl_step_same m m' HN H) as SL. destruct (step_lengths m m' HN H) as [Lv Li].
  split; [|now apply same_line_kept].
  destruct SL as [? Eu Edu ? ? ? ? ? ? ? C D]. destruct Sh, C, D.
  split; rewrite ?ss_N, ?ss_n, ?ss_h, ?Eu, ?Edu, ?sd_n, ?sd_nx, ?ss_r, ?ss_g, ?Lv, ?Li; auto.
Qed.

Lemma shape_steps j m m' : shape m -> iterM j mtl_step m = Ok m' -> shape m' /\ kept m m'.
Proof.
  revert m; induction j as [|j IH]; simpl; intros m Sh H.
  - injection H as <-. auto using kept_refl.
  - inv_bind H. destruct (shape_step _ _ Sh Ha) as [S1 K1].
    destruct (IH _ S1 H) as [S2 K2]. eauto using kept_trans.
Qed.

Lemma shape_prepare m n m' : shape m -> mtl_prepare LA m n = Ok m' -> shape m' /\ kept m m'.
Proof.
  intros Sh H. apply prepare_inv in H as (t1 & t2 & _ & ->).
  split; [destruct Sh|]; split; auto.
Qed.

Lemma shape_run m T m' : shape m -> run_until LA m T = Ok m' -> shape m' /\ kept m m'.
Proof.
  intros Sh H. unfold run_until in H. inv_bind H. inv_bind H.
  destruct (shape_prepare _ _ _ Sh Ha0) as [S1 K1]. destruct (shape_steps _ _ _ S1 H) as [S2 K2].
  eauto using kept_trans.
Qed.

Lemma region_assign_inv n t i1 i2 c x t' : region_assign n t i1 i2 c x = Ok t' ->
  (c < n)%nat /\ (c < Nat.min (S i2) (length t) - i1)%nat /\
  t' = lset t (i1 + c) (lset (getm t (i1 + c)) c (mk n (fun _ : nat => x : N))).
Proof.
  unfold region_assign.
  destruct (Nat.ltb_spec c (Nat.min (S i2) (length t) - i1)) as [H1|H1]; [|discriminate].
  destruct (Nat.ltb_spec c n) as [H2|H2]; [|discriminate]. cbn [andb].
  intros H. injection H as <-. auto.
Qed.

Lemma shape_resistance m a b c R m' : shape m ->
  set_resistance_in_region LA m a b c R = Ok m' -> shape m' /\ kept m m'.
Proof.
  intros Sh H. unfold set_resistance_in_region in H. inv_bind H. inv_bind H. inv_bind H.
  injection H as <-. apply update_lr_inv in Ha1 as [t ->].
  apply region_assign_inv in Ha0 as (_ & _ & ->).
  split; [destruct Sh|]; split; auto. cbn. now rewrite length_lset.
Qed.
Lemma shape_conductance m a b c R m' : shape m ->
  add_conductance_in_region LA m a b c R = Ok m' -> shape m' /\ kept m m'.
Proof.
  intros Sh H. unfold add_conductance_in_region in H. inv_bind H. inv_bind H. inv_bind H.
  inv_bind H. injection H as <-. apply update_cg_inv in Ha2 as [t ->].
  apply region_assign_inv in Ha1 as (_ & _ & ->).
  split; [destruct Sh|]; split; auto. cbn. now rewrite length_lset.
Qed.
Lemma shape_source m p c f m' : shape m -> add_voltage_source m p c f = Ok m' -> shape m' /\ kept m m'.
Proof.
  intros Sh H. unfold add_voltage_source in H. destruct (c <? _)%nat; [|discriminate].
  injection H as <-. split; [destruct Sh|]; split; auto.
Qed.
Lemma shape_probe m p ty m' : shape m -> add_probe m p ty = Ok m' -> shape m' /\ kept m m'.
Proof.
  intros Sh H. unfold add_probe in H. destruct (out_of_box _ _); [discriminate|].
  injection H as <-. split; [destruct Sh|]; split; auto.
Qed.

Lemma connector_same d p c model d' : add_dispersive_connector d p c model = Ok d' ->
  ds_n d' = ds_n d /\ ds_nx d' = ds_nx d /\ ds_u d' = ds_u d /\ ds_dt d' = ds_dt d.
Proof.
  unfold add_dispersive_connector. intros H.
  destruct (_ || _); [discriminate|]. inv_bind H. inv_bind H.
  destruct (negb (c <? ds_n d)%nat); [discriminate|].
  repeat inv_bind H. injection H as <-. auto.
Qed.
Lemma shape_connector m p c model m' : shape m ->
  mtl_add_dispersive_connector m p c model = Ok m' -> shape m' /\ kept m m'.
Proof.
  intros Sh H. unfold mtl_add_dispersive_connector in H. inv_bind H. injection H as <-.
  apply connector_same in Ha as (E1 & E2 & E3 & E4).
  split; [destruct Sh|]; split; auto; cbn; congruence.
Qed.

(** *** the constructor *)
Lemma fold_add_acc l a : fold_left Nat.add l a = (a + fold_left Nat.add l 0)%nat.
Proof.
  revert a; induction l as [|x l IH]; intros a; simpl; [lia|].
  rewrite IH, (IH x). lia.
Qed.

Lemma geometry_inv n np ndiv ju jdu u du h :
  geometry n np ndiv ju jdu = Ok (u, du, h) ->
  let total := fold_left Nat.add ndiv 0%nat in
  length u = S total /\ length du = total /\ length h = total /\
  (forall k, (k < total)%nat -> diag_or_zero n (getm h k)).
Proof.
  unfold geometry. set (total := fold_left Nat.add ndiv 0%nat). intros H.
  inv_bind H. inv_bind H. destruct a0 as [[u1 du1] h1].
  injection H as <- <- <-. rewrite length_lset.
  set (P := fun st : mat N * mat N * ten N => let '(u, du, h) := st in
     length u = S total /\ length du = total /\ length h = total /\
     (forall k, (k < total)%nat -> diag_or_zero n (getm h k))).
  change (P (u1, du1, h1)). revert Ha0. apply foldM_inv.
  - intros [i dv] [[u2 du2] h2] st' _ HP. apply foldM_inv; [|exact HP].
    intros k [[u3 du3] h3] st3 _ (L1 & L2 & L3 & D) H3.
    inv_bind H3. inv_bind H3. inv_bind H3. injection H3 as <-.
    apply py_set_Ok in Ha0 as [_ ->], Ha1 as [_ ->], Ha2 as [B ->].
    split; [|split; [|split]]; rewrite ?length_lset; auto.
    intros q Hq. unfold getm. rewrite nth_lset.
    destruct (_ && _); [left; eauto|]. now apply D.
  - unfold P. split; [|split; [|split]]; unfold zeros3; rewrite ?length_mk; auto.
    intros k Hk. right. now rewrite getm_mk.
Qed.

Lemma vmin_Ok (l : vec N) x : vmin l = Ok x -> l <> [].
Proof. destruct l; simpl; congruence. Qed.

Lemma init_rg1_length k n (x : pulin N) t : init_rg1 k n x = Ok t -> length t = k.
Proof.
  destruct x; simpl; intros H; try discriminate.
  - inv_bind H. injection H as <-. apply length_mk.
  - inv_bind H. inv_bind H. injection H as <-. apply length_mk.
Qed.

Lemma concat_nil_all {A} (l : list (list A)) : (forall x, In x l -> x = []) -> concat l = [].
Proof. induction l as [|a l IH]; simpl; intros H; auto. rewrite (H a), IH; auto. Qed.

Lemma max_timestep_pos s dt : get_max_timestep LA s = Ok dt ->
  length (k_h s) = k_N s ->
  (forall k, (k < k_N s)%nat -> diag_or_zero (k_n s) (getm (k_h s) k)) ->
  (1 <= k_N s)%nat /\ (1 <= k_n s)%nat.
Proof.
  unfold get_max_timestep. intros H HL HD. inv_bind H. apply vmin_Ok in Ha.
  assert (HN : concat (concat (k_h s)) <> []) by (intros E; apply Ha; now rewrite E).
  split.
  - destruct (k_N s) eqn:E; [|lia]. destruct (k_h s); [exfalso; now apply HN|discriminate].
  - destruct (k_n s) eqn:E; [|lia]. exfalso. apply HN.
    apply concat_nil_all. intros row Hrow. apply in_concat in Hrow as (M & HM & Hr).
    apply In_nth with (d := []) in HM as (k & Hk & <-). assert (Hk2 : (k < k_N s)%nat) by (rewrite <- HL; exact Hk).
    assert (X : nth k (k_h s) [] = []).
    { destruct (HD k Hk2) as [[x E']|E']; unfold getm in E'; rewrite E'; reflexivity. }
    pose proof (eq_ind _ (fun l => In row l) Hr _ X) as F. destruct F.
Qed.

Lemma mtl_new_inv ju jdu l c r g len np ndiv zs zl name m :
  mtl_new LA ju jdu l c r g len np ndiv zs zl name = Ok m ->
  shape m /\
  (exists dt, get_max_timestep LA (m_core m) = Ok dt /\ k_dt (m_core m) = dt) /\
  port_terms LA (k_n (m_core m)) (m_zs m) (getm (k_c (m_core m)) 0) (getm (k_g (m_core m)) 0)
     (get3 (k_h (m_core m)) 0 0 0) (k_dt (m_core m)) = Ok (m_lp1 m, m_lp2 m) /\
  port_terms LA (k_n (m_core m)) (m_zl m) (getm (k_c (m_core m)) (k_N (m_core m)))
     (getm (k_g (m_core m)) (k_N (m_core m)))
     (get3 (k_h (m_core m)) (k_N (m_core m) - 1) 0 0) (k_dt (m_core m)) = Ok (m_rp1 m, m_rp2 m) /\
  k_disp (m_core m) = disp_new (k_n (m_core m)) (k_N (m_core m)) (m_u m) (k_dt (m_core m)) /\
  k_v (m_core m) = zeros2 (k_n (m_core m)) (S (k_N (m_core m))) /\
  k_i (m_core m) = zeros2 (k_n (m_core m)) (k_N (m_core m)) /\
  m_time m = n0 /\ m_probes m = [] /\
  k_lr (m_core m) = None /\ k_cg (m_core m) = None /\
  m_vsrc m = mk2 (k_n (m_core m)) (S (k_N (m_core m))) (fun _ _ _ => n0) /\
  k_eL (m_core m) = mk2 (k_n (m_core m)) (k_N (m_core m)) (fun _ _ _ => n0) /\
  k_eT (m_core m) = mk2 (k_n (m_core m)) (S (k_N (m_core m))) (fun _ _ _ => n0).
Proof.
  intros H. unfold mtl_new in H.
  inv_bind H. destruct a as [[l' c'] n]. inv_bind H. destruct a as [r' g'].
  inv_bind H. destruct a as [zs' zl']. inv_bind H. destruct a as [[u du] h].
  inv_bind H. rename a into dt. inv_bind H. destruct a as [lp1 lp2]. inv_bind H. destruct a as [rp1 rp2].
  injection H as <-. cbn in *.
  apply geometry_inv in Ha2 as (Lu & Ldu & Lh & Dh).
  unfold init_RG in Ha0. inv_bind Ha0. inv_bind Ha0. injection Ha0 as <- <-.
  apply init_rg1_length in Ha2, Ha6.
  pose proof (max_timestep_pos _ _ Ha3 Lh Dh) as [HN Hn]. cbn in HN, Hn.
  split.
  { split; cbn; auto; apply length_mk. }
  split; [exists dt; split; [exact Ha3|reflexivity]|].
  repeat (split; [assumption || reflexivity|]). reflexivity.
Qed.

Lemma built_shape m : built LA m -> shape m.
Proof.
  intros (ju & jdu & l & c & r & g & len & np & ndiv & zs & zl & name & H).
  now apply mtl_new_inv in H as [H _].
Qed.

Lemma history_shape m0 m : history LA m0 m -> shape m /\ kept m0 m.
Proof.
  induction 1 as [H| | | | | | | | | |].
  - split; [now apply built_shape|apply kept_refl].
  - destruct IHhistory as [S1 K1]. split; [destruct S1; split; auto|].
    eapply kept_trans; [exact K1|]. split; auto.
  - destruct IHhistory as [S1 K1]. edestruct shape_resistance as [S2 K2]; eauto using kept_trans.
  - destruct IHhistory as [S1 K1]. edestruct shape_conductance as [S2 K2]; eauto using kept_trans.
  - destruct IHhistory as [S1 K1]. edestruct shape_source as [S2 K2]; eauto using kept_trans.
  - destruct IHhistory as [S1 K1]. split; [destruct S1; split; auto|].
    eapply kept_trans; [exact K1|]. split; auto.
  - destruct IHhistory as [S1 K1]. edestruct shape_probe as [S2 K2]; eauto using kept_trans.
  - destruct IHhistory as [S1 K1]. edestruct shape_connector as [S2 K2]; eauto using kept_trans.
  - destruct IHhistory as [S1 K1]. edestruct shape_step as [S2 K2]; eauto using kept_trans.
  - destruct IHhistory as [S1 K1]. edestruct shape_run as [S2 K2]; eauto using kept_trans.
  - destruct IHhistory as [S1 K1]. split.
    + destruct S1; split; auto; cbn; apply length_mk.
    + eapply kept_trans; [exact K1|]. split; auto.
Qed.

Lemma history_built m0 m : history LA m0 m -> built LA m0.
Proof. induction 1; auto. Qed.

Lemma reachable_shape m : reachable LA m -> shape m.
Proof. intros [m0 H]. now apply history_shape in H as [H _]. Qed.

(** unpacking of [run_step] *)
Lemma run_step_inv m T k a b : reachable LA m -> run_step LA m T k a b ->
  shape m /\ shape a /\ shape b /\ kept m a /\ kept m b /\
  lr_ready LA (m_core a) /\ cg_ready LA (m_core a) /\ mtl_step a = Ok b.
Proof.
  intros HR (steps & p & _ & _ & Hp & Hi & Hs). apply reachable_shape in HR.
  destruct (shape_prepare _ _ _ HR Hp) as [S1 K1].
  destruct (shape_steps _ _ _ S1 Hi) as [S2 K2].
  destruct (shape_step _ _ S2 Hs) as [S3 K3].
  destruct (prepare_ready LA _ _ _ Hp) as [R1 R2].
  destruct (ready_steps LA k p a (sh_N _ S1) Hi R1 R2) as [R3 R4].
  repeat split; eauto using kept_trans; try apply S1 || apply S2 || apply S3 || apply HR.
  all: pose proof (kept_trans _ _ _ K1 K2) as K; pose proof (kept_trans _ _ _ K K3) as K'.
  all: try apply K; try apply K'.
Qed.

(** what a run does not change *)
Record run_same (m a : mtl N) : Prop := {
  rs_n : k_n (m_core a) = k_n (m_core m); rs_N : k_N (m_core a) = k_N (m_core m);
  rs_h : k_h (m_core a) = k_h (m_core m); rs_l : k_l (m_core a) = k_l (m_core m);
  rs_r : k_r (m_core a) = k_r (m_core m); rs_c : k_c (m_core a) = k_c (m_core m);
  rs_g : k_g (m_core a) = k_g (m_core m); rs_dt : k_dt (m_core a) = k_dt (m_core m);
  rs_eL : k_eL (m_core a) = k_eL (m_core m); rs_eT : k_eT (m_core a) = k_eT (m_core m);
  rs_vsrc : m_vsrc a = m_vsrc m; rs_zs : m_zs a = m_zs m; rs_zl : m_zl a = m_zl m;
  rs_lp1 : m_lp1 a = m_lp1 m; rs_lp2 : m_lp2 a = m_lp2 m;
  rs_rp1 : m_rp1 a = m_rp1 m; rs_rp2 : m_rp2 a = m_rp2 m;
  rs_u : m_u a = m_u m; rs_du : m_du a = m_du m; rs_name : m_name a = m_name m;
  rs_disp : same_disp (k_disp (m_core m)) (k_disp (m_core a))
}.
Lemma run_same_refl m : run_same m m.
Proof. split; auto using same_disp_refl. Qed.
Lemma run_same_trans a b c : run_same a b -> run_same b c -> run_same a c.
Proof. intros [] []; split; eauto using same_disp_trans; congruence. Qed.
Lemma same_line_run_same m a : same_line m a -> run_same m a.
Proof. intros [? ? ? ? ? ? ? ? ? ? [] ?]; split; auto. Qed.
Lemma prepare_run_same m n a : mtl_prepare LA m n = Ok a -> run_same m a.
Proof. intros H. apply prepare_inv in H as (t1 & t2 & _ & ->). split; auto. apply same_disp_refl. Qed.

Lemma run_step_states m T k a b : run_step LA m T k a b -> run_state LA m T k a /\ run_state LA m T (S k) b.
Proof.
  intros (steps & p & H1 & H2 & H3 & H4 & H5). split; exists steps, p; repeat split; auto; try lia.
  rewrite iterM_S, H4. exact H5.
Qed.

Lemma run_state_inv m T k a : shape m -> run_state LA m T k a ->
  shape a /\ kept m a /\ run_same m a /\ lr_ready LA (m_core a) /\ cg_ready LA (m_core a).
Proof.
  intros HS (steps & p & _ & _ & Hp & Hi).
  destruct (shape_prepare _ _ _ HS Hp) as [S1 K1].
  destruct (shape_steps _ _ _ S1 Hi) as [S2 K2].
  destruct (prepare_ready LA _ _ _ Hp) as [R1 R2].
  destruct (ready_steps LA k p a (sh_N _ S1) Hi R1 R2) as [R3 R4].
  split; [exact S2|]. split; [eauto using kept_trans|]. split; [|split; auto].
  eapply run_same_trans; [eapply prepare_run_same; eauto|].
  apply same_line_run_same. eapply iter_step_same; eauto. apply S1.
Qed.

End HistoryFacts.
