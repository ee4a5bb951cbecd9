(** Superposition in networks of lines (real arithmetic). *)
From Coq Require Import String List Arith ZArith Bool Lia Reals Lra.
From Verif Require Import Num Py Arr ArrFacts NumR RFacts Utils Probes Dispersive Line LineFacts Bundle Networks Mtln
  SpecLine SpecBundle SpecNet SpecMtln SpecCore SpecDyn SpecSuper HistoryFacts ConeFacts SuperFacts BundleFacts BundleMore CoreEq
  NetFacts NetBuild NetPlace NetR MtlnFacts MtlnPerm.
Import ListNotations.
Local Open Scope R_scope.

(** *** three lists *)
Lemma F3_impl {A} (P Q : A -> A -> A -> Prop) l m n : (forall x y z, P x y z -> Q x y z) -> Forall3 P l m n -> Forall3 Q l m n.
Proof. intros H. induction 1; constructor; auto. Qed.
Lemma F3_app {A} (P : A -> A -> A -> Prop) l m n l' m' n' : Forall3 P l m n -> Forall3 P l' m' n' -> Forall3 P (l ++ l') (m ++ m') (n ++ n').
Proof. induction 1; cbn [app]; [auto|constructor; auto]. Qed.
Lemma F3_map {A B} (f g h : A -> B) (P : A -> A -> A -> Prop) (Q : B -> B -> B -> Prop) l m n :
  (forall x y z, P x y z -> Q (f x) (g y) (h z)) -> Forall3 P l m n -> Forall3 Q (map f l) (map g m) (map h n).
Proof. intros H. induction 1; cbn [map]; constructor; auto. Qed.
Lemma F3_flat {A B} (f g h : A -> list B) (P : A -> A -> A -> Prop) (Q : B -> B -> B -> Prop) l m n :
  (forall x y z, P x y z -> Forall3 Q (f x) (g y) (h z)) -> Forall3 P l m n -> Forall3 Q (flat_map f l) (flat_map g m) (flat_map h n).
Proof. intros H. induction 1; cbn [flat_map]; [constructor|apply F3_app; auto]. Qed.
Lemma F3_refl {A} (P : A -> A -> A -> Prop) l : (forall x, In x l -> P x x x) -> Forall3 P l l l.
Proof. induction l; constructor; [apply H; now left|apply IHl; intros; apply H; now right]. Qed.
Lemma F3_diag {A} (P : A -> A -> A -> Prop) l : Forall3 P l l l -> Forall (fun x => P x x x) l.
Proof.
  assert (G : forall m n, Forall3 P l m n -> m = l -> n = l -> Forall (fun x => P x x x) l).
  { intros m n H. induction H as [|x y z l m n p F IH]; intros E1 E2; [constructor|]. injection E1 as -> ->. injection E2 as -> ->. constructor; auto. }
  intros H. eapply G; eauto.
Qed.
Lemma mapM_F3 {A B} (f g h : A -> res B) (P : A -> A -> A -> Prop) (Q : B -> B -> B -> Prop) l m n l' m' n' :
  (forall x y z x' y' z', P x y z -> f x = Ok x' -> g y = Ok y' -> h z = Ok z' -> Q x' y' z') ->
  Forall3 P l m n -> mapM f l = Ok l' -> mapM g m = Ok m' -> mapM h n = Ok n' -> Forall3 Q l' m' n'.
Proof.
  intros H F. revert l' m' n'. induction F as [|x y z l m n p F IH]; intros l' m' n' E1 E2 E3; cbn [mapM] in *.
  - apply OkI in E1, E2, E3. subst. constructor.
  - inv_bind E1. inv_bind E1. apply OkI in E1. subst l'. inv_bind E2. inv_bind E2. apply OkI in E2. subst m'.
    inv_bind E3. inv_bind E3. apply OkI in E3. subst n'. constructor; eauto.
Qed.
Lemma foldM_F3 {A S} (f g h : S -> A -> res S) (P : A -> A -> A -> Prop) (R : S -> S -> S -> Prop) l m n :
  (forall x y z s t u s' t' u', P x y z -> R s t u -> f s x = Ok s' -> g t y = Ok t' -> h u z = Ok u' -> R s' t' u') ->
  Forall3 P l m n -> forall s t u s' t' u', R s t u -> foldM f l s = Ok s' -> foldM g m t = Ok t' -> foldM h n u = Ok u' -> R s' t' u'.
Proof.
  intros H. induction 1 as [|x y z l m n p F IH]; intros s t u s' t' u' r E1 E2 E3; cbn [foldM] in *.
  - apply OkI in E1, E2, E3. subst. exact r.
  - inv_bind E1. inv_bind E2. inv_bind E3. eapply IH; [|exact E1|exact E2|exact E3]. eapply H; eauto.
Qed.
Lemma named_get {B} (P : B -> B -> B -> Prop) (d e f : list (string * B)) k : Forall3 (named_sum P) d e f ->
  (exists b b' b'', dget String.eqb k d = Some b /\ dget String.eqb k e = Some b' /\ dget String.eqb k f = Some b'' /\ P b b' b'') \/
  (dget String.eqb k d = None /\ dget String.eqb k e = None /\ dget String.eqb k f = None).
Proof.
  induction 1 as [|[i b] [j b'] [o b''] d e f (E1 & E2 & p) F IH]; cbn [fst snd dget] in *; [auto|]. subst j o.
  destruct (String.eqb k i); [left; exists b, b', b''; auto|exact IH].
Qed.
Lemma named_set {B} (P : B -> B -> B -> Prop) (d e f : list (string * B)) k b b' b'' : Forall3 (named_sum P) d e f -> P b b' b'' ->
  Forall3 (named_sum P) (dset String.eqb k b d) (dset String.eqb k b' e) (dset String.eqb k b'' f).
Proof.
  intros F p. induction F as [|[i c] [j c'] [o c''] d e f (E1 & E2 & q) F IH]; cbn [fst snd dset] in *.
  - constructor; [split; auto|constructor].
  - subst j o. destruct (String.eqb k i); constructor; try exact F; try exact IH; split; auto.
Qed.

(** The three networks may have different clocks ([dy], [dz] ahead of the first one) and their
    fields and sources may be related only at the times in [seen]. *)
Section S.
Variables al be dy dz : R.
Variable seen : R -> Prop.
Notation lin := (SpecDyn.lin al be).
Notation qlin := (SpecDyn.qlin al be).
Record bsum (a b c : bundle NumR) : Prop := {
  bg_ab : same_bundle a b; bg_ac : same_bundle a c;
  bg_v : forall j k, (j < b_conductors a)%nat -> (k <= b_cells a)%nat -> lin (b_volt a j k) (b_volt b j k) (b_volt c j k);
  bg_i : forall j k, (j < b_conductors a)%nat -> (k < b_cells a)%nat -> lin (b_curr a j k) (b_curr b j k) (b_curr c j k);
  bg_q : forall j k, (j < b_conductors a)%nat -> (k < b_cells a)%nat -> qlin (dPhi (b_disp a) k j) (dPhi (b_disp b) k j) (dPhi (b_disp c) k j);
  bg_T : forall j k t ty tz, seen t -> ty = t + dy -> tz = t + dz -> (j < b_conductors a)%nat -> (k <= b_cells a)%nat -> lin (kTran (b_core a) j k t) (kTran (b_core b) j k ty) (kTran (b_core c) j k tz);
  bg_L : forall j k t ty tz, seen t -> ty = t + dy -> tz = t + dz -> (j < b_conductors a)%nat -> (k < b_cells a)%nat -> lin (kLong (b_core a) j k t) (kLong (b_core b) j k ty) (kLong (b_core c) j k tz)
}.
Record csum (u v w : network NumR) : Prop := {
  cg_uv : same_circuit u v; cg_uw : same_circuit u w;
  cg_V : forall i, (i < w_nodes u)%nat -> lin (nV u i) (nV v i) (nV w i);
  cg_P : forall i, (i < w_nodes u)%nat -> lin (nVprev u i) (nVprev v i) (nVprev w i);
  cg_I : forall i, (i < w_nodes u)%nat -> lin (nI u i) (nI v i) (nI w i);
  cg_X : forall i, (i < w_ns u)%nat -> lin (nX u i) (nX v i) (nX w i);
  cg_S : forall i t ty tz, seen t -> ty = t + dy -> tz = t + dz -> (i < w_nodes u)%nat -> lin (nSrc u i t) (nSrc v i ty) (nSrc w i tz);
  cg_F : forall i t ty tz, seen t -> ty = t + dy -> tz = t + dz -> (i < w_nodes u)%nat -> lin (nField u i t) (nField v i ty) (nField w i tz)
}.
Record lsum (x y z : mtln NumR) : Prop := {
  lg_bundles : Forall3 (named_sum bsum) (t_bundles x) (t_bundles y) (t_bundles z);
  lg_nets : Forall3 (Forall3 (named_sum csum)) (t_networks x) (t_networks y) (t_networks z);
  lg_dt : t_dt y = t_dt x /\ t_dt z = t_dt x;
  lg_time : t_time y = t_time x + dy /\ t_time z = t_time x + dz
}.
(** the times one step looks at *)
Definition looks (t dt : R) : Prop := seen t /\ seen (t - dt) /\ seen (t - 2 * dt) /\ seen (t + dt / 2) /\ seen (t - dt / 2).

(** *** bundles during a run *)
Lemma looks_eq (p q dt : R) : p = q -> looks p dt -> looks q dt.
Proof. intros ->. auto. Qed.
Record brel (a b c : bundle NumR) : Prop := {
  r_sum : bsum a b c;
  r_lrb : k_lr (b_core b) = k_lr (b_core a); r_lrc : k_lr (b_core c) = k_lr (b_core a);
  r_cgb : k_cg (b_core b) = k_cg (b_core a); r_cgc : k_cg (b_core c) = k_cg (b_core a);
  r_N : (1 <= b_cells a)%nat; r_dn : ds_n (b_disp a) = b_conductors a; r_dx : ds_nx (b_disp a) = b_cells a;
  r_va : vgrid a; r_vb : vgrid b; r_vc : vgrid c
}.
Lemma eval_tran (s : core NumR) t dt c k : get2 (eT_now (eval_fields (k_eL s) (k_eT s) t dt)) c k = kTran s c k t /\
  get2 (eT_prev (eval_fields (k_eL s) (k_eT s) t dt)) c k = kTran s c k (t - dt).
Proof. split; exact (@eval_get NumR _ _ _ _). Qed.
Lemma eval_long (s : core NumR) (t dt : R) c k : get2 (eL_now (eval_fields (k_eL s) (k_eT s) t dt)) c k = kLong s c k (t + dt / 2) /\
  get2 (eL_prev (eval_fields (k_eL s) (k_eT s) t dt)) c k = kLong s c k (t - dt / 2).
Proof. split; exact (@eval_get NumR _ _ _ _). Qed.

Lemma bundle_set_v a (v : mat NumR) : b_conductors (b_set_core a (set_v (b_core a) v)) = b_conductors a /\ b_cells (b_set_core a (set_v (b_core a) v)) = b_cells a.
Proof. split; reflexivity. Qed.
Lemma same_bundle_set a b (v w : mat NumR) : same_bundle a b -> same_bundle (b_set_core a (set_v (b_core a) v)) (b_set_core b (set_v (b_core b) w)).
Proof. intros []. split; assumption. Qed.
(** new voltages, all else kept *)
Lemma brel_volts a b c (u v w : mat NumR) : brel a b c ->
  rectm (b_conductors a) (S (b_cells a)) u -> rectm (b_conductors a) (S (b_cells a)) v -> rectm (b_conductors a) (S (b_cells a)) w ->
  (forall j k, (j < b_conductors a)%nat -> (k <= b_cells a)%nat -> lin (get2 u j k) (get2 v j k) (get2 w j k)) ->
  brel (b_set_core a (set_v (b_core a) u)) (b_set_core b (set_v (b_core b) v)) (b_set_core c (set_v (b_core c) w)).
Proof.
  intros [[Sb Sc V I Q T L] lb lc cb cc HN dn dx va vb vc] Gu Gv Gw H.
  split; try assumption.
  - split; try assumption; now apply same_bundle_set.
  - unfold vgrid. cbn [b_set_core b_set b_core set_v k_v k_n k_N]. change (rectm (b_conductors b) (S (b_cells b)) v). now rewrite (sb_n _ _ Sb), (sb_N _ _ Sb).
  - unfold vgrid. cbn [b_set_core b_set b_core set_v k_v k_n k_N]. change (rectm (b_conductors c) (S (b_cells c)) w). now rewrite (sb_n _ _ Sc), (sb_N _ _ Sc).
Qed.
Lemma brel_voltage (t dt : R) a b c a' b' c' : looks t dt -> brel a b c ->
  @bundle_advance_voltage NumR t dt a = Ok a' -> @bundle_advance_voltage NumR (t + dy) dt b = Ok b' -> @bundle_advance_voltage NumR (t + dz) dt c = Ok c' -> brel a' b' c'.
Proof.
  intros (K0 & K1 & _) R Ha Hb Hc. unfold bundle_advance_voltage in *. cbv zeta in *.
  inv_bind Ha. apply OkI in Ha. inv_bind Hb. apply OkI in Hb. inv_bind Hc. apply OkI in Hc. unfold advance_voltage in *.
  rewrite (r_cgb _ _ _ R) in Ha1. rewrite (r_cgc _ _ _ R) in Ha2. destruct (k_cg (b_core a)) as [[vt idf]|]; [|discriminate Ha0].
  apply OkI in Ha0. apply OkI in Ha1. apply OkI in Ha2. subst. pose proof (r_sum _ _ _ R) as [Sb Sc V I Q T L].
  change (k_n (b_core b)) with (b_conductors b). change (k_n (b_core c)) with (b_conductors c). change (k_n (b_core a)) with (b_conductors a).
  change (k_N (b_core b)) with (b_cells b). change (k_N (b_core c)) with (b_cells c). change (k_N (b_core a)) with (b_cells a).
  rewrite (sb_n _ _ Sb), (sb_N _ _ Sb), (sb_n _ _ Sc), (sb_N _ _ Sc).
  apply brel_volts; auto using rectm_mk2. intros j k Hj Hk. rewrite !get2_mk2 by lia.
  destruct ((0 <? k)%nat && (k <? b_cells a)%nat) eqn:E; [|apply V; auto].
  apply andb_prop in E as [E1 E2]. apply Nat.ltb_lt in E1, E2.
  unfold interior_voltage. change (k_n (b_core b)) with (b_conductors b). change (k_n (b_core c)) with (b_conductors c). change (k_n (b_core a)) with (b_conductors a).
  rewrite (sb_n _ _ Sb), (sb_n _ _ Sc).
  rewrite !(proj1 (eval_tran _ _ _ _ _)), !(proj2 (eval_tran _ _ _ _ _)). apply lin_sub; [apply lin_sub|].
  - apply lin_sum. intros q Hq. apply lin_mul, V; auto.
  - apply lin_sum. intros q Hq. apply lin_mul, lin_sub; apply I; auto; lia.
  - apply lin_sub; apply T; auto; rsimpl; ring.
Qed.
Lemma brel_put a b c r e (x y z : R) : brel a b c -> (r < b_conductors a)%nat -> lin x y z -> brel (put_end a r e x) (put_end b r e y) (put_end c r e z).
Proof.
  intros R Hr Hx. pose proof (r_sum _ _ _ R) as [Sb Sc V I Q T L]. unfold put_end. cbv zeta.
  change (k_N (b_core b)) with (b_cells b). change (k_N (b_core c)) with (b_cells c). change (k_N (b_core a)) with (b_cells a). rewrite (sb_N _ _ Sb), (sb_N _ _ Sc).
  pose proof (r_va _ _ _ R) as Ga. pose proof (r_vb _ _ _ R) as Gb. pose proof (r_vc _ _ _ R) as Gc. unfold vgrid in Ga, Gb, Gc.
  change (rectm (b_conductors a) (S (b_cells a)) (k_v (b_core a))) in Ga. change (rectm (b_conductors b) (S (b_cells b)) (k_v (b_core b))) in Gb. change (rectm (b_conductors c) (S (b_cells c)) (k_v (b_core c))) in Gc.
  rewrite (sb_n _ _ Sb), (sb_N _ _ Sb) in Gb. rewrite (sb_n _ _ Sc), (sb_N _ _ Sc) in Gc.
  apply brel_volts; auto using rectm_upd. intros j k Hj Hk.
  assert (Hp : ((if e then b_cells a else 0) < S (b_cells a))%nat) by (destruct e; lia).
  rewrite (get2_upd2 _ _ _ _ _ _ _ _ Ga), (get2_upd2 _ _ _ _ _ _ _ _ Gb), (get2_upd2 _ _ _ _ _ _ _ _ Gc) by assumption.
  destruct (_ && _)%bool; [exact Hx|apply V; auto].
Qed.
Lemma brel_current (t dt : R) a b c a' b' c' : looks t dt -> brel a b c ->
  @bundle_advance_current NumR t dt a = Ok a' -> @bundle_advance_current NumR (t + dy) dt b = Ok b' -> @bundle_advance_current NumR (t + dz) dt c = Ok c' -> brel a' b' c'.
Proof.
  intros (K0 & _ & _ & K3 & K4) R Ha Hb Hc. unfold bundle_advance_current in *. cbv zeta in *.
  inv_bind Ha. apply OkI in Ha. inv_bind Hb. apply OkI in Hb. inv_bind Hc. apply OkI in Hc. unfold advance_current in *.
  rewrite (r_lrb _ _ _ R) in Ha1. rewrite (r_lrc _ _ _ R) in Ha2.
  inv_bind Ha0. rename a3 into d1, Ha3 into D1. inv_bind Ha1. rename a3 into e1, Ha3 into E1. inv_bind Ha2. rename a3 into f1, Ha3 into F1.
  destruct (k_lr (b_core a)) as [[it vd]|]; [|discriminate Ha0].
  inv_bind Ha0. rename a3 into d2, Ha3 into D2. inv_bind Ha1. rename a3 into e2, Ha3 into E2. inv_bind Ha2. rename a3 into f2, Ha3 into F2.
  apply OkI in Ha0. apply OkI in Ha1. apply OkI in Ha2. pose proof (r_sum _ _ _ R) as [Sb Sc V I Q T L].
  pose proof (r_dn _ _ _ R) as DN. pose proof (r_dx _ _ _ R) as DX. pose proof (r_N _ _ _ R) as HN.
  change (k_n (b_core b)) with (b_conductors b) in *. change (k_n (b_core c)) with (b_conductors c) in *. change (k_n (b_core a)) with (b_conductors a) in *.
  change (k_N (b_core b)) with (b_cells b) in *. change (k_N (b_core c)) with (b_cells c) in *. change (k_N (b_core a)) with (b_cells a) in *.
  destruct (update_q3_phi_same _ _ D1) as [SD1 PD1]. destruct (update_q3_phi_same _ _ E1) as [SE1 PE1]. destruct (update_q3_phi_same _ _ F1) as [SF1 PF1].
  destruct (update_phi_same _ _ _ _ D2) as [SD2 _]. destruct (update_phi_same _ _ _ _ E2) as [SE2 _]. destruct (update_phi_same _ _ _ _ F2) as [SF2 _].
  change (k_disp (b_core a)) with (b_disp a) in *. change (k_disp (b_core b)) with (b_disp b) in *. change (k_disp (b_core c)) with (b_disp c) in *.
  assert (W : forall j k p q r, (j < b_conductors a)%nat -> (k < b_cells a)%nat ->
     qdotq (b_conductors a) (fun i => qget3 (ds_q3 (b_disp a)) k j i) (fun i => dPhi (b_disp a) k i) = Ok p ->
     qdotq (b_conductors a) (fun i => qget3 (ds_q3 (b_disp a)) k j i) (fun i => dPhi (b_disp b) k i) = Ok q ->
     qdotq (b_conductors a) (fun i => qget3 (ds_q3 (b_disp a)) k j i) (fun i => dPhi (b_disp c) k i) = Ok r -> qlin p q r).
  { intros j k p q r Hj Hk. apply qdotq_lin. intros. apply Q; auto. }
  assert (M : forall j k, (j < b_conductors a)%nat -> (k < b_cells a)%nat -> lin (get2 (ds_q3phi d1) k j) (get2 (ds_q3phi e1) k j) (get2 (ds_q3phi f1) k j)).
  { intros j k Hj Hk. destruct (q3phi_row _ _ k j D1) as (x & Ex & ->); [lia|lia|].
    destruct (q3phi_row _ _ k j E1) as (y & Ey & ->); [rewrite (sb_dx _ _ Sb); lia|rewrite (sb_dn _ _ Sb); lia|].
    destruct (q3phi_row _ _ k j F1) as (z & Ez & ->); [rewrite (sb_dx _ _ Sc); lia|rewrite (sb_dn _ _ Sc); lia|].
    rewrite DN in Ex. rewrite (sb_dn _ _ Sb), (sb_q3 _ _ Sb), DN in Ey. rewrite (sb_dn _ _ Sc), (sb_q3 _ _ Sc), DN in Ez.
    apply qsum_lin. eapply W; [exact Hj|exact Hk|exact Ex|exact Ey|exact Ez]. }
  match type of D2 with update_phi _ ?i _ = _ => set (ia := i) in * end.
  match type of E2 with update_phi _ ?i _ = _ => set (ib := i) in * end.
  match type of F2 with update_phi _ ?i _ = _ => set (ic := i) in * end.
  assert (CI : forall j k, (j < b_conductors a)%nat -> (k < b_cells a)%nat -> lin (get2 ia j k) (get2 ib j k) (get2 ic j k)).
  { intros j k Hj Hk. unfold ia, ib, ic. rewrite (sb_n _ _ Sb), (sb_N _ _ Sb), (sb_n _ _ Sc), (sb_N _ _ Sc). rewrite !get2_mk2 by assumption.
    unfold cell_current. cbn [set_disp set_i_disp k_n k_i k_v k_h k_disp].
    change (k_n (b_core b)) with (b_conductors b). change (k_n (b_core c)) with (b_conductors c). change (k_n (b_core a)) with (b_conductors a). cbv zeta.
    rewrite (sb_n _ _ Sb), (sb_h _ _ Sb), (sb_n _ _ Sc), (sb_h _ _ Sc).
    rewrite !(proj1 (eval_tran _ _ _ _ _)) || idtac.
    apply lin_sub; [apply lin_sub|].
    - apply lin_sum. intros q Hq. apply lin_mul, I; auto.
    - apply lin_sum. intros q Hq. apply lin_mul. rewrite !(proj1 (eval_tran _ _ _ _ _)). apply lin_sub; [apply lin_add; apply lin_sub|].
      + apply V; auto.
      + apply V; auto. lia.
      + apply T; auto.
      + apply T; auto. lia.
      + apply lin_sum. intros p Hp. rewrite !(proj1 (eval_long _ _ _ _ _)), !(proj2 (eval_long _ _ _ _ _)). apply lin_mul, lin_add; apply L; auto; rsimpl; ring.
    - apply lin_sum. intros q Hq. apply lin_mul. apply lin_sum. intros p Hp. apply lin_mul. apply M; auto. }
  assert (MQ : forall j k, (j < b_conductors a)%nat -> (k < b_cells a)%nat -> qlin (qget2 (ds_phi d2) k j) (qget2 (ds_phi e2) k j) (qget2 (ds_phi f2) k j)).
  { intros j k Hj Hk.
    pose proof (phi_row d1 d2 _ _ k j D2 ltac:(rewrite (sd_nx _ _ SD1); lia) ltac:(rewrite (sd_n _ _ SD1); lia)) as Ma.
    pose proof (phi_row e1 e2 _ _ k j E2 ltac:(rewrite (sd_nx _ _ SE1), (sb_dx _ _ Sb); lia) ltac:(rewrite (sd_n _ _ SE1), (sb_dn _ _ Sb); lia)) as Mb.
    pose proof (phi_row f1 f2 _ _ k j F2 ltac:(rewrite (sd_nx _ _ SF1), (sb_dx _ _ Sc); lia) ltac:(rewrite (sd_n _ _ SF1), (sb_dn _ _ Sc); lia)) as Mc.
    rewrite (sd_n _ _ SD1), (sd_q1 _ _ SD1), (sd_q2 _ _ SD1), (sd_q3 _ _ SD1), PD1, DN in Ma.
    rewrite (sd_n _ _ SE1), (sd_q1 _ _ SE1), (sd_q2 _ _ SE1), (sd_q3 _ _ SE1), PE1, (sb_dn _ _ Sb), (sb_q1 _ _ Sb), (sb_q2 _ _ Sb), (sb_q3 _ _ Sb), DN in Mb.
    rewrite (sd_n _ _ SF1), (sd_q1 _ _ SF1), (sd_q2 _ _ SF1), (sd_q3 _ _ SF1), PF1, (sb_dn _ _ Sc), (sb_q1 _ _ Sc), (sb_q2 _ _ Sc), (sb_q3 _ _ Sc), DN in Mc.
    do 4 inv_bind Ma. do 4 inv_bind Mb. do 4 inv_bind Mc.
    eapply badd_lin; [| |exact Ma|exact Mb|exact Mc].
    - eapply badd_lin; [| |eassumption|eassumption|eassumption].
      + eapply qdot_lin; [|eassumption|eassumption|eassumption]. intros; apply CI; auto.
      + eapply qdot_lin; [|eassumption|eassumption|eassumption]. intros; apply CI; auto.
    - eapply W; [exact Hj|exact Hk|eassumption|eassumption|eassumption]. }
  assert (TB : same_disp d2 e2).
  { destruct Sb, SD1, SE1, SD2, SE2; split; congruence. }
  assert (TC : same_disp d2 f2).
  { destruct Sc, SD1, SF1, SD2, SF2; split; congruence. }
  assert (TA : same_disp (b_disp a) d2) by (eapply same_disp_trans; eauto).
  subst a' b' c' a0 a1 a2. destruct R as [_ lb lc cb cc _ _ _ va vb vc]. split; try assumption.
  - split; try assumption.
    + destruct Sb, TB; split; assumption.
    + destruct Sc, TC; split; assumption.
  - unfold b_disp. cbn [b_set_core b_set b_core set_i_disp k_disp]. rewrite (sd_n _ _ TA). exact DN.
  - unfold b_disp. cbn [b_set_core b_set b_core set_i_disp k_disp]. rewrite (sd_nx _ _ TA). exact DX.
Qed.
Lemma brel_probes t ty tz a b c a' b' c' : brel a b c ->
  bundle_update_probes t a = Ok a' -> bundle_update_probes ty b = Ok b' -> bundle_update_probes tz c = Ok c' -> brel a' b' c'.
Proof.
  intros R Ha Hb Hc. unfold bundle_update_probes in *. inv_bind Ha. apply OkI in Ha. inv_bind Hb. apply OkI in Hb. inv_bind Hc. apply OkI in Hc. subst.
  destruct R as [[[] [] ? ? ? ? ?] ? ? ? ? ? ? ? ? ? ?]. split; try assumption. split; try assumption; split; assumption.
Qed.

(** *** circuits during a run *)
Variable LA : lapack NumR.
Hypothesis LAok : lapack_ok LA.
Implicit Types u v w : network NumR.
(** the system of one step has at most one solution *)
Definition determined w (dt : R) : Prop := forall (y x : nat -> R),
  (forall i, (i < w_nodes w)%nat -> sumR (w_nodes w) (fun j => (nLen w i * nCap w i j / dt - nG w i j - nQ w i j / dt) * y j) - sumR (w_ns w) (fun j => nO w i j * x j) = 0) ->
  (forall i, (i < w_ns w)%nat -> sumR (w_nodes w) (fun j => - dt * nB w i j * y j) + sumR (w_ns w) (fun j => (@delta NumR i j - dt * nM w i j) * x j) = 0) ->
  (forall i, (i < w_nodes w)%nat -> y i = 0) /\ (forall i, (i < w_ns w)%nat -> x i = 0).
Lemma regular_det w w' t (dt : R) : regular LA -> fresh_terms w dt -> nw_advance_voltage LA w t dt = Ok w' -> determined w dt.
Proof.
  intros Rg (wt & Ht & Eab) H y x H1 H2. unfold nw_advance_voltage in H. inv_bind H. cbv zeta in H.
  unfold compute_v_terms in Ht. destruct (w_csize w =? w_nodes w)%nat; cbn [negb] in Ht; [|discriminate Ht]. cbv zeta in Ht.
  destruct (w_AB w) as [[[A B1] B2]|] eqn:Ew; [|discriminate H].
  apply (f_equal (fun r => match r with Ok a => w_AB a | _ => None end)) in Ht. cbn [w_AB] in Ht. rewrite Eab in Ht.
  injection Ht as EA _ _. inv_bind H. apply of_option_Ok in Ha0. set (nn := w_nodes w) in *. set (ns := w_ns w) in *.
  assert (Hc : forall i j, (i < nn)%nat -> (j < nn)%nat -> get2 (w_dxc w) i j = nLen w i * nCap w i j).
  { intros i j Hi Hj. unfold w_dxc. fold nn. now rewrite get2_mk2. }
  assert (GA : forall i j, (i < nn + ns)%nat -> (j < nn + ns)%nat -> get2 A i j =
     if (i <? nn)%nat then if (j <? nn)%nat then get2 (w_dxc w) i j / dt - get2 (w_P1 w) i j - get2 (w_Q1 w) i j / dt else - get2 (w_O w) i (j - nn)
     else if (j <? nn)%nat then - dt * get2 (w_N1 w) (i - nn) j else @delta NumR (i - nn) (j - nn) - dt * get2 (w_M w) (i - nn) (j - nn)).
  { intros i j Hi Hj. rewrite <- EA. exact (get2_mk2 _ _ _ _ _ Hi Hj). }
  pose (z k := if (k <? nn)%nat then y k else x (k - nn)%nat).
  pose proof (Rg _ _ _ _ Ha0 z) as Z. clear EA Ha0 H Ha Ew.
  assert (Z0 : forall k, (k < nn + ns)%nat -> z k = 0).
  { apply Z. clear Z. intros i Hi. change (@sumn NumR) with sumR. rewrite sumR_split.
    rewrite (sumR_ext nn (fun k => get2 A i k * z k) (fun k => get2 A i k * y k)) by (intros k Hk; unfold z; rewrite (proj2 (Nat.ltb_lt k nn)) by lia; reflexivity).
    rewrite (sumR_ext ns (fun k => get2 A i (nn + k) * z (nn + k)%nat) (fun k => get2 A i (nn + k) * x k)).
    2:{ intros k Hk. unfold z. rewrite (proj2 (Nat.ltb_ge (nn + k) nn)) by lia. replace (nn + k - nn)%nat with k by lia. reflexivity. }
    destruct (Nat.lt_ge_cases i nn) as [Li|Li].
    - rewrite <- (H1 i Li). match goal with |- ?a + ?b = ?c - ?d => replace b with (- d); [replace a with c; [apply eq_refl || (unfold Rminus; reflexivity)|]|] end.
      + apply sumR_ext; intros k Hk; rewrite GA by lia; rewrite (proj2 (Nat.ltb_lt i nn)) by lia. rewrite (proj2 (Nat.ltb_lt k nn)) by lia. rewrite Hc by lia. reflexivity.
      + rewrite <- sumR_opp. apply sumR_ext; intros k Hk; rewrite GA by lia; rewrite (proj2 (Nat.ltb_lt i nn)) by lia.
        rewrite (proj2 (Nat.ltb_ge (nn + k) nn)) by lia. replace (nn + k - nn)%nat with k by lia. unfold nO. rsimpl. ring.
    - rewrite <- (H2 (i - nn)%nat ltac:(lia)). f_equal; apply sumR_ext; intros k Hk; rewrite GA by lia; rewrite (proj2 (Nat.ltb_ge i nn)) by lia.
      + rewrite (proj2 (Nat.ltb_lt k nn)) by lia. reflexivity.
      + rewrite (proj2 (Nat.ltb_ge (nn + k) nn)) by lia. replace (nn + k - nn)%nat with k by lia. reflexivity. }
  split; intros i Hi.
  - specialize (Z0 i ltac:(lia)). unfold z in Z0. rewrite (proj2 (Nat.ltb_lt i nn)) in Z0 by lia. exact Z0.
  - specialize (Z0 (nn + i)%nat ltac:(lia)). unfold z in Z0. rewrite (proj2 (Nat.ltb_ge (nn + i) nn)) in Z0 by lia. replace (nn + i - nn)%nat with i in Z0 by lia. exact Z0.
Qed.

Record nrel (dt : R) u v w : Prop := {
  q_sum : csum u v w;
  q_su : nshape u; q_sv : nshape v; q_sw : nshape w;
  q_tu : fresh_terms u dt; q_tv : fresh_terms v dt; q_tw : fresh_terms w dt;
  q_det : regular LA \/ determined u dt
}.
Lemma volt_fields w w' t dt : nw_advance_voltage LA w t dt = Ok w' ->
  same_circuit w w' /\ w_AB w' = w_AB w /\ w_i w' = w_i w /\ w_vprev w' = w_v w /\ w_vsrc w' = w_vsrc w /\ w_eT w' = w_eT w.
Proof.
  intros H. unfold nw_advance_voltage in H. inv_bind H. cbv zeta in H. destruct (w_AB w) as [[[A B1] B2]|] eqn:E; [|discriminate H]. inv_bind H. apply OkI in H. subst w'.
  split; [split; reflexivity|]. repeat (split; [first [reflexivity|exact E|symmetry; exact E]|]). reflexivity.
Qed.
Lemma same_circuit_obs w w' : same_circuit w w' -> (forall i, nLen w' i = nLen w i) /\ (forall i j, nCap w' i j = nCap w i j) /\ (forall i j, nG w' i j = nG w i j) /\
  (forall i j, nGs w' i j = nGs w i j) /\ (forall i j, nQ w' i j = nQ w i j) /\ (forall i j, nQs w' i j = nQs w i j) /\ (forall i j, nO w' i j = nO w i j) /\
  (forall i j, nM w' i j = nM w i j) /\ (forall i j, nB w' i j = nB w i j) /\ (forall i j, nBs w' i j = nBs w i j).
Proof.
  intros []. unfold nLen, nCap, nG, nGs, nQ, nQs, nO, nM, nB, nBs.
  repeat match goal with |- _ /\ _ => split end; intros; congruence.
Qed.
Lemma same_circuit_trans u v w : same_circuit u v -> same_circuit v w -> same_circuit u w.
Proof. intros [] []; split; congruence. Qed.
Lemma same_circuit_sym u v : same_circuit u v -> same_circuit v u.
Proof. intros []; split; congruence. Qed.
Lemma det_keep u v (dt : R) : same_circuit u v -> determined u dt -> determined v dt.
Proof.
  intros S D y x H1 H2. destruct (same_circuit_obs _ _ S) as (O1 & O2 & O3 & O4 & O5 & O6 & O7 & O8 & O9 & O10).
  rewrite (sc_nodes _ _ S), (sc_ns _ _ S) in *. apply D.
  - intros i Hi. rewrite <- (H1 i Hi). f_equal; apply sumR_ext; intros j Hj; now rewrite ?O1, ?O2, ?O3, ?O5, ?O7.
  - intros i Hi. rewrite <- (H2 i Hi). f_equal; apply sumR_ext; intros j Hj; now rewrite ?O8, ?O9.
Qed.
Lemma fresh_keep w w' (dt : R) : same_circuit w w' -> w_AB w' = w_AB w -> fresh_terms w dt -> fresh_terms w' dt.
Proof.
  intros S E (wt & Ht & Eab). unfold fresh_terms, compute_v_terms in *. rewrite (sc_cs _ _ S), (sc_nodes _ _ S). destruct (w_csize w =? w_nodes w)%nat; cbn [negb] in *; [|discriminate Ht].
  cbv zeta in *. apply OkI in Ht. eexists. split; [reflexivity|]. rewrite E, <- Eab. subst wt. cbn [w_AB]. destruct S. unfold w_dxc. repeat match goal with H : ?f w' = ?f w |- _ => rewrite ?H; clear H end. reflexivity.
Qed.
Lemma lin_div x y z d : lin x y z -> lin (x / d) (y / d) (z / d).
Proof. unfold SpecDyn.lin. intros ->. unfold Rdiv. ring. Qed.
Lemma nrel_volt (t dt : R) u v w u' v' w' : looks t dt -> nrel dt u v w ->
  nw_advance_voltage LA u t dt = Ok u' -> nw_advance_voltage LA v (t + dy : NumR) dt = Ok v' -> nw_advance_voltage LA w (t + dz : NumR) dt = Ok w' -> nrel dt u' v' w'.
Proof.
  intros (K0 & K1 & K2 & _) [[Suv Suw CV CP CI CX CS CF] su sv sw tu tv tw D] Hu Hv Hw.
  destruct (volt_fields _ _ _ _ Hu) as (Fu & Au & Iu & Pu & Vu & Eu). destruct (volt_fields _ _ _ _ Hv) as (Fv & Av & Iv & Pv & Vv & Ev). destruct (volt_fields _ _ _ _ Hw) as (Fw & Aw & Iw & Pw & Vw & Ew).
  assert (D' : determined u dt) by (destruct D as [D|D]; [eapply regular_det; eauto|exact D]).
  destruct (step_system LA LAok u u' t dt su tu Hu) as [NU XU]. destruct (step_system LA LAok v v' (t + dy) dt sv tv Hv) as [NV XV]. destruct (step_system LA LAok w w' (t + dz) dt sw tw Hw) as [NW XW].
  destruct (same_circuit_obs _ _ Suv) as (O1 & O2 & O3 & O4 & O5 & O6 & O7 & O8 & O9 & O10).
  destruct (same_circuit_obs _ _ Suw) as (P1 & P2 & P3 & P4 & P5 & P6 & P7 & P8 & P9 & P10).
  rewrite (sc_nodes _ _ Suv), (sc_ns _ _ Suv) in NV, XV. rewrite (sc_nodes _ _ Suw), (sc_ns _ _ Suw) in NW, XW.
  assert (K : (forall i, (i < w_nodes u)%nat -> nV w' i - al * nV u' i - be * nV v' i = 0) /\ (forall i, (i < w_ns u)%nat -> nX w' i - al * nX u' i - be * nX v' i = 0)).
  { apply D'.
    - intros i Hi. specialize (NU i Hi). specialize (NV i Hi). specialize (NW i Hi). cbv zeta in NU, NV, NW.
      match type of NU with ?l = ?r => assert (Ru : lin r (sumR (w_nodes u) (fun j => (nLen v i * nCap v i j / dt - nG v i j - nQ v i j / dt) * nV v' j) - sumR (w_ns u) (fun j => nO v i j * nX v' j))
        (sumR (w_nodes u) (fun j => (nLen w i * nCap w i j / dt - nG w i j - nQ w i j / dt) * nV w' j) - sumR (w_ns u) (fun j => nO w i j * nX w' j))) end.
      { rewrite NV, NW. clear NU NV NW XU XV XW. apply lin_add; [apply lin_add|].
        - apply lin_sum. intros j Hj. rewrite O1, O2, O5, P1, P2, P5. apply lin_mul, CV; auto.
        - apply lin_sum. intros j Hj. rewrite O4, O6, P4, P6. apply lin_mul, CS; auto; rsimpl; ring.
        - apply lin_sub; [apply lin_sub; [apply lin_sub|]|].
          + unfold circuit_current. rewrite (sc_nodes _ _ Suv), (sc_ns _ _ Suv), (sc_nodes _ _ Suw), (sc_ns _ _ Suw). repeat apply lin_add.
            * apply lin_sum. intros j Hj. rewrite O7, P7. apply lin_mul, CX; auto.
            * apply lin_sum. intros j Hj. rewrite O3, P3. apply lin_mul, CV; auto.
            * apply lin_sum. intros j Hj. rewrite O4, P4. apply lin_mul, CS; auto; rsimpl; ring.
            * apply lin_div, lin_sum. intros j Hj. rewrite O5, P5. apply lin_mul, lin_sub; [apply CV|apply CP]; auto.
            * apply lin_div, lin_sum. intros j Hj. rewrite O6, P6. apply lin_mul, lin_sub; apply CS; auto; rsimpl; ring.
          + apply lin_div, lin_sum. intros j Hj. rewrite O6, P6. apply lin_mul, CS; auto; rsimpl; ring.
          + apply lin_mul, CI; auto.
          + apply lin_div, lin_sum. intros j Hj. rewrite O1, O2, P1, P2. apply lin_mul, lin_sub; apply CF; auto; rsimpl; ring. }
      rewrite <- NU in Ru. clear NU NV NW XU XV XW. unfold SpecDyn.lin in Ru.
      rewrite (sumR_ext _ (fun j => (nLen u i * nCap u i j / dt - nG u i j - nQ u i j / dt) * (nV w' j - al * nV u' j - be * nV v' j))
        (fun j => (nLen w i * nCap w i j / dt - nG w i j - nQ w i j / dt) * nV w' j - al * ((nLen u i * nCap u i j / dt - nG u i j - nQ u i j / dt) * nV u' j) - be * ((nLen v i * nCap v i j / dt - nG v i j - nQ v i j / dt) * nV v' j)))
        by (intros j Hj; rewrite O1, O2, O3, O5, P1, P2, P3, P5; rring).
      rewrite (sumR_ext _ (fun j => nO u i j * (nX w' j - al * nX u' j - be * nX v' j)) (fun j => nO w i j * nX w' j - al * (nO u i j * nX u' j) - be * (nO v i j * nX v' j)))
        by (intros j Hj; rewrite O7, P7; rring).
      rewrite !sumR_minus, !sumR_scal. lra.
    - intros i Hi. specialize (XU i Hi). specialize (XV i Hi). specialize (XW i Hi). cbv zeta in XU, XV, XW.
      match type of XU with ?l = ?r => assert (Ru : lin r (sumR (w_nodes u) (fun j => - dt * nB v i j * nV v' j) + sumR (w_ns u) (fun j => (@delta NumR i j - dt * nM v i j) * nX v' j))
        (sumR (w_nodes u) (fun j => - dt * nB w i j * nV w' j) + sumR (w_ns u) (fun j => (@delta NumR i j - dt * nM w i j) * nX w' j))) end.
      { rewrite XV, XW. clear NU NV NW XU XV XW. apply lin_add; [apply CX; auto|]. apply lin_sum. intros j Hj. rewrite O10, P10. apply lin_mul, CS; auto; rsimpl; ring. }
      rewrite <- XU in Ru. clear NU NV NW XU XV XW. unfold SpecDyn.lin in Ru.
      rewrite (sumR_ext _ (fun j => - dt * nB u i j * (nV w' j - al * nV u' j - be * nV v' j))
        (fun j => - dt * nB w i j * nV w' j - al * (- dt * nB u i j * nV u' j) - be * (- dt * nB v i j * nV v' j))) by (intros j Hj; rewrite O9, P9; rring).
      rewrite (sumR_ext _ (fun j => (@delta NumR i j - dt * nM u i j) * (nX w' j - al * nX u' j - be * nX v' j))
        (fun j => (@delta NumR i j - dt * nM w i j) * nX w' j - al * ((@delta NumR i j - dt * nM u i j) * nX u' j) - be * ((@delta NumR i j - dt * nM v i j) * nX v' j)))
        by (intros j Hj; rewrite O8, P8; rring).
      rewrite !sumR_minus, !sumR_scal. lra. }
  destruct K as [KV KX]. split; [|exact (proj1 (volt_shape LA _ _ _ _ su Hu))|exact (proj1 (volt_shape LA _ _ _ _ sv Hv))|exact (proj1 (volt_shape LA _ _ _ _ sw Hw))|exact (fresh_keep _ _ dt Fu Au tu)|exact (fresh_keep _ _ dt Fv Av tv)|exact (fresh_keep _ _ dt Fw Aw tw)|].
  - split; rewrite ?(sc_nodes _ _ Fu), ?(sc_ns _ _ Fu).
    + exact (same_circuit_trans _ _ _ (same_circuit_sym _ _ Fu) (same_circuit_trans _ _ _ Suv Fv)).
    + exact (same_circuit_trans _ _ _ (same_circuit_sym _ _ Fu) (same_circuit_trans _ _ _ Suw Fw)).
    + intros i Hi. unfold SpecDyn.lin. specialize (KV i Hi). lra.
    + intros i Hi. unfold nVprev. rewrite Pu, Pv, Pw. apply CV; auto.
    + intros i Hi. unfold nI. rewrite Iu, Iv, Iw. apply CI; auto.
    + intros i Hi. unfold SpecDyn.lin. specialize (KX i Hi). lra.
    + intros i s sy sz Ps Ey0 Ez0 Hi. unfold nSrc. rewrite Vu, Vv, Vw. apply CS; auto.
    + intros i s sy sz Ps Ey0 Ez0 Hi. unfold nField. rewrite Eu, Ev, Ew. apply CF; auto.
  - destruct D as [D|D]; [now left|right]. exact (det_keep _ _ dt Fu D).
Qed.

(** currents read back from the bundles *)
Notation brels := (Forall3 (named_sum brel)).
Lemma read_lin (d e f : bdict NumR) nd x y z : brels d e f -> read_current d nd = Ok x -> read_current e nd = Ok y -> read_current f nd = Ok z -> lin x y z.
Proof.
  intros F Hx Hy Hz. unfold read_current in *. inv_bind Hx. inv_bind Hy. inv_bind Hz. apply of_option_Ok in Ha, Ha0, Ha1. cbv zeta in *.
  destruct (named_get _ _ _ _ (nd_bundle nd) F) as [(b & b' & b'' & E1 & E2 & E3 & Rb)|(E1 & _)]; [|congruence].
  assert (b = a) by congruence. assert (b' = a0) by congruence. assert (b'' = a1) by congruence. subst b b' b''.
  pose proof (r_sum _ _ _ Rb) as [Sb Sc V I Q T L]. pose proof (r_N _ _ _ Rb) as HN. unfold b_cells in HN.
  destruct (Nat.ltb_spec (nd_row nd) (k_n (b_core a))) as [Lr|]; [|discriminate Hx]. destruct (_ <? _)%nat; [|discriminate Hy]. destruct (_ <? _)%nat; [|discriminate Hz].
  apply OkI in Hx, Hy, Hz. subst x y z. apply lin_mul.
  pose proof (sb_N _ _ Sb) as E. unfold b_cells in E. rewrite E. pose proof (sb_N _ _ Sc) as E'. unfold b_cells in E'. rewrite E'.
  apply I; [exact Lr|]. unfold b_cells. destruct (nd_end nd); lia.
Qed.
Lemma nrel_curr (dt : R) (d e f : bdict NumR) u v w u' v' w' : brels d e f -> nrel dt u v w ->
  nw_update_currents u d = Ok u' -> nw_update_currents v e = Ok v' -> nw_update_currents w f = Ok w' -> nrel dt u' v' w'.
Proof.
  intros F R Hu Hv Hw. pose proof R as [[Suv Suw CV CP CI CX CS CF] su sv sw tu tv tw D].
  pose proof (proj1 (curr_shape _ _ _ su Hu)) as su'. pose proof (proj1 (curr_shape _ _ _ sv Hv)) as sv'. pose proof (proj1 (curr_shape _ _ _ sw Hw)) as sw'.
  unfold nw_update_currents in *. inv_bind Hu. apply OkI in Hu. inv_bind Hv. apply OkI in Hv. inv_bind Hw. apply OkI in Hw.
  rewrite (sc_conns _ _ Suv) in Ha0. rewrite (sc_conns _ _ Suw) in Ha1.
  assert (G : forall i, (i < w_nodes u)%nat -> lin (get a i) (get a0 i) (get a1 i)).
  { assert (X : length a = w_nodes u /\ length a0 = w_nodes u /\ length a1 = w_nodes u /\ forall i, (i < w_nodes u)%nat -> lin (get a i) (get a0 i) (get a1 i)); [|apply X].
    eapply (foldM_F3 _ _ _ (fun x y z : Z * node => y = x /\ z = x) (fun p q r : vec NumR => length p = w_nodes u /\ length q = w_nodes u /\ length r = w_nodes u /\ forall i, (i < w_nodes u)%nat -> lin (get p i) (get q i) (get r i)));
      [| |
       | exact Ha|exact Ha0|exact Ha1].
    - intros x y z p q r p' q' r' [-> ->] (L1 & L2 & L3 & Lp) E1 E2 E3. inv_bind E1. inv_bind E2. inv_bind E3. apply OkI in E1, E2, E3. subst p' q' r'.
      rewrite !length_lset. split; [exact L1|]. split; [exact L2|]. split; [exact L3|]. intros i Hi. unfold get.
      destruct (Nat.eq_dec i (nd_index (snd x))) as [<-|Ni].
      + rewrite !nth_lset_eq by lia. eapply read_lin; eauto.
      + rewrite !nth_lset_neq by congruence. apply Lp, Hi.
    - apply F3_refl. auto.
    - rewrite (sh_i _ su), (sh_i _ sv), (sh_i _ sw), (sc_nodes _ _ Suv), (sc_nodes _ _ Suw). auto. }
  subst u' v' w'. split; try assumption.
  - split; try assumption; [destruct Suv|destruct Suw]; split; assumption.
  - apply (fresh_keep u); [split; reflexivity|reflexivity|exact tu].
  - apply (fresh_keep v); [split; reflexivity|reflexivity|exact tv].
  - apply (fresh_keep w); [split; reflexivity|reflexivity|exact tw].
Qed.

(** *** one step of the whole *)
Record lrel (x y z : mtln NumR) : Prop := {
  l_b : brels (t_bundles x) (t_bundles y) (t_bundles z);
  l_n : Forall3 (Forall3 (named_sum (nrel (t_dt x)))) (t_networks x) (t_networks y) (t_networks z);
  l_dt : t_dt y = t_dt x /\ t_dt z = t_dt x;
  l_time : t_time y = t_time x + dy /\ t_time z = t_time x + dz
}.
Lemma named_map {A B} (P Q : B -> B -> B -> Prop) (f g h : B -> res B) l m n l' m' n' :
  (forall x y z x' y' z', P x y z -> f x = Ok x' -> g y = Ok y' -> h z = Ok z' -> Q x' y' z') ->
  Forall3 (named_sum P) l m n ->
  mapM (fun kb : A * B => b <- f (snd kb) ;; Ok (fst kb, b)) l = Ok l' ->
  mapM (fun kb : A * B => b <- g (snd kb) ;; Ok (fst kb, b)) m = Ok m' ->
  mapM (fun kb : A * B => b <- h (snd kb) ;; Ok (fst kb, b)) n = Ok n' -> Forall3 (named_sum Q) l' m' n'.
Proof.
  intros H F. apply mapM_F3 with (P := named_sum P); [|exact F]. intros [i x] [j y] [k z] x' y' z' (E1 & E2 & p) Hx Hy Hz. cbn [fst snd] in *.
  inv_bind Hx. apply OkI in Hx. inv_bind Hy. apply OkI in Hy. inv_bind Hz. apply OkI in Hz. subst. split; [reflexivity|]. split; [reflexivity|]. cbn [snd]. eauto.
Qed.
Lemma tiers_map (P Q : network NumR -> network NumR -> network NumR -> Prop) (f g h : network NumR -> res (network NumR)) (l m n l' m' n' : list (networkd NumR)) :
  (forall x y z x' y' z', P x y z -> f x = Ok x' -> g y = Ok y' -> h z = Ok z' -> Q x' y' z') ->
  Forall3 (Forall3 (named_sum P)) l m n ->
  mapM (fun d : networkd NumR => mapM (fun lw => w <- f (snd lw) ;; Ok (fst lw, w)) d) l = Ok l' ->
  mapM (fun d : networkd NumR => mapM (fun lw => w <- g (snd lw) ;; Ok (fst lw, w)) d) m = Ok m' ->
  mapM (fun d : networkd NumR => mapM (fun lw => w <- h (snd lw) ;; Ok (fst lw, w)) d) n = Ok n' -> Forall3 (Forall3 (named_sum Q)) l' m' n'.
Proof. intros H F. apply mapM_F3 with (P := Forall3 (named_sum P)); [|exact F]. intros. eapply named_map; eauto. Qed.
Lemma puts_lin (dt : R) (l m n : list (networkd NumR)) : Forall3 (Forall3 (named_sum (nrel dt))) l m n ->
  Forall3 (fun p q r : node * NumR => fst q = fst p /\ fst r = fst p /\ lin (snd p) (snd q) (snd r)) (puts l) (puts m) (puts n).
Proof.
  intros F. unfold puts. apply F3_flat with (P := nrel dt).
  - intros u v w [[Suv Suw CV CP CI CX CS CF] su sv sw tu tv tw D]. unfold puts_of. rewrite (sc_conns _ _ Suv), (sc_conns _ _ Suw).
    apply F3_map with (P := fun a b c => b = a /\ c = a /\ In a (w_conns u)); [|apply F3_refl; auto].
    intros a b c (-> & -> & Hi). cbn [fst snd]. split; [reflexivity|]. split; [reflexivity|]. apply CV.
    assert (In (nd_index (snd a)) (seq 0 (w_nodes u))) as I by (rewrite <- (sh_idx _ su); apply (in_map (fun kn => nd_index (snd kn))); exact Hi). apply in_seq in I. lia.
  - apply F3_flat with (P := Forall3 (named_sum (nrel dt))); [|exact F]. intros a b c Fa. unfold tiers. apply F3_map with (P := named_sum (nrel dt)); [|exact Fa]. intros x y z (_ & _ & H). exact H.
Qed.
Lemma put_all_rel (p q r : list (node * NumR)) (d e f d' e' f' : bdict NumR) :
  Forall3 (fun p q r : node * NumR => fst q = fst p /\ fst r = fst p /\ lin (snd p) (snd q) (snd r)) p q r -> brels d e f ->
  put_all p d = Ok d' -> put_all q e = Ok e' -> put_all r f = Ok f' -> brels d' e' f'.
Proof.
  intros F R. unfold put_all. apply (foldM_F3 _ _ _ _ _ _ _ _) with (2 := F); [|exact R].
  clear. intros [nd x] [nd' y] [nd'' z] d e f d' e' f' (E1 & E2 & L) R H1 H2 H3. cbn [fst snd] in *. subst nd' nd''.
  apply put_voltage_spec in H1 as (b1 & G1 & L1 & ->). apply put_voltage_spec in H2 as (b2 & G2 & _ & ->). apply put_voltage_spec in H3 as (b3 & G3 & _ & ->).
  destruct (named_get _ _ _ _ (nd_bundle nd) R) as [(b & b' & b'' & E1 & E2 & E3 & Rb)|(E1 & _)]; [|congruence].
  assert (b = b1) by congruence. assert (b' = b2) by congruence. assert (b'' = b3) by congruence. subst b b' b''.
  apply named_set; [exact R|]. apply brel_put; auto.
Qed.
Lemma lrel_step (x y z x' y' z' : mtln NumR) : looks (t_time x) (t_dt x) -> lrel x y z -> mtln_step LA x = Ok x' -> mtln_step LA y = Ok y' -> mtln_step LA z = Ok z' -> lrel x' y' z'.
Proof.
  intros K [B W [D1 D2] [T1 T2]] Hx Hy Hz.
  apply step_split in Hx as (b1 & w1 & b2 & b3 & [X1 X2 X3 X4 X5 X6 X7 X8]).
  apply step_split in Hy as (c1 & v1 & c2 & c3 & [Y1 Y2 Y3 Y4 Y5 Y6 Y7 Y8]).
  apply step_split in Hz as (d1 & u1 & d2 & d3 & [Z1 Z2 Z3 Z4 Z5 Z6 Z7 Z8]).
  rewrite D1, T1 in *. rewrite D2, T2 in *.
  assert (B1 : brels b1 c1 d1) by (eapply named_map; [|exact B|exact X1|exact Y1|exact Z1]; intros; eapply brel_voltage; eauto).
  assert (W1 : Forall3 (Forall3 (named_sum (nrel (t_dt x)))) w1 v1 u1) by (apply (tiers_map (nrel (t_dt x)) (nrel (t_dt x)) (fun w => nw_advance_voltage LA w (t_time x) (t_dt x)) (fun w => nw_advance_voltage LA w (t_time x + dy : NumR) (t_dt x)) (fun w => nw_advance_voltage LA w (t_time x + dz : NumR) (t_dt x)) _ _ _ w1 v1 u1) with (2 := W); [intros; eapply nrel_volt; eauto|exact X2|exact Y2|exact Z2]).
  assert (B2 : brels b2 c2 d2) by (eapply put_all_rel; [eapply puts_lin; exact W1|exact B1|exact X3|exact Y3|exact Z3]).
  assert (B3 : brels b3 c3 d3) by (eapply named_map; [|exact B2|exact X4|exact Y4|exact Z4]; intros; eapply brel_current; eauto).
  split; rewrite ?X7, ?Y7, ?Z7, ?X8, ?Y8, ?Z8; auto; [| |split; rsimpl; ring].
  - eapply named_map; [|exact B3|exact X6|exact Y6|exact Z6]. intros; eapply brel_probes; eauto.
  - apply (tiers_map (nrel (t_dt x)) (nrel (t_dt x)) (fun w => nw_update_currents w b3) (fun w => nw_update_currents w c3) (fun w => nw_update_currents w d3)) with (2 := W1); [intros; eapply nrel_curr; eauto|exact X5|exact Y5|exact Z5].
Qed.
Lemma lrel_steps k : forall (x y z x' y' z' : mtln NumR), (forall i, (i < k)%nat -> looks (t_time x + INR i * t_dt x) (t_dt x)) -> lrel x y z -> iterM k (mtln_step LA) x = Ok x' -> iterM k (mtln_step LA) y = Ok y' -> iterM k (mtln_step LA) z = Ok z' -> lrel x' y' z'.
Proof.
  induction k as [|k IH]; intros x y z x' y' z' K Rl Hx Hy Hz; cbn [iterM] in *; [apply OkI in Hx, Hy, Hz; subst; exact Rl|].
  assert (K0 : looks (t_time x) (t_dt x)) by (apply (looks_eq (t_time x + INR 0 * t_dt x)); [cbn [INR]; ring|apply K; lia]).
  inv_bind Hx. inv_bind Hy. inv_bind Hz. destruct (step_clock LA _ _ Ha) as [Cd Ct]. eapply IH; [|eapply lrel_step; eauto|eassumption..].
  intros i Hi. rewrite Cd, Ct. apply (looks_eq (t_time x + INR (S i) * t_dt x)); [rewrite S_INR; rsimpl; ring|apply K; lia].
Qed.
Lemma lrel_sum x y z : lrel x y z -> lsum x y z.
Proof.
  intros [B W D T]. split; auto.
  - eapply F3_impl; [|exact B]. intros p q r (E1 & E2 & R). split; [exact E1|]. split; [exact E2|apply (r_sum _ _ _ R)].
  - eapply F3_impl; [|exact W]. intros d e f F. eapply F3_impl; [|exact F]. intros p q r (E1 & E2 & R). split; [exact E1|]. split; [exact E2|apply (q_sum _ _ _ _ R)].
Qed.

(** *** the start of a run *)
Lemma lr_same (s s' t t' : core NumR) : k_n s' = k_n s -> k_N s' = k_N s -> k_h s' = k_h s -> k_l s' = k_l s -> k_r s' = k_r s -> k_dt s' = k_dt s ->
  ds_d (k_disp s') = ds_d (k_disp s) -> ds_e (k_disp s') = ds_e (k_disp s) -> ds_q1sum (k_disp s') = ds_q1sum (k_disp s) -> ds_q2sum (k_disp s') = ds_q2sum (k_disp s) ->
  update_lr_terms LA s = Ok t -> update_lr_terms LA s' = Ok t' -> k_lr t' = k_lr t.
Proof.
  intros E1 E2 E3 E4 E5 E6 E7 E8 E9 E10 H H'. unfold update_lr_terms in *. cbv zeta in *.
  assert (F1 : forall k, lr_F1 s' k = lr_F1 s k) by (intros; unfold lr_F1; cbv zeta; congruence).
  assert (F2 : forall k, lr_F2 s' k = lr_F2 s k) by (intros; unfold lr_F2; cbv zeta; congruence).
  rewrite E1, E2 in H'. rewrite (mapM_ext _ (fun k => inv LA (k_n s) (lr_F1 s k))) in H' by (intros; now rewrite F1).
  inv_bind H. rewrite Ha in H'. cbn [bind] in H'. apply OkI in H, H'. subst t t'. cbn [set_lr k_lr]. do 2 f_equal. apply mk_ext. intros k Hk. now rewrite F2.
Qed.
Lemma cg_same (s s' t t' : core NumR) : k_n s' = k_n s -> k_N s' = k_N s -> k_h s' = k_h s -> k_c s' = k_c s -> k_g s' = k_g s -> k_dt s' = k_dt s ->
  update_cg_terms LA s = Ok t -> update_cg_terms LA s' = Ok t' -> k_cg t' = k_cg t.
Proof.
  intros E1 E2 E3 E4 E5 E6 H H'. unfold update_cg_terms in *. cbv zeta in *.
  assert (F1 : forall k, cg_F1 s' k = cg_F1 s k) by (intros; unfold cg_F1, node_width; cbv zeta; now rewrite E1, E2, E3, E4, E5, E6).
  assert (F2 : forall k, cg_F2 s' k = cg_F2 s k) by (intros; unfold cg_F2, node_width; cbv zeta; now rewrite E1, E2, E3, E4, E5, E6).
  rewrite E1, E2 in H'. rewrite (mapM_ext _ (fun k => inv LA (k_n s) (cg_F1 s k))) in H' by (intros; now rewrite F1).
  inv_bind H. rewrite Ha in H'. cbn [bind] in H'. apply OkI in H, H'. subst t t'. cbn [set_cg k_cg]. do 2 f_equal. apply mk_ext. intros k Hk. now rewrite F2.
Qed.
Lemma sum_set_dt a b c (dt : R) : bsum a b c ->
  bsum (b_set_core a (set_dt (b_core a) dt)) (b_set_core b (set_dt (b_core b) dt)) (b_set_core c (set_dt (b_core c) dt)).
Proof. intros [[] [] V I Q T L]. split; try assumption; split; first [assumption|reflexivity]. Qed.
Lemma prepare_rel steps sb sc a b c a' b' c' : reachable_bundle LA a -> reachable_bundle LA b -> reachable_bundle LA c -> bsum a b c ->
  bundle_prepare LA steps a = Ok a' -> bundle_prepare LA sb b = Ok b' -> bundle_prepare LA sc c = Ok c' -> brel a' b' c'.
Proof.
  intros Ra Rb Rc S Ha Hb Hc. pose proof (reachable_vgrid LA _ Ra) as Ga. pose proof (reachable_vgrid LA _ Rb) as Gb. pose proof (reachable_vgrid LA _ Rc) as Gc.
  pose proof (bundle_cells LA _ Ra) as HN. destruct Ra as [a0 Ra]. destruct (history_binv LA _ _ Ra) as [Ia _].
  unfold bundle_prepare in *. inv_bind Ha. rename a1 into s1, Ha0 into S1. inv_bind Ha. rename a1 into s2, Ha0 into S2. apply OkI in Ha.
  inv_bind Hb. rename a1 into t1, Ha0 into T1. inv_bind Hb. rename a1 into t2, Ha0 into T2. apply OkI in Hb.
  inv_bind Hc. rename a1 into u1, Ha0 into U1. inv_bind Hc. rename a1 into u2, Ha0 into U2. apply OkI in Hc.
  pose proof S as [Sb Sc V I Q T L].
  assert (Eb : k_lr t1 = k_lr s1) by (destruct Sb; eapply (lr_same (b_core a) (b_core b)); eauto).
  assert (Ec : k_lr u1 = k_lr s1) by (destruct Sc; eapply (lr_same (b_core a) (b_core c)); eauto).
  destruct (update_lr_inv _ _ _ S1) as [ls Es]. destruct (update_lr_inv _ _ _ T1) as [lt Et]. destruct (update_lr_inv _ _ _ U1) as [lu Eu].
  assert (Fb : k_cg t2 = k_cg s2) by (subst s1 t1; destruct Sb; eapply (cg_same (set_lr (b_core a) ls) (set_lr (b_core b) lt)); eauto).
  assert (Fc : k_cg u2 = k_cg s2) by (subst s1 u1; destruct Sc; eapply (cg_same (set_lr (b_core a) ls) (set_lr (b_core c) lu)); eauto).
  destruct (update_cg_inv _ _ _ S2) as [cs Es2]. destruct (update_cg_inv _ _ _ T2) as [ct Et2]. destruct (update_cg_inv _ _ _ U2) as [cu Eu2].
  subst s1 t1 u1. subst s2 t2 u2. subst a' b' c'.
  split; try assumption.
  - split; try assumption; [destruct Sb|destruct Sc]; split; assumption.
  - exact (bi_n _ Ia).
  - exact (bi_nx _ Ia).
Qed.
Lemma terms_fields w w' dt : compute_v_terms w dt = Ok w' ->
  same_circuit w w' /\ w_v w' = w_v w /\ w_vprev w' = w_vprev w /\ w_i w' = w_i w /\ w_X w' = w_X w /\ w_vsrc w' = w_vsrc w /\ w_eT w' = w_eT w.
Proof.
  intros H. unfold compute_v_terms in H. destruct (negb _); [discriminate H|]. cbv zeta in H. apply OkI in H. subst w'.
  split; [split; reflexivity|]. repeat (split; [reflexivity|]). reflexivity.
Qed.
Lemma terms_fresh w w' dt : compute_v_terms w dt = Ok w' -> fresh_terms w' dt.
Proof.
  intros H. pose proof H as H'. unfold fresh_terms. unfold compute_v_terms in H. destruct (negb _) eqn:E; [discriminate H|]. cbv zeta in H. apply OkI in H. subst w'.
  unfold compute_v_terms. cbn [w_csize w_nodes]. rewrite E. cbv zeta. eexists. split; reflexivity.
Qed.
Lemma terms_rel (dt : R) u v w u' v' w' : nshape u -> nshape v -> nshape w -> csum u v w -> regular LA \/ determined u dt ->
  compute_v_terms u dt = Ok u' -> compute_v_terms v dt = Ok v' -> compute_v_terms w dt = Ok w' -> nrel dt u' v' w'.
Proof.
  intros su sv sw [Suv Suw CV CP CI CX CS CF] D Hu Hv Hw.
  destruct (terms_fields _ _ _ Hu) as (Fu & V1 & P1 & I1 & X1 & S1 & E1). destruct (terms_fields _ _ _ Hv) as (Fv & V2 & P2 & I2 & X2 & S2 & E2). destruct (terms_fields _ _ _ Hw) as (Fw & V3 & P3 & I3 & X3 & S3 & E3).
  split; [|exact (proj1 (terms_shape _ _ _ su Hu))|exact (proj1 (terms_shape _ _ _ sv Hv))|exact (proj1 (terms_shape _ _ _ sw Hw))|eapply terms_fresh; eauto|eapply terms_fresh; eauto|eapply terms_fresh; eauto|].
  - split; rewrite ?(sc_nodes _ _ Fu), ?(sc_ns _ _ Fu).
    + exact (same_circuit_trans _ _ _ (same_circuit_sym _ _ Fu) (same_circuit_trans _ _ _ Suv Fv)).
    + exact (same_circuit_trans _ _ _ (same_circuit_sym _ _ Fu) (same_circuit_trans _ _ _ Suw Fw)).
    + intros. unfold nV. rewrite V1, V2, V3. apply CV; auto.
    + intros. unfold nVprev. rewrite P1, P2, P3. apply CP; auto.
    + intros. unfold nI. rewrite I1, I2, I3. apply CI; auto.
    + intros. unfold nX. rewrite X1, X2, X3. apply CX; auto.
    + intros i s sy sz Ps Ey0 Ez0 Hi. unfold nSrc. rewrite S1, S2, S3. apply CS; auto.
    + intros i s sy sz Ps Ey0 Ez0 Hi. unfold nField. rewrite E1, E2, E3. apply CF; auto.
  - destruct D as [D|D]; [now left|right; exact (det_keep _ _ dt Fu D)].
Qed.

Lemma F3_in {A} (P : A -> A -> A -> Prop) l m n : Forall3 P l m n -> Forall3 (fun x y z => P x y z /\ In x l /\ In y m /\ In z n) l m n.
Proof.
  induction 1 as [|x y z l m n p F IH]; constructor; [split; [exact p|]; split; [now left|]; split; now left|].
  eapply F3_impl; [|exact IH]. intros a b c (H & H1 & H2 & H3). split; [exact H|]. split; [now right|]. split; now right.
Qed.
Lemma start_rel (x y z : mtln NumR) (T Ty Tz dt : R) k x' y' z' : ninv LA x -> ninv LA y -> ninv LA z -> lsum x y z ->
  (regular LA \/ forall w, In w (nets x) -> determined w (t_dt (override_dt x dt))) ->
  (forall i, (i < k)%nat -> looks (t_time x + INR i * t_dt (override_dt x dt)) (t_dt (override_dt x dt))) ->
  reaches LA x T dt k x' -> reaches LA y Ty dt k y' -> reaches LA z Tz dt k z' -> lrel x' y' z'.
Proof.
  intros Nx Ny Nz [B W [D1 D2] [T1 T2]] D LK Rx Ry Rz.
  pose proof Rx as (wx & sx & px & X1 & X2 & X3 & X4 & X5). pose proof Ry as (wy & sy & py & Y1 & Y2 & Y3 & Y4 & Y5). pose proof Rz as (wz & sz & pz & Z1 & Z2 & Z3 & Z4 & Z5).
  assert (O : forall q, (t_dt q = t_dt x) -> t_dt (override_dt q dt) = t_dt (override_dt x dt)) by (intros q Hq; unfold override_dt; destruct (negb _); [reflexivity|exact Hq]).
  pose proof (O y D1) as Oy. pose proof (O z D2) as Oz. rewrite Oy in *. rewrite Oz in *.
  destruct (override_keys x dt) as (_ & Kx & Kx'). destruct (override_keys y dt) as (_ & Ky & Ky'). destruct (override_keys z dt) as (_ & Kz & Kz').
  rewrite Kx in X1. rewrite Ky in Y1. rewrite Kz in Z1.
  destruct (prepare_rest LA _ _ _ X4) as (P1 & P2 & P3 & _).
  apply (lrel_steps k px py pz); [cbn [t_set t_networks t_dt t_time] in *; rewrite P2, P3, Kx'; exact LK| |exact X5|exact Y5|exact Z5].
  destruct (prepare_rest LA _ _ _ Y4) as (Q1 & Q2 & Q3 & _). destruct (prepare_rest LA _ _ _ Z4) as (S1 & S2 & S3 & _).
  cbn [t_set t_networks t_dt t_time] in *.
  assert (Shape : forall q w, ninv LA q -> In w (nets q) -> nshape w).
  { intros q w Nq Hw. pose proof (nv_nets _ _ Nq) as F. rewrite Forall_forall in F. destruct (F w Hw) as (ds & Hh). eapply history_shape; eauto. }
  assert (InT : forall q d (lw : nat * network NumR), In d (t_networks q) -> In lw d -> In (snd lw) (nets q)).
  { intros q d lw H1 H2. unfold nets. apply in_flat_map. exists d. split; [exact H1|]. unfold tiers. now apply in_map. }
  split.
  - unfold mtln_prepare in X4, Y4, Z4. inv_bind X4. apply OkI in X4. inv_bind Y4. apply OkI in Y4. inv_bind Z4. apply OkI in Z4. subst px py pz. cbn [t_set t_bundles] in *.
    eapply (named_map (fun a b c => reachable_bundle LA a /\ reachable_bundle LA b /\ reachable_bundle LA c /\ bsum a b c)); [|
      |exact Ha|exact Ha0|exact Ha1].
    + intros a2 b2 c2 a3 b3 c3 (R1 & R2 & R3 & S) H1 H2 H3. exact (prepare_rel sx sy sz _ _ _ _ _ _ R1 R2 R3 S H1 H2 H3).
    + pose proof (nv_reach _ _ Nx) as Fx. pose proof (nv_reach _ _ Ny) as Fy. pose proof (nv_reach _ _ Nz) as Fz. rewrite Forall_forall in Fx, Fy, Fz.
      assert (G : Forall3 (named_sum (fun a b c => reachable_bundle LA a /\ reachable_bundle LA b /\ reachable_bundle LA c /\ bsum a b c)) (t_bundles x) (t_bundles y) (t_bundles z)).
      { eapply F3_impl; [|apply F3_in; exact B]. cbv beta. intros p q r ((E1 & E2 & S) & I1 & I2 & I3). split; [exact E1|]. split; [exact E2|]. auto. }
      unfold override_dt. destruct (negb _); [|exact G]. cbn [t_bundles]. unfold set_all_dt. apply F3_map with (2 := G). cbn [fst snd]. intros p q r (E1 & E2 & R1 & R2 & R3 & S).
      split; [exact E1|]. split; [exact E2|]. cbn [snd]. split; [now apply set_dt_reach|]. split; [now apply set_dt_reach|]. split; [now apply set_dt_reach|]. now apply sum_set_dt.
  - rewrite P1, Q1, S1, P2.
    eapply (tiers_map (fun u v w => nshape u /\ nshape v /\ nshape w /\ csum u v w /\ (regular LA \/ determined u (t_dt (override_dt x dt)))) _ (fun w => compute_v_terms w (t_dt (override_dt x dt))) (fun w => compute_v_terms w (t_dt (override_dt x dt))) (fun w => compute_v_terms w (t_dt (override_dt x dt)))); [|
      |exact X1|exact Y1|exact Z1].
    + intros u v w u' v' w' (su & sv & sw & S & Du) H1 H2 H3. exact (terms_rel _ _ _ _ _ _ _ su sv sw S Du H1 H2 H3).
    + eapply F3_impl; [|apply F3_in; exact W]. cbv beta. intros d e f (F & I1 & I2 & I3). eapply F3_impl; [|apply F3_in; exact F]. cbv beta.
      intros p q r ((E1 & E2 & S) & J1 & J2 & J3). split; [exact E1|]. split; [exact E2|].
      split; [eapply Shape; [exact Nx|eapply InT; eauto]|]. split; [eapply Shape; [exact Ny|eapply InT; eauto]|]. split; [eapply Shape; [exact Nz|eapply InT; eauto]|].
      split; [exact S|]. destruct D as [D|D]; [now left|right; apply D; eapply InT; eauto].
  - rewrite P2, Q2, S2. auto.
  - rewrite P3, Q3, S3, Kx', Ky', Kz'. auto.
Qed.
End S.

(** *** one clock, fields and sources related at all times *)
Notation always := (fun _ : R => True).
Lemma bsum_always al be a b c : bundle_sum al be a b c <-> bsum al be 0 0 always a b c.
Proof.
  split; intros [A B V I Q T L]; split; auto.
  - intros j k t ty tz _ -> -> Hj Hk. rewrite Rplus_0_r. auto.
  - intros j k t ty tz _ -> -> Hj Hk. rewrite Rplus_0_r. auto.
  - intros j k t Hj Hk. apply T; auto; ring.
  - intros j k t Hj Hk. apply L; auto; ring.
Qed.
Lemma csum_always al be u v w : circuit_sum al be u v w <-> csum al be 0 0 always u v w.
Proof.
  split; intros [A B V P I X S F]; split; auto.
  - intros i t ty tz _ -> -> Hi. rewrite Rplus_0_r. auto.
  - intros i t ty tz _ -> -> Hi. rewrite Rplus_0_r. auto.
  - intros i t Hi. apply S; auto; rsimpl; ring.
  - intros i t Hi. apply F; auto; rsimpl; ring.
Qed.
Lemma named_iff {A B} (P Q : B -> B -> B -> Prop) (l m n : list (A * B)) : (forall a b c, P a b c <-> Q a b c) -> Forall3 (named_sum P) l m n <-> Forall3 (named_sum Q) l m n.
Proof. intros H. split; apply F3_impl; intros p q r (E1 & E2 & K); (split; [exact E1|]; split; [exact E2|]); now apply H. Qed.
Lemma lsum_always al be x y z : lines_sum al be x y z <-> lsum al be 0 0 always x y z.
Proof.
  assert (E : forall t : R, t + 0 = t) by (intros; ring).
  split; intros [B W D [T1 T2]]; split; auto.
  - revert B. apply named_iff. intros a b c. pose proof (bsum_always al be a b c). tauto.
  - revert W. apply F3_impl. intros p q r. apply named_iff. intros u v w. pose proof (csum_always al be u v w). tauto.
  - split; [rewrite T1|rewrite T2]; symmetry; apply E.
  - revert B. apply named_iff. intros a b c. pose proof (bsum_always al be a b c). tauto.
  - revert W. apply F3_impl. intros p q r. apply named_iff. intros u v w. pose proof (csum_always al be u v w). tauto.
  - split; [rewrite T1|rewrite T2]; apply E.
Qed.
Lemma looks_always t dt : looks always t dt.
Proof. repeat split. Qed.
