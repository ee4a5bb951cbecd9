(** Proofs of the statements of PropGeom.v: constructor checks, geometry, default time step,
    probe boxes, clean copies. *)
From Coq Require Import String List Arith ZArith Bool Lia Reals Lra.
From Verif Require Import Num Py Arr ArrFacts NumR RFacts LapackR Utils Probes Dispersive Line LineFacts SpecLine SpecGeom SpecR
  HistoryFacts GeometryFacts PlainFacts TotalFacts NearestFacts Bundle WaveProps.
Import ListNotations.

Section Parts.
Context {N : num}.
Variable LA : lapack N.

(** the vertices the constructor uses *)

Lemma new_parts ju jdu l c r g len np ndiv zs zl name m :
  mtl_new LA ju jdu l c r g len np ndiv zs zl name = Ok m ->
  init_LC (total ndiv) l c = Ok (k_l (m_core m), k_c (m_core m), conductors m) /\
  init_RG (total ndiv) (conductors m) r g = Ok (k_r (m_core m), k_g (m_core m)) /\
  init_Zt (conductors m) zs zl = Ok (m_zs m, m_zl m) /\
  geometry (conductors m) (vertices len np) ndiv ju jdu = Ok (m_u m, m_du m, k_h (m_core m)) /\
  cells m = total ndiv.
Proof.
  intros H. unfold mtl_new in H. fold (vertices len np) in H. fold (total ndiv) in H.
  inv_bind H. destruct a as [[l' c'] n]. inv_bind H. destruct a as [r' g'].
  inv_bind H. destruct a as [zs' zl']. inv_bind H. destruct a as [[u du] h].
  inv_bind H. inv_bind H. destruct a0. inv_bind H. destruct a0. injection H as <-.
  cbn [m_core m_u m_du m_zs m_zl k_l k_c k_r k_g k_h conductors cells k_n k_N set_disp set_dt]. auto.
Qed.

(** a failing check makes the constructor raise that error *)
Lemma new_LC_err ju jdu l c r g len np ndiv zs zl name e :
  init_LC (total ndiv) l c = Err e -> mtl_new LA ju jdu l c r g len np ndiv zs zl name = Err e.
Proof. intros H. unfold mtl_new. fold (total ndiv). now rewrite H. Qed.
Lemma new_RG_err ju jdu l c r g len np ndiv zs zl name l' c' n e :
  init_LC (total ndiv) l c = Ok (l', c', n) -> init_RG (total ndiv) n r g = Err e ->
  mtl_new LA ju jdu l c r g len np ndiv zs zl name = Err e.
Proof. intros H1 H2. unfold mtl_new. fold (total ndiv). rewrite H1. cbn [bind]. now rewrite H2. Qed.
Lemma new_Zt_err ju jdu l c r g len np ndiv zs zl name l' c' n rg e :
  init_LC (total ndiv) l c = Ok (l', c', n) -> init_RG (total ndiv) n r g = Ok rg -> init_Zt n zs zl = Err e ->
  mtl_new LA ju jdu l c r g len np ndiv zs zl name = Err e.
Proof.
  intros H1 H2 H3. unfold mtl_new. fold (total ndiv). rewrite H1. cbn [bind]. rewrite H2. cbn [bind].
  destruct rg as [r' g']. now rewrite H3.
Qed.
Lemma new_geo_err ju jdu l c r g len np ndiv zs zl name l' c' n rg z e :
  init_LC (total ndiv) l c = Ok (l', c', n) -> init_RG (total ndiv) n r g = Ok rg -> init_Zt n zs zl = Ok z ->
  geometry n (vertices len np) ndiv ju jdu = Err e ->
  mtl_new LA ju jdu l c r g len np ndiv zs zl name = Err e.
Proof.
  intros H1 H2 H3 H4. unfold mtl_new. fold (total ndiv). rewrite H1. cbn [bind]. rewrite H2. cbn [bind].
  destruct rg as [r' g']. rewrite H3. cbn [bind]. destruct z. cbv beta iota zeta. unfold vertices in H4. destruct np; now rewrite H4.
Qed.

(** *** C28 *)
Lemma get3_const k (A : mat N) j a b : (j < k)%nat -> get3 (const3 k A) j a b = get2 A a b.
Proof. intros H. unfold const3. unfold get3, getm. now rewrite nth_mk. Qed.
Lemma new_LC ju jdu l c r g len np ndiv zs zl name m :
  mtl_new LA ju jdu l c r g len np ndiv zs zl name = Ok m ->
  match l, c with
  | PFloat x, PFloat y => conductors m = 1%nat /\
      (forall k, (k < cells m)%nat -> L_ m k 0 0 = x) /\ (forall k, (k <= cells m)%nat -> C_ m k 0 0 = y)
  | PArr r1 c1 A, PArr r2 c2 B => r1 = conductors m /\ c1 = conductors m /\ r2 = conductors m /\ c2 = conductors m /\
      (forall k i j, (k < cells m)%nat -> (i < conductors m)%nat -> (j < conductors m)%nat -> L_ m k i j = get2 A i j) /\
      (forall k i j, (k <= cells m)%nat -> (i < conductors m)%nat -> (j < conductors m)%nat -> C_ m k i j = get2 B i j)
  | _, _ => False
  end.
Proof.
  intros H. apply new_parts in H as (H & _ & _ & _ & HN). unfold L_, C_. rewrite HN.
  unfold init_LC in H. destruct l as [x|r1 c1 A|]; destruct c as [y|r2 c2 B|]; try discriminate.
  - injection H as <- <- <-. split; [reflexivity|]. split; intros; rewrite get3_const by lia; reflexivity.
  - inv_bind H. inv_bind H. unfold passert in *.
    destruct ((r1 =? r2)%nat && (c1 =? c2)%nat) eqn:E; [|discriminate]. apply andb_true_iff in E as [E1 E2].
    destruct (r1 =? c1)%nat eqn:E3; [|discriminate]. apply Nat.eqb_eq in E1, E2, E3.
    injection H as <- <- <-. repeat (split; [congruence|]).
    split; intros; rewrite get3_const by lia; now rewrite get2_mk2.
Qed.
Lemma LC_total k (l c : pulin N) : lc_ok l c -> exists x, init_LC k l c = Ok x.
Proof.
  unfold lc_ok, init_LC. destruct l, c; try tauto; eauto. intros (-> & -> & ->). rewrite !Nat.eqb_refl. cbn. eauto.
Qed.
Lemma LC_rejected ju jdu (l c : pulin N) r g len np ndiv zs zl name : ~ lc_ok l c ->
  exists e, mtl_new LA ju jdu l c r g len np ndiv zs zl name = Err e /\ (e = ValueError \/ e = AssertionError).
Proof.
  intros H. assert (exists e, init_LC (total ndiv) l c = Err e /\ (e = ValueError \/ e = AssertionError)) as (e & E & D).
  { unfold lc_ok, init_LC in *. destruct l as [x|r1 c1 A|]; destruct c as [y|r2 c2 B|]; try tauto; eauto.
    unfold passert. destruct ((r1 =? r2)%nat && (c1 =? c2)%nat) eqn:E; cbn [bind]; eauto.
    destruct (r1 =? c1)%nat eqn:E3; cbn [bind]; eauto. apply andb_true_iff in E as [E1 E2].
    apply Nat.eqb_eq in E1, E2, E3. exfalso. apply H. auto. }
  exists e. split; auto. now apply new_LC_err.
Qed.

(** *** C29 *)
Lemma new_RG ju jdu l c r g len np ndiv zs zl name m :
  mtl_new LA ju jdu l c r g len np ndiv zs zl name = Ok m ->
  match r with
  | PFloat x => (conductors m = 1%nat \/ neqb x n0 = true) /\
      forall k i j, (k < cells m)%nat -> (i < conductors m)%nat -> (j < conductors m)%nat -> R_ m k i j = x
  | PArr a b A => a = conductors m /\ b = conductors m /\
      forall k i j, (k < cells m)%nat -> (i < conductors m)%nat -> (j < conductors m)%nat -> R_ m k i j = get2 A i j
  | POther => False
  end /\
  match g with
  | PFloat x => (conductors m = 1%nat \/ neqb x n0 = true) /\
      forall k i j, (k <= cells m)%nat -> (i < conductors m)%nat -> (j < conductors m)%nat -> G_ m k i j = x
  | PArr a b A => a = conductors m /\ b = conductors m /\
      forall k i j, (k <= cells m)%nat -> (i < conductors m)%nat -> (j < conductors m)%nat -> G_ m k i j = get2 A i j
  | POther => False
  end.
Proof.
  intros H. apply new_parts in H as (_ & H & _ & _ & HN). unfold R_, G_. rewrite HN.
  unfold init_RG in H. inv_bind H. inv_bind H. injection H as H1 H2. rewrite <- H1, <- H2. clear H1 H2 HN.
  assert (X : forall k n (x : pulin N) (t : ten N), init_rg1 k n x = Ok t -> match x with
     | PFloat x => (n = 1%nat \/ neqb x n0 = true) /\ forall q i j, (q < k)%nat -> (i < n)%nat -> (j < n)%nat -> get3 t q i j = x
     | PArr a b A => a = n /\ b = n /\ forall q i j, (q < k)%nat -> (i < n)%nat -> (j < n)%nat -> get3 t q i j = get2 A i j
     | POther => False end).
  { clear. intros k n x t H. unfold init_rg1 in H. destruct x as [x|a b A|]; [| |discriminate].
    - inv_bind H. injection H as <-. split.
      + destruct (x =? n0)%num eqn:E; auto. cbn [negb] in Ha. unfold passert in Ha.
        destruct (n =? 1)%nat eqn:E1; [|discriminate]. apply Nat.eqb_eq in E1. auto.
      + intros. rewrite get3_const by auto. now rewrite get2_mk2.
    - inv_bind H. inv_bind H. injection H as <-. unfold passert in *.
      destruct (a =? n)%nat eqn:E1; [|discriminate]. destruct (a =? b)%nat eqn:E2; [|discriminate].
      apply Nat.eqb_eq in E1, E2. split; [auto|]. split; [congruence|].
      intros. rewrite get3_const by auto. now rewrite get2_mk2. }
  split.
  - specialize (X _ _ _ _ Ha0). destruct r; auto.
  - specialize (X _ _ _ _ Ha). destruct g as [x|a1 b A|]; auto.
    + destruct X as [X1 X2]. split; auto. intros; apply X2; auto; lia.
    + destruct X as (X1 & X2 & X3). split; auto. split; auto. intros; apply X3; auto; lia.
Qed.
Lemma rg1_rejected k n (x : pulin N) : ~ rg_ok n x -> exists e, init_rg1 k n x = Err e /\ (e = ValueError \/ e = AssertionError).
Proof.
  unfold rg_ok, init_rg1, passert. destruct x as [y|a b A|]; intros H; eauto.
  - destruct (y =? n0)%num eqn:E; [exfalso; auto|]. cbn [negb].
    destruct (n =? 1)%nat eqn:E1; [apply Nat.eqb_eq in E1; exfalso; auto|]. cbn. eauto.
  - destruct (a =? n)%nat eqn:E1; cbn [bind]; eauto. destruct (a =? b)%nat eqn:E2; cbn [bind]; eauto.
    apply Nat.eqb_eq in E1, E2. exfalso. apply H. split; congruence.
Qed.
Lemma rg1_total k n (x : pulin N) : rg_ok n x -> exists t, init_rg1 k n x = Ok t.
Proof.
  unfold rg_ok, init_rg1, passert. destruct x as [y|a b A|]; intros H; [| |tauto].
  - destruct (y =? n0)%num eqn:E; cbn; eauto. destruct H as [->|H]; [cbn; eauto|congruence].
  - destruct H as [-> ->]. rewrite !Nat.eqb_refl. cbn. eauto.
Qed.
Lemma RG_rejected ju jdu (l c r g : pulin N) len np ndiv zs zl name n : lc_ok l c ->
  n = match l with PArr a _ _ => a | _ => 1%nat end -> ~ (rg_ok n r /\ rg_ok n g) ->
  exists e, mtl_new LA ju jdu l c r g len np ndiv zs zl name = Err e /\ (e = ValueError \/ e = AssertionError).
Proof.
  intros H Hn HR.
  assert (exists l' c', init_LC (total ndiv) l c = Ok (l', c', n)) as (l' & c' & E).
  { subst n. unfold lc_ok, init_LC in *. destruct l, c; try tauto; eauto. destruct H as (-> & -> & ->). rewrite !Nat.eqb_refl. cbn. eauto. }
  assert (exists e, init_RG (total ndiv) n r g = Err e /\ (e = ValueError \/ e = AssertionError)) as (e & E2 & D).
  { unfold init_RG. destruct (init_rg1 (S (total ndiv)) n g) as [g'|e] eqn:Eg; cbn [bind].
    - destruct (init_rg1 (total ndiv) n r) as [r'|e] eqn:Er; cbn [bind].
      + exfalso. apply HR. split.
        * destruct r as [y|a b A|]; unfold rg_ok, init_rg1, passert in *.
          -- destruct (y =? n0)%num eqn:X; auto. cbn [negb bind] in Er. destruct (Nat.eqb_spec n 1); auto. discriminate.
          -- destruct (Nat.eqb_spec a n); [|discriminate]. destruct (Nat.eqb_spec a b); [|discriminate]. split; congruence.
          -- discriminate.
        * destruct g as [y|a b A|]; unfold rg_ok, init_rg1, passert in *.
          -- destruct (y =? n0)%num eqn:X; auto. cbn [negb bind] in Eg. destruct (Nat.eqb_spec n 1); auto. discriminate.
          -- destruct (Nat.eqb_spec a n); [|discriminate]. destruct (Nat.eqb_spec a b); [|discriminate]. split; congruence.
          -- discriminate.
      + assert (HX : ~ rg_ok n r) by (intros X; destruct (rg1_total (total ndiv) n r X); congruence).
        destruct (rg1_rejected (total ndiv) n r HX) as (e' & E' & D). exists e'. split; auto. congruence.
    - assert (HX : ~ rg_ok n g) by (intros X; destruct (rg1_total (S (total ndiv)) n g X); congruence).
      destruct (rg1_rejected (S (total ndiv)) n g HX) as (e' & E' & D). exists e'. split; auto. congruence. }
  exists e. split; auto. eapply new_RG_err; eauto.
Qed.
End Parts.
