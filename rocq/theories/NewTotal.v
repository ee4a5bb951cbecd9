(** The constructor succeeds on physical arguments. *)
From Coq Require Import String List Arith ZArith Bool Lia Reals Lra.
From Verif Require Import Num Py Arr ArrFacts NumR RFacts LinAlg LapackR Probes Dispersive Line LineFacts
  SpecLine SpecR HistoryFacts GeometryFacts LineEqFacts StepTotal TotalFacts.
Import ListNotations.
Local Open Scope R_scope.

(** LAPACK returned real eigenvalues of [A] *)
Definition real_eigen (LA : lapack NumR) (n : nat) (A : mat NumR) : Prop :=
  la_eig LA n A <> [] /\
  forall e, In e (la_eig LA n A) -> exists x : nat -> R, (exists i, (i < n)%nat /\ x i <> 0) /\
    forall i, (i < n)%nat -> sumR n (fun j => get2 A i j * x j) = e * x i.

Lemma real_eigen_1 LA A : lapack_ok LA -> real_eigen LA 1 A.
Proof.
  intros H. unfold real_eigen. rewrite (eig_ok _ H). split; [discriminate|].
  intros e [<-|[]]. exists (fun _ => 1). split; [exists 0%nat; split; [lia|lra]|].
  intros i Hi. assert (i = 0)%nat as -> by lia. rewrite sumR_S, sumR_0. rring.
Qed.

Lemma eigen_pos LA n (L C : mat NumR) e : real_eigen LA n (mm n L C) ->
  pos_def n (get2 L) -> pos_def n (get2 C) -> In e (la_eig LA n (mm n L C)) -> 0 < e.
Proof.
  intros [_ HE] HL HC He. destruct (HE e He) as (x & Hx & E).
  set (y := fun i => sumR n (fun j => get2 C i j * x j)).
  assert (Hy : exists i, (i < n)%nat /\ y i <> 0).
  { destruct (Req_dec (sumR n (fun i => y i * y i)) 0) as [Z|Z].
    - exfalso. destruct Hx as (i & Hi & Hxi). apply Hxi.
      apply (pd_kernel n (get2 C) x HC); auto. intros j Hj. fold (y j).
      assert (y j * y j <= sumR n (fun i => y i * y i)).
      { apply (sumR_term n (fun i => y i * y i) j Hj). intros; nra. }
      nra.
    - destruct (Classical_Prop.classic (exists i, (i < n)%nat /\ y i <> 0)) as [|F]; auto.
      exfalso. apply Z. apply sumR_zero. intros i Hi. destruct (Req_dec (y i) 0) as [->|G]; [ring|].
      exfalso; eauto. }
  pose proof (HL y Hy) as P1. pose proof (HC x Hx) as P2.
  assert (Q : quad n (get2 L) y = e * quad n (get2 C) x).
  { unfold quad.
    rewrite (sumR_ext n _ (fun i => e * (x i * y i))).
    - now rewrite sumR_scal.
    - intros i Hi. replace (e * (x i * y i)) with (y i * (e * x i)) by ring. rewrite <- E by auto.
      apply (f_equal (Rmult (y i))). unfold y.
      rewrite <- (sumR_assoc n n (fun j => get2 L i j) (fun j k => get2 C j k) x).
      apply sumR_ext; intros j Hj. rewrite get2_mm by auto. reflexivity. }
  nra.
Qed.

Lemma vnorm_pos (a : vec NumR) k : (k < 3)%nat -> get a k <> 0 -> 0 < vnorm a.
Proof.
  intros Hk H. unfold vnorm. apply sqrt_lt_R0.
  apply Rlt_le_trans with (get a k * get a k); [nra|].
  apply (sumR_term 3 (fun i => nsq (get a i)) k Hk). intros; unfold nsq; rsimpl; nra.
Qed.

Lemma seg_len_pos (np : mat NumR) d i : (1 <= d)%nat ->
  (exists k, (k < 3)%nat /\ get (nth (S i) np []) k <> get (nth i np []) k) ->
  0 < vnorm (seg_du np d i).
Proof.
  intros Hd (k & Hk & H). apply vnorm_pos with (k := k); auto. unfold seg_du, vdivs, vsub.
  rewrite !get_mk by auto. rsimpl. apply Rmult_integral_contrapositive. split; [lra|].
  apply Rinv_neq_0_compat. apply not_0_IZR. lia.
Qed.

Section New.
Variable LA : lapack NumR.
Hypothesis LAC : lapack_complete LA.

Lemma max_timestep_total (s : core NumR) (x : nat -> R) (e : nat -> mat NumR) :
  (1 <= k_n s)%nat -> (1 <= k_N s)%nat ->
  k_h s = mk (k_N s) (fun k => @mscal NumR (k_n s) (x k) (eye (k_n s))) ->
  (forall k, (k < k_N s)%nat -> 0 < x k) ->
  (forall k, (k < k_N s)%nat -> real_eigen LA (k_n s) (mm (k_n s) (getm (k_l s) k) (getm (k_c s) (S k)))) ->
  (forall k, (k < k_N s)%nat -> pos_def (k_n s) (get2 (getm (k_l s) k))) ->
  (forall k, (k <= k_N s)%nat -> pos_def (k_n s) (get2 (getm (k_c s) k))) ->
  exists dt, get_max_timestep LA s = Ok dt /\ 0 < dt.
Proof.
  intros Hn HN Hh Hx HE HL HC. unfold get_max_timestep.
  set (l1 := filter _ _).
  assert (A1 : forall y, In y l1 -> 0 < y).
  { intros y Hy. unfold l1 in Hy. apply filter_In in Hy as [Hy Hnz].
    apply in_concat in Hy as (row & Hrow & Hy). apply in_concat in Hrow as (mt & Hmt & Hrow).
    rewrite Hh in Hmt. unfold mk in Hmt. apply in_map_iff in Hmt as (k & <- & Hk). apply in_seq in Hk.
    unfold mscal, mmap, mk2, mk in Hrow. apply in_map_iff in Hrow as (i & <- & Hi). apply in_seq in Hi.
    apply in_map_iff in Hy as (j & <- & Hj). apply in_seq in Hj.
    rewrite get2_eye in * by lia. rsimpl. unfold delta in *. rsimpl.
    apply negb_true_iff in Hnz. apply Reqb_false in Hnz.
    destruct (Nat.eqb i j); rsimpl; [|lra]. rewrite Rmult_1_r. apply Hx. lia. }
  assert (B1 : l1 <> []).
  { assert (In (x 0%nat) l1) as Hin; [|intros E; rewrite E in Hin; destruct Hin].
    apply filter_In. split.
    - apply in_concat. exists (mk (k_n s) (fun j => @nmul NumR (x 0%nat) (get2 (eye (k_n s)) 0 j))). split.
      + apply in_concat. exists (@mscal NumR (k_n s) (x 0%nat) (eye (k_n s))). split.
        * rewrite Hh. unfold mk. apply in_map_iff. exists 0%nat. split; auto. apply in_seq. lia.
        * unfold mscal, mmap, mk2. unfold mk at 1. apply in_map_iff. exists 0%nat. split; auto. apply in_seq; lia.
      + unfold mk at 1. apply in_map_iff. exists 0%nat. split; [|apply in_seq; lia].
        rewrite get2_eye by lia. rewrite deltaR_eq. rring.
    - rsimpl. apply negb_true_iff, Reqb_false. specialize (Hx 0%nat ltac:(lia)). lra. }
  destruct (vmin_spec l1 B1) as (h & -> & Hh1 & _). cbn [bind].
  set (l2 := concat _).
  assert (A2 : forall y, In y l2 -> 0 < y).
  { intros y Hy. unfold l2, get_phase_velocities in Hy. apply in_concat in Hy as (row & Hrow & Hy).
    unfold mk in Hrow. apply in_map_iff in Hrow as (k & <- & Hk). apply in_seq in Hk.
    apply in_map_iff in Hy as (ev & <- & Hev).
    rsimpl. apply Rdiv_lt_0_compat; [lra|]. apply sqrt_lt_R0.
    apply (eigen_pos LA (k_n s) _ _ ev (HE k ltac:(lia)) (HL k ltac:(lia)) (HC (S k) ltac:(lia)) Hev). }
  assert (B2 : l2 <> []).
  { destruct (HE 0%nat ltac:(lia)) as [Hne _].
    destruct (la_eig LA (k_n s) (mm (k_n s) (getm (k_l s) 0) (getm (k_c s) 1))) as [|ev es] eqn:EE; [congruence|].
    assert (In (1 / sqrt ev) l2) as Hin; [|intros E; rewrite E in Hin; destruct Hin].
    unfold l2. apply in_concat. eexists. split.
    - unfold get_phase_velocities, mk. apply in_map_iff. exists 0%nat. split; [reflexivity|apply in_seq; lia].
    - apply in_map_iff. exists ev. split; [reflexivity|]. rewrite EE. now left. }
  destruct (vmax_spec l2 B2) as (v & -> & Hv1 & _). cbn [bind].
  exists (h / v). split; [reflexivity|]. apply Rdiv_lt_0_compat; auto.
Qed.

Lemma port_total n (zz c g : mat NumR) (z : nat -> R) (h dt : R) :
  (forall i j, (i < n)%nat -> (j < n)%nat -> get2 zz i j = z i * @delta NumR i j) ->
  (forall i, (i < n)%nat -> 0 <= z i) -> pos_def n (get2 c) -> pos_semidef n (get2 g) -> 0 < h -> 0 < dt ->
  exists t, port_terms LA n zz c g h dt = Ok t.
Proof.
  intros Hz Hz0 Hc Hg Hh Hdt. unfold port_terms.
  match goal with |- context [inv LA n ?A] => destruct (inv_total LA LAC n A) as [B ->]; [|cbn [bind]; eauto] end.
  apply port_invertible with (z := z) (M := fun i j => h * (get2 c i j / dt + get2 g i j / 2)); auto.
  - apply pos_def_sum4; auto.
  - intros i j Hi Hj. rewrite !get2_madd, !get2_mdivs, !get2_mscal, get2_eye by auto.
    assert (F : forall A : mat NumR, get2 (mm n zz A) i j = z i * get2 A i j).
    { intros A. rewrite get2_mm by auto. rewrite (sumR_ext n _ (fun k => z i * (@delta NumR i k * get2 A k j))).
      - rewrite sumR_scal. apply (f_equal (Rmult (z i))). exact (sumR_delta_l n (fun k => get2 A k j) i Hi).
      - intros k Hk. rewrite Hz by auto. rring. }
    rewrite !F. rsimpl. unfold Rdiv. ring.
Qed.

Definition diag_of (n : nat) (zz : mat NumR) (z : nat -> R) : Prop :=
  (forall i j, (i < n)%nat -> (j < n)%nat -> get2 zz i j = z i * @delta NumR i j) /\
  (forall i, (i < n)%nat -> 0 <= z i).

Theorem new_total ju jdu l c r g (len : NumR) (np : mat NumR) d s zs zl name n (L C R0 G zzs zzl : mat NumR) z1 z2 :
  let np' : mat NumR := match np with [] => [[0; 0; 0]; [0; 0; len]] | _ => np end in
  (1 <= n)%nat -> (1 <= d)%nat -> (1 <= s)%nat -> (length np' = s + 1)%nat ->
  (forall i, (i < s)%nat -> exists k, (k < 3)%nat /\ @get NumR (nth (S i) np' []) k <> @get NumR (nth i np' []) k) ->
  init_LC (s * d) l c = Ok (const3 (s * d) L, const3 (S (s * d)) C, n) ->
  init_RG (s * d) n r g = Ok (const3 (s * d) R0, const3 (S (s * d)) G) ->
  init_Zt n zs zl = Ok (zzs, zzl) ->
  pos_def n (get2 L) -> pos_def n (get2 C) -> pos_semidef n (get2 R0) -> pos_semidef n (get2 G) ->
  diag_of n zzs z1 -> diag_of n zzl z2 ->
  real_eigen LA n (mm n L C) ->
  exists m, mtl_new LA ju jdu l c r g len np (repeat d s) zs zl name = Ok m /\ physical m /\
    conductors m = n /\ cells m = (s * d)%nat /\
    (forall k, (k < cells m)%nat -> cell_len m k = vnorm (seg_du np' d (k / d))) /\
    (forall k i j, (k < cells m)%nat -> L_ m k i j = get2 L i j /\ R_ m k i j = get2 R0 i j) /\
    (forall k i j, (k <= cells m)%nat -> C_ m k i j = get2 C i j /\ G_ m k i j = get2 G i j) /\
    m_zs m = zzs /\ m_zl m = zzl /\
    m_u m = mk (S (s * d)) (fun j => if (j =? s * d)%nat then nth s np' [] else closed_u np' d j).
Proof.
  intros np' Hn Hd Hs Hl Hseg ELC ERG EZ HL HC HR HG [Hz1 Hz1p] [Hz2 Hz2p] HE.
  assert (HN : (1 <= s * d)%nat) by nia.
  assert (E : exists m, mtl_new LA ju jdu l c r g len np (repeat d s) zs zl name = Ok m /\ 0 < step_dt m).
  { unfold mtl_new. rewrite fold_add_repeat. simpl (0 + s * d)%nat. rewrite ELC. cbn [bind].
    rewrite ERG. cbn [bind]. rewrite EZ. cbn [bind].
    match goal with |- context [geometry n ?X _ _ _] => change X with np' end.
    rewrite (geometry_equal n np' d s ju jdu Hl). cbn [bind].
    match goal with |- context [get_max_timestep LA ?s0] =>
      destruct (max_timestep_total s0 (fun k => vnorm (seg_du np' d (k / d))) (fun _ => L)) as (dt & -> & Hdt) end;
      cbn [k_n k_N k_h k_l k_c]; auto.
    - intros k Hk. apply seg_len_pos; auto. apply Hseg. apply Nat.div_lt_upper_bound; lia.
    - intros k Hk. unfold const3. rewrite !getm_mk by lia. exact HE.
    - intros k Hk. unfold const3. rewrite !getm_mk by lia. exact HL.
    - intros k Hk. unfold const3. rewrite !getm_mk by lia. exact HC.
    - cbn [bind].
      assert (P0 : forall k, (k < s * d)%nat -> 0 < get3 (mk (s * d) (fun j : nat => mscal n (vnorm (seg_du np' d (j / d))) (eye n))) k 0 0).
      { intros k Hk. rewrite get3_mk by auto. rewrite get2_mscal, get2_eye by lia. rewrite deltaR_eq.
        rsimpl. rewrite Rmult_1_r. apply seg_len_pos; auto. apply Hseg. apply Nat.div_lt_upper_bound; lia. }
      match goal with |- context [port_terms LA n zzs ?cc ?gg ?hh dt] =>
        assert (E1 : exists t, port_terms LA n zzs cc gg hh dt = Ok t) end.
      { apply port_total with (z := z1); auto; unfold const3; rewrite ?getm_mk by lia; auto; apply P0; lia. }
      destruct E1 as ([p11 p21] & E1).
      rewrite E1; clear E1; cbn [bind].
      match goal with |- context [port_terms LA n zzl ?cc ?gg ?hh dt] =>
        assert (E1 : exists t, port_terms LA n zzl cc gg hh dt = Ok t) end.
      { apply port_total with (z := z2); auto; unfold const3; rewrite ?getm_mk by lia; auto; apply P0; lia. }
      destruct E1 as ([p12 p22] & E1).
      rewrite E1; clear E1; cbn [bind]. eexists; split; [reflexivity|exact Hdt]. }
  destruct E as (m & Em & Hdt). exists m. split; auto.
  pose proof (mtl_new_inv LA _ _ _ _ _ _ _ _ _ _ _ _ _ Em) as (Sh & _ & _ & _ & Ed & _ & _ & _ & Ep & _).
  assert (X : k_n (m_core m) = n /\ k_N (m_core m) = (s * d)%nat /\
     k_h (m_core m) = mk (s * d) (fun j => mscal n (vnorm (seg_du np' d (j / d))) (eye n)) /\
     k_l (m_core m) = const3 (s * d) L /\ k_r (m_core m) = const3 (s * d) R0 /\
     k_c (m_core m) = const3 (S (s * d)) C /\ k_g (m_core m) = const3 (S (s * d)) G /\
     m_zs m = zzs /\ m_zl m = zzl /\
     m_u m = mk (S (s * d)) (fun j => if (j =? s * d)%nat then nth s np' [] else closed_u np' d j)).
  { unfold mtl_new in Em. rewrite fold_add_repeat in Em. simpl (0 + s * d)%nat in Em. rewrite ELC in Em. cbn [bind] in Em.
    rewrite ERG in Em. cbn [bind] in Em. rewrite EZ in Em. cbn [bind] in Em.
    match type of Em with context [geometry n ?X _ _ _] => change X with np' in Em end.
    rewrite (geometry_equal n np' d s ju jdu Hl) in Em. cbn [bind] in Em.
    inv_bind Em. inv_bind Em. inv_bind Em. injection Em as <-. cbn. auto 20. }
  destruct X as (Xn & XN & Xh & Xl & Xr & Xc & Xg & Xzs & Xzl & Xu).
  assert (Y1 : forall k i j, (k < cells m)%nat -> L_ m k i j = get2 L i j /\ R_ m k i j = get2 R0 i j).
  { intros k i j Hk. unfold cells in Hk. unfold L_, R_. rewrite Xl, Xr. unfold const3. rewrite !get3_mk by lia. auto. }
  assert (Y2 : forall k i j, (k <= cells m)%nat -> C_ m k i j = get2 C i j /\ G_ m k i j = get2 G i j).
  { intros k i j Hk. unfold cells in Hk. unfold C_, G_. rewrite Xc, Xg. unfold const3. rewrite !get3_mk by lia. auto. }
  assert (Y3 : forall k, (k < cells m)%nat -> cell_len m k = vnorm (seg_du np' d (k / d))).
  { intros k Hk. unfold cells in Hk. unfold cell_len. rewrite Xh, get3_mk by lia.
    rewrite get2_mscal, get2_eye by lia. rewrite deltaR_eq. rring. }
  split; [|repeat split; auto; intros; try apply Y1; try apply Y2; auto].
  split; auto.
  - intros k Hk. rewrite Y3 by auto. apply seg_len_pos; auto. apply Hseg. apply Nat.div_lt_upper_bound; unfold cells in *; lia.
  - intros k Hk. unfold conductors. rewrite Xn. eapply pd_ext; [|exact HC]. intros; symmetry; now apply Y2.
  - intros k Hk. unfold conductors. rewrite Xn. eapply psd_ext; [|exact HG]. intros; symmetry; now apply Y2.
  - intros k Hk. unfold conductors. rewrite Xn. eapply pd_ext; [|exact HL]. intros; symmetry; now apply Y1.
  - intros k Hk. unfold conductors. rewrite Xn. eapply psd_ext; [|exact HR]. intros; symmetry; now apply Y1.
  - eexists _, _. exact Ed.
  - unfold probes_known. rewrite Ep. constructor.
Qed.

End New.
