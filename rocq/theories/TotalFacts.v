(** Physical lines never raise: constructor, preparation and stepping (over the reals). *)
From Coq Require Import String List Arith ZArith Bool Lia Reals Lra.
From Verif Require Import Num Py Arr ArrFacts NumR RFacts LinAlg LapackR Probes Dispersive Line LineFacts NearestFacts
  SpecLine SpecR HistoryFacts GeometryFacts LineEqFacts StepTotal.
Import ListNotations.
Local Open Scope R_scope.

(** ** smallest and largest elements *)
Lemma lmin_In {N : num} (l : vec N) b : In (lmin b l) (b :: l).
Proof.
  revert b; induction l as [|a l IH]; intros b; simpl; auto.
  destruct (a <? b)%num.
  - destruct (IH a); auto.
  - destruct (IH b); auto.
Qed.
Lemma lmin_le (l : vec NumR) b x : In x (b :: l) -> lmin b l <= x.
Proof.
  assert (G : forall (l : vec NumR) (b : NumR), lmin b l <= b /\ forall x, In x l -> lmin b l <= x).
  { clear. induction l as [|a l IH]; intros b; simpl; [split; [rlra|tauto]|].
    destruct (IH (if Rltb a b then a else b)) as [H1 H2].
    rsimpl. destruct (Rltb_spec a b); split; try lra; intros x [<-|Hx]; auto; lra. }
  destruct (G l b) as [H1 H2]. intros [<-|H]; auto.
Qed.
Lemma lmax_In {N : num} (l : vec N) b : In (lmax b l) (b :: l).
Proof.
  revert b; induction l as [|a l IH]; intros b; simpl; auto.
  destruct (b <? a)%num.
  - destruct (IH a); auto.
  - destruct (IH b); auto.
Qed.
Lemma lmax_ge (l : vec NumR) b x : In x (b :: l) -> x <= lmax b l.
Proof.
  assert (G : forall (l : vec NumR) (b : NumR), b <= lmax b l /\ forall x, In x l -> x <= lmax b l).
  { clear. induction l as [|a l IH]; intros b; simpl; [split; [rlra|tauto]|].
    destruct (IH (if Rltb b a then a else b)) as [H1 H2].
    rsimpl. destruct (Rltb_spec b a); split; try lra; intros x [<-|Hx]; auto; lra. }
  destruct (G l b) as [H1 H2]. intros [<-|H]; auto.
Qed.
Lemma vmin_spec (l : vec NumR) : l <> [] -> exists x, vmin l = Ok x /\ In x l /\ forall y, In y l -> x <= y.
Proof.
  destruct l as [|b l]; [congruence|]. intros _. exists (lmin b l). repeat split.
  - apply lmin_In.
  - intros; now apply lmin_le.
Qed.
Lemma vmax_spec (l : vec NumR) : l <> [] -> exists x, vmax l = Ok x /\ In x l /\ forall y, In y l -> y <= x.
Proof.
  destruct l as [|b l]; [congruence|]. intros _. exists (lmax b l). repeat split.
  - apply lmax_In.
  - intros; now apply lmax_ge.
Qed.

(** ** Physical lines *)
Definition probes_known (m : mtl NumR) : Prop :=
  Forall (fun p => (p_type p = "voltage"%string \/ p_type p = "current"%string)
                   /\ (p_index p <= cells m)%nat) (m_probes m).

Record physical (m : mtl NumR) : Prop := {
  ph_shape : shape m;
  ph_dt : 0 < step_dt m;
  ph_h : forall k, (k < cells m)%nat -> 0 < cell_len m k;
  ph_C : forall k, (k <= cells m)%nat -> pos_def (conductors m) (C_ m k);
  ph_G : forall k, (k <= cells m)%nat -> pos_semidef (conductors m) (G_ m k);
  ph_L : forall k, (k < cells m)%nat -> pos_def (conductors m) (L_ m k);
  ph_R : forall k, (k < cells m)%nat -> pos_semidef (conductors m) (R_ m k);
  ph_undisp : undispersed m;
  ph_probes : probes_known m
}.

Lemma zeros3_get {N : num} a b c k i j : get3 (@zeros3 N a b c) k i j = n0.
Proof.
  unfold get3, zeros3, getm. destruct (Nat.lt_ge_cases k a).
  - rewrite nth_mk by auto. apply get2_zeros.
  - rewrite nth_mk_over by auto. now destruct i, j.
Qed.
Lemma undispersed_zero (m : mtl NumR) k i j : undispersed m ->
  D_ m k i j = 0 /\ E_ m k i j = 0 /\ Q1_ m k i j = 0 /\ Q2_ m k i j = 0.
Proof.
  intros (u & dt & E). unfold D_, E_, Q1_, Q2_. rewrite E. cbn [ds_d ds_e ds_q1sum ds_q2sum disp_new].
  rewrite !zeros3_get. auto.
Qed.
Lemma undispersed_flat (m : mtl NumR) : undispersed m -> flat (k_disp (m_core m)).
Proof. intros (u & dt & ->). apply flat_new. Qed.

Lemma width_pos m k : physical m -> (k <= cells m)%nat -> 0 < width m k.
Proof.
  intros P Hk. pose proof (sh_N _ (ph_shape _ P)) as HN. fold (cells m) in HN. unfold width.
  destruct (Nat.eqb_spec k 0); [apply (ph_h _ P); lia|].
  destruct (Nat.eqb_spec k (cells m)); [apply (ph_h _ P); lia|].
  pose proof (ph_h _ P k ltac:(lia)). pose proof (ph_h _ P (k - 1) ltac:(lia)). lra.
Qed.

Section Total.
Variable LA : lapack NumR.
Hypothesis LAC : lapack_complete LA.
Implicit Types (s : core NumR).

Lemma inv_total n (A : mat NumR) : (exists B, is_inverse n A B) -> exists B, inv LA n A = Ok B.
Proof.
  intros H. apply (inv_complete _ LAC) in H as [B H]. exists B. unfold inv. now rewrite H.
Qed.

Lemma update_lr_total s : (forall k, (k < k_N s)%nat -> pos_def (k_n s) (get2 (lr_F1 s k))) ->
  exists s', update_lr_terms LA s = Ok s'.
Proof.
  intros H. unfold update_lr_terms. cbv zeta.
  destruct (mapM_exists (fun k => inv LA (k_n s) (lr_F1 s k)) (seq 0 (k_N s))) as (t & ->).
  - intros k Hk. apply in_seq in Hk. destruct (inv_total (k_n s) (lr_F1 s k)) as [B HB]; eauto.
    apply pd_invertible, H. lia.
  - cbn [bind]. eauto.
Qed.
Lemma update_cg_total s : (forall k, (k <= k_N s)%nat -> pos_def (k_n s) (get2 (cg_F1 s k))) ->
  exists s', update_cg_terms LA s = Ok s'.
Proof.
  intros H. unfold update_cg_terms. cbv zeta.
  destruct (mapM_exists (fun k => inv LA (k_n s) (cg_F1 s k)) (seq 0 (S (k_N s)))) as (t & ->).
  - intros k Hk. apply in_seq in Hk. destruct (inv_total (k_n s) (cg_F1 s k)) as [B HB]; eauto.
    apply pd_invertible, H. lia.
  - cbn [bind]. eauto.
Qed.

Lemma pos_def_sum4 n (dt h : R) (L R_ : nat -> nat -> R) : 0 < dt -> 0 < h -> pos_def n L -> pos_semidef n R_ ->
  pos_def n (fun i j => h * (L i j / dt + R_ i j / 2)).
Proof.
  intros Hdt Hh HL HR. apply pd_scal; auto.
  apply pd_ext with (A := fun i j => / dt * L i j + / 2 * R_ i j); [intros; unfold Rdiv; ring|].
  apply pd_add_psd; [apply pd_scal; auto; now apply Rinv_0_lt_compat|apply psd_scal; auto; lra].
Qed.

Lemma physical_lr m : physical m -> forall k, (k < cells m)%nat -> pos_def (conductors m) (get2 (lr_F1 (m_core m) k)).
Proof.
  intros P k Hk.
  apply pd_ext with (A := fun i j => cell_len m k * (L_ m k i j / step_dt m + R_ m k i j / 2)).
  - intros i j Hi Hj. rewrite lr_F1_get by (auto; apply (ph_shape _ P)).
    destruct (undispersed_zero m k i j (ph_undisp _ P)) as (-> & -> & -> & _). unfold Rdiv. rring.
  - apply pos_def_sum4; apply P; auto.
Qed.
Lemma physical_cg m : physical m -> forall k, (k <= cells m)%nat -> pos_def (conductors m) (get2 (cg_F1 (m_core m) k)).
Proof.
  intros P k Hk.
  apply pd_ext with (A := fun i j => width m k * (C_ m k i j / step_dt m + G_ m k i j / 2)).
  - intros i j Hi Hj. rewrite cg_F1_get by (auto; apply (ph_shape _ P)). reflexivity.
  - apply pos_def_sum4; try apply P; auto. now apply width_pos.
Qed.

Lemma prepare_total m steps : physical m -> exists m', mtl_prepare LA m steps = Ok m' /\ marching m'.
Proof.
  intros P. unfold mtl_prepare.
  destruct (update_lr_total (m_core m) (physical_lr m P)) as [s1 E1]. rewrite E1. cbn [bind].
  destruct (update_lr_inv _ _ _ E1) as [t1 ->].
  destruct (update_cg_total (set_lr (m_core m) t1) (physical_cg m P)) as [s2 E2]. rewrite E2. cbn [bind].
  eexists; split; [reflexivity|].
  eapply (prepare_marching LA m steps); [apply undispersed_flat, (ph_undisp _ P)|exact (ph_probes _ P)|].
  unfold mtl_prepare. rewrite E1. cbn [bind]. rewrite E2. reflexivity.
Qed.

Lemma run_total m T : physical m -> exists m', run_until LA m T = Ok m'.
Proof.
  intros P. unfold run_until, time_range_len.
  destruct (Reqb_spec (k_dt (m_core m)) 0) as [E|E].
  { pose proof (ph_dt _ P) as H. unfold step_dt in H. rsimpl. lra. }
  change (k_dt (m_core m) =? n0)%num with (Reqb (k_dt (m_core m)) 0).
  rewrite (proj2 (Reqb_false _ _) E). cbn [bind].
  match goal with |- context [mtl_prepare LA m ?n] => destruct (prepare_total m n P) as (m1 & -> & M1) end.
  cbn [bind].
  match goal with |- context [iterM ?j _ _] => destruct (steps_total j m1 M1) as (m2 & E2 & _) end.
  exists m2. exact E2.
Qed.

(** every prefix of the run is reached *)
Lemma run_step_total m T k : physical m -> (k < Z.to_nat (Int_part (T / step_dt m)))%nat ->
  exists a b, run_step LA m T k a b.
Proof.
  intros P Hk.
  set (steps := Z.to_nat (Int_part (T / step_dt m))) in *.
  destruct (prepare_total m steps P) as (m1 & E1 & M1).
  destruct (steps_total k m1 M1) as (a & Ea & Ma).
  destruct (step_total a Ma) as (b & Eb & _).
  exists a, b, steps, m1. repeat split; auto.
  unfold time_range_len. change (k_dt (m_core m) =? n0)%num with (Reqb (step_dt m) 0).
  rewrite (proj2 (Reqb_false _ _)); [reflexivity|]. pose proof (ph_dt _ P). lra.
Qed.

End Total.
