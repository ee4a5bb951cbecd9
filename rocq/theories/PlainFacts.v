(** Without dispersive elements the dispersive part never changes (over the reals). *)
From Coq Require Import String List Arith ZArith Bool Lia Reals Lra.
From Verif Require Import Num Py Arr ArrFacts NumR RFacts Probes Dispersive Line LineFacts SpecLine
  HistoryFacts StepTotal.
Import ListNotations.
Local Open Scope R_scope.

Lemma qmul_zero (x : R) : map (@cscal NumR x) qzero = qzero.
Proof. unfold qzero, c0, cscal. cbn. rsimpl. now rewrite Rmult_0_r. Qed.
Lemma bop_add_zero : bop (@cadd NumR) qzero qzero = Ok qzero.
Proof. unfold bop, qzero, c0, cadd. cbn. rsimpl. now rewrite Rplus_0_r. Qed.
Lemma bop_mul_zero : bop (@cmul NumR) qzero qzero = Ok qzero.
Proof. unfold bop, qzero, c0, cmul. cbn. rsimpl. rewrite Rmult_0_r, Rplus_0_r, Rminus_0_r. reflexivity. Qed.

Lemma qdot_zero n (row : nat -> qe NumR) x : (forall j, row j = qzero) -> qdot n row x = Ok qzero.
Proof.
  intros H. destruct n as [|n]; [reflexivity|]. unfold qdot. rewrite H, qmul_zero.
  generalize (seq 1 n) as l. induction l as [|a l IH]; [reflexivity|].
  cbn [foldM]. rewrite H, qmul_zero, bop_add_zero. cbn [bind]. exact IH.
Qed.
Lemma qdotq_zero n (row x : nat -> qe NumR) : (forall j, row j = qzero) -> (forall j, x j = qzero) ->
  qdotq n row x = Ok qzero.
Proof.
  intros H Hx. destruct n as [|n]; [reflexivity|]. unfold qdotq. rewrite H, Hx, bop_mul_zero. cbn [bind].
  generalize (seq 1 n) as l. induction l as [|a l IH]; [reflexivity|].
  cbn [foldM]. rewrite H, Hx, bop_mul_zero. cbn [bind]. rewrite bop_add_zero. cbn [bind]. exact IH.
Qed.

Lemma mapM_mk {B} (f : nat -> res B) n (g : nat -> B) : (forall k, (k < n)%nat -> f k = Ok (g k)) ->
  mapM f (seq 0 n) = Ok (mk n g).
Proof.
  intros H. rewrite (mapM_ext f (fun k => Ok (g k))).
  - apply mapM_total.
  - intros k Hk. apply in_seq in Hk. apply H; lia.
Qed.

Lemma plain_q3 n nx u dt : update_q3_phi_term (@disp_new NumR n nx u dt) = Ok (disp_new n nx u dt).
Proof.
  unfold update_q3_phi_term. cbn [ds_nx ds_n ds_q3 ds_phi disp_new].
  rewrite (mapM_mk _ nx (fun _ => mk n (fun _ => 0))).
  - reflexivity.
  - intros k Hk. apply mapM_mk. intros c Hc.
    rewrite qdotq_zero by (intros; apply qget3_qzeros || apply qget2_qzeros).
    cbn [bind]. unfold qsum, qzero, c0, cadd. cbn. rsimpl. now rewrite Rplus_0_r.
Qed.
Lemma plain_phi n nx u dt i i' : update_phi (@disp_new NumR n nx u dt) i i' = Ok (disp_new n nx u dt).
Proof.
  unfold update_phi. cbn [ds_nx ds_n ds_q1 ds_q2 ds_q3 ds_phi disp_new].
  rewrite (mapM_mk _ nx (fun _ => mk n (fun _ => qzero))).
  - reflexivity.
  - intros k Hk. apply mapM_mk. intros c Hc.
    rewrite !qdot_zero by (intros; apply qget3_qzeros). cbn [bind].
    rewrite qdotq_zero by (intros; apply qget3_qzeros || apply qget2_qzeros). cbn [bind].
    rewrite bop_add_zero. cbn [bind]. apply bop_add_zero.
Qed.

Lemma undispersed_step (a b : mtl NumR) : shape a -> undispersed a -> mtl_step a = Ok b ->
  k_disp (m_core b) = k_disp (m_core a) /\ undispersed b /\ forall k c, hist_ b k c = 0.
Proof.
  intros Sh (u & dt & E) H.
  pose proof (mtl_step_same a b (sh_N _ Sh) H) as SL.
  destruct (mtl_step_inv a b (sh_N _ Sh) H) as (vt & idf & it & vd & d1 & d2 & ps & _ & _ & H1 & _ & _ & _ & H2 & _ & Eb).
  rewrite E, plain_q3 in H1. injection H1 as <-. rewrite plain_phi in H2. injection H2 as <-.
  assert (E2 : k_disp (m_core b) = disp_new (conductors a) (cells a) u dt) by (rewrite Eb; reflexivity).
  split; [now rewrite E2, E|]. split.
  - exists u, dt. unfold conductors, cells. destruct (sl_core _ _ SL). rewrite ss_n, ss_N. exact E2.
  - intros k c. unfold hist_. rewrite E2. apply (@get2_zeros NumR).
Qed.

Lemma undispersed_steps j : forall a b : mtl NumR, shape a -> undispersed a -> iterM j mtl_step a = Ok b ->
  k_disp (m_core b) = k_disp (m_core a) /\ undispersed b.
Proof.
  induction j as [|j IH]; intros a b Sh U H; simpl in H.
  - injection H as <-. auto.
  - inv_bind H. destruct (undispersed_step a a0 Sh U Ha) as (E & U' & _).
    destruct (shape_step _ _ Sh Ha) as [Sh' _].
    destruct (IH _ _ Sh' U' H) as [E' U'']. split; auto. congruence.
Qed.

Lemma undispersed_run LA (m : mtl NumR) T k a : shape m -> undispersed m -> run_state LA m T k a -> undispersed a.
Proof.
  intros Sh U (steps & p & _ & _ & Hp & Hi).
  destruct (shape_prepare LA _ _ _ Sh Hp) as [Sp _].
  eapply undispersed_steps; [exact Sp| |exact Hi].
  apply prepare_inv in Hp as (t1 & t2 & _ & ->). exact U.
Qed.
