(** When a step cannot raise (any [num]). *)
From Coq Require Import String List Arith ZArith Bool Lia.
From Verif Require Import Num Py Arr ArrFacts Probes Dispersive Line LineFacts SpecLine HistoryFacts.
Import ListNotations.

Section StepTotal.
Context {N : num}.
Local Open Scope num_scope.
Variable LA : lapack N.
Implicit Types (s : core N) (m : mtl N) (d : disp N).

(** every stored pole entry is a scalar: no dispersive element with several poles *)
Record flat (d : disp N) : Prop := {
  fl_q1 : forall k i j, length (qget3 (ds_q1 d) k i j) = 1%nat;
  fl_q2 : forall k i j, length (qget3 (ds_q2 d) k i j) = 1%nat;
  fl_q3 : forall k i j, length (qget3 (ds_q3 d) k i j) = 1%nat;
  fl_phi : forall k j, length (qget2 (ds_phi d) k j) = 1%nat
}.

Lemma qget2_qzeros n (m i j : nat) : qget2 (@qzeros2 N n m) i j = qzero.
Proof.
  unfold qget2, qzeros2, mk2. destruct (Nat.lt_ge_cases i n).
  - rewrite nth_mk by auto. destruct (Nat.lt_ge_cases j m).
    + now rewrite nth_mk.
    + now rewrite nth_mk_over.
  - rewrite nth_mk_over by auto. now destruct j.
Qed.
Lemma qget3_qzeros k n (m p i j : nat) : qget3 (@qzeros3 N k n m) p i j = qzero.
Proof.
  unfold qget3, qzeros3. destruct (Nat.lt_ge_cases p k).
  - rewrite nth_mk by auto. apply qget2_qzeros.
  - rewrite nth_mk_over by auto. unfold qget2. destruct i; now destruct j.
Qed.
Lemma flat_new n nx (u : mat N) dt : flat (disp_new n nx u dt).
Proof.
  split; intros; cbn [ds_q1 ds_q2 ds_q3 ds_phi disp_new];
    rewrite ?qget3_qzeros, ?qget2_qzeros; reflexivity.
Qed.

Lemma bop_1 f (a b : qe N) : length a = 1%nat -> length b = 1%nat ->
  exists c, bop f a b = Ok c /\ length c = 1%nat.
Proof.
  intros Ha Hb. unfold bop. rewrite Ha, Hb. cbn. eexists; split; [reflexivity|]. reflexivity.
Qed.

Lemma qdot_1 n (row : nat -> qe N) x : (forall j, length (row j) = 1%nat) ->
  exists c, qdot n row x = Ok c /\ length c = 1%nat.
Proof.
  intros H. destruct n as [|n]; simpl; [eexists; split; reflexivity|].
  assert (G : forall l acc, length acc = 1%nat -> exists c,
     foldM (fun acc j => bop cadd acc (map (cscal (x j)) (row j))) l acc = Ok c /\ length c = 1%nat).
  { induction l as [|a l IH]; intros acc Hacc; simpl; [eauto|].
    destruct (bop_1 cadd acc (map (cscal (x a)) (row a)) Hacc) as (c & -> & Hc);
      [now rewrite map_length|]. simpl. auto. }
  apply G. now rewrite map_length.
Qed.
Lemma qdotq_1 n (row x : nat -> qe N) : (forall j, length (row j) = 1%nat) -> (forall j, length (x j) = 1%nat) ->
  exists c, qdotq n row x = Ok c /\ length c = 1%nat.
Proof.
  intros H Hx. destruct n as [|n]; simpl; [eexists; split; reflexivity|].
  assert (G : forall l acc, length acc = 1%nat -> exists c,
     foldM (fun acc j => p <- bop cmul (row j) (x j) ;; bop cadd acc p) l acc = Ok c /\ length c = 1%nat).
  { induction l as [|a l IH]; intros acc Hacc; simpl; [eauto|].
    destruct (bop_1 cmul (row a) (x a) (H a) (Hx a)) as (p & -> & Hp). simpl.
    destruct (bop_1 cadd acc p Hacc Hp) as (c & -> & Hc). simpl. auto. }
  destruct (bop_1 cmul (row 0%nat) (x 0%nat) (H _) (Hx _)) as (p & -> & Hp). simpl. auto.
Qed.

Lemma mapM_exists {A B} (f : A -> res B) l : (forall a, In a l -> exists b, f a = Ok b) ->
  exists bs, mapM f l = Ok bs.
Proof.
  induction l as [|a l IH]; intros H; simpl; [eauto|].
  destruct (H a) as [b ->]; [now left|]. simpl.
  destruct IH as [bs ->]; [intros; apply H; now right|]. simpl. eauto.
Qed.

Lemma update_q3_total d : flat d -> exists d', update_q3_phi_term d = Ok d' /\ flat d'.
Proof.
  intros F. unfold update_q3_phi_term.
  match goal with |- exists d', bind (mapM ?f ?l) _ = _ /\ _ => destruct (mapM_exists f l) as [t ->] end.
  - intros k _. apply mapM_exists. intros c _.
    destruct (qdotq_1 (ds_n d) (fun j => qget3 (ds_q3 d) k c j) (fun j => qget2 (ds_phi d) k j)) as (q & -> & _).
    + intros; apply F. + intros; apply F. + simpl. eauto.
  - simpl. eexists; split; [reflexivity|]. destruct F; split; auto.
Qed.

Lemma qget2_mapM {A} (da : A) (f : A -> res (list (qe N))) l t k j :
  mapM f l = Ok t ->
  (forall a r, f a = Ok r -> forall j, length (nth j r qzero) = 1%nat) ->
  length (qget2 t k j) = 1%nat.
Proof.
  intros H Hf. unfold qget2. destruct (Nat.lt_ge_cases k (length t)) as [Hk|Hk].
  - rewrite (mapM_length _ _ _ H) in Hk. pose proof (mapM_nth f l t k da [] H Hk) as E.
    eapply Hf; eauto.
  - rewrite (nth_overflow t) by auto. now destruct j.
Qed.

Lemma nth_mapM_1 {A} (da : A) (f : A -> res (qe N)) l t j :
  mapM f l = Ok t -> (forall a r, f a = Ok r -> length r = 1%nat) ->
  length (nth j t qzero) = 1%nat.
Proof.
  intros H Hf. destruct (Nat.lt_ge_cases j (length t)) as [Hk|Hk].
  - rewrite (mapM_length _ _ _ H) in Hk. pose proof (mapM_nth f l t j da qzero H Hk) as E.
    eapply Hf; eauto.
  - now rewrite nth_overflow.
Qed.

Lemma update_phi_total d i i' : flat d -> exists d', update_phi d i i' = Ok d' /\ flat d'.
Proof.
  intros F. unfold update_phi.
  set (f := fun kz c : nat =>
    a <- qdot (ds_n d) (fun j => qget3 (ds_q1 d) kz c j) (fun j => get2 i' j kz) ;;
    b <- qdot (ds_n d) (fun j => qget3 (ds_q2 d) kz c j) (fun j => get2 i j kz) ;;
    q <- qdotq (ds_n d) (fun j => qget3 (ds_q3 d) kz c j) (fun j => qget2 (ds_phi d) kz j) ;;
    ab <- bop cadd a b ;; bop cadd ab q).
  assert (Hf : forall k c, exists r, f k c = Ok r /\ length r = 1%nat).
  { intros k c. unfold f.
    destruct (qdot_1 (ds_n d) (fun j => qget3 (ds_q1 d) k c j) (fun j => get2 i' j k)) as (a & -> & Ha);
      [intros; apply F|].
    destruct (qdot_1 (ds_n d) (fun j => qget3 (ds_q2 d) k c j) (fun j => get2 i j k)) as (b & -> & Hb);
      [intros; apply F|].
    destruct (qdotq_1 (ds_n d) (fun j => qget3 (ds_q3 d) k c j) (fun j => qget2 (ds_phi d) k j)) as (q & -> & Hq);
      [intros; apply F|intros; apply F|].
    cbn [bind]. destruct (bop_1 cadd a b Ha Hb) as (ab & -> & Hab). cbn [bind].
    destruct (bop_1 cadd ab q Hab Hq) as (r & -> & Hr). eauto. }
  destruct (mapM_exists (fun kz => mapM (f kz) (seq 0 (ds_n d))) (seq 0 (ds_nx d))) as [t Ht].
  { intros k _. apply mapM_exists. intros c _. destruct (Hf k c) as (r & -> & _). eauto. }
  match goal with |- exists d', bind ?X _ = _ /\ _ => change X with (mapM (fun kz => mapM (f kz) (seq 0 (ds_n d))) (seq 0 (ds_nx d))) end.
  rewrite Ht. cbn [bind]. eexists; split; [reflexivity|].
  destruct F as [F1 F2 F3 F4]; split; cbn; auto.
  intros k j. apply (qget2_mapM 0%nat _ _ _ k j Ht).
  intros a r Hr q. apply (nth_mapM_1 0%nat _ _ _ q Hr).
  intros c z Hz. destruct (Hf a c) as (r' & Hr' & L). congruence.
Qed.

(** a probe that the next update will accept *)
Definition probe_ok (cells : nat) (p : probe N) : Prop :=
  (p_type p = "voltage"%string \/ p_type p = "current"%string) /\ (p_index p <= cells)%nat /\
  match p_val p with
  | PRows rows => length rows = length (p_t p)
  | PEmpty => length (p_t p) = 0%nat /\ p_frame p = 0%nat
  | PView _ _ => length (p_t p) = 1%nat /\ p_frame p = 1%nat
  end.

Lemma save_frame_total cells p t n (v i : mat N) vol idx : probe_ok cells p ->
  exists p', save_frame p t n v i vol idx = Ok p' /\ probe_ok cells p'.
Proof.
  intros (Ht & Hi & Hv). unfold save_frame.
  destruct (Nat.ltb_spec (p_frame p) (length (p_t p))) as [H|H].
  - destruct (p_val p) as [|rows|vl k]; try lia.
    unfold py_set. rewrite (proj2 (Nat.ltb_lt _ _)) by lia. cbn [bind].
    eexists; split; [reflexivity|]. repeat split; cbn; auto. now rewrite !length_lset.
  - eexists; split; [reflexivity|]. split; [exact Ht|]. split; [exact Hi|]. cbn.
    destruct (p_val p) as [|rows|vl k]; cbn; rewrite ?app_length; cbn; lia.
Qed.

Lemma probe_update_total cells p t n (v i : mat N) : probe_ok cells p ->
  exists p', probe_update p t n cells v i = Ok p' /\ probe_ok cells p'.
Proof.
  intros P. pose proof P as (Ht & Hi & _). unfold probe_update.
  destruct Ht as [-> | ->]; cbn [String.eqb Ascii.eqb Bool.eqb].
  - rewrite (proj2 (Nat.ltb_lt _ _)) by lia. now apply save_frame_total.
  - destruct (Nat.eqb_spec (p_index p) cells); [now apply save_frame_total|].
    rewrite (proj2 (Nat.ltb_lt _ _)) by lia. now apply save_frame_total.
Qed.

Lemma update_probes_total s t ps : Forall (probe_ok (k_N s)) ps ->
  exists ps', update_probes s t ps = Ok ps' /\ Forall (probe_ok (k_N s)) ps'.
Proof.
  unfold update_probes. induction 1 as [|p ps Hp _ IH]; simpl; [eauto|].
  destruct (probe_update_total (k_N s) p t (k_n s) (k_v s) (k_i s) Hp) as (p' & -> & Hp'). cbn [bind].
  destruct IH as (ps' & -> & Hps'). cbn [bind]. eauto.
Qed.

Lemma resize_ok cells p f n : (p_type p = "voltage"%string \/ p_type p = "current"%string) ->
  (p_index p <= cells)%nat -> probe_ok cells (resize_frames p f n).
Proof.
  intros H1 H2. repeat split; auto. cbn. unfold zeros, zeros2, mk2. now rewrite !length_mk.
Qed.

(** a line whose next step cannot raise *)
Record marching (m : mtl N) : Prop := {
  mc_cg : k_cg (m_core m) <> None;
  mc_lr : k_lr (m_core m) <> None;
  mc_flat : flat (k_disp (m_core m));
  mc_probes : Forall (probe_ok (k_N (m_core m))) (m_probes m)
}.

Lemma step_total m : marching m -> exists m', mtl_step m = Ok m' /\ marching m'.
Proof.
  intros [Hcg Hlr Hf Hp]. unfold mtl_step.
  destruct (k_cg (m_core m)) as [[vt idf]|] eqn:Ecg; [|congruence].
  destruct (k_lr (m_core m)) as [[it vd]|] eqn:Elr; [|congruence].
  set (f := eval_fields _ _ _ _). set (vsn := eval_at _ _). set (vsp := eval_at _ _).
  unfold advance_voltage. cbn [k_cg advance_left_terminal set_v]. rewrite Ecg. cbn [bind].
  unfold advance_current. cbn [k_disp advance_right_terminal set_v].
  destruct (update_q3_total _ Hf) as (d1 & E1 & F1).
  match goal with |- context [update_q3_phi_term ?d] => change d with (k_disp (m_core m)) end.
  rewrite E1. cbn [bind].
  match goal with |- context [match k_lr ?s with _ => _ end] => change (k_lr s) with (k_lr (m_core m)) end.
  rewrite Elr.
  match goal with |- context [update_phi d1 ?a ?b] => destruct (update_phi_total d1 a b F1) as (d2 & -> & F2) end.
  cbn [bind].
  match goal with |- context [update_probes ?s ?t ?ps] =>
    destruct (update_probes_total s t ps) as (ps' & -> & P'); [exact Hp|] end.
  cbn [bind]. eexists; split; [reflexivity|]. split; cbn; congruence || auto.
Qed.

Lemma steps_total j m : marching m -> exists m', iterM j mtl_step m = Ok m' /\ marching m'.
Proof.
  revert m; induction j as [|j IH]; intros m H; simpl; [eauto|].
  destruct (step_total m H) as (m1 & -> & H1). cbn [bind]. auto.
Qed.

Lemma prepare_marching m n m' : flat (k_disp (m_core m)) ->
  Forall (fun p => (p_type p = "voltage"%string \/ p_type p = "current"%string) /\ (p_index p <= k_N (m_core m))%nat)
    (m_probes m) ->
  mtl_prepare LA m n = Ok m' -> marching m'.
Proof.
  intros F P H. pose proof H as H2. apply prepare_inv in H as (t1 & t2 & _ & ->).
  split; cbn; try congruence; auto.
  apply Forall_forall. intros q Hq. apply in_map_iff in Hq as (p & <- & Hp).
  rewrite Forall_forall in P. destruct (P p Hp). now apply resize_ok.
Qed.

End StepTotal.
