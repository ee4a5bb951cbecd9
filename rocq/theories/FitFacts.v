(** Steps of lines with dispersive elements cannot raise when, in each cell, all pole lists
    have the same length or length one (any [num]). *)
From Coq Require Import String List Arith ZArith Bool Lia.
From Verif Require Import Num Py Arr ArrFacts Probes Dispersive Line LineFacts Bundle Networks Mtln
  SpecLine SpecBundle SpecDisp HistoryFacts StepTotal TotalFacts DispFacts MemFacts DispProps ConnFacts.
Import ListNotations.

Section Fit.
Context {N : num}.
Local Open Scope num_scope.
Variable LA : lapack N.
Implicit Types (m : mtl N) (d s : disp N).

Definition fits (q : nat) (l : list (cplx N)) : Prop := length l = 1%nat \/ length l = q.
Record fit (q : nat -> nat) d : Prop := {
  ft_1 : forall k i j, fits (q k) (dP1 d k i j);
  ft_2 : forall k i j, fits (q k) (dP2 d k i j);
  ft_3 : forall k i j, fits (q k) (dP3 d k i j);
  ft_phi : forall k j, fits (q k) (dPhi d k j)
}.

Lemma bop_fit q f (a b : qe N) : fits q a -> fits q b -> exists c, bop f a b = Ok c /\ fits q c.
Proof.
  intros Ha Hb. unfold bop, fits in *. destruct (Nat.eqb_spec (length a) (length b)) as [E|E].
  - eexists; split; [reflexivity|]. rewrite length_mk. exact Ha.
  - destruct (Nat.eqb_spec (length a) 1); [eexists; split; [reflexivity|]; rewrite map_length; exact Hb|].
    destruct (Nat.eqb_spec (length b) 1); [eexists; split; [reflexivity|]; rewrite map_length; exact Ha|]. lia.
Qed.
Lemma qdot_fit q n (row : nat -> qe N) x : (forall j, fits q (row j)) -> exists c, qdot n row x = Ok c /\ fits q c.
Proof.
  intros H. destruct n as [|n]; cbn [qdot]; [eexists; split; [reflexivity|]; now left|].
  assert (G : forall l acc, fits q acc -> exists c,
     foldM (fun acc j => bop cadd acc (map (cscal (x j)) (row j))) l acc = Ok c /\ fits q c).
  { induction l as [|a l IH]; intros acc Hacc; cbn [foldM]; [eauto|].
    destruct (bop_fit q cadd acc (map (cscal (x a)) (row a)) Hacc) as (c & -> & Hc);
      [unfold fits; rewrite map_length; apply H|]. cbn [bind]. auto. }
  apply G. unfold fits. rewrite map_length. apply H.
Qed.
Lemma qdotq_fit q n (row x : nat -> qe N) : (forall j, fits q (row j)) -> (forall j, fits q (x j)) ->
  exists c, qdotq n row x = Ok c /\ fits q c.
Proof.
  intros H Hx. destruct n as [|n]; cbn [qdotq]; [eexists; split; [reflexivity|]; now left|].
  assert (G : forall l acc, fits q acc -> exists c,
     foldM (fun acc j => p <- bop cmul (row j) (x j) ;; bop cadd acc p) l acc = Ok c /\ fits q c).
  { induction l as [|a l IH]; intros acc Hacc; cbn [foldM]; [eauto|].
    destruct (bop_fit q cmul (row a) (x a) (H a) (Hx a)) as (p & -> & Hp). cbn [bind].
    destruct (bop_fit q cadd acc p Hacc Hp) as (c & -> & Hc). cbn [bind]. auto. }
  destruct (bop_fit q cmul (row 0%nat) (x 0%nat) (H _) (Hx _)) as (p & -> & Hp). cbn [bind]. auto.
Qed.

Lemma update_q3_fit q d : fit q d -> exists d', update_q3_phi_term d = Ok d' /\ fit q d'.
Proof.
  intros F. unfold update_q3_phi_term.
  match goal with |- exists d', bind (mapM ?f ?l) _ = _ /\ _ => destruct (mapM_exists f l) as [t ->] end.
  - intros k _. apply mapM_exists. intros c _.
    destruct (qdotq_fit (q k) (ds_n d) (fun j => qget3 (ds_q3 d) k c j) (fun j => qget2 (ds_phi d) k j)) as (r & -> & _).
    + intros j; apply (ft_3 _ _ F). + intros j; apply (ft_phi _ _ F). + cbn [bind]. eauto.
  - cbn [bind]. eexists; split; [reflexivity|]. destruct F; split; auto.
Qed.
Lemma nth_mapM_fit {A} (da : A) q (f : A -> res (qe N)) l t j :
  mapM f l = Ok t -> (forall a r, f a = Ok r -> fits q r) -> fits q (nth j t qzero).
Proof.
  intros H Hf. destruct (Nat.lt_ge_cases j (length t)) as [Hk|Hk].
  - rewrite (mapM_length _ _ _ H) in Hk. pose proof (mapM_nth f l t j da qzero H Hk) as E. eapply Hf; eauto.
  - rewrite nth_overflow by auto. now left.
Qed.
Lemma update_phi_fit q d i i' : fit q d -> exists d', update_phi d i i' = Ok d' /\ fit q d'.
Proof.
  intros F. unfold update_phi.
  set (f := fun kz c : nat =>
    a <- qdot (ds_n d) (fun j => qget3 (ds_q1 d) kz c j) (fun j => get2 i' j kz) ;;
    b <- qdot (ds_n d) (fun j => qget3 (ds_q2 d) kz c j) (fun j => get2 i j kz) ;;
    q <- qdotq (ds_n d) (fun j => qget3 (ds_q3 d) kz c j) (fun j => qget2 (ds_phi d) kz j) ;;
    ab <- bop cadd a b ;; bop cadd ab q).
  assert (Hf : forall k c, exists r, f k c = Ok r /\ fits (q k) r).
  { intros k c. unfold f.
    destruct (qdot_fit (q k) (ds_n d) (fun j => qget3 (ds_q1 d) k c j) (fun j => get2 i' j k)) as (a & -> & Ha);
      [intros j; apply (ft_1 _ _ F)|].
    destruct (qdot_fit (q k) (ds_n d) (fun j => qget3 (ds_q2 d) k c j) (fun j => get2 i j k)) as (b & -> & Hb);
      [intros j; apply (ft_2 _ _ F)|].
    destruct (qdotq_fit (q k) (ds_n d) (fun j => qget3 (ds_q3 d) k c j) (fun j => qget2 (ds_phi d) k j)) as (r & -> & Hr);
      [intros j; apply (ft_3 _ _ F)|intros j; apply (ft_phi _ _ F)|].
    cbn [bind]. destruct (bop_fit (q k) cadd a b Ha Hb) as (ab & -> & Hab). cbn [bind].
    destruct (bop_fit (q k) cadd ab r Hab Hr) as (r' & -> & Hr'). eauto. }
  destruct (mapM_exists (fun kz => mapM (f kz) (seq 0 (ds_n d))) (seq 0 (ds_nx d))) as [t Ht].
  { intros k _. apply mapM_exists. intros c _. destruct (Hf k c) as (r & -> & _). eauto. }
  match goal with |- exists d', bind ?X _ = _ /\ _ => change X with (mapM (fun kz => mapM (f kz) (seq 0 (ds_n d))) (seq 0 (ds_nx d))) end.
  rewrite Ht. cbn [bind]. eexists; split; [reflexivity|].
  destruct F as [F1 F2 F3 F4]; split; auto.
  intros k j. unfold dPhi, qget2. cbn [ds_phi]. destruct (Nat.lt_ge_cases k (ds_nx d)) as [Hk|Hk].
  - pose proof (mapM_seq _ _ _ k ([] : list (qe N)) Ht Hk) as E. cbv beta in E.
    apply (nth_mapM_fit 0%nat (q k) _ _ _ j E). intros c z Hz. destruct (Hf k c) as (r' & Hr' & L). congruence.
  - rewrite (nth_overflow t) by (rewrite (mapM_length _ _ _ Ht), seq_length; auto). destruct j; now left.
Qed.

Record marching_fit q m : Prop := {
  mf_cg : k_cg (m_core m) <> None;
  mf_lr : k_lr (m_core m) <> None;
  mf_fit : fit q (m_disp m);
  mf_probes : Forall (probe_ok (k_N (m_core m))) (m_probes m)
}.
Lemma step_fit q m : marching_fit q m -> exists m', mtl_step m = Ok m' /\ marching_fit q m'.
Proof.
  intros [Hcg Hlr Hf Hp]. unfold mtl_step.
  destruct (k_cg (m_core m)) as [[vt idf]|] eqn:Ecg; [|congruence].
  destruct (k_lr (m_core m)) as [[it vd]|] eqn:Elr; [|congruence].
  set (f := eval_fields _ _ _ _). set (vsn := eval_at _ _). set (vsp := eval_at _ _).
  unfold advance_voltage. cbn [k_cg advance_left_terminal set_v]. rewrite Ecg. cbn [bind].
  unfold advance_current. cbn [k_disp advance_right_terminal set_v].
  destruct (update_q3_fit q _ Hf) as (d1 & E1 & F1).
  match goal with |- context [update_q3_phi_term ?d] => change d with (m_disp m) end.
  rewrite E1. cbn [bind].
  match goal with |- context [match k_lr ?s with _ => _ end] => change (k_lr s) with (k_lr (m_core m)) end.
  rewrite Elr.
  match goal with |- context [update_phi d1 ?a ?b] => destruct (update_phi_fit q d1 a b F1) as (d2 & -> & F2) end.
  cbn [bind].
  match goal with |- context [update_probes ?s ?t ?ps] =>
    destruct (update_probes_total s t ps) as (ps' & -> & P'); [exact Hp|] end.
  cbn [bind]. eexists; split; [reflexivity|]. split; cbn; congruence || auto.
Qed.
Lemma steps_fit q j m : marching_fit q m -> exists m', iterM j mtl_step m = Ok m' /\ marching_fit q m'.
Proof.
  revert m; induction j as [|j IH]; intros m H; cbn [iterM]; [eauto|].
  destruct (step_fit q m H) as (m1 & -> & H1). cbn [bind]. auto.
Qed.
Lemma prepare_fit q m n m' : fit q (m_disp m) ->
  Forall (fun p => (p_type p = "voltage"%string \/ p_type p = "current"%string) /\ (p_index p <= k_N (m_core m))%nat)
    (m_probes m) ->
  mtl_prepare LA m n = Ok m' -> marching_fit q m'.
Proof.
  intros F P H. apply prepare_inv in H as (t1 & t2 & _ & ->).
  split; cbn; try congruence; auto.
  apply Forall_forall. intros p0 Hq. apply in_map_iff in Hq as (p & <- & Hp).
  rewrite Forall_forall in P. destruct (P p Hp). now apply resize_ok.
Qed.

(** a run whose preparation succeeds goes through *)
Lemma run_fit q m T : reachable LA m -> fit q (m_disp m) ->
  Forall (fun p => (p_type p = "voltage"%string \/ p_type p = "current"%string) /\ (p_index p <= cells m)%nat)
    (m_probes m) ->
  (forall steps, time_range_len T (k_dt (m_core m)) = Ok steps -> exists p, mtl_prepare LA m steps = Ok p) ->
  forall steps, time_range_len T (k_dt (m_core m)) = Ok steps -> exists m', run_until LA m T = Ok m'.
Proof.
  intros _ F P HP steps Hs. unfold run_until. rewrite Hs. cbn [bind].
  destruct (HP _ Hs) as [p Hp]. rewrite Hp. cbn [bind].
  destruct (steps_fit q steps p (prepare_fit q m steps p F P Hp)) as (m' & E & _). eauto.
Qed.

(** ** When a connector is accepted *)
Lemma connector_accepted m p c model : reachable LA m -> ~ outside m p -> (node_of m p < cells m)%nat ->
  (c < conductors m)%nat -> consistent model -> free_entry (m_disp m) (node_of m p) c ->
  exists m', mtl_add_dispersive_connector m p c model = Ok m'.
Proof.
  intros H Ho Hn Hc Hm (FD & FE & (z1 & E1 & A1 & B1) & (z2 & E2 & A2 & B2) & (z3 & E3 & A3 & B3)).
  destruct (reachable_line_disp LA _ H) as (_ & B & _). pose proof (reachable_shape LA _ H) as Sh.
  unfold mtl_add_dispersive_connector, add_dispersive_connector. unfold m_disp in *. rewrite B. cbv zeta.
  replace (_ || _) with false.
  2:{ symmetry. apply not_true_is_false. intros E. apply Ho. unfold outside.
      apply orb_true_iff in E as [E|E]; apply existsb_exists in E as (d & Hd & E); apply in_seq in Hd; exists d; (split; [lia|]); auto. }
  fold (node_of m p). 
  assert (Lu : (node_of m p + 1 < length (m_u m))%nat) by (rewrite (sh_u _ Sh); fold (cells m); lia).
  match goal with |- context [py_get ?u ?i] => destruct (py_get u i) as [next|e] eqn:En end;
    [|exfalso; unfold py_get in En; destruct (nth_error _ _) eqn:E in En; [discriminate|]; apply nth_error_None in E;
      unfold node_of in Lu; apply Nat.lt_nge in Lu; apply Lu; exact E].
  cbn [bind].
  rewrite (rm_check_intro _ Hm). cbn [bind].
  rewrite (sh_dn _ Sh). fold (conductors m). rewrite (proj2 (Nat.ltb_lt _ _) Hc). cbn [negb].
  unfold dD in FD. unfold dE in FE. rewrite FD, FE. cbn [passert bind].
  unfold dP1 in E1. unfold dP2 in E2. unfold dP3 in E3. rewrite E1, E2, E3. cbn [assert_qzero].
  rewrite A1, A2, A3, B1, B2, B3. cbn [andb passert bind].
  assert (G : forall f z (l : list (cplx N)), exists r, bop f [z] l = Ok r).
  { intros f z l. unfold bop. cbn [length]. destruct (_ =? _)%nat; cbn [Nat.eqb]; eauto. }
  match goal with |- context [bop ?f [?z] ?l] => destruct (G f z l) as [r1 ->] end. cbn [bind].
  match goal with |- context [bop ?f [?z] ?l] => destruct (G f z l) as [r2 ->] end. cbn [bind].
  match goal with |- context [bop ?f [?z] ?l] => destruct (G f z l) as [r3 ->] end. cbn [bind].
  eauto.
Qed.
Lemma built_free m k c : built LA m -> n0 =? (@n0 N) = true -> free_entry (m_disp m) k c.
Proof.
  intros B E. rewrite (built_disp LA _ B). unfold free_entry, dD, dE, dP1, dP2, dP3.
  cbn [disp_new ds_q1 ds_q2 ds_q3 ds_d ds_e]. rewrite !qget3_qzeros, !zeros3_get.
  split; [exact E|]. split; [exact E|]. repeat split; exists c0; repeat split; exact E.
Qed.
End Fit.
