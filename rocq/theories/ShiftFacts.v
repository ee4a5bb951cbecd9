(** Runs of a line seen from another origin of time. *)
From Coq Require Import String List Arith ZArith Bool Lia Reals Lra.
From Verif Require Import Num Py Arr ArrFacts NumR RFacts LapackR Probes Dispersive Line LineFacts SpecLine SpecR SpecDyn HistoryFacts
  SplitFacts RunEqFacts ConeFacts SuperFacts SuperProps SimFacts EnergyFacts SpecShift.
Import ListNotations.
Local Open Scope R_scope.

(** the line without its probes, with every driving function transformed, at another time *)
Definition tr_all (tr : (R -> R) -> (R -> R)) (fs : list (list (R -> R))) : list (list (R -> R)) := map (map tr) fs.
Definition retime (tr : (R -> R) -> (R -> R)) (t : R) (m : mtl NumR) : mtl NumR :=
  m_set (m_set_vsrc m (tr_all tr (m_vsrc m))) (set_fields (m_core m) (tr_all tr (k_eL (m_core m))) (tr_all tr (k_eT (m_core m)))) t [].

Lemma eval_tr tr fs (t t' : R) : (forall f, tr f t' = f t) -> @eval_at NumR (tr_all tr fs) t' = @eval_at NumR fs t.
Proof.
  intros H. unfold eval_at, tr_all. rewrite map_map. apply map_ext. intros l. rewrite map_map. apply map_ext. intros f. apply H.
Qed.
Lemma nth_tr tr fs c k (t : R) : (forall t, tr (fun _ => 0) t = 0) -> nth k (nth c (tr_all tr fs) []) (fun _ => 0) t = tr (nth k (nth c fs []) (fun _ => 0)) t.
Proof.
  intros H. unfold tr_all. change (@nil (R -> R)) with (map tr []) at 1. rewrite map_nth.
  generalize (nth c fs []). intros l. destruct (Nat.lt_ge_cases k (length l)) as [L|L].
  - rewrite (nth_indep _ _ (tr (fun _ => 0))) by now rewrite map_length. now rewrite map_nth.
  - rewrite !nth_overflow by (rewrite ?map_length; lia). now rewrite H.
Qed.
Lemma step_retime tr (m m' : mtl NumR) (t : R) :
  (forall f, tr f t = f (m_time m)) -> (forall f, tr f (t - step_dt m) = f (m_time m - step_dt m)) ->
  (forall f, tr f (t + step_dt m / 2) = f (m_time m + step_dt m / 2)) -> (forall f, tr f (t - step_dt m / 2) = f (m_time m - step_dt m / 2)) ->
  mtl_step m = Ok m' -> mtl_step (retime tr t m) = Ok (retime tr (t + step_dt m) m').
Proof.
  intros H1 H2 H3 H4 H. unfold mtl_step in *.
  change (m_vsrc (retime tr t m)) with (tr_all tr (m_vsrc m)). change (m_time (retime tr t m)) with t.
  change (k_dt (m_core (retime tr t m))) with (step_dt m).
  assert (F : @eval_fields NumR (k_eL (m_core (retime tr t m))) (k_eT (m_core (retime tr t m))) t (step_dt m)
            = @eval_fields NumR (k_eL (m_core m)) (k_eT (m_core m)) (m_time m) (step_dt m)).
  { unfold eval_fields. change (k_eL (m_core (retime tr t m))) with (tr_all tr (k_eL (m_core m))). change (k_eT (m_core (retime tr t m))) with (tr_all tr (k_eT (m_core m))).
    f_equal; apply eval_tr; assumption. }
  rewrite F. clear F. unfold step_dt in *.
  cbv zeta in *. rewrite (eval_tr tr (m_vsrc m) (m_time m) t H1).
  assert (E2 : @eval_at NumR (tr_all tr (m_vsrc m)) (@nsub NumR t (k_dt (m_core m))) = @eval_at NumR (m_vsrc m) (@nsub NumR (m_time m) (k_dt (m_core m)))) by exact (eval_tr tr (m_vsrc m) _ _ H2).
  rewrite E2. clear E2.
  set (fl := eval_fields _ _ _ _) in *. set (v1 := @eval_at NumR (m_vsrc m) (m_time m)) in *. set (v2 := @eval_at NumR (m_vsrc m) (@nsub NumR (m_time m) (k_dt (m_core m)))) in *. clearbody fl v1 v2.
  set (L := tr_all tr (k_eL (m_core m))). set (T := tr_all tr (k_eT (m_core m))).
  inv_bind H. rename a into s2, Ha into A2. inv_bind H. rename a into s4, Ha into A4. inv_bind H. injection H as <-.
  assert (B2 : advance_voltage (advance_left_terminal (retime tr t m) (m_core (retime tr t m)) fl v1 v2) fl = Ok (set_fields s2 L T)).
  { unfold advance_voltage in *. change (k_cg (advance_left_terminal (retime tr t m) (m_core (retime tr t m)) fl v1 v2)) with (k_cg (advance_left_terminal m (m_core m) fl v1 v2)).
    destruct (k_cg _) as [[vt idf]|]; [|discriminate]. injection A2 as <-. reflexivity. }
  rewrite B2. cbn [bind].
  assert (EL : k_eL s2 = k_eL (m_core m) /\ k_eT s2 = k_eT (m_core m)) by (unfold advance_voltage in A2; destruct (k_cg _) as [[? ?]|]; [|discriminate]; injection A2 as <-; auto).
  assert (B4 : advance_current (advance_right_terminal (retime tr t m) (set_fields s2 L T) fl v1 v2) fl = Ok (set_fields s4 L T)).
  { unfold advance_current in *. change (k_disp (advance_right_terminal (retime tr t m) (set_fields s2 L T) fl v1 v2)) with (k_disp (advance_right_terminal m s2 fl v1 v2)).
    inv_bind A4. rewrite Ha0. cbn [bind]. change (k_lr (advance_right_terminal (retime tr t m) (set_fields s2 L T) fl v1 v2)) with (k_lr (advance_right_terminal m s2 fl v1 v2)).
    destruct (k_lr _) as [[it vd]|]; [|discriminate]. inv_bind A4. injection A4 as <-.
    change (mk2 _ _ _) with (mk2 (k_n (advance_right_terminal m s2 fl v1 v2)) (k_N (advance_right_terminal m s2 fl v1 v2)) (fun c k => cell_current (set_disp (advance_right_terminal m s2 fl v1 v2) a0) fl it vd c k)).
    rewrite Ha1. reflexivity. }
  rewrite B4. cbn [bind].
  assert (E4 : k_eL s4 = k_eL (m_core m) /\ k_eT s4 = k_eT (m_core m)).
  { unfold advance_current in A4. inv_bind A4. destruct (k_lr _) as [[? ?]|]; [|discriminate]. inv_bind A4. injection A4 as <-. exact EL. }
  unfold retime. cbn [m_set m_core m_vsrc m_set_vsrc]. destruct E4 as [-> ->]. reflexivity.
Qed.
