(** C120: the equation of a node of a network is the balance of the components connected to it.
    Vocabulary: SpecElement.v (what each component draws), SpecNet.v. *)
From Coq Require Import String List Arith ZArith Bool Permutation Lia Reals Lra.
From Verif Require Import Num Py Arr NumR RFacts LapackR Utils Probes Dispersive Line Bundle Networks Mtln SpecLine SpecBundle SpecR SpecNet SpecElement
  ArrFacts NetFacts NetBuild NetR NetStamp NetStamp2 NetTotal ElementFacts ExampleLine ExampleBundle ExampleNet.
Import ListNotations.
Local Open Scope R_scope.

(** the current the circuit sends into a node is the sum of what its components send *)
Theorem C120_components ds (w0 w : network NumR) gs bs id k : network_new ds = Ok w0 ->
  Forall grounds gs -> NoDup (map ground_id gs) -> Forall sourceless bs -> do_calls w0 (gs ++ bs) = Ok w -> numbered w0 id k ->
  forall (dt t : NumR) (v vp x : nat -> R),
  @circuit_current NumR w dt v vp x (fun j => nSrc w j t) (fun j => nSrc w j (t - dt)) k = component_current w0 gs bs dt t v vp x id.
Proof. intros H G ND B E Hn. exact (components ds w0 gs bs w id H G ND B E k Hn). Qed.
Print Assumptions C120_components.

(** so the charge of the ends of the lines at a node grows by what the components send in and the lines take out *)
Theorem C120_node_balance (LA : lapack NumR) ds (w0 w1 w w' : network NumR) gs bs (dt t : NumR) id k : lapack_ok LA -> network_new ds = Ok w0 ->
  Forall grounds gs -> NoDup (map ground_id gs) -> Forall sourceless bs -> do_calls w0 (gs ++ bs) = Ok w1 ->
  after LA (@no_call NumR) w1 w -> net_run LA ds dt w -> nw_advance_voltage LA w t dt = Ok w' -> numbered w0 id k ->
  let n := w_nodes w in
  sumR n (fun j => nLen w k * nCap w k j * (nV w' j - nV w j)) / dt
  = component_current w0 gs bs dt t (nV w') (nV w) (nX w') id + component_current w0 gs bs dt (t - dt) (nV w) (nVprev w) (nX w) id
    - 2 * nI w k - sumR n (fun j => nLen w k * nCap w k j * (nField w j t - nField w j (t - dt))) / dt.
Proof. intros OK. exact (component_kirchhoff LA OK ds w0 gs bs w1 w w' dt t id k). Qed.
Print Assumptions C120_node_balance.

(** a capacitor with a source in series, a resistor with a source, a short circuit to ground; a resistor and a short circuit between nodes *)
Definition some_grounds : list (call NumR) := [@GroundC NumR 10 (1/8) (@TFun NumR sin); @GroundR NumR 20 50 (@TFun NumR cos); @GroundShort NumR 30].
Definition some_branches : list (call NumR) := [@Branch NumR 10 20 2 (@TInt NumR 0); @Short NumR 20 30].
Example C120_example : exists m (w0 w1 w2 w3 : network NumR), network_new (star_descr m plain) = Ok w0 /\
  Forall grounds some_grounds /\ NoDup (map ground_id some_grounds) /\ Forall sourceless some_branches /\ do_calls w0 (some_grounds ++ some_branches) = Ok w1 /\
  after LR (@no_call NumR) w1 w2 /\ net_run LR (star_descr m plain) (1/2) w2 /\ nw_advance_voltage LR w2 (1/2) (1/2) = Ok w3 /\
  numbered w0 10 0 /\ numbered w0 20 1 /\
  (forall dt t v vp x, component_current w0 some_grounds some_branches dt t v vp x 10
     = 1/8 * ((sin t - v 0%nat) - (sin (t - dt) - vp 0%nat)) / dt + (v 1%nat - v 0%nat) / 2).
Proof.
  destruct star_3 as (m & w0 & S).
  assert (G : Forall to_ground some_grounds).
  { constructor; [split; [rsimpl; lra|right; eauto]|]. constructor; [split; [rsimpl; lra|right; eauto]|]. constructor; [exact I|constructor]. }
  assert (B : Forall between_nodes some_branches). { constructor; [cbn; rsimpl; lra|]. constructor; [exact I|constructor]. }
  destruct (star_accept m plain 0 w0 (some_grounds ++ some_branches) S) as (w1 & E & C & H).
  { apply Forall_app. split; [revert G|revert B]; apply Forall_impl; auto. }
  { intros c id Hc Hi. cbn in Hc. destruct Hc as [<-|[<-|[<-|[<-|[<-|[]]]]]]; cbn in Hi |- *; tauto. }
  pose proof (rc_total LR LR_complete (star_descr m plain) w0 some_grounds some_branches w1 w1 (1/2) (star_phys _ _ _ _ S) (st_conn _ _ _ _ S) (st_new _ _ _ _ S)
    (st_ns _ _ _ _ S) G B E (af_refl _ _ _) ltac:(lra)) as [(w2 & E2) _].
  assert (A2 : after LR (@no_call NumR) w1 w2) by (eapply af_terms; [apply af_refl|exact E2]).
  assert (R2 : net_run LR (star_descr m plain) (1/2) w2) by (eapply nr_terms; eauto).
  pose proof (rc_total LR LR_complete (star_descr m plain) w0 some_grounds some_branches w1 w2 (1/2) (star_phys _ _ _ _ S) (st_conn _ _ _ _ S) (st_new _ _ _ _ S)
    (st_ns _ _ _ _ S) G B E A2 ltac:(lra)) as [_ X]. destruct (X R2 (1/2)) as [w3 E3].
  exists m, w0, w1, w2, w3. pose proof (st_ids _ _ _ _ S) as (I1 & I2 & I3).
  split; [exact (st_new _ _ _ _ S)|]. split; [constructor; [exact I|]; constructor; [cbn; rsimpl; lra|]; constructor; [exact I|constructor]|].
  split; [repeat constructor; cbn; lia|]. split; [constructor; [split; [rsimpl; lra|reflexivity]|]; constructor; [exact I|constructor]|].
  do 6 (split; [first [assumption|exact I1|exact I2]|]).
  intros dt t v vp x. unfold component_current, node_number, branch_current, branch_flow, node_number. destruct I1 as (n1 & F1 & N1), I2 as (n2 & F2 & N2).
  cbn [map some_grounds some_branches ground_id Z.eqb first_end second_end total fold_right Pos.eqb]. rewrite F1, N1, F2, N2. cbn [ground_current source_value]. lra.
Qed.
