(** C51-C60, C80, C88: networks of line ends.
    Vocabulary: SpecNet.v (how a network comes to be, its observables), SpecRLC.v (the circuit
    of a series resistor and parallel inductor and capacitor), SpecR.v, SpecBundle.v. *)
From Coq Require Import String List Arith ZArith Bool Permutation Lia Reals Lra.
From Verif Require Import Num Py Arr NumR RFacts LapackR Utils Probes Dispersive Line Bundle Networks Mtln SpecLine SpecBundle SpecAlone SpecR SpecNet SpecStates SpecRLC
  TotalFacts ArrFacts NetFacts NetBuild NetR NetStamp NetStamp2 NetRLC NetPlace NetTotal NetMore NetStates SeriesFacts ExampleLine ExampleBundle ExampleNet.
Import ListNotations.
Local Open Scope R_scope.

(** ** C51 *)
Theorem C51_kirchhoff (LA : lapack NumR) ds (dt : NumR) (w w' : network NumR) t i : lapack_ok LA ->
  net_run LA ds dt w -> nw_advance_voltage LA w t dt = Ok w' -> (i < w_nodes w)%nat ->
  let n := w_nodes w in
  sumR n (fun j => nLen w i * nCap w i j * (nV w' j - nV w j)) / dt
  = circuit_current w dt (nV w') (nV w) (nX w') (fun j => nSrc w j t) (fun j => nSrc w j (t - dt)) i
    + circuit_current w dt (nV w) (nVprev w) (nX w) (fun j => nSrc w j (t - dt)) (fun j => nSrc w j (t - 2 * dt)) i
    - 2 * nI w i
    - sumR n (fun j => nLen w i * nCap w i j * (nField w j t - nField w j (t - dt))) / dt.
Proof. intros H. exact (net_kcl LA H ds dt w w' t i). Qed.
Print Assumptions C51_kirchhoff.
Theorem C51_states (LA : lapack NumR) ds (dt : NumR) (w w' : network NumR) t i : lapack_ok LA ->
  net_run LA ds dt w -> nw_advance_voltage LA w t dt = Ok w' -> (i < w_ns w)%nat ->
  nX w' i = nX w i + dt * (sumR (w_ns w) (fun j => nM w i j * nX w' j) + sumR (w_nodes w) (fun j => nB w i j * nV w' j)
                           + sumR (w_nodes w) (fun j => nBs w i j * nSrc w j t)).
Proof. intros H. exact (net_states LA H ds dt w w' t i). Qed.
Print Assumptions C51_states.
Example C51_nontrivial : (exists m w0 w1 w2 w3, star_case m w0 w1 w2 w3) /\ exists m w0 w1 w2 w3, rlc_case m w0 w1 w2 w3.
Proof. split; [exact star_run|exact rlc_run]. Qed.

(** ** C52 *)
Theorem C52_passive (LA : lapack NumR) ds (w w' : network NumR) l : net_history LA ds w -> Forall between_nodes l -> do_calls w l = Ok w' ->
  let n := w_nodes w in let D i j := nG w' i j - nG w i j in
  symm n D /\ (forall i, (i < n)%nat -> sumR n (fun j => D i j) = 0) /\ (forall x, quad n D x <= 0).
Proof. intros H. exact (branches_passive w l w' (history_shape LA ds w H)). Qed.
Print Assumptions C52_passive.
Theorem C52_order (LA : lapack NumR) ds (w w1 : network NumR) l l' : net_history LA ds w -> Forall between_nodes l -> Permutation l l' -> do_calls w l = Ok w1 ->
  exists w2, do_calls w l' = Ok w2 /\ same_but_resistors w1 w2 /\
    (forall i j, nG w2 i j = nG w1 i j) /\ (forall i j, nGs w2 i j = nGs w1 i j) /\ (forall i t, nSrc w2 i t = nSrc w1 i t).
Proof. intros H. exact (branches_order w l l' w1 (history_shape LA ds w H)). Qed.
Print Assumptions C52_order.
Theorem C52_accepted (LA : lapack NumR) ds (w : network NumR) l : net_history LA ds w -> Forall between_nodes l ->
  ((exists w', do_calls w l = Ok w') <->
   forall c, In c l -> match c with Branch a b _ _ | Short a b => (exists k, numbered w a k) /\ exists k, numbered w b k | _ => False end).
Proof.
  intros H F. rewrite (calls_accept l w F). split; intros A c Hc; specialize (A c Hc); destruct c; auto;
    (split; [destruct A as [[n Hn] _]|destruct A as [_ [n Hn]]]); [exists (nd_index n), n|exists (nd_index n), n|exists (nd_index n), n|exists (nd_index n), n| | | |]; auto;
    destruct Hn as (nd & Hn & _); eauto.
Qed.
Print Assumptions C52_accepted.

Lemma star_two m w : star m plain 0 w -> forall l, Forall (fun c => to_ground c \/ between_nodes c) l -> (forall c id, In c l -> In id (c_ids c) -> In id [10; 20; 30]%Z) -> exists w', do_calls w l = Ok w'.
Proof. intros S l F K. destruct (star_accept m plain 0 w l S F K) as (w' & E & _). eauto. Qed.
Ltac star_calls := first [apply Forall_cons; [first [left; split; [rsimpl; lra|first [now left|right; eauto]]|right; cbn; rsimpl; lra|right; exact I]|star_calls] | apply Forall_nil].
Ltac star_ids := intros c id Hc Hi; cbn in Hc; repeat (destruct Hc as [<- | Hc]; [cbn in Hi |- *; tauto|]); destruct Hc.
Example C52_nontrivial : exists m (w0 w1 : network NumR), net_history LR (star_descr m plain) w0 /\ Forall between_nodes star_branches /\ do_calls w0 star_branches = Ok w1.
Proof.
  destruct star_3 as (m & w0 & S). destruct (star_two m w0 S star_branches) as [w1 E]; [star_calls|star_ids|]. exists m, w0, w1.
  split; [apply nh_new; exact (st_new _ _ _ _ S)|]. split; [exact (proj2 star_ok)|exact E].
Qed.

(** ** C53 *)
Theorem C53_overwrites (LA : lapack NumR) ds (w w' : network NumR) id k (R : NumR) V : net_history LA ds w -> numbered w id k -> R <> 0 -> connect_to_ground w id R V = Ok w' ->
  nG w' k k = - (1 / R) /\ (forall i j, (i <> k \/ j <> k) -> nG w' i j = nG w i j) /\ same_but_resistors w w'.
Proof. intros H. exact (ground_overwrites w id k R V w' (history_shape LA ds w H)). Qed.
Print Assumptions C53_overwrites.
Theorem C53_branch_then_ground (LA : lapack NumR) ds (w w' : network NumR) id k id2 k2 (R R2 : NumR) V V2 : net_history LA ds w ->
  numbered w id k -> numbered w id2 k2 -> R <> 0 -> 0 < R2 ->
  do_calls w [Branch id id2 R2 V2; GroundR id R V] = Ok w' -> nG w' k k = - (1 / R).
Proof. intros H. exact (ground_after w id k id2 k2 R R2 V V2 w' (history_shape LA ds w H)). Qed.
Print Assumptions C53_branch_then_ground.
Theorem C53_ground_then_branch (LA : lapack NumR) ds (w w' : network NumR) id k id2 k2 (R R2 : NumR) V V2 : net_history LA ds w ->
  numbered w id k -> numbered w id2 k2 -> k <> k2 -> R <> 0 -> 0 < R2 ->
  do_calls w [GroundR id R V; Branch id id2 R2 V2] = Ok w' -> nG w' k k = - (1 / R) - 1 / R2.
Proof. intros H. exact (ground_before w id k id2 k2 R R2 V V2 w' (history_shape LA ds w H)). Qed.
Print Assumptions C53_ground_then_branch.
Theorem C53_ground_twice (LA : lapack NumR) ds (w w' : network NumR) id k (R R2 : NumR) V V2 : net_history LA ds w -> numbered w id k -> R <> 0 -> R2 <> 0 ->
  do_calls w [GroundR id R V; GroundR id R2 V2] = Ok w' -> nG w' k k = - (1 / R2).
Proof. intros H. exact (ground_twice w id k R R2 V V2 w' (history_shape LA ds w H)). Qed.
Print Assumptions C53_ground_twice.
(** the consequence: resistors that deliver power *)
Theorem C53_not_passive ds (w0 w : network NumR) id k id2 k2 (R Rg : NumR) V Vg : network_new ds = Ok w0 -> numbered w0 id k -> numbered w0 id2 k2 -> k <> k2 -> 0 < R -> R < Rg ->
  do_calls w0 [Branch id id2 R V; GroundR id Rg Vg] = Ok w -> exists x, 0 < quad (w_nodes w0) (nG w) x.
Proof. exact (ground_after_active ds w0 id k id2 k2 R Rg V Vg w). Qed.
Print Assumptions C53_not_passive.
Example C53_nontrivial : exists m (w0 w1 w2 w3 : network NumR), network_new (star_descr m plain) = Ok w0 /\ net_history LR (star_descr m plain) w0 /\ numbered w0 10 0 /\ numbered w0 20 1 /\
  do_calls w0 [@Branch NumR 10 20 2 (@TFun NumR cos); @GroundR NumR 10 50 (@TInt NumR 0)] = Ok w1 /\
  do_calls w0 [@GroundR NumR 10 50 (@TInt NumR 0); @Branch NumR 10 20 2 (@TFun NumR cos)] = Ok w2 /\
  do_calls w0 [@GroundR NumR 10 50 (@TInt NumR 0); @GroundR NumR 10 2 (@TFun NumR sin)] = Ok w3.
Proof.
  destruct star_3 as (m & w0 & S).
  destruct (star_two m w0 S [@Branch NumR 10 20 2 (@TFun NumR cos); @GroundR NumR 10 50 (@TInt NumR 0)]) as [w1 E1]; [star_calls|star_ids|].
  destruct (star_two m w0 S [@GroundR NumR 10 50 (@TInt NumR 0); @Branch NumR 10 20 2 (@TFun NumR cos)]) as [w2 E2]; [star_calls|star_ids|].
  destruct (star_two m w0 S [@GroundR NumR 10 50 (@TInt NumR 0); @GroundR NumR 10 2 (@TFun NumR sin)]) as [w3 E3]; [star_calls|star_ids|].
  exists m, w0, w1, w2, w3. pose proof (st_new _ _ _ _ S) as N0. pose proof (st_ids _ _ _ _ S) as (I1 & I2 & _). repeat split; auto. now apply nh_new.
Qed.

(** ** C54 *)
Theorem C54_one_source ds (w0 w : network NumR) id1 k1 id2 k2 (R : NumR) V t i : network_new ds = Ok w0 -> numbered w0 id1 k1 -> numbered w0 id2 k2 -> k1 <> k2 -> 0 < R ->
  do_calls w0 [Branch id1 id2 R (TFun V)] = Ok w -> (i < w_nodes w0)%nat ->
  source_current w i t = if (i =? k1)%nat then V t / R else if (i =? k2)%nat then - (V t / R) else 0.
Proof. exact (one_source ds w0 id1 k1 id2 k2 R V w t i). Qed.
Print Assumptions C54_one_source.
Theorem C54_two_sources ds (w0 w : network NumR) id1 k1 id2 k2 id3 k3 (R1 R2 : NumR) V1 V2 t : network_new ds = Ok w0 ->
  numbered w0 id1 k1 -> numbered w0 id2 k2 -> numbered w0 id3 k3 -> k1 <> k2 -> k1 <> k3 -> k2 <> k3 -> 0 < R1 -> 0 < R2 ->
  do_calls w0 [Branch id1 id2 R1 (TFun V1); Branch id1 id3 R2 (TFun V2)] = Ok w ->
  source_current w k1 t = (1 / R1 + 1 / R2) * (V1 t + V2 t) /\ source_current w k2 t = - (V1 t / R1) /\ source_current w k3 t = - (V2 t / R2).
Proof. exact (two_sources ds w0 id1 k1 id2 k2 id3 k3 R1 R2 V1 V2 w t). Qed.
Print Assumptions C54_two_sources.
Theorem C54_opposed ds (w0 w : network NumR) id1 k1 id2 k2 id3 k3 (R1 R2 : NumR) V1 V2 t : network_new ds = Ok w0 ->
  numbered w0 id1 k1 -> numbered w0 id2 k2 -> numbered w0 id3 k3 -> k1 <> k2 -> k1 <> k3 -> k2 <> k3 -> 0 < R1 -> 0 < R2 ->
  do_calls w0 [Branch id1 id2 R1 (TFun V1); Branch id3 id1 R2 (TFun V2)] = Ok w ->
  source_current w k1 t = (1 / R1 - 1 / R2) * (V1 t + V2 t).
Proof. exact (two_sources_opposed ds w0 id1 k1 id2 k2 id3 k3 R1 R2 V1 V2 w t). Qed.
Print Assumptions C54_opposed.
(** superposition of branches fails: the current of both sources is not the sum of the currents of each *)
Theorem C54_superposition_refuted : exists ds (w0 w w1 w2 : network NumR) (V1 V2 : R -> R) t, network_new ds = Ok w0 /\
  do_calls w0 [@Branch NumR 10 20 1 (@TFun NumR V1); @Branch NumR 10 30 1 (@TFun NumR V2)] = Ok w /\
  do_calls w0 [@Branch NumR 10 20 1 (@TFun NumR V1)] = Ok w1 /\ do_calls w0 [@Branch NumR 10 30 1 (@TFun NumR V2)] = Ok w2 /\
  source_current w 0 t <> source_current w1 0 t + source_current w2 0 t.
Proof.
  destruct star_3 as (m & w0 & S). pose (V1 := fun _ : R => 1). pose (V2 := fun _ : R => 1).
  destruct (star_two m w0 S [@Branch NumR 10 20 1 (@TFun NumR V1); @Branch NumR 10 30 1 (@TFun NumR V2)]) as [w E]; [star_calls|star_ids|].
  destruct (star_two m w0 S [@Branch NumR 10 20 1 (@TFun NumR V1)]) as [w1 E1]; [star_calls|star_ids|].
  destruct (star_two m w0 S [@Branch NumR 10 30 1 (@TFun NumR V2)]) as [w2 E2]; [star_calls|star_ids|].
  exists (star_descr m plain), w0, w, w1, w2, V1, V2, 0. pose proof (st_new _ _ _ _ S) as N0. pose proof (st_ids _ _ _ _ S) as (I1 & I2 & I3).
  repeat (split; [assumption|]). pose proof (st_n _ _ _ _ S) as Nn. assert (P1 : 0 < (1 : NumR)) by (rsimpl; lra).
  destruct (two_sources _ w0 10 0 20 1 30 2 1 1 V1 V2 w 0 N0 I1 I2 I3 ltac:(lia) ltac:(lia) ltac:(lia) P1 P1 E) as [A _].
  pose proof (one_source _ w0 10 0 20 1 1 V1 w1 0 0 N0 I1 I2 ltac:(lia) P1 E1 ltac:(lia)) as B.
  pose proof (one_source _ w0 10 0 30 2 1 V2 w2 0 0 N0 I1 I3 ltac:(lia) P1 E2 ltac:(lia)) as C. cbn [Nat.eqb] in B, C.
  rewrite A, B, C. unfold V1, V2. rsimpl. lra.
Qed.
Print Assumptions C54_superposition_refuted.
Example C54_nontrivial : exists m (w0 w : network NumR), network_new (star_descr m plain) = Ok w0 /\ numbered w0 10 0 /\ numbered w0 20 1 /\ numbered w0 30 2 /\
  do_calls w0 [@Branch NumR 10 20 2 (@TFun NumR sin); @Branch NumR 30 10 3 (@TFun NumR cos)] = Ok w.
Proof.
  destruct star_3 as (m & w0 & S). pose proof (st_ids _ _ _ _ S) as (I1 & I2 & I3).
  destruct (star_two m w0 S [@Branch NumR 10 20 2 (@TFun NumR sin); @Branch NumR 30 10 3 (@TFun NumR cos)]) as [w E]; [star_calls|star_ids|].
  exists m, w0, w. repeat split; auto. exact (st_new _ _ _ _ S).
Qed.

(** ** C55 *)
Theorem C55_zero_with_source (N : num) (w : network N) id k R f : numbered w id k -> neqb R n0 = true ->
  connect_to_ground w id R (TFun f) = Err ZeroDivisionError.
Proof. intros (nd & H & _). exact (ground_zero_source w id nd R f H). Qed.
Print Assumptions C55_zero_with_source.
Theorem C55_zero_alone (N : num) (w : network N) id k R : numbered w id k -> neqb R n0 = true -> connect_to_ground w id R (TInt 0) = Ok w.
Proof. intros (nd & H & _). exact (ground_zero_nothing w id nd R H). Qed.
Print Assumptions C55_zero_alone.
Theorem C55_unknown (N : num) (w : network N) id R V : (forall k, ~ numbered w id k) -> connect_to_ground w id R V = Err AssertionError.
Proof.
  intros H. apply ground_unknown. destruct (find_node w id) as [nd|] eqn:E; [|reflexivity]. exfalso. apply (H (nd_index nd)). exists nd. auto.
Qed.
Print Assumptions C55_unknown.
(** a parallel inductor and capacitor behind a resistor: accepted on a terminal with two state variables when the resistance and the inductance
    are positive and the capacitance is neither zero nor the 1e22 that stands for none; a negative capacitance is accepted *)
Theorem C55_series (w : network NumR) id (R L C : NumR) V nd : find_node w id = Some nd ->
  ((exists w', connect_to_ground_LCpRs w id R L C V = Ok w') <-> 0 < R /\ 0 < L /\ C <> 0 /\ C < 10000000000000000000000 /\ length (nd_state nd) = 2%nat) /\
  (connect_to_ground_LCpRs w id R L C V = Err AssertionError <-> R < 0 \/ L < 0 \/ 10000000000000000000000 <= C).
Proof. exact (series_accepted w id R L C V nd). Qed.
Print Assumptions C55_series.
Theorem C55_series_unknown (N : num) (w : network N) id R L C V : (forall k, ~ numbered w id k) -> connect_to_ground_LCpRs w id R L C V = Err AssertionError.
Proof. intros H. apply series_unknown. destruct (find_node w id) as [nd|] eqn:E; [exfalso; apply (H (nd_index nd)); exists nd; auto|reflexivity]. Qed.
Print Assumptions C55_series_unknown.
Example C55_series_met : exists m (w0 : network NumR) nd, network_new (star_descr m rlc_conn) = Ok w0 /\ find_node w0 30 = Some nd /\ length (nd_state nd) = 2%nat.
Proof.
  destruct rlc_run as (m & w0 & w1 & w2 & w3 & H). destruct (rl_star _ _ _ _ _ H) as [].
  pose proof (rl_call _ _ _ _ _ H) as E. destruct (find_node w0 30) as [nd|] eqn:F; [|exfalso; rewrite (series_unknown _ _ _ _ _ _ _ F) in E; discriminate].
  exists m, w0, nd. split; [assumption|]. split; [exact F|]. destruct (proj1 (series_accepted w0 30%Z (1 : NumR) (1 : NumR) (1 : NumR) (@TFun NumR sin) nd F)) as [K _].
  apply K. eauto.
Qed.
Example C55_nontrivial : exists m (w0 : network NumR), network_new (star_descr m plain) = Ok w0 /\ numbered w0 10 0 /\ @neqb NumR 0 n0 = true.
Proof. destruct star_3 as (m & w0 & S). pose proof (st_ids _ _ _ _ S) as (I1 & _). exists m, w0. split; [exact (st_new _ _ _ _ S)|]. split; [exact I1|]. now apply Reqb_true. Qed.

(** ** C56: the states of the stamped circuit move against the rates of the circuit it stands
    for; the true circuit dissipates, the stamped one grows without bound *)
Theorem C56_reversed (LA : lapack NumR) ds (w0 w1 w2 w w' : network NumR) id k (R L C : NumR) V (dt t : NumR) : lapack_ok LA ->
  let others c := ~ is_LCpRs id c in
  network_new ds = Ok w0 -> after LA others w0 w1 -> connect_to_ground_LCpRs w1 id R L C V = Ok w2 -> after LA others w2 w ->
  net_run LA ds dt w -> nw_advance_voltage LA w t dt = Ok w' -> numbered w0 id k ->
  exists x y nd, find_node w id = Some nd /\ nd_state nd = [x; y] /\
    let s := if tf_nonzero V then nSrc w k t else 0 in
    nX w' x = nX w x - dt * vc_rate R C (nV w' k) s (nX w' x) (nX w' y) /\ nX w' y = nX w y - dt * il_rate L (nX w' x).
Proof. intros H. exact (rlc_step LA H ds w0 w1 w2 w w' id k R L C V dt t). Qed.
Print Assumptions C56_reversed.
Theorem C56_circuit_dissipates h r l c vc il vc' il' : 0 < h -> 0 < r -> 0 < l -> 0 < c -> implicit_step h r l c 0 0 vc il vc' il' ->
  stored l c vc' il' <= stored l c vc il.
Proof. exact (circuit_dissipates h r l c vc il vc' il'). Qed.
Print Assumptions C56_circuit_dissipates.
Theorem C56_reversed_grows h r l c (vc il uc jl : nat -> R) : 0 < r -> 0 < l -> 0 < c -> 0 < h -> h < l / r -> h < r * c ->
  (forall n, implicit_step (- h) r l c 0 0 (vc n) (il n) (vc (S n)) (il (S n))) ->
  (forall n, implicit_step (- h) r l c 0 0 (uc n) (jl n) (uc (S n)) (jl (S n))) ->
  vc 0%nat * jl 0%nat <> il 0%nat * uc 0%nat ->
  forall B, exists n, B < Rabs (vc n) \/ B < Rabs (il n) \/ B < Rabs (uc n) \/ B < Rabs (jl n).
Proof. exact (reversed_grows h r l c vc il uc jl). Qed.
Print Assumptions C56_reversed_grows.
Example C56_nontrivial : exists m (w0 w1 w2 w3 : network NumR), rlc_case m w0 w1 w2 w3 /\ numbered w0 30 2 /\ after LR (fun c => ~ is_LCpRs 30 c) w0 w0.
Proof. destruct rlc_run as (m & w0 & w1 & w2 & w3 & H). exists m, w0, w1, w2, w3. split; [exact H|]. split; [apply (st_ids _ _ _ _ (rl_star _ _ _ _ _ H))|apply af_refl]. Qed.
Fixpoint rev_states (a b : R) (n : nat) : R * R :=
  match n with O => (a, b) | S n => let '(v, i) := rev_states a b n in let v' := (v + i / 2) * (4 / 3) in (v', i - v' / 2) end.
Example C56_grows_nontrivial : exists (vc il uc jl : nat -> R),
  (forall n, implicit_step (- (1/2)) 1 1 1 0 0 (vc n) (il n) (vc (S n)) (il (S n))) /\
  (forall n, implicit_step (- (1/2)) 1 1 1 0 0 (uc n) (jl n) (uc (S n)) (jl (S n))) /\ vc 0%nat * jl 0%nat <> il 0%nat * uc 0%nat.
Proof.
  assert (G : forall a b n, implicit_step (- (1/2)) 1 1 1 0 0 (fst (rev_states a b n)) (snd (rev_states a b n)) (fst (rev_states a b (S n))) (snd (rev_states a b (S n)))).
  { intros a b n. cbn [rev_states]. destruct (rev_states a b n) as [v i]. cbn [fst snd]. unfold implicit_step, vc_rate, il_rate. split; field. }
  exists (fun n => fst (rev_states 1 0 n)), (fun n => snd (rev_states 1 0 n)), (fun n => fst (rev_states 0 1 n)), (fun n => snd (rev_states 0 1 n)).
  split; [apply G|]. split; [apply G|]. cbn. lra.
Qed.

(** ** C57 *)
Theorem C57_nodes (N : num) ds (w : network N) : network_new ds = Ok w -> exists nds, w_conns w = concat nds /\
  Forall2 (fun d l => exists cs, stable_sort (d_conns d) cs /\ Forall2 (fun x kn => describes d x kn /\ state_count (c_cond x) (c_mat x) (length (nd_state (snd kn)))) cs l) ds nds.
Proof. exact (new_nodes_counts ds w). Qed.
Print Assumptions C57_nodes.
(** how many state variables a connection needs: [state_count], SpecStates.v *)
Theorem C57_state_variables (N : num) (cond : nat) (k : connector N) s : state_vars cond k = Ok s <-> state_count cond k s.
Proof. exact (state_vars_count cond k s). Qed.
Print Assumptions C57_state_variables.
Example C57_counts : state_count 1 (@Connector NumR "MultiwireConnector" None None None ["Conn_R"; "Conn_LCpRs"]%string None None None) 2 /\
  state_count 0 (@Connector NumR "Conn_sRLC" (Some 1) (Some 0) (Some 1) [] None None None) 1.
Proof.
  split; [apply sc_multi with (t := "Conn_LCpRs"%string); [reflexivity|reflexivity|right; left; auto]|].
  change 1%nat with (0 + 1)%nat. apply sc_sRLC with (l := 0) (c := 1); [reflexivity|reflexivity|reflexivity| |].
  - right. split; [apply Reqb_true; reflexivity|reflexivity].
  - left. split; [apply Rltb_true; unfold n1e22; rsimpl; lra|reflexivity].
Qed.
Theorem C57_numbering (N : num) (LA : lapack N) ds (w : network N) : net_history LA ds w ->
  w_nodes w = length (w_conns w) /\ NoDup (map fst (w_conns w)) /\ (forall kn, In kn (w_conns w) -> (0 <= fst kn)%Z) /\
  map (fun kn => nd_index (snd kn)) (w_conns w) = seq 0 (w_nodes w) /\
  concat (map (fun kn => nd_state (snd kn)) (w_conns w)) = seq 0 (w_ns w).
Proof. intros H. destruct (history_shape LA ds w H). auto. Qed.
Print Assumptions C57_numbering.
Theorem C57_accepted (N : num) (ds : list (descr N)) : Forall well_described ds ->
  ((exists w, network_new ds = Ok w) <-> Forall (fun i => (0 <= i)%Z) (all_ids ds) /\ NoDup (all_ids ds)) /\
  ((exists w, network_new ds = Ok w) \/ network_new ds = Err AssertionError).
Proof. exact (new_accept ds). Qed.
Print Assumptions C57_accepted.
Theorem C57_line_ends (N : num) (LA : lapack N) ds (w : network N) q d x : net_history LA ds w -> all_connected ds -> nth_error ds q = Some d -> (x < conductors (d_line d))%nat ->
  let i := (first_node ds q + x)%nat in
  (i < w_nodes w)%nat /\ nLen w i = cell_len (d_line d) (end_cell d) /\ (forall t, nField w i t = eTran (d_line d) x (end_node d) t) /\
  (forall y, (y < conductors (d_line d))%nat -> nCap w i (first_node ds q + y) = C_ (d_line d) (end_node d) x y) /\
  (forall q' d' y, nth_error ds q' = Some d' -> (y < conductors (d_line d'))%nat -> q <> q' -> nCap w i (first_node ds q' + y) = n0).
Proof. exact (node_ends LA ds w q d x). Qed.
Print Assumptions C57_line_ends.
Example C57_nontrivial : exists m (w0 w1 w2 w3 : network NumR), star_case m w0 w1 w2 w3 /\ Forall well_described (star_descr m plain) /\ all_connected (star_descr m plain).
Proof. destruct star_run as (m & w0 & w1 & w2 & w3 & H). exists m, w0, w1, w2, w3. pose proof (sc_star _ _ _ _ _ H) as S. split; [exact H|]. split; [exact (st_well _ _ _ _ S)|exact (st_conn _ _ _ _ S)]. Qed.

(** ** C58 *)
Theorem C58_voltages (N : num) (LA : lapack N) (w : network N) (bs bs' : bdict N) : nw_update_voltages w bs = Ok bs' ->
  map fst bs' = map fst bs /\
  forall bn b, dget String.eqb bn bs = Some b -> reachable_bundle LA b -> exists b', dget String.eqb bn bs' = Some b' /\ only_voltages b b' /\
    (forall r k, (forall kn, In kn (w_conns w) -> ~ writes b bn kn r k) -> b_volt b' r k = b_volt b r k) /\
    (forall r k kn, In kn (w_conns w) -> writes b bn kn r k -> (forall kn', In kn' (w_conns w) -> writes b bn kn' r k -> kn' = kn) ->
       b_volt b' r k = nV w (nd_index (snd kn))).
Proof.
  intros H. destruct (update_voltages w bs bs' H) as [E F]. split; [exact E|]. intros bn b Hb R. exact (F bn b Hb (reachable_vgrid LA b R)).
Qed.
Print Assumptions C58_voltages.
Theorem C58_voltages_total (N : num) (w : network N) (bs : bdict N) : (exists bs', nw_update_voltages w bs = Ok bs') <-> forall kn, In kn (w_conns w) -> resolves bs kn.
Proof. exact (update_voltages_total w bs). Qed.
Print Assumptions C58_voltages_total.
Theorem C58_currents (LA : lapack NumR) ds (w w' : network NumR) (bs : bdict NumR) : net_history LA ds w -> nw_update_currents w bs = Ok w' ->
  w' = set_wi w (w_i w') /\
  forall kn, In kn (w_conns w) -> exists b, dget String.eqb (nd_bundle (snd kn)) bs = Some b /\ (nd_row (snd kn) < b_conductors b)%nat /\
    nI w' (nd_index (snd kn)) = if nd_end (snd kn) then - b_curr b (nd_row (snd kn)) (b_cells b - 1)%nat else b_curr b (nd_row (snd kn)) 0%nat.
Proof.
  intros Hh H. destruct (update_currents w bs w' (history_shape LA ds w Hh) H) as [E F]. split; [exact E|]. intros kn Hk. destruct (F kn Hk) as (b & A & B & C).
  exists b. split; [exact A|]. split; [exact B|]. rewrite C. unfold i_factor. destruct (nd_end (snd kn)); rsimpl; rring.
Qed.
Print Assumptions C58_currents.
Theorem C58_currents_total (N : num) (w : network N) (bs : bdict N) : (exists w', nw_update_currents w bs = Ok w') <-> forall kn, In kn (w_conns w) -> resolves bs kn.
Proof. exact (update_currents_total w bs). Qed.
Print Assumptions C58_currents_total.
Definition three (b : bundle NumR) : bdict NumR := [("b0", b); ("b1", b); ("b2", b)]%string.
Lemma three_get b bn x : dget String.eqb bn (three b) = Some x -> x = b.
Proof. unfold three. cbn [dget]. destruct (bn =? "b0")%string; [congruence|]. destruct (bn =? "b1")%string; [congruence|]. destruct (bn =? "b2")%string; congruence. Qed.
Lemma star_resolves m k s w b : star m k s w -> (0 < b_conductors b)%nat -> forall kn, In kn (w_conns w) -> resolves (three b) kn /\ nd_row (snd kn) = 0%nat.
Proof.
  intros S Hb kn Hk. destruct (new_nodes _ _ (st_new _ _ _ _ S)) as (nds & E & F). rewrite E in Hk. unfold star_descr in F.
  assert (G : forall sd bn id k0 l, dget String.eqb bn (three b) = Some b ->
    (exists cs, stable_sort (@d_conns NumR (m, (sd, (bn, [(id, 0%nat, k0)])))) cs /\ Forall2 (fun x kn => describes (m, (sd, (bn, [(id, 0%nat, k0)]))) x kn /\ state_vars (c_cond x) (c_mat x) = Ok (length (nd_state (snd kn)))) cs l) ->
    In kn l -> resolves (three b) kn /\ nd_row (snd kn) = 0%nat).
  { intros sd bn id k0 l Hd (cs & (P & _) & Fl) Hl. cbn [d_conns snd] in P. apply Permutation_length_1_inv in P. subst cs. inversion Fl as [|? y ? ? [D _] F0]; subst. inversion F0; subst.
    destruct Hl as [<-|[]]. destruct D as (_ & _ & D1 & _ & D2). unfold c_cond, d_bundle in *. cbn [fst snd] in *. split; [|exact D1]. exists b. rewrite D2, D1. auto. }
  inversion F as [|? l1 ? ? F1 F']; subst. inversion F' as [|? l2 ? ? F2 F'']; subst. inversion F'' as [|? l3 ? ? F3 F4]; subst. inversion F4; subst. cbn [concat] in Hk. rewrite app_nil_r in Hk.
  apply in_app_or in Hk as [Hk|Hk]; [exact (G "S"%string "b0"%string 10%Z plain _ eq_refl F1 Hk)|].
  apply in_app_or in Hk as [Hk|Hk]; [exact (G "L"%string "b1"%string 20%Z plain _ eq_refl F2 Hk)|exact (G "S"%string "b2"%string 30%Z k _ eq_refl F3 Hk)].
Qed.
Example C58_nontrivial : exists m (w0 w1 w2 w3 w4 : network NumR) mb b (bs' : bdict NumR), star_case m w0 w1 w2 w3 /\ pair mb b /\ reachable_bundle LR b /\
  nw_update_voltages w3 (three b) = Ok bs' /\ nw_update_currents w3 (three b) = Ok w4 /\ net_history LR (star_descr m plain) w3.
Proof.
  destruct star_run as (m & w0 & w1 & w2 & w3 & H). destruct pair_exists as (mb & b & P).
  assert (Hb : (0 < b_conductors b)%nat) by (rewrite (pr_n _ _ P); lia).
  assert (R3 : net_run LR (star_descr m plain) (1/2) w3) by (eapply nr_volt; [exact (sc_run _ _ _ _ _ H)|exact (sc_step _ _ _ _ _ H)]).
  pose proof (run_history _ _ _ _ R3) as H3.
  assert (R : forall kn, In kn (w_conns w3) -> resolves (three b) kn).
  { assert (E : w_conns w3 = w_conns w0).
    { rewrite <- (sc_conns _ _ _ _ _ H). pose proof (sc_terms _ _ _ _ _ H) as T. pose proof (sc_step _ _ _ _ _ H) as V.
      unfold compute_v_terms in T. destruct (negb _); [discriminate T|]. cbv zeta in T. apply CoreEq.OkI in T. unfold nw_advance_voltage in V. inv_bind V. cbv zeta in V.
      destruct (w_AB w2) as [[[A B1] B2]|]; [|discriminate V]. inv_bind V. apply CoreEq.OkI in V. subst w3 w2. reflexivity. }
    rewrite E. intros kn Hk. eapply star_resolves; eauto. exact (sc_star _ _ _ _ _ H). }
  destruct (proj2 (update_voltages_total w3 (three b)) R) as [bs' E1]. destruct (proj2 (update_currents_total w3 (three b)) R) as [w4 E2].
  exists m, w0, w1, w2, w3, w4, mb, b, bs'. pose proof (pair_reach _ _ P) as (_ & RB & _). repeat (split; [assumption|]). assumption.
Qed.

(** ** C59 *)
Theorem C59_registered (N : num) (LA : lapack N) (bs : bdict N) k (d d' : networkd N) : (forall bn b, dget String.eqb bn bs = Some b -> reachable_bundle LA b) ->
  (forall lw kn, In lw d -> In kn (w_conns (snd lw)) -> exists b, dget String.eqb (nd_bundle (snd kn)) bs = Some b) ->
  registered bs k d = Ok d' ->
  Forall2 (fun lw lw' => fst lw' = fst lw /\ snd lw' = set_conns (snd lw) (w_conns (snd lw')) /\
    Forall2 (fun kn kn' => exists b, dget String.eqb (nd_bundle (snd kn)) bs = Some b /\ fst kn' = fst kn /\
        nd_bundle (snd kn') = nd_bundle (snd kn) /\ nd_end (snd kn') = nd_end (snd kn) /\ nd_index (snd kn') = nd_index (snd kn) /\
        nd_row (snd kn') = (nd_row (snd kn) + k * level_offset b (fst lw))%nat /\
        (nd_row (snd kn') = nd_row (snd kn) + level_offset b (fst lw) <-> k = 1 \/ level_offset b (fst lw) = 0)%nat)
      (w_conns (snd lw)) (w_conns (snd lw'))) d d'.
Proof. exact (registered_once LA bs k d d'). Qed.
Print Assumptions C59_registered.
Theorem C59_level_0 (N : num) (b : bundle N) : level_offset b 0 = 0%nat.
Proof. reflexivity. Qed.
Print Assumptions C59_level_0.
Example C59_nontrivial : exists m (w0 : network NumR) mb b (d' : networkd NumR), star m plain 0 w0 /\ pair mb b /\ registered (three b) 2 [(1%nat, w0)] = Ok d' /\ level_offset b 1 = 1%nat /\
  (forall bn x, dget String.eqb bn (three b) = Some x -> reachable_bundle LR x).
Proof.
  destruct star_3 as (m & w0 & S). destruct pair_exists as (mb & b & P). assert (Hb : (0 < b_conductors b)%nat) by (rewrite (pr_n _ _ P); lia).
  pose proof (pair_reach _ _ P) as (_ & RB & _ & O1).
  assert (K : forall kn, In kn (w_conns w0) -> exists x, dget String.eqb (nd_bundle (snd kn)) (three b) = Some x) by (intros kn Hk; destruct (star_resolves _ _ _ _ b S Hb kn Hk) as [(x & X & _) _]; eauto).
  destruct (register_accept (three b) [(1%nat, w0)]) as [d1 E1]. { intros lw kn [<-|[]] Hk. auto. }
  assert (K1 : forall lw kn, In lw d1 -> In kn (w_conns (snd lw)) -> exists x, dget String.eqb (nd_bundle (snd kn)) (three b) = Some x).
  { assert (F : registered (three b) 1 [(1%nat, w0)] = Ok d1) by (unfold registered; cbn [iterM]; rewrite E1; reflexivity).
    apply (registered_once LR) in F; [|intros bn x Hx; apply three_get in Hx; now subst|intros lw kn [<-|[]] Hk; auto].
    inversion F as [|? lw' ? ? (_ & _ & G) F']; subst. inversion F'; subst. intros lw kn [<-|[]] Hk.
    clear - G Hk. induction G as [|a c l l' (x & Hx & _ & Eb & _) G IH]; [destruct Hk|]. destruct Hk as [<-|Hk]; [|auto]. rewrite Eb. eauto. }
  destruct (register_accept (three b) d1 K1) as [d' E2]. exists m, w0, mb, b, d'. split; [exact S|]. split; [exact P|]. split; [unfold registered; cbn [iterM bind]; rewrite E1; cbn [bind]; rewrite E2; reflexivity|].
  split; [exact O1|]. intros bn x Hx. apply three_get in Hx. now subst.
Qed.

(** ** C60 *)
Theorem C60_collide (N : num) (LA : lapack N) ds (w w' : network N) (bs : bdict N) bn b l m0 m1 rest q d x : reachable_bundle LA b -> dget String.eqb bn bs = Some b ->
  nth_error (b_levels b) l = Some (m0 :: m1 :: rest) -> (0 < conductors m0)%nat ->
  network_new ds = Ok w -> all_connected ds -> nth_error ds q = Some d -> d_line d = m1 -> d_bundle d = bn -> (x < conductors m1)%nat ->
  update_index_numbers [(l, w)] bs = Ok [(l, w')] ->
  let lines := concat (b_levels b) in let p := length (concat (firstn l (b_levels b))) in
  nth_error lines p = Some m0 /\ nth_error lines (S p) = Some m1 /\
  exists kn, In kn (w_conns w') /\ nd_index (snd kn) = (first_node ds q + x)%nat /\ nd_bundle (snd kn) = bn /\
    nd_row (snd kn) = (first_row lines p + x)%nat /\ nd_row (snd kn) <> (first_row lines (S p) + x)%nat.
Proof. exact (collide LA ds w w' bs bn b l m0 m1 rest q d x). Qed.
Print Assumptions C60_collide.
Example C60_nontrivial : exists m (w0 w1 : network NumR) b, star m plain 0 w0 /\ mtld_new [[m]; [m; m]] "b" = Ok b /\ reachable_bundle LR b /\
  nth_error (b_levels b) 1 = Some [m; m] /\ conductors m = 1%nat /\ update_index_numbers [(1%nat, w0)] (three b) = Ok [(1%nat, w1)].
Proof.
  destruct star_3 as (m & w0 & S). pose proof (st_built _ _ _ _ S) as B.
  assert (Hb : exists b, mtld_new [[m]; [m; m]] "b" = Ok b).
  { unfold mtld_new. cbn [concat app foldM bind]. rewrite PropGeom.u_eqb_refl. cbn [passert bind]. eauto. }
  destruct Hb as [b Hb]. destruct (BundleMore.new_counts _ _ _ Hb) as (C1 & _ & _ & C2 & _).
  assert (C0 : conductors m = 1%nat) by exact (ol_n _ _ _ _ _ _ _ _ _ (st_one _ _ _ _ S)).
  assert (Hp : (0 < b_conductors b)%nat) by (rewrite C1; cbn [concat app map list_sum fold_right]; rewrite C0; lia).
  destruct (register_accept (three b) [(1%nat, w0)]) as [d1 E1].
  { intros lw kn [<-|[]] Hk. destruct (star_resolves _ _ _ _ b S Hp kn Hk) as [(x & X & _) _]. eauto. }
  assert (D : exists w1, d1 = [(1%nat, w1)]).
  { pose proof E1 as E. unfold update_index_numbers in E. cbn [mapM] in E. inv_bind E. inv_bind Ha. apply CoreEq.OkI in E, Ha. subst. cbn [fst]. eauto. }
  destruct D as [w1 ->]. exists m, w0, w1, b. split; [exact S|]. split; [exact Hb|]. split.
  { exists b. apply bh_new. exists [[m]; [m; m]], "b"%string. split; [|exact Hb]. repeat constructor; exists m; now constructor. }
  rewrite C2. auto.
Qed.

(** ** C80 *)
Theorem C80_field_at_construction (N : num) (LA : lapack N) ds (w : network N) q d x t : net_history LA ds w -> all_connected ds -> nth_error ds q = Some d -> (x < conductors (d_line d))%nat ->
  nField w (first_node ds q + x) t = eTran (d_line d) x (end_node d) t.
Proof. intros H A D Hx. apply (node_ends LA ds w q d x H A D Hx). Qed.
Print Assumptions C80_field_at_construction.
(** the networks' part of a step gives the same networks whatever the bundles (and their fields) are *)
Theorem C80_blind (N : num) (LA : lapack N) ws (t dt : N) bs bs' ws1 bs1 ws2 bs2 : advance_networks_voltage LA t dt ws bs = Ok (ws1, bs1) ->
  advance_networks_voltage LA t dt ws bs' = Ok (ws2, bs2) -> ws1 = ws2.
Proof. exact (advance_blind LA ws t dt bs bs' ws1 bs1 ws2 bs2). Qed.
Print Assumptions C80_blind.
Example C80_nontrivial : exists m (w0 w1 w2 w3 : network NumR) mb b (bs' : bdict NumR), star_case m w0 w1 w2 w3 /\ pair mb b /\
  advance_networks_voltage LR (1/2) (1/2) [[(0%nat, w2)]] (three b) = Ok ([[(0%nat, w3)]], bs') /\ all_connected (star_descr m plain).
Proof.
  destruct C58_nontrivial as (m & w0 & w1 & w2 & w3 & w4 & mb & b & bs' & H & P & _ & E & _). exists m, w0, w1, w2, w3, mb, b, bs'. split; [exact H|]. split; [exact P|]. split.
  - unfold advance_networks_voltage, nwd_advance_voltage, nwd_update_voltages. cbn [foldM mapM bind fst snd]. rewrite (sc_step _ _ _ _ _ H). cbn [bind foldM fst snd]. rewrite E. reflexivity.
  - exact (st_conn _ _ _ _ (sc_star _ _ _ _ _ H)).
Qed.

(** ** C88 *)
Theorem C88_never_raises (LA : lapack NumR) ds (w0 w1 w : network NumR) gs bs (dt : NumR) : lapack_complete LA ->
  Forall (fun d : descr NumR => physical (d_line d)) ds -> all_connected ds -> network_new ds = Ok w0 -> w_ns w0 = 0%nat ->
  Forall to_ground gs -> Forall between_nodes bs -> do_calls w0 (gs ++ bs) = Ok w1 -> after LA no_call w1 w -> 0 < dt ->
  (exists w', compute_v_terms w dt = Ok w') /\ (net_run LA ds dt w -> forall t, exists w', nw_advance_voltage LA w t dt = Ok w').
Proof. intros H. exact (rc_total LA H ds w0 gs bs w1 w dt). Qed.
Print Assumptions C88_never_raises.
Theorem C88_calls_accepted (LA : lapack NumR) ds (w : network NumR) l : net_history LA ds w -> Forall (fun c => to_ground c \/ between_nodes c) l ->
  (forall c id, In c l -> In id (c_ids c) -> exists k, numbered w id k) -> exists w', do_calls w l = Ok w'.
Proof.
  intros H F K. destruct (calls_total l w (history_shape LA ds w H) F) as (w' & E & _); [|eauto].
  intros c id Hc Hi. destruct (K c id Hc Hi) as (k & nd & Hn & _). eauto.
Qed.
Print Assumptions C88_calls_accepted.
Example C88_nontrivial : lapack_complete LR /\ exists m (w0 w1 w2 w3 : network NumR), star_case m w0 w1 w2 w3 /\ Forall (fun d : descr NumR => physical (d_line d)) (star_descr m plain) /\
  all_connected (star_descr m plain) /\ w_ns w0 = 0%nat /\ Forall to_ground star_grounds /\ Forall between_nodes star_branches.
Proof.
  split; [exact LR_complete|]. destruct star_run as (m & w0 & w1 & w2 & w3 & H). exists m, w0, w1, w2, w3. pose proof (sc_star _ _ _ _ _ H) as S.
  split; [exact H|]. split; [eapply star_phys; eauto|]. split; [exact (st_conn _ _ _ _ S)|]. split; [exact (st_ns _ _ _ _ S)|exact star_ok].
Qed.
