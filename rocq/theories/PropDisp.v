(** C41-C47, C81, C83, C85-C87: dispersive connectors, transfer impedances and their memory.
    Vocabulary: SpecBundle.v (bundles, entries, what a transfer impedance couples), SpecDisp.v
    (free and connected entries, the memory recursion, one-way coupling), SpecConv.v (the
    convolution a pole stands for), SpecLoad.v (passive connectors). *)
From Coq Require Import String List Arith ZArith Bool Lia QArith Reals Lra.
From Verif Require Import Num Py Arr NumR NumQ LapackR LapackQ Probes Dispersive Line Bundle Networks Mtln SpecLine SpecR SpecBundle SpecDisp
  SpecConv SpecLoad ConnFacts FitFacts DispProps DispR ConvFacts DispTotal DispMore DispExample ExampleQ ExampleBundle.
Import ListNotations.
Local Open Scope R_scope.

(** ** C41: the weights stored for a connector are those of the exact convolution of a current
    that is linear over the step *)
Theorem C41_connector_weights (LA : lapack NumR) m0 m p c (model : ratmodel NumR) m' :
  history LA m0 m -> 0 < step_dt m0 -> mtl_add_dispersive_connector m p c model = Ok m' ->
  let k := node_of m p in
  forall l, (l < n_poles model)%nat -> pole model l <> c0 ->
    exact_step (step_dt m0) (residue model (node_gap m k) l) (pole model l)
      (nth l (dP1 (m_disp m') k c c) c0) (nth l (dP2 (m_disp m') k c c) c0) (nth l (dP3 (m_disp m') k c c) c0).
Proof. exact (connector_weights LA m0 m p c model m'). Qed.
Print Assumptions C41_connector_weights.
Theorem C41_weights (dt : NumR) (r p : cplx NumR) : 0 < dt -> p <> c0 ->
  exact_step dt r p (csub c0 (w1 dt r p)) (w2 dt r p) (w3 dt p).
Proof. exact (step_exact dt r p). Qed.
Print Assumptions C41_weights.
Example C41_example : exists m0 m m', history LR m0 m /\ 0 < step_dt m0 /\
  mtl_add_dispersive_connector m origin 1 two_poles = Ok m' /\ n_poles two_poles = 2%nat /\
  forall l, (l < 2)%nat -> pole two_poles l <> c0.
Proof.
  destruct setup_exists as (m0 & m & m1 & m2 & S). exists m0, m1, m2.
  split; [apply (setup_loaded _ _ _ _ S)|]. split; [rewrite (se_dt _ _ _ _ S); lra|]. split; [apply S|]. split; [reflexivity|].
  intros l Hl E. apply (f_equal fst) in E. assert (l = 0 \/ l = 1)%nat as [-> | ->] by lia; cbn in E; lra.
Qed.

(** ** C42: the stored history is computed with the new current in place of the old one.
    [recursion nn P1 P2 P3 i_end i_start phi] is P1 i_end + P2 i_start + P3 phi. *)
Theorem C42_line (LA : lapack NumR) m T n (a b : mtl NumR) k c l : reachable LA m -> run_step LA m T n a b ->
  (k < cells m)%nat -> (c < conductors m)%nat -> (l < length (dPhi (m_disp b) k c))%nat ->
  let s := m_disp m in let nn := conductors m in
  let P1 j := at_ l (dP1 s k c j) in let P2 j := at_ l (dP2 s k c j) in let P3 j := at_ l (dP3 s k c j) in
  let phi j := at_ l (dPhi (m_disp a) k j) in
  let i j := curr a j k in let i' j := curr b j k in
  nth l (dPhi (m_disp b) k c) c0 = recursion nn P1 P2 P3 i' i' phi /\
  (nth l (dPhi (m_disp b) k c) c0 = recursion nn P1 P2 P3 i' i phi <->
     csum nn (fun j => @cscal NumR (i' j - i j) (P2 j)) = c0).
Proof. exact (memory_line LA m T n a b k c l). Qed.
Print Assumptions C42_line.
Theorem C42_bundle (LA : lapack NumR) b t dt b' k c l : reachable_bundle LA b -> bundle_advance_current t dt b = Ok b' ->
  (k < b_cells b)%nat -> (c < b_conductors b)%nat -> (l < length (dPhi (b_disp b') k c))%nat ->
  let s := b_disp b in let nn := b_conductors b in
  let P1 j := at_ l (dP1 s k c j) in let P2 j := at_ l (dP2 s k c j) in let P3 j := at_ l (dP3 s k c j) in
  let phi j := at_ l (dPhi s k j) in
  let i j := b_curr b j k in let i' j := b_curr b' j k in
  nth l (dPhi (b_disp b') k c) c0 = recursion nn P1 P2 P3 i' i' phi /\
  (nth l (dPhi (b_disp b') k c) c0 = recursion nn P1 P2 P3 i' i phi <->
     csum nn (fun j => @cscal NumR (i' j - i j) (P2 j)) = c0).
Proof. exact (memory_bundle LA b t dt b' k c l). Qed.
Print Assumptions C42_bundle.
Theorem C42_intended_refuted : exists (m : mtl NumR) T a b, reachable LR m /\ run_step LR m T 0 a b /\
  (0 < length (dPhi (m_disp b) 0 0))%nat /\
  nth 0 (dPhi (m_disp b) 0 0) c0 <>
    @recursion NumR (conductors m) (fun j => at_ 0 (dP1 (m_disp m) 0 0 j)) (fun j => at_ 0 (dP2 (m_disp m) 0 0 j)) (fun j => at_ 0 (dP3 (m_disp m) 0 0 j))
      (fun j => curr b j 0) (fun j => curr a j 0) (fun j => at_ 0 (dPhi (m_disp a) 0 j)).
Proof. exact memory_differs. Qed.
Print Assumptions C42_intended_refuted.
Example C42_bundle_example : exists b b', reachable_bundle LR b /\ @bundle_advance_current NumR 0 1 b = Ok b' /\ b_volt b 0 0 = 1.
Proof.
  destruct pair_exists as (m & b & P). destruct (pair_marches m b P) as (b1 & b2 & b3 & b4 & H1 & H2 & H3 & -> & H4).
  exists (put_end b2 0 false 1), b4. split; [|split; [exact H4|]].
  - exists b. eapply bh_march; [eapply bh_march; [exact (one_way_history LR _ _ _ H2)|]|].
    + eapply ma_prepare; [apply ma_refl|exact H3].
    + apply ma_end; [apply ma_refl|]. destruct (pair_prepared _ _ _ _ P H1 H3) as [-> _]. lia.
  - unfold b_volt, put_end. cbn. destruct (pair_prepared _ _ _ _ P H1 H3) as (_ & ->). reflexivity.
Qed.

(** ** C43 *)
Theorem C43_both_is_ignored (N : num) (LA : lapack N) b side ol oc il ic m : reachable_bundle LA b ->
  rm_direction m <> "in"%string -> rm_direction m <> "out"%string ->
  (forall b', bundle_add_transfer_impedance b ol oc il ic m = Ok b' -> b' = b) /\
  (forall b', set_connector_transfer_impedance b side ol oc il ic m = Ok b' -> b' = b).
Proof. exact (transfer_ignored LA b side ol oc il ic m). Qed.
Print Assumptions C43_both_is_ignored.
Theorem C43_both_is_accepted (N : num) (LA : lapack N) b side ol oc il ic m : reachable_bundle LA b ->
  rm_direction m <> "in"%string -> rm_direction m <> "out"%string ->
  neighbours ol il -> consistent m -> (divisor m =? n0)%num = false ->
  side = "initial"%string \/ side = "end"%string ->
  bundle_add_transfer_impedance b ol oc il ic m = Ok b /\
  set_connector_transfer_impedance b side ol oc il ic m = Ok b.
Proof. exact (transfer_ignored_accepted LA b side ol oc il ic m). Qed.
Print Assumptions C43_both_is_accepted.
Example C43_example : exists b, reachable_bundle LR b /\ rm_direction (inward "both") = "both"%string /\
  bundle_add_transfer_impedance b 0 [0%nat] 1 [0%nat] (inward "both") = Ok b /\
  (exists b', b' <> b /\ bundle_add_transfer_impedance b 0 [0%nat] 1 [0%nat] (inward "in") = Ok b').
Proof.
  destruct pair_exists as (m & b & P). exists b. destruct (pair_reach _ _ P) as (_ & R & _).
  split; [exact R|]. split; [reflexivity|]. split.
  - refine (proj1 (C43_both_is_accepted NumR LR b "initial" 0 [0%nat] 1 [0%nat] (inward "both") R _ _ _ _ _ _)); try discriminate; auto.
    + now right.
    + repeat split.
    + now apply divisor_1.
  - destruct (pair_loaded m b P) as (b1 & H & _ & _ & HQ & _). exists b1. split; [|exact H]. intros ->.
    specialize (HQ 0%nat 1%nat 0%nat ltac:(lia)). rewrite (pair_no_poles m b P) in HQ. cbn in HQ. pose proof exp_m1. lra.
Qed.

(** ** C44 and C81: a transfer impedance lowers exactly the entries of the listed pairs *)
Theorem C44_couples_listed_pairs (N : num) (LA : lapack N) b ol oc il ic m b' : reachable_bundle LA b ->
  bundle_add_transfer_impedance b ol oc il ic m = Ok b' ->
  NoDup oc -> NoDup ic -> rm_direction m = "in"%string \/ rm_direction m = "out"%string -> active m ->
  neighbours ol il /\ consistent m /\ only_coefficients b b' /\
  (forall i j, couples b (rm_direction m) ol oc il ic i j -> (i < b_conductors b)%nat /\ (j < b_conductors b)%nat /\
     (n_poles m = 0 \/ n_poles m = 1 \/ n_poles m = b_cells b)%nat) /\
  forall k i j, (k < b_cells b)%nat ->
    (couples b (rm_direction m) ol oc il ic i j ->
       lowered m (if (n_poles m =? 1)%nat then 0%nat else k) (b_disp b) (b_disp b') k i j) /\
    (~ couples b (rm_direction m) ol oc il ic i j -> same_entry (b_disp b) (b_disp b') k i j).
Proof. exact (transfer_exact LA b ol oc il ic m b'). Qed.
Print Assumptions C44_couples_listed_pairs.
Theorem C44_connector_replaces (N : num) (LA : lapack N) b side ol oc il ic m b' : reachable_bundle LA b -> (0 < b_cells b)%nat ->
  set_connector_transfer_impedance b side ol oc il ic m = Ok b' ->
  rm_direction m = "in"%string \/ rm_direction m = "out"%string -> active m ->
  let k0 := if String.eqb side "initial" then 0%nat else (b_cells b - 1)%nat in
  (side = "initial"%string \/ side = "end"%string) /\
  neighbours ol il /\ consistent m /\ only_coefficients b b' /\
  forall k i j,
    (k = k0 /\ couples b (rm_direction m) ol oc il ic i j -> replaced m (b_disp b) (b_disp b') k i j) /\
    (~ (k = k0 /\ couples b (rm_direction m) ol oc il ic i j) -> same_entry (b_disp b) (b_disp b') k i j).
Proof. exact (connector_exact LA b side ol oc il ic m b'). Qed.
Print Assumptions C44_connector_replaces.
Theorem C44_levels_must_be_adjacent (N : num) (b : bundle N) ol oc il ic m : ~ neighbours ol il ->
  bundle_add_transfer_impedance b ol oc il ic m = Err AssertionError /\
  forall side, side = "initial"%string \/ side = "end"%string ->
    set_connector_transfer_impedance b side ol oc il ic m = Err AssertionError.
Proof. exact (transfer_not_adjacent b ol oc il ic m). Qed.
Print Assumptions C44_levels_must_be_adjacent.
Theorem C44_accepted (N : num) (LA : lapack N) b ol oc il ic m : reachable_bundle LA b ->
  rm_direction m = "in"%string \/ rm_direction m = "out"%string ->
  neighbours ol il -> consistent m -> (divisor m =? n0)%num = false ->
  (forall i j, couples b (rm_direction m) ol oc il ic i j -> (i < b_conductors b)%nat /\ (j < b_conductors b)%nat) ->
  (n_poles m = 0 \/ n_poles m = 1 \/ n_poles m = b_cells b)%nat ->
  exists b', bundle_add_transfer_impedance b ol oc il ic m = Ok b'.
Proof. exact (transfer_accepted LA b ol oc il ic m). Qed.
Print Assumptions C44_accepted.
Example C44_example : exists b b', reachable_bundle LR b /\ bundle_add_transfer_impedance b 0 [0%nat] 1 [0%nat] (inward "in") = Ok b' /\
  active (inward "in") /\ couples b "in" 0 [0%nat] 1 [0%nat] 1 0 /\ ~ couples b "in" 0 [0%nat] 1 [0%nat] 0 1 /\ b_cells b = 3%nat.
Proof.
  destruct pair_exists as (m & b & P). destruct (pair_loaded m b P) as (b1 & H & _).
  exists b, b1. split; [apply (pair_reach _ _ P)|]. split; [exact H|]. split; [apply inward_active|].
  rewrite !(pair_couples m b _ _ _ P). split; [now left|]. split; [|apply P]. intros [(_ & E & _)|(E & _)]; [lia|discriminate E].
Qed.

Theorem C81_other_pole_counts_raise (N : num) (LA : lapack N) b ol oc il ic m : reachable_bundle LA b ->
  rm_direction m = "in"%string \/ rm_direction m = "out"%string ->
  neighbours ol il -> consistent m -> (divisor m =? n0)%num = false ->
  (forall i j, couples b (rm_direction m) ol oc il ic i j -> (i < b_conductors b)%nat /\ (j < b_conductors b)%nat) ->
  oc <> [] -> ic <> [] -> (1 < n_poles m)%nat -> n_poles m <> b_cells b ->
  bundle_add_transfer_impedance b ol oc il ic m = Err ValueError.
Proof. exact (transfer_bad_poles LA b ol oc il ic m). Qed.
Print Assumptions C81_other_pole_counts_raise.
(** with as many poles as cells, cell k receives pole number k only *)
Theorem C81_one_pole_per_cell (N : num) (LA : lapack N) b ol oc il ic m b' : reachable_bundle LA b ->
  bundle_add_transfer_impedance b ol oc il ic m = Ok b' ->
  NoDup oc -> NoDup ic -> rm_direction m = "in"%string \/ rm_direction m = "out"%string -> (1 < n_poles m)%nat ->
  forall k i j, (k < b_cells b)%nat -> couples b (rm_direction m) ol oc il ic i j ->
    n_poles m = b_cells b /\ lowered m k (b_disp b) (b_disp b') k i j.
Proof. exact (pole_per_cell N LA b ol oc il ic m b'). Qed.
Print Assumptions C81_one_pole_per_cell.
Definition three_poles : ratmodel NumR := @RatModel NumR 0 0 [-1; -2; -3] [0; 0; 0] [1; 1; 1] [0; 0; 0] None "in"%string.
Example C81_example : exists b b', reachable_bundle LR b /\ b_cells b = 3%nat /\
  bundle_add_transfer_impedance b 0 [0%nat] 1 [0%nat] three_poles = Ok b' /\ n_poles three_poles = 3%nat /\
  bundle_add_transfer_impedance b 0 [0%nat] 1 [0%nat] (@RatModel NumR 0 0 [-1; -2] [0; 0] [1; 1] [0; 0] None "in"%string) = Err ValueError.
Proof.
  destruct pair_exists as (m & b & P). destruct (pair_reach _ _ P) as (_ & R & _).
  destruct (pair_accepts m b three_poles P) as [b' H]; [reflexivity|repeat split|now left|now right; right|].
  exists b, b'. split; [exact R|]. split; [apply P|]. split; [exact H|]. split; [reflexivity|].
  apply (C81_other_pole_counts_raise NumR LR); auto; try discriminate.
  - now right.
  - repeat split.
  - now apply divisor_1.
  - intros i j C. apply (pair_couples m b _ i j P) in C. rewrite (pr_n _ _ P). destruct C as [(_ & -> & ->)|(_ & -> & ->)]; lia.
  - rewrite (pr_N _ _ P). cbn. discriminate.
Qed.

(** ** C45 *)
Theorem C45_one_way_has_no_memory (LA : lapack NumR) S (b0 b : bundle NumR) : one_way LA S b0 b ->
  forall k c, (k < b_cells b)%nat -> (c < b_conductors b)%nat -> dMem (b_disp b) k c = 0.
Proof. exact (one_way_memory LA S b0 b). Qed.
Print Assumptions C45_one_way_has_no_memory.
Example C45_example : exists b0 b1 b : bundle NumR, one_way LR (fun i => i = 1%nat) b0 b1 /\ one_way LR (fun i => i = 1%nat) b0 b /\
  marches LR b1 b /\ dP1 (b_disp b1) 0 1 0 <> dP1 (b_disp b0) 0 1 0.
Proof.
  destruct pair_exists as (m & b & P). destruct (pair_marches m b P) as (b1 & b2 & b3 & b4 & H1 & H2 & H3 & -> & H4).
  exists b, b1, b4. split; [exact H2|].
  assert (M : marches LR b1 b4).
  { eapply ma_curr; [|exact H4]. apply ma_end; [eapply ma_prepare; [apply ma_refl|exact H3]|].
    destruct (pair_prepared _ _ _ _ P H1 H3) as [-> _]. lia. }
  split; [eapply ow_march; eauto|]. split; [exact M|].
  destruct (pair_loaded m b P) as (b1' & H1' & _ & _ & HQ & _). rewrite H1 in H1'. injection H1' as <-.
  specialize (HQ 0%nat 1%nat 0%nat ltac:(lia)). intros E. rewrite (pair_same_poles m b b1 0 1 0 P H1 E) in HQ.
  rewrite (pair_no_poles m b P) in HQ. cbn in HQ. pose proof exp_m1. lra.
Qed.

(** ** C46 *)
Theorem C46_null_model (N : num) (b : bundle N) side ol oc il ic m : ~ active m -> neighbours ol il -> consistent m ->
  (divisor m =? n0)%num = false -> side = "initial"%string \/ side = "end"%string ->
  bundle_add_transfer_impedance b ol oc il ic m = Ok b /\
  set_connector_transfer_impedance b side ol oc il ic m = Ok b.
Proof. exact (transfer_null b side ol oc il ic m). Qed.
Print Assumptions C46_null_model.
Theorem C46_zero_model (b : bundle NumR) side ol oc il ic (m : ratmodel NumR) : rm_cte m = 0 -> rm_prop m = 0 -> n_poles m = 0%nat ->
  neighbours ol il -> consistent m -> divisor m <> 0 -> side = "initial"%string \/ side = "end"%string ->
  bundle_add_transfer_impedance b ol oc il ic m = Ok b /\
  set_connector_transfer_impedance b side ol oc il ic m = Ok b.
Proof. exact (zero_model b side ol oc il ic m). Qed.
Print Assumptions C46_zero_model.
Example C46_example : exists b : bundle NumR, reachable_bundle LR b /\ neighbours 0 1 /\
  consistent (@RatModel NumR 0 0 [] [] [] [] (Some 2) "in"%string) /\ divisor (@RatModel NumR 0 0 [] [] [] [] (Some 2) "in"%string) <> 0.
Proof.
  destruct pair_exists as (m & b & P). exists b. split; [apply (pair_reach _ _ P)|]. split; [now right|]. split; [repeat split|]. cbn. lra.
Qed.

(** ** C47 *)
Theorem C47_connector_entry (N : num) (LA : lapack N) m0 m p c model m' : history LA m0 m ->
  mtl_add_dispersive_connector m p c model = Ok m' ->
  let k0 := node_of m p in
  (k0 < cells m)%nat /\ (c < conductors m)%nat /\ consistent model /\ free_entry (m_disp m) k0 c /\
  connected model (step_dt m0) (node_gap m k0) (m_disp m) (m_disp m') k0 c /\
  (forall k i j, ~ (k = k0 /\ i = c /\ j = c) -> same_entry (m_disp m) (m_disp m') k i j) /\
  (exists d, m' = m_set_core m (set_disp (m_core m) d) /\ ds_phi d = ds_phi (m_disp m) /\ ds_q3phi d = ds_q3phi (m_disp m)).
Proof. exact (connector_exact_line LA m0 m p c model m'). Qed.
Print Assumptions C47_connector_entry.
Theorem C47_not_at_the_last_node (N : num) (LA : lapack N) m p c model : reachable LA m -> ~ outside m p -> node_of m p = cells m ->
  mtl_add_dispersive_connector m p c model = Err IndexError.
Proof. exact (connector_last LA m p c model). Qed.
Print Assumptions C47_not_at_the_last_node.
Theorem C47_not_outside (N : num) (LA : lapack N) m p c model : reachable LA m -> outside m p ->
  mtl_add_dispersive_connector m p c model = Err ValueError.
Proof. exact (connector_outside LA m p c model). Qed.
Print Assumptions C47_not_outside.
Theorem C47_only_on_a_free_entry (N : num) (LA : lapack N) m p c model : reachable LA m -> ~ free_entry (m_disp m) (node_of m p) c ->
  exists e, mtl_add_dispersive_connector m p c model = Err e.
Proof. exact (connector_occupied LA m p c model). Qed.
Print Assumptions C47_only_on_a_free_entry.
(** whatever is done in between *)
Theorem C47_never_twice (LA : lapack NumR) (m : mtl NumR) p c model m1 m2 p' model' : reachable LA m ->
  mtl_add_dispersive_connector m p c model = Ok m1 -> calls LA m1 m2 -> node_of m2 p' = node_of m p ->
  exists e, mtl_add_dispersive_connector m2 p' c model' = Err e.
Proof. exact (connector_twice LA m p c model m1 m2 p' model'). Qed.
Print Assumptions C47_never_twice.
Theorem C47_accepted (N : num) (LA : lapack N) m p c model : reachable LA m -> ~ outside m p -> (node_of m p < cells m)%nat ->
  (c < conductors m)%nat -> consistent model -> free_entry (m_disp m) (node_of m p) c ->
  exists m', mtl_add_dispersive_connector m p c model = Ok m'.
Proof. exact (connector_accepted LA m p c model). Qed.
Print Assumptions C47_accepted.
Example C47_example : exists m0 m m1 m2 : mtl NumR, history LR m0 m /\ history LR m0 m1 /\
  mtl_add_dispersive_connector m origin 0 one_pole = Ok m1 /\ mtl_add_dispersive_connector m1 origin 1 two_poles = Ok m2 /\
  node_of m [0; 0; INR 3 * 1] = cells m /\ ~ outside m [0; 0; INR 3 * 1] /\ outside m [0; 0; 4].
Proof.
  destruct setup_exists as (m0 & m & m1 & m2 & S). exists m0, m, m1, m2. split; [apply S|]. split; [apply (setup_loaded _ _ _ _ S)|].
  split; [apply S|]. split; [apply S|]. rewrite (se_N _ _ _ _ S). split; [apply S|]. split; apply S.
Qed.

(** ** C83 *)
Theorem C83_pole_counts_clash (N : num) (LA : lapack N) m0 m p1 c1 mod1 m1 p2 c2 mod2 m2 T : history LA m0 m ->
  mtl_add_dispersive_connector m p1 c1 mod1 = Ok m1 -> mtl_add_dispersive_connector m1 p2 c2 mod2 = Ok m2 ->
  node_of m p1 = node_of m p2 -> n_poles mod1 <> 1%nat -> n_poles mod2 <> 1%nat -> n_poles mod1 <> n_poles mod2 ->
  (forall k a b, run_step LA m2 T k a b -> mtl_step b = Err ValueError) /\
  forall b, ~ run_state LA m2 T 2 b.
Proof. exact (run_clash LA m0 m p1 c1 mod1 m1 p2 c2 mod2 m2 T). Qed.
Print Assumptions C83_pole_counts_clash.
Example C83_example : exists m0 m m1 m2 a b : mtl NumQ, history LQ m0 m /\
  mtl_add_dispersive_connector m [0; 0; 1]%Q 0 q_two = Ok m1 /\ mtl_add_dispersive_connector m1 [0; 0; 1]%Q 1 q_three = Ok m2 /\
  n_poles q_two = 2%nat /\ n_poles q_three = 3%nat /\ run_step LQ m2 (3%Q : NumQ) 0 a b /\ mtl_step b = Err ValueError.
Proof. exact clash_example. Qed.

(** ** C85 *)
Theorem C85_connectors_keep_the_first_step (LA : lapack NumR) m0 m NDT T p c (model : ratmodel NumR) m' :
  history LA m0 m -> mtl_add_dispersive_connector (set_time_step m NDT T) p c model = Ok m' ->
  step_dt m' = T / IZR NDT /\
  connected model (step_dt m0) (node_gap m (node_of m p)) (m_disp m) (m_disp m') (node_of m p) c.
Proof. exact (connector_step LA m0 m NDT T p c model m'). Qed.
Print Assumptions C85_connectors_keep_the_first_step.
Example C85_example : exists m0 m m' : mtl NumR, history LR m0 m /\ step_dt m0 = 1 /\
  mtl_add_dispersive_connector (set_time_step m 4 1) origin 0 one_pole = Ok m'.
Proof.
  destruct setup_exists as (m0 & m & m1 & m2 & S). exists m0, m. 
  destruct (connector_accepted LR (set_time_step m 4 1) origin 0 one_pole) as [m' H].
  - exists m0. constructor. apply S.
  - intros O. assert (X : outside m origin) by exact O. pose proof (connector_outside LR m origin 0 one_pole ltac:(exists m0; apply S) X) as E.
    rewrite (se_1 _ _ _ _ S) in E. discriminate E.
  - change (node_of m origin < cells m)%nat. rewrite (se_node _ _ _ _ S), (se_N _ _ _ _ S). lia.
  - change (0 < conductors m)%nat. rewrite (se_n _ _ _ _ S). lia.
  - repeat split.
  - destruct (connector_exact_line LR _ _ _ _ _ _ (se_hist _ _ _ _ S) (se_1 _ _ _ _ S)) as (_ & _ & _ & F & _). exact F.
  - exists m'. split; [apply S|]. split; [apply S|]. exact H.
Qed.

(** ** C86 *)
Theorem C86_memory_counted_q_times (LA : lapack NumR) m0 (m m1 m2 : mtl NumR) p1 c1 mod1 p2 c2 mod2 T n a b : history LA m0 m ->
  mtl_add_dispersive_connector m p1 c1 mod1 = Ok m1 -> mtl_add_dispersive_connector m1 p2 c2 mod2 = Ok m2 ->
  node_of m p1 = node_of m p2 -> n_poles mod1 = 1%nat -> n_poles mod2 <> 1%nat ->
  length (dPhi (m_disp m) (node_of m p1) c1) = 1%nat ->
  run_step LA m2 T (S n) a b ->
  exists f : cplx NumR,
    (forall l, (l < length (dPhi (m_disp a) (node_of m p1) c1))%nat -> nth l (dPhi (m_disp a) (node_of m p1) c1) c0 = f) /\
    dMem (m_disp b) (node_of m p1) c1 = INR (n_poles mod2) * fst (cmul (w3 (step_dt m0) (pole mod1 0)) f).
Proof. exact (memory_multiplied LA m0 m m1 m2 p1 c1 mod1 p2 c2 mod2 T n a b). Qed.
Print Assumptions C86_memory_counted_q_times.
Example C86_example : exists m0 (m m1 m2 : mtl NumR) T a b, history LR m0 m /\
  mtl_add_dispersive_connector m origin 0 one_pole = Ok m1 /\ mtl_add_dispersive_connector m1 origin 1 two_poles = Ok m2 /\
  length (dPhi (m_disp m) (node_of m origin) 0) = 1%nat /\ run_step LR m2 T 1 a b /\
  dMem (m_disp b) 0 0 <> 0.
Proof. exact memory_twice. Qed.

(** ** C87 *)
Theorem C87_passive_connectors_never_raise (LA : lapack NumR) : lapack_complete LA ->
  forall q (m0 m : mtl NumR) T, loaded LA q m0 m ->
  exists m', run_until LA m T = Ok m' /\ conductors m' = conductors m0 /\ cells m' = cells m0.
Proof. exact (loaded_runs LA). Qed.
Print Assumptions C87_passive_connectors_never_raise.
Example C87_example : exists m0 m m1 m2 : mtl NumR, loaded LR (fun _ => 2%nat) m0 m2 /\
  mtl_add_dispersive_connector m origin 0 one_pole = Ok m1 /\ mtl_add_dispersive_connector m1 origin 1 two_poles = Ok m2.
Proof. destruct setup_exists as (m0 & m & m1 & m2 & S). exists m0, m, m1, m2. repeat split; apply S. Qed.
