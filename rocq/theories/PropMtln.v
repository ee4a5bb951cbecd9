(** Properties of networks of lines (class MTLN). *)
From Coq Require Import String List Arith ZArith Bool Permutation Lia Reals Lra.
From Verif Require Import Num Py Arr ArrFacts NumR RFacts LinAlg LapackR Utils Probes Dispersive Line Bundle Networks Mtln
  SpecLine SpecR SpecBundle SpecNet SpecMtln SpecProbe SpecCore SpecTele ProbeFacts TotalFacts
  MtlnFacts MtlnProps MtlnPerm MtlnR MtlnTotal ExampleMtln.
Import ListNotations.
Local Open Scope R_scope.

(** ** C62: registration of bundles *)
Theorem C62_accepted (N : num) (l : list (bundle N)) : (exists x, mtln_new l [] = Ok x) <-> NoDup (map (@b_name N) l).
Proof. exact (new_accepted l). Qed.
Print Assumptions C62_accepted.
Theorem C62_duplicate (N : num) (l : list (bundle N)) ws : ~ NoDup (map (@b_name N) l) -> mtln_new l ws = Err AssertionError.
Proof. exact (new_duplicate l ws). Qed.
Print Assumptions C62_duplicate.
Theorem C62_order (N : num) (l : list (bundle N)) ws (x : mtln N) : mtln_new l ws = Ok x -> t_bundles x = map (fun b => (b_name b, b)) l.
Proof. intros H. exact (proj1 (new_order l ws x H)). Qed.
Print Assumptions C62_order.
(** one more bundle: accepted exactly when its name is new, and put last *)
Theorem C62_add (N : num) (LA : lapack N) (x : mtln N) (b : bundle N) : lines_net LA x ->
  (bundle_of x (b_name b) <> None /\ add_bundle x b = Err AssertionError) \/
  (bundle_of x (b_name b) = None /\ exists x', add_bundle x b = Ok x' /\ t_bundles x' = t_bundles x ++ [(b_name b, b)] /\ bundle_of x' (b_name b) = Some b).
Proof. exact (add_one LA x b). Qed.
Print Assumptions C62_add.
(** whatever is done afterwards, names stay unique and bundles stay under their own name *)
Theorem C62_unique (N : num) (LA : lapack N) (x : mtln N) : lines_net LA x -> NoDup (map fst (t_bundles x)) /\ forall name b, bundle_of x name = Some b -> b_name b = name.
Proof. intros L. pose proof (lines_ninv LA x L) as I. split; [exact (nv_keys _ _ I)|]. intros name b H. exact (proj2 (bundle_in LA x name b I H)). Qed.
Print Assumptions C62_unique.
(** the step is the smallest one, unless all are above 1e10, the initial value *)
Theorem C62_smallest_step (l : list (bundle NumR)) ws (x : mtln NumR) : mtln_new l ws = Ok x -> (exists b, In b l /\ k_dt (b_core b) < 10000000000) ->
  (exists b, In b l /\ t_dt x = k_dt (b_core b)) /\ forall b, In b l -> t_dt x <= k_dt (b_core b).
Proof. intros H E. destruct (new_dt l ws x H E). auto. Qed.
Print Assumptions C62_smallest_step.
Theorem C62_large_steps_ignored (l : list (bundle NumR)) ws (x : mtln NumR) : mtln_new l ws = Ok x -> (forall b, In b l -> 10000000000 <= k_dt (b_core b)) -> t_dt x = 10000000000.
Proof. exact (new_dt_large l ws x). Qed.
Print Assumptions C62_large_steps_ignored.
Example C62_nontrivial : exists mA mB bA bB wN wF x, duo mA mB bA bB wN wF x /\ mtln_new [bA; bB] [[(0%nat, wN)]; [(0%nat, wF)]] = Ok x /\ lines_net LR x /\
  (exists b, In b [bA; bB] /\ k_dt (b_core b) < 10000000000) /\ NoDup (map (@b_name NumR) [bA; bB]) /\ ~ NoDup (map (@b_name NumR) [bA; bB; bA]).
Proof.
  destruct duo_exists as (mA & mB & bA & bB & wN & wF & x & D). exists mA, mB, bA, bB, wN, wF, x. split; [exact D|]. split; [exact (du_new _ _ _ _ _ _ _ D)|]. split; [exact (du_net _ _ _ _ _ _ _ D)|].
  cbn [map]. rewrite (so_name _ _ _ _ _ _ (du_A _ _ _ _ _ _ _ D)), (so_name _ _ _ _ _ _ (du_B _ _ _ _ _ _ _ D)). split.
  - exists bA. split; [now left|]. rewrite (so_dt _ _ _ _ _ _ (du_A _ _ _ _ _ _ _ D)). replace (4 * (1/4)) with 1 by lra. rewrite sqrt_1. lra.
  - split; [repeat constructor; cbn; intuition discriminate|]. intros H. inversion H as [|? ? X _]; subst. apply X. right. now left.
Qed.

(** ** C63: an end attached to no network keeps its voltage *)
Theorem C63_end_kept (N : num) (LA : lapack N) (x : mtln N) (T dt : N) n y name b r k : lines_net LA x -> reaches LA x T dt n y ->
  bundle_of x name = Some b -> k = 0%nat \/ k = b_cells b -> ~ driven_by (nets x) name b r k ->
  exists b', bundle_of y name = Some b' /\ b_volt b' r k = b_volt b r k /\ b_cells b' = b_cells b /\ ~ driven_by (nets y) name b' r k.
Proof. exact (run_undriven LA x T dt n y name b r k). Qed.
Print Assumptions C63_end_kept.
(** and the final state of a run is one of those *)
Theorem C63_run_end (N : num) (LA : lapack N) (x : mtln N) (T dt : N) y : mtln_run_until LA x T dt = Ok y -> exists n, reaches LA x T dt n y.
Proof. intros H. apply run_reaches in H as (n & _ & R). eauto. Qed.
Print Assumptions C63_run_end.
Example C63_nontrivial : exists mA mB bA bB wN wF x y, duo mA mB bA bB wN wF x /\ lines_net LR x /\ bundle_of x "b0" = Some bA /\ ~ driven_by (nets x) "b0" bA 0 (b_cells bA) /\
  driven_by (nets x) "b0" bA 0 0 /\ mtln_run_until LR x 5 (1/2) = Ok y /\ reaches LR x 5 (1/2) 10 y.
Proof. exact duo_free. Qed.

(** ** C64: order of bundles and networks *)
Theorem C64_run (N : num) (LA : lapack N) (x x' : mtln N) (T dt : N) n y : lines_net LA x -> disjoint_ends x -> reordered x x' -> reaches LA x T dt n y ->
  exists y', reaches LA x' T dt n y' /\ reordered y y'.
Proof. exact (run_reordered LA x x' T dt n y). Qed.
Print Assumptions C64_run.
Theorem C64_whole_run (N : num) (LA : lapack N) (x x' : mtln N) (T dt : N) y : lines_net LA x -> disjoint_ends x -> reordered x x' -> mtln_run_until LA x T dt = Ok y ->
  exists y', mtln_run_until LA x' T dt = Ok y' /\ reordered y y' /\ (forall name, bundle_of y' name = bundle_of y name) /\ Permutation (nets y) (nets y').
Proof. exact (whole_reordered LA x x' T dt y). Qed.
Print Assumptions C64_whole_run.
(** reordered networks of lines hold the same bundles, thus the same voltages and currents, and the same networks *)
Theorem C64_same (N : num) (LA : lapack N) (x x' : mtln N) : lines_net LA x -> reordered x x' ->
  (forall name, bundle_of x' name = bundle_of x name) /\ Permutation (nets x) (nets x').
Proof. intros L R. split; [intros name; apply (reordered_same LA x x' name (lines_ninv LA x L) R)|exact (reordered_nets x x' R)]. Qed.
Print Assumptions C64_same.
(** passing the arguments of the constructor in another order gives a reordered network *)
Theorem C64_built (l l' : list (bundle NumR)) ws ws' x : Permutation l l' -> Permutation ws ws' -> mtln_new l ws = Ok x ->
  exists x', mtln_new l' ws' = Ok x' /\ reordered x x'.
Proof. exact (new_reordered l l' ws ws' x). Qed.
Print Assumptions C64_built.
Example C64_nontrivial : exists mA mB bA bB wN wF x x' y, duo mA mB bA bB wN wF x /\ lines_net LR x /\ disjoint_ends x /\ reordered x x' /\ t_bundles x' <> t_bundles x /\
  mtln_new [bB; bA] [[(0%nat, wF)]; [(0%nat, wN)]] = Ok x' /\ mtln_run_until LR x 5 (1/2) = Ok y.
Proof.
  destruct duo_free as (mA & mB & bA & bB & wN & wF & x & y & D & L & _ & _ & _ & R & _).
  destruct (new_reordered _ [bB; bA] _ [[(0%nat, wF)]; [(0%nat, wN)]] x (perm_swap bB bA []) (perm_swap [(0%nat, wF)] [(0%nat, wN)] []) (du_new _ _ _ _ _ _ _ D)) as (x' & E & Re).
  exists mA, mB, bA, bB, wN, wF, x, x', y. split; [exact D|]. split; [exact L|]. split; [exact (du_apart _ _ _ _ _ _ _ D)|]. split; [exact Re|]. split; [|split; [exact E|exact R]].
  destruct (new_order _ _ _ E) as [Eb _]. rewrite Eb, (du_bundles _ _ _ _ _ _ _ D). intros X. cbn in X. rewrite (so_name _ _ _ _ _ _ (du_A _ _ _ _ _ _ _ D)), (so_name _ _ _ _ _ _ (du_B _ _ _ _ _ _ _ D)) in X. discriminate X.
Qed.

(** ** C65: time steps of bundles and of the network *)
(** with an explicit step every bundle satisfies its telegrapher's equations with that step *)
Theorem C65_explicit_step (LA : lapack NumR) (x : mtln NumR) (T dt : R) n y z name b b' : lapack_ok LA -> lines_net LA x -> dt <> 0 ->
  steps_to LA x T dt n y z -> bundle_of y name = Some b -> bundle_of z name = Some b' ->
  t_dt y = dt /\ t_time y = t_time x + INR n * dt /\ telegraph dt dt (t_time y) b b'.
Proof. intros H. exact (explicit_telegraph LA H x T dt n y z name b b'). Qed.
Print Assumptions C65_explicit_step.
(** without one every bundle satisfies them with its own step, the fields being sampled with the network's *)
Theorem C65_own_step (LA : lapack NumR) (x : mtln NumR) (T : R) n y z name b b' : lapack_ok LA -> lines_net LA x ->
  steps_to LA x T 0 n y z -> bundle_of y name = Some b -> bundle_of z name = Some b' ->
  t_dt y = t_dt x /\ t_time y = t_time x + INR n * t_dt x /\
  exists b0, bundle_of x name = Some b0 /\ telegraph (k_dt (b_core b0)) (t_dt x) (t_time y) b b'.
Proof. intros H. exact (own_telegraph LA H x T n y z name b b'). Qed.
Print Assumptions C65_own_step.
(** so when the two steps differ, the bundle satisfies its equations with the step of the network only in steps in which it does not move *)
Theorem C65_inconsistent (LA : lapack NumR) (x : mtln NumR) (T : R) n y z name b0 b b' : lapack_ok LA -> lines_net LA x ->
  steps_to LA x T 0 n y z -> bundle_of x name = Some b0 -> bundle_of y name = Some b -> bundle_of z name = Some b' -> sound_bundle b ->
  k_dt (b_core b0) <> t_dt x -> k_dt (b_core b0) <> 0 -> t_dt x <> 0 ->
  telegraph (t_dt x) (t_dt x) (t_time y) b b' -> frozen (t_dt x) (t_time y) b b'.
Proof. intros H. exact (own_frozen LA H x T n y z name b0 b b'). Qed.
Print Assumptions C65_inconsistent.
(** and it does move: the telegrapher's equations with the network's step do not hold of every run *)
Theorem C65_refuted : exists LA (x : mtln NumR) (T : R) y z name b b', lapack_ok LA /\ lines_net LA x /\ steps_to LA x T 0 0 y z /\
  bundle_of y name = Some b /\ bundle_of z name = Some b' /\ sound_bundle b /\ ~ telegraph (t_dt x) (t_dt x) (t_time y) b b'.
Proof. exact duo_inconsistent. Qed.
Print Assumptions C65_refuted.
Example C65_nontrivial : exists mA mB bA bB wN wF x p z y b b', duo mA mB bA bB wN wF x /\ lines_net LR x /\ mtln_run_until LR x 1 0 = Ok y /\ steps_to LR x 1 0 0 p z /\
  bundle_of p "b0" = Some b /\ bundle_of z "b0" = Some b' /\ bundle_of x "b0" = Some bA /\ k_dt (b_core bA) = 1 /\ t_dt x = 1/2 /\ sound_bundle b.
Proof.
  destruct duo_exists as (mA & mB & bA & bB & wN & wF & x & D). destruct (duo_first _ _ _ _ _ _ _ D) as (p & z & y & b & b' & E & St & Gb & Gb' & Kd & Td & Sb & _).
  exists mA, mB, bA, bB, wN, wF, x, p, z, y, b, b'. split; [exact D|]. split; [exact (du_net _ _ _ _ _ _ _ D)|]. repeat (split; [assumption|]).
  split; [unfold bundle_of; rewrite (du_bundles _ _ _ _ _ _ _ D); reflexivity|]. split; [|split; [exact (du_dt _ _ _ _ _ _ _ D)|exact Sb]].
  rewrite (so_dt _ _ _ _ _ _ (du_A _ _ _ _ _ _ _ D)). replace (4 * (1/4)) with 1 by lra. exact sqrt_1.
Qed.

(** ** C66: what probes record in a network *)
Theorem C66_frames (N : num) (LA : lapack N) (x : mtln N) (T dt : N) y name b : mtln_run_until LA x T dt = Ok y -> bundle_of x name = Some b ->
  exists b' steps, bundle_of y name = Some b' /\ time_range_len T (t_dt (override_dt x dt)) = Ok steps /\ length (b_probes b') = length (b_probes b) /\
    forall j p, nth_error (b_probes b) j = Some p -> exists q, nth_error (b_probes b') j = Some q /\ pkept p q /\ length (p_t q) = steps /\ length (b_rows b' q) = steps /\
      forall k s z c, steps_to LA x T dt k s z -> bundle_of z name = Some c -> (k < steps)%nat /\ frame_at p c (t_time z) (nth k (p_t q) n0) (nth k (b_rows b' q) []).
Proof. exact (run_recorded LA x T dt y name b). Qed.
Print Assumptions C66_frames.
(** voltage stamps are (k+1) dt; current stamps come half the probe's own step later, whatever dt is *)
Theorem C66_stamps (LA : lapack NumR) (x : mtln NumR) (T dt : R) y name b : mtln_run_until LA x T dt = Ok y -> bundle_of x name = Some b ->
  exists b' steps, bundle_of y name = Some b' /\ forall j p, nth_error (b_probes b) j = Some p ->
    exists q, nth_error (b_probes b') j = Some q /\ length (p_t q) = steps /\ p_dt q = p_dt p /\
      forall k, (k < steps)%nat -> let d := if Reqb dt 0 then t_dt x else dt in
        (p_type p = "voltage"%string -> nth k (p_t q) 0 = t_time x + INR (S k) * d) /\
        (p_type p = "current"%string -> nth k (p_t q) 0 = t_time x + INR (S k) * d + p_dt p / 2).
Proof. exact (run_stamps LA x T dt y name b). Qed.
Print Assumptions C66_stamps.
(** the probe's own step is the one the bundle had when the probe was added *)
Theorem C66_probe_step (N : num) (b : bundle N) (p : posarg N) ty b' : bundle_add_probe b p ty = Ok b' ->
  exists q, b_probes b' = b_probes b ++ [q] /\ p_type q = ty /\ p_dt q = k_dt (b_core b) /\ b_core b' = b_core b.
Proof. exact (add_probe_step b p ty b'). Qed.
Print Assumptions C66_probe_step.
(** in the example the step of the run is 1/2 but currents are stamped 1/2 = 1/2 * 1 late instead of 1/4 *)
Example C66_nontrivial : exists mA mB bA bB wN wF x y b' q, duo mA mB bA bB wN wF x /\ mtln_run_until LR x 5 (1/2) = Ok y /\ bundle_of x "b0" = Some bA /\ bundle_of y "b0" = Some b' /\
  nth_error (b_probes b') 0 = Some q /\ p_type q = "current"%string /\ nth 0 (p_t q) 0 = 1/2 + 1/2.
Proof. exact duo_stamps. Qed.

(** ** C89: a run of physical lines joined by resistors and capacitors never raises *)
Theorem C89_never_raises (LA : lapack NumR) (x : mtln NumR) (T dt : R) : lapack_complete LA -> lines_net LA x -> runnable LA x ->
  0 < dt \/ dt = 0 /\ 0 < t_dt x /\ (forall name b, bundle_of x name = Some b -> 0 < k_dt (b_core b)) ->
  exists y, mtln_run_until LA x T dt = Ok y /\ runnable LA y.
Proof. intros H. exact (mtln_run_total LA H x T dt). Qed.
Print Assumptions C89_never_raises.
Theorem C89_bundles (LA : lapack NumR) levels name (b : bundle NumR) : Forall (Forall (reachable LA)) levels -> Forall (Forall physical) levels -> mtld_new levels name = Ok b -> physical_bundle b.
Proof. exact (new_physical LA levels name b). Qed.
Print Assumptions C89_bundles.
Example C89_nontrivial : lapack_complete LR /\ exists mA mB bA bB wN wF x, duo mA mB bA bB wN wF x /\ lines_net LR x /\ runnable LR x.
Proof.
  split; [exact LR_complete|]. destruct duo_exists as (mA & mB & bA & bB & wN & wF & x & D). exists mA, mB, bA, bB, wN, wF, x. split; [exact D|]. split; [exact (du_net _ _ _ _ _ _ _ D)|exact (du_run _ _ _ _ _ _ _ D)].
Qed.
