(** Energy of networks of lines (C104). *)
From Coq Require Import String List Arith ZArith Bool Permutation Lia Reals Lra.
From Verif Require Import Num Py Arr ArrFacts NumR RFacts LinAlg LapackR Utils Probes Dispersive Line LineFacts StepTotal Bundle Networks Mtln
  SpecLine SpecR SpecBundle SpecNet SpecMtln SpecCore SpecDisp SpecEnergy SpecTele SpecSuper SpecSolo SpecNetEnergy HistoryFacts TotalFacts BundleFacts
  NetFacts NetBuild NetMore ExampleLine ExampleNet PropGeom WaveProps MtlnFacts MtlnProps MtlnR MtlnTotal SoloRun NetEnergyRun NetEnergyBuild.
Import ListNotations.
Local Open Scope R_scope.

(** C104: in every step of a run the energy of the lines and the capacitors changes by the work of
    the sources less the losses. *)
Theorem C104_balance : forall (LA : lapack NumR) x T dt n y z, lapack_ok LA -> lines_net LA x -> closed LA x -> one_step x dt -> (0 < n)%nat \/ joined x -> steps_to LA x T dt n y z ->
  net_energy z = net_energy y - net_lost y z + net_work y z.
Proof. intros LA x T dt n y z LAok. exact (run_balance LA LAok x T dt n y z). Qed.
Print Assumptions C104_balance.

(** C104: once the sources are off the energy never grows. *)
Theorem C104_never_grows : forall (LA : lapack NumR) x T dt t0 j (u : mtln NumR) k (v : mtln NumR), lapack_ok LA -> lines_net LA x -> closed LA x -> passive t0 x -> one_step x dt -> (0 < j)%nat \/ joined x ->
  reaches LA x T dt j u -> reaches LA x T dt k v -> (j <= k)%nat -> t0 + 2 * t_dt u <= t_time u -> net_energy v <= net_energy u.
Proof. intros LA x T dt t0 j u k v LAok L C P O J R Rv Hj Ht. exact (run_decay LA LAok x T dt t0 j u k v L C P O J Ht R Rv Hj). Qed.
Print Assumptions C104_never_grows.

(** C104: with a step below the Courant limit [dt0] what is stored, a sum of squares, stays bounded. *)
Theorem C104_bounded : forall (LA : lapack NumR) x T dt t0 dt0 j (u : mtln NumR) k (v : mtln NumR), lapack_ok LA -> lines_net LA x -> closed LA x -> passive t0 x -> one_step x dt -> (0 < j)%nat \/ joined x ->
  (forall name b, bundle_of x name = Some b -> b_courant b dt0) -> t_dt u <= dt0 ->
  reaches LA x T dt j u -> reaches LA x T dt k v -> (j <= k)%nat -> t0 + 2 * t_dt u <= t_time u ->
  0 <= (1 - t_dt u / dt0) * net_stored v <= net_energy u.
Proof. intros LA x T dt t0 dt0 j u k v LAok L C P O J Co D R Rv Hj Ht. exact (run_bound_both LA LAok x T dt t0 dt0 j u k v L C P O J Ht Co D R Rv Hj). Qed.
Print Assumptions C104_bounded.

(** C104: this covers every network of lines put together from lines and circuits of resistors,
    capacitors and sources in which each line end is in one circuit. *)
Theorem C104_assembled : forall (LA : lapack NumR) lines cs x, assembled lines cs x -> Forall (fun nm => unlit_line LA (snd nm)) lines ->
  lines_net LA x /\ closed LA x /\ joined x /\
  forall t0, Forall (fun nm => passive_line (snd nm)) lines -> Forall (fun c : circuit => Forall (off_from t0) (fst (snd c) ++ snd (snd c))) cs -> passive t0 x.
Proof. intros LA lines cs x A U. exact (conj (asm_lines LA lines cs x A U) (conj (asm_closed LA lines cs x A U) (conj (asm_joined LA lines cs x A U) (asm_passive LA lines cs x A U)))). Qed.
Print Assumptions C104_assembled.

(** ** an example: two lossy lines in a row, a pulse behind 50 ohm at one end, 25 ohm at the other, and
    between them a capacitor to ground and a resistor *)
Definition pulse (t : R) : R := if Rle_dec 2 t then 0 else 1.
Definition chain (m : mtl NumR) : list circuit := [
  ([(m, ("S", ("b0", [(10%Z, 0%nat, plain)])))], ([@GroundR NumR 10 50 (@TFun NumR pulse)], []));
  ([(m, ("L", ("b0", [(20%Z, 0%nat, plain)]))); (m, ("S", ("b1", [(30%Z, 0%nat, plain)])))], ([@GroundC NumR 20 (1/8) (@TInt NumR 0)], [@Branch NumR 20 30 2 (@TInt NumR 0)]));
  ([(m, ("L", ("b1", [(40%Z, 0%nat, plain)])))], ([@GroundR NumR 40 25 (@TInt NumR 0)], []))]%string.
Lemma chain_exists : exists m x, physical m /\ unlit_line LR m /\ conductors m = 1%nat /\ cells m = 3%nat /\ step_dt m = 1 /\
  (forall k, (k < 3)%nat -> cell_len m k = 1 /\ L_ m k 0 0 = 4 /\ R_ m k 0 0 = 1/2) /\ (forall k, (k <= 3)%nat -> C_ m k 0 0 = 1/4 /\ G_ m k 0 0 = 1/3) /\
  assembled [("b0", m); ("b1", m)]%string (chain m) x.
Proof.
  destruct (one_conductor LR LR_ok LR_complete (fun _ => []) (fun _ => []) 4 (1/4) (1/2) (1/3) 3 50 25 3 "m") as (m & Hm & P & O & Edt & _ & _ & _ & _ & _ & _ & HeT & _); try lra; try lia.
  replace (Rabs 3 / INR 3) with 1 in * by (rewrite Rabs_right by lra; simpl; lra).
  assert (S1 : sqrt (4 * (1/4)) = 1) by (replace (4 * (1/4)) with 1 by lra; exact sqrt_1). rewrite S1, Rmult_1_r in Edt.
  pose proof (ol_n _ _ _ _ _ _ _ _ _ O) as C1. pose proof (ol_N _ _ _ _ _ _ _ _ _ O) as C3.
  destruct (mtl_new_inv _ _ _ _ _ _ _ _ _ _ _ _ _ _ Hm) as (_ & _ & _ & _ & _ & _ & _ & _ & _ & _ & _ & _ & _ & ET).
  assert (ET' : k_eT (m_core m) = [mk 4 (fun _ _ => @n0 NumR)]) by (rewrite ET; unfold conductors, cells in *; rewrite C1, C3; reflexivity).
  destruct (assemble [("b0", m); ("b1", m)]%string (chain m)) as [x Hx].
  - repeat constructor; cbn; intuition discriminate.
  - intros c d Hc Hd. cbn in Hc. repeat (destruct Hc as [<-|Hc]; [cbn in Hd; repeat (destruct Hd as [<-|Hd]; [cbn; auto|]); destruct Hd|]). destruct Hc.
  - cbn. apply Permutation_refl.
  - assert (AC : forall side name id, Permutation (map c_cond (@d_conns NumR (m, (side, (name, [(id, 0%nat, plain)]))))) (seq 0 (conductors (@d_line NumR (m, (side, (name, [(id, 0%nat, plain)])))))))
      by (intros; cbn [d_conns d_line fst snd map c_cond]; rewrite C1; apply Permutation_refl).
    unfold chain. repeat match goal with |- Forall _ (_ :: _) => constructor | |- Forall _ [] => constructor end; cbn [fst snd].
    all: unfold network_new; cbn [foldM]; unfold add_nodes_in_line; cbn [bind String.eqb Ascii.eqb Bool.eqb orb negb passert sort_conns fold_left insert_conn foldM app map].
    all: unfold add_node; rewrite ?ET'; cbn [bind Z.leb Z.compare passert dmem dget negb Z.eqb py_get nth_error length app Pos.eqb].
    all: change (state_vars 0 plain) with (@Ok nat 0%nat); cbn [bind]; eexists; (split; [repeat (constructor; [apply AC|]); constructor|]).
    all: (split; [repeat (constructor; [split; [rsimpl; lra|solve [left; reflexivity | right; eexists; reflexivity]]|]); constructor|]).
    all: (split; [repeat constructor; cbn; rsimpl; lra|]).
    all: (split; [reflexivity|]); (split; [reflexivity|]); intros c' id Hc Hi; cbn in Hc; repeat (destruct Hc as [<-|Hc]; [cbn in Hi; unfold find_node; cbn [w_conns]; repeat (destruct Hi as [<-|Hi]; [cbn; eauto|]); destruct Hi|]); destruct Hc.
  - exists m, x. split; [exact P|]. split; [split|repeat (split; [assumption|])].
    + exists m. constructor. do 12 eexists. exact Hm.
    + exact (ph_undisp _ P).
    + intros c k t _ _. unfold eTran. exact (f_equal (fun f : NumR -> NumR => f t) (HeT c k)).
    + rewrite C1. intros k _ i j Hi Hj. assert (i = 0%nat) by lia. assert (j = 0%nat) by lia. now subst.
    + rewrite C1. intros k _ i j Hi Hj. assert (i = 0%nat) by lia. assert (j = 0%nat) by lia. now subst.
    + split; [intros k Hk; repeat split; [exact (ol_h _ _ _ _ _ _ _ _ _ O k Hk)|exact (ol_L _ _ _ _ _ _ _ _ _ O k Hk)|exact (ol_R _ _ _ _ _ _ _ _ _ O k Hk)]|].
      split; [|exact Hx]. intros k Hk. split; [exact (ol_C _ _ _ _ _ _ _ _ _ O k Hk)|exact (ol_G _ _ _ _ _ _ _ _ _ O k Hk)].
Qed.
Lemma chain_off m : Forall (fun c : circuit => Forall (off_from 2) (fst (snd c) ++ snd (snd c))) (chain m).
Proof. unfold chain. repeat constructor; cbn [off_from fst snd]. intros t Ht. unfold pulse. destruct (Rle_dec 2 t); [reflexivity|contradiction]. Qed.
Lemma halves (n : nat) : @time_range_len NumR (INR n / 2) (1/2) = Ok n.
Proof.
  unfold time_range_len. replace (@neqb NumR (1/2) n0) with false by (symmetry; apply Reqb_false; rsimpl; lra). f_equal. rsimpl. rewrite INR_IZR_INZ.
  replace (IZR (Z.of_nat n) / 2 / (1/2)) with (IZR (Z.of_nat n)) by lra. unfold Int_part. rewrite <- (tech_up (IZR (Z.of_nat n)) (Z.of_nat n + 1)); [lia| |]; rewrite plus_IZR; lra.
Qed.
(** the run of [n] half steps meets the hypotheses of all the theorems *)
Example C104_example (n : nat) : (6 <= n)%nat -> exists m x u v, assembled [("b0", m); ("b1", m)]%string (chain m) x /\ pulse 0 = 1 /\ lines_net LR x /\ closed LR x /\ passive 2 x /\ joined x /\
  one_step x (1/2) /\ (forall name b, bundle_of x name = Some b -> b_courant b 1) /\ reaches LR x (INR n / 2) (1/2) 6 u /\ reaches LR x (INR n / 2) (1/2) n v /\ t_dt u = 1/2 /\ 2 + 2 * t_dt u <= t_time u.
Proof.
  intros Hn. destruct chain_exists as (m & x & P & U & C1 & C3 & Dt & Hh & Hc & A). set (lines := [("b0", m); ("b1", m)]%string) in *.
  assert (UL : Forall (fun nm => unlit_line LR (snd nm)) lines) by (constructor; [exact U|constructor; [exact U|constructor]]).
  assert (PL : Forall (fun nm => passive_line (snd nm)) lines).
  { assert (passive_line m) by (split; [intros; left; now apply (ph_h _ P)|apply (ph_R _ P)|apply (ph_G _ P)]). constructor; [assumption|constructor; [assumption|constructor]]. }
  assert (PP : Forall (fun nm => physical (snd nm)) lines) by (constructor; [exact P|constructor; [exact P|constructor]]).
  pose proof (asm_lines LR _ _ _ A UL) as Ln. pose proof (asm_runnable LR _ _ _ A UL PP) as Rn.
  assert (O : one_step x (1/2)) by (left; lra).
  destruct (mtln_run_total LR LR_complete x (INR n / 2) (1/2) Ln Rn) as (v & Ev & _); [left; lra|].
  destruct (proj1 (run_reaches LR x (INR n / 2) (1/2) v) Ev) as (k & Ek & Rv).
  assert (O1 : t_dt (override_dt x (1/2 : NumR)) = 1/2) by (unfold override_dt; replace (@neqb NumR (1/2) n0) with false by (symmetry; apply Reqb_false; rsimpl; lra); reflexivity).
  rewrite O1, halves in Ek. injection Ek as <-. destruct (reaches_less LR _ _ _ _ 6%nat _ Rv Hn) as [u Ru].
  destruct (run_clock LR _ _ _ _ _ Ru) as [Du Tu]. rewrite (proj2 (Reqb_false (1/2) 0)) in Du by lra.
  assert (T0 : t_time x = 0).
  { destruct A as (_ & _ & bs & ws & _ & _ & Hx). unfold mtln_new in Hx. inv_bind Hx. destruct (fold_add _ _ _ Ha) as (_ & _ & E). apply fold_networks in Hx as (_ & _ & E'). rewrite E', E. reflexivity. }
  exists m, x, u, v. repeat (split; [solve [assumption | unfold pulse; destruct (Rle_dec 2 0); lra | apply (asm_closed LR _ _ _ A UL) | apply (asm_passive LR _ _ _ A UL 2 PL (chain_off m)) | apply (asm_joined LR _ _ _ A UL)]|]).
  split; [|repeat (split; [assumption|]); rewrite Tu, T0, Du; simpl; lra].
  intros name b Hb. destruct (asm_of_bundle _ _ _ A _ _ Hb) as (m' & I & Hm). assert (m' = m) by (destruct I as [I|[I|[]]]; congruence). subst m'.
  destruct (asm_carries LR _ UL _ _ _ I Hm) as (Ca & _). unfold b_courant. rewrite (ca_n _ _ _ Ca), (ca_N _ _ _ Ca), C1, C3.
  assert (XL : forall k, (k < 3)%nat -> kL (b_core b) k 0%nat 0%nat = 4) by (intros k Hk; rewrite (proj1 (ca_L _ _ _ Ca k 0%nat 0%nat ltac:(lia) ltac:(lia) ltac:(lia))); apply Hh; exact Hk).
  assert (XC : forall k, (k <= 3)%nat -> kC (b_core b) k 0%nat 0%nat = 1/4) by (intros k Hk; rewrite (proj1 (ca_C _ _ _ Ca k 0%nat 0%nat ltac:(lia) ltac:(lia) ltac:(lia))); apply Hc; exact Hk).
  split; [|split; [|split]].
  - intros k u' w' Hk. rewrite (ca_h _ _ _ Ca k ltac:(lia)), (proj1 (Hh k Hk)). unfold quad, dot. cbn. rewrite XL, XC by lia. rsimpl. apply Req_le. ring_simplify. field.
  - intros k i j Hk Hi Hj. assert (i = 0%nat) by lia. assert (j = 0%nat) by lia. subst. rewrite !XC by lia. reflexivity.
  - intros k Hk u'. unfold quad. cbn. rewrite XL by lia. rsimpl. nra.
  - intros k Hk u'. unfold quad. cbn. rewrite XC by lia. rsimpl. nra.
Qed.
