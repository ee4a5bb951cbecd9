(** The run methods of the parser: properties C96 to C98. *)
From Coq Require Import String List Arith ZArith Bool Lia QArith Reals Lra.
From Verif Require Import Num Py Arr ArrFacts NumR NumQ LapackQ Utils Probes Dispersive Line Bundle Networks Mtln SpecLine SpecBundle SpecNet SpecMtln Fields SpecFields Parser SpecParser RunFields SpecRun
  ParserBuild CoreEq RFacts Runs RunsField RunsR ExampleQ ExampleParser ExampleTwice PropParser.
Import ListNotations.
Local Open Scope string_scope.

(** *** C96: the step given to Parser.run is the one given to run_until *)
Theorem C96_run (N : num) (LA : lapack N) (bs : list (bundle N)) ws T dt : @neqb N n0 n0 = true ->
  parser_run LA bs ws T dt = (x <- mtln_new bs ws ;; mtln_run_until LA x T dt).
Proof. exact (run_is_run_until LA bs ws T dt). Qed.
Print Assumptions C96_run.
Theorem C96_parse_and_run (N : num) (LA : lapack N) ju jdu order (D : doc N) T dt : @neqb N n0 n0 = true ->
  parse_and_run LA ju jdu order D T dt = (p <- parse LA ju jdu order D ;; x <- mtln_new (ps_bundles p) (ps_networks p) ;; mtln_run_until LA x T dt).
Proof. intros Z. unfold parse_and_run. destruct (parse LA ju jdu order D); cbn [bind]; [|reflexivity]. apply C96_run. exact Z. Qed.
Print Assumptions C96_parse_and_run.
Example C96_example : @neqb NumQ n0 n0 = true /\ @neqb NumR n0 n0 = true /\ exists x, parse_and_run LQ junk junk px_order px 3%Q (1#4)%Q = Ok x.
Proof.
  split; [exact q_zero|]. split; [exact r_zero|]. assert (H : okb (fun _ => true) (parse_and_run LQ junk junk px_order px 3%Q (1#4)%Q) = true) by (vm_compute; reflexivity). okb_step H x E. exists x. exact E.
Qed.

(** *** C97: running the same parser object twice *)
(** without shielded conductors the second run goes on from the state the first one left, with the clock back at zero *)
Theorem C97_continues (N : num) (LA : lapack N) (bs : list (bundle N)) ws T1 dt1 T2 dt2 : @neqb N n0 n0 = true -> level_0_only ws -> Forall (reachable_bundle LA) bs ->
  @neqb N dt2 n0 = false \/ @neqb N dt1 n0 = true ->
  parser_run_twice LA bs ws T1 dt1 T2 dt2 = (x <- parser_run LA bs ws T1 dt1 ;; mtln_run_until LA (rewound x) T2 dt2).
Proof. exact (twice_continues LA bs ws T1 dt1 T2 dt2). Qed.
Print Assumptions C97_continues.
(** a second run without a step keeps the step given to the first *)
Theorem C97_keeps_step (LA : lapack NumR) (bs : list (bundle NumR)) ws T1 dt1 T2 : level_0_only ws -> Forall (reachable_bundle LA) bs -> bs <> [] -> dt1 <> 0%R -> (dt1 <= 10000000000)%R ->
  parser_run_twice LA bs ws T1 dt1 T2 0%R = (x <- parser_run LA bs ws T1 dt1 ;; mtln_run_until LA (rewound x) T2 0%R) /\
  forall x, parser_run LA bs ws T1 dt1 = Ok x -> t_dt x = dt1.
Proof.
  intros L0 RB Ne D0 D1. split; [exact (twice_same_step LA bs ws T1 dt1 T2 L0 RB Ne D0 D1)|]. intros x H. destruct (first_run LA _ _ _ _ _ r_zero H) as (_ & _ & _ & x0 & _ & _ & D).
  unfold override_dt in D. replace (@neqb NumR dt1 (@n0 NumR)) with false in D; [exact D|]. symmetry. apply Reqb_false. exact D0.
Qed.
Print Assumptions C97_keeps_step.
(** with shielded conductors every run moves the nodes further down in their bundles *)
Theorem C97_rows (N : num) (LA : lapack N) (bs : list (bundle N)) ws T1 dt1 T2 dt2 x : @neqb N n0 n0 = true -> Forall (reachable_bundle LA) bs -> Forall (net_reachable LA) ws ->
  (parser_run LA bs ws T1 dt1 = Ok x -> all_shifted bs 1 ws (t_networks x)) /\ (parser_run_twice LA bs ws T1 dt1 T2 dt2 = Ok x -> all_shifted bs 2 ws (t_networks x)).
Proof. intros Z RB RW. split; intros H; [exact (proj1 (run_shifted LA bs ws T1 dt1 x Z RB H))|exact (twice_shifted LA bs ws T1 dt1 T2 dt2 x Z RB RW H)]. Qed.
Print Assumptions C97_rows.
(** so that a second run does not repeat the first: with no shield it gives other voltages, with a shield it may raise *)
Theorem C97_repeat_refuted :
  (exists (p : parsed NumQ) x y, parse LQ junk junk px_order px2 = Ok p /\ parser_run LQ (ps_bundles p) (ps_networks p) 3%Q 0%Q = Ok x /\
     parser_run_twice LQ (ps_bundles p) (ps_networks p) 3%Q 0%Q 3%Q 0%Q = Ok y /\ level_0_only (ps_networks p) /\ ~ (v_of x "ba" 0 2 == v_of y "ba" 0 2)%Q) /\
  (exists (p : parsed NumQ) x, parse LQ junk junk px_order px = Ok p /\ parser_run LQ (ps_bundles p) (ps_networks p) 3%Q 0%Q = Ok x /\
     parser_run_twice LQ (ps_bundles p) (ps_networks p) 3%Q 0%Q 3%Q 0%Q = Err IndexError).
Proof.
  split.
  - pose proof px2_test_ok as H. unfold px2_test in H. okb_step H p Ep. split_andb H. okb_step H x Ex. okb_step H y Ey. exists p, x, y. split; [exact Ep|]. split; [exact Ex|]. split; [exact Ey|]. split.
    + unfold level_0_only. apply Forall_forall. intros d Hd. rewrite forallb_forall in T. specialize (T d Hd). apply Forall_forall. intros lw Hl. rewrite forallb_forall in T. apply Nat.eqb_eq. exact (T lw Hl).
    + intros E. apply negb_true_iff in H. rewrite (proj2 (Qeq_bool_iff _ _) E) in H. exact (diff_true_false H).
  - pose proof px_twice_fails as H. destruct px_parse as [p|e] eqn:Ep; cbn [bind] in H; [|exfalso; clear - H Ep; assert (X := px_parses); rewrite Ep in X; cbn in X; exact (diff_false_true X)].
    destruct (parser_run LQ (ps_bundles p) (ps_networks p) 3%Q 0%Q) as [x|e] eqn:Ex; [|exfalso; injection H as H; exact (eq_ind KeyError (fun e => match e with KeyError => True | _ => False end) I _ H)]. exists p, x. split; [reflexivity|]. split; [exact Ex|exact H].
Qed.
Print Assumptions C97_repeat_refuted.
Example C97_example : exists p x y, parse LQ junk junk px_order px2 = Ok p /\ Forall (reachable_bundle LQ) (ps_bundles p) /\ Forall (net_reachable LQ) (ps_networks p) /\ level_0_only (ps_networks p) /\
  parser_run LQ (ps_bundles p) (ps_networks p) 3%Q 0%Q = Ok x /\ mtln_run_until LQ (rewound x) 3%Q 0%Q = Ok y.
Proof.
  destruct C97_repeat_refuted as [(p & x & y & Ep & Ex & Ey & L & _) _]. exists p, x, y. destruct (C95_parsed _ _ _ _ _ _ _ Ep) as [RB RW]. repeat (split; [assumption|]).
  pose proof (C97_continues NumQ LQ (ps_bundles p) (ps_networks p) 3%Q 0%Q 3%Q 0%Q q_zero L RB (or_intror q_zero)) as C. pose proof (eq_trans (eq_sym C) Ey) as E. clear C Ey.
  apply (eq_trans (eq_sym (f_equal (fun r => bind r (fun x => mtln_run_until LQ (rewound x) 3%Q 0%Q)) Ex))). exact E.
Qed.

(** *** C98: runs with an external field *)
(** illuminating every bundle, then running *)
Theorem C98_field (N : num) (LA : lapack N) integ (bs : list (bundle N)) ws T dt f dist x : @neqb N n0 n0 = true ->
  parser_run_field LA integ bs ws T dt f dist = Ok x <->
  exists bs', Forall2 (fun b b' => bundle_add_external_field LA integ b f dist [] = Ok b') bs bs' /\ parser_run LA bs' ws T dt = Ok x.
Proof.
  intros Z. rewrite (field_first LA integ bs ws T dt f dist x Z). split; intros (bs' & M & H); exists bs'; (split; [|exact H]).
  - now apply NetPlace.mapM_F2.
  - clear H. induction M as [|b b' bs bs' E _ IH]; cbn [mapM]; [reflexivity|]. rewrite E. cbn [bind]. rewrite IH. reflexivity.
Qed.
Print Assumptions C98_field.
(** whatever drove the outermost conductors before is lost *)
Theorem C98_replaces (N : num) (LA : lapack N) integ (bs bs' : list (bundle N)) ws T dt f dist x : @neqb N n0 n0 = true -> Forall (reachable_bundle LA) bs -> Forall2 same_but_outer_fields bs bs' ->
  parser_run_field LA integ bs ws T dt f dist = Ok x -> parser_run_field LA integ bs' ws T dt f dist = Ok x.
Proof. exact (field_replaces LA integ bs bs' ws T dt f dist x). Qed.
Print Assumptions C98_replaces.
(** a localised field changes only the bundle of that name *)
Theorem C98_local (N : num) (LA : lapack N) integ (bs : list (bundle N)) ws T dt name f dist loc x : @neqb N n0 n0 = true ->
  parser_run_local LA integ bs ws T dt name f dist loc = Ok x <->
  exists b b', In b bs /\ b_name b = name /\ bundle_add_external_field LA integ b f dist loc = Ok b' /\
    parser_run LA (map (fun c => if String.eqb name (b_name c) then b' else c) bs) ws T dt = Ok x.
Proof. exact (local_first LA integ bs ws T dt name f dist loc x). Qed.
Print Assumptions C98_local.
Theorem C98_unknown (N : num) (LA : lapack N) integ (bs : list (bundle N)) ws T dt name f dist loc x0 : mtln_new bs ws = Ok x0 -> ~ In name (map (@b_name N) bs) ->
  parser_run_local LA integ bs ws T dt name f dist loc = Err KeyError.
Proof. exact (local_unknown LA integ bs ws T dt name f dist loc x0). Qed.
Print Assumptions C98_unknown.
Example C98_example : exists (p : parsed NumQ) x y z, parse LQ junk junk px_order px2 = Ok p /\
  parser_run_field LQ qinteg (ps_bundles p) (ps_networks p) 3%Q 0%Q qfield qaside = Ok x /\ parser_run LQ (ps_bundles p) (ps_networks p) 3%Q 0%Q = Ok y /\
  parser_run_local LQ qinteg (ps_bundles p) (ps_networks p) 3%Q 0%Q "bb" qfield qaside [] = Ok z /\
  ~ (v_of x "ba" 0 2 == v_of y "ba" 0 2)%Q /\ ~ (v_of z "bb" 0 2 == v_of y "bb" 0 2)%Q /\
  Forall (reachable_bundle LQ) (ps_bundles p) /\ Forall2 same_but_outer_fields (ps_bundles p) (map relit (ps_bundles p)) /\
  parser_run_field LQ qinteg (map relit (ps_bundles p)) (ps_networks p) 3%Q 0%Q qfield qaside = Ok x.
Proof.
  pose proof px2_lit_test_ok as H. unfold px2_lit_test in H. okb_step H p Ep. okb_step H x Ex. okb_step H y Ey. okb_step H z Ez. split_andb H. exists p, x, y, z. split; [exact Ep|]. split; [exact Ex|]. split; [exact Ey|]. split; [exact Ez|].
  assert (Nq : forall a b, negb (Qeq_bool a b) = true -> ~ (a == b)%Q) by (intros a b X E; apply negb_true_iff in X; rewrite (proj2 (Qeq_bool_iff _ _) E) in X; exact (diff_true_false X)).
  split; [exact (Nq _ _ H)|]. split; [exact (Nq _ _ T1)|]. destruct (C95_parsed _ _ _ _ _ _ _ Ep) as [RB RW]. split; [exact RB|].
  assert (S : Forall2 same_but_outer_fields (ps_bundles p) (map relit (ps_bundles p))).
  { rewrite forallb_forall in T. clear - T. induction (ps_bundles p) as [|b l IH]; cbn [map]; constructor; [|apply IH; intros; apply T; now right].
    specialize (T b ltac:(now left)). apply andb_true_iff in T as [A B]. apply relit_same; [exact (lit_arraysb_ok _ A)|]. okb_step B n En. apply Nat.eqb_eq in B. subst n. exact En. }
  split; [exact S|]. exact (C98_replaces _ LQ qinteg _ _ _ _ _ _ _ _ q_zero RB S Ex).
Qed.
