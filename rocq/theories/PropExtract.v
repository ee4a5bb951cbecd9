(** Properties of port power waves and scattering-parameter extraction (C70, C71, C90). *)
From Coq Require Import String List Arith Lia Bool Reals Lra.
From Verif Require Import Py Num NumR Arr ArrFacts RFacts Line Probes Dispersive Extract SpecExtract ExtractFacts.
Import ListNotations.
Local Open Scope R_scope.

(** C70: whatever the probe recorded, at every frequency the waves reported for a positive reference impedance are
    those of the port's voltage spectrum v and inward current spectrum i. *)
Theorem C70_waves : forall (p : port NumR) c f a b z0,
  get_incident_and_reflected_power_wave p c = Ok (f, a, b) -> nth_error (pt_z0 p) c = Some z0 -> 0 < z0 ->
  exists x n, pt_pos p = [x] /\ length a = n /\ length b = n /\ length (pt_v0 p) = n /\ length (pt_i0 p) = n /\ (0 < n)%nat /\
  forall j, (j < n)%nat ->
    let v := spectrum n (port_v p c) j in
    let i := spectrum n (port_i p c (Reqb x 0)) j in
    let A := nth j a (0, 0) in
    let B := nth j b (0, 0) in
    cplus A B = ctimes (/ sqrt z0) v /\
    sqmod A - sqmod B = re_conj v i /\
    (B = (0, 0) <-> v = ctimes z0 i) /\
    (A = (0, 0) <-> v = ctimes (- z0) i).
Proof. exact waves. Qed.
Print Assumptions C70_waves.

Theorem C70_frequencies : forall (p : port NumR) c f a b,
  get_incident_and_reflected_power_wave p c = Ok (f, a, b) ->
  exists t0 t1, nth_error (pt_t0 p) 0 = Some t0 /\ nth_error (pt_t1 p) 1 = Some t1 /\ length f = length (pt_t0 p) /\
  forall j, (j < length f)%nat -> nth j f 0 = (INR j - INR (length f / 2)) / (INR (length f) * (t1 - t0)).
Proof. exact waves_freq. Qed.
Print Assumptions C70_frequencies.

Theorem C70_zero_rejected : forall (N : num) (p : port N) c z0,
  nth_error (pt_z0 p) c = Some z0 -> neqb z0 n0 = true ->
  get_incident_and_reflected_power_wave p c = Err AssertionError.
Proof. exact @waves_zero. Qed.
Print Assumptions C70_zero_rejected.

(** ports placed at a point of space (three coordinates, as every node of a line is) never give waves *)
Theorem C70_vector_position : forall (N : num) (p : port N) c r,
  length (pt_pos p) <> 1%nat -> get_incident_and_reflected_power_wave p c <> Ok r.
Proof. exact @waves_vector. Qed.
Print Assumptions C70_vector_position.

(** C90: summed over all frequencies the power carried by the waves is the energy that entered the port. *)
Theorem C90_energy : forall (p : port NumR) c f a b z0,
  get_incident_and_reflected_power_wave p c = Ok (f, a, b) -> nth_error (pt_z0 p) c = Some z0 -> 0 < z0 ->
  exists x n, pt_pos p = [x] /\ length a = n /\ length b = n /\ length (pt_v0 p) = n /\
  sumR n (fun j => sqmod (nth j a (0, 0)) - sqmod (nth j b (0, 0))) =
  INR n * sumR n (fun m => port_v p c m * port_i p c (Reqb x 0) m).
Proof. exact waves_energy. Qed.
Print Assumptions C90_energy.

(** a matched port (voltage 50 times the current, constant in time) over two frames *)
Definition xport : port NumR :=
  @Port NumR [0] [[100]; [100]] [[100]; [100]] [[2]; [2]] [0; 1] [0; 1] [50].
Lemma xport_ok : exists f a b, get_incident_and_reflected_power_wave xport 0 = Ok (f, a, b).
Proof.
  unfold get_incident_and_reflected_power_wave. cbn [xport pt_z0 py_get nth_error of_option bind].
  replace (@neqb NumR 50 n0) with false by (symmetry; apply Reqb_false; cbn; lra).
  assert (T : getTerminal xport = Ok true). { unfold getTerminal. cbn [xport pt_pos]. f_equal. apply Reqb_true. reflexivity. }
  rewrite T. cbn [negb passert bind]. set (r := get_v_i_fft xport 0). vm_compute in r. subst r. cbn [bind]. do 3 eexists. reflexivity.
Qed.
Example C70_waves_met : exists f a b x n, get_incident_and_reflected_power_wave xport 0 = Ok (f, a, b) /\
  pt_pos xport = [x] /\ n = 2%nat /\ length a = n /\ forall j, (j < n)%nat -> nth j b (0, 0) = (0, 0).
Proof.
  destruct xport_ok as (f & a & b & E). destruct (C70_waves _ _ _ _ _ 50 E eq_refl ltac:(lra)) as (x & n & Ex & La & Lb & L0 & _ & _ & G).
  exists f, a, b, x, n. split; [exact E|]. split; [exact Ex|]. split; [symmetry; exact L0|]. split; [exact La|]. intros j Hj. destruct (G j Hj) as (_ & _ & Z & _). apply Z. clear Z G.
  rewrite <- spectrum_scal_ctimes. apply spectrum_ext. intros m Hm. cbn in L0. subst n. injection Ex as <-.
  unfold port_v, port_i. replace (Reqb 0 0) with true by (symmetry; apply Reqb_true; reflexivity).
  destruct m as [|[|]]; [| |lia]; cbn; lra.
Qed.
Example C70_zero_met : exists (p : port NumR) z0, nth_error (pt_z0 p) 0 = Some z0 /\ neqb z0 n0 = true.
Proof. exists (@Port NumR [0] [] [] [] [] [] [0]), 0. split; [reflexivity|]. apply Reqb_true. reflexivity. Qed.

(** C71: [drv p q] and [oth p q] are the port probes at p and q of the run in which p is driven. *)
Theorem C71_columns : forall (N : num) (drv oth : pname -> pname -> port N) fMin fMax p1 p2 F S,
  assemble (fun p q => extract_s_reciprocal (drv p q) (snd p) (oth p q) (snd q)) fMin fMax p1 p2 = Ok (F, S) ->
  exists f1 a11 b11 g1 a21 b21 f2 a22 b22 g2 a12 b12,
    get_incident_and_reflected_power_wave (drv p1 p2) (snd p1) = Ok (f1, a11, b11) /\
    get_incident_and_reflected_power_wave (oth p1 p2) (snd p2) = Ok (g1, a21, b21) /\
    get_incident_and_reflected_power_wave (drv p2 p1) (snd p2) = Ok (f2, a22, b22) /\
    get_incident_and_reflected_power_wave (oth p2 p1) (snd p1) = Ok (g2, a12, b12) /\
    F = map (get f2) (band fMin fMax f2) /\ length S = length F /\
    forall k, (k < length S)%nat ->
      let q := nth k (band fMin fMax f2) 0%nat in
      let s := s_get (nth k S ((c0, c0), (c0, c0))) in
      s 0%nat 0%nat = cdiv (nth q b11 c0) (nth q a11 c0) /\
      s 1%nat 0%nat = cdiv (nth q b21 c0) (nth q a11 c0) /\
      s 0%nat 1%nat = cdiv (nth q b12 c0) (nth q a22 c0) /\
      s 1%nat 1%nat = cdiv (nth q b22 c0) (nth q a22 c0).
Proof. exact @columns. Qed.
Print Assumptions C71_columns.

Theorem C71_swap : forall (N : num) (solved : pname -> pname -> res (vec N * list (smat N))) fMin fMax p1 p2 F S F' S' f1 s1 f2 s2,
  solved p1 p2 = Ok (f1, s1) -> solved p2 p1 = Ok (f2, s2) -> f1 = f2 ->
  assemble solved fMin fMax p1 p2 = Ok (F, S) -> assemble solved fMin fMax p2 p1 = Ok (F', S') ->
  F' = F /\ length S' = length S /\
  forall k i j, (k < length S)%nat -> (i < 2)%nat -> (j < 2)%nat ->
    s_get (nth k S' ((c0, c0), (c0, c0))) i j = s_get (nth k S ((c0, c0), (c0, c0))) (1 - i) (1 - j).
Proof. exact @assemble_swap. Qed.
Print Assumptions C71_swap.

Theorem C71_entry_point : forall (N : num) (m : mtl N) fMin fMax (p1 p2 : string * nat),
  (p1 = p2 -> extract_2p_network m fMin fMax p1 p2 = Err AssertionError) /\
  (p1 <> p2 -> neqb fMax n0 = true -> extract_2p_network m fMin fMax p1 p2 = Err ZeroDivisionError) /\
  (p1 <> p2 -> neqb fMax n0 = false -> extract_2p_network m fMin fMax p1 p2 = Err AttributeError).
Proof. exact @extract_raises. Qed.
Print Assumptions C71_entry_point.

Theorem C71_port_probe : forall (N : num) (m : mtl N) terminal,
  (terminal = 0%nat \/ terminal = 1%nat -> add_port_probe m terminal = Err AttributeError) /\
  ((2 <= terminal)%nat -> add_port_probe m terminal = Err NameError).
Proof. exact @port_probe_raises. Qed.
Print Assumptions C71_port_probe.

Example C71_met : exists F S, assemble (fun p q => extract_s_reciprocal xport 0 xport 0) (-1) 1 ("S"%string, 0%nat) ("L"%string, 0%nat) = Ok (F, S).
Proof.
  destruct xport_ok as (f & a & b & E). destruct (waves _ _ _ _ _ 50 E eq_refl ltac:(lra)) as (x & n & Ex & La & Lb & L0 & _). destruct (waves_freq _ _ _ _ _ E) as (t0 & t1 & _ & _ & Lf & _).
  assert (La' : length a = 2%nat) by (rewrite La, <- L0; reflexivity). assert (Lb' : length b = 2%nat) by (rewrite Lb, <- L0; reflexivity).
  assert (R : exists s, extract_s_reciprocal xport 0 xport 0 = Ok (f, s) /\ length s = 2%nat).
  { unfold extract_s_reciprocal. rewrite E. cbn [bind]. rewrite La', Lb', Lf. cbn [xport pt_t0 length Nat.eqb andb bind]. eexists. split; [reflexivity|]. apply length_mk. }
  destruct R as (s & R & Ls). unfold assemble. rewrite R. cbn [bind fst snd]. rewrite Ls, Lf. cbn [xport pt_t0 length Nat.eqb andb bind]. eauto.
Qed.
