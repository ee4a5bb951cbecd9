(** Model of class MTLN (python/src/mtln.py) and of the method Parser.run
    that drives it (python/src/jsonParser.py:37-47). *)
From Coq Require Import String List Arith ZArith Bool.
From Verif Require Import Num Py Arr Utils Probes Dispersive Line Bundle Networks.
Import ListNotations.

Section Mtln.
Context {N : num}.
Local Open Scope num_scope.
Variable LA : lapack N.

Record mtln := Mtln {
  t_bundles : bdict N;          (* insertion ordered *)
  t_networks : list (networkd N);
  t_dt : N;
  t_time : N
}.
Definition t_set (x : mtln) (bs : bdict N) (ws : list (networkd N)) : mtln :=
  {| t_bundles := bs; t_networks := ws; t_dt := t_dt x; t_time := t_time x |}.

(** mtln.py:10-20 with no bundles and networks *)
Definition mtln_empty : mtln :=
  {| t_bundles := []; t_networks := []; t_dt := n1e10; t_time := n0 |}.

(** mtln.py:23-30 *)
Definition add_bundle (x : mtln) (b : bundle N) : res mtln :=
  _ <- passert (negb (dmem String.eqb (b_name b) (t_bundles x))) ;;
  Ok {| t_bundles := t_bundles x ++ [(b_name b, b)]; t_networks := t_networks x;
        t_dt := if k_dt (b_core b) <? t_dt x then k_dt (b_core b) else t_dt x;
        t_time := t_time x |}.

(** mtln.py:32-34 *)
Definition add_network (x : mtln) (w : networkd N) : res mtln :=
  w' <- update_index_numbers w (t_bundles x) ;;
  Ok (t_set x (t_bundles x) (t_networks x ++ [w'])).

(** mtln.py:36-38 *)
Definition add_networks (x : mtln) (ws : list (networkd N)) : mtln :=
  t_set x (t_bundles x) (t_networks x ++ ws).

(** mtln.py:10-20 *)
Definition mtln_new (bs : list (bundle N)) (ws : list (networkd N)) : res mtln :=
  x <- foldM add_bundle bs mtln_empty ;;
  foldM add_network ws x.

(** apply to every bundle, in order *)
Definition map_bundles (f : bundle N -> res (bundle N)) (bs : bdict N) : res (bdict N) :=
  mapM (fun kb => b <- f (snd kb) ;; Ok (fst kb, b)) bs.

(** mtln.py:93-96: field sources evaluated at the network's clock and step *)
Definition bundle_advance_voltage (time dt : N) (b : bundle N) : res (bundle N) :=
  let s := b_core b in
  s' <- advance_voltage s (eval_fields (k_eL s) (k_eT s) time dt) ;;
  Ok (b_set_core b s').

(** mtln.py:87-91 *)
Definition advance_networks_voltage (time dt : N) (ws : list (networkd N)) (bs : bdict N)
  : res (list (networkd N) * bdict N) :=
  foldM (fun acc w =>
           w' <- nwd_advance_voltage LA w time dt ;;
           bs' <- nwd_update_voltages w' (snd acc) ;;
           Ok (fst acc ++ [w'], bs')) ws ([], bs).

(** mtln.py:98-100: uses the field arrays evaluated in the voltage phase of the same step *)
Definition bundle_advance_current (time dt : N) (b : bundle N) : res (bundle N) :=
  let s := b_core b in
  s' <- advance_current s (eval_fields (k_eL s) (k_eT s) time dt) ;;
  Ok (b_set_core b s').

(** mtln.py:47-50 *)
Definition bundle_update_probes (time : N) (b : bundle N) : res (bundle N) :=
  ps <- update_probes (b_core b) time (b_probes b) ;;
  Ok (b_set b (b_core b) ps).

(** mtln.py:106-113 *)
Definition mtln_step (x : mtln) : res mtln :=
  let time := t_time x in let dt := t_dt x in
  bs1 <- map_bundles (bundle_advance_voltage time dt) (t_bundles x) ;;
  wb <- advance_networks_voltage time dt (t_networks x) bs1 ;;
  bs3 <- map_bundles (bundle_advance_current time dt) (snd wb) ;;
  ws' <- mapM (fun w => nwd_update_currents w bs3) (fst wb) ;;
  let time' := time + dt in
  bs4 <- map_bundles (bundle_update_probes time') bs3 ;;
  Ok {| t_bundles := bs4; t_networks := ws'; t_dt := dt; t_time := time' |}.

(** mtln.py:74-78 for one bundle *)
Definition bundle_prepare (steps : nat) (b : bundle N) : res (bundle N) :=
  s1 <- update_lr_terms LA (b_core b) ;;
  s2 <- update_cg_terms LA s1 ;;
  Ok (b_set b s2 (map (fun p => resize_frames p steps (k_n s2)) (b_probes b))).

Definition set_all_dt (dt : N) (bs : bdict N) : bdict N :=
  map (fun kb => (fst kb, b_set_core (snd kb) (set_dt (b_core (snd kb)) dt))) bs.

(** mtln.py:66-69 *)
Definition override_dt (x : mtln) (dt : N) : mtln :=
  if negb (dt =? n0)
  then {| t_bundles := set_all_dt dt (t_bundles x); t_networks := t_networks x;
          t_dt := dt; t_time := t_time x |}
  else x.

(** mtln.py:71-78 *)
Definition mtln_prepare (x : mtln) (steps : nat) : res mtln :=
  bs <- map_bundles (bundle_prepare steps) (t_bundles x) ;;
  Ok (t_set x bs (t_networks x)).

(** mtln.py:64-81 *)
Definition mtln_run_until (x : mtln) (final_time dt : N) : res mtln :=
  let x0 := override_dt x dt in
  ws <- mapM (fun w => nwd_compute_v_terms w (t_dt x0)) (t_networks x0) ;;
  n <- time_range_len final_time (t_dt x0) ;;
  x1 <- mtln_prepare (t_set x0 (t_bundles x0) ws) n ;;
  iterM n mtln_step x1.

(** jsonParser.py:37-47: what Parser.run does with the parsed bundles and networks *)
Definition parser_run (bs : list (bundle N)) (ws : list (networkd N)) (final_time dt : N)
  : res mtln :=
  let nz := negb (dt =? n0) in
  let bs' := if nz then map (fun b => b_set_core b (set_dt (b_core b) dt)) bs else bs in
  x <- foldM add_bundle bs' mtln_empty ;;
  x' <- foldM add_network ws x ;;
  let x'' := if nz then {| t_bundles := t_bundles x'; t_networks := t_networks x';
                           t_dt := dt; t_time := t_time x' |} else x' in
  mtln_run_until x'' final_time n0.

End Mtln.
Arguments mtln N : clear implicits.
