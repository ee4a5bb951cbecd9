(** Model of the other two run methods of the parser (python/src/jsonParser.py:49-75), and of what a
    parser object holds after a run.  Parser.run itself is [parser_run] of Mtln.v. *)
From Coq Require Import String List Arith ZArith Bool.
From Verif Require Import Num Py Arr Utils Probes Dispersive Line Bundle Networks Mtln Fields.
Import ListNotations.

Section RunFields.
Context {N : num}.
Local Open Scope num_scope.
Variable LA : lapack N.
Variable integ : (N -> N) -> N -> N -> N.

(** jsonParser.py:50-58 and 64-72 (the same lines as 38-46): the network of lines before it is run *)
Definition parser_net (bs : list (bundle N)) (ws : list (networkd N)) (dt : N) : res (mtln N) :=
  let nz := negb (dt =? n0) in
  let bs' := if nz then map (fun b => b_set_core b (set_dt (b_core b) dt)) bs else bs in
  x <- foldM add_bundle bs' mtln_empty ;;
  x' <- foldM add_network ws x ;;
  Ok (if nz then {| t_bundles := t_bundles x'; t_networks := t_networks x';
                    t_dt := dt; t_time := t_time x' |} else x').

(** jsonParser.py:49-61 *)
Definition parser_run_field (bs : list (bundle N)) (ws : list (networkd N)) (final_time dt : N)
  (f : field N) (dist : ten N) : res (mtln N) :=
  x <- parser_net bs ws dt ;;
  x' <- mtln_add_external_field LA integ x f dist ;;
  mtln_run_until LA x' final_time n0.

(** jsonParser.py:63-75 *)
Definition parser_run_local (bs : list (bundle N)) (ws : list (networkd N)) (final_time dt : N)
  (name : string) (f : field N) (dist : ten N) (loc : list (vec N)) : res (mtln N) :=
  x <- parser_net bs ws dt ;;
  x' <- mtln_add_localized_external_field LA integ x name f dist loc ;;
  mtln_run_until LA x' final_time n0.

(** jsonParser.py:39, 43: a run works on the parser's own bundle and network objects, so that these are
    afterwards what the run left.  Simplification: only runs that return. *)
Definition left_bundles (x : mtln N) : list (bundle N) := map snd (t_bundles x).
Definition left_networks (x : mtln N) : list (networkd N) := t_networks x.
(** two calls of Parser.run on the same object *)
Definition parser_run_twice (bs : list (bundle N)) (ws : list (networkd N)) (T1 dt1 T2 dt2 : N) : res (mtln N) :=
  x <- parser_run LA bs ws T1 dt1 ;;
  parser_run LA (left_bundles x) (left_networks x) T2 dt2.

End RunFields.
