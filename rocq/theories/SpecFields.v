(** What illuminating a line with an external field stores.  No proofs here. *)
From Coq Require Import String List Arith ZArith Bool.
From Verif Require Import Num Py Arr Utils Probes Dispersive Line Bundle Networks Mtln SpecLine SpecBundle Fields.
Import ListNotations.

Section SpecFields.
Context {N : num}.
Local Open Scope num_scope.
Variable LA : lapack N.
Variable integ : (N -> N) -> N -> N -> N.
Implicit Types f : field N.

(** value of an expression at point [p] *)
Definition at3 (e : expr N) (p : vec N) (v t : N) : N := e (get p 0) (get p 1) (get p 2) v t.
(** component of the field at [p] along the direction of [d] *)
Definition along f (d p : vec N) (v t : N) : N :=
  at3 (e_x f) p v t * (get d 0 / vnorm d) + at3 (e_y f) p v t * (get d 1 / vnorm d) + at3 (e_z f) p v t * (get d 2 / vnorm d).
(** [p] plus [q] minus half of [d] *)
Definition back (p d : vec N) : vec N := mk 3 (fun i => get p i - n1 / n2 * get d i).
(** longitudinal term of a cell that starts at [u] and ends at [u + d], of a conductor at [q] from it:
    difference of the tangential fields on the conductor and on the reference, half a cell BEFORE the cell's first node *)
Definition long_drive f (u d q : vec N) (v t : N) : N :=
  along f d (back (vadd u q) d) v t - along f d (back u d) v t.
(** transversal term of a node at [u]: along each axis, the integral of the field from [u] over the conductor's distance,
    weighted with the direction cosine *)
Definition cosine (q : vec N) (i : nat) : N := nabs (get q i) / vnorm (mk 3 (fun i => nabs (get q i))).
Definition tran_drive f (u q : vec N) (v t : N) : N :=
  cosine q 0 * integ (fun s => e_x f s (get u 1) (get u 2) v t) (get u 0) (get u 0 + get q 0)
  + cosine q 1 * integ (fun s => e_y f (get u 0) s (get u 2) v t) (get u 1) (get u 1 + get q 1)
  + cosine q 2 * integ (fun s => e_z f (get u 0) (get u 1) s v t) (get u 2) (get u 2 + get q 2).

(** functions stored for conductor [c] and cell [k] / node [k] *)
Definition eLong (s : core N) (c k : nat) : N -> N := nth k (nth c (k_eL s) []) (fun _ => n0).
Definition eTran (s : core N) (c k : nat) : N -> N := nth k (nth c (k_eT s) []) (fun _ => n0).
(** the arrays have one entry per conductor and cell (node) *)
Definition lit_arrays (s : core N) : Prop :=
  length (k_eL s) = k_n s /\ length (k_eT s) = k_n s /\
  forall c, (c < k_n s)%nat -> length (nth c (k_eL s) []) = k_N s /\ length (nth c (k_eT s) []) = S (k_N s).

(** cells illuminated: all of them, or from the node nearest to the first given point up to the node nearest to the
    second one, that one excluded for a line and included for a bundle *)
Definition first_lit (u : mat N) (loc : list (vec N)) : nat := match loc with a :: _ :: _ => nearest u a | _ => 0 end.
Definition after_lit (closed : bool) (u : mat N) (cells : nat) (loc : list (vec N)) : nat :=
  match loc with [] => cells | _ :: b :: _ => if closed then S (nearest u b) else nearest u b | [_] => 0 end.
Definition is_lit (closed : bool) (u : mat N) (cells : nat) (loc : list (vec N)) (k : nat) : Prop :=
  (first_lit u loc <= k)%nat /\ (k < after_lit closed u cells loc)%nat.

(** the largest phase velocity in cell [k] *)
Definition speed_at (s : core N) (k : nat) (v : N) : Prop := vmax (nth k (get_phase_velocities LA s) []) = Ok v.

(** [illuminated closed n u du s f dist loc s']: [s'] is [s] with the terms of the field [f] on its first [n] conductors *)
Definition illuminated (closed : bool) (n : nat) (u du : mat N) (s : core N) f (dist : ten N) (loc : list (vec N)) (s' : core N) : Prop :=
  let cells := k_N s in let lit := is_lit closed u cells loc in let last := (after_lit closed u cells loc - 1)%nat in
  s' = set_fields s (k_eL s') (k_eT s') /\ lit_arrays s' /\
  (forall c k, ((n <= c)%nat \/ ~ lit k) -> eLong s' c k = eLong s c k) /\
  (forall c k, (c < n)%nat -> lit k -> exists v, speed_at s k v /\
     forall t, eLong s' c k t = long_drive f (nth k u []) (nth k du []) (nth k (nth c dist []) []) v t) /\
  (forall c k, ((n <= c)%nat \/ (~ lit k /\ k <> cells)) -> eTran s' c k = eTran s c k) /\
  (forall c k, (c < n)%nat -> lit k -> k <> cells -> exists v, speed_at s k v /\
     forall t, eTran s' c k t = tran_drive f (nth k u []) (nth k (nth c dist []) []) v t) /\
  (* the last node: its own distances, but the position of the node before the last illuminated cell *)
  (forall c, (c < n)%nat -> exists v, speed_at s (cells - 1) v /\
     forall t, eTran s' c cells t = tran_drive f (nth last u []) (nth cells (nth c dist []) []) v t).
End SpecFields.
