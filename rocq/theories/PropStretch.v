(** Property C117: a stretch of a line cannot know at once what lies outside it.  Any arithmetic.
    [reaches LA x T dt n x']: run_until(T, dt) called on [x] is in state [x'] after [n] steps.
    The words of the statements are defined in SpecStretch.v. *)
From Coq Require Import String List Arith ZArith Bool Lia QArith.
From Verif Require Import Num Py Arr NumQ LapackQ Utils Line Bundle Networks Mtln SpecLine SpecBundle SpecNet SpecMtln SpecStretch StretchFacts ExampleStretch.
Import ListNotations.
Local Open Scope nat_scope.

(** Two networks of lines, each with a bundle.  The nodes [lo..hi] of one bundle and
    [lo + d .. hi + d] of the other are stretches of the same cable and hold the same voltages,
    currents and memories.  Everything else may differ: the lengths of the bundles, their other
    parts, the circuits at their ends, the other lines and circuits.  After [n] steps the two
    stretches, less [n] cells at either side, still hold the same. *)
Theorem C117_window (N : num) (LA : lapack N) x y T T' dt n x' y' na nb (a b : bundle N) d lo hi : lines_net LA x -> lines_net LA y ->
  bundle_of x na = Some a -> bundle_of y nb = Some b -> same_cable a b d lo hi -> same_waves a b d lo hi -> t_time y = t_time x -> same_step x y a b dt ->
  reaches LA x T dt n x' -> reaches LA y T' dt n y' ->
  exists a' b', bundle_of x' na = Some a' /\ bundle_of y' nb = Some b' /\ b_conductors a' = b_conductors a /\ same_waves a' b' d (lo + n) (hi - n).
Proof. exact (stretch_run LA x y T T' dt n x' y' na nb a b d lo hi). Qed.
Print Assumptions C117_window.
(** One bundle registered in two networks of lines, whatever circuits its ends and whatever other
    lines the two have: after [n] steps the nodes at least [n] cells from either end have the
    same voltages and the cells between them the same currents. *)
Theorem C117_ends (N : num) (LA : lapack N) x y T T' dt n x' y' na nb (b : bundle N) : lines_net LA x -> lines_net LA y ->
  bundle_of x na = Some b -> bundle_of y nb = Some b -> t_time y = t_time x -> neqb dt n0 = false \/ t_dt y = t_dt x ->
  reaches LA x T dt n x' -> reaches LA y T' dt n y' ->
  exists bx by_, bundle_of x' na = Some bx /\ bundle_of y' nb = Some by_ /\
    forall c k, c < b_conductors b -> n <= k ->
      (k + n <= b_cells b -> b_volt by_ c k = b_volt bx c k) /\ (k + n < b_cells b -> b_curr by_ c k = b_curr bx c k).
Proof.
  intros Lx Ly Bx By Et Ed Rx Ry.
  assert (C : same_cable b b 0 0 (b_cells b)).
  { split; try reflexivity; try lia; intros; rewrite Nat.add_0_r; auto. }
  assert (W : same_waves b b 0 0 (b_cells b)) by (split; intros; rewrite Nat.add_0_r; reflexivity).
  assert (St : same_step x y b b dt) by (destruct Ed; [left|right]; auto).
  destruct (stretch_run LA x y T T' dt n x' y' na nb b b 0 0 (b_cells b) Lx Ly Bx By C W Et St Rx Ry) as (a' & b' & Ea & Eb & En & [Wv Wi _]).
  exists a', b'. split; [exact Ea|]. split; [exact Eb|]. intros c k Hc Hk. rewrite En in Wv, Wi. specialize (Wv k c). specialize (Wi k c). rewrite Nat.add_0_r in Wv, Wi.
  split; intros H; [apply Wv|apply Wi]; auto; lia.
Qed.
Print Assumptions C117_ends.
(** A line of four cells driven at its near end and one of six cells with no source: node [k] of
    the first corresponds to node [k + 1] of the second.  After two steps this leaves node 2 of
    the first, which has the voltage of node 3 of the second.  The bound is sharp: node 1 has not
    that of node 2. *)
Example C117_lines : exists (x y : mtln NumQ) (a b : bundle NumQ) x' y' a' b',
  lines_net LQ x /\ lines_net LQ y /\ bundle_of x "b0" = Some a /\ bundle_of y "b0" = Some b /\ b_conductors a = 1%nat /\ b_cells a = 4%nat /\ b_cells b = 6%nat /\
  same_cable a b 1 0 4 /\ same_waves a b 1 0 4 /\ t_time y = t_time x /\ same_step x y a b (1#2)%Q /\ reaches LQ x 4%Q (1#2)%Q 2 x' /\ reaches LQ y 4%Q (1#2)%Q 2 y' /\
  bundle_of x' "b0" = Some a' /\ bundle_of y' "b0" = Some b' /\ b_volt b' 0 2 <> b_volt a' 0 1 /\ b_volt b' 0 3 = b_volt a' 0 2.
Proof.
  destruct stretch_example as (x & y & a & b & x' & y' & a' & b' & Lx & Ly & Ba & Bb & Hn & Ha & Hb & C & W & Et & St & Rx & Ry & Ba' & Bb' & D).
  exists x, y, a, b, x', y', a', b'. do 16 (split; [assumption|]).
  destruct (stretch_run LQ x y 4%Q 4%Q (1#2)%Q 2 x' y' "b0" "b0" a b 1 0 4 Lx Ly Ba Bb C W Et St Rx Ry) as (a2 & b2 & Ea & Eb & En & [Wv _ _]).
  rewrite Ba' in Ea. rewrite Bb' in Eb. injection Ea as <-. injection Eb as <-. apply (Wv 2%nat 0%nat); [lia|]. rewrite En, Hn. lia.
Qed.
