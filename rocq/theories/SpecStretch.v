(** Vocabulary of the theorem that a stretch of a line cannot know at once what lies outside it.
    No proofs here. *)
From Coq Require Import String List Arith ZArith Bool.
From Verif Require Import Num Py Arr Probes Dispersive Line Bundle Networks Mtln SpecLine SpecBundle SpecMtln.
Import ListNotations.

Section SpecStretch.
Context {N : num}.

(** external fields of a bundle: across, at node [k], and along, in cell [k] *)
Definition b_tran (b : bundle N) (c k : nat) (t : N) : N := nth k (nth c (k_eT (b_core b)) []) (fun _ => n0) t.
Definition b_long (b : bundle N) (c k : nat) (t : N) : N := nth k (nth c (k_eL (b_core b)) []) (fun _ => n0) t.

(** Nodes [lo..hi] of bundle [a] and nodes [lo + d .. hi + d] of bundle [b] are stretches of the
    same cable: the same geometry, matrices, dispersive elements and fields.  The bundles may have
    other lengths and differ in any way elsewhere. *)
Record same_cable (a b : bundle N) (d lo hi : nat) : Prop := {
  sy_n : b_conductors b = b_conductors a;
  sy_a : (hi <= b_cells a)%nat; sy_b : (hi + d <= b_cells b)%nat;
  (* cells *)
  sy_h : forall k i j, (lo <= k < hi)%nat -> (i < b_conductors a)%nat -> (j < b_conductors a)%nat -> get3 (k_h (b_core b)) (k + d) i j = get3 (k_h (b_core a)) k i j;
  sy_l : forall k i j, (lo <= k < hi)%nat -> (i < b_conductors a)%nat -> (j < b_conductors a)%nat -> get3 (k_l (b_core b)) (k + d) i j = get3 (k_l (b_core a)) k i j;
  sy_r : forall k i j, (lo <= k < hi)%nat -> (i < b_conductors a)%nat -> (j < b_conductors a)%nat -> get3 (k_r (b_core b)) (k + d) i j = get3 (k_r (b_core a)) k i j;
  sy_D : forall k i j, (lo <= k < hi)%nat -> (i < b_conductors a)%nat -> (j < b_conductors a)%nat ->
    dD (b_disp b) (k + d) i j = dD (b_disp a) k i j /\ dE (b_disp b) (k + d) i j = dE (b_disp a) k i j /\
    dP1 (b_disp b) (k + d) i j = dP1 (b_disp a) k i j /\ dP2 (b_disp b) (k + d) i j = dP2 (b_disp a) k i j /\ dP3 (b_disp b) (k + d) i j = dP3 (b_disp a) k i j;
  sy_L : forall k c t, (lo <= k < hi)%nat -> (c < b_conductors a)%nat -> b_long b c (k + d) t = b_long a c k t;
  (* nodes *)
  sy_c : forall k i j, (lo <= k <= hi)%nat -> (i < b_conductors a)%nat -> (j < b_conductors a)%nat -> get3 (k_c (b_core b)) (k + d) i j = get3 (k_c (b_core a)) k i j;
  sy_g : forall k i j, (lo <= k <= hi)%nat -> (i < b_conductors a)%nat -> (j < b_conductors a)%nat -> get3 (k_g (b_core b)) (k + d) i j = get3 (k_g (b_core a)) k i j;
  sy_T : forall k c t, (lo <= k <= hi)%nat -> (c < b_conductors a)%nat -> b_tran b c (k + d) t = b_tran a c k t
}.
(** and they hold the same voltages, currents and memories of dispersive elements *)
Record same_waves (a b : bundle N) (d lo hi : nat) : Prop := {
  sw_v : forall k c, (lo <= k <= hi)%nat -> (c < b_conductors a)%nat -> b_volt b c (k + d) = b_volt a c k;
  sw_i : forall k c, (lo <= k < hi)%nat -> (c < b_conductors a)%nat -> b_curr b c (k + d) = b_curr a c k;
  sw_q : forall k c, (lo <= k < hi)%nat -> (c < b_conductors a)%nat -> dPhi (b_disp b) (k + d) c = dPhi (b_disp a) k c
}.
(** the two runs have the same step: the one given, or else the same one for the two networks of
    lines and for the two bundles *)
Definition same_step (x y : mtln N) (a b : bundle N) (dt : N) : Prop :=
  neqb dt n0 = false \/ (t_dt y = t_dt x /\ k_dt (b_core b) = k_dt (b_core a)).
End SpecStretch.
