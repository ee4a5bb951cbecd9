(** Vocabulary of time invariance and causality of networks of lines.  No proofs here. *)
From Coq Require Import String List Arith ZArith Reals.
From Verif Require Import Num Py Arr NumR Utils Dispersive Line Bundle Networks Mtln SpecLine SpecBundle SpecNet SpecMtln SpecCore SpecDyn SpecSuper.
Import ListNotations.
Local Open Scope R_scope.

(** two lists of named items related one by one *)
Definition matched {A B : Type} (P : B -> B -> Prop) (l m : list (A * B)) : Prop := Forall2 (fun p q => fst q = fst p /\ P (snd p) (snd q)) l m.

(** the same voltages, currents and memories of dispersive elements *)
Record bundle_same_state (a b : bundle NumR) : Prop := {
  ss_n : b_conductors b = b_conductors a; ss_N : b_cells b = b_cells a;
  ss_v : forall j k, (j < b_conductors a)%nat -> (k <= b_cells a)%nat -> b_volt b j k = b_volt a j k;
  ss_i : forall j k, (j < b_conductors a)%nat -> (k < b_cells a)%nat -> b_curr b j k = b_curr a j k;
  ss_q : forall j k, (j < b_conductors a)%nat -> (k < b_cells a)%nat -> dPhi (b_disp b) k j = dPhi (b_disp a) k j
}.
(** the same node voltages (and those one step before), currents and state variables *)
Record circuit_same_state (u v : network NumR) : Prop := {
  su_nodes : w_nodes v = w_nodes u; su_ns : w_ns v = w_ns u;
  su_V : forall i, (i < w_nodes u)%nat -> nV v i = nV u i;
  su_P : forall i, (i < w_nodes u)%nat -> nVprev v i = nVprev u i;
  su_I : forall i, (i < w_nodes u)%nat -> nI v i = nI u i;
  su_X : forall i, (i < w_ns u)%nat -> nX v i = nX u i
}.
Definition same_state (x y : mtln NumR) : Prop :=
  matched bundle_same_state (t_bundles x) (t_bundles y) /\ Forall2 (matched circuit_same_state) (t_networks x) (t_networks y).

(** [y] is [x] (the same lines, circuits and state) with other fields and sources: at each time
    [t] in [seen], what acts on [x] at [t] acts on [y] at [t + tau] *)
Section Driven.
Variables (tau : R) (seen : R -> Prop).
Record bundle_driven (a b : bundle NumR) : Prop := {
  bd_same : same_bundle a b; bd_state : bundle_same_state a b;
  bd_T : forall j k t, seen t -> (j < b_conductors a)%nat -> (k <= b_cells a)%nat -> kTran (b_core b) j k (t + tau) = kTran (b_core a) j k t;
  bd_L : forall j k t, seen t -> (j < b_conductors a)%nat -> (k < b_cells a)%nat -> kLong (b_core b) j k (t + tau) = kLong (b_core a) j k t
}.
Record circuit_driven (u v : network NumR) : Prop := {
  cd_same : same_circuit u v; cd_state : circuit_same_state u v;
  cd_S : forall i t, seen t -> (i < w_nodes u)%nat -> nSrc v i (t + tau) = nSrc u i t;
  cd_F : forall i t, seen t -> (i < w_nodes u)%nat -> nField v i (t + tau) = nField u i t
}.
Record driven_alike (x y : mtln NumR) : Prop := {
  da_bundles : matched bundle_driven (t_bundles x) (t_bundles y);
  da_nets : Forall2 (matched circuit_driven) (t_networks x) (t_networks y);
  da_dt : t_dt y = t_dt x; da_time : t_time y = t_time x
}.
(** the same calls, what each puts in series driven alike *)
Inductive drive_alike : tfun NumR -> tfun NumR -> Prop :=
| dl_none : drive_alike (@TInt NumR 0) (@TInt NumR 0)
| dl_fun f g : (forall t, seen t -> g (t + tau) = f t) -> drive_alike (@TFun NumR f) (@TFun NumR g).
Inductive call_alike : call NumR -> call NumR -> Prop :=
| cl_R id R f g : drive_alike f g -> call_alike (@GroundR NumR id R f) (@GroundR NumR id R g)
| cl_L id R L C f g : drive_alike f g -> call_alike (@GroundLCpRs NumR id R L C f) (@GroundLCpRs NumR id R L C g)
| cl_C id C f g : drive_alike f g -> call_alike (@GroundC NumR id C f) (@GroundC NumR id C g)
| cl_S id : call_alike (@GroundShort NumR id) (@GroundShort NumR id)
| cl_B i j R f g : drive_alike f g -> call_alike (@Branch NumR i j R f) (@Branch NumR i j R g)
| cl_2 i j : call_alike (@Short NumR i j) (@Short NumR i j).
(** bundles with the same name and the same levels, driven alike *)
Definition bundle_alike (a b : bundle NumR) : Prop := b_name b = b_name a /\ b_cil b = b_cil a /\ bundle_driven a b.
End Driven.
(** every field and source of [y] is that of [x] delayed by [tau] *)
Definition lines_delayed (tau : R) (x y : mtln NumR) : Prop := driven_alike tau (fun _ => True) x y.
(** [x] and [y] differ only in fields and sources at and after [t1] *)
Definition alike_before (t1 : R) (x y : mtln NumR) : Prop := driven_alike 0 (fun t => t < t1) x y.

(** all voltages, currents, memories and state variables are zero *)
Record bundle_still (b : bundle NumR) : Prop := {
  st_v : forall j k, (j < b_conductors b)%nat -> (k <= b_cells b)%nat -> b_volt b j k = 0;
  st_i : forall j k, (j < b_conductors b)%nat -> (k < b_cells b)%nat -> b_curr b j k = 0;
  st_q : forall j k p, (j < b_conductors b)%nat -> (k < b_cells b)%nat -> In p (dPhi (b_disp b) k j) -> p = (0, 0)
}.
Record circuit_still (w : network NumR) : Prop := {
  sn_V : forall i, (i < w_nodes w)%nat -> nV w i = 0; sn_P : forall i, (i < w_nodes w)%nat -> nVprev w i = 0;
  sn_I : forall i, (i < w_nodes w)%nat -> nI w i = 0; sn_X : forall i, (i < w_ns w)%nat -> nX w i = 0
}.
Definition lines_still (x : mtln NumR) : Prop := Forall (fun kb => bundle_still (snd kb)) (t_bundles x) /\ Forall circuit_still (nets x).

(** nothing acts on [x] before [t1] *)
Record bundle_off (t1 : R) (b : bundle NumR) : Prop := {
  off_T : forall j k t, t < t1 -> (j < b_conductors b)%nat -> (k <= b_cells b)%nat -> kTran (b_core b) j k t = 0;
  off_L : forall j k t, t < t1 -> (j < b_conductors b)%nat -> (k < b_cells b)%nat -> kLong (b_core b) j k t = 0
}.
Record circuit_off (t1 : R) (w : network NumR) : Prop := {
  off_S : forall i t, t < t1 -> (i < w_nodes w)%nat -> nSrc w i t = 0;
  off_F : forall i t, t < t1 -> (i < w_nodes w)%nat -> nField w i t = 0
}.
Definition lines_off (t1 : R) (x : mtln NumR) : Prop := Forall (fun kb => bundle_off t1 (snd kb)) (t_bundles x) /\ Forall (circuit_off t1) (nets x).

(** no element of the bundle stores more than one pole: true of every bundle without dispersive elements *)
Definition single_poled (b : bundle NumR) : Prop :=
  (forall k i j, length (qget3 (ds_q1 (b_disp b)) k i j) = 1%nat /\ length (qget3 (ds_q2 (b_disp b)) k i j) = 1%nat /\ length (qget3 (ds_q3 (b_disp b)) k i j) = 1%nat) /\
  (forall k j, length (qget2 (ds_phi (b_disp b)) k j) = 1%nat).
