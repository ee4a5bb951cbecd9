(** Vocabulary of superposition in networks of lines: what it means that a network of lines is
    [al] times a second plus [be] times a third (same lines and circuits, combined state and
    drive).  No proofs here. *)
From Coq Require Import String List Arith ZArith Reals.
From Verif Require Import Num Py Arr NumR Utils Probes Dispersive Line Bundle Networks Mtln SpecLine SpecBundle SpecNet SpecMtln SpecCore SpecDyn.
Import ListNotations.
Local Open Scope R_scope.

(** three lists of the same length whose items are related position by position *)
Inductive Forall3 {A : Type} (P : A -> A -> A -> Prop) : list A -> list A -> list A -> Prop :=
| F3_nil : Forall3 P [] [] []
| F3_cons x y z l m n : P x y z -> Forall3 P l m n -> Forall3 P (x :: l) (y :: m) (z :: n).

(** two bundles with the same geometry, matrices, step and dispersive elements *)
Record same_bundle (b b' : bundle NumR) : Prop := {
  sb_n : b_conductors b' = b_conductors b; sb_N : b_cells b' = b_cells b;
  sb_h : k_h (b_core b') = k_h (b_core b); sb_dt : k_dt (b_core b') = k_dt (b_core b);
  sb_l : k_l (b_core b') = k_l (b_core b); sb_r : k_r (b_core b') = k_r (b_core b);
  sb_c : k_c (b_core b') = k_c (b_core b); sb_g : k_g (b_core b') = k_g (b_core b);
  sb_dn : ds_n (b_disp b') = ds_n (b_disp b); sb_dx : ds_nx (b_disp b') = ds_nx (b_disp b);
  sb_du : ds_u (b_disp b') = ds_u (b_disp b); sb_ddt : ds_dt (b_disp b') = ds_dt (b_disp b);
  sb_d : ds_d (b_disp b') = ds_d (b_disp b); sb_e : ds_e (b_disp b') = ds_e (b_disp b);
  sb_q1 : ds_q1 (b_disp b') = ds_q1 (b_disp b); sb_q2 : ds_q2 (b_disp b') = ds_q2 (b_disp b);
  sb_q3 : ds_q3 (b_disp b') = ds_q3 (b_disp b);
  sb_s1 : ds_q1sum (b_disp b') = ds_q1sum (b_disp b); sb_s2 : ds_q2sum (b_disp b') = ds_q2sum (b_disp b)
}.

(** two circuits with the same nodes, line ends and components *)
Record same_circuit (w w' : network NumR) : Prop := {
  sc_nodes : w_nodes w' = w_nodes w; sc_ns : w_ns w' = w_ns w; sc_conns : w_conns w' = w_conns w;
  sc_cs : w_csize w' = w_csize w; sc_c : w_c w' = w_c w; sc_dx : w_dx w' = w_dx w;
  sc_P1 : w_P1 w' = w_P1 w; sc_Ps : w_Ps w' = w_Ps w; sc_M : w_M w' = w_M w; sc_N1 : w_N1 w' = w_N1 w;
  sc_Ns : w_Ns w' = w_Ns w; sc_O : w_O w' = w_O w; sc_Q1 : w_Q1 w' = w_Q1 w; sc_Qs : w_Qs w' = w_Qs w
}.

Section Super.
Variables al be : R.
Notation lin := (lin al be).
Notation qlin := (qlin al be).

(** [c = al a + be b]: voltages, currents, memories of dispersive elements, external fields *)
Record bundle_sum (a b c : bundle NumR) : Prop := {
  bs_ab : same_bundle a b; bs_ac : same_bundle a c;
  bs_v : forall j k, (j < b_conductors a)%nat -> (k <= b_cells a)%nat -> lin (b_volt a j k) (b_volt b j k) (b_volt c j k);
  bs_i : forall j k, (j < b_conductors a)%nat -> (k < b_cells a)%nat -> lin (b_curr a j k) (b_curr b j k) (b_curr c j k);
  bs_q : forall j k, (j < b_conductors a)%nat -> (k < b_cells a)%nat ->
           qlin (dPhi (b_disp a) k j) (dPhi (b_disp b) k j) (dPhi (b_disp c) k j);
  bs_T : forall j k t, (j < b_conductors a)%nat -> (k <= b_cells a)%nat ->
           lin (kTran (b_core a) j k t) (kTran (b_core b) j k t) (kTran (b_core c) j k t);
  bs_L : forall j k t, (j < b_conductors a)%nat -> (k < b_cells a)%nat ->
           lin (kLong (b_core a) j k t) (kLong (b_core b) j k t) (kLong (b_core c) j k t)
}.

(** [w = al u + be v]: node voltages (and those one step before), currents, state variables,
    sources, fields at the nodes *)
Record circuit_sum (u v w : network NumR) : Prop := {
  cs_uv : same_circuit u v; cs_uw : same_circuit u w;
  cs_V : forall i, (i < w_nodes u)%nat -> lin (nV u i) (nV v i) (nV w i);
  cs_P : forall i, (i < w_nodes u)%nat -> lin (nVprev u i) (nVprev v i) (nVprev w i);
  cs_I : forall i, (i < w_nodes u)%nat -> lin (nI u i) (nI v i) (nI w i);
  cs_X : forall i, (i < w_ns u)%nat -> lin (nX u i) (nX v i) (nX w i);
  cs_S : forall i t, (i < w_nodes u)%nat -> lin (nSrc u i t) (nSrc v i t) (nSrc w i t);
  cs_F : forall i t, (i < w_nodes u)%nat -> lin (nField u i t) (nField v i t) (nField w i t)
}.

(** a named bundle, a level of a tiered network *)
Definition named_sum {A B : Type} (P : B -> B -> B -> Prop) (p q r : A * B) : Prop :=
  fst q = fst p /\ fst r = fst p /\ P (snd p) (snd q) (snd r).

(** the same for bundles that also have the same name and the same levels (as registered in a network of lines) *)
Definition bundle_sum_named (a b c : bundle NumR) : Prop :=
  b_name b = b_name a /\ b_name c = b_name a /\ b_cil b = b_cil a /\ b_cil c = b_cil a /\ bundle_sum a b c.

(** [z = al x + be y] *)
Record lines_sum (x y z : mtln NumR) : Prop := {
  ls_bundles : Forall3 (named_sum bundle_sum) (t_bundles x) (t_bundles y) (t_bundles z);
  ls_nets : Forall3 (Forall3 (named_sum circuit_sum)) (t_networks x) (t_networks y) (t_networks z);
  ls_dt : t_dt y = t_dt x /\ t_dt z = t_dt x;
  ls_time : t_time y = t_time x /\ t_time z = t_time x
}.

(** the same call with the combination of two time functions in series *)
Inductive drive_sum : tfun NumR -> tfun NumR -> tfun NumR -> Prop :=
| dr_none : drive_sum (@TInt NumR 0) (@TInt NumR 0) (@TInt NumR 0)
| dr_fun f g : drive_sum (@TFun NumR f) (@TFun NumR g) (@TFun NumR (fun t => al * f t + be * g t)).
Inductive call_sum : call NumR -> call NumR -> call NumR -> Prop :=
| ca_R id R f g h : drive_sum f g h -> call_sum (@GroundR NumR id R f) (@GroundR NumR id R g) (@GroundR NumR id R h)
| ca_L id R L C f g h : drive_sum f g h -> call_sum (@GroundLCpRs NumR id R L C f) (@GroundLCpRs NumR id R L C g) (@GroundLCpRs NumR id R L C h)
| ca_C id C f g h : drive_sum f g h -> call_sum (@GroundC NumR id C f) (@GroundC NumR id C g) (@GroundC NumR id C h)
| ca_S id : call_sum (@GroundShort NumR id) (@GroundShort NumR id) (@GroundShort NumR id)
| ca_B i j R f g h : drive_sum f g h -> call_sum (@Branch NumR i j R f) (@Branch NumR i j R g) (@Branch NumR i j R h)
| ca_2 i j : call_sum (@Short NumR i j) (@Short NumR i j) (@Short NumR i j).
End Super.

(** at rest and not driven *)
Record bundle_rest (b : bundle NumR) : Prop := {
  br_v : forall j k, (j < b_conductors b)%nat -> (k <= b_cells b)%nat -> b_volt b j k = 0;
  br_i : forall j k, (j < b_conductors b)%nat -> (k < b_cells b)%nat -> b_curr b j k = 0;
  br_q : forall j k p, (j < b_conductors b)%nat -> (k < b_cells b)%nat -> In p (dPhi (b_disp b) k j) -> p = (0, 0);
  br_T : forall j k t, (j < b_conductors b)%nat -> (k <= b_cells b)%nat -> kTran (b_core b) j k t = 0;
  br_L : forall j k t, (j < b_conductors b)%nat -> (k < b_cells b)%nat -> kLong (b_core b) j k t = 0
}.
Record circuit_rest (w : network NumR) : Prop := {
  cr_V : forall i, (i < w_nodes w)%nat -> nV w i = 0;
  cr_P : forall i, (i < w_nodes w)%nat -> nVprev w i = 0;
  cr_I : forall i, (i < w_nodes w)%nat -> nI w i = 0;
  cr_X : forall i, (i < w_ns w)%nat -> nX w i = 0;
  cr_S : forall i t, (i < w_nodes w)%nat -> nSrc w i t = 0;
  cr_F : forall i t, (i < w_nodes w)%nat -> nField w i t = 0
}.
Definition lines_rest (x : mtln NumR) : Prop :=
  Forall (fun kb => bundle_rest (snd kb)) (t_bundles x) /\ Forall circuit_rest (nets x).

(** the solver accepts only systems with one solution (numpy.linalg.solve raises LinAlgError on
    a singular matrix) *)
Definition regular (LA : lapack NumR) : Prop :=
  forall n A b x, la_solve LA n A b = Some x ->
  forall y : nat -> R, (forall i, (i < n)%nat -> @sumn NumR n (fun k => get2 A i k * y k) = 0) -> forall k, (k < n)%nat -> y k = 0.

(** a call that puts no source in series *)
Definition sourceless (c : call NumR) : Prop :=
  match c with
  | GroundR _ _ V | GroundLCpRs _ _ _ _ V | GroundC _ _ V | Branch _ _ _ V => V = @TInt NumR 0
  | GroundShort _ | Short _ _ => True
  end.
