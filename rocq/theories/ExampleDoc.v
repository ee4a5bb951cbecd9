(** An executable document with cable ends, a distributed source and two probes: a shielded pair. *)
From Coq Require Import String List Arith ZArith Bool Lia QArith.
From Verif Require Import Num Py Arr NumQ LapackQ Utils Probes Dispersive Line Bundle Networks Mtln SpecLine SpecBundle SpecNet SpecField Parser SpecParser SpecDoc ExampleQ ExampleParser.
Import ListNotations.
Local Open Scope string_scope.

(** [ee]: the cable ends; [kk]: the conductor of the source *)
Definition dx_doc (ee : list cend) (kk : option nat) : doc NumQ := @Doc NumQ
  [(1%Z, [0; 0; 0]%Q); (2%Z, [0; 0; 4]%Q); (3%Z, [0; 0; 0]%Q); (4%Z, [0; 0; 4]%Q); (5%Z, [0; 0; 0]%Q); (6%Z, [0; 0; 4]%Q)]
  [(10, [1; 2]); (11, [3; 4]); (12, [5; 6])]%Z
  [(20, 1); (21, 3); (22, 4)]%Z
  [Cable "shield" 100 200 200 [10%Z] [4%nat]; Cable "pair" 101 201 201 [11%Z; 12%Z] [4%nat]]
  [@Wire NumQ 100 (@WFloat NumQ 1%Q) (@WFloat NumQ 1%Q) (@WFloat NumQ 0%Q) (Some (px_zt "in"));
   @Wire NumQ 101 (@WMat NumQ [[2#1; 1#1]; [1#1; 2#1]]%Q) (@WMat NumQ [[2#3; -1#3]; [-1#3; 2#3]]%Q) (@WVec NumQ [1#2; 1#4]%Q) None]
  [@Cmat NumQ 200 (px_R 1%Q) (Some (px_zt "in")) (Some (px_zt "in")); @Cmat NumQ 201 px_multi None None]
  [("b", NDict [(10%Z, NStr [11%Z; 12%Z])])]
  [] []
  [@Source NumQ "DistributedSource" "localized efield drive" "ramp" [("amplitude", 1%Q : NumQ); ("t0", 1%Q : NumQ)] [21; 22]%Z "pair" kk]
  ee []
  [Pdesc "one" "voltage" [20%Z] None; Pdesc "two" "current" [22%Z] (Some "pair")].
(** ends on the shield, near and far *)
Definition dx : doc NumQ := dx_doc [Cend [1%Z] 200; Cend [2%Z] 200] (Some 0%nat).
Notation dx_parse := (parse LQ junk junk px_order dx) (only parsing).
(** one bundle of three conductors with two probes; the source on the first conductor of the pair drives the shield *)
Definition q_at (b : bundle NumQ) (c k : nat) (t : Q) : Q := @field_at NumQ b c k t.
Lemma dx_ok : okb (fun p : parsed NumQ => match ps_bundles p with
  | [b] => (length (b_probes b) =? 2)%nat && (b_conductors b =? 3)%nat && (b_cells b =? 4)%nat && same_q (q_at b 0 2 1%Q) 2%Q && same_q (q_at b 1 2 1%Q) 0%Q && same_q (q_at b 2 2 1%Q) 0%Q
  | _ => false end)%bool dx_parse = true.
Proof. vm_compute. reflexivity. Qed.
Lemma dx_names : NoDup (map cb_name (dc_cables dx)).
Proof. repeat constructor; cbn; intuition congruence. Qed.
(** the shield's transfer impedance at its near end, before and after *)
Notation dx_graph := (buildGraphFromConnections dx px_tree) (only parsing).
(** a cable end on the second conductor of the pair *)
Definition dx_second : doc NumQ := dx_doc [Cend [5%Z] 200] None.
Lemma dx_second_raises : parse LQ junk junk px_order dx_second = Err IndexError.
Proof. vm_compute. reflexivity. Qed.
