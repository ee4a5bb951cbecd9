(** An executable document: a shielded pair.  The shield is one conductor with a transfer impedance, the pair two
    coupled conductors inside it; resistors at the four ends, a ramp source on the shield. *)
From Coq Require Import String List Arith ZArith Bool Lia QArith.
From Verif Require Import Num Py Arr NumQ LapackQ Utils Probes Dispersive Line Bundle Networks Mtln SpecLine SpecBundle SpecNet Parser SpecParser ExampleQ.
Import ListNotations.
Local Open Scope string_scope.

Definition px_zt (dir : string) : ratmodel NumQ := @RatModel NumQ 1%Q 0%Q [] [] [] [] None dir.
Definition px_R (r : Q) : connector NumQ := @Connector NumQ "Conn_R" (Some r) None None [] None None None.
Definition px_multi : connector NumQ := @Connector NumQ "MultiwireConnector" None None None ["Conn_R"; "Conn_R"] (Some [50; 60]%Q) None None.
(** [zt]: the transfer impedance of the shield; [tt]: the terminations; [ll]: lumped elements; [sn]: the node of the source *)
Definition px_doc (zt : option (ratmodel NumQ)) (tt : list (list (list Z))) (ll : list lumped) (sn : Z) : doc NumQ := @Doc NumQ
  [(1%Z, [0; 0; 0]%Q); (2%Z, [0; 0; 4]%Q); (3%Z, [0; 0; 0]%Q); (4%Z, [0; 0; 4]%Q); (5%Z, [0; 0; 0]%Q); (6%Z, [0; 0; 4]%Q)]
  [(10, [1; 2]); (11, [3; 4]); (12, [5; 6])]%Z
  [(20, 1); (21, 3)]%Z
  [Cable "shield" 100 200 200 [10%Z] [4%nat]; Cable "pair" 101 201 201 [11%Z; 12%Z] [4%nat]]
  [@Wire NumQ 100 (@WFloat NumQ 1%Q) (@WFloat NumQ 1%Q) (@WFloat NumQ 0%Q) zt;
   @Wire NumQ 101 (@WMat NumQ [[2#1; 1#1]; [1#1; 2#1]]%Q) (@WMat NumQ [[2#3; -1#3]; [-1#3; 2#3]]%Q) (@WFloat NumQ 0%Q) None]
  [@Cmat NumQ 200 (px_R 1%Q) (Some (px_zt "in")) None; @Cmat NumQ 201 px_multi None None]
  [("b", NDict [(10%Z, NStr [11%Z; 12%Z])])]
  tt []
  [@Source NumQ "TerminalSource" "voltage" "ramp" [("amplitude", 1%Q : NumQ); ("t0", 1%Q : NumQ)] [sn] "" None]
  [] ll
  [Pdesc "probe" "voltage" [20%Z] None].
Definition px_terms : list (list (list Z)) := [[[1]]; [[3; 5]]; [[2]]; [[4; 6]]]%Z.
Definition px : doc NumQ := px_doc (Some (px_zt "in")) px_terms [] 20%Z.
(** Python's set of one name, or of two equal ones *)
Definition px_order (l : list string) : list string := nodup string_dec l.
Notation px_parse := (parse LQ junk junk px_order px) (only parsing).
Notation px_run := (parse_and_run LQ junk junk px_order px 3%Q 0%Q) (only parsing).
Lemma px_order_listing : set_listing px_order.
Proof. intros l. split; [apply NoDup_nodup|]. intros x. unfold px_order. apply nodup_In. Qed.
Lemma px_parses : okb (fun _ => true) px_parse = true.
Proof. vm_compute. reflexivity. Qed.
Lemma px_runs : okb (fun _ => true) px_run = true.
Proof. vm_compute. reflexivity. Qed.
(** the graph of the bundle *)
Definition px_tree : nested := NDict [(10%Z, NStr [11%Z; 12%Z])].
Definition px_graph : res (graph NumQ) := buildGraphFromConnections px px_tree.
Lemma px_graph_ok : okb (fun g => (length (g_vs g) =? 3)%nat && (length (g_es g) =? 2)%nat)%bool px_graph = true.
Proof. vm_compute. reflexivity. Qed.
Definition px_levels : res (list (list (mtl NumQ))) := g <- px_graph ;; build_levels LQ junk junk px_order px g.
Definition px_bundle : res (bundle NumQ) := ls <- px_levels ;; mtld_new ls "b".
(** the row of element 12 and the first edge *)
Lemma px_rows : okb (fun ls => okb (fun c => (c =? 1)%nat) (findConductorNumberInLevel px ls (Vertex 12%Z 1 "pair"))) px_levels = true.
Proof. vm_compute. reflexivity. Qed.
Lemma px_edge : okb (fun g : graph NumQ => okb (fun b => okb (fun _ => match nth_error (g_es g) 1 with Some (i, j, Some z) => (i =? 0)%nat && (j =? 2)%nat && String.eqb (rm_direction z) "in" && negb (@neqb NumQ (ndiv (rm_cte z) (divisor z)) n0) | _ => false end%bool)
   (e <- of_option KeyError (nth_error (g_es g) 1) ;; set_edge px g b e)) px_bundle) px_graph = true.
Proof. vm_compute. reflexivity. Qed.
(** terminations *)
Notation px_built := (buildBundles LQ junk junk px_order px) (only parsing).
Notation px_term t := (st <- px_built ;; termination_network px st (bt_bundles st) t) (only parsing).
Lemma px_term_ok : okb (fun lw => (fst lw =? 1)%nat) (px_term [[3; 5]]%Z) = true.
Proof. vm_compute. reflexivity. Qed.
(** the source on the first conductor of the pair, and the nodes of the pair listed in the opposite order *)
Definition px_swapped : doc NumQ := px_doc (Some (px_zt "in")) [[[1]]; [[5; 3]]; [[2]]; [[4; 6]]]%Z [] 21%Z.
Notation px_swapped_term := (st <- buildBundles LQ junk junk px_order px_swapped ;; termination_network px_swapped st (bt_bundles st) [[5%Z; 3%Z]]) (only parsing).
Definition index_of (w : network NumQ) (n : Z) : res nat := nd <- of_option KeyError (find_node w n) ;; Ok (nd_index nd).
Lemma px_swapped_ok : okb (fun lw : nat * network NumQ => okb (fun i3 => okb (fun i5 => Qeq_bool (@nSrc NumQ (snd lw) i3 (1#2)%Q) 0 && Qeq_bool (@nSrc NumQ (snd lw) i5 (1#2)%Q) (1#2))%bool (index_of (snd lw) 5%Z)) (index_of (snd lw) 3%Z)) px_swapped_term = true.
Proof. vm_compute. reflexivity. Qed.
Lemma px_swapped_level : okb (fun lw => (fst lw =? 1)%nat) px_swapped_term = true.
Proof. vm_compute. reflexivity. Qed.
Definition same_q (a b : Q) : bool := (Qnum a =? Qnum b)%Z && (Qden a =? Qden b)%positive.
Lemma same_q_eq a b : same_q a b = true -> a = b.
Proof. destruct a, b. unfold same_q. cbn. intros H. apply andb_true_iff in H as [H1 H2]. apply Z.eqb_eq in H1. apply Pos.eqb_eq in H2. congruence. Qed.
Lemma px_swapped_5 : getTerminalSourceInNode px_swapped 5%Z = Ok (TInt 0).
Proof. vm_compute. reflexivity. Qed.
Lemma px_swapped_3 : okb (fun s : tfun NumQ => match s with TFun f => same_q (f (1#2)%Q) (1#2)%Q | _ => false end) (getTerminalSourceInNode px_swapped 3%Z) = true.
Proof. vm_compute. reflexivity. Qed.
Lemma px_groups_ok : getNetworkList px px_terms = Ok [[[[1]]; [[3; 5]]]; [[[2]]; [[4; 6]]]]%Z.
Proof. vm_compute. reflexivity. Qed.
Lemma px_once_ok : okb (fun st => okb (fun lw => (fst lw =? 0)%nat) (termination_network px st (bt_bundles st) [[1%Z]]) &&
    okb (fun d => (length d =? 1)%nat) (level_networks (termination_network px st (bt_bundles st)) [[[1%Z]]; [[1%Z]]]))%bool px_built = true.
Proof. vm_compute. reflexivity. Qed.
(** lumped elements: on the shield only; on both cables *)
Definition px_lumped_one : doc NumQ := px_doc (Some (px_zt "in")) px_terms [Lumped "shield" 200 [1%Z] 0] 20%Z.
Definition px_lumped_all : doc NumQ := px_doc (Some (px_zt "in")) px_terms [Lumped "shield" 200 [1%Z] 0; Lumped "pair" 200 [3%Z] 1; Lumped "pair" 200 [3%Z] 0] 20%Z.
Lemma px_lumped_one_ok : okb (fun _ => true) (buildMTLfromLine LQ junk junk px_lumped_one "pair") = true.
Proof. vm_compute. reflexivity. Qed.
Lemma px_lumped_all_ok : okb (fun _ => true) (buildBundles LQ junk junk px_order px_lumped_all) = true.
Proof. vm_compute. reflexivity. Qed.
(** a shield without transfer impedance *)
Definition px_without : doc NumQ := px_doc None px_terms [] 20%Z.
Lemma px_without_raises : buildBundles LQ junk junk px_order px_without = Err AttributeError.
Proof. vm_compute. reflexivity. Qed.
(** a single node of the pair, whose connector is a multiwire one *)
Lemma px_single_ok : okb (fun _ => true) (px_term [[3%Z]]) = true.
Proof. vm_compute. reflexivity. Qed.
(** two cables in line, joined end to end *)
Definition px2 : doc NumQ := @Doc NumQ
  [(1%Z, [0; 0; 0]%Q); (2%Z, [0; 0; 4]%Q); (3%Z, [0; 0; 4]%Q); (4%Z, [0; 0; 8]%Q)]
  [(10, [1; 2]); (11, [3; 4])]%Z
  [(20, 1)]%Z
  [Cable "a" 100 200 200 [10%Z] [4%nat]; Cable "b" 100 200 200 [11%Z] [4%nat]]
  [@Wire NumQ 100 (@WFloat NumQ 1%Q) (@WFloat NumQ 1%Q) (@WFloat NumQ 0%Q) None]
  [@Cmat NumQ 200 (px_R 1%Q) None None]
  [("ba", NStr [10%Z]); ("bb", NStr [11%Z])]
  [[[1%Z]]; [[4%Z]]] [[[2; 3]]]%Z
  [@Source NumQ "TerminalSource" "voltage" "ramp" [("amplitude", 1%Q : NumQ); ("t0", 1%Q : NumQ)] [20%Z] "" None]
  [] [] [].
Lemma px2_junction_ok : okb (fun _ => true) (st <- buildBundles LQ junk junk px_order px2 ;; junction_network px2 st (bt_bundles st) [[2%Z; 3%Z]]) = true.
Proof. vm_compute. reflexivity. Qed.
