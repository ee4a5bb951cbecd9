(** Executable runs of the two documents of ExampleParser: twice, and with a field. *)
From Coq Require Import String List Arith ZArith Bool Lia QArith.
From Verif Require Import Num Py Arr NumQ LapackQ Utils Probes Dispersive Line Bundle Networks Mtln SpecLine SpecBundle SpecNet SpecMtln Fields SpecFields Parser SpecParser RunFields SpecRun ExampleQ ExampleParser FieldsProps.
Import ListNotations.
Local Open Scope string_scope.

Lemma q_zero : @zero_is_zero NumQ.
Proof. reflexivity. Qed.
(** a shielded pair: the second run fails *)
Notation px_twice := (p <- px_parse ;; match parser_run LQ (ps_bundles p) (ps_networks p) 3%Q 0%Q with Ok _ => parser_run_twice LQ (ps_bundles p) (ps_networks p) 3%Q 0%Q 3%Q 0%Q | Err _ => Err KeyError end) (only parsing).
Lemma px_twice_fails : px_twice = Err IndexError.
Proof. vm_compute. reflexivity. Qed.
(** two cables in line: the second run goes on *)
Notation px2_parse := (parse LQ junk junk px_order px2) (only parsing).
Definition v_of (x : mtln NumQ) (name : string) (c k : nat) : Q := match dget String.eqb name (t_bundles x) with Some b => b_volt b c k | None => 0%Q end.
Notation px2_once p := (parser_run LQ (ps_bundles p) (ps_networks p) 3%Q 0%Q) (only parsing).
Notation px2_twice p := (parser_run_twice LQ (ps_bundles p) (ps_networks p) 3%Q 0%Q 3%Q 0%Q) (only parsing).
Definition px2_test : bool := okb (fun p => (okb (fun x => okb (fun y => negb (Qeq_bool (v_of x "ba" 0 2) (v_of y "ba" 0 2))) (px2_twice p)) (px2_once p) &&
  forallb (forallb (fun lw => (fst lw =? 0)%nat)) (ps_networks p))%bool) px2_parse.
Lemma px2_test_ok : px2_test = true.
Proof. vm_compute. reflexivity. Qed.
(** a field along the cables, growing with time; the quadrature takes the value at the lower end *)
Definition qinteg (f : NumQ -> NumQ) (a b : NumQ) : NumQ := nmul (f a) (nsub b a).
Definition qfield : field NumQ := @Field NumQ (fun _ _ _ _ t => t) (fun _ _ _ _ _ => n0) (fun x _ _ _ t => nmul x t).
Definition qaside : ten NumQ := [[[1; 0; 0]; [1; 0; 0]; [1; 0; 0]; [1; 0; 0]; [1; 0; 0]]]%Q.
Notation px2_field p := (parser_run_field LQ qinteg (ps_bundles p) (ps_networks p) 3%Q 0%Q qfield qaside) (only parsing).
Notation px2_local p := (parser_run_local LQ qinteg (ps_bundles p) (ps_networks p) 3%Q 0%Q "bb" qfield qaside []) (only parsing).
Definition lit_arraysb (s : core NumQ) : bool :=
  (length (k_eL s) =? k_n s)%nat && (length (k_eT s) =? k_n s)%nat && forallb (fun r => (length r =? k_N s)%nat) (k_eL s) && forallb (fun r => (length r =? S (k_N s))%nat) (k_eT s).
Lemma lit_arraysb_ok s : lit_arraysb s = true -> lit_arrays s.
Proof.
  unfold lit_arraysb. intros H. split_andb H. apply Nat.eqb_eq in H, T1. split; [exact H|]. split; [exact T1|]. intros c Hc. rewrite forallb_forall in T, T0. split.
  - apply Nat.eqb_eq. apply T0. apply nth_In. rewrite H. exact Hc.
  - apply Nat.eqb_eq. apply T. apply nth_In. rewrite T1. exact Hc.
Qed.
(** the same bundle with other field functions *)
Definition relit (b : bundle NumQ) : bundle NumQ := let s := b_core b in
  b_set_core b (set_fields s (mk2 (k_n s) (k_N s) (fun _ _ t => t)) (mk2 (k_n s) (S (k_N s)) (fun _ _ t => t))).
Lemma relit_same b : lit_arrays (b_core b) -> outer_conductors b = Ok (k_n (b_core b)) -> same_but_outer_fields b (relit b).
Proof.
  intros A O. assert (A' : lit_arrays (b_core (relit b))) by (apply (FieldsProps.mk2_arrays _ (fun _ _ t => t)); reflexivity).
  split; [reflexivity|]. split; [exact A|]. split; [exact A'|]. intros n On c k Hc. assert (n = k_n (b_core b)) by congruence. subst n.
  destruct A as (A1 & A2 & _), A' as (B1 & B2 & _). change (k_n (b_core (relit b))) with (k_n (b_core b)) in B1, B2. unfold eLong, eTran. split.
  - rewrite (nth_overflow (k_eL (b_core (relit b)))) by lia. rewrite (nth_overflow (k_eL (b_core b))) by lia. reflexivity.
  - rewrite (nth_overflow (k_eT (b_core (relit b)))) by lia. rewrite (nth_overflow (k_eT (b_core b))) by lia. reflexivity.
Qed.
Definition px2_lit_test : bool := okb (fun p => okb (fun x => okb (fun y => okb (fun z =>
    negb (Qeq_bool (v_of x "ba" 0 2) (v_of y "ba" 0 2)) && negb (Qeq_bool (v_of z "bb" 0 2) (v_of y "bb" 0 2)) && negb (Qeq_bool (v_of z "ba" 0 2) (v_of x "ba" 0 2)) &&
    forallb (fun b => lit_arraysb (b_core b) && okb (fun n => (n =? k_n (b_core b))%nat) (outer_conductors b)) (ps_bundles p))%bool (px2_local p)) (px2_once p)) (px2_field p)) px2_parse.
Lemma px2_lit_test_ok : px2_lit_test = true.
Proof. vm_compute. reflexivity. Qed.
