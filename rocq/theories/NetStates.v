(** The number of state variables of a connection (networks.py:52-72). *)
From Coq Require Import String List Arith ZArith Bool Permutation Lia.
From Verif Require Import Num Py Arr Utils Probes Dispersive Line Bundle Networks SpecLine SpecBundle SpecNet SpecStates ArrFacts CoreEq NetBuild NetPlace NetMore MtlnFacts.
Import ListNotations.

Section States.
Context {N : num}.

Lemma nth_error_py {A} (l : list A) i x : py_get l i = Ok x <-> nth_error l i = Some x.
Proof. unfold py_get. destruct (nth_error l i); cbn; split; congruence. Qed.
Lemma state_vars_count (cond : nat) (k : connector N) s : state_vars cond k = Ok s <-> state_count cond k s.
Proof.
  unfold state_vars. split.
  - intros H. apply bind_Ok in H as (a & E1 & H). apply bind_Ok in H as (d & E2 & H). apply OkI in H. subst s.
    destruct (String.eqb_spec (cn_type k) "Conn_sRLC") as [T|T1].
    + apply bind_Ok in E1 as (l & El & E1). apply bind_Ok in E1 as (c & Ec & E1). apply OkI in E1.
      rewrite T in E2 |- *. cbn in E2. apply OkI in E2. subst d. cbn. rewrite !Nat.add_0_r. subst a.
      unfold of_option in El, Ec. destruct (cn_L k) as [l'|] eqn:L; [|discriminate El]. destruct (cn_C k) as [c'|] eqn:C; [|discriminate Ec]. apply OkI in El, Ec. subst.
      apply sc_sRLC with (l := l) (c := c); auto; [destruct (neqb l n0)|destruct (nltb c n1e22)]; cbn; auto.
    + apply OkI in E1. subst a. destruct (String.eqb_spec (cn_type k) "Conn_C") as [T|T2].
      { rewrite T in E2. cbn in E2. apply OkI in E2. subst d. apply sc_C. exact T. }
      destruct (String.eqb_spec (cn_type k) "Conn_LCpRs") as [T|T3].
      { rewrite T in E2. cbn in E2. apply OkI in E2. subst d. apply sc_LC. exact T. }
      destruct (String.eqb_spec (cn_type k) "MultiwireConnector") as [T|T4].
      * apply bind_Ok in E2 as (t & Et & E2). apply nth_error_py in Et. apply OkI in E2. subst d. apply sc_multi with (t := t); [exact T|exact Et|]. cbn.
        destruct (String.eqb_spec t "Conn_C") as [U|U]; [auto|]. destruct (String.eqb_spec t "Conn_LCpRs") as [V|V]; auto 6.
      * apply OkI in E2. subst d. apply sc_none. cbn. intuition congruence.
  - intros H. destruct H as [l c p q T L C Hp Hq|T|T|t p T Ht Hp|T].
    + rewrite T, L, C. cbn. rewrite !Nat.add_0_r. destruct Hp as [[-> ->]|[-> ->]], Hq as [[-> ->]|[-> ->]]; reflexivity.
    + rewrite T. reflexivity.
    + rewrite T. reflexivity.
    + rewrite T. cbn. apply nth_error_py in Ht. rewrite Ht. cbn. destruct Hp as [[-> ->]|[[-> ->]|(A & B & ->)]]; [reflexivity|reflexivity|].
      apply String.eqb_neq in A, B. rewrite A, B. reflexivity.
    + cbn in T. destruct (String.eqb_spec (cn_type k) "Conn_sRLC") as [U|_]; [rewrite U in T; tauto|]. cbn.
      destruct (String.eqb_spec (cn_type k) "Conn_C") as [U|_]; [rewrite U in T; tauto|]. destruct (String.eqb_spec (cn_type k) "Conn_LCpRs") as [U|_]; [rewrite U in T; tauto|].
      destruct (String.eqb_spec (cn_type k) "MultiwireConnector") as [U|_]; [rewrite U in T; tauto|]. reflexivity.
Qed.
Lemma new_nodes_counts ds (w : network N) : network_new ds = Ok w -> exists nds, w_conns w = concat nds /\
  Forall2 (fun d l => exists cs, stable_sort (d_conns d) cs /\ Forall2 (fun x kn => describes d x kn /\ state_count (c_cond x) (c_mat x) (length (nd_state (snd kn)))) cs l) ds nds.
Proof.
  intros H. destruct (new_nodes ds w H) as (nds & E & F). exists nds. split; [exact E|].
  revert F. apply F2_impl.
  intros d l (cs & Hs & G). exists cs. split; [exact Hs|]. revert G. apply F2_impl. intros x kn (A & B). split; [exact A|]. apply state_vars_count. exact B.
Qed.
End States.
