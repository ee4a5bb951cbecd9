(** Uniqueness of the solution of the discrete equations of a core. *)
From Coq Require Import String List Arith ZArith Bool Lia Reals Lra.
From Verif Require Import Num Py Arr ArrFacts NumR RFacts LinAlg Probes Dispersive Line LineFacts SpecLine SpecR SpecSym LineEqFacts SpecCore CoreEq SymFacts.
Import ListNotations.
Local Open Scope R_scope.

Section CoreUnique.
Variable LA : lapack NumR.
Hypothesis LAok : lapack_ok LA.

Lemma volt_kernel s k x : cdiag s -> cg_ready LA s -> (k <= k_N s)%nat ->
  (forall c, (c < k_n s)%nat -> kwidth s k * (sumR (k_n s) (fun p => kC s k c p * x p) / k_dt s + sumR (k_n s) (fun p => kG s k c p * x p) / 2) = 0) ->
  forall c, (c < k_n s)%nat -> x c = 0.
Proof.
  intros Cd Hcg Hk H. destruct (cg_ready_inv LA _ Hcg) as (vt & idf & _ & Hinv & _).
  apply (inverse_kernel (k_n s) (cg_F1 s k) (getm idf k) (fun i j => kwidth s k * (kC s k i j / k_dt s + kG s k i j / 2))).
  - apply (inv_ok LA LAok), Hinv. exact Hk.
  - intros i j Hi Hj. now apply c_cg_F1.
  - intros i Hi. rewrite <- (H i Hi). unfold mulv. rewrite <- !sumR_div, <- sumR_plus, <- sumR_scal.
    apply sumR_ext. intros. unfold Rdiv. rring.
Qed.

Lemma curr_kernel s k x : cdiag s -> lr_ready LA s -> (k < k_N s)%nat ->
  (forall c, (c < k_n s)%nat -> klen s k *
     (sumR (k_n s) (fun p => kL s k c p * x p) / k_dt s + sumR (k_n s) (fun p => kR s k c p * x p) / 2
      + sumR (k_n s) (fun p => kD s k c p * x p) / 2 + sumR (k_n s) (fun p => kE s k c p * x p) / k_dt s
      + sumR (k_n s) (fun p => kQ1 s k c p * x p)) = 0) ->
  forall c, (c < k_n s)%nat -> x c = 0.
Proof.
  intros Cd Hlr Hk H. destruct (lr_ready_inv LA _ Hlr) as (it & vd & _ & Hinv & _).
  apply (inverse_kernel (k_n s) (lr_F1 s k) (getm vd k)
    (fun i j => klen s k * (kL s k i j / k_dt s + kD s k i j / 2 + kE s k i j / k_dt s + kR s k i j / 2 + kQ1 s k i j))).
  - apply (inv_ok LA LAok), Hinv. exact Hk.
  - intros i j Hi Hj. now apply c_lr_F1.
  - intros i Hi. rewrite <- (H i Hi). unfold mulv. rewrite <- !sumR_div, <- !sumR_plus, <- sumR_scal.
    apply sumR_ext. intros. unfold Rdiv. rring.
Qed.
End CoreUnique.
