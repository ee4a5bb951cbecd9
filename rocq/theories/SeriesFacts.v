(** When a parallel inductor and capacitor in series with a resistor can be connected to a terminal. *)
From Coq Require Import String List Arith ZArith Bool Lia Reals Lra.
From Verif Require Import Num Py Arr NumR RFacts Utils Probes Dispersive Line Bundle Networks.
Import ListNotations.
Local Open Scope R_scope.

Definition within (R L C : R) : Prop := 0 <= R /\ 0 <= L /\ C < 10000000000000000000000.
Lemma within_dec (R L C : NumR) : (nleb n0 R && nleb n0 L && nltb C n1e22)%bool = true <-> within R L C.
Proof.
  unfold within. rewrite !andb_true_iff. change (@n0 NumR) with 0. change (@n1e22 NumR) with (IZR 10000000000000000000000).
  change (@nleb NumR) with Rleb. change (@nltb NumR) with Rltb. rewrite !Rleb_true, Rltb_true. tauto.
Qed.
Lemma pinv_ok (x : NumR) : x <> 0 -> exists y, pinv x = Ok y.
Proof. intros H. unfold pinv. replace (neqb x n0) with false by (symmetry; apply Reqb_false; exact H). eauto. Qed.
Lemma pninv_ok (x : NumR) : x <> 0 -> exists y, pninv x = Ok y.
Proof. intros H. unfold pninv. replace (neqb x n0) with false by (symmetry; apply Reqb_false; exact H). eauto. Qed.
Lemma pinv_zero (x : NumR) : x = 0 -> pinv x = Err ZeroDivisionError.
Proof. intros H. unfold pinv. replace (neqb x n0) with true by (symmetry; apply Reqb_true; exact H). reflexivity. Qed.
Lemma pninv_zero (x : NumR) : x = 0 -> pninv x = Err ZeroDivisionError.
Proof. intros H. unfold pninv. replace (neqb x n0) with true by (symmetry; apply Reqb_true; exact H). reflexivity. Qed.

Lemma series_cases (w : network NumR) id (R L C : NumR) V nd : find_node w id = Some nd ->
  (~ within R L C -> connect_to_ground_LCpRs w id R L C V = Err AssertionError) /\
  (within R L C -> R * C = 0 \/ L = 0 -> connect_to_ground_LCpRs w id R L C V = Err ZeroDivisionError) /\
  (within R L C -> R * C <> 0 -> L <> 0 ->
     match length (nd_state nd) with
     | 0%nat => connect_to_ground_LCpRs w id R L C V = Err IndexError
     | 2%nat => exists w', connect_to_ground_LCpRs w id R L C V = Ok w'
     | _ => connect_to_ground_LCpRs w id R L C V = Err ValueError
     end).
Proof.
  intros F. unfold connect_to_ground_LCpRs, LCpRs_block. rewrite F. cbn [of_option bind]. cbv zeta. split; [|split].
  - intros W. assert (E : (nleb n0 R && nleb n0 L && nltb C n1e22)%bool = false) by (destruct (_ && _ && _)%bool eqn:E; [|reflexivity]; exfalso; apply W, within_dec; exact E).
    rewrite E. cbn [passert bind]. destruct (nd_state nd) as [|x0 [|x1 [|]]]; reflexivity.
  - intros W Z. rewrite (proj2 (within_dec R L C) W). cbn [passert bind].
    destruct (Req_dec (R * C) 0) as [Z1|N1].
    + rewrite (pinv_zero (nmul R C)) by exact Z1. cbn [bind]. destruct (nd_state nd) as [|x0 [|x1 [|]]]; reflexivity.
    + destruct Z as [Z|Z]; [contradiction|]. destruct (pinv_ok (nmul R C) N1) as [y1 E1]. rewrite E1.
      destruct (pinv_ok C) as [y2 E2]; [intros Hc; apply N1; rewrite Hc; apply Rmult_0_r|]. rewrite E2, (pninv_zero L Z). cbn [bind]. destruct (nd_state nd) as [|x0 [|x1 [|]]]; reflexivity.
  - intros W N1 NL. rewrite (proj2 (within_dec R L C) W). cbn [passert bind].
    destruct (pinv_ok (nmul R C) N1) as [y1 E1]. destruct (pninv_ok (nmul R C) N1) as [y4 E4].
    destruct (pinv_ok C) as [y2 E2]; [intros Hc; apply N1; rewrite Hc; apply Rmult_0_r|]. destruct (pninv_ok L NL) as [y3 E3].
    assert (NR : R <> 0) by (intros Hr; apply N1; rewrite Hr; apply Rmult_0_l).
    destruct (pinv_ok R NR) as [y5 E5]. destruct (pninv_ok R NR) as [y6 E6]. rewrite E1, E2, E3, E4, E5, E6. cbn [bind].
    destruct (nd_state nd) as [|x0 [|x1 [|x2 l]]]; cbn [length]; try reflexivity. destruct (tf_nonzero V); eauto.
Qed.
Lemma series_unknown (N : num) (w : network N) id R L C V : find_node w id = None -> connect_to_ground_LCpRs w id R L C V = Err AssertionError.
Proof. intros F. unfold connect_to_ground_LCpRs. rewrite F. reflexivity. Qed.
Lemma series_accepted (w : network NumR) id (R L C : NumR) V nd : find_node w id = Some nd ->
  ((exists w', connect_to_ground_LCpRs w id R L C V = Ok w') <-> 0 < R /\ 0 < L /\ C <> 0 /\ C < 10000000000000000000000 /\ length (nd_state nd) = 2%nat) /\
  (connect_to_ground_LCpRs w id R L C V = Err AssertionError <-> R < 0 \/ L < 0 \/ 10000000000000000000000 <= C).
Proof.
  intros F. destruct (series_cases w id R L C V nd F) as (A & B & D).
  assert (W : within R L C \/ ~ within R L C) by (rewrite <- within_dec; destruct (_ && _ && _)%bool; [left|right]; congruence).
  assert (X : ~ within R L C <-> R < 0 \/ L < 0 \/ 10000000000000000000000 <= C).
  { unfold within. split; [|intros [H|[H|H]] (H1 & H2 & H3); lra]. intros Hn. destruct (Rlt_dec R 0); [now left|]. destruct (Rlt_dec L 0); [now right; left|]. right; right. destruct (Rlt_dec C 10000000000000000000000); [|lra]. exfalso. apply Hn. repeat split; lra. }
  split; split.
  - intros (w' & E). destruct W as [W|W]; [|rewrite (A W) in E; discriminate]. destruct (Req_dec (R * C) 0) as [Z|Z]; [rewrite (B W (or_introl Z)) in E; discriminate|]. destruct (Req_dec L 0) as [Z'|Z']; [rewrite (B W (or_intror Z')) in E; discriminate|].
    specialize (D W Z Z'). destruct W as (W1 & W2 & W3).
    assert (R <> 0) by (intros Hr; apply Z; rewrite Hr; apply Rmult_0_l). assert (C <> 0) by (intros Hr; apply Z; rewrite Hr; apply Rmult_0_r).
    repeat split; try assumption; try lra. destruct (length (nd_state nd)) as [|[|[|]]]; try reflexivity; rewrite D in E; discriminate.
  - intros (H1 & H2 & H3 & H4 & H5). rewrite H5 in D. apply D; [unfold within; repeat split; try assumption; lra| |lra]. intros Z. apply Rmult_integral in Z. lra.
  - intros E. apply X. intros W'. destruct (Req_dec (R * C) 0) as [Z|Z]; [rewrite (B W' (or_introl Z)) in E; discriminate|]. destruct (Req_dec L 0) as [Z'|Z']; [rewrite (B W' (or_intror Z')) in E; discriminate|].
    specialize (D W' Z Z'). destruct (length (nd_state nd)) as [|[|[|]]]; try (rewrite D in E; discriminate). destruct D as [w' D]. rewrite D in E. discriminate.
  - intros H. apply A, X, H.
Qed.
