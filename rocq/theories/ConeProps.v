(** From the cone of influence to sources, and the examples for C14. *)
From Coq Require Import String List Arith ZArith Bool Lia QArith.
From Verif Require Import Num Py Arr ArrFacts NumQ LapackQ Probes Dispersive Line LineFacts SpecLine SpecDyn HistoryFacts ConeFacts ExampleQ.
Import ListNotations.

Section Sources.
Context {N : num}.
Variable LA : lapack N.

Lemma with_inputs_self (m : mtl N) : with_inputs m (inputs_of m) = m.
Proof.
  destruct m as [a1 a2 a3 k a4 a5 a6 a7 a8 a9 a10 a11 a12]. destruct k as [b1 b2 b3 b4 b5 b6 b7 b8 d b9 b10 b11 b12 b13 b14].
  destruct d. reflexivity.
Qed.
Lemma with_inputs_source (m m' : mtl N) p c f : add_voltage_source m p c f = Ok m' -> with_inputs m (inputs_of m') = m'.
Proof.
  intros H. unfold add_voltage_source in H. destruct (c <? _)%nat; [|discriminate]. injection H as <-.
  exact (with_inputs_self (m_set_vsrc m _)).
Qed.
Lemma nth_lset_other {A} (l : list A) i j x d : i <> j -> nth j (lset l i x) d = nth j l d.
Proof. intros H. now apply nth_lset_neq. Qed.
Lemma other_sources (m mf mg : mtl N) p c f g k : add_voltage_source m p c f = Ok mf -> add_voltage_source m p c g = Ok mg ->
  k <> nearest (m_u m) (pos_vec p) -> same_source mf mg k.
Proof.
  intros Hf Hg Hk c' t _. unfold add_voltage_source in *. destruct (c <? _)%nat; [|discriminate].
  injection Hf as <-. injection Hg as <-. unfold source, upd2. cbn [m_vsrc m_set_vsrc].
  destruct (Nat.eq_dec c' c) as [->|E].
  - destruct (Nat.lt_ge_cases c (length (m_vsrc m))) as [L|L].
    + rewrite !nth_lset_eq by auto. now rewrite !nth_lset_neq by auto.
    + rewrite !nth_overflow with (d := []) by (rewrite ?length_lset; auto). reflexivity.
  - now rewrite !nth_lset_neq by auto.
Qed.

Lemma cone_source (m mf mg : mtl N) p c f g T n a b :
  reachable LA m -> add_voltage_source m p c f = Ok mf -> add_voltage_source m p c g = Ok mg ->
  run_state LA mf T n a -> run_state LA mg T n b ->
  let s := nearest (m_u m) (pos_vec p) in
  forall j k, (j < conductors m)%nat -> (k <= cells m)%nat ->
  ((s + n <= k)%nat \/ (k + n <= s)%nat -> volt a j k = volt b j k) /\
  ((k < cells m)%nat -> (s + n <= k)%nat \/ (k + n < s)%nat -> curr a j k = curr b j k).
Proof.
  intros R Hf Hg Ha Hb s j k Hj Hk.
  rewrite <- (with_inputs_source _ _ _ _ _ Hf) in Ha. rewrite <- (with_inputs_source _ _ _ _ _ Hg) in Hb.
  pose proof (reachable_shape _ _ R) as Sh.
  assert (SS : forall k, k <> s -> same_source (with_inputs m (inputs_of mf)) (with_inputs m (inputs_of mg)) k).
  { intros k' Hk'. rewrite (with_inputs_source _ _ _ _ _ Hf), (with_inputs_source _ _ _ _ _ Hg). eapply other_sources; eauto. }
  assert (AG : agree (with_inputs m (inputs_of mf)) (with_inputs m (inputs_of mg)) 0 (cells m) /\ same_field (with_inputs m (inputs_of mf)) (with_inputs m (inputs_of mg)) 0 (cells m)).
  { rewrite (with_inputs_source _ _ _ _ _ Hf), (with_inputs_source _ _ _ _ _ Hg). unfold add_voltage_source in *.
    destruct (c <? _)%nat; [|discriminate]. injection Hf as <-. injection Hg as <-. split; [split; [|split]|split]; reflexivity. }
  destruct AG as [A F].
  assert (Hn : conductors a = conductors m).
  { destruct Ha as (st & pa & _ & _ & Hp & Hi). apply prepare_inv in Hp as (u1 & u2 & _ & ->).
    assert (Sh' : (1 <= k_N (m_core m))%nat) by apply Sh.
    match type of Hi with iterM _ _ ?q = _ => pose proof (iter_step_same n q a Sh' Hi) as S end. unfold conductors. rewrite (ss_n _ _ (sl_core _ _ S)). reflexivity. }
  assert (AL : forall lo' hi', ((lo' = n \/ lo' = 0%nat /\ s <> 0%nat) -> (hi' + n = cells m \/ hi' = cells m /\ s <> cells m) -> agree a b lo' hi')%nat).
  { intros lo' hi' H1 H2. apply (cone_run LA m _ _ T n a b 0%nat (cells m) lo' hi' R (le_n _) A F); auto.
    - destruct H1 as [->|[-> H1]]; [left; lia|right; auto].
    - destruct H2 as [E|[-> H2]]; [left; lia|right; auto]. }
  assert (N1 : (1 <= cells m)%nat) by apply Sh.
  assert (HA : (s <> 0 /\ s <> cells m -> agree a b 0 (cells m))%nat) by (intros []; apply AL; right; auto).
  assert (HB : (s = 0 -> agree a b n (cells m))%nat) by (intros; apply AL; [left|right; split]; auto; lia).
  assert (HC : (s = cells m -> n <= cells m -> agree a b 0 (cells m - n))%nat) by (intros; apply AL; [right; split|left]; lia).
  split.
  - intros H. destruct (Nat.eq_dec s 0) as [E|E]; [|destruct (Nat.eq_dec s (cells m)) as [E'|E']].
    + apply (HB E); [rewrite Hn; auto|lia].
    + destruct (Nat.le_gt_cases n (cells m)).
      * apply (HC E'); [auto|rewrite Hn; auto|lia].
      * exfalso; lia.
    + apply HA; auto; [rewrite Hn; auto|lia].
  - intros Hk' H. destruct (Nat.eq_dec s 0) as [E|E]; [|destruct (Nat.eq_dec s (cells m)) as [E'|E']].
    + apply (HB E); [rewrite Hn; auto|lia].
    + destruct (Nat.le_gt_cases n (cells m)).
      * apply (HC E'); [auto|rewrite Hn; auto|lia].
      * exfalso; lia.
    + apply HA; auto; [rewrite Hn; auto|lia].
Qed.
End Sources.

(** two runs of the coupled line of ExampleQ, driven by one and by two volts: after two steps
    nodes 2, 3, 4 are the same and node 1 is not *)
Definition twice (t : NumQ) : NumQ := if Qltb t 0 then 0%Q else 2%Q.
Definition some_state (m : mtl NumQ) T (k : nat) : res (mtl NumQ) :=
  n <- time_range_len T (k_dt (m_core m)) ;; _ <- passert (k <=? n)%nat ;; p <- mtl_prepare LQ m n ;; iterM k mtl_step p.
Definition cone_test : bool := okb (fun m : mtl NumQ => okb (fun mf : mtl NumQ => okb (fun mg : mtl NumQ =>
    okb (fun a : mtl NumQ => okb (fun b : mtl NumQ => (nearest (m_u m) (pos_vec (@PosF NumQ 0%Q)) =? 0)%nat && (conductors m =? 2)%nat && (cells m =? 4)%nat &&
       negb (Qsame (volt a 0 1) (volt b 0 1)))
      (some_state mg 3%Q 2)) (some_state mf 3%Q 2))
   (add_voltage_source m (@PosF NumQ 0%Q) 0 twice))
   (add_voltage_source m (@PosF NumQ 0%Q) 0 ustep)) q2_new.
Lemma cone_test_ok : cone_test = true.
Proof. vm_compute. reflexivity. Qed.
Local Opaque mtl_new mtl_prepare mtl_step.
Lemma some_state_run m T k a : some_state m T k = Ok a -> run_state LQ m T k a.
Proof.
  unfold some_state. intros H. destruct (time_range_len T _) as [n|] eqn:E; [|discriminate H]. cbn [bind] in H.
  destruct (k <=? n)%nat eqn:E1; [|discriminate H]. cbn [passert bind] in H.
  destruct (mtl_prepare LQ m n) as [p|] eqn:E2; [|discriminate H]. cbn [bind] in H.
  exists n, p. apply Nat.leb_le in E1. auto.
Qed.
Lemma Qsame_refl x : Qsame x x = true.
Proof. unfold Qsame. now rewrite Z.eqb_refl, Pos.eqb_refl. Qed.
Lemma cone_example : exists (m mf mg a b : mtl NumQ), reachable LQ m /\
  add_voltage_source m (@PosF NumQ 0%Q) 0 ustep = Ok mf /\ add_voltage_source m (@PosF NumQ 0%Q) 0 twice = Ok mg /\
  run_state LQ mf 3%Q 2 a /\ run_state LQ mg 3%Q 2 b /\ nearest (m_u m) (pos_vec (@PosF NumQ 0%Q)) = 0%nat /\
  conductors m = 2%nat /\ cells m = 4%nat /\ volt a 0 1 <> volt b 0 1.
Proof.
  pose proof cone_test_ok as H. unfold cone_test in H. okb_step H m E. okb_step H mf Ef. okb_step H mg Eg. okb_step H a Ea. okb_step H b Eb.
  split_andb H. apply some_state_run in Ea, Eb. apply Nat.eqb_eq in H, T1, T0. exists m, mf, mg, a, b.
  split; [apply built_reachable, q2_new_built; exact E|]. repeat (split; [assumption|]).
  intros X. rewrite X, Qsame_refl in T. discriminate T.
Qed.
Lemma window_example : exists (m mf mg a b : mtl NumQ), reachable LQ m /\
  run_state LQ (with_inputs m (inputs_of mf)) 3%Q 2 a /\ run_state LQ (with_inputs m (inputs_of mg)) 3%Q 2 b /\
  agree (with_inputs m (inputs_of mf)) (with_inputs m (inputs_of mg)) 0 4 /\
  same_field (with_inputs m (inputs_of mf)) (with_inputs m (inputs_of mg)) 0 4 /\ cells m = 4%nat /\
  same_source (with_inputs m (inputs_of mf)) (with_inputs m (inputs_of mg)) 4 /\ volt a 0 1 <> volt b 0 1.
Proof.
  destruct cone_example as (m & mf & mg & a & b & R & Hf & Hg & Ha & Hb & Hs & Hn & HN & D). exists m, mf, mg, a, b.
  rewrite (with_inputs_source _ _ _ _ _ Hf), (with_inputs_source _ _ _ _ _ Hg). split; [exact R|]. split; [exact Ha|]. split; [exact Hb|].
  assert (S4 : same_source mf mg 4) by (eapply other_sources; [exact Hf|exact Hg|rewrite Hs; lia]).
  unfold add_voltage_source in Hf, Hg. destruct (0 <? _)%nat; [|discriminate Hf]. injection Hf as <-. injection Hg as <-.
  split; [split; [|split]; reflexivity|]. split; [split; reflexivity|]. auto.
Qed.
