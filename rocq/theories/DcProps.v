(** The direct-current circuit of a line that is damped at one end has exactly one solution. *)
From Coq Require Import Arith Bool Lia Reals Lra.
From Verif Require Import Num Arr NumR RFacts LinAlg Line LineFacts SpecLine SpecR SpecDyn HistoryFacts RunEqFacts SpecEnergy EnergyFacts EnergyProps SpecRecip
  SpecSettle SettleFacts SettleProps DcFacts.
Local Open Scope R_scope.

Section Line.
Variables m0 m : mtl NumR.
Hypotheses (N1 : (1 <= cells m)%nat) (HL : lossy m0 m).
Let n := conductors m.
Let N := cells m.
Definition line_dc (s r : nat -> R) V I := dc (conductors m) (cells m) (cell_len m) (share m) (R_ m) (node_G m0 m) (end_Z m false) (end_Z m true) s r V I.
Lemma line_dc_iff s r V I : line_dc s r V I <-> dc_solution m0 m s r V I.
Proof. split; intros [A B C D]; split; auto. Qed.

Lemma Psh k : (k <= N)%nat -> 0 <= share m k.
Proof. apply (share_nonneg m k N1 (lo_h _ _ HL)). Qed.

Lemma line_solve : damped m -> forall s r, exists V I, dc_solution m0 m s r V I.
Proof.
  intros [far Hf] s r. destruct far.
  - destruct (dc_solve (conductors m) (cells m) N1 (fun k => cell_len m (cells m - 1 - k)) (fun k => share m (cells m - k)) (fun k => R_ m (cells m - 1 - k)) (fun k => node_G m0 m (cells m - k))
      (end_Z m true) (end_Z m false)) with (s := r) (r := s) as (V & I & H).
    + intros k Hk. apply (lo_h _ _ HL). lia.
    + intros k Hk. apply Psh. unfold N. lia.
    + intros k Hk. apply (lo_R _ _ HL). lia.
    + intros k Hk. apply (lo_G _ _ HL). lia.
    + exact Hf.
    + apply (end_Z_pos m0 m HL).
    + apply dc_mirror in H; auto. exists (fun c k => V c (cells m - k)%nat), (fun c k => - I c (cells m - 1 - k)%nat). apply line_dc_iff. destruct H as [A B C D]. split; auto.
      * intros c k Hc Hk. rewrite (A c k Hc Hk). now replace (cells m - 1 - (cells m - 1 - k))%nat with k by lia.
      * intros c k Hc Hk. rewrite (B c k Hc Hk). now replace (cells m - (cells m - S k))%nat with (S k) by lia.
      * intros c Hc. pose proof (C c Hc) as E. cbv beta in E. replace (cells m - (cells m - 0))%nat with 0%nat in E by lia. exact E.
      * intros c Hc. pose proof (D c Hc) as E. cbv beta in E. replace (cells m - (cells m - cells m))%nat with (cells m) in E by lia. exact E.
  - destruct (dc_solve (conductors m) (cells m) N1 (cell_len m) (share m) (R_ m) (node_G m0 m) (end_Z m false) (end_Z m true)) with (s := s) (r := r) as (V & I & H).
    + exact (lo_h _ _ HL).
    + exact Psh.
    + exact (lo_R _ _ HL).
    + exact (lo_G _ _ HL).
    + exact Hf.
    + apply (end_Z_pos m0 m HL).
    + exists V, I. now apply line_dc_iff.
Qed.

Lemma line_zero : damped m -> forall V I, dc_solution m0 m (fun _ => 0) (fun _ => 0) V I ->
  (forall k c, (k <= N)%nat -> (c < n)%nat -> V c k = 0) /\ (forall k c, (k < N)%nat -> (c < n)%nat -> I c k = 0).
Proof.
  intros [far Hf] V I H. apply line_dc_iff in H. destruct far.
  - apply dc_mirror in H; auto. apply dc_zero in H; auto.
    + destruct H as [HV HI]. split; intros k c Hk Hc.
      * specialize (HV (N - k)%nat c ltac:(unfold N in *; lia) Hc). cbv beta in HV. replace (cells m - (N - k))%nat with k in HV by (unfold N in *; lia). exact HV.
      * specialize (HI (N - 1 - k)%nat c ltac:(unfold N in *; lia) Hc). cbv beta in HI. replace (cells m - 1 - (N - 1 - k))%nat with k in HI by (unfold N in *; lia). lra.
    + intros k Hk. apply (lo_h _ _ HL). lia.
    + intros k Hk. apply Psh. unfold N. lia.
    + intros k Hk. apply (lo_R _ _ HL). lia.
    + intros k Hk. apply (lo_G _ _ HL). lia.
    + apply (end_Z_pos m0 m HL).
  - apply dc_zero in H; auto.
    + exact (lo_h _ _ HL).
    + exact Psh.
    + exact (lo_R _ _ HL).
    + exact (lo_G _ _ HL).
    + apply (end_Z_pos m0 m HL).
Qed.

Lemma line_diff s r V I V' I' : dc_solution m0 m s r V I -> dc_solution m0 m s r V' I' ->
  dc_solution m0 m (fun _ => 0) (fun _ => 0) (fun c k => V c k - V' c k) (fun c k => I c k - I' c k).
Proof.
  intros [A B C D] [A' B' C' D']. split.
  - intros c k Hc Hk. rewrite mulv_sub. pose proof (A c k Hc Hk). pose proof (A' c k Hc Hk). rsimpl. rty. lra.
  - intros c k Hc Hk. rewrite mulv_sub. pose proof (B c k Hc Hk). pose proof (B' c k Hc Hk). rsimpl. rty. lra.
  - intros c Hc. rewrite mulv_sub. rewrite (C c Hc) at 1. rewrite (C' c Hc) at 1. rsimpl. rty. ring.
  - intros c Hc. cbv zeta. rewrite mulv_sub. rewrite (D c Hc) at 1. rewrite (D' c Hc) at 1. rsimpl. rty. ring.
Qed.
End Line.

Theorem dc_one_solution LA (m0 m : mtl NumR) s0 sN : history LA m0 m -> lossy m0 m -> damped m ->
  exists V I, dc_solution m0 m s0 sN V I /\ forall V' I', dc_solution m0 m s0 sN V' I' ->
  (forall c k, (c < conductors m)%nat -> (k <= cells m)%nat -> V' c k = V c k) /\ (forall c k, (c < conductors m)%nat -> (k < cells m)%nat -> I' c k = I c k).
Proof.
  intros HH HL HD. pose proof (sh_N _ (reachable_shape LA m (ex_intro _ m0 HH))) as N1.
  destruct (line_solve m0 m N1 HL HD s0 sN) as (V & I & H). exists V, I. split; auto. intros V' I' H'.
  destruct (line_zero m0 m N1 HL HD _ _ (line_diff m0 m s0 sN V' I' V I H' H)) as [A B].
  split; intros c k Hc Hk; [specialize (A k c Hk Hc); cbv beta in A|specialize (B k c Hk Hc); cbv beta in B]; lra.
Qed.
