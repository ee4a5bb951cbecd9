(** Observables of the electrical state shared by lines and bundles, over the reals.
    No proofs here. *)
From Coq Require Import List Arith Reals.
From Verif Require Import Num Arr NumR Dispersive Line.
Local Open Scope R_scope.

Section SpecCore.
Variable s : core NumR.
(** voltage of conductor [c] at node [k], current of conductor [c] in cell [k] *)
Definition kv (c k : nat) : R := get2 (k_v s) c k.
Definition ki (c k : nat) : R := get2 (k_i s) c k.
(** length of cell [k] and length of line attached to node [k] *)
Definition klen (k : nat) : R := get3 (k_h s) k 0 0.
Definition kwidth (k : nat) : R :=
  if (k =? 0)%nat then klen 0
  else if (k =? k_N s)%nat then klen (k_N s - 1)
  else (klen (k - 1) + klen k) / 2.
(** matrices per unit length *)
Definition kL (k i j : nat) : R := get3 (k_l s) k i j.
Definition kR (k i j : nat) : R := get3 (k_r s) k i j.
Definition kC (k i j : nat) : R := get3 (k_c s) k i j.
Definition kG (k i j : nat) : R := get3 (k_g s) k i j.
(** dispersive part: constant and proportional terms, sums of the pole weights, memory *)
Definition kD (k i j : nat) : R := get3 (ds_d (k_disp s)) k i j.
Definition kE (k i j : nat) : R := get3 (ds_e (k_disp s)) k i j.
Definition kQ1 (k i j : nat) : R := get3 (ds_q1sum (k_disp s)) k i j.
Definition kQ2 (k i j : nat) : R := get3 (ds_q2sum (k_disp s)) k i j.
Definition kmem (k c : nat) : R := get2 (ds_q3phi (k_disp s)) k c.
(** field sources of cell [k] and node [k] at time [t] *)
Definition kLong (c k : nat) (t : R) : R := nth k (nth c (k_eL s) nil) (fun _ => 0) t.
Definition kTran (c k : nat) (t : R) : R := nth k (nth c (k_eT s) nil) (fun _ => 0) t.
End SpecCore.
