(** The geometry loops of the constructor, for equal divisions (any [num]). *)
From Coq Require Import String List Arith ZArith Bool Lia.
From Verif Require Import Num Py Arr ArrFacts Dispersive Line.
Import ListNotations.

Section Geometry.
Context {N : num}.
Local Open Scope num_scope.

Lemma lset_mk {A} T (f : nat -> A) idx x : (idx < T)%nat ->
  lset (mk T f) idx x = mk T (fun j => if (j =? idx)%nat then x else f j).
Proof.
  intros H. apply list_eq_nth with (d := x).
  - now rewrite length_lset, !length_mk.
  - intros k Hk. rewrite length_lset, length_mk in Hk.
    rewrite nth_lset, !nth_mk, length_mk by auto.
    rewrite (Nat.eqb_sym k idx). rewrite (proj2 (Nat.ltb_lt idx T) H), andb_true_r.
    reflexivity.
Qed.

Lemma fold_add_repeat d s a : fold_left Nat.add (repeat d s) a = (a + s * d)%nat.
Proof. revert a; induction s as [|s IH]; intros a; simpl; [lia|]. rewrite IH. lia. Qed.

(** vector of one division of segment [i] when it is cut in [d] *)
Definition seg_du (np : mat N) (d i : nat) : vec N :=
  vdivs (vsub (nth (S i) np []) (nth i np [])) (nofZ (Z.of_nat d)).

Definition closed_u (np : mat N) (d j : nat) : vec N :=
  vadd (nth (j / d) np []) (vscal (nofZ (Z.of_nat (j mod d))) (seg_du np d (j / d))).

Lemma div_mod_idx d i k : (k < d)%nat -> ((i * d + k) / d = i /\ (i * d + k) mod d = k)%nat.
Proof.
  intros H. split.
  - rewrite Nat.div_add_l by lia. rewrite Nat.div_small by auto. lia.
  - rewrite Nat.add_comm, Nat.mod_add by lia. now apply Nat.mod_small.
Qed.

Definition partial_state (n d T : nat) (np : mat N) (ju jdu : nat -> vec N) (q : nat)
  : mat N * mat N * ten N :=
  (mk (S T) (fun j => if (j <? q)%nat then closed_u np d j else ju j),
   mk T (fun j => if (j <? q)%nat then seg_du np d (j / d) else jdu j),
   mk T (fun j => if (j <? q)%nat then mscal n (vnorm (seg_du np d (j / d))) (eye n) else zeros2 n n)).

Lemma inner_loop n d T np ju jdu i k0 kn :
  (k0 + kn <= d)%nat -> (i * d + k0 + kn <= T)%nat ->
  foldM (fun st k =>
           let '(u, dus, h) := st in
           let idx := (i * d + k)%nat in
           u' <- py_set u idx (vadd (nth i np []) (vscal (nofZ (Z.of_nat k)) (seg_du np d i))) ;;
           dus' <- py_set dus idx (seg_du np d i) ;;
           h' <- py_set h idx (mscal n (vnorm (seg_du np d i)) (eye n)) ;;
           Ok (u', dus', h')) (seq k0 kn) (partial_state n d T np ju jdu (i * d + k0))
  = Ok (partial_state n d T np ju jdu (i * d + k0 + kn)).
Proof.
  revert k0; induction kn as [|kn IH]; intros k0 Hd HT; cbn [seq foldM].
  - now rewrite Nat.add_0_r.
  - destruct (div_mod_idx d i k0 ltac:(lia)) as [Ediv Emod].
    unfold partial_state at 1. cbv beta iota zeta. unfold py_set at 1 2 3.
    rewrite !length_mk.
    rewrite (proj2 (Nat.ltb_lt (i * d + k0) (S T))), (proj2 (Nat.ltb_lt (i * d + k0) T)) by lia.
    cbn [bind].
    rewrite !lset_mk by lia.
    replace (mk (S T) _, mk T _, mk T _)
      with (partial_state n d T np ju jdu (i * d + S k0)).
    + rewrite IH by lia. f_equal. f_equal. lia.
    + unfold partial_state. f_equal; [f_equal|]; apply mk_ext; intros j Hj;
        (destruct (Nat.eqb_spec j (i * d + k0)) as [->|E];
         [rewrite (proj2 (Nat.ltb_lt (i * d + k0) (i * d + S k0))) by lia;
          unfold closed_u; now rewrite ?Ediv, ?Emod
         |destruct (Nat.ltb_spec j (i * d + S k0)), (Nat.ltb_spec j (i * d + k0)); auto; lia]).
Qed.

Lemma outer_loop n d T np ju jdu i0 s : ((i0 + s) * d <= T)%nat ->
  foldM (fun st id =>
         let '(i, divisions) := id in
         let du := vdivs (vsub (nth (S i) np []) (nth i np [])) (nofZ (Z.of_nat divisions)) in
         foldM (fun st k =>
           let '(u, dus, h) := st in
           let idx := (i * divisions + k)%nat in
           u' <- py_set u idx (vadd (nth i np []) (vscal (nofZ (Z.of_nat k)) du)) ;;
           dus' <- py_set dus idx du ;;
           h' <- py_set h idx (mscal n (vnorm du) (eye n)) ;;
           Ok (u', dus', h')) (seq 0 divisions) st)
       (combine (seq i0 s) (repeat d s)) (partial_state n d T np ju jdu (i0 * d))
  = Ok (partial_state n d T np ju jdu ((i0 + s) * d)).
Proof.
  revert i0; induction s as [|s IH]; intros i0 HT; cbn [seq repeat combine foldM].
  - now rewrite Nat.add_0_r.
  - fold (seg_du np d i0).
    pose proof (inner_loop n d T np ju jdu i0 0 d) as E. rewrite !Nat.add_0_r in E.
    match goal with |- bind ?X _ = _ =>
      replace X with (Ok (partial_state n d T np ju jdu (i0 * d + d))) by (symmetry; apply E; lia) end.
    cbn [bind].
    replace (i0 * d + d)%nat with (S i0 * d)%nat by lia. rewrite IH by lia.
    f_equal. f_equal. lia.
Qed.

Theorem geometry_equal n np d s ju jdu : (length np = s + 1)%nat ->
  geometry n np (repeat d s) ju jdu =
  Ok (mk (S (s * d)) (fun j => if (j =? s * d)%nat then nth s np [] else closed_u np d j),
      mk (s * d) (fun j => seg_du np d (j / d)),
      mk (s * d) (fun j => mscal n (vnorm (seg_du np d (j / d))) (eye n))).
Proof.
  intros HL. unfold geometry. rewrite repeat_length, HL, Nat.eqb_refl. cbn [passert bind].
  rewrite fold_add_repeat. cbn [Nat.add].
  pose proof (outer_loop n d (s * d) np ju jdu 0 s (le_n _)) as E. change (0 * d)%nat with 0%nat in E. change (0 + s)%nat with s in E.
  assert (E0 : partial_state n d (s * d) np ju jdu 0 = (mk (S (s * d)) ju, mk (s * d) jdu, zeros3 (s * d) n n))
    by reflexivity.
  rewrite E0 in E.
  match goal with |- bind ?X _ = _ =>
    replace X with (Ok (partial_state n d (s * d) np ju jdu (s * d))) by (symmetry; exact E) end.
  cbn [bind]. unfold partial_state.
  rewrite lset_mk by lia. replace (s + 1 - 1)%nat with s by lia.
  f_equal. f_equal; [f_equal|]; apply mk_ext; intros j Hj.
  - destruct (Nat.eqb_spec j (s * d)); auto. now rewrite (proj2 (Nat.ltb_lt j (s * d))) by lia.
  - now rewrite (proj2 (Nat.ltb_lt j (s * d))) by lia.
  - now rewrite (proj2 (Nat.ltb_lt j (s * d))) by lia.
Qed.

End Geometry.
