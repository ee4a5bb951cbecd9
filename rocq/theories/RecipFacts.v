(** Reciprocity of the scheme: sequences in time as power series, with their convolution.
    Pure real analysis, no model. *)
From Coq Require Import Arith Lia Reals Lra.
From Verif Require Import ErrFacts.
Local Open Scope R_scope.

Notation seqR := (nat -> R).
Definition conv (f g : seqR) (n : nat) : R := rsum (S n) (fun k => f k * g (n - k)%nat).
Definition late (f : seqR) : seqR := fun k => match k with O => 0 | S j => f j end.

Lemma rsum_rev n f : rsum n f = rsum n (fun k => f (n - 1 - k)%nat).
Proof.
  induction n as [|n IH]; [reflexivity|]. rewrite (rsum_shift n (fun k => f (S n - 1 - k)%nat)). cbn [rsum]. rewrite IH.
  replace (S n - 1 - 0)%nat with n by lia. rewrite Rplus_comm. f_equal. apply rsum_ext. intros k Hk. f_equal. lia.
Qed.
Lemma conv_comm f g n : conv f g n = conv g f n.
Proof. unfold conv. rewrite rsum_rev. apply rsum_ext. intros k Hk. rewrite Rmult_comm. f_equal; f_equal; lia. Qed.
Lemma conv_ext f g f' n : (forall k, (k <= n)%nat -> f k = f' k) -> conv f g n = conv f' g n.
Proof. intros H. apply rsum_ext. intros k Hk. now rewrite H by lia. Qed.
Lemma conv_plus f g h n : conv (fun k => f k + g k) h n = conv f h n + conv g h n.
Proof. unfold conv. rewrite <- rsum_plus. apply rsum_ext. intros; ring. Qed.
Lemma conv_scal a f h n : conv (fun k => a * f k) h n = a * conv f h n.
Proof. unfold conv. rewrite <- rsum_scal. apply rsum_ext. intros; ring. Qed.
Lemma conv_late f g n : conv (late f) g (S n) = conv f g n.
Proof. unfold conv. rewrite rsum_shift. cbn [late]. rewrite Rmult_0_l, Rplus_0_l. apply rsum_ext. intros k Hk. reflexivity. Qed.
Lemma conv_late_0 f g : conv (late f) g 0 = 0.
Proof. unfold conv. cbn. ring. Qed.
Lemma conv_shift f g n : conv (late f) g n = conv f (late g) n.
Proof. rewrite (conv_comm f). destruct n; [now rewrite !conv_late_0|]. rewrite !conv_late. apply conv_comm. Qed.
Lemma conv_zero f g n : (forall k, (k <= n)%nat -> f k = 0) -> g 0%nat = 0 -> conv f g (S n) = 0.
Proof.
  intros H G. unfold conv. rewrite (rsum_ext (S (S n)) _ (fun _ => 0)).
  - rewrite rsum_const. ring.
  - intros k Hk. destruct (Nat.eq_dec k (S n)) as [->|]; [replace (S n - S n)%nat with 0%nat by lia; rewrite G; ring|]. rewrite H by lia. ring.
Qed.

(** a product of sequences that is bilinear, symmetric and lets a delay pass from one factor to the other *)
Record bracket (B : seqR -> seqR -> R) : Prop := {
  br_sym : forall f g, B f g = B g f;
  br_plus : forall f g h, B (fun k => f k + g k) h = B f h + B g h;
  br_scal : forall a f h, B (fun k => a * f k) h = a * B f h;
  br_late : forall f g, B (late f) g = B f (late g);
  br_ext : forall f f' g, (forall k, f k = f' k) -> B f g = B f' g
}.
Lemma conv_bracket n : bracket (fun f g => conv f g n).
Proof.
  split; intros.
  - apply conv_comm.
  - apply conv_plus.
  - apply conv_scal.
  - apply conv_shift.
  - now apply conv_ext.
Qed.
Lemma late_ext f g : (forall k, f k = g k) -> forall k, late f k = late g k.
Proof. intros H [|k]; cbn; auto. Qed.
Lemma late_bracket B : bracket B -> bracket (fun f g => B f (late g)).
Proof.
  intros [S P C L E]. split; intros.
  - rewrite <- L. apply S.
  - apply P.
  - apply C.
  - rewrite L. apply S || reflexivity.
  - auto.
Qed.

Section Bracket.
Variable B : seqR -> seqR -> R.
Hypothesis HB : bracket B.
Lemma br_zero g : B (fun _ => 0) g = 0.
Proof. pose proof (br_scal B HB 0 (fun _ => 0) g) as E. rewrite (br_ext B HB _ (fun _ => 0)) in E by (intros; ring). lra. Qed.
Lemma br_sum n (f : nat -> seqR) g : B (fun k => rsum n (fun q => f q k)) g = rsum n (fun q => B (f q) g).
Proof. induction n as [|n IH]; cbn [rsum]; [apply br_zero|]. rewrite (br_plus B HB (fun k => rsum n (fun q => f q k)) (f n)), IH. reflexivity. Qed.
(** the response of a symmetric element [al] times the value plus [be] times the value one step before *)
Definition elem (al be : R) (f : seqR) : seqR := fun k => al * f k + be * late f k.
Lemma elem_sym al be f g : B (elem al be f) g = B (elem al be g) f.
Proof.
  unfold elem. rewrite !(br_plus B HB), !(br_scal B HB), (br_sym B HB g f). f_equal. f_equal. rewrite (br_late B HB f g). apply (br_sym B HB).
Qed.
(** [n] conductors coupled by symmetric matrices *)
Definition coupled (n : nat) (al be : nat -> nat -> R) (f : nat -> seqR) (p : nat) : seqR := fun k => rsum n (fun q => elem (al p q) (be p q) (f q) k).
Definition total (n : nat) (f g : nat -> seqR) : R := rsum n (fun p => B (f p) (g p)).
Lemma rsum_swap n m (f : nat -> nat -> R) : rsum n (fun i => rsum m (f i)) = rsum m (fun j => rsum n (fun i => f i j)).
Proof.
  induction n as [|n IH]; cbn [rsum]; [rewrite rsum_const; ring|]. rewrite IH, <- rsum_plus. reflexivity.
Qed.
Lemma coupled_sym n al be f g : (forall p q, (p < n)%nat -> (q < n)%nat -> al p q = al q p /\ be p q = be q p) ->
  total n (coupled n al be f) g = total n (coupled n al be g) f.
Proof.
  intros H. unfold total, coupled.
  rewrite (rsum_ext n _ (fun p => rsum n (fun q => B (elem (al p q) (be p q) (f q)) (g p)))) by (intros; apply (br_sum n (fun q => elem (al k q) (be k q) (f q)))).
  rewrite (rsum_ext n (fun p => B _ (f p)) (fun p => rsum n (fun q => B (elem (al p q) (be p q) (g q)) (f p)))) by (intros; apply (br_sum n (fun q => elem (al k q) (be k q) (g q)))).
  rewrite rsum_swap. apply rsum_ext. intros p Hp. apply rsum_ext. intros q Hq. rewrite elem_sym. destruct (H p q Hp Hq) as [-> ->]. reflexivity.
Qed.
Lemma total_sym n f g : total n f g = total n g f.
Proof. apply rsum_ext. intros; apply (br_sym B HB). Qed.
Lemma total_plus n f g h : total n (fun p k => f p k + g p k) h = total n f h + total n g h.
Proof. unfold total. rewrite <- rsum_plus. apply rsum_ext. intros; apply (br_plus B HB). Qed.
Lemma total_scal n a f h : total n (fun p k => a * f p k) h = a * total n f h.
Proof. unfold total. rewrite <- rsum_scal. apply rsum_ext. intros; apply (br_scal B HB). Qed.
Lemma total_ext n f f' g : (forall p k, (p < n)%nat -> f p k = f' p k) -> total n f g = total n f' g.
Proof. intros H. apply rsum_ext. intros p Hp. apply (br_ext B HB). intros k. now apply H. Qed.
Lemma total_zero n f g : (forall p, (p < n)%nat -> B (f p) (g p) = 0) -> total n f g = 0.
Proof. intros H. unfold total. rewrite (rsum_ext n _ (fun _ => 0) H), rsum_const. ring. Qed.
End Bracket.

Section Line.
Variables (nc P : nat).   (* conductors; S P cells *)
(** elements of the inner nodes, the cells and the two ends *)
Variables (Ya Yb Xa Xb : nat -> nat -> nat -> R) (La Lb Ra Rb : nat -> nat -> R) (zs zl : nat -> R) (n : nat).

(** [V j p k], [I j p k]: voltage at node [j], current in cell [j] of conductor [p] after [k] steps;
    [s p k], [f p k]: what the generators at the two ends do in step [k] *)
Record solves (V I : nat -> nat -> seqR) (s f : nat -> seqR) : Prop := {
  so_0 : forall j p, (j <= S P)%nat -> (p < nc)%nat -> V j p 0%nat = 0;
  so_node : forall j p k, (j < P)%nat -> (p < nc)%nat -> (k <= n)%nat ->
    coupled nc (Ya j) (Yb j) (V (S j)) p k + (late (I (S j) p) k + - 1 * late (I j p) k) = 0;
  so_cell : forall j p k, (j < S P)%nat -> (p < nc)%nat -> (k <= n)%nat ->
    coupled nc (Xa j) (Xb j) (I j) p k + (V (S j) p k + - 1 * V j p k) = 0;
  so_left : forall p k, (p < nc)%nat -> (k <= n)%nat ->
    coupled nc La Lb (V 0%nat) p k + (elem (/ zs p) (/ zs p) (V 0%nat p) k + (- / zs p * late (s p) k + 2 * late (I 0%nat p) k)) = 0;
  so_right : forall p k, (p < nc)%nat -> (k <= n)%nat ->
    coupled nc Ra Rb (V (S P)) p k + (elem (/ zl p) (/ zl p) (V (S P) p) k + (- / zl p * late (f p) k + - 2 * late (I P p) k)) = 0
}.

Notation br := (fun u w : seqR => conv u w (S n)).
Notation brl := (fun u w : seqR => conv u (late w) (S n)).
Notation tot := (total br nc).
Lemma br1 : bracket br.
Proof. apply conv_bracket. Qed.
Lemma br2 : bracket brl.
Proof. exact (late_bracket _ br1). Qed.

Variables (V I V' I' : nat -> nat -> seqR) (s f s' f' : nat -> seqR).
Lemma so_zero (S1 : solves V I s f) (g : nat -> seqR) eqn : (forall p k, (p < nc)%nat -> (k <= n)%nat -> eqn p k = 0) -> (forall p, (p < nc)%nat -> g p 0%nat = 0) -> total br nc eqn g = 0.
Proof. intros H G. apply total_zero. intros p Hp. apply conv_zero; auto. Qed.

(** one solution tested with the other *)
Lemma node_test (S1 : solves V I s f) (S2 : solves V' I' s' f') j : (j < P)%nat ->
  tot (fun p => late (I (S j) p)) (V' (S j)) - tot (fun p => late (I j p)) (V' (S j)) = - tot (coupled nc (Ya j) (Yb j) (V (S j))) (V' (S j)).
Proof.
  intros Hj. pose proof (so_zero S1 (V' (S j)) _ (fun p k Hp Hk => so_node _ _ _ _ S1 j p k Hj Hp Hk) (fun p Hp => so_0 _ _ _ _ S2 (S j) p ltac:(lia) Hp)) as E.
  rewrite (total_plus br br1) in E. rewrite (total_plus br br1 nc (fun p => late (I (S j) p)) (fun p k => - 1 * late (I j p) k)) in E.
  rewrite (total_scal br br1 nc (- 1) (fun p => late (I j p))) in E. lra.
Qed.
Lemma cell_test (S1 : solves V I s f) (S2 : solves V' I' s' f') j : (j < S P)%nat ->
  tot (V (S j)) (fun p => late (I' j p)) - tot (V j) (fun p => late (I' j p)) = - total brl nc (coupled nc (Xa j) (Xb j) (I j)) (I' j).
Proof.
  intros Hj. pose proof (so_zero S1 (fun p => late (I' j p)) _ (fun p k Hp Hk => so_cell _ _ _ _ S1 j p k Hj Hp Hk) (fun p Hp => eq_refl)) as E.
  rewrite (total_plus br br1) in E. rewrite (total_plus br br1 nc (V (S j)) (fun p k => - 1 * V j p k)) in E.
  rewrite (total_scal br br1 nc (- 1) (V j)) in E. unfold total in *. lra.
Qed.
Lemma left_test (S1 : solves V I s f) (S2 : solves V' I' s' f') :
  tot (fun p k => / zs p * late (s p) k) (V' 0%nat) - 2 * tot (V' 0%nat) (fun p => late (I 0%nat p)) =
  tot (coupled nc La Lb (V 0%nat)) (V' 0%nat) + tot (fun p => elem (/ zs p) (/ zs p) (V 0%nat p)) (V' 0%nat).
Proof.
  pose proof (so_zero S1 (V' 0%nat) _ (fun p k Hp Hk => so_left _ _ _ _ S1 p k Hp Hk) (fun p Hp => so_0 _ _ _ _ S2 0%nat p ltac:(lia) Hp)) as E.
  rewrite (total_plus br br1) in E.
  rewrite (total_plus br br1 nc (fun p => elem (/ zs p) (/ zs p) (V 0%nat p)) (fun p k => - / zs p * late (s p) k + 2 * late (I 0%nat p) k)) in E.
  rewrite (total_plus br br1 nc (fun p k => - / zs p * late (s p) k) (fun p k => 2 * late (I 0%nat p) k)) in E.
  rewrite (total_scal br br1 nc 2 (fun p => late (I 0%nat p))) in E.
  rewrite (total_ext br br1 nc (fun p k => - / zs p * late (s p) k) (fun p k => - 1 * (/ zs p * late (s p) k))) in E by (intros; ring).
  rewrite (total_scal br br1 nc (- 1) (fun p k => / zs p * late (s p) k)) in E.
  rewrite (total_sym br br1 nc (V' 0%nat)). lra.
Qed.
Lemma right_test (S1 : solves V I s f) (S2 : solves V' I' s' f') :
  tot (fun p k => / zl p * late (f p) k) (V' (S P)) + 2 * tot (V' (S P)) (fun p => late (I P p)) =
  tot (coupled nc Ra Rb (V (S P))) (V' (S P)) + tot (fun p => elem (/ zl p) (/ zl p) (V (S P) p)) (V' (S P)).
Proof.
  pose proof (so_zero S1 (V' (S P)) _ (fun p k Hp Hk => so_right _ _ _ _ S1 p k Hp Hk) (fun p Hp => so_0 _ _ _ _ S2 (S P) p ltac:(lia) Hp)) as E.
  rewrite (total_plus br br1) in E.
  rewrite (total_plus br br1 nc (fun p => elem (/ zl p) (/ zl p) (V (S P) p)) (fun p k => - / zl p * late (f p) k + - 2 * late (I P p) k)) in E.
  rewrite (total_plus br br1 nc (fun p k => - / zl p * late (f p) k) (fun p k => - 2 * late (I P p) k)) in E.
  rewrite (total_scal br br1 nc (- 2) (fun p => late (I P p))) in E.
  rewrite (total_ext br br1 nc (fun p k => - / zl p * late (f p) k) (fun p k => - 1 * (/ zl p * late (f p) k))) in E by (intros; ring).
  rewrite (total_scal br br1 nc (- 1) (fun p k => / zl p * late (f p) k)) in E.
  rewrite (total_sym br br1 nc (V' (S P))). lra.
Qed.
Lemma parts Q (a : nat -> nat -> R) :
  rsum (S Q) (fun j => a (S j) j - a j j) = a (S Q) Q - a 0%nat 0%nat - rsum Q (fun j => a (S j) (S j) - a (S j) j).
Proof. induction Q as [|Q IH]; [cbn; ring|]. cbn [rsum] in IH |- *. lra. Qed.
(** what flows through the two ends of one solution, tested with the other *)
Definition ends_test (W J : nat -> nat -> seqR) : R := tot (W (S P)) (fun p => late (J P p)) - tot (W 0%nat) (fun p => late (J 0%nat p)).
End Line.

Section Recip.
Variables (nc P : nat) (Ya Yb Xa Xb : nat -> nat -> nat -> R) (La Lb Ra Rb : nat -> nat -> R) (zs zl : nat -> R) (n : nat).
Hypothesis SY : forall j p q, (j < P)%nat -> (p < nc)%nat -> (q < nc)%nat -> Ya j p q = Ya j q p /\ Yb j p q = Yb j q p.
Hypothesis SX : forall j p q, (j < S P)%nat -> (p < nc)%nat -> (q < nc)%nat -> Xa j p q = Xa j q p /\ Xb j p q = Xb j q p.
Hypothesis SL : forall p q, (p < nc)%nat -> (q < nc)%nat -> La p q = La q p /\ Lb p q = Lb q p.
Hypothesis SR : forall p q, (p < nc)%nat -> (q < nc)%nat -> Ra p q = Ra q p /\ Rb p q = Rb q p.
Notation sol := (solves nc P Ya Yb Xa Xb La Lb Ra Rb zs zl n).
Notation br := (fun u w : seqR => conv u w (S n)).
Notation brl := (fun u w : seqR => conv u (late w) (S n)).
Notation tot := (total br nc).
Lemma ends_sum V I V' I' s f s' f' : sol V I s f -> sol V' I' s' f' ->
  ends_test nc P n V I' = - rsum (S P) (fun j => total brl nc (coupled nc (Xa j) (Xb j) (I j)) (I' j))
                          - rsum P (fun j => tot (coupled nc (Ya j) (Yb j) (V' (S j))) (V (S j))).
Proof.
  intros S1 S2. pose proof (parts P (fun i j => tot (V i) (fun p => late (I' j p)))) as E. cbv beta in E.
  rewrite (rsum_ext (S P) _ (fun j => - 1 * total brl nc (coupled nc (Xa j) (Xb j) (I j)) (I' j))) in E.
  2: { intros j Hj. rewrite (cell_test nc P Ya Yb Xa Xb La Lb Ra Rb zs zl n V I V' I' s f s' f' S1 S2 j Hj). ring. }
  rewrite (rsum_ext P _ (fun j => - 1 * tot (coupled nc (Ya j) (Yb j) (V' (S j))) (V (S j)))) in E.
  2: { intros j Hj. rewrite !(total_sym br (br1 n) nc (V (S j))).
       rewrite (node_test nc P Ya Yb Xa Xb La Lb Ra Rb zs zl n V' I' V I s' f' s f S2 S1 j Hj). ring. }
  rewrite !rsum_scal in E. unfold ends_test. lra.
Qed.
Lemma ends_sym V I V' I' s f s' f' : sol V I s f -> sol V' I' s' f' -> ends_test nc P n V I' = ends_test nc P n V' I.
Proof.
  intros S1 S2. rewrite (ends_sum V I V' I' s f s' f' S1 S2), (ends_sum V' I' V I s' f' s f S2 S1). f_equal; [f_equal|].
  - apply rsum_ext. intros j Hj. apply (coupled_sym brl (br2 n)). intros; now apply SX.
  - apply rsum_ext. intros j Hj. apply (coupled_sym br (br1 n)). intros; now apply SY.
Qed.
Theorem reciprocity V I V' I' s f s' f' : sol V I s f -> sol V' I' s' f' ->
  rsum nc (fun p => / zs p * conv (s p) (V' 0%nat p) n + / zl p * conv (f p) (V' (S P) p) n) =
  rsum nc (fun p => / zs p * conv (s' p) (V 0%nat p) n + / zl p * conv (f' p) (V (S P) p) n).
Proof.
  intros S1 S2.
  pose proof (ends_sym _ _ _ _ _ _ _ _ S1 S2) as E. unfold ends_test in E.
  pose proof (left_test nc P Ya Yb Xa Xb La Lb Ra Rb zs zl n V I V' I' s f s' f' S1 S2) as L1.
  pose proof (left_test nc P Ya Yb Xa Xb La Lb Ra Rb zs zl n V' I' V I s' f' s f S2 S1) as L2.
  pose proof (right_test nc P Ya Yb Xa Xb La Lb Ra Rb zs zl n V I V' I' s f s' f' S1 S2) as R1.
  pose proof (right_test nc P Ya Yb Xa Xb La Lb Ra Rb zs zl n V' I' V I s' f' s f S2 S1) as R2.
  rewrite (coupled_sym br (br1 n) nc La Lb (V 0%nat) (V' 0%nat) SL) in L1.
  rewrite (coupled_sym br (br1 n) nc Ra Rb (V (S P)) (V' (S P)) SR) in R1.
  assert (EL : tot (fun p => elem (/ zs p) (/ zs p) (V 0%nat p)) (V' 0%nat) = tot (fun p => elem (/ zs p) (/ zs p) (V' 0%nat p)) (V 0%nat))
    by (apply rsum_ext; intros; apply (elem_sym br (br1 n))).
  assert (ER : tot (fun p => elem (/ zl p) (/ zl p) (V (S P) p)) (V' (S P)) = tot (fun p => elem (/ zl p) (/ zl p) (V' (S P) p)) (V (S P)))
    by (apply rsum_ext; intros; apply (elem_sym br (br1 n))).
  assert (F : forall (g W : nat -> seqR) (z : nat -> R), tot (fun p k => / z p * late (g p) k) W = rsum nc (fun p => / z p * conv (g p) (W p) n)).
  { intros g W z. apply rsum_ext. intros p Hp. rewrite (br_scal br (br1 n) (/ z p) (late (g p))). now rewrite conv_late. }
  rewrite !F in *. rewrite !rsum_plus. lra.
Qed.
End Recip.

Lemma rsum_one N j f : (j < N)%nat -> (forall i, (i < N)%nat -> i <> j -> f i = 0) -> rsum N f = f j.
Proof.
  induction N as [|N IH]; intros Hj H; [lia|]. cbn [rsum]. destruct (Nat.eq_dec j N) as [->|Hne].
  - rewrite (rsum_ext N f (fun _ => 0)), rsum_const by (intros; apply H; lia). ring.
  - rewrite IH by (try lia; intros; apply H; lia). rewrite (H N) by lia. ring.
Qed.
(** a convolution that vanishes up to some index has a vanishing factor *)
Lemma conv_cancel (e d : seqR) k0 n : (forall k, (k < k0)%nat -> e k = 0) -> e k0 <> 0 ->
  (forall m, (m <= n + k0)%nat -> conv e d m = 0) -> forall j, (j <= n)%nat -> d j = 0.
Proof.
  intros Z NZ H j. induction j as [j IH] using (well_founded_induction lt_wf). intros Hj.
  pose proof (H (j + k0)%nat ltac:(lia)) as E. rewrite conv_comm in E. unfold conv in E.
  rewrite (rsum_one _ j) in E; [|lia|].
  2: { intros i Hi Hne. destruct (Nat.lt_ge_cases i j); [rewrite (IH i) by lia; ring|rewrite (Z (j + k0 - i)%nat) by lia; ring]. }
  replace (j + k0 - j)%nat with k0 in E by lia. destruct (Rmult_integral _ _ E); [assumption|contradiction].
Qed.
