(** Energy balance of networks of lines: sums over lists, one bundle, one circuit. *)
From Coq Require Import String List Arith ZArith Bool Permutation Lia Reals Lra.
From Verif Require Import Num Py Arr ArrFacts NumR RFacts LinAlg Utils Probes Dispersive Line LineFacts Bundle Networks Mtln SpecLine SpecR SpecBundle SpecCore SpecDisp SpecDyn SpecNet SpecMtln
  SpecEnergy SpecTele SpecNetEnergy RunEqFacts EnergyFacts.
Import ListNotations.
Local Open Scope R_scope.

(** ** sums over lists *)
Lemma total_cons {A} (f : A -> R) a l : total f (a :: l) = f a + total f l.
Proof. reflexivity. Qed.
Lemma total_nil {A} (f : A -> R) : total f [] = 0.
Proof. reflexivity. Qed.
Lemma total_ext {A} (f g : A -> R) l : (forall a, In a l -> f a = g a) -> total f l = total g l.
Proof. induction l as [|a l IH]; intros H; [reflexivity|]. rewrite !total_cons, (H a), IH; auto; [intros; apply H; now right|now left]. Qed.
Lemma total_app {A} (f : A -> R) l l' : total f (l ++ l') = total f l + total f l'.
Proof. induction l as [|a l IH]; cbn [app]; rewrite ?total_nil, ?total_cons; [lra|]. rewrite IH. lra. Qed.
Lemma total_flat {A B} (f : B -> R) (g : A -> list B) l : total f (flat_map g l) = total (fun a => total f (g a)) l.
Proof. induction l as [|a l IH]; cbn [flat_map]; [reflexivity|]. now rewrite total_app, total_cons, IH. Qed.
Lemma total_map {A B} (f : B -> R) (g : A -> B) l : total f (map g l) = total (fun a => f (g a)) l.
Proof. induction l as [|a l IH]; cbn [map]; [reflexivity|]. now rewrite !total_cons, IH. Qed.
Lemma total_perm {A} (f : A -> R) l l' : Permutation l l' -> total f l = total f l'.
Proof. induction 1; rewrite ?total_cons in *; try lra. Qed.
Lemma total_plus {A} (f g : A -> R) l : total (fun a => f a + g a) l = total f l + total g l.
Proof. induction l as [|a l IH]; rewrite ?total_cons, ?total_nil; [lra|]. rewrite IH. lra. Qed.
Lemma total_scal {A} c (f : A -> R) l : total (fun a => c * f a) l = c * total f l.
Proof. induction l as [|a l IH]; rewrite ?total_cons, ?total_nil; [lra|]. rewrite IH. lra. Qed.
Lemma total_opp {A} (f : A -> R) l : total (fun a => - f a) l = - total f l.
Proof. rewrite (total_ext _ (fun a => (-1) * f a)) by (intros; lra). rewrite total_scal. lra. Qed.
Lemma total_minus {A} (f g : A -> R) l : total (fun a => f a - g a) l = total f l - total g l.
Proof. induction l as [|a l IH]; rewrite ?total_cons, ?total_nil; [lra|]. rewrite IH. lra. Qed.
Lemma total_nonneg {A} (f : A -> R) l : (forall a, In a l -> 0 <= f a) -> 0 <= total f l.
Proof. induction l as [|a l IH]; intros H; [rewrite total_nil; lra|]. rewrite total_cons. pose proof (H a (or_introl eq_refl)). assert (0 <= total f l) by (apply IH; intros; apply H; now right). lra. Qed.
Lemma total_le {A} (f g : A -> R) l : (forall a, In a l -> f a <= g a) -> total f l <= total g l.
Proof. intros H. assert (0 <= total (fun a => g a - f a) l) by (apply total_nonneg; intros a Ha; specialize (H a Ha); lra). rewrite total_minus in *. lra. Qed.
Lemma total_term {A} (f : A -> R) l a : In a l -> (forall a, In a l -> 0 <= f a) -> f a <= total f l.
Proof.
  induction l as [|b l IH]; intros I H; [destruct I|]; destruct I as [E|I]; rewrite total_cons.
  - subst b. assert (0 <= total f l) by (apply total_nonneg; intros; apply H; now right). lra.
  - assert (f a <= total f l) by (apply IH; auto; intros; apply H; now right). pose proof (H b (or_introl eq_refl)). lra.
Qed.
Lemma total_seq f n : forall s, total f (seq s n) = sumR n (fun k => f (s + k)%nat).
Proof.
  induction n as [|n IH]; intros s; [reflexivity|]. cbn [seq]. rewrite total_cons, IH, sumR_shift, Nat.add_0_r. f_equal. apply sumR_ext. intros k Hk. f_equal. lia.
Qed.
Lemma total_filter {A} (p : A -> bool) (f : A -> R) l : total (fun a => if p a then f a else 0) l = total f (filter p l).
Proof. induction l as [|a l IH]; cbn [filter]; [reflexivity|]. rewrite total_cons, IH. destruct (p a); [reflexivity|lra]. Qed.
(** a sum over distinct numbers that include all those that count *)
Lemma total_support (f : nat -> R) n : forall l, NoDup l -> (forall r, In r l -> (r < n)%nat) -> (forall r, (r < n)%nat -> f r <> 0 -> In r l) -> total f l = sumR n f.
Proof.
  intros l ND Lt Su. change (sumR n f) with (sumR n (fun k => f (0 + k)%nat)). rewrite <- (total_seq f n 0). 
  assert (P : Permutation l (filter (fun r => if in_dec Nat.eq_dec r l then true else false) (seq 0 n))).
  { apply NoDup_Permutation; [exact ND|apply NoDup_filter, seq_NoDup|]. intros r. rewrite filter_In, in_seq. destruct (in_dec Nat.eq_dec r l) as [I|I]; split; auto; try tauto.
    - intros _. split; auto. specialize (Lt r I). lia.
    - intros [_ X]. discriminate X. }
  rewrite (total_perm f _ _ P), <- total_filter. apply total_ext. intros r Hr. apply in_seq in Hr. destruct (in_dec Nat.eq_dec r l); [reflexivity|].
  destruct (Req_dec (f r) 0) as [E|E]; [now rewrite E|]. exfalso. apply n0. apply Su; [lia|exact E].
Qed.
Lemma total_combine {A B} (f : A -> R) (g : B -> R) l : forall l', length l' = length l -> total (fun p => f (fst p) + g (snd p)) (combine l l') = total f l + total g l'.
Proof.
  induction l as [|a l IH]; intros [|b l'] E; cbn in E; try discriminate; cbn [combine]; rewrite ?total_nil, ?total_cons; [lra|]. cbn [fst snd]. rewrite IH by lia. lra.
Qed.
Lemma total_fst {A B} (f : A -> R) l (l' : list B) : length l' = length l -> total (fun p => f (fst p)) (combine l l') = total f l.
Proof. intros E. rewrite <- (total_ext (fun p => f (fst p) + 0) _ _) by (intros; lra). rewrite (total_combine f (fun _ : B => 0)) by exact E. assert (Z : total (fun _ : B => 0) l' = 0) by (clear; induction l'; rewrite ?total_nil, ?total_cons; lra). lra. Qed.
Lemma total_snd {A B} (f : B -> R) (l : list A) l' : length l' = length l -> total (fun p => f (snd p)) (combine l l') = total f l'.
Proof. intros E. rewrite <- (total_ext (fun p => 0 + f (snd p)) _ _) by (intros; lra). rewrite (total_combine (fun _ : A => 0) f) by exact E. assert (Z : total (fun _ : A => 0) l = 0) by (clear; induction l; rewrite ?total_nil, ?total_cons; lra). lra. Qed.

(** ** one bundle *)
(** current into the line at an end *)
Definition in_cur (b : bundle NumR) (e : bool) (r : nat) : R := if e then - bI b (b_cells b - 1) r else bI b 0 r.
Definition eV (b : bundle NumR) (e : bool) (r : nat) : R := bV b (if e then b_cells b else 0%nat) r.
(** energy that enters through a conductor end in a step *)
Definition inflow (dt : R) (b b' : bundle NumR) (e : bool) (r : nat) : R :=
  (eV b' e r + eV b e r) * (sumR (b_conductors b) (fun r' => b_end_cap b e r r' * (eV b' e r' - eV b e r')) / 4 + dt / 2 * in_cur b e r).

Lemma end_half n (C : nat -> nat -> R) h v v' : symm n C ->
  h / 2 * quad n C v' / 2 - h / 2 * quad n C v / 2 = sumR n (fun r => (v' r + v r) * (sumR n (fun r' => h * C r r' * (v' r' - v r')) / 4)).
Proof.
  intros S. replace (h / 2 * quad n C v' / 2 - h / 2 * quad n C v / 2) with (h / 4 * (quad n C v' - quad n C v)) by (unfold Rdiv; lra).
  rewrite (quad_diff n C v v' S). unfold dot. rewrite <- sumR_scal. apply sumR_ext. intros r Hr. unfold mulv.
  rewrite (sumR_ext n (fun r' => h * C r r' * (v' r' - v r')) (fun r' => h * (C r r' * (v' r' - v r')))) by (intros; rring). rewrite sumR_scal. rsimpl. unfold Rdiv. ring.
Qed.

Lemma bundle_balance (LA : lapack NumR) dt t b b' : unlit_bundle LA b -> dt <> 0 -> (1 <= b_cells b)%nat -> telegraph dt dt t b b' ->
  b_cells b' = b_cells b -> b_conductors b' = b_conductors b -> (forall k, klen (b_core b') k = klen (b_core b) k) ->
  (forall k i j, kC (b_core b') k i j = kC (b_core b) k i j /\ kL (b_core b') k i j = kL (b_core b) k i j) ->
  (forall k c, (k < b_cells b)%nat -> (c < b_conductors b)%nat -> kmem (b_core b') k c = 0) ->
  b_energy dt b' - b_energy dt b = - b_lost_R dt b b' - b_lost_G dt b b' + sumR (b_conductors b) (fun r => inflow dt b b' false r + inflow dt b b' true r).
Proof.
  intros U D N1 [TV TI] EN En Eh EM Mem. set (n := b_conductors b) in *. set (N := b_cells b) in *.
  set (s := fun (k : nat) c => bV b' k c + bV b k c).
  assert (Es : forall k, b_share b' k = b_share b k) by (intros k; unfold b_share; now rewrite EN, !Eh).
  (* cells *)
  set (mg := fun b0 : bundle NumR => sumR N (fun k => klen (b_core b) k * quad n (kL (b_core b) k) (bI b0 k) / 2 + dt / 2 * dot n (bI b0 k) (fun c => bV b0 (S k) c - bV b0 k c))).
  set (el := fun b0 : bundle NumR => sumR (S N) (fun k => b_share b k * quad n (kC (b_core b) k) (bV b0 k) / 2)).
  assert (SPb : b_energy dt b = el b + mg b).
  { unfold b_energy, b_stored, el, mg. fold N n. rewrite sumR_plus, sumR_scal, !sumR_div. rsimpl. ring. }
  assert (SPb' : b_energy dt b' = el b' + mg b').
  { unfold b_energy, b_stored, el, mg. rewrite EN, En. fold N n. rewrite sumR_plus, sumR_scal, !sumR_div.
    rewrite (sumR_ext (S N) _ (fun k => b_share b k * quad n (kC (b_core b) k) (bV b' k))) by (intros; rewrite Es; f_equal; apply quad_ext; auto; intros; apply EM).
    rewrite (sumR_ext N (fun k => klen (b_core b') k * _) (fun k => klen (b_core b) k * quad n (kL (b_core b) k) (bI b' k))) by (intros; rewrite Eh; f_equal; apply quad_ext; auto; intros; apply EM).
    rsimpl. ring. }
  assert (MG : mg b' - mg b = - b_lost_R dt b b' - dt / 2 * sumR N (fun k => dot n (bI b k) (fun c => s (S k) c - s k c))).
  { unfold mg, b_lost_R. fold N n. rewrite <- sumR_minus, <- !sumR_scal, <- sumR_opp, <- sumR_minus. apply sumR_ext. intros k Hk.
    pose proof (cell_balance n (kL (b_core b) k) (kR (b_core b) k) (klen (b_core b) k) dt (bI b k) (bI b' k) (fun c => bV b (S k) c - bV b k c) (fun c => bV b' (S k) c - bV b' k c) (ub_L _ _ U k Hk) D) as E.
    rewrite (dot_ext n (bI b k) (fun c => s (S k) c - s k c) (bI b k) (fun c => bV b' (S k) c - bV b' k c + (bV b (S k) c - bV b k c))) by (auto; intros; unfold s; ring).
    apply E. intros c Hc. pose proof (TI c k Hc Hk) as F. fold n in F.
    rewrite !(ub_T _ _ U) in F by (auto; fold N; lia). rewrite !(ub_E _ _ U) in F by auto. rewrite (Mem k c Hk Hc) in F.
    assert (Z : forall A y, (forall i j, A i j = 0) -> sumR n (fun p => A c p * y p) = 0) by (intros A y HA; apply sumR_zero; intros p _; rewrite HA; rring).
    rewrite (Z (kD (b_core b) k) (fun p => b_curr b' p k + b_curr b p k)) in F by (intros; apply (ub_D _ _ U)).
    rewrite (Z (kE (b_core b) k) (fun p => b_curr b' p k - b_curr b p k)) in F by (intros; apply (ub_D _ _ U)).
    rewrite (Z (kQ1 (b_core b) k) (fun p => b_curr b' p k)) in F by (intros; apply (ub_D _ _ U)).
    rewrite (Z (kQ2 (b_core b) k) (fun p => b_curr b p k)) in F by (intros; apply (ub_D _ _ U)).
    unfold mulv, bI, bV. unfold Rdiv in *. rsimpl. lra. }
  assert (EI : el b' - el b = - b_lost_G dt b b' - dt / 2 * sumR (N - 1) (fun k => dot n (s (S k)) (fun c => bI b (S k) c - bI b k c))
     + (b_share b 0 * quad n (kC (b_core b) 0) (bV b' 0) / 2 - b_share b 0 * quad n (kC (b_core b) 0) (bV b 0) / 2)
     + (b_share b N * quad n (kC (b_core b) N) (bV b' N) / 2 - b_share b N * quad n (kC (b_core b) N) (bV b N) / 2)).
  { unfold el, b_lost_G. fold N n. rewrite !(sumR_ends N _ N1).
    assert (X : sumR (N - 1) (fun k => b_share b (S k) * quad n (kC (b_core b) (S k)) (bV b' (S k)) / 2) - sumR (N - 1) (fun k => b_share b (S k) * quad n (kC (b_core b) (S k)) (bV b (S k)) / 2) =
      - (dt * sumR (N - 1) (fun k => b_share b (S k) * quad n (kG (b_core b) (S k)) (fun c => (bV b' (S k) c + bV b (S k) c) / 2))) - dt / 2 * sumR (N - 1) (fun k => dot n (s (S k)) (fun c => bI b (S k) c - bI b k c))).
    { rewrite <- sumR_minus, <- !sumR_scal, <- sumR_opp, <- sumR_minus. apply sumR_ext. intros k Hk.
      apply (node_balance n (kC (b_core b) (S k)) (kG (b_core b) (S k)) (b_share b (S k)) dt (bV b (S k)) (bV b' (S k)) (bI b (S k)) (bI b k)); auto; [apply (ub_C _ _ U); fold N; lia|].
      intros c Hc. pose proof (TV c (S k) Hc ltac:(lia) ltac:(fold N; lia)) as F. cbv zeta in F. fold n in F.
      rewrite (sumR_ext n (fun p => kC _ _ _ _ * _) (fun p => kC (b_core b) (S k) c p * (b_volt b' p (S k) - b_volt b p (S k)))) in F by (intros p Hp; rewrite !(ub_T _ _ U) by (auto; fold N; lia); rring).
      rewrite (sumR_ext n (fun p => kG _ _ _ _ * _) (fun p => kG (b_core b) (S k) c p * (b_volt b' p (S k) + b_volt b p (S k)))) in F by (intros p Hp; rewrite !(ub_T _ _ U) by (auto; fold N; lia); rring).
      assert (W : b_share b (S k) = kwidth (b_core b) (S k)).
      { unfold b_share, kwidth. change (k_N (b_core b)) with N. fold N. assert (Y : (S k =? N)%nat = false) by (apply Nat.eqb_neq; lia). now rewrite Y. }
      rewrite W. replace (S k - 1)%nat with k in F by lia. exact F. }
    rsimpl. lra. }
  assert (BP : sumR N (fun k => dot n (bI b k) (fun c => s (S k) c - s k c)) = dot n (s N) (bI b (N - 1)) - dot n (s 0%nat) (bI b 0) - sumR (N - 1) (fun k => dot n (s (S k)) (fun c => bI b (S k) c - bI b k c))).
  { replace N with (S (N - 1)) at 1 2 by lia. apply (by_parts n (bI b) s). }
  assert (S0 : b_share b 0 = klen (b_core b) 0 / 2) by reflexivity.
  assert (SN : b_share b N = klen (b_core b) (N - 1) / 2). { unfold b_share. fold N. rewrite (Nat.eqb_refl N). destruct (Nat.eqb_spec N 0); [lia|reflexivity]. }
  rewrite S0, SN in EI. rewrite (end_half n _ _ _ _ (ub_C _ _ U 0%nat ltac:(lia))), (end_half n _ _ _ _ (ub_C _ _ U N ltac:(fold N; lia))) in EI.
  rewrite SPb, SPb'. replace (el b' + mg b' - (el b + mg b)) with ((el b' - el b) + (mg b' - mg b)) by lra. rewrite EI, MG, BP.
  rewrite sumR_plus. unfold inflow, in_cur, eV, b_end_cap. cbv iota. rewrite EN. fold n N.
  rewrite (sumR_ext n (fun r => (bV b' 0 r + bV b 0 r) * (_ + _)) (fun r => (bV b' 0 r + bV b 0 r) * (sumR n (fun r' => klen (b_core b) 0 * kC (b_core b) 0 r r' * (bV b' 0 r' - bV b 0 r')) / 4) + dt / 2 * (s 0%nat r * bI b 0 r))) by (intros; unfold s; rring).
  rewrite (sumR_ext n (fun r => (bV b' N r + bV b N r) * (_ + _)) (fun r => (bV b' N r + bV b N r) * (sumR n (fun r' => klen (b_core b) (N - 1) * kC (b_core b) N r r' * (bV b' N r' - bV b N r')) / 4) + (- (dt / 2)) * (s N r * bI b (N - 1) r))) by (intros; unfold s; rring).
  rewrite !sumR_plus, !sumR_scal. unfold dot. rsimpl. ring.
Qed.

(** ** one circuit *)
Lemma quad_diff3 n A (v vp v' : nat -> R) : symm n A ->
  dot n (fun i => v' i + v i) (mulv n A (fun i => v' i - vp i)) =
  (quad n A (fun i => v' i + v i) - quad n A (fun i => v i + vp i) + quad n A (fun i => v' i - vp i)) / 2.
Proof.
  intros S. pose proof (quad_diff n A (fun i => v i + vp i) (fun i => v' i + v i) S) as Q.
  rewrite (dot_ext n (fun c => v' c + v c + (v c + vp c)) _ (fun c => 2 * (v' c + v c) - (v' c - vp c)) (mulv n A (fun i => v' i - vp i))) in Q.
  - rewrite dot_sub_l, dot_scal_l in Q. rewrite (quad_dot n A (fun i => v' i - vp i)). lra.
  - intros; ring.
  - intros. apply mulv_ext. intros; ring.
Qed.
Lemma net_balance (w w' : network NumR) dt t : symm (w_nodes w) (nQ w) -> dt <> 0 ->
  (forall i, nQ w' i = nQ w i) -> w_nodes w' = w_nodes w -> (forall i, nVprev w' i = nV w i) ->
  dt / 4 * sumR (w_nodes w) (fun i => (nV w' i + nV w i) *
    (circuit_current w dt (nV w') (nV w) (nX w') (fun j => nSrc w j t) (fun j => nSrc w j (t - dt)) i
     + circuit_current w dt (nV w) (nVprev w) (nX w) (fun j => nSrc w j (t - dt)) (fun j => nSrc w j (t - 2 * dt)) i)) =
  - w_lost_R dt w w' - w_lost_C w w' - (w_stored w' - w_stored w) + w_work dt t w w'.
Proof.
  intros S D EQ En EP. set (n := w_nodes w) in *. set (s := fun i => nV w' i + nV w i).
  assert (L : sumR n (fun i => (nV w' i + nV w i) *
    (circuit_current w dt (nV w') (nV w) (nX w') (fun j => nSrc w j t) (fun j => nSrc w j (t - dt)) i
     + circuit_current w dt (nV w) (nVprev w) (nX w) (fun j => nSrc w j (t - dt)) (fun j => nSrc w j (t - 2 * dt)) i)) =
    dot n s (mulv n (nG w) s) + dot n s (mulv n (nQ w) (fun i => nV w' i - nVprev w i)) / dt
    + sumR n (fun i => s i * (driven_current w dt t (nX w') i + driven_current w dt (t - dt) (nX w) i))).
  { unfold dot. rewrite <- sumR_div, <- !sumR_plus. apply sumR_ext. intros i Hi. unfold driven_current, circuit_current, s. fold n.
    change (@sumn NumR) with sumR. rsimpl. replace (t - dt - dt) with (t - 2 * dt) by ring.
    assert (G0 : forall A : nat -> nat -> R, sumR n (fun j => A i j * 0) = 0) by (intros; apply sumR_zero; intros; rring).
    assert (G1 : forall A : nat -> nat -> R, sumR n (fun j => A i j * (0 - 0)) = 0) by (intros; apply sumR_zero; intros; rring).
    rewrite !(G0 (nG w)), !(G1 (nQ w)). unfold mulv. rewrite sumR_mulv_add || idtac.
    replace (sumR n (fun j => nG w i j * (nV w' j + nV w j))) with (sumR n (fun j => nG w i j * nV w' j) + sumR n (fun j => nG w i j * nV w j)) by (rewrite <- sumR_plus; apply sumR_ext; intros; rring).
    replace (sumR n (fun j => nQ w i j * (nV w' j - nVprev w j))) with (sumR n (fun j => nQ w i j * (nV w' j - nV w j)) + sumR n (fun j => nQ w i j * (nV w j - nVprev w j))) by (rewrite <- sumR_plus; apply sumR_ext; intros; rring).
    unfold Rdiv. ring. }
  rewrite L. unfold s at 3 4. rewrite (quad_diff3 n (nQ w) (nV w) (nVprev w) (nV w') S).
  unfold w_lost_R, w_lost_C, w_stored, w_work. rewrite En. fold n.
  rewrite (quad_ext n (nQ w') (nQ w) (fun i => (nV w' i + nVprev w' i) / 2) (fun i => (nV w' i + nV w i) / 2)) by (auto; intros; rewrite ?EQ, ?EP; auto).
  rewrite !quad_half. unfold s. rewrite (quad_dot n (nG w)).
  rewrite (sumR_ext n (fun i => (nV w' i + nV w i) / 2 * _) (fun i => / 4 * ((nV w' i + nV w i) * (driven_current w dt t (nX w') i + driven_current w dt (t - dt) (nX w) i)))) by (intros; rsimpl; unfold Rdiv; field).
  rewrite sumR_scal. rsimpl. field. auto.
Qed.
