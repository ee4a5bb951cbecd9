(** A line in a bundle with both ends connected to ground behaves as the stand-alone line. *)
From Coq Require Import String List Arith ZArith Bool Permutation Lia Reals Lra.
From Verif Require Import Num Py Arr ArrFacts NumR RFacts LinAlg Utils Probes Dispersive Line LineFacts Bundle Networks Mtln
  SpecLine SpecR SpecBundle SpecNet SpecMtln SpecCore SpecTele SpecSuper SpecSolo HistoryFacts BundleFacts BundleR BundleMore CoreEq CoreUnique SymFacts
  AloneFacts AloneRun NetFacts NetBuild NetR NetStamp NetStamp2 NetPlace NetMore MtlnFacts MtlnProps MtlnR SuperNet.
Import ListNotations.
Local Open Scope R_scope.

(** *** circuits of resistors to ground *)
Record shore (n : nat) (name : string) (e : bool) (h : R) (C : nat -> nat -> R) (Z : nat -> R) (f : nat -> R -> R) (w : network NumR) : Prop := {
  so_shape : nshape w; so_nodes : w_nodes w = n;
  so_rows : forall kn, In kn (w_conns w) -> nd_bundle (snd kn) = name /\ nd_row (snd kn) = nd_index (snd kn) /\ nd_end (snd kn) = e;
  so_len : forall i, (i < n)%nat -> nLen w i = h;
  so_cap : forall i j, (i < n)%nat -> (j < n)%nat -> nCap w i j = C i j;
  so_fld : forall i t, (i < n)%nat -> nField w i t = 0;
  so_G : forall i j, (i < n)%nat -> (j < n)%nat -> nG w i j = if (i =? j)%nat then - (1 / Z i) else 0;
  so_S : forall i t, (i < n)%nat -> sumR n (fun j => nGs w i j * nSrc w j t) = f i t / Z i;
  so_O : forall i j, nO w i j = 0; so_Q : forall i j, nQ w i j = 0; so_Qs : forall i j, nQs w i j = 0
}.
Lemma shore_keep n name e h C Z f w w' : shore n name e h C Z f w -> nshape w' -> same_circuit w w' -> w_vsrc w' = w_vsrc w -> w_eT w' = w_eT w -> shore n name e h C Z f w'.
Proof.
  intros S Sh K Ev Ee. destruct (same_circuit_obs _ _ K) as (O1 & O2 & O3 & O4 & O5 & O6 & O7 & _).
  assert (Es : forall j t, nSrc w' j t = nSrc w j t) by (intros; unfold nSrc; now rewrite Ev).
  assert (Ef : forall j t, nField w' j t = nField w j t) by (intros; unfold nField; now rewrite Ee).
  destruct S. split; auto; intros.
  - now rewrite (sc_nodes _ _ K).
  - rewrite (sc_conns _ _ K) in H. auto.
  - rewrite O1. auto.
  - rewrite O2. auto.
  - rewrite Ef. auto.
  - rewrite O3. auto.
  - rewrite <- so_S0 by assumption. apply sumR_ext. intros j Hj. now rewrite O4, Es.
  - rewrite O7. auto.
  - rewrite O5. auto.
  - rewrite O6. auto.
Qed.

(** Kirchhoff's law at these nodes is the terminal equation of the line *)
Section S.
Variable LA : lapack NumR.
Hypothesis LAok : lapack_ok LA.
Lemma sum_one n i x (g : nat -> R) : (i < n)%nat -> sumR n (fun j => (if (i =? j)%nat then x else 0) * g j) = x * g i.
Proof.
  intros Hi. rewrite (sumR_ext n _ (fun j => @delta NumR i j * (x * g j))).
  - now rewrite sumR_delta_l.
  - intros j Hj. unfold delta. rsimpl. destruct (i =? j)%nat; ring.
Qed.
Lemma shore_step n name e h C Z f ds (dt : R) w w' t i : shore n name e h C Z f w -> net_run LA ds dt w -> nw_advance_voltage LA w t dt = Ok w' -> (i < n)%nat -> Z i <> 0 ->
  Z i * (h * (sumR n (fun j => C i j * (nV w' j - nV w j)) / dt) + 2 * nI w i) + nV w' i + nV w i = f i t + f i (t - dt).
Proof.
  intros S Hr Hst Hi HZ. pose proof (net_kcl LA LAok ds dt w w' t i Hr Hst) as E. rewrite (so_nodes _ _ _ _ _ _ _ _ S) in E. specialize (E Hi). cbv zeta in E.
  unfold circuit_current in E. rewrite (so_nodes _ _ _ _ _ _ _ _ S) in E. change (@sumn NumR) with sumR in E. rsimpl.
  rewrite (sumR_zero n (fun j => nLen w i * nCap w i j * (nField w j t - nField w j (t - dt)))) in E
    by (intros j Hj; rewrite !(so_fld _ _ _ _ _ _ _ _ S) by assumption; rring).
  rewrite (sumR_ext n (fun j => nLen w i * nCap w i j * (nV w' j - nV w j)) (fun j => h * (C i j * (nV w' j - nV w j)))) in E
    by (intros j Hj; rewrite (so_len _ _ _ _ _ _ _ _ S), (so_cap _ _ _ _ _ _ _ _ S) by assumption; rring).
  assert (O0 : forall x, sumR (w_ns w) (fun j => @nmul NumR (nO w i j) (x j)) = 0) by (intros x; apply sumR_zero; intros j _; rewrite (so_O _ _ _ _ _ _ _ _ S); apply Rmult_0_l).
  assert (Q0 : forall x y, sumR n (fun j => @nmul NumR (nQ w i j) (@nsub NumR (x j) (y j))) = 0) by (intros x y; apply sumR_zero; intros j _; rewrite (so_Q _ _ _ _ _ _ _ _ S); apply Rmult_0_l).
  assert (Q1 : forall x y, sumR n (fun j => @nmul NumR (nQs w i j) (@nsub NumR (x j) (y j))) = 0) by (intros x y; apply sumR_zero; intros j _; rewrite (so_Qs _ _ _ _ _ _ _ _ S); apply Rmult_0_l).
  assert (G0 : forall x : nat -> R, sumR n (fun j => @nmul NumR (nG w i j) (x j)) = - (1 / Z i) * x i).
  { intros x. rewrite <- (sum_one n i (- (1 / Z i)) x Hi). apply sumR_ext. intros j Hj. now rewrite (so_G _ _ _ _ _ _ _ _ S). }
  assert (S0 : forall s, sumR n (fun j => @nmul NumR (nGs w i j) (nSrc w j s)) = f i s / Z i) by (intros s; exact (so_S _ _ _ _ _ _ _ _ S i s Hi)).
  rewrite !O0, !Q0, !Q1, !G0, !S0 in E. rewrite sumR_scal in E.
  set (X := sumR n (fun j => C i j * (nV w' j - nV w j))) in *. revert E. rsimpl. intros E.
  assert (F : Z i * (h * (X / dt)) = - nV w' i + f i t + (- nV w i + f i (t - dt)) - 2 * (Z i * nI w i)); [|lra].
  replace (h * (X / dt)) with (h * X / dt) by (unfold Rdiv; ring). rewrite E. replace (0 / dt) with 0 by (unfold Rdiv; ring). field. exact HZ.
Qed.

(** *** one step of a network of lines with one bundle and two such circuits *)
Lemma fold_hit {A} (p : A -> bool) (g : A -> R) l : forall d v, (exists a, In a l /\ p a = true) -> (forall a, In a l -> p a = true -> g a = v) ->
  fold_left (fun acc a => if p a then g a else acc) l d = v.
Proof.
  assert (Stay : forall l v, (forall a, In a l -> p a = true -> g a = v) -> fold_left (fun acc a => if p a then g a else acc) l v = v).
  { clear. induction l as [|a l IH]; intros v H; cbn [fold_left]; [reflexivity|]. destruct (p a) eqn:E.
    - rewrite (H a (or_introl eq_refl) E). apply IH. intros; apply H; auto. now right.
    - apply IH. intros; apply H; auto. now right. }
  induction l as [|a l IH]; intros d v [b [Hb Pb]] H; [destruct Hb|]. cbn [fold_left]. destruct (p a) eqn:E.
  - rewrite (H a (or_introl eq_refl) E). apply Stay. intros; apply H; auto. now right.
  - apply IH; [|intros; apply H; auto; now right]. destruct Hb as [->|Hb]; [congruence|eauto].
Qed.
Lemma fold_miss {A} (p : A -> bool) (g : A -> R) l : forall d, (forall a, In a l -> p a = false) -> fold_left (fun acc a => if p a then g a else acc) l d = d.
Proof. induction l as [|a l IH]; intros d H; cbn [fold_left]; [reflexivity|]. rewrite (H a (or_introl eq_refl)). apply IH. intros; apply H. now right. Qed.
Lemma node_of (w : network NumR) i : nshape w -> (i < w_nodes w)%nat -> exists kn, In kn (w_conns w) /\ nd_index (snd kn) = i.
Proof.
  intros S Hi. assert (H : In i (map (fun kn => nd_index (snd kn)) (w_conns w))) by (rewrite (sh_idx _ S); apply in_seq; lia).
  apply in_map_iff in H as (kn & E & H). eauto.
Qed.

Lemma F2_two {A B} (P : A -> B -> Prop) a b l : Forall2 P [a; b] l -> exists c d, l = [c; d] /\ P a c /\ P b d.
Proof. intros F. inversion F as [|? c ? l1 A1 F1]; subst. inversion F1 as [|? d ? l2 A2 F2]; subst. inversion F2; subst. eauto. Qed.

Section T.
Variables (n N : nat) (name : string) (h1 h2 : R) (C1 C2 : nat -> nat -> R) (Z1 Z2 : nat -> R) (f1 f2 : nat -> R -> R).
Hypothesis HZ1 : forall i, (i < n)%nat -> Z1 i <> 0.
Hypothesis HZ2 : forall i, (i < n)%nat -> Z2 i <> 0.
Hypothesis HN : (1 <= N)%nat.
Notation near := (shore n name false h1 C1 Z1 f1).
Notation far := (shore n name true h2 C2 Z2 f2).
Record synced (x : mtln NumR) (b : bundle NumR) (w1 w2 : network NumR) : Prop := {
  sy_inv : ninv LA x;
  sy_b : bundle_of x name = Some b; sy_nets : nets x = [w1; w2];
  sy_n : b_conductors b = n; sy_N : b_cells b = N;
  sy_near : near w1; sy_far : far w2;
  sy_r1 : exists ds, net_run LA ds (t_dt x) w1; sy_r2 : exists ds, net_run LA ds (t_dt x) w2;
  sy_v1 : forall i, (i < n)%nat -> nV w1 i = b_volt b i 0; sy_v2 : forall i, (i < n)%nat -> nV w2 i = b_volt b i N;
  sy_i1 : forall i, (i < n)%nat -> nI w1 i = b_curr b i 0; sy_i2 : forall i, (i < n)%nat -> nI w2 i = - b_curr b i (N - 1)
}.
Lemma synced_step x y b w1 w2 : synced x b w1 w2 -> mtln_step LA x = Ok y ->
  exists b' w1' w2', synced y b' w1' w2' /\ let t := t_time x in let dt := t_dt x in
  (forall i, (i < n)%nat -> Z1 i * (h1 * (sumR n (fun j => C1 i j * (b_volt b' j 0 - b_volt b j 0)) / dt) + 2 * b_curr b i 0) + b_volt b' i 0 + b_volt b i 0 = f1 i t + f1 i (t - dt)) /\
  (forall i, (i < n)%nat -> Z2 i * (h2 * (sumR n (fun j => C2 i j * (b_volt b' j N - b_volt b j N)) / dt) - 2 * b_curr b i (N - 1)) + b_volt b' i N + b_volt b i N = f2 i t + f2 i (t - dt)).
Proof.
  intros S H. pose proof (ninv_step LA _ _ (sy_inv _ _ _ _ S) H) as I'. destruct (step_clock LA _ _ H) as [Ed Et].
  pose proof (proj1 (bundle_in LA x name b (sy_inv _ _ _ _ S) (sy_b _ _ _ _ S))) as Rb.
  pose proof (reachable_vgrid LA _ Rb) as G.
  pose proof (step_marches LA _ _ _ _ H (sy_b _ _ _ _ S)) as (b' & Gb' & Mb).
  destruct (marches_binv LA b b' Mb (reachable_binv LA _ Rb)) as [_ Kb].
  pose proof H as H0. apply step_split in H0 as (bs1 & ws & bs2 & bs3 & [H1 H2 H3 H4 H5 H6 H7 H8]).
  pose proof (nets_F2 (fun w => nw_advance_voltage LA w (t_time x) (t_dt x)) _ _ H2) as F1. fold (nets x) in F1. rewrite (sy_nets _ _ _ _ S) in F1.
  apply F2_two in F1 as (v1 & v2 & Ews & A1 & A2).
  pose proof (nets_F2 (fun w => nw_update_currents w bs3) _ _ H5) as F2. fold (nets y) in F2. rewrite Ews in F2.
  apply F2_two in F2 as (u1 & u2 & Ey & B1 & B2).
  destruct (map_bundles_get _ _ _ _ _ H1 (sy_b _ _ _ _ S)) as (b1 & V & G1).
  assert (M1 : marches LA b b1) by (eapply ma_volt; [constructor|exact V]).
  pose proof (marches_vgrid LA b b1 G M1) as Gv1. destruct (marches_binv LA b b1 M1 (reachable_binv LA _ Rb)) as [_ K1].
  destruct (put_all_val _ _ _ H3) as [_ F]. destruct (F name b1 G1 Gv1) as (b2 & G2 & O & Gv2 & Val).
  destruct (map_bundles_get _ _ _ _ _ H4 G2) as (b3 & C & G3). destruct (map_bundles_get _ _ _ _ _ H6 G3) as (b4 & U & G4).
  assert (b4 = b') by (unfold bundle_of in Gb'; congruence). subst b4.
  pose proof (curr_volt _ _ _ _ C) as [Cv _]. pose proof (probes_core _ _ _ U) as Uc.
  assert (EV : forall r k, b_volt b' r k = b_volt b2 r k) by (intros; unfold b_volt; now rewrite Uc, Cv).
  assert (EI : forall r k, b_curr b' r k = b_curr b3 r k) by (intros; unfold b_curr; now rewrite Uc).
  assert (E3 : b_conductors b3 = n /\ b_cells b3 = N).
  { rewrite <- (sy_n _ _ _ _ S), <- (sy_N _ _ _ _ S), <- (bk_n _ _ Kb), <- (bk_N _ _ Kb). unfold b_conductors, b_cells. rewrite Uc. split; reflexivity. }
  assert (N1 : b_cells b1 = N) by (rewrite (bk_N _ _ K1); exact (sy_N _ _ _ _ S)).
  unfold puts in Val. rewrite Ews in Val. cbn [flat_map] in Val. rewrite app_nil_r in Val.
  destruct (volt_fields _ _ _ _ _ A1) as (Q1 & _ & J1 & _ & X1 & Y1). destruct (volt_fields _ _ _ _ _ A2) as (Q2 & _ & J2 & _ & X2 & Y2).
  destruct (volt_shape LA _ _ _ _ (so_shape _ _ _ _ _ _ _ _ (sy_near _ _ _ _ S)) A1) as [Sv1 _]. destruct (volt_shape LA _ _ _ _ (so_shape _ _ _ _ _ _ _ _ (sy_far _ _ _ _ S)) A2) as [Sv2 _].
  pose proof (shore_keep _ _ _ _ _ _ _ _ _ (sy_near _ _ _ _ S) Sv1 Q1 X1 Y1) as O1. pose proof (shore_keep _ _ _ _ _ _ _ _ _ (sy_far _ _ _ _ S) Sv2 Q2 X2 Y2) as O2.
  assert (P1 : forall nv r k, In nv (puts_of v1) -> hits b1 name (fst nv) r k = true -> k = 0%nat /\ snd nv = nV v1 r).
  { intros nv r k Hn Hh. apply in_map_iff in Hn as (kn & <- & Hk). cbn [fst snd] in *. apply hits_iff in Hh as (_ & Er & Ek).
    destruct (so_rows _ _ _ _ _ _ _ _ O1 kn Hk) as (_ & R2 & R3). rewrite R3 in Ek. split; [exact Ek|]. unfold nV. now rewrite <- Er, R2. }
  assert (P2 : forall nv r k, In nv (puts_of v2) -> hits b1 name (fst nv) r k = true -> k = N /\ snd nv = nV v2 r).
  { intros nv r k Hn Hh. apply in_map_iff in Hn as (kn & <- & Hk). cbn [fst snd] in *. apply hits_iff in Hh as (_ & Er & Ek).
    destruct (so_rows _ _ _ _ _ _ _ _ O2 kn Hk) as (_ & R2 & R3). rewrite R3, N1 in Ek. split; [exact Ek|]. unfold nV. now rewrite <- Er, R2. }
  assert (V1 : forall i, (i < n)%nat -> nV v1 i = b_volt b' i 0).
  { intros i Hi. rewrite EV, Val, fold_left_app. symmetry. etransitivity.
    - apply (fold_miss (fun nv : node * NumR => hits b1 name (fst nv) i 0) snd). intros nv Hn. destruct (hits _ _ _ _ _) eqn:E; [|reflexivity]. destruct (P2 _ _ _ Hn E). lia.
    - apply (fold_hit (fun nv : node * NumR => hits b1 name (fst nv) i 0) snd); [|intros nv Hn E; exact (proj2 (P1 _ _ _ Hn E))].
      destruct (node_of v1 i Sv1) as (kn & Hk & Ei); [rewrite (so_nodes _ _ _ _ _ _ _ _ O1); exact Hi|]. destruct (so_rows _ _ _ _ _ _ _ _ O1 kn Hk) as (T1 & T2 & T3).
      eexists. split; [apply in_map_iff; exists kn; split; [reflexivity|exact Hk]|]. cbn [fst]. apply hits_iff. split; [exact T1|]. rewrite T3. split; [congruence|reflexivity]. }
  assert (V2 : forall i, (i < n)%nat -> nV v2 i = b_volt b' i N).
  { intros i Hi. rewrite EV, Val, fold_left_app. symmetry.
    apply (fold_hit (fun nv : node * NumR => hits b1 name (fst nv) i N) snd); [|intros nv Hn E; exact (proj2 (P2 _ _ _ Hn E))].
    destruct (node_of v2 i Sv2) as (kn & Hk & Ei); [rewrite (so_nodes _ _ _ _ _ _ _ _ O2); exact Hi|]. destruct (so_rows _ _ _ _ _ _ _ _ O2 kn Hk) as (T1 & T2 & T3).
    eexists. split; [apply in_map_iff; exists kn; split; [reflexivity|exact Hk]|]. cbn [fst]. apply hits_iff. split; [exact T1|]. rewrite T3, N1. split; [congruence|reflexivity]. }
  destruct (update_currents v1 bs3 u1 Sv1 B1) as [U1 R1]. destruct (update_currents v2 bs3 u2 Sv2 B2) as [U2 R2].
  destruct (curr_shape _ _ _ Sv1 B1) as [Su1 _]. destruct (curr_shape _ _ _ Sv2 B2) as [Su2 _].
  assert (T1 : same_circuit v1 u1) by (rewrite U1; split; reflexivity). assert (T2 : same_circuit v2 u2) by (rewrite U2; split; reflexivity).
  exists b', u1, u2. split; [split|].
  - exact I'.
  - exact Gb'.
  - exact Ey.
  - rewrite (bk_n _ _ Kb). exact (sy_n _ _ _ _ S).
  - rewrite (bk_N _ _ Kb). exact (sy_N _ _ _ _ S).
  - apply (shore_keep _ _ _ _ _ _ _ _ _ O1 Su1 T1); rewrite U1; reflexivity.
  - apply (shore_keep _ _ _ _ _ _ _ _ _ O2 Su2 T2); rewrite U2; reflexivity.
  - destruct (sy_r1 _ _ _ _ S) as [ds Hr]. exists ds. rewrite Ed. eapply nr_curr; [|exact B1]. eapply nr_volt; [exact Hr|exact A1].
  - destruct (sy_r2 _ _ _ _ S) as [ds Hr]. exists ds. rewrite Ed. eapply nr_curr; [|exact B2]. eapply nr_volt; [exact Hr|exact A2].
  - intros i Hi. rewrite U1. exact (V1 i Hi).
  - intros i Hi. rewrite U2. exact (V2 i Hi).
  - intros i Hi. destruct (node_of v1 i Sv1) as (kn & Hk & Ei); [rewrite (so_nodes _ _ _ _ _ _ _ _ O1); exact Hi|]. destruct (so_rows _ _ _ _ _ _ _ _ O1 kn Hk) as (W1 & W2 & W3).
    destruct (R1 kn Hk) as (c & Gc & _ & Ec). rewrite W1, G3 in Gc. injection Gc as <-. rewrite W3, W2, Ei in Ec. rewrite Ec, EI. unfold i_factor. rewrite W3. rsimpl. ring.
  - intros i Hi. destruct (node_of v2 i Sv2) as (kn & Hk & Ei); [rewrite (so_nodes _ _ _ _ _ _ _ _ O2); exact Hi|]. destruct (so_rows _ _ _ _ _ _ _ _ O2 kn Hk) as (W1 & W2 & W3).
    destruct (R2 kn Hk) as (c & Gc & _ & Ec). rewrite W1, G3 in Gc. injection Gc as <-. rewrite W3, W2, Ei, (proj2 E3) in Ec. rewrite Ec, EI. unfold i_factor. rewrite W3. rsimpl. ring.
  - cbv zeta. split; intros i Hi.
    + destruct (sy_r1 _ _ _ _ S) as [ds Hr]. pose proof (shore_step n name false h1 C1 Z1 f1 ds _ w1 v1 (t_time x) i (sy_near _ _ _ _ S) Hr A1 Hi (HZ1 i Hi)) as E.
      rewrite V1, (sy_v1 _ _ _ _ S), (sy_i1 _ _ _ _ S) in E by exact Hi. rewrite <- E.
      rewrite (sumR_ext n (fun j => C1 i j * (nV v1 j - nV w1 j)) (fun j => C1 i j * (b_volt b' j 0 - b_volt b j 0))) by (intros j Hj; now rewrite V1, (sy_v1 _ _ _ _ S)). reflexivity.
    + destruct (sy_r2 _ _ _ _ S) as [ds Hr]. pose proof (shore_step n name true h2 C2 Z2 f2 ds _ w2 v2 (t_time x) i (sy_far _ _ _ _ S) Hr A2 Hi (HZ2 i Hi)) as E.
      rewrite V2, (sy_v2 _ _ _ _ S), (sy_i2 _ _ _ _ S) in E by exact Hi. rewrite <- E.
      rewrite (sumR_ext n (fun j => C2 i j * (nV v2 j - nV w2 j)) (fun j => C2 i j * (b_volt b' j N - b_volt b j N))) by (intros j Hj; now rewrite V2, (sy_v2 _ _ _ _ S)). rring.
Qed.
End T.
End S.
