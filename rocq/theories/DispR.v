(** Dispersive elements over the reals: memory recursion, one-way coupling, repeated
    connectors, memory counted once per pole of a neighbour. *)
From Coq Require Import String List Arith ZArith Bool Lia Reals Lra Classical.
From Verif Require Import Num Py Arr ArrFacts NumR RFacts Probes Dispersive Line LineFacts Bundle Networks Mtln
  SpecLine SpecBundle SpecDisp HistoryFacts StepTotal TotalFacts DispFacts BundleFacts BlockFacts MemFacts DispProps ConnFacts FitFacts.
Import ListNotations.
Local Open Scope R_scope.

Notation cR := (cplx NumR).
Lemma csumn_csum n (f : nat -> cR) : (1 <= n)%nat -> csumn n f = csum n f.
Proof.
  induction n as [|n IH]; intros H; [lia|]. destruct n as [|k].
  - unfold csum, csumn. cbn. destruct (f 0%nat). cbn. f_equal; rring.
  - rewrite (csumn_S (S k) f) by lia. rewrite IH by lia. unfold csum, cadd. cbn [fst snd]. rewrite !(sumR_S (S k)). reflexivity.
Qed.
Lemma csum_zero n (f : nat -> cR) : (forall j, (j < n)%nat -> f j = c0) -> csum n f = c0.
Proof.
  intros H. unfold csum, c0. f_equal; apply sumR_zero; intros j Hj; now rewrite H.
Qed.
Lemma csum_one n (f : nat -> cR) c : (c < n)%nat -> (forall j, (j < n)%nat -> j <> c -> f j = c0) -> csum n f = f c.
Proof.
  intros Hc H. unfold csum. rewrite (surjective_pairing (f c)). f_equal.
  - apply (sumR_single n (fun j => fst (f j)) c); auto. intros j Hj Hn. now rewrite H.
  - apply (sumR_single n (fun j => snd (f j)) c); auto. intros j Hj Hn. now rewrite H.
Qed.
Lemma at_zero l : at_ l (@qzero NumR) = c0.
Proof. reflexivity. Qed.
Lemma cscal_0 (x : R) : @cscal NumR x c0 = c0.
Proof. unfold cscal, c0. cbn [fst snd]. f_equal; rring. Qed.
Lemma cmul_0l (x : cR) : cmul c0 x = c0.
Proof. unfold cmul, c0. cbn [fst snd]. f_equal; rring. Qed.
Lemma cmul_0r (x : cR) : cmul x c0 = c0.
Proof. unfold cmul, c0. cbn [fst snd]. f_equal; rring. Qed.
Lemma cadd_00 : cadd (@c0 NumR) c0 = c0.
Proof. unfold cadd, c0. cbn [fst snd]. f_equal; rring. Qed.

Lemma sumR_const n (x : R) : sumR n (fun _ => x) = INR n * x.
Proof. induction n as [|n IH]; [rewrite sumR_0; cbn; ring|]. rewrite sumR_S, IH, S_INR. rring. Qed.
(** sum of the real parts of a list *)
Lemma qsum_sum (r : qe NumR) : qsum r = sumR (length r) (fun l => fst (nth l r c0)).
Proof.
  unfold qsum. assert (G : forall (r : qe NumR) acc, fst (fold_left cadd r acc) = fst acc + sumR (length r) (fun l => fst (nth l r c0))).
  { clear. induction r as [|x r IH] using rev_ind; intros acc; [cbn; rring|].
    rewrite fold_left_app, app_length. cbn [fold_left length]. rewrite Nat.add_1_r, sumR_S.
    rewrite app_nth2, Nat.sub_diag by auto. cbn [nth].
    rewrite (sumR_ext (length r) _ (fun l => fst (nth l r c0))) by (intros l Hl; now rewrite app_nth1 by auto).
    unfold cadd at 1. cbn [fst]. rewrite IH. rring. }
  rewrite G. cbn. rring.
Qed.
Lemma qsum_at (r : qe NumR) : qsum r = sumR (length r) (fun l => fst (at_ l r)).
Proof. rewrite qsum_sum. apply sumR_ext. intros l Hl. now rewrite at_lt by auto. Qed.

(** one update of the memory *)
Lemma phi_rec (s : disp NumR) i s' k c l : (1 <= ds_n s)%nat -> update_phi s i i = Ok s' -> (k < ds_nx s)%nat -> (c < ds_n s)%nat ->
  readable l (dPhi s' k c) ->
  at_ l (dPhi s' k c) = recursion (ds_n s) (fun j => at_ l (dP1 s k c j)) (fun j => at_ l (dP2 s k c j)) (fun j => at_ l (dP3 s k c j))
    (fun j => get2 i j k) (fun j => get2 i j k) (fun j => at_ l (dPhi s k j)).
Proof.
  intros Hn H Hk Hc Hl. destruct (phi_at s i s' k c l H Hk Hc Hl) as [_ ->]. unfold recursion.
  rewrite !csumn_csum by auto. reflexivity.
Qed.
Lemma mem_at (s s' : disp NumR) k c : (1 <= ds_n s)%nat -> update_q3_phi_term s = Ok s' -> (k < ds_nx s)%nat -> (c < ds_n s)%nat ->
  exists r : qe NumR, dMem s' k c = sumR (length r) (fun l => fst (csum (ds_n s) (fun j => cmul (at_ l (dP3 s k c j)) (at_ l (dPhi s k j))))) /\
    forall j, (j < ds_n s)%nat -> (length (dP3 s k c j) <> 1%nat -> length r = length (dP3 s k c j)) /\
                             (length (dPhi s k j) <> 1%nat -> length r = length (dPhi s k j)).
Proof.
  intros Hn H Hk Hc. destruct (q3_entry s s' k c H Hk Hc) as (r & Er & ->). exists r. split.
  - rewrite qsum_at. apply sumR_ext. intros l Hl.
    destruct (qdotq_at _ _ _ _ l Hn Er (or_introl Hl)) as [_ ->]. now rewrite csumn_csum by auto.
  - intros j Hj. exact (qdotq_long _ _ _ _ Er j Hj).
Qed.

(** what one advance of the current does to the memory *)
Lemma advance_memory (s s' : core NumR) f : advance_current s f = Ok s' ->
  exists d1, update_q3_phi_term (k_disp s) = Ok d1 /\ update_phi d1 (k_i s') (k_i s') = Ok (k_disp s') /\
    k_n s' = k_n s /\ k_N s' = k_N s.
Proof.
  unfold advance_current. intros H. inv_bind H. destruct (k_lr s) as [[it vd]|]; [|discriminate]. cbv zeta in H. inv_bind H.
  injection H as <-. exists a. split; [exact Ha|]. split; [exact Ha0|split; reflexivity].
Qed.
Lemma step_memory (a b : mtl NumR) : mtl_step a = Ok b ->
  exists d1, update_q3_phi_term (m_disp a) = Ok d1 /\ update_phi d1 (k_i (m_core b)) (k_i (m_core b)) = Ok (m_disp b).
Proof.
  unfold mtl_step. cbv zeta. intros H. inv_bind H. inv_bind H. inv_bind H. injection H as <-.
  unfold advance_voltage in Ha. cbn [k_cg advance_left_terminal set_v] in Ha. destruct (k_cg _) as [[vt idf]|]; [|discriminate].
  injection Ha as <-. apply advance_memory in Ha0 as (d1 & E1 & E2 & _). exists d1. split; [exact E1|exact E2].
Qed.

Lemma recursion_split n (P1 P2 P3 : nat -> cR) (i i' : nat -> NumR) (phi : nat -> cR) :
  recursion n P1 P2 P3 i' i' phi = @recursion NumR n P1 P2 P3 i' i phi <->
  csum n (fun j => @cscal NumR (i' j - i j) (P2 j)) = c0.
Proof.
  assert (E : forall g : cR -> NumR, (g = fst \/ g = snd) ->
    g (csum n (fun j => @cscal NumR (i' j - i j) (P2 j))) = g (csum n (fun j => @cscal NumR (i' j) (P2 j))) - g (csum n (fun j => @cscal NumR (i j) (P2 j)))).
  { intros g Hg. unfold csum, cscal. destruct Hg as [-> | ->]; cbn [fst snd]; rewrite <- sumR_minus; apply sumR_ext; intros; rring. }
  pose proof (E fst (or_introl eq_refl)) as E1. pose proof (E snd (or_intror eq_refl)) as E2. clear E.
  unfold recursion. set (A := csum n (fun j => cscal (i' j) (P1 j))). set (Q := csum n (fun j => cmul (P3 j) (phi j))).
  set (B' := csum n (fun j => @cscal NumR (i' j) (P2 j))) in *. set (B := csum n (fun j => @cscal NumR (i j) (P2 j))) in *.
  set (D := csum n (fun j => @cscal NumR (i' j - i j) (P2 j))) in *.
  destruct A as [a1 a2], B as [b1 b2], B' as [x1 x2], Q as [q1 q2], D as [d1 d2]. unfold cadd, c0. cbn [fst snd] in *.
  rsimpl. split; intros X; injection X as X1 X2; f_equal; lra.
Qed.

Lemma csum_ext n (f g : nat -> cR) : (forall j, (j < n)%nat -> f j = g j) -> csum n f = csum n g.
Proof. intros H. unfold csum. f_equal; apply sumR_ext; intros j Hj; now rewrite H. Qed.
Lemma recursion_ext n (P1 P2 P3 P1' P2' P3' : nat -> cR) (i i' : nat -> NumR) (phi phi' : nat -> cR) :
  (forall j, (j < n)%nat -> P1 j = P1' j /\ P2 j = P2' j /\ P3 j = P3' j /\ phi j = phi' j) ->
  recursion n P1 P2 P3 i i' phi = recursion n P1' P2' P3' i i' phi'.
Proof.
  intros H. unfold recursion.
  rewrite (csum_ext n (fun j => cscal (i j) (P1 j)) (fun j => cscal (i j) (P1' j))) by (intros j Hj; destruct (H j Hj) as (-> & _); auto).
  rewrite (csum_ext n (fun j => cscal (i' j) (P2 j)) (fun j => cscal (i' j) (P2' j))) by (intros j Hj; destruct (H j Hj) as (_ & -> & _); auto).
  rewrite (csum_ext n (fun j => cmul (P3 j) (phi j)) (fun j => cmul (P3' j) (phi' j))) by (intros j Hj; destruct (H j Hj) as (_ & _ & -> & ->); auto).
  reflexivity.
Qed.

Section DispR.
Variable LA : lapack NumR.

(** ** The stored memory *)
Lemma memory_line m T n (a b : mtl NumR) k c l : reachable LA m -> run_step LA m T n a b ->
  (k < cells m)%nat -> (c < conductors m)%nat -> (l < length (dPhi (m_disp b) k c))%nat ->
  let s := m_disp m in let nn := conductors m in
  let P1 j := at_ l (dP1 s k c j) in let P2 j := at_ l (dP2 s k c j) in let P3 j := at_ l (dP3 s k c j) in
  let phi j := at_ l (dPhi (m_disp a) k j) in
  let i j := curr a j k in let i' j := curr b j k in
  nth l (dPhi (m_disp b) k c) c0 = recursion nn P1 P2 P3 i' i' phi /\
  (nth l (dPhi (m_disp b) k c) c0 = recursion nn P1 P2 P3 i' i phi <->
     csum nn (fun j => @cscal NumR (i' j - i j) (P2 j)) = c0).
Proof.
  intros HR H Hk Hc Hl s nn P1 P2 P3 phi i i'.
  destruct (run_step_states LA _ _ _ _ _ H) as [Ha _]. pose proof (reachable_shape LA _ HR) as Sm.
  destruct (run_state_inv LA _ _ _ _ Sm Ha) as (Sa & _ & RS & _).
  destruct H as (st & p & _ & _ & _ & _ & Hst).
  destruct (step_memory _ _ Hst) as (d1 & E1 & E2). destruct (update_q3_phi_same _ _ E1) as [SD SP].
  assert (En : ds_n d1 = nn) by (rewrite (sd_n _ _ SD); unfold m_disp; rewrite (sh_dn _ Sa); unfold nn, conductors; apply (rs_n _ _ RS)).
  assert (Ex : ds_nx d1 = cells m) by (rewrite (sd_nx _ _ SD); unfold m_disp; rewrite (sh_dx _ Sa); unfold cells; apply (rs_N _ _ RS)).
  assert (Hn : (1 <= nn)%nat) by (unfold nn; lia).
  assert (EP : forall j, dP1 d1 k c j = dP1 s k c j /\ dP2 d1 k c j = dP2 s k c j /\ dP3 d1 k c j = dP3 s k c j).
  { intros j. destruct (same_disp_entry _ _ k c j SD) as (_ & _ & X1 & X2 & X3).
    destruct (same_disp_entry _ _ k c j (rs_disp _ _ RS)) as (_ & _ & Y1 & Y2 & Y3). unfold s, m_disp in *.
    rewrite X1, X2, X3, Y1, Y2, Y3. auto. }
  assert (Ephi : forall j, dPhi d1 k j = dPhi (m_disp a) k j) by (intros j; unfold dPhi; rewrite SP; reflexivity).
  assert (E : nth l (dPhi (m_disp b) k c) c0 = recursion nn P1 P2 P3 i' i' phi).
  { rewrite <- at_lt by exact Hl.
    rewrite (phi_rec d1 (k_i (m_core b)) (m_disp b) k c l); [|rewrite En; auto|exact E2|rewrite Ex; auto|rewrite En; auto|left; exact Hl].
    rewrite En. apply recursion_ext. intros j Hj. unfold P1, P2, P3, phi. destruct (EP j) as (-> & -> & ->). rewrite Ephi. auto. }
  split; [exact E|]. rewrite E. apply recursion_split.
Qed.

Lemma memory_bundle b t dt b' k c l : reachable_bundle LA b -> bundle_advance_current t dt b = Ok b' ->
  (k < b_cells b)%nat -> (c < b_conductors b)%nat -> (l < length (dPhi (b_disp b') k c))%nat ->
  let s := b_disp b in let nn := b_conductors b in
  let P1 j := at_ l (dP1 s k c j) in let P2 j := at_ l (dP2 s k c j) in let P3 j := at_ l (dP3 s k c j) in
  let phi j := at_ l (dPhi s k j) in
  let i j := b_curr b j k in let i' j := b_curr b' j k in
  nth l (dPhi (b_disp b') k c) c0 = recursion nn P1 P2 P3 i' i' phi /\
  (nth l (dPhi (b_disp b') k c) c0 = recursion nn P1 P2 P3 i' i phi <->
     csum nn (fun j => @cscal NumR (i' j - i j) (P2 j)) = c0).
Proof.
  intros HR H Hk Hc Hl s nn P1 P2 P3 phi i i'. pose proof (reachable_binv LA _ HR) as Bi.
  unfold bundle_advance_current in H. inv_bind H. injection H as <-. cbn [b_disp b_core b_set_core b_set] in Hl.
  destruct (advance_memory _ _ _ Ha) as (d1 & E1 & E2 & _). destruct (update_q3_phi_same _ _ E1) as [SD SP].
  assert (En : ds_n d1 = nn) by (rewrite (sd_n _ _ SD); apply (bi_n _ Bi)).
  assert (Ex : ds_nx d1 = b_cells b) by (rewrite (sd_nx _ _ SD); apply (bi_nx _ Bi)).
  assert (Hn : (1 <= nn)%nat) by (unfold nn; lia).
  assert (E : nth l (dPhi (k_disp a) k c) c0 = recursion nn P1 P2 P3 i' i' phi).
  { rewrite <- at_lt by exact Hl.
    rewrite (phi_rec d1 (k_i a) (k_disp a) k c l); [|rewrite En; auto|exact E2|rewrite Ex; auto|rewrite En; auto|left; exact Hl].
    rewrite En. apply recursion_ext. intros j Hj. unfold P1, P2, P3, phi, s, b_disp.
    destruct (same_disp_entry _ _ k c j SD) as (_ & _ & X1 & X2 & X3). rewrite X1, X2, X3. unfold dPhi. rewrite SP. auto. }
  split; [exact E|]. unfold b_disp at 1, b_set_core, b_set. cbn [b_core]. rewrite E. apply recursion_split.
Qed.

(** ** A second connector is never accepted *)
Lemma w3_nz (dt : NumR) (p : cR) : w3 dt p <> c0.
Proof.
  destruct p as [pr pi]. unfold w3, cexp, cscal, c0. cbn [fst snd]. intros H. injection H as H1 H2.
  assert (W1 : exp (dt * pr) * cos (dt * pi) = 0) by exact H1. assert (W2 : exp (dt * pr) * sin (dt * pi) = 0) by exact H2.
  clear H1 H2. rename W1 into H1, W2 into H2. set (x := dt * pr) in *. set (y := dt * pi) in *.
  pose proof (exp_pos x) as He. pose proof (sin2_cos2 y) as S. unfold Rsqr in S.
  assert (C : cos y = 0) by (apply Rmult_integral in H1; destruct H1; lra).
  assert (S0 : sin y = 0) by (apply Rmult_integral in H2; destruct H2; lra).
  rewrite C, S0 in S. lra.
Qed.
Lemma connector_twice (m : mtl NumR) p c model m1 m2 p' model' : reachable LA m ->
  mtl_add_dispersive_connector m p c model = Ok m1 -> calls LA m1 m2 ->
  node_of m2 p' = node_of m p ->
  exists e, mtl_add_dispersive_connector m2 p' c model' = Err e.
Proof.
  intros [m0 H] E1 HC En. pose proof (h_connector _ _ _ _ _ _ _ H E1) as H1.
  pose proof (calls_history LA _ _ _ H1 HC) as H2.
  set (k := node_of m p) in *.
  set (P := fun s : disp NumR => forall z, dP3 s k c c = [z] -> z <> c0).
  destruct (connector_exact_line LA _ _ _ _ _ _ H E1) as (_ & _ & _ & F & (_ & _ & z1 & z2 & z3 & _ & _ & Z3 & _ & _ & X3) & _ & (d & D & _)).
  assert (Q : P (m_disp m2) /\ shape m2).
  { apply (calls_cases LA P m1 m2); [exact (proj1 (history_shape LA _ _ H1))|exact HC| | |].
    - intros s s' Hs SD z Hz. destruct (same_disp_entry _ _ k c c SD) as (_ & _ & _ & _ & X). apply Hs. rewrite <- X. exact Hz.
    - intros x px cx mx x' Sx Cx Hx Ex. pose proof (calls_history LA _ _ _ H1 Cx) as Hhx.
      destruct (connector_exact_line LA _ _ _ _ _ _ Hhx Ex) as (_ & _ & _ & (_ & _ & _ & _ & Fx) & _ & Ox & _).
      destruct (classic (k = node_of x px /\ c = cx /\ c = cx)) as [(K & C & _)|K].
      + exfalso. destruct Fx as (z & Ez & A & B). rewrite <- K, <- C in Ez. apply (Hx z Ez).
        destruct z as [zr zi]. cbn [fst snd] in A, B. apply Reqb_true in A, B. rewrite A, B. reflexivity.
      + destruct (Ox k c c K) as (_ & _ & _ & _ & X). intros z Hz. apply Hx. rewrite <- X. exact Hz.
    - intros z Hz. fold k in X3. rewrite X3 in Hz. unfold free_entry in F. destruct F as (_ & _ & _ & _ & (y & Ey & A & B)).
      fold k in Z3, Ey. rewrite Z3 in Ey. injection Ey as ->.
      assert (y = c0) as ->.
      { destruct y as [yr yi]. cbn [fst snd] in A, B. apply Reqb_true in A, B. rewrite A, B. reflexivity. }
      destruct (n_poles model) as [|q]; [discriminate|]. cbn [seq map] in Hz. injection Hz as Hz _. subst z.
      intros W. apply (w3_nz (step_dt m0) (pole model 0)). rewrite <- W.
      unfold cadd, c0. cbn [fst snd]. rsimpl. rewrite !Rplus_0_l. now destruct (w3 _ _). }
  destruct Q as [Q _]. apply (connector_occupied LA m2 p' c model' (ex_intro _ m0 H2)).
  intros (_ & _ & _ & _ & (z & Ez & A & B)). rewrite En in Ez. apply (Q z Ez).
  destruct z as [zr zi]. cbn [fst snd] in A, B. apply Reqb_true in A, B. rewrite A, B. reflexivity.
Qed.

(** ** One-way coupling has no memory *)
Definition ow_inv (S : nat -> Prop) (s : disp NumR) : Prop :=
  (forall k i j l, (k < ds_nx s)%nat -> (i < ds_n s)%nat -> (j < ds_n s)%nat -> ~ (S i /\ ~ S j) ->
     at_ l (dP1 s k i j) = c0 /\ at_ l (dP2 s k i j) = c0 /\ at_ l (dP3 s k i j) = c0) /\
  (forall k c l, (k < ds_nx s)%nat -> (c < ds_n s)%nat -> ~ S c -> at_ l (dPhi s k c) = c0) /\
  (forall k c, (k < ds_nx s)%nat -> (c < ds_n s)%nat -> dMem s k c = 0).

Lemma at_unreadable (l : nat) (q : list cR) : ~ readable l q -> at_ l q = c0.
Proof.
  unfold readable, at_. intros H. destruct (Nat.eqb_spec (length q) 1) as [E|E]; [lia|]. apply nth_overflow. lia.
Qed.

Lemma advance_ow S (s s' : core NumR) f : advance_current s f = Ok s' -> (1 <= ds_n (k_disp s))%nat ->
  ow_inv S (k_disp s) -> ow_inv S (k_disp s').
Proof.
  intros H Hn (I1 & I2 & I3). destruct (advance_memory _ _ _ H) as (d1 & E1 & E2 & _ & _).
  destruct (update_q3_phi_same _ _ E1) as [SD SP]. destruct (update_phi_same _ _ _ _ E2) as [SD2 SM].
  assert (N1 : ds_n d1 = ds_n (k_disp s)) by apply (sd_n _ _ SD). assert (X1 : ds_nx d1 = ds_nx (k_disp s)) by apply (sd_nx _ _ SD).
  assert (N2 : ds_n (k_disp s') = ds_n (k_disp s)) by (rewrite (sd_n _ _ SD2); exact N1).
  assert (X2 : ds_nx (k_disp s') = ds_nx (k_disp s)) by (rewrite (sd_nx _ _ SD2); exact X1).
  unfold ow_inv. rewrite N2, X2. split; [|split].
  - intros k i j l Hk Hi Hj HS. destruct (same_disp_entry _ _ k i j SD) as (_ & _ & A1 & A2 & A3).
    destruct (same_disp_entry _ _ k i j SD2) as (_ & _ & B1 & B2 & B3). rewrite B1, B2, B3, A1, A2, A3. auto.
  - intros k c l Hk Hc HS. destruct (classic (readable l (dPhi (k_disp s') k c))) as [Hl|Hl]; [|now apply at_unreadable].
    rewrite (phi_rec d1 (k_i s') (k_disp s') k c l); [|rewrite N1; auto|exact E2|rewrite X1; auto|rewrite N1; auto|exact Hl].
    assert (Z : forall j, (j < ds_n d1)%nat -> at_ l (dP1 d1 k c j) = c0 /\ at_ l (dP2 d1 k c j) = c0 /\ at_ l (dP3 d1 k c j) = c0).
    { intros j Hj. destruct (same_disp_entry _ _ k c j SD) as (_ & _ & A1 & A2 & A3). rewrite A1, A2, A3.
      apply I1; auto; [now rewrite <- N1|tauto]. }
    unfold recursion. rewrite !csum_zero; [rewrite !cadd_00; reflexivity| | |]; intros j Hj; destruct (Z j Hj) as (Y1 & Y2 & Y3);
      rewrite ?Y1, ?Y2, ?Y3; auto using cmul_0l, cscal_0.
  - intros k c Hk Hc. replace (dMem (k_disp s') k c) with (dMem d1 k c) by (unfold dMem; now rewrite SM).
    destruct (mem_at _ _ k c Hn E1 Hk Hc) as (r & -> & _). apply sumR_zero. intros l _.
    rewrite csum_zero; [reflexivity|]. intros j Hj. destruct (classic (S j)) as [Sj|Sj].
    + destruct (I1 k c j l Hk Hc Hj) as (_ & _ & ->); [tauto|]. apply cmul_0l.
    + rewrite (I2 k j l Hk Hj Sj). apply cmul_0r.
Qed.
Lemma ow_keep S (s s' : disp NumR) : ow_inv S s -> ds_n s' = ds_n s -> ds_nx s' = ds_nx s -> ds_phi s' = ds_phi s -> ds_q3phi s' = ds_q3phi s ->
  (forall k i j, (k < ds_nx s)%nat -> (i < ds_n s)%nat -> (j < ds_n s)%nat -> ~ (S i /\ ~ S j) -> same_entry s s' k i j) -> ow_inv S s'.
Proof.
  intros (I1 & I2 & I3) En Ex Ep Eq HE. unfold ow_inv. rewrite En, Ex. split; [|split].
  - intros k i j l Hk Hi Hj HS. destruct (HE k i j Hk Hi Hj HS) as (_ & _ & -> & -> & ->). auto.
  - intros k c l Hk Hc HS. unfold dPhi. rewrite Ep. now apply I2.
  - intros k c Hk Hc. unfold dMem. rewrite Eq. now apply I3.
Qed.
Lemma same_core_ow S (s s' : disp NumR) : ow_inv S s -> s' = s -> ow_inv S s'.
Proof. intros H ->. exact H. Qed.

Lemma marches_ow S (b b' : bundle NumR) : marches LA b b' -> (1 <= ds_n (b_disp b))%nat -> ow_inv S (b_disp b) -> ow_inv S (b_disp b').
Proof.
  intros H Hn I. assert (G : ow_inv S (b_disp b') /\ core_same (b_core b) (b_core b')); [|apply G].
  assert (CS : forall b', marches LA b b' -> core_same (b_core b) (b_core b')) by (intros x Hx; apply (marches_same LA _ _ Hx)).
  split; [|now apply CS].
  induction H as [|x dt Hx IH|x steps x' Hx IH E|x t dt x' Hx IH E|x c last v Hx IH Hc|x t dt x' Hx IH E|x t x' Hx IH E].
  - exact I.
  - exact IH.
  - unfold bundle_prepare in E. inv_bind E. inv_bind E. injection E as <-.
    apply update_lr_inv in Ha as [t1 ->]. apply update_cg_inv in Ha0 as [t2 ->]. exact IH.
  - unfold bundle_advance_voltage in E. inv_bind E. injection E as <-. unfold advance_voltage in Ha.
    destruct (k_cg _) as [[vt idf]|]; [|discriminate]. injection Ha as <-. exact IH.
  - exact IH.
  - unfold bundle_advance_current in E. inv_bind E. injection E as <-. unfold b_disp, b_set_core, b_set. cbn [b_core].
    eapply advance_ow; [exact Ha| |exact IH]. pose proof (CS _ Hx) as C. rewrite (cs_dn _ _ C). exact Hn.
  - unfold bundle_update_probes in E. inv_bind E. injection E as <-. exact IH.
Qed.

Lemma one_way_history S (b0 b : bundle NumR) : one_way LA S b0 b -> bundle_history LA b0 b.
Proof.
  induction 1 as [levels name HR HU H|b b' HH IH H|b eL eT HH IH|b s e c f ty b' HH IH H|b p ty b' HH IH H
    |b s e c R b' HH IH H|b s e c G b' HH IH H|b ol oc il ic m b' HH IH No Ni HS H|b side ol oc il ic m b' HH IH HS H].
  - apply bh_new. exists levels, name. auto.
  - eapply bh_march; eauto.
  - now apply bh_field.
  - eapply bh_long; eauto.
  - eapply bh_probe; eauto.
  - eapply bh_resistance; eauto.
  - eapply bh_conductance; eauto.
  - eapply bh_transfer; eauto.
  - eapply bh_connector; eauto.
Qed.

Lemma new_ow S levels name (b : bundle NumR) : Forall (Forall (reachable LA)) levels -> Forall (Forall undispersed) levels ->
  mtld_new levels name = Ok b -> ow_inv S (b_disp b).
Proof.
  intros HR HU H. destruct (mtld_new_inv _ _ _ H) as (outer & rest & E & _). subst levels.
  unfold mtld_new in H. inv_bind H. injection H as <-. unfold ow_inv, b_disp. cbn [b_core k_disp ds_nx ds_n].
  assert (U : forall m k i j, In m (concat ([outer] :: rest)) ->
     qget3 (ds_q1 (k_disp (m_core m))) k i j = qzero /\ qget3 (ds_q2 (k_disp (m_core m))) k i j = qzero /\ qget3 (ds_q3 (k_disp (m_core m))) k i j = qzero).
  { intros m k i j Hm. apply in_concat in Hm as (l & Hl & Hm). rewrite Forall_forall in HU. pose proof (HU _ Hl) as X.
    rewrite Forall_forall in X. destruct (X _ Hm) as (u & dt & ->). cbn [disp_new ds_q1 ds_q2 ds_q3]. rewrite !qget3_qzeros. auto. }
  split; [|split].
  - intros k i j l Hk Hi Hj _. unfold dP1, dP2, dP3, qget3. cbn [ds_q1 ds_q2 ds_q3]. rewrite !nth_mk by auto.
    rewrite !(qbd_zero _ (concat ([outer] :: rest)) i j); [rewrite !at_zero; auto|..]; auto; intros m Hm p q; apply (U m k p q Hm).
  - intros k c l Hk Hc _. unfold dPhi. cbn [ds_phi disp_new]. rewrite qget2_qzeros. reflexivity.
  - intros k c Hk Hc. unfold dMem. cbn [ds_q3phi disp_new]. apply (@get2_zeros NumR).
Qed.

Lemma inactive_transfer (b : bundle NumR) ol oc il ic (m : ratmodel NumR) b' side : binv b -> ~ active m ->
  (bundle_add_transfer_impedance b ol oc il ic m = Ok b' -> b' = b) /\
  (set_connector_transfer_impedance b side ol oc il ic m = Ok b' -> b' = b).
Proof.
  intros Bi Na.
  assert (Nn : (@n0 NumR =? n0)%num = true) by (apply Reqb_true; reflexivity).
  split; intros H.
  - unfold bundle_add_transfer_impedance in H. inv_bind H. injection H as <-. apply set_disp_same.
    unfold add_transfer_impedance in Ha. inv_bind Ha. destruct (rm_f m =? n0)%num; [discriminate|]. inv_bind Ha.
    destruct (rm_null m _ _) eqn:En; [now injection Ha as <-|]. exfalso. apply Na. apply active_null. exact En.
  - unfold set_connector_transfer_impedance in H. inv_bind H. inv_bind H. injection H as <-. apply set_disp_same.
    unfold set_transfer_impedance_at_index in Ha0. inv_bind Ha0. destruct (rm_f m =? n0)%num; [discriminate|]. inv_bind Ha0.
    destruct (rm_null m _ _) eqn:En; [now injection Ha0 as <-|]. exfalso. apply Na. apply active_null. exact En.
Qed.

Lemma pole_dir (m : ratmodel NumR) : (rm_direction m = "in"%string \/ rm_direction m = "out"%string) \/
  (rm_direction m <> "in"%string /\ rm_direction m <> "out"%string).
Proof. destruct (string_dec (rm_direction m) "in"), (string_dec (rm_direction m) "out"); auto. Qed.

Lemma one_way_inv S (b0 b : bundle NumR) : (0 < b_conductors b0)%nat -> (0 < b_cells b0)%nat -> one_way LA S b0 b -> ow_inv S (b_disp b).
Proof.
  intros Hn0 Hx0. induction 1 as [levels name HR HU H|b b' HH IH H|b eL eT HH IH|b s e c f ty b' HH IH H|b p ty b' HH IH H
    |b s e c R b' HH IH H|b s e c G b' HH IH H|b ol oc il ic m b' HH IH No Ni HS H|b side ol oc il ic m b' HH IH HS H];
    try (pose proof (one_way_history _ _ _ HH) as BH; destruct (history_binv LA _ _ BH) as [Bi Bk];
         assert (Hn : (1 <= ds_n (b_disp b))%nat) by (rewrite (bi_n _ Bi), (bk_n _ _ Bk); lia);
         assert (Hx : (0 < b_cells b)%nat) by (rewrite (bk_N _ _ Bk); lia)).
  - eapply new_ow; eauto.
  - eapply marches_ow; eauto.
  - exact IH.
  - unfold add_localized_longitudinal_field in H. destruct (_ || _); [discriminate|]. inv_bind H. inv_bind H. inv_bind H.
    injection H as <-. exact IH.
  - unfold bundle_add_probe in H. destruct (probe_on_cells _ _ _ _); [|discriminate]. injection H as <-. exact IH.
  - unfold bundle_set_resistance in H. inv_bind H. inv_bind H. inv_bind H. inv_bind H. injection H as <-.
    apply update_lr_inv in Ha2 as [t ->]. exact IH.
  - unfold bundle_add_conductance in H. inv_bind H. inv_bind H. inv_bind H. inv_bind H. injection H as <-.
    apply update_cg_inv in Ha2 as [t ->]. exact IH.
  - assert (Hr : reachable_bundle LA b) by (exists b0; exact BH).
    destruct (classic (active m)) as [Ac|Na].
    + destruct (pole_dir m) as [Hd|[D1 D2]].
      * destruct (transfer_exact LA b ol oc il ic m b' Hr H No Ni Hd Ac) as (_ & _ & (d & -> & Ep & Eq & _) & _ & X).
        pose proof (bh_transfer LA _ _ _ _ _ _ _ _ BH H) as BH'. destruct (history_binv LA _ _ BH') as [Bi' Bk'].
        apply (ow_keep S (b_disp b)); auto.
        -- rewrite (bi_n _ Bi'), (bi_n _ Bi). reflexivity.
        -- rewrite (bi_nx _ Bi'), (bi_nx _ Bi). reflexivity.
        -- intros k i j Hk Hi Hj HSij. rewrite (bi_nx _ Bi) in Hk. apply (X k i j Hk). intros Hc. apply HSij. now apply HS.
      * destruct (transfer_ignored LA b ""%string ol oc il ic m Hr D1 D2) as [X _]. rewrite (X _ H). exact IH.
    + destruct (inactive_transfer b ol oc il ic m b' ""%string Bi Na) as [X _]. rewrite (X H). exact IH.
  - assert (Hr : reachable_bundle LA b) by (exists b0; exact BH).
    destruct (classic (active m)) as [Ac|Na].
    + destruct (pole_dir m) as [Hd|[D1 D2]].
      * destruct (connector_exact LA b side ol oc il ic m b' Hr Hx H Hd Ac) as (_ & _ & _ & (d & -> & Ep & Eq & _) & X).
        pose proof (bh_connector LA _ _ _ _ _ _ _ _ _ BH H) as BH'. destruct (history_binv LA _ _ BH') as [Bi' Bk'].
        apply (ow_keep S (b_disp b)); auto.
        -- rewrite (bi_n _ Bi'), (bi_n _ Bi). reflexivity.
        -- rewrite (bi_nx _ Bi'), (bi_nx _ Bi). reflexivity.
        -- intros k i j Hk Hi Hj HSij. apply (X k i j). intros [_ Hc]. apply HSij. now apply HS.
      * destruct (transfer_ignored LA b side ol oc il ic m Hr D1 D2) as [_ X]. rewrite (X _ H). exact IH.
    + destruct (inactive_transfer b ol oc il ic m b' side Bi Na) as [_ X]. rewrite (X H). exact IH.
Qed.

Lemma one_way_memory S (b0 b : bundle NumR) : one_way LA S b0 b ->
  forall k c, (k < b_cells b)%nat -> (c < b_conductors b)%nat -> dMem (b_disp b) k c = 0.
Proof.
  intros H k c Hk Hc. pose proof (one_way_history _ _ _ H) as BH. destruct (history_binv LA _ _ BH) as [Bi Bk].
  destruct (one_way_inv S b0 b) as (_ & _ & X); [rewrite <- (bk_n _ _ Bk); lia|rewrite <- (bk_N _ _ Bk); lia|exact H|].
  apply X; [now rewrite (bi_nx _ Bi)|now rewrite (bi_n _ Bi)].
Qed.

(** ** One pole beside several: the memory is counted once per pole of the neighbour *)
Definition mult_inv (m : mtl NumR) (k c1 : nat) (s : disp NumR) : Prop :=
  forall l l', readable l (dPhi s k c1) -> readable l' (dPhi s k c1) -> at_ l (dPhi s k c1) = at_ l' (dPhi s k c1).

Lemma memory_multiplied m0 (m m1 m2 : mtl NumR) p1 c1 mod1 p2 c2 mod2 T n a b : history LA m0 m ->
  mtl_add_dispersive_connector m p1 c1 mod1 = Ok m1 -> mtl_add_dispersive_connector m1 p2 c2 mod2 = Ok m2 ->
  node_of m p1 = node_of m p2 -> n_poles mod1 = 1%nat -> n_poles mod2 <> 1%nat ->
  length (dPhi (m_disp m) (node_of m p1) c1) = 1%nat ->
  run_step LA m2 T (S n) a b ->
  exists f : cplx NumR,
    (forall l, (l < length (dPhi (m_disp a) (node_of m p1) c1))%nat -> nth l (dPhi (m_disp a) (node_of m p1) c1) c0 = f) /\
    dMem (m_disp b) (node_of m p1) c1 = INR (n_poles mod2) * fst (cmul (w3 (step_dt m0) (pole mod1 0)) f).
Proof.
  intros H E1 E2 Hk L1 L2 LP HS. set (k := node_of m p1) in *.
  pose proof (h_connector _ _ _ _ _ _ _ H E1) as H1. pose proof (h_connector _ _ _ _ _ _ _ H1 E2) as H2.
  destruct (connector_exact_line LA _ _ _ _ _ _ H E1) as (K1 & C1 & _ & F1 & X1 & _ & (d1 & D1 & Dp1 & _)).
  destruct (connector_exact_line LA _ _ _ _ _ _ H1 E2) as (K2 & C2 & _ & F2 & X2 & O2 & (d2 & D2 & Dp2 & _)).
  assert (Eu : node_of m1 p2 = node_of m p2) by (rewrite D1; reflexivity).
  rewrite Eu, <- Hk in *. fold k in K1, K2, F1, F2, X1, X2, O2.
  destruct X1 as (_ & _ & z1 & z2 & z3 & Z1 & Z2 & Z3 & P1 & P2 & P3). rewrite L1 in P1, P2, P3. cbn [seq map] in P1, P2, P3.
  destruct X2 as (_ & _ & y1 & y2 & y3 & Y1 & Y2 & Y3 & Q1 & Q2 & Q3).
  assert (Hc : c1 <> c2).
  { intros ->. destruct F2 as (_ & _ & _ & _ & (z & Ez & A & B)). rewrite P3 in Ez. injection Ez as Ez.
    destruct F1 as (_ & _ & _ & _ & (y & Ey & A' & B')). rewrite Z3 in Ey. injection Ey as ->.
    apply (w3_nz (step_dt m0) (pole mod1 0)). apply Reqb_true in A, B, A', B'. subst z. unfold cadd in A, B. cbn [fst snd] in A, B.
    rewrite (surjective_pairing (w3 (step_dt m0) (pole mod1 0))). unfold c0. rsimpl. f_equal; rsimpl; lra. }
  assert (N1 : conductors m1 = conductors m) by (rewrite D1; reflexivity).
  assert (N2 : conductors m2 = conductors m1) by (rewrite D2; reflexivity).
  assert (N3 : cells m1 = cells m) by (rewrite D1; reflexivity).
  assert (N4 : cells m2 = cells m1) by (rewrite D2; reflexivity).
  assert (Phi2 : dPhi (m_disp m2) k c1 = dPhi (m_disp m) k c1).
  { assert (EE : ds_phi (m_disp m2) = ds_phi (m_disp m)).
    { transitivity (ds_phi (m_disp m1)); [rewrite D2; exact Dp2|rewrite D1; exact Dp1]. }
    unfold dPhi. rewrite EE. reflexivity. }
  destruct (history_line_disp LA _ _ H2) as (_ & _ & OD).
  (* row c1 of cell k in m2 *)
  assert (R1 : length (dP1 (m_disp m2) k c1 c1) = 1%nat /\ length (dP2 (m_disp m2) k c1 c1) = 1%nat /\ dP3 (m_disp m2) k c1 c1 = [cadd z3 (w3 (step_dt m0) (pole mod1 0))]).
  { destruct (O2 k c1 c1) as (_ & _ & X & Y & Z); [intros (_ & -> & _); congruence|]. rewrite X, Y, Z, P1, P2, P3. auto. }
  assert (z3 = c0) as ->.
  { destruct F1 as (_ & _ & _ & _ & (y & Ey & A & B)). rewrite Z3 in Ey. injection Ey as ->.
    destruct y as [yr yi]. cbn [fst snd] in A, B. apply Reqb_true in A, B. rewrite A, B. reflexivity. }
  set (w := w3 (step_dt m0) (pole mod1 0)) in *.
  assert (W : cadd c0 w = w) by (unfold cadd, c0; cbn [fst snd]; rsimpl; rewrite !Rplus_0_l; now destruct w).
  rewrite W in R1. destruct R1 as (R1 & R2 & R3).
  assert (R2' : length (dP1 (m_disp m2) k c2 c2) = n_poles mod2) by (rewrite Q1, map_length; apply seq_length).
  pose proof (history_shape LA _ _ H2) as [Sh2 _].
  assert (Kc : (k < cells m2)%nat) by lia. assert (Cc : (c1 < conductors m2)%nat) by lia. assert (Cc2 : (c2 < conductors m2)%nat) by lia.
  (* invariants along the run *)
  assert (INV : forall j x, run_state LA m2 T j x -> mult_inv m2 k c1 (m_disp x) /\ (j <> 0%nat -> length (dPhi (m_disp x) k c2) = n_poles mod2)).
  { induction j as [|j IH]; intros x Hx.
    - split; [|congruence]. destruct Hx as (st & p & _ & _ & Hp & Hi). cbn [iterM] in Hi. injection Hi as ->.
      apply prepare_inv in Hp as (t1 & t2 & _ & ->). intros l l' _ _.
      apply at_one. change (length (dPhi (m_disp m2) k c1) = 1%nat). rewrite Phi2. exact LP.
    - destruct Hx as (st & p & Hst & Hle & Hp & Hi). rewrite iterM_S in Hi. inv_bind Hi. rename a0 into x0.
      assert (Hx0 : run_state LA m2 T j x0) by (exists st, p; repeat split; auto; lia).
      destruct (IH _ Hx0) as [I1 I2]. destruct (run_state_inv LA _ _ _ _ Sh2 Hx0) as (Sx & _ & RS & _).
      destruct (step_memory _ _ Hi) as (e1 & U1 & U2). destruct (update_q3_phi_same _ _ U1) as [SD SP].
      assert (En : ds_n e1 = conductors m2) by (rewrite (sd_n _ _ SD); unfold m_disp; rewrite (sh_dn _ Sx); unfold conductors; apply (rs_n _ _ RS)).
      assert (Ex : ds_nx e1 = cells m2) by (rewrite (sd_nx _ _ SD); unfold m_disp; rewrite (sh_dx _ Sx); unfold cells; apply (rs_N _ _ RS)).
      assert (EP : forall i q, dP1 e1 k i q = dP1 (m_disp m2) k i q /\ dP2 e1 k i q = dP2 (m_disp m2) k i q /\ dP3 e1 k i q = dP3 (m_disp m2) k i q).
      { intros i q. destruct (same_disp_entry _ _ k i q SD) as (_ & _ & A1 & A2 & A3).
        destruct (same_disp_entry _ _ k i q (rs_disp _ _ RS)) as (_ & _ & B1 & B2 & B3). unfold m_disp in *.
        rewrite A1, A2, A3, B1, B2, B3. auto. }
      assert (Ephi : forall q, dPhi e1 k q = dPhi (m_disp x0) k q) by (intros q; unfold dPhi; rewrite SP; reflexivity).
      split.
      + intros l l' Hl Hl'.
        assert (V1 : forall q, (q < ds_n e1)%nat -> readable q (dPhi e1 k c1) -> True) by auto. clear V1.
        assert (RD : forall l, readable l (dPhi (m_disp x) k c1) -> readable l (dPhi (m_disp x0) k c1)).
        { intros l0 Hl0. destruct (phi_at e1 (k_i (m_core x)) (m_disp x) k c1 l0 U2) as [RR _]; [now rewrite Ex|now rewrite En|exact Hl0|].
          destruct (RR c1) as (_ & _ & _ & X); [now rewrite En|]. rewrite Ephi in X. exact X. }
        rewrite (phi_rec e1 (k_i (m_core x)) (m_disp x) k c1 l); [|rewrite En; lia|exact U2|now rewrite Ex|now rewrite En|exact Hl].
        rewrite (phi_rec e1 (k_i (m_core x)) (m_disp x) k c1 l'); [|rewrite En; lia|exact U2|now rewrite Ex|now rewrite En|exact Hl'].
        unfold recursion. f_equal; [f_equal|]; apply csum_ext; intros q Hq; destruct (EP c1 q) as (V1 & V2 & V3);
          rewrite ?V1, ?V2, ?V3.
        * f_equal. apply at_one. destruct (Nat.eq_dec c1 q) as [<-|Hcq]; [exact R1|]. destruct (OD k c1 q Hcq) as (-> & _). reflexivity.
        * f_equal. apply at_one. destruct (Nat.eq_dec c1 q) as [<-|Hcq]; [exact R2|]. destruct (OD k c1 q Hcq) as (_ & -> & _). reflexivity.
        * rewrite Ephi. destruct (Nat.eq_dec c1 q) as [<-|Hcq].
          -- rewrite (I1 l l') by (apply RD; assumption). f_equal. apply at_one. rewrite R3. reflexivity.
          -- destruct (OD k c1 q Hcq) as (_ & _ & -> & _). rewrite !at_zero, !cmul_0l. reflexivity.
      + intros _. rewrite (phi_long e1 (k_i (m_core x)) (m_disp x) k c2 U2); [|now rewrite Ex|now rewrite En|].
        * destruct (EP c2 c2) as (-> & _). exact R2'.
        * destruct (EP c2 c2) as (-> & _). rewrite R2'. exact L2. }
  destruct (run_step_states LA _ _ _ _ _ HS) as [Ha _]. destruct (INV _ _ Ha) as [I1 I2]. specialize (I2 ltac:(lia)).
  destruct (run_state_inv LA _ _ _ _ Sh2 Ha) as (Sa & _ & RS & _). destruct HS as (st & p & _ & _ & _ & _ & Hst).
  destruct (step_memory _ _ Hst) as (e1 & U1 & U2). destruct (update_phi_same _ _ _ _ U2) as [SD2 SM].
  exists (at_ 0 (dPhi (m_disp a) k c1)).
  assert (En : ds_n (m_disp a) = conductors m2) by (unfold m_disp; rewrite (sh_dn _ Sa); unfold conductors; apply (rs_n _ _ RS)).
  assert (Ex : ds_nx (m_disp a) = cells m2) by (unfold m_disp; rewrite (sh_dx _ Sa); unfold cells; apply (rs_N _ _ RS)).
  assert (EP : forall i q, dP3 (m_disp a) k i q = dP3 (m_disp m2) k i q).
  { intros i q. destruct (same_disp_entry _ _ k i q (rs_disp _ _ RS)) as (_ & _ & _ & _ & B3). exact B3. }
  split.
  - intros l Hl. rewrite <- at_lt by exact Hl. apply I1; [left; exact Hl|]. left. lia.
  - replace (dMem (m_disp b) k c1) with (dMem e1 k c1) by (unfold dMem; now rewrite SM).
    destruct (mem_at (m_disp a) e1 k c1) as (r & -> & LR); [rewrite En; lia|exact U1|now rewrite Ex|now rewrite En|].
    destruct (LR c2) as [_ L3]; [now rewrite En|]. rewrite I2 in L3. rewrite (L3 L2).
    rewrite (sumR_ext _ _ (fun _ => fst (cmul w (at_ 0 (dPhi (m_disp a) k c1))))).
    + rewrite sumR_const. rring.
    + intros l Hl. rewrite (csum_one _ _ c1).
      * rewrite EP, R3. f_equal. f_equal.
        destruct (LR c1) as [_ L4]; [now rewrite En|].
        assert (RL : readable l (dPhi (m_disp a) k c1)).
        { unfold readable. destruct (Nat.eq_dec (length (dPhi (m_disp a) k c1)) 1) as [E|E]; [now right|]. left.
          rewrite <- (L4 E), (L3 L2). exact Hl. }
        apply I1; [exact RL|]. unfold readable in *. lia.
      * now rewrite En.
      * intros j Hj Hne. rewrite EP. destruct (OD k c1 j) as (_ & _ & -> & _); [congruence|]. rewrite at_zero. apply cmul_0l.
Qed.
End DispR.
