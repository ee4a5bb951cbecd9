(** Assembly of bundles, and bundles of physical lines can be run. *)
From Coq Require Import String List Arith ZArith Bool Lia Reals Lra.
From Verif Require Import Num Py Arr ArrFacts NumR RFacts LinAlg LineFacts StepTotal TotalFacts Probes Dispersive Line Bundle Networks Mtln
  SpecLine SpecR SpecBundle SpecCore SpecAlone BundleFacts BlockFacts CoreEq BundleR AloneRun HistoryFacts LapackR.
Import ListNotations.

Section Free.
Context {N : num}.
Local Open Scope num_scope.
Implicit Types (levels : list (list (mtl N))) (b : bundle N) (m : mtl N).

Lemma first_off (ls : list (mtl N)) q : first_row ls q = off ls q.
Proof. unfold first_row, off. now rewrite count_sum. Qed.
Lemma nth_err {A} (l : list A) q d x : nth_error l q = Some x -> (q < length l)%nat /\ nth q l d = x.
Proof. intros H. split; [apply nth_error_Some; congruence|]. now apply nth_error_nth. Qed.

Lemma new_blocks levels name b q q' m m' c c' k : mtld_new levels name = Ok b ->
  let ls := concat levels in
  nth_error ls q = Some m -> nth_error ls q' = Some m' -> (c < conductors m)%nat -> (c' < conductors m')%nat ->
  let i := (first_row ls q + c)%nat in let j := (first_row ls q' + c')%nat in
  let block {A} (x zero : A) := if (q =? q')%nat then x else zero in
  ((k < b_cells b)%nat ->
     get3 (k_l (b_core b)) k i j = block (L_ m k c c') n0 /\ get3 (k_r (b_core b)) k i j = block (R_ m k c c') n0 /\
     dD (b_disp b) k i j = block (dD (m_disp m) k c c') n0 /\ dE (b_disp b) k i j = block (dE (m_disp m) k c c') n0 /\
     dP1 (b_disp b) k i j = block (dP1 (m_disp m) k c c') qzero /\ dP2 (b_disp b) k i j = block (dP2 (m_disp m) k c c') qzero /\
     dP3 (b_disp b) k i j = block (dP3 (m_disp m) k c c') qzero) /\
  ((k <= b_cells b)%nat ->
     get3 (k_c (b_core b)) k i j = block (C_ m k c c') n0 /\ get3 (k_g (b_core b)) k i j = block (G_ m k c c') n0).
Proof.
  intros H ls Hq Hq' Hc Hc' i j block.
  destruct (nth_err _ _ no_line _ Hq) as [Lq <-]. destruct (nth_err _ _ no_line _ Hq') as [Lq' <-].
  assert (Ei : i = (off ls q + c)%nat) by (unfold i; now rewrite first_off).
  assert (Ej : j = (off ls q' + c')%nat) by (unfold j; now rewrite first_off).
  pose proof (new_entries _ _ _ q q' c c' k H) as E. cbv zeta in E. fold ls in E. specialize (E Lq Lq' Hc Hc'). rewrite <- Ei, <- Ej in E.
  destruct E as (E1 & E2 & E3 & E4).
  split; intros Hk; [|split; [apply E3|apply E4]; exact Hk].
  split; [apply E1; exact Hk|]. split; [apply E2; exact Hk|].
  destruct (mtld_new_inv _ _ _ H) as (outer & rest & E & _ & _ & _ & _ & _ & _ & _ & _).
  subst levels. unfold mtld_new in H. inv_bind H. injection H as Hb.
  assert (A : forall sel : mtl N -> mat N, get2 (snd (bd_lines sel ls)) i j = if (q =? q')%nat then get2 (sel (nth q ls no_line)) c c' else n0).
  { intros sel. rewrite Ei, Ej. destruct (Nat.eqb_spec q q') as [<-|Hne].
    - apply (bd_same sel ls no_line q c c'); auto.
    - apply (bd_cross sel ls no_line q c q' c'); auto. }
  assert (B : forall sel, qget2 (snd (qbd_lines sel ls)) i j = if (q =? q')%nat then qget2 (sel (nth q ls no_line)) c c' else qzero).
  { intros sel. rewrite Ei, Ej. destruct (Nat.eqb_spec q q') as [<-|Hne].
    - apply (bd_same (fun _ => []) ls no_line q c c'); auto.
    - apply (bd_cross (fun _ => []) ls no_line q c q' c'); auto. }
  rewrite <- Hb in Hk |- *. unfold b_cells in Hk. cbn [b_core k_N] in Hk. unfold dD, dE, dP1, dP2, dP3, get3, getm, qget3, b_disp.
  cbn [b_core k_disp ds_d ds_e ds_q1 ds_q2 ds_q3]. rewrite !nth_mk by exact Hk. fold ls. rewrite !A, !B. repeat split.
Qed.

Lemma row_owner levels name b i : mtld_new levels name = Ok b -> (i < b_conductors b)%nat <->
  exists q m c, nth_error (concat levels) q = Some m /\ (c < conductors m)%nat /\ i = (first_row (concat levels) q + c)%nat.
Proof.
  intros H. destruct (mtld_new_inv _ _ _ H) as (outer & rest & _ & _ & _ & _ & _ & _ & _ & E & _). rewrite E. split.
  - intros Hi. destruct (locate _ no_line i Hi) as (q & c & Hq & Hc & ->). exists q, (nth q (concat levels) no_line), c.
    split; [now apply nth_error_nth'|]. split; [exact Hc|]. now rewrite first_off.
  - intros (q & m & c & Hq & Hc & ->). destruct (nth_err _ _ no_line _ Hq) as [Lq Em]. rewrite first_off. apply (off_in _ q no_line); auto. now rewrite Em.
Qed.
Lemma row_unique levels name b q m c q' m' c' : mtld_new levels name = Ok b ->
  nth_error (concat levels) q = Some m -> nth_error (concat levels) q' = Some m' -> (c < conductors m)%nat -> (c' < conductors m')%nat ->
  (first_row (concat levels) q + c = first_row (concat levels) q' + c')%nat -> q = q' /\ c = c'.
Proof.
  intros _ Hq Hq' Hc Hc' E. destruct (nth_err _ _ no_line _ Hq) as [Lq Em]. destruct (nth_err _ _ no_line _ Hq') as [Lq' Em']. subst m m'.
  rewrite !first_off in E. eapply locate_unique; eauto.
Qed.
Lemma new_counts levels name b : mtld_new levels name = Ok b ->
  b_conductors b = list_sum (map conductors (concat levels)) /\
  b_cil b = map (fun l => list_sum (map conductors l)) levels /\
  b_conductors b = list_sum (b_cil b) /\ b_levels b = levels /\ b_name b = name /\ b_probes b = [] /\
  (forall c k, b_volt b c k = n0 /\ b_curr b c k = n0).
Proof.
  intros H. destruct (mtld_new_inv _ _ _ H) as (outer & rest & _ & _ & E1 & E2 & E3 & _ & _ & E & _).
  destruct (new_frame _ _ _ H) as (o' & r' & _ & _ & _ & _ & Hv & Hi & _ & _ & _ & _ & _ & Hp).
  assert (C : b_cil b = map (fun l => list_sum (map conductors l)) levels) by (rewrite E2; apply map_ext; intros; apply count_sum).
  split; [rewrite E; apply count_sum|]. split; [exact C|]. split.
  { rewrite C, E, count_sum. clear. induction levels as [|l ls IH]; [reflexivity|]. cbn [concat map list_sum fold_right]. rewrite map_app.
    rewrite list_sum_app. unfold list_sum in *. cbn [fold_right]. now rewrite IH. }
  repeat split; auto; unfold b_volt, b_curr; rewrite ?Hv, ?Hi; apply get2_zeros.
Qed.
Lemma new_accepts levels name : (exists b, mtld_new levels name = Ok b) <->
  exists outer rest, levels = [outer] :: rest /\ forall m, In m (concat levels) -> u_eqb (m_u outer) (m_u m) = true.
Proof.
  split.
  - intros [b H]. destruct (mtld_new_inv _ _ _ H) as (outer & rest & E & F & _). eauto.
  - intros (outer & rest & -> & F). unfold mtld_new.
    assert (X : forall l, (forall m, In m l -> u_eqb (m_u outer) (m_u m) = true) -> foldM (fun (_ : unit) m => passert (u_eqb (m_u outer) (m_u m))) l tt = Ok tt).
    { induction l as [|m l IH]; intros Hl; [reflexivity|]. cbn [foldM]. rewrite Hl by now left. cbn [passert bind]. apply IH. intros x Hx. apply Hl. now right. }
    rewrite (X _ F). cbn [bind]. eauto.
Qed.
Lemma new_rejects levels name e : mtld_new levels name = Err e -> (levels = [] /\ e = KeyError) \/ (levels <> [] /\ e = AssertionError).
Proof.
  unfold mtld_new. destruct levels as [|[|outer [|]] rest]; intros H; try (injection H as <-; right; split; [discriminate|reflexivity]);
    [injection H as <-; now left|]. right. split; [discriminate|].
  match type of H with bind ?r _ = _ => destruct r as [u|e'] eqn:E end; cbn [bind] in H; [discriminate H|]. injection H as <-.
  revert E. generalize (concat ([outer] :: rest)) as l. generalize tt as u. intros u l. revert u. induction l as [|m l IH]; intros u E; [discriminate E|].
  cbn [foldM] in E. destruct (u_eqb (m_u outer) (m_u m)); cbn [passert bind] in E; [eauto|]. now injection E as <-.
Qed.

(** phases of a run cannot fail on a bundle without poles whose coefficients are ready *)
Record steady b : Prop := { sd_flat : flat (b_disp b); sd_lr : k_lr (b_core b) <> None; sd_cg : k_cg (b_core b) <> None }.
Lemma volt_total b t dt : steady b -> exists b', bundle_advance_voltage t dt b = Ok b' /\ steady b'.
Proof.
  intros [F L C]. unfold bundle_advance_voltage, advance_voltage. destruct (k_cg (b_core b)) as [[vt idf]|] eqn:E; [|contradiction].
  cbn [bind]. eexists. split; [reflexivity|]. split; [exact F|exact L|]. cbn. rewrite E. discriminate.
Qed.
Lemma curr_total b t dt : steady b -> exists b', bundle_advance_current t dt b = Ok b' /\ steady b'.
Proof.
  intros [F L C]. unfold bundle_advance_current, advance_current. destruct (k_lr (b_core b)) as [[it vd]|] eqn:E; [|contradiction].
  unfold b_disp in F. destruct (update_q3_total _ F) as (d1 & -> & F1). cbn [bind].
  match goal with |- context [update_phi d1 ?x ?y] => destruct (update_phi_total d1 x y F1) as (d2 & G1 & F2) end. rewrite G1. cbn [bind].
  eexists. split; [reflexivity|]. split; [exact F2| |exact C]. cbn. rewrite E. discriminate.
Qed.
Lemma put_steady b c last x : steady b -> steady (put_end b c last x).
Proof. intros [F L C]. now split. Qed.
Lemma prepared_steady LA b steps b' : bundle_prepare LA steps b = Ok b' -> flat (b_disp b) -> steady b'.
Proof.
  unfold bundle_prepare. intros H F. inv_bind H. inv_bind H. apply OkI in H. subst b'.
  destruct (update_lr_inv _ _ _ Ha) as [t ->]. destruct (update_cg_inv _ _ _ Ha0) as [t' ->]. split; [exact F|discriminate|discriminate].
Qed.
Lemma new_flat levels name b : Forall (Forall undispersed) levels -> mtld_new levels name = Ok b -> flat (b_disp b).
Proof.
  intros U H. destruct (new_zero _ _ _ U H) as (Z1 & _ & Z3). split; intros k i; try intros j.
  - destruct (Z1 k i j) as (E & _). unfold dP1 in E. now rewrite E.
  - destruct (Z1 k i j) as (_ & E & _). unfold dP2 in E. now rewrite E.
  - destruct (Z1 k i j) as (_ & _ & E). unfold dP3 in E. now rewrite E.
  - destruct (Z3 k i) as (E & _). unfold dPhi in E. now rewrite E.
Qed.
End Free.

Local Open Scope R_scope.
Lemma sumR_split a b f : sumR (a + b) f = sumR a f + sumR b (fun i => f (a + i)%nat).
Proof.
  induction b as [|b IH]; [rewrite Nat.add_0_r, sumR_0; lra|]. rewrite Nat.add_succ_r, !sumR_S, IH. lra.
Qed.
Lemma quad_split a b A x : quad (a + b) A x = quad a A x + quad b (fun i j => A (a + i)%nat (a + j)%nat) (fun i => x (a + i)%nat)
  + sumR a (fun i => x i * sumR b (fun j => A i (a + j)%nat * x (a + j)%nat)) + sumR b (fun i => x (a + i)%nat * sumR a (fun j => A (a + i)%nat j * x j)).
Proof.
  unfold quad. rewrite sumR_split.
  rewrite (sumR_ext a _ (fun i => x i * sumR a (fun j => A i j * x j) + x i * sumR b (fun j => A i (a + j)%nat * x (a + j)%nat))) by (intros; rewrite sumR_split; rring).
  rewrite (sumR_ext b _ (fun i => x (a + i)%nat * sumR a (fun j => A (a + i)%nat j * x j) + x (a + i)%nat * sumR b (fun j => A (a + i)%nat (a + j)%nat * x (a + j)%nat))) by (intros; rewrite sumR_split; rring).
  rewrite !sumR_plus. rring.
Qed.
Lemma bd_quad (sel : mtl NumR -> mat NumR) ls m x :
  quad (count_conductors ls + conductors m) (get2 (snd (bd_lines sel (ls ++ [m])))) x =
  quad (count_conductors ls) (get2 (snd (bd_lines sel ls))) x + quad (conductors m) (get2 (sel m)) (fun i => x (count_conductors ls + i)%nat).
Proof.
  set (a := count_conductors ls). rewrite quad_split.
  rewrite (sumR_zero a). 2:{ intros i Hi. rewrite sumR_zero; [ring|]. intros j Hj. rewrite bd_step by (fold a; lia). fold a.
    rewrite (proj2 (Nat.ltb_lt i a)) by auto. rewrite (proj2 (Nat.ltb_ge (a + j) a)) by lia. apply Rmult_0_l. }
  rewrite (sumR_zero (conductors m)). 2:{ intros i Hi. rewrite sumR_zero; [ring|]. intros j Hj. rewrite bd_step by (fold a; lia). fold a.
    rewrite (proj2 (Nat.ltb_lt j a)) by auto. rewrite (proj2 (Nat.ltb_ge (a + i) a)) by lia. apply Rmult_0_l. }
  rewrite !Rplus_0_r. f_equal; apply quad_ext; auto; intros i j Hi Hj; rewrite bd_step by (fold a; lia); fold a.
  - now rewrite (proj2 (Nat.ltb_lt i a)), (proj2 (Nat.ltb_lt j a)) by auto.
  - rewrite (proj2 (Nat.ltb_ge (a + i) a)), (proj2 (Nat.ltb_ge (a + j) a)) by lia. f_equal; lia.
Qed.
Lemma bd_psd (sel : mtl NumR -> mat NumR) ls : (forall m, In m ls -> pos_semidef (conductors m) (get2 (sel m))) ->
  pos_semidef (count_conductors ls) (get2 (snd (bd_lines sel ls))).
Proof.
  induction ls as [|m ls IH] using rev_ind; intros H x; [right; reflexivity|]. rewrite count_app, count_one, bd_quad.
  pose proof (IH ltac:(intros y Hy; apply H, in_or_app; now left) x). pose proof (H m ltac:(apply in_or_app; right; now left) (fun i => x (count_conductors ls + i)%nat)). lra.
Qed.
Lemma bd_pd (sel : mtl NumR -> mat NumR) ls : (forall m, In m ls -> pos_def (conductors m) (get2 (sel m))) ->
  pos_def (count_conductors ls) (get2 (snd (bd_lines sel ls))).
Proof.
  induction ls as [|m ls IH] using rev_ind; intros H x (i & Hi & Hx); [cbn in Hi; lia|]. rewrite count_app, count_one, bd_quad in *.
  assert (Hl : forall y, In y ls -> pos_def (conductors y) (get2 (sel y))) by (intros y Hy; apply H, in_or_app; now left).
  assert (Hm : pos_def (conductors m) (get2 (sel m))) by (apply H, in_or_app; right; now left).
  pose proof (pd_psd _ _ (IH Hl) x) as P1. pose proof (pd_psd _ _ Hm (fun i => x (count_conductors ls + i)%nat)) as P2.
  destruct (Nat.lt_ge_cases i (count_conductors ls)) as [C|C].
  - pose proof (IH Hl x ltac:(eauto)). lra.
  - pose proof (Hm (fun i => x (count_conductors ls + i)%nat)) as P3. assert (0 < quad (conductors m) (get2 (sel m)) (fun i => x (count_conductors ls + i)%nat)); [|lra].
    apply P3. exists (i - count_conductors ls)%nat. split; [lia|]. now replace (count_conductors ls + (i - count_conductors ls))%nat with i by lia.
Qed.

Lemma min_step (ls : list (mtl NumR)) (d : R) : let r := fold_left (fun dt (m : mtl NumR) => if Rltb (k_dt (m_core m)) dt then k_dt (m_core m) else dt) ls d in
  r <= d /\ (forall m, In m ls -> r <= step_dt m) /\ (r = d \/ exists m, In m ls /\ r = step_dt m).
Proof.
  revert d. induction ls as [|m ls IH]; intros d; cbn [fold_left].
  - split; [lra|]. split; [intros m []|now left].
  - destruct (IH (if Rltb (k_dt (m_core m)) d then k_dt (m_core m) else d)) as (H1 & H2 & H3). cbv zeta in *.
    set (r := fold_left _ ls _) in *. destruct (Rltb (k_dt (m_core m)) d) eqn:E.
    + apply Rltb_true in E. split; [lra|]. split; [intros y [<-|Hy]; [exact H1|auto]|]. right. destruct H3 as [H3|(y & Hy & H3)]; [exists m; split; [now left|exact H3]|exists y; split; [now right|exact H3]].
    + apply Rltb_false in E. split; [exact H1|]. split; [intros y [<-|Hy]; [unfold step_dt; lra|auto]|].
      destruct H3 as [H3|(y & Hy & H3)]; [now left|right; exists y; split; [now right|exact H3]].
Qed.
Lemma new_step levels name (b : bundle NumR) : mtld_new levels name = Ok b ->
  (forall m, In m (concat levels) -> k_dt (b_core b) <= step_dt m) /\
  ((forall m, In m (concat levels) -> step_dt m < 10000000000) -> exists m, In m (concat levels) /\ k_dt (b_core b) = step_dt m) /\
  k_dt (b_core b) <= 10000000000.
Proof.
  intros H. destruct (new_frame _ _ _ H) as (outer & rest & E & _ & _ & _ & _ & _ & _ & _ & Hd & _). rewrite Hd.
  destruct (min_step (concat levels) (@n1e10 NumR)) as (H1 & H2 & H3). cbv zeta in *. rsimpl. split; [exact H2|]. split.
  - intros Hs. destruct H3 as [H3|H3]; [|exact H3]. exfalso. assert (I : In outer (concat levels)) by (subst levels; cbn; now left).
    specialize (H2 outer I). specialize (Hs outer I). apply (Rlt_irrefl 10000000000). eapply Rle_lt_trans; [|exact Hs]. change 10000000000 with (@n1e10 NumR). rewrite <- H3 at 1. exact H2.
  - exact H1.
Qed.
Lemma new_nodes levels name (b : bundle NumR) : mtld_new levels name = Ok b ->
  (exists outer rest, levels = [outer] :: rest /\ b_u b = m_u outer /\ b_du b = m_du outer) /\ forall m, In m (concat levels) -> m_u m = b_u b.
Proof.
  intros H. destruct (mtld_new_inv _ _ _ H) as (outer & rest & E & F & _ & _ & _ & Eu & Ed & _). split; [eauto|].
  intros m Hm. rewrite Eu. symmetry. apply u_eqb_eq. apply F. exact Hm.
Qed.

(** a bundle of physical lines can be prepared *)
Section Physical.
Variable LA : lapack NumR.
Hypothesis LAc : lapack_complete LA.
Lemma new_prepare levels name (b : bundle NumR) dt steps : Forall (Forall (reachable LA)) levels -> Forall (Forall physical) levels ->
  mtld_new levels name = Ok b -> 0 < dt -> exists b', bundle_prepare LA steps (b_set_core b (set_dt (b_core b) dt)) = Ok b' /\ steady b'.
Proof.
  intros R P H Hdt. assert (U : Forall (Forall undispersed) levels).
  { rewrite Forall_forall in P |- *. intros l Hl. specialize (P l Hl). rewrite Forall_forall in P |- *. intros m Hm. apply (ph_undisp _ (P m Hm)). }
  assert (PA : forall m, In m (concat levels) -> physical m).
  { intros m Hm. apply in_concat in Hm as (l & Hl & Hm). rewrite Forall_forall in P. specialize (P l Hl). rewrite Forall_forall in P. auto. }
  destruct (new_cdiag LA _ _ _ R H) as (Cd & Hl & Hcells). pose proof (new_no_disp _ _ _ U H) as ND.
  destruct (mtld_new_inv _ _ _ H) as (outer & rest & E & _).
  destruct (new_frame _ _ _ H) as (outer' & rest' & E' & En & EN & _). rewrite E in E'. injection E' as <- <-.
  assert (PO : physical outer) by (apply PA; subst levels; cbn; now left).
  rewrite Forall_forall in Hcells.
  assert (X : forall sel : core NumR -> ten NumR, (forall k, exists M, getm (sel (b_core b)) k = M) -> True) by auto. clear X.
  destruct (core_prepare LA LAc (set_dt (b_core b) dt)) as (s1 & s2 & E1 & E2).
  - destruct Cd as [c1 c2 c3]. split; assumption.
  - exact Hdt.
  - intros k Hk. change (0 < klen (b_core b) k). change (k < k_N (b_core b))%nat in Hk. rewrite Hl by exact Hk. subst levels. cbn [concat app hd].
    apply (ph_h _ PO). assert (Ec : cells outer = b_cells b) by (apply Hcells; cbn; now left). rewrite Ec. exact Hk.
  - intros k Hk. change (k <= k_N (b_core b))%nat in Hk. cbn [k_n set_dt]. rewrite En.
    assert (Sel : kC (b_core b) k = get2 (snd (bd_lines (fun m => getm (k_c (m_core m)) k) (concat levels))) /\
                  kG (b_core b) k = get2 (snd (bd_lines (fun m => getm (k_g (m_core m)) k) (concat levels)))).
    { pose proof H as H'. subst levels. unfold mtld_new in H'. inv_bind H'. injection H' as Hb. unfold kC, kG, get3, getm. rewrite <- Hb in Hk |- *. cbn [b_core k_N k_c k_g] in *.
      rewrite !nth_mk by lia. split; reflexivity. }
    change (pos_def (count_conductors (concat levels)) (kC (b_core b) k) /\ pos_semidef (count_conductors (concat levels)) (kG (b_core b) k)).
    destruct Sel as [-> ->]. split; [apply bd_pd|apply bd_psd]; intros m Hm; [apply (ph_C _ (PA m Hm))|apply (ph_G _ (PA m Hm))]; rewrite (Hcells m Hm); exact Hk.
  - intros k Hk. change (k < k_N (b_core b))%nat in Hk. cbn [k_n set_dt k_dt]. rewrite En.
    assert (Sel : kL (b_core b) k = get2 (snd (bd_lines (fun m => getm (k_l (m_core m)) k) (concat levels))) /\
                  kR (b_core b) k = get2 (snd (bd_lines (fun m => getm (k_r (m_core m)) k) (concat levels)))).
    { pose proof H as H'. subst levels. unfold mtld_new in H'. inv_bind H'. injection H' as Hb. unfold kL, kR, get3, getm. rewrite <- Hb in Hk |- *. cbn [b_core k_N k_l k_r] in *.
      rewrite !nth_mk by lia. split; reflexivity. }
    apply pd_ext with (A := fun i j => / dt * kL (b_core b) k i j + / 2 * kR (b_core b) k i j).
    { intros i j _ _. destruct (ND k i j) as (D1 & D2 & D3 & _). change (kL (set_dt (b_core b) dt)) with (kL (b_core b)). change (kR (set_dt (b_core b) dt)) with (kR (b_core b)).
      change (kD (set_dt (b_core b) dt)) with (kD (b_core b)). change (kE (set_dt (b_core b) dt)) with (kE (b_core b)). change (kQ1 (set_dt (b_core b) dt)) with (kQ1 (b_core b)).
      rewrite D1, D2, D3. unfold Rdiv. rewrite !Rmult_0_l. rring. }
    destruct Sel as [-> ->]. apply pd_add_psd; [apply pd_scal; [now apply Rinv_0_lt_compat|apply bd_pd]|apply psd_scal; [lra|apply bd_psd]];
      intros m Hm; [apply (ph_L _ (PA m Hm))|apply (ph_R _ (PA m Hm))]; rewrite (Hcells m Hm); exact Hk.
  - assert (Hp : exists b', bundle_prepare LA steps (b_set_core b (set_dt (b_core b) dt)) = Ok b').
    { unfold bundle_prepare. cbn [b_core b_set_core b_set]. rewrite E1. cbn [bind]. rewrite E2. cbn [bind]. eauto. }
    destruct Hp as [b' Hp]. exists b'. split; [exact Hp|]. apply (prepared_steady _ _ _ _ Hp). exact (new_flat _ _ _ U H).
Qed.
End Physical.
