(** Proofs for PropGeom.v, second part: terminal impedances, geometry, default time step. *)
From Coq Require Import String List Arith ZArith Bool Lia Reals Lra.
From Verif Require Import Num Py Arr ArrFacts NumR RFacts LapackR Utils Probes Dispersive Line LineFacts SpecLine SpecGeom SpecR
  HistoryFacts GeometryFacts PlainFacts TotalFacts NewTotal NearestFacts Bundle WaveProps GeomProps.
Import ListNotations.
Local Open Scope R_scope.

(** *** C30 *)
Lemma new_Zt LA ju jdu l c r g len np ndiv (zs zl : ztin NumR) name (m : mtl NumR) :
  mtl_new LA ju jdu l c r g len np ndiv zs zl name = Ok m ->
  match zs, zl with
  | ZScal x, ZScal y => diag_with (conductors m) (Zs_ m) (fun _ => x) /\ diag_with (conductors m) (Zl_ m) (fun _ => y)
  | ZVec a x, ZVec b y => a = conductors m /\ b = conductors m /\
      diag_with (conductors m) (Zs_ m) (fun i => @get NumR x i) /\ diag_with (conductors m) (Zl_ m) (fun i => @get NumR y i)
  | ZMat r1 c1 A, ZMat r2 c2 B => r1 = r2 /\ c1 = c2 /\
      (r1 = 1%nat /\ c1 = conductors m /\ diag_with (conductors m) (Zs_ m) (fun i => @get2 NumR A 0 i)
         /\ diag_with (conductors m) (Zl_ m) (fun i => @get2 NumR B 0 i) \/
       r1 = conductors m /\ c1 = 1%nat /\ diag_with (conductors m) (Zs_ m) (fun i => @get2 NumR A i 0)
         /\ diag_with (conductors m) (Zl_ m) (fun i => @get2 NumR B i 0))
  | _, _ => False
  end.
Proof.
  intros H. apply new_parts in H as (_ & _ & H & _ & _). unfold Zs_, Zl_. set (n := conductors m) in *.
  assert (D : forall (x : nat -> nat -> R) i j, (i < n)%nat -> (j < n)%nat ->
     @get2 NumR (@mk2 (car NumR) n n (fun a b => @nmul NumR (x a b) (delta a b))) i j = if (i =? j)%nat then x i i else 0).
  { intros x i j Hi Hj. rewrite get2_mk2 by auto. destruct (Nat.eqb_spec i j) as [->|E].
    - rewrite deltaR_eq. rring.
    - rewrite deltaR_neq by auto. rring. }
  unfold init_Zt in H. destruct zs as [x|a x|r1 c1 A|], zl as [y|b y|r2 c2 B|]; try discriminate.
  - injection H as <- <-. split; intros i j Hi Hj; rewrite get2_mscal by auto; rewrite get2_eye by auto;
      unfold delta; destruct (i =? j)%nat; rring.
  - inv_bind H. inv_bind H. unfold passert in *.
    destruct (Nat.eqb_spec a b); [|discriminate]. destruct (Nat.eqb_spec a n); [|discriminate].
    injection H as <- <-. repeat (split; [congruence|]). split; intros i j Hi Hj; now apply (D (fun i _ => @get NumR _ i)).
  - inv_bind H. inv_bind H. inv_bind H. unfold passert in *.
    destruct ((r1 =? r2)%nat && (c1 =? c2)%nat) eqn:E; [|discriminate]. apply andb_true_iff in E as [E1 E2].
    apply Nat.eqb_eq in E1, E2. subst r2 c2.
    destruct ((r1 =? 1)%nat || (c1 =? 1)%nat) eqn:E1; [|discriminate].
    destruct ((r1 =? n)%nat || (c1 =? n)%nat) eqn:E2; [|discriminate].
    destruct (((r1 =? 1)%nat || (r1 =? n)%nat) && ((c1 =? 1)%nat || (c1 =? n)%nat)) eqn:E3; [|discriminate].
    apply andb_true_iff in E3 as [E3 E4]. rewrite orb_true_iff, !Nat.eqb_eq in *. injection H as <- <-.
    split; [auto|]. split; [auto|]. unfold zt_bcast.
    destruct (Nat.eq_dec r1 1) as [->|N1].
    + left. split; auto. assert (c1 = n) by lia. split; auto. subst c1. rewrite Nat.eqb_refl.
      split; intros i j Hi Hj; rewrite (D (fun a b => @get2 NumR _ 0 (if (n =? 1)%nat then 0%nat else b))) by auto;
        destruct (Nat.eqb_spec n 1) as [E|E]; auto; replace i with 0%nat by lia; reflexivity.
    + right. assert (c1 = 1)%nat by lia. subst c1. assert (r1 = n) by lia. subst r1. split; auto. split; auto.
      destruct (Nat.eqb_spec n 1) as [E|E]; [contradiction|]. rewrite Nat.eqb_refl.
      split; intros i j Hi Hj; now rewrite (D (fun a b => @get2 NumR _ a 0)) by auto.
Qed.
(** which pairs are accepted for [n] conductors *)
Section Any.
Context {N : num}.
Variable LA : lapack N.
Lemma Zt_total n (zs zl : ztin N) : zt_ok n zs zl -> exists z, init_Zt n zs zl = Ok z.
Proof.
  unfold zt_ok, init_Zt, passert. destruct zs, zl; try tauto; eauto.
  - intros [-> ->]. rewrite !Nat.eqb_refl. cbn. eauto.
  - intros (<- & <- & [[-> ->]|[-> ->]]); rewrite !Nat.eqb_refl; cbn; rewrite ?Nat.eqb_refl, ?orb_true_r; cbn; eauto.
Qed.
Lemma Zt_accepted n (zs zl : ztin N) z : init_Zt n zs zl = Ok z -> zt_ok n zs zl.
Proof.
  unfold zt_ok, init_Zt, passert. destruct zs as [x|a x|r1 c1 A|], zl as [y|b y|r2 c2 B|]; try discriminate; auto.
  - destruct (Nat.eqb_spec a b); [|discriminate]. cbn [bind]. destruct (Nat.eqb_spec a n); [|discriminate]. split; congruence.
  - destruct (Nat.eqb_spec r1 r2), (Nat.eqb_spec c1 c2); try discriminate. subst r2 c2. cbn [andb bind].
    destruct (Nat.eqb_spec r1 1), (Nat.eqb_spec c1 1), (Nat.eqb_spec r1 n), (Nat.eqb_spec c1 n); cbn; try discriminate; intros _;
      split; auto; split; auto; lia.
Qed.
Lemma Zt_rejected n (zs zl : ztin N) : ~ zt_ok n zs zl -> exists e, init_Zt n zs zl = Err e.
Proof. intros H. destruct (init_Zt n zs zl) eqn:E; eauto. exfalso. eapply H, Zt_accepted, E. Qed.
Lemma Zt_mixed n (zs zl : ztin N) : is_scalar zs <> is_scalar zl -> init_Zt n zs zl = Err ValueError.
Proof. destruct zs, zl; cbn; congruence. Qed.
Lemma args_total ndiv (l c r g : pulin N) : lc_ok l c -> rg_ok (size_of l) r -> rg_ok (size_of l) g ->
  exists l' c' rg, init_LC (total ndiv) l c = Ok (l', c', size_of l) /\ init_RG (total ndiv) (size_of l) r g = Ok rg.
Proof.
  intros H HR HG. unfold init_RG. destruct (rg1_total (S (total ndiv)) _ _ HG) as [g' ->].
  destruct (rg1_total (total ndiv) _ _ HR) as [r' ->]. cbn [bind].
  unfold lc_ok, init_LC, size_of in *. destruct l, c; try tauto; [do 3 eexists; split; reflexivity|].
  destruct H as (-> & -> & ->). rewrite !Nat.eqb_refl. cbn [andb bind]. do 3 eexists; split; reflexivity.
Qed.
Lemma new_Zt_mixed ju jdu (l c r g : pulin N) len np ndiv zs zl name :
  lc_ok l c -> rg_ok (size_of l) r -> rg_ok (size_of l) g -> is_scalar zs <> is_scalar zl ->
  mtl_new LA ju jdu l c r g len np ndiv zs zl name = Err ValueError.
Proof.
  intros H HR HG HZ. destruct (args_total ndiv _ _ _ _ H HR HG) as (l' & c' & rg & E1 & E2).
  eapply new_Zt_err; eauto. now apply Zt_mixed.
Qed.
Lemma new_Zt_rejected ju jdu (l c r g : pulin N) len np ndiv zs zl name :
  lc_ok l c -> rg_ok (size_of l) r -> rg_ok (size_of l) g -> ~ zt_ok (size_of l) zs zl ->
  exists e, mtl_new LA ju jdu l c r g len np ndiv zs zl name = Err e.
Proof.
  intros H HR HG HZ. destruct (args_total ndiv _ _ _ _ H HR HG) as (l' & c' & rg & E1 & E2).
  destruct (Zt_rejected _ _ _ HZ) as [e E]. exists e. eapply new_Zt_err; eauto.
Qed.
End Any.

(** *** C26 *)
Lemma coord_get p k : coord p k = @get NumR p k. Proof. reflexivity. Qed.

Lemma seg_du_coord (np : mat NumR) d i k : (k < 3)%nat ->
  coord (seg_du np d i) k = (coord (nth (S i) np []) k - coord (nth i np []) k) / INR d.
Proof.
  intros Hk. rewrite coord_get. unfold seg_du, vdivs, vsub. rewrite !get_mk by auto. rsimpl.
  rewrite <- INR_IZR_INZ. reflexivity.
Qed.
Lemma closed_u_coord (np : mat NumR) d i q k : (q < d)%nat -> (k < 3)%nat ->
  coord (closed_u np d (i * d + q)) k =
  coord (nth i np []) k + INR q * ((coord (nth (S i) np []) k - coord (nth i np []) k) / INR d).
Proof.
  intros Hq Hk. unfold closed_u. destruct (div_mod_idx d i q Hq) as [-> ->].
  rewrite coord_get. unfold vadd, vscal. rewrite get_mk by auto. rewrite get_mk by auto.
  rewrite <- (seg_du_coord np d i k Hk). rsimpl. rewrite <- INR_IZR_INZ. reflexivity.
Qed.

(** node [j] of the line along the vertices [np], [d] divisions per segment *)
Lemma equal_divisions LA ju jdu l c r g len (np : mat NumR) d s zs zl name (m : mtl NumR) :
  mtl_new LA ju jdu l c r g len np (repeat d s) zs zl name = Ok m ->
  let P := vertices len np in
  length P = S s /\ cells m = (s * d)%nat /\ length (m_u m) = S (s * d) /\ length (m_du m) = (s * d)%nat /\
  (forall i q k, (i < s)%nat -> (q < d)%nat -> (k < 3)%nat ->
     coord (nth (i * d + q) (m_u m) []) k =
       coord (nth i P []) k + INR q * ((coord (nth (S i) P []) k - coord (nth i P []) k) / INR d) /\
     coord (nth (i * d + q) (m_du m) []) k = (coord (nth (S i) P []) k - coord (nth i P []) k) / INR d) /\
  nth (s * d) (m_u m) [] = nth s P [] /\
  (forall j k, (j < s * d)%nat -> (k < 3)%nat ->
     coord (nth (S j) (m_u m) []) k = coord (nth j (m_u m) []) k + coord (nth j (m_du m) []) k) /\
  (forall j, (j < s * d)%nat -> cell_len m j = dist3 (nth (S j) (m_u m) []) (nth j (m_u m) [])).
Proof.
  intros H P. pose proof (mtl_new_inv _ _ _ _ _ _ _ _ _ _ _ _ _ _ H) as (SH & _).
  apply new_parts in H as (_ & _ & _ & H & HN). fold P in H.
  assert (HT : total (repeat d s) = (s * d)%nat) by (unfold total; now rewrite fold_add_repeat).
  rewrite HT in HN.
  assert (HP : length P = S s).
  { unfold geometry in H. inv_bind H. unfold passert in Ha. rewrite repeat_length in Ha.
    destruct (Nat.eqb_spec (length P) (s + 1)) as [E|E]; [lia|discriminate]. }
  rewrite geometry_equal in H by lia. injection H as Hu Hdu Hh.
  assert (Hd : (s * d >= 1)%nat) by (rewrite <- HN; apply (sh_N _ SH)).
  assert (Hd1 : (1 <= d)%nat) by nia.
  assert (U : forall i q, (i < s)%nat -> (q < d)%nat -> nth (i * d + q) (m_u m) [] = closed_u P d (i * d + q)).
  { intros i q Hi Hq. rewrite <- Hu. assert (i * d + q < s * d)%nat by nia. rewrite nth_mk by lia.
    destruct (Nat.eqb_spec (i * d + q) (s * d)); [lia|reflexivity]. }
  assert (UL : nth (s * d) (m_u m) [] = nth s P []).
  { rewrite <- Hu, nth_mk by lia. now rewrite Nat.eqb_refl. }
  assert (DU : forall i q, (i < s)%nat -> (q < d)%nat -> nth (i * d + q) (m_du m) [] = seg_du P d i).
  { intros i q Hi Hq. rewrite <- Hdu. assert (i * d + q < s * d)%nat by nia. rewrite nth_mk by lia.
    now destruct (div_mod_idx d i q Hq) as [-> _]. }
  assert (G : forall i q k, (i < s)%nat -> (q < d)%nat -> (k < 3)%nat ->
     coord (nth (i * d + q) (m_u m) []) k =
       coord (nth i P []) k + INR q * ((coord (nth (S i) P []) k - coord (nth i P []) k) / INR d) /\
     coord (nth (i * d + q) (m_du m) []) k = (coord (nth (S i) P []) k - coord (nth i P []) k) / INR d).
  { intros i q k Hi Hq Hk. rewrite U, DU by auto. now rewrite closed_u_coord, seg_du_coord by auto. }
  assert (STEP : forall j k, (j < s * d)%nat -> (k < 3)%nat ->
     coord (nth (S j) (m_u m) []) k = coord (nth j (m_u m) []) k + coord (nth j (m_du m) []) k).
  { intros j k Hj Hk. pose proof (Nat.div_mod j d ltac:(lia)) as E. rewrite Nat.mul_comm in E.
    pose proof (Nat.mod_upper_bound j d ltac:(lia)) as Hq. set (i := (j / d)%nat) in *. set (q := (j mod d)%nat) in *.
    assert (Hi : (i < s)%nat) by nia. rewrite E. destruct (G i q k Hi Hq Hk) as [-> ->].
    assert (HdR : INR d <> 0) by (apply not_0_INR; lia).
    destruct (Nat.eq_dec (S q) d) as [E1|E1].
    - replace (S (i * d + q)) with (S i * d + 0)%nat by lia.
      assert (coord (nth (S i * d + 0) (m_u m) []) k = coord (nth (S i) P []) k) as ->.
      { destruct (Nat.eq_dec (S i) s) as [E2|E2].
        - rewrite E2, Nat.add_0_r, UL. reflexivity.
        - destruct (G (S i) 0%nat k ltac:(lia) ltac:(lia) Hk) as [-> _]. simpl INR. ring. }
      assert (INR q = INR d - 1) as -> by (rewrite <- E1, S_INR; ring). field. auto.
    - replace (S (i * d + q)) with (i * d + S q)%nat by lia.
      destruct (G i (S q) k Hi ltac:(lia) Hk) as [-> _]. rewrite S_INR. ring. }
  split; [auto|]. split; [auto|]. split; [rewrite <- Hu; apply length_mk|]. split; [rewrite <- Hdu; apply length_mk|].
  split; [exact G|]. split; [exact UL|]. split; [exact STEP|].
  intros j Hj. unfold cell_len. rewrite <- Hh. unfold get3, getm. rewrite nth_mk by auto.
  assert (Hn : (1 <= conductors m)%nat) by apply (sh_n _ SH).
  rewrite get2_mscal, get2_eye, deltaR_eq by lia.
  assert (nth j (m_du m) [] = seg_du P d (j / d)) as ED by (rewrite <- Hdu, nth_mk by auto; reflexivity).
  rewrite <- ED. transitivity (@vnorm NumR (nth j (m_du m) [])); [apply Rmult_1_r|].
  rewrite vnorm3. unfold dist3. f_equal.
  assert (X : forall k, (k < 3)%nat -> coord (nth j (m_du m) []) k = nth k (nth (S j) (m_u m) []) 0 - nth k (nth j (m_u m) []) 0).
  { intros k Hk. change (coord (nth j (m_du m) []) k = coord (nth (S j) (m_u m) []) k - coord (nth j (m_u m) []) k).
    rewrite (STEP j k Hj Hk). ring. }
  unfold coord in X. rewrite !X by lia. rring.
Qed.

(** *** C31 *)
Lemma single_h (m : mtl NumR) : shape m -> conductors m = 1%nat ->
  forall x, In x (concat (concat (k_h (m_core m)))) <-> exists k, (k < cells m)%nat /\ x = cell_len m k.
Proof.
  intros SH H1 x. assert (E : forall k, (k < cells m)%nat -> getm (k_h (m_core m)) k = [[cell_len m k]]).
  { intros k Hk. unfold cell_len, get3. pose proof (sh_h _ SH k Hk) as D. unfold conductors in H1. rewrite H1 in D.
    destruct D as [[y D]|D]; rewrite D; reflexivity. }
  split.
  - intros Hx. apply in_concat in Hx as (row & Hrow & Hx). apply in_concat in Hrow as (mt & Hmt & Hrow).
    apply (In_nth _ _ ([] : mat NumR)) in Hmt as (k & Hk & <-). rewrite (sh_hl _ SH) in Hk.
    fold (getm (k_h (m_core m)) k) in Hrow. rewrite E in Hrow by auto. destruct Hrow as [<-|[]]. destruct Hx as [<-|[]]. eauto.
  - intros (k & Hk & ->). apply in_concat. exists [cell_len m k]. split; [|now left].
    apply in_concat. exists (getm (k_h (m_core m)) k). split; [|rewrite E by auto; now left].
    unfold getm. apply nth_In. rewrite (sh_hl _ SH). exact Hk.
Qed.

Lemma default_dt LA ju jdu (x y : R) r g len np ndiv zs zl name (m : mtl NumR) : lapack_ok LA ->
  mtl_new LA ju jdu (@PFloat NumR x) (@PFloat NumR y) r g len np ndiv zs zl name = Ok m -> 0 < x -> 0 < y ->
  exists k, (k < cells m)%nat /\ cell_len m k <> 0 /\
    (forall j, (j < cells m)%nat -> cell_len m j <> 0 -> cell_len m k <= cell_len m j) /\
    step_dt m = cell_len m k * sqrt (x * y).
Proof.
  intros OK H Hx Hy. pose proof (new_LC _ _ _ _ _ _ _ _ _ _ _ _ _ _ H) as (H1 & HL & HC).
  apply mtl_new_inv in H as (SH & (dt & HD & Edt) & _).
  assert (E : step_dt m = dt) by exact Edt. rewrite E. clear E.
  unfold get_max_timestep in HD. inv_bind HD. inv_bind HD. injection HD as <-.
  destruct (vmin_spec (filter (fun x0 : NumR => negb (x0 =? n0)%num) (concat (concat (k_h (m_core m)))))) as (hm & Eh & Ih & Lh).
  { intros E. rewrite E in Ha. discriminate. }
  rewrite Eh in Ha. injection Ha as <-.
  apply filter_In in Ih as [Ih Nz]. apply single_h in Ih as (k & Hk & ->); auto.
  exists k. split; auto. apply negb_true_iff in Nz. rsimpl. apply Reqb_false in Nz. split; auto. split.
  - intros j Hj Hz. apply Lh. apply filter_In. split; [apply single_h; eauto|].
    apply negb_true_iff. rsimpl. now apply Reqb_false.
  - assert (V : forall z, In z (concat (get_phase_velocities LA (m_core m))) -> z = 1 / sqrt (x * y)).
    { intros z Hz. apply in_concat in Hz as (row & Hrow & Hz). unfold get_phase_velocities, mk in Hrow.
      apply in_map_iff in Hrow as (q & <- & Hq). apply in_seq in Hq. apply in_map_iff in Hz as (ev & <- & Hev).
      unfold conductors in H1. rewrite H1 in Hev. rewrite (eig_ok _ OK) in Hev. destruct Hev as [<-|[]].
      rewrite get2_mm by lia. rewrite sumR_S, sumR_0. fold (get3 (k_l (m_core m)) q 0 0). fold (get3 (k_c (m_core m)) (S q) 0 0).
      unfold L_, C_, cells in *. rewrite HL, HC by lia. rsimpl. now rewrite Rplus_0_l. }
    assert (a0 = 1 / sqrt (x * y)) as ->.
    { assert (Ha1 : @vmax NumR (@concat (car NumR) (get_phase_velocities LA (m_core m))) = Ok a0) by exact Ha0. clear Ha0.
      destruct (concat (get_phase_velocities LA (m_core m))) as [|b l] eqn:EV.
      - discriminate Ha1.
      - destruct (vmax_spec (b :: l)) as (vm & Ev & Iv & _); [discriminate|].
        apply V. assert (a0 = vm) as ->; [|exact Iv].
        congruence. }
    assert (0 < sqrt (x * y)) by (apply sqrt_lt_R0; nra). rsimpl. field. lra.
Qed.
Definition nonneg_diag (n : nat) (A : mat NumR) : Prop :=
  (exists x : R, 0 <= x /\ A = @mscal NumR n x (eye n)) \/ A = zeros2 n n.
Lemma geometry_nonneg n (np : mat NumR) ndiv ju jdu u du h :
  geometry n np ndiv ju jdu = Ok (u, du, h) ->
  length h = total ndiv /\ forall k, (k < total ndiv)%nat -> nonneg_diag n (getm h k).
Proof.
  unfold geometry. fold (total ndiv). intros H.
  inv_bind H. inv_bind H. destruct a0 as [[u1 du1] h1].
  injection H as <- <- <-.
  set (P := fun st : mat NumR * mat NumR * ten NumR => let '(u, du, h) := st in
     length h = total ndiv /\ (forall k, (k < total ndiv)%nat -> nonneg_diag n (getm h k))).
  change (P (u1, du1, h1)). revert Ha0. apply foldM_inv.
  - intros [i dv] [[u2 du2] h2] st' _ HP. apply foldM_inv; [|exact HP].
    intros k [[u3 du3] h3] st3 _ (L3 & D) H3.
    inv_bind H3. inv_bind H3. inv_bind H3. injection H3 as <-.
    apply py_set_Ok in Ha0 as [_ ->], Ha1 as [_ ->], Ha2 as [B ->].
    split; rewrite ?length_lset; auto.
    intros q Hq. unfold getm. rewrite nth_lset.
    destruct (_ && _); [left; eexists; split; [|reflexivity]; apply sqrt_pos|]. now apply D.
  - unfold P. split; unfold zeros3; rewrite ?length_mk; auto.
    intros k Hk. right. now rewrite getm_mk.
Qed.
Lemma cell_len_nonneg LA (m : mtl NumR) k : built LA m -> (k < cells m)%nat -> 0 <= cell_len m k.
Proof.
  intros B Hk. pose proof (built_shape _ _ B) as SH.
  destruct B as (ju & jdu & l & c & r & g & len & np & ndiv & zs & zl & name & H).
  apply new_parts in H as (_ & _ & _ & H & HN). apply geometry_nonneg in H as [_ D].
  unfold cell_len, get3. assert (Hn : (1 <= conductors m)%nat) by apply (sh_n _ SH).
  destruct (D k ltac:(lia)) as [(x & Hx & ->)| ->].
  - rewrite get2_mscal, get2_eye, deltaR_eq by lia. rsimpl. lra.
  - rewrite get2_zeros. apply Rle_refl.
Qed.
Lemma default_dt_cfl LA ju jdu (x y : R) r g len np ndiv zs zl name (m : mtl NumR) : lapack_ok LA ->
  mtl_new LA ju jdu (@PFloat NumR x) (@PFloat NumR y) r g len np ndiv zs zl name = Ok m -> 0 < x -> 0 < y ->
  0 < step_dt m /\
  forall j, (j < cells m)%nat -> cell_len m j <> 0 -> step_dt m * (1 / sqrt (x * y)) <= cell_len m j.
Proof.
  intros OK H Hx Hy. pose proof H as H0. apply (default_dt _ _ _ _ _ _ _ _ _ _ _ _ _ _ OK) in H; auto.
  destruct H as (k & Hk & Nz & Mn & E).
  assert (0 < sqrt (x * y)) by (apply sqrt_lt_R0; nra).
  assert (B : built LA m) by (repeat eexists; eauto).
  pose proof (cell_len_nonneg _ _ _ B Hk) as P.
  assert (0 < cell_len m k) by (rsimpl; lra).
  rewrite E. split; [rsimpl; nra|]. intros j Hj Hz. specialize (Mn j Hj Hz).
  apply Rle_trans with (2 := Mn). right. rsimpl. field. lra.
Qed.
