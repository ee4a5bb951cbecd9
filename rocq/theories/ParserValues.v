(** The values of the lines of a document, in real arithmetic. *)
From Coq Require Import String List Arith ZArith Lia Bool Reals Lra.
From Verif Require Import Num Py Arr ArrFacts NumR RFacts Utils Probes Dispersive Line Bundle Networks Mtln SpecLine SpecBundle SpecGeom SpecR
  CoreEq BundleFacts HistoryFacts NearestFacts GeomProps GeomProps4 Parser SpecParser SpecDoc SpecDocR ParserFacts ParserBuild ParserNets ParserMore ParserLines.
Import ListNotations.
Local Open Scope R_scope.

Section Values.
Variable LA : lapack NumR.
Variable D : doc NumR.
Implicit Types (m : mtl NumR).

Lemma carries_new ju jdu w l c r len ps ndiv zs zl name m : wire_params w l c r -> mtl_new LA ju jdu l c r (@PFloat NumR 0) len ps ndiv zs zl name = Ok m -> carries w m.
Proof.
  intros W H. pose proof (new_LC _ _ _ _ _ _ _ _ _ _ _ _ _ _ H) as LC. pose proof (new_RG _ _ _ _ _ _ _ _ _ _ _ _ _ _ H) as [RG [_ GG]].
  destruct W as [x y z E1 E2 E3|L C r n E1 E2 -> Hr].
  - left. exists x, y, z. do 3 (split; [assumption|]). destruct LC as (En & EL & EC). destruct RG as [_ ER]. split; [exact En|]. intros k. split; intros Hk; split; auto; [apply ER|apply GG]; lia.
  - right. exists L, C. split; [exact E1|]. split; [exact E2|]. destruct LC as (N1 & N2 & N3 & N4 & EL & EC). destruct RG as (M1 & M2 & ER). split; [exact N1|]. split; [exact N3|]. intros k i j Hi Hj. split; intros Hk.
    + split; [now apply EL|]. rewrite (ER k i j Hk Hi Hj). destruct (Hr i j) as (x & Ex & Cx); [lia..|]. rewrite Ex. unfold delta. split; intros Hij.
      * destruct (Nat.eqb_spec i j); [contradiction|]. rsimpl. ring.
      * subst j. rewrite Nat.eqb_refl. replace (nmul x n1) with x by (rsimpl; ring). rewrite <- N1. now apply Cx.
    + split; [now apply EC|now apply GG].
Qed.

Lemma rest_trans m m1 m2 : rest_of m m1 -> rest_of m1 m2 -> rest_of m m2.
Proof. unfold rest_of. intros A B. repeat match goal with H : _ /\ _ |- _ => destruct H end. repeat split; congruence. Qed.
Lemma rest_refl m : rest_of m m. Proof. now repeat split. Qed.
Lemma end_in_same cb m m1 e k R : rest_of m m1 -> end_in D cb m1 e k R <-> end_in D cb m e k R.
Proof.
  intros (E1 & E2 & E3 & _). unfold end_in, cell_at. now rewrite E2, E3.
Qed.
Lemma end_unique (e : cend) c x far c' x' far' : end_on D e c x far -> end_on D e c' x' far' -> c = c' /\ x = x'.
Proof. intros (r & E & A) (r' & E' & A'). rewrite E in E'. injection E' as <- _. apply element_ends in A, A'. rewrite A in A'. injection A' as <- _. now split. Qed.

Lemma loaded_resisted cb es m m' : loaded LA D cb es m m' -> reachable LA m -> resisted D cb es m m'.
Proof.
  induction 1 as [m|e es c x far m m' He Hn HL IH|e es c x far k0 p conn R m m1 m' He Hk Hp Hm HR Hs HL IH]; intros Rm.
  - split; [apply rest_refl|]. split; [reflexivity|]. split; [reflexivity|]. intros k. right. now split.
  - destruct (IH Rm) as (A & B & C & E). split; [exact A|]. split; [exact B|]. split; [exact C|]. intros k. assert (NE : forall R, ~ end_in D cb m e k R). { intros R (c' & x' & far' & p & conn & q & He' & I & _). destruct (end_unique _ _ _ _ _ _ _ He He') as [<- <-]. contradiction. }
    destruct (E k) as [(es1 & e1 & es2 & R & -> & X)|[X Y]]; [left; now exists (e :: es1), e1, es2, R|right]. split; [|exact Y]. intros e' R [<-|I]; [apply NE|now apply X].
  - pose proof (point_conductor LA _ _ _ _ _ Hs) as ->. assert (R1 : reachable LA m1) by (destruct Rm as [m0 Hm0]; exists m0; eapply h_resistance; eassumption).
    assert (Hu : m_u m <> []). { intros E. pose proof (sh_u _ (reachable_shape _ _ Rm)) as Hx. rewrite E in Hx. discriminate Hx. }
    pose proof (nearest_closest (m_u m) p Hu) as Cl. set (q := @nearest NumR (m_u m) p) in *.
    destruct (resistance_effect LA m m1 (@PosL NumR p) (@PosL NumR p) 0 R q q Rm Cl Cl Hs) as (_ & _ & Re & Eg & ER). rewrite Nat.add_0_r in ER. unfold region_len in ER. rewrite Nat.eqb_refl in ER.
    destruct (IH R1) as (A & B & C & E). pose proof (rest_trans _ _ _ Re A) as RT. split; [exact RT|]. pose proof Re as (En & Ec & Eu & Edu & _).
    split; [intros k i j; rewrite B; unfold G_; now rewrite Eg|]. split.
    { intros k i j Hj Hi. rewrite C, ER by (try exact Hi; rewrite ?En; exact Hj). destruct (Nat.eqb_spec i 0); [contradiction|]. now rewrite andb_false_r. }
    assert (HE : end_in D cb m e (cell_at m q) R) by (exists c, x, far, p, conn, q; repeat (split; [assumption|]); split; [eapply nth_error_In; apply Hk|repeat (split; [assumption|]); reflexivity]).
    intros k. destruct (E k) as [(es1 & e1 & es2 & R' & -> & X1 & X2 & X3)|[X Y]].
    + left. exists (e :: es1), e1, es2, R'. split; [reflexivity|]. split; [now apply (end_in_same _ _ _ _ _ _ Re)|]. split; [intros e' R2 I Hx; apply (X2 e' R2 I); now apply (end_in_same _ _ _ _ _ _ Re)|]. intros j Hj. rewrite <- Edu. apply X3. now rewrite En.
    + assert (X' : forall e' R', In e' es -> ~ end_in D cb m e' k R') by (intros e' R' I Hx; apply (X e' R' I); now apply (end_in_same _ _ _ _ _ _ Re)).
      destruct (Nat.eq_dec k (cell_at m q)) as [->|Hkq].
      * left. exists [], e, es, R. split; [reflexivity|]. split; [exact HE|]. split; [exact X'|]. intros j Hj. rewrite Y, ER by (rewrite ?En; exact Hj). now rewrite Nat.eqb_refl.
      * right. split.
        -- intros e' R' [<-|I]; [|now apply X']. intros (c' & x' & far' & p' & conn' & q' & He' & I & Hp' & _ & _ & Cl' & ->). destruct (end_unique _ _ _ _ _ _ _ He He') as [<- <-]. apply coordinate_point in Hp, Hp'. rewrite Hp in Hp'. injection Hp' as <-. apply Hkq. now rewrite (closest_unique _ _ _ _ Cl Cl').
        -- intros j Hj. rewrite Y, ER by (rewrite ?En; exact Hj). destruct (Nat.eqb_spec k (cell_at m q)); [contradiction|reflexivity].
Qed.
(** the line of a cable *)
Lemma line_values ju jdu name m : line_of_cable LA D ju jdu name m -> exists cb w m0 m1, wired D name cb w /\ cells m0 = list_sum (cb_ndiv cb) /\ carries w m0 /\ resisted D cb (dc_ends D) m0 m1 /\
  exists d, m = m_set_core m1 (set_disp (m_core m1) d).
Proof.
  intros (cb & w & ps & l & c & r & m0 & m1 & W & P & Q & H & Ld & Lu). exists cb, w, m0, m1. split; [exact W|]. split; [|split; [eapply carries_new; eassumption|]].
  - apply new_parts in H as (_ & _ & _ & _ & ->). unfold total, list_sum. apply fold_symmetric; intros; lia.
  - split; [apply loaded_resisted; [exact Ld|exists m0; apply h_new; repeat eexists; exact H]|].
    destruct Lu as [[_ ->]|(lu & conn & model & p & _ & _ & _ & _ & Hd)]; [exists (k_disp (m_core m1)); destruct m1 as [a1 a2 a3 s a5 a6 a7 a8 a9 a10 a11 a12 a13]; unfold m_set_core, m_set; cbn; f_equal; now destruct s|].
    unfold mtl_add_dispersive_connector in Hd. inv_bind Hd. injection Hd as <-. now exists a.
Qed.
End Values.
