(** Superposition for sources, quiescence, and their examples. *)
From Coq Require Import String List Arith ZArith Bool Lia Reals Lra.
From Verif Require Import Num Py Arr ArrFacts NumR RFacts LapackR Probes Dispersive Line LineFacts SpecLine SpecR SpecGeom SpecDyn HistoryFacts
  TotalFacts AttachFacts StepProps ExampleLine ExampleRun RunProps ConeFacts ConeProps SuperFacts.
Import ListNotations.
Local Open Scope R_scope.

Section Super.
Variable LA : lapack NumR.

Lemma silent_lin (m : mtl NumR) : silent m -> lin_state 0 0 m m m.
Proof.
  intros (V & I & Q). split; [|split].
  - intros j k Hj Hk. unfold lin. rewrite V by auto. ring.
  - intros j k Hj Hk. unfold lin. rewrite I by auto. ring.
  - intros j k Hj Hk. split; auto. split; auto. intros p.
    assert (E : nth p (memory m k j) c0 = (0, 0)).
    { destruct (Nat.lt_ge_cases p (length (memory m k j))) as [L|L].
      - apply (Q j k Hj Hk). now apply nth_In.
      - now rewrite nth_overflow. }
    rewrite E. unfold lin. cbn. split; rring.
Qed.
Lemma lin_silent (m : mtl NumR) : lin_state 0 0 m m m -> silent m.
Proof.
  intros (V & I & Q). split; [|split].
  - intros j k Hj Hk. rewrite (V j k Hj Hk). rring.
  - intros j k Hj Hk. rewrite (I j k Hj Hk). rring.
  - intros j k Hj Hk p Hp. apply In_nth with (d := c0) in Hp as (i & Hi & <-). destruct (Q j k Hj Hk) as (_ & _ & H).
    destruct (H i) as [H1 H2]. unfold lin in *. destruct (nth i (memory m k j) c0) as [u w]. cbn in *. f_equal; [rewrite H1|rewrite H2]; rring.
Qed.
Lemma undriven_lin (m : mtl NumR) : undriven m -> lin_drive 0 0 m m m.
Proof.
  intros (S & T & L). split; [|split; [|split]].
  - intros j t Hj. unfold lin. rewrite (proj1 (S j t Hj)). ring.
  - intros j t Hj. unfold lin. rewrite (proj2 (S j t Hj)). ring.
  - intros j k t Hj Hk. unfold lin. rewrite T by auto. ring.
  - intros j k t Hj Hk. unfold lin. rewrite L by auto. ring.
Qed.
Lemma twin_refl (m : mtl NumR) : twin m m.
Proof. split; auto. split; auto. Qed.
Lemma undriven_same (m m' : mtl NumR) : same_line m m' -> undriven m -> undriven m'.
Proof.
  intros S D. unfold undriven, source, eTran, eLong, conductors, cells in *.
  rewrite (sl_vsrc _ _ S). destruct S as [_ _ _ _ _ _ _ _ _ _ S _].
  rewrite (ss_n _ _ S), (ss_N _ _ S), (ss_eT _ _ S), (ss_eL _ _ S). exact D.
Qed.
Lemma silent_step (m m' : mtl NumR) : sized m -> silent m -> undriven m -> mtl_step m = Ok m' -> silent m' /\ undriven m' /\ sized m'.
Proof.
  intros Sz S D H. split; [|split].
  - apply lin_silent. apply (super_step 0 0 m m m m' m' m'); auto using twin_refl, silent_lin, undriven_lin; split; auto.
  - eapply undriven_same; [|exact D]. apply mtl_step_same; auto. apply Sz.
  - eapply sized_step; eauto.
Qed.
Lemma silent_steps n : forall m m' : mtl NumR, sized m -> silent m -> undriven m -> iterM n mtl_step m = Ok m' -> silent m' /\ undriven m' /\ sized m'.
Proof.
  induction n as [|n IH]; intros m m' Sz S D H; cbn [iterM] in H; [injection H as <-; auto|].
  inv_bind H. destruct (silent_step m a Sz S D Ha) as (S' & D' & Sz'). eauto.
Qed.
Lemma silent_run (m m' : mtl NumR) T : sized m -> silent m -> undriven m -> run_until LA m T = Ok m' -> silent m' /\ undriven m' /\ sized m'.
Proof.
  intros Sz S D H. unfold run_until in H. inv_bind H. inv_bind H. apply prepare_inv in Ha0 as (t1 & t2 & _ & ->).
  eapply silent_steps; [| | |exact H]; auto.
Qed.
Lemma silent_for_ever (m m' : mtl NumR) : reachable LA m -> silent m -> undriven m -> marched LA m m' -> silent m' /\ undriven m' /\ sized m'.
Proof.
  intros R S D M. pose proof (reachable_shape _ _ R) as Sh.
  assert (Sz : sized m) by (split; [apply (sh_N _ Sh)|split; [apply (sh_dn _ Sh)|apply (sh_dx _ Sh)]]).
  induction M as [|b c M (S1 & D1 & Z1) H|b T c M (S1 & D1 & Z1) H]; auto.
  - eapply silent_step; eauto.
  - eapply silent_run; eauto.
Qed.
Lemma new_silent (m : mtl NumR) : built LA m -> silent m /\ undriven m.
Proof.
  intros (ju & jdu & l & c & r & g & len & np & ndiv & zs & zl & name & H).
  apply mtl_new_inv in H as (Sh & (dt & Hdt & Edt) & _ & _ & Hd & Hv & Hi & Ht & _ & _ & _ & Hs & HeL & HeT).
  assert (F : forall a b j k, nth k (nth j (mk2 a b (fun _ _ _ => 0)) []) (fun _ : R => 0) = (fun _ => 0)).
  { intros a b j k. unfold mk2. destruct (Nat.lt_ge_cases j a).
    - rewrite nth_mk by auto. destruct (Nat.lt_ge_cases k b).
      + rewrite nth_mk by auto. reflexivity.
      + rewrite nth_mk_over by auto. reflexivity.
    - rewrite nth_mk_over by auto. destruct k; reflexivity. }
  split; split; [| split | | split].
  - intros j k _ _. unfold volt. rewrite Hv. apply (@get2_zeros NumR).
  - intros j k _ _. unfold curr. rewrite Hi. apply (@get2_zeros NumR).
  - intros j k Hj Hk p Hp. unfold memory in Hp. rewrite Hd in Hp. cbn [ds_phi disp_new] in Hp.
    unfold qget2, qzeros2, mk2 in Hp. rewrite nth_mk in Hp by exact Hk. rewrite nth_mk in Hp by exact Hj. destruct Hp as [<-|[]]. reflexivity.
  - intros j t _. unfold source. rewrite Hs. split; now rewrite F.
  - intros j k t _ _. unfold eTran. rewrite HeT. now rewrite F.
  - intros j k t _ _. unfold eLong. rewrite HeL. now rewrite F.
Qed.

Lemma source_added (m m' : mtl NumR) p c f : add_voltage_source m p c f = Ok m' -> (c < conductors m)%nat /\
  forall j k, source m' j k = f \/ (forall g m'', add_voltage_source m p c g = Ok m'' -> source m'' j k = source m j k).
Proof.
  intros H. unfold add_voltage_source in *. destruct (Nat.ltb_spec c (k_n (m_core m))) as [L|L]; [|discriminate]. injection H as <-.
  split; [exact L|]. intros j k. unfold source, upd2. cbn [m_vsrc m_set_vsrc].
  set (s := nearest (m_u m) (pos_vec p)). destruct (Nat.eq_dec j c) as [->|E].
  - destruct (Nat.lt_ge_cases c (length (m_vsrc m))) as [L1|L1].
    + rewrite !nth_lset_eq by auto. destruct (Nat.eq_dec k s) as [->|E2].
      * destruct (Nat.lt_ge_cases s (length (nth c (m_vsrc m) []))) as [L2|L2].
        -- left. now rewrite nth_lset_eq by auto.
        -- right. intros g m'' H. injection H as <-. cbn [m_vsrc m_set_vsrc]. rewrite nth_lset_eq by auto.
           rewrite !nth_overflow; rewrite ?length_lset; auto.
      * right. intros g m'' H. injection H as <-. cbn [m_vsrc m_set_vsrc]. rewrite nth_lset_eq by auto. now rewrite nth_lset_neq by auto.
    + right. intros g m'' H. injection H as <-. cbn [m_vsrc m_set_vsrc].
      rewrite (nth_overflow (lset _ _ _)) by now rewrite length_lset. now rewrite nth_overflow with (l := m_vsrc m) by auto.
  - right. intros g m'' H. injection H as <-. cbn [m_vsrc m_set_vsrc]. now rewrite nth_lset_neq by auto.
Qed.
Lemma add_source_lin al be (m mf mg mh : mtl NumR) p c (f g : R -> R) j k t :
  add_voltage_source m p c f = Ok mf -> add_voltage_source m p c g = Ok mg ->
  add_voltage_source m p c (fun t => al * f t + be * g t) = Ok mh -> source m j k t = 0 ->
  lin al be (source mf j k t) (source mg j k t) (source mh j k t).
Proof.
  intros Hf Hg Hh Z. unfold lin.
  destruct (source_added _ _ _ _ _ Hf) as [_ Af]. destruct (source_added _ _ _ _ _ Hg) as [_ Ag]. destruct (source_added _ _ _ _ _ Hh) as [_ Ah].
  destruct (Af j k) as [Ef|Ef]; [|rewrite (Ef _ _ Hh), (Ef _ _ Hf), (Ef _ _ Hg), Z; ring].
  destruct (Ag j k) as [Eg|Eg]; [|rewrite (Eg _ _ Hh), (Eg _ _ Hf), (Eg _ _ Hg), Z; ring].
  destruct (Ah j k) as [Eh|Eh]; [|rewrite (Eh _ _ Hh), (Eh _ _ Hf), (Eh _ _ Hg), Z; ring].
  rewrite Ef, Eg, Eh. reflexivity.
Qed.
Lemma super_inputs al be (m mf mg mh : mtl NumR) p c (f g : R -> R) : silent m -> undriven m ->
  add_voltage_source m p c f = Ok mf -> add_voltage_source m p c g = Ok mg ->
  add_voltage_source m p c (fun t => al * f t + be * g t) = Ok mh ->
  lin_state al be mf mg mh /\ lin_drive al be mf mg mh.
Proof.
  intros S D Hf Hg Hh. split.
    - unfold add_voltage_source in Hf, Hg, Hh. destruct (_ <? _)%nat; [|discriminate]. injection Hf as <-. injection Hg as <-. injection Hh as <-.
      destruct S as (V & I & Q). split; [|split].
      + intros j k Hj Hk. unfold lin, volt. cbn [m_core m_set_vsrc]. unfold volt in V. rewrite (V j k Hj Hk). rring.
      + intros j k Hj Hk. unfold lin, curr. cbn [m_core m_set_vsrc]. unfold curr in I. rewrite (I j k Hj Hk). rring.
      + intros j k Hj Hk. change (qlin al be (memory m k j) (memory m k j) (memory m k j)). split; [reflexivity|]. split; [reflexivity|]. intros i.
        assert (E : nth i (memory m k j) c0 = (0, 0)).
        { destruct (Nat.lt_ge_cases i (length (memory m k j))) as [L|L]; [apply (Q j k Hj Hk); now apply nth_In|now rewrite nth_overflow]. }
        rewrite E. unfold lin. cbn. split; rring.
    - destruct D as (D1 & D2 & D3).
      assert (SL : forall j k t, source m j k t = 0 -> lin al be (source mf j k t) (source mg j k t) (source mh j k t))
        by (intros; eapply add_source_lin; eauto).
      unfold add_voltage_source in Hf, Hg, Hh. destruct (_ <? _)%nat; [|discriminate]. injection Hf as Ef. injection Hg as Eg. injection Hh as Eh.
      split; [|split; [|split]].
      + intros j t Hj. apply SL. apply D1. rewrite <- Ef in Hj. exact Hj.
      + intros j t Hj. replace (cells mf) with (cells m) by (rewrite <- Ef; reflexivity). apply SL. apply D1. rewrite <- Ef in Hj. exact Hj.
      + intros j k t Hj Hk. rewrite <- Ef, <- Eg, <- Eh in *. unfold lin. change (eTran (m_set_vsrc m ?a) j k t) with (eTran m j k t).
        unfold eTran. cbn [m_core m_set_vsrc]. unfold eTran in D2. rewrite (D2 j k t Hj Hk). rring.
      + intros j k t Hj Hk. rewrite <- Ef, <- Eg, <- Eh in *. unfold lin.
        unfold eLong. cbn [m_core m_set_vsrc]. unfold eLong in D3. rewrite (D3 j k t Hj Hk). rring.
Qed.
Lemma super_sources al be (m mf mg mh : mtl NumR) p c (f g : R -> R) T n a b d :
  reachable LA m -> silent m -> undriven m ->
  add_voltage_source m p c f = Ok mf -> add_voltage_source m p c g = Ok mg ->
  add_voltage_source m p c (fun t => al * f t + be * g t) = Ok mh ->
  run_state LA mf T n a -> run_state LA mg T n b -> run_state LA mh T n d ->
  (forall j k, (j < conductors m)%nat -> (k <= cells m)%nat -> volt d j k = al * volt a j k + be * volt b j k) /\
  (forall j k, (j < conductors m)%nat -> (k < cells m)%nat -> curr d j k = al * curr a j k + be * curr b j k).
Proof.
  intros R S D Hf Hg Hh Ha Hb Hd.
  assert (Hn : conductors a = conductors m /\ cells a = cells m).
  { destruct Ha as (st & pa & _ & _ & Hp & Hi). apply prepare_inv in Hp as (u1 & u2 & _ & ->).
    assert (Sh' : (1 <= k_N (m_core mf))%nat).
    { unfold add_voltage_source in Hf. destruct (_ <? _)%nat; [|discriminate]. injection Hf as <-. apply (sh_N _ (reachable_shape _ _ R)). }
    match type of Hi with iterM _ _ ?q = _ => pose proof (iter_step_same n q a Sh' Hi) as SS end.
    unfold conductors, cells. rewrite (ss_n _ _ (sl_core _ _ SS)), (ss_N _ _ (sl_core _ _ SS)). cbn [m_core m_set k_n k_N set_cg set_lr].
    unfold add_voltage_source in Hf. destruct (_ <? _)%nat; [|discriminate]. injection Hf as <-. auto. }
  assert (L : lin_state al be a b d).
  { destruct (super_inputs al be m mf mg mh p c f g S D Hf Hg Hh) as [L1 L2].
    rewrite <- (with_inputs_source _ _ _ _ _ Hf) in Ha, L1, L2. rewrite <- (with_inputs_source _ _ _ _ _ Hg) in Hb, L1, L2. rewrite <- (with_inputs_source _ _ _ _ _ Hh) in Hd, L1, L2.
    exact (super_run LA al be m _ _ _ T n a b d R L1 L2 Ha Hb Hd). }
  destruct Hn as [Hn HN]. destruct L as (V & I & _). rewrite Hn, HN in V, I. auto.
Qed.
End Super.

(** the coupled two-conductor line, driven at its first node by a step, a sine and a mixture *)
Lemma source_on (m : mtl NumR) p c f : (c < conductors m)%nat -> physical m -> exists m', add_voltage_source m p c f = Ok m' /\ physical m'.
Proof.
  intros Hc P. destruct (add_voltage_source m p c f) as [m'|] eqn:E.
  - exists m'. split; auto. eapply physical_source; eauto.
  - unfold add_voltage_source in E. apply Nat.ltb_lt in Hc. unfold conductors in Hc. rewrite Hc in E. discriminate.
Qed.
Lemma super_example : exists (m mf mg mh : mtl NumR), reachable LR m /\ silent m /\ undriven m /\
  add_voltage_source m (@PosF NumR 0) 0 unit_step = Ok mf /\ add_voltage_source m (@PosF NumR 0) 0 sin = Ok mg /\
  add_voltage_source m (@PosF NumR 0) 0 (fun t => 2 * unit_step t + 3 * sin t) = Ok mh /\
  conductors m = 2%nat /\ cells m = 3%nat /\
  forall T, 0 <= T -> exists n a b d, run_state LR mf T n a /\ run_state LR mg T n b /\ run_state LR mh T n d /\ (step_dt m <= T -> n <> 0%nat).
Proof.
  destruct (ex_new_ok (fun _ => []) (fun _ => [])) as (m & E & P & Hn & HN & _). unfold ex_new in E.
  assert (B : built LR m) by (do 12 eexists; exact E).
  destruct (new_silent LR m B) as [S D].
  destruct (source_on m (@PosF NumR 0) 0 unit_step ltac:(lia) P) as (mf & Ef & Pf).
  destruct (source_on m (@PosF NumR 0) 0 sin ltac:(lia) P) as (mg & Eg & Pg).
  destruct (source_on m (@PosF NumR 0) 0 (fun t => 2 * unit_step t + 3 * sin t) ltac:(lia) P) as (mh & Eh & Ph).
  exists m, mf, mg, mh. split; [exists m; now constructor|]. do 7 (split; [assumption|]). intros T HT.
  assert (Dt : step_dt mf = step_dt m /\ step_dt mg = step_dt m /\ step_dt mh = step_dt m).
  { unfold add_voltage_source in Ef, Eg, Eh. unfold conductors in Hn. rewrite Hn in *. injection Ef as <-. injection Eg as <-. injection Eh as <-. auto. }
  destruct Dt as (D1 & D2 & D3).
  destruct (run_total LR LR_complete mf T Pf) as [a Ha]. destruct (run_total LR LR_complete mg T Pg) as [b Hb]. destruct (run_total LR LR_complete mh T Ph) as [d Hd].
  destruct (run_until_state LR mf T a Ha) as (n & N1 & R1). destruct (run_until_state LR mg T b Hb) as (n2 & N2 & R2). destruct (run_until_state LR mh T d Hd) as (n3 & N3 & R3).
  rewrite D1 in N1. rewrite D2, N1 in N2. injection N2 as <-. rewrite D3, N1 in N3. injection N3 as <-.
  exists n, a, b, d. repeat (split; [assumption|]). intros Hs Z. subst n.
  unfold time_range_len in N1. pose proof (ph_dt _ P) as Hdt. change (step_dt m =? n0)%num with (Reqb (step_dt m) 0) in N1.
  destruct (Reqb_spec (step_dt m) 0); [lra|]. injection N1 as N1.
  assert (1 <= T / step_dt m) by (apply (Rmult_le_reg_r (step_dt m)); [lra|]; field_simplify; lra).
  destruct (base_Int_part (T / step_dt m)) as [_ B2].
  assert (0 < Int_part (T / step_dt m))%Z by (apply lt_IZR; change (IZR 0) with 0; lra).
  rsimpl. lia.
Qed.
Lemma silent_example : exists m m' : mtl NumR, reachable LR m /\ silent m /\ undriven m /\ run_until LR m 10 = Ok m' /\
  conductors m = 2%nat /\ cells m = 3%nat.
Proof.
  destruct (ex_new_ok (fun _ => []) (fun _ => [])) as (m & E & P & Hn & HN & _). unfold ex_new in E.
  assert (B : built LR m) by (do 12 eexists; exact E).
  destruct (new_silent LR m B) as [S D]. destruct (run_total LR LR_complete m 10 P) as [a Ha].
  exists m, a. split; [exists m; now constructor|]. auto.
Qed.
Lemma super_inputs_example : exists (m : mtl NumR) (x y z : inputs NumR), reachable LR m /\
  lin_state 2 3 (with_inputs m x) (with_inputs m y) (with_inputs m z) /\
  lin_drive 2 3 (with_inputs m x) (with_inputs m y) (with_inputs m z) /\ in_src x <> in_src y /\
  forall T, 0 <= T -> exists n a b d, run_state LR (with_inputs m x) T n a /\ run_state LR (with_inputs m y) T n b /\ run_state LR (with_inputs m z) T n d.
Proof.
  destruct super_example as (m & mf & mg & mh & R & S & D & Hf & Hg & Hh & Hn & HN & Run).
  exists m, (inputs_of mf), (inputs_of mg), (inputs_of mh). split; [exact R|].
  rewrite (with_inputs_source _ _ _ _ _ Hf), (with_inputs_source _ _ _ _ _ Hg), (with_inputs_source _ _ _ _ _ Hh).
  destruct (super_inputs 2 3 m mf mg mh (@PosF NumR 0) 0 unit_step sin S D Hf Hg Hh) as [L1 L2].
  split; [exact L1|]. split; [exact L2|]. split.
  - intros E. assert (X : source mf 0 0 0 = source mg 0 0 0) by (unfold source; cbn [in_src inputs_of] in E; now rewrite E).
    destruct (source_node LR m mf (@PosF NumR 0) 0 unit_step R Hf) as (k & Ck & _ & _ & Sk & Sk').
    destruct (source_node LR m mg (@PosF NumR 0) 0 sin R Hg) as (k2 & Ck2 & _ & _ & Sk2 & _).
    assert (Y : source mf 0 k 0 = source mg 0 k 0) by (unfold source; cbn [in_src inputs_of] in E; now rewrite E).
    assert (k2 = k).
    { destruct (Nat.lt_trichotomy k k2) as [L|[L|L]]; auto; exfalso.
      - destruct Ck as (K1 & K2 & K3). destruct Ck2 as (K4 & K5 & K6).
        specialize (K6 k L). specialize (K2 k2 K4). apply (Rlt_not_le _ _ K6 K2).
      - destruct Ck as (K1 & K2 & K3). destruct Ck2 as (K4 & K5 & K6).
        specialize (K3 k2 L). specialize (K5 k K1). apply (Rlt_not_le _ _ K3 K5). }
    subst k2. rewrite Sk, Sk2 in Y. unfold unit_step in Y. rewrite sin_0 in Y. destruct (Rltb_spec 0 0); lra.
  - intros T HT. destruct (Run T HT) as (n & a & b & d & A & B & C & _). exists n, a, b, d. auto.
Qed.
