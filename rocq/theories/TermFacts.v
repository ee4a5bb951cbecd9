(** The equations of the two terminals (over the reals). *)
From Coq Require Import String List Arith ZArith Bool Lia Reals Lra.
From Verif Require Import Num Py Arr ArrFacts NumR RFacts Probes Dispersive Line LineFacts
  SpecLine SpecR HistoryFacts LineEqFacts.
Import ListNotations.
Local Open Scope R_scope.

Section Term.
Variable LA : lapack NumR.
Hypothesis LAok : lapack_ok LA.
Implicit Types (m a b : mtl NumR).

Lemma built_ports m0 : built LA m0 ->
  port_terms LA (conductors m0) (m_zs m0) (getm (k_c (m_core m0)) 0) (getm (k_g (m_core m0)) 0)
     (cell_len m0 0) (step_dt m0) = Ok (m_lp1 m0, m_lp2 m0) /\
  port_terms LA (conductors m0) (m_zl m0) (getm (k_c (m_core m0)) (cells m0))
     (getm (k_g (m_core m0)) (cells m0))
     (cell_len m0 (cells m0 - 1)) (step_dt m0) = Ok (m_rp1 m0, m_rp2 m0).
Proof.
  intros (ju & jdu & l & c & r & g & len & np & ndiv & zs & zl & name & H).
  apply mtl_new_inv in H as (_ & _ & H1 & H2 & _). auto.
Qed.

Lemma left_eq m0 a b : built LA m0 -> shape a -> kept m0 a -> mtl_step a = Ok b ->
  forall c, (c < conductors a)%nat ->
  let n := conductors a in let t := m_time a in let dt := step_dt a in
  cell_len a 0 * (mulv n (Zs_ a) (mulv n (C_ a 0) (fun p => volt b p 0 - volt a p 0)) c / step_dt m0
                  + mulv n (Zs_ a) (mulv n (G_ m0 0) (fun p => volt b p 0 + volt a p 0)) c / 2)
  + volt b c 0 + volt a c 0
  = (source a c 0 t + source a c 0 (t - dt)) - 2 * mulv n (Zs_ a) (fun q => curr a q 0) c
    - cell_len a 0 / dt * mulv n (Zs_ a) (mulv n (C_ a 0) (fun p => eTran a p 0 t - eTran a p 0 (t - dt))) c.
Proof.
  intros HB Sh K Hst c Hc n t dt. destruct (built_ports m0 HB) as [HP _].
  pose proof (sh_N _ Sh) as HN.
  destruct (mtl_step_inv a b HN Hst) as (vt & idf & it & vd & d1 & d2 & ps & _ & _ & _ & Hv & _).
  fold (conductors a) (cells a) in *. fold n in Hv, Hc.
  unfold conductors in HP at 1. rewrite <- (kp_n _ _ K) in HP. fold (conductors a) in HP. fold n in HP.
  rewrite <- (kp_zs _ _ K), <- (kp_c _ _ K), <- (kp_lp1 _ _ K), <- (kp_lp2 _ _ K) in HP.
  assert (EH : cell_len m0 0 = cell_len a 0) by (unfold cell_len; now rewrite (kp_h _ _ K)).
  rewrite EH in HP.
  pose proof (port_eq LA LAok n (m_zs a) _ _ _ _ _ _ (getm (k_c (m_core a)) 0) (cell_len a 0) dt (-(2))
    (col n (k_v (m_core a)) 0) (col n (k_i (m_core a)) 0)
    (col n (sources_now a) 0) (col n (sources_prev a) 0)
    (col n (eT_now (fields a)) 0) (col n (eT_prev (fields a)) 0) (fun p => volt b p 0) HP) as E.
  specialize (E (fun p Hp => Hv p 0%nat Hp ltac:(lia)) c Hc). cbv zeta in E.
  rewrite !get_col in E by auto.
  assert (F : forall (Z A : mat NumR) x y, (forall p, (p < n)%nat -> x p = y p) ->
    sumR n (fun q => get2 Z c q * sumR n (fun r => get2 A q r * x r)) =
    mulv n (get2 Z) (mulv n (get2 A) y) c).
  { intros Z A x y H. apply sumR_ext; intros q Hq. apply (f_equal (Rmult (get2 Z c q))).
    apply sumR_ext; intros r Hr. now rewrite H. }
  rewrite (F _ _ _ (fun p => volt b p 0 - volt a p 0)) in E by (intros; now rewrite get_col).
  rewrite (F _ _ _ (fun p => volt b p 0 + volt a p 0)) in E by (intros; now rewrite get_col).
  rewrite (F _ _ _ (fun p => eTran a p 0 t - eTran a p 0 (t - dt))) in E.
  2:{ intros p Hp. rewrite !get_col by auto. unfold fields, eT_now, eT_prev, eval_fields, eTran.
      now rewrite !eval_at_get. }
  unfold sources_now, sources_prev in E. rewrite !eval_at_get in E.
  assert (F2 : sumR n (fun q => get2 (m_zs a) c q * get (col n (k_i (m_core a)) 0) q) = mulv n (Zs_ a) (fun q => curr a q 0) c).
  { apply sumR_ext; intros q Hq. rewrite get_col by auto. reflexivity. }
  rewrite F2 in E. unfold source. fold (volt a c 0) in E.
  change (get2 (m_zs a)) with (Zs_ a) in E. change (get2 (getm (k_c (m_core a)) 0)) with (C_ a 0) in E.
  change (get2 (getm (k_g (m_core m0)) 0)) with (G_ m0 0) in E.
  fold t in E. unfold dt, step_dt in *. rsimpl. lra.
Qed.

Lemma right_eq m0 a b : built LA m0 -> shape a -> kept m0 a -> mtl_step a = Ok b ->
  forall c, (c < conductors a)%nat ->
  let n := conductors a in let t := m_time a in let dt := step_dt a in let e := cells a in
  cell_len a (e - 1) * (mulv n (Zl_ a) (mulv n (C_ a e) (fun p => volt b p e - volt a p e)) c / step_dt m0
                  + mulv n (Zl_ a) (mulv n (G_ m0 e) (fun p => volt b p e + volt a p e)) c / 2)
  + volt b c e + volt a c e
  = (source a c e t + source a c e (t - dt)) + 2 * mulv n (Zl_ a) (fun q => curr a q (e - 1)) c
    - cell_len a (e - 1) / dt * mulv n (Zl_ a) (mulv n (C_ a e) (fun p => eTran a p e t - eTran a p e (t - dt))) c.
Proof.
  intros HB Sh K Hst c Hc n t dt e. destruct (built_ports m0 HB) as [_ HP].
  pose proof (sh_N _ Sh) as HN.
  destruct (mtl_step_inv a b HN Hst) as (vt & idf & it & vd & d1 & d2 & ps & _ & _ & _ & Hv & _).
  fold (conductors a) (cells a) in *. fold n in Hv, Hc. fold e in Hv, HN.
  unfold conductors in HP at 1. rewrite <- (kp_n _ _ K) in HP. fold (conductors a) in HP. fold n in HP.
  unfold cells in HP. rewrite <- (kp_N _ _ K) in HP. fold (cells a) in HP. fold e in HP.
  rewrite <- (kp_zl _ _ K), <- (kp_c _ _ K), <- (kp_rp1 _ _ K), <- (kp_rp2 _ _ K) in HP.
  assert (EH : cell_len m0 (e - 1) = cell_len a (e - 1)) by (unfold cell_len; now rewrite (kp_h _ _ K)).
  rewrite EH in HP.
  pose proof (port_eq LA LAok n (m_zl a) _ _ _ _ _ _ (getm (k_c (m_core a)) e) (cell_len a (e - 1)) dt 2
    (col n (k_v (m_core a)) e) (col n (k_i (m_core a)) (e - 1))
    (col n (sources_now a) e) (col n (sources_prev a) e)
    (col n (eT_now (fields a)) e) (col n (eT_prev (fields a)) e) (fun p => volt b p e) HP) as E.
  assert (Hv2 : forall p, (p < n)%nat -> volt b p e = port_voltage n (m_rp1 a) (m_rp2 a) (m_zl a)
      (getm (k_c (m_core a)) e) (cell_len a (e - 1)) dt 2
      (col n (k_v (m_core a)) e) (col n (k_i (m_core a)) (e - 1))
      (col n (sources_now a) e) (col n (sources_prev a) e)
      (col n (eT_now (fields a)) e) (col n (eT_prev (fields a)) e) p).
  { intros p Hp. pose proof (Hv p e Hp ltac:(lia)) as X. unfold next_v in X.
    fold (cells a) in X. fold e in X.
    rewrite (proj2 (Nat.eqb_neq e 0)), Nat.eqb_refl in X by lia. exact X. }
  specialize (E Hv2 c Hc). cbv zeta in E.
  rewrite !get_col in E by auto.
  assert (F : forall (Z A : mat NumR) x y, (forall p, (p < n)%nat -> x p = y p) ->
    sumR n (fun q => get2 Z c q * sumR n (fun r => get2 A q r * x r)) =
    mulv n (get2 Z) (mulv n (get2 A) y) c).
  { intros Z A x y H. apply sumR_ext; intros q Hq. apply (f_equal (Rmult (get2 Z c q))).
    apply sumR_ext; intros r Hr. now rewrite H. }
  rewrite (F _ _ _ (fun p => volt b p e - volt a p e)) in E by (intros; now rewrite get_col).
  rewrite (F _ _ _ (fun p => volt b p e + volt a p e)) in E by (intros; now rewrite get_col).
  rewrite (F _ _ _ (fun p => eTran a p e t - eTran a p e (t - dt))) in E.
  2:{ intros p Hp. rewrite !get_col by auto. unfold fields, eT_now, eT_prev, eval_fields, eTran.
      now rewrite !eval_at_get. }
  unfold sources_now, sources_prev in E. rewrite !eval_at_get in E.
  assert (F2 : sumR n (fun q => get2 (m_zl a) c q * get (col n (k_i (m_core a)) (e - 1)) q) = mulv n (Zl_ a) (fun q => curr a q (e - 1)) c).
  { apply sumR_ext; intros q Hq. rewrite get_col by auto. reflexivity. }
  rewrite F2 in E. unfold source. fold (volt a c e) in E.
  change (get2 (m_zl a)) with (Zl_ a) in E. change (get2 (getm (k_c (m_core a)) e)) with (C_ a e) in E.
  change (get2 (getm (k_g (m_core m0)) e)) with (G_ m0 e) in E.
  fold t in E. unfold dt, step_dt in *. rsimpl. lra.
Qed.

End Term.
