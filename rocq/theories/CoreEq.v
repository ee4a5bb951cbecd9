(** The discrete equations of one voltage and one current update, for the electrical state
    shared by lines and bundles. *)
From Coq Require Import String List Arith ZArith Bool Lia Reals Lra.
From Verif Require Import Num Py Arr ArrFacts NumR RFacts Probes Dispersive Line LineFacts SpecLine SpecR HistoryFacts LineEqFacts SpecCore.
Import ListNotations.
Local Open Scope R_scope.

Implicit Types s : core NumR.
Lemma OkI {A} (a b : A) : Ok a = Ok b -> a = b.
Proof. now intros [= ->]. Qed.

(** the cells are diagonal *)
Record cdiag s : Prop := {
  cd_n : (0 < k_n s)%nat; cd_N : (0 < k_N s)%nat;
  cd_h : forall k i j, (k < k_N s)%nat -> (i < k_n s)%nat -> (j < k_n s)%nat ->
           get3 (k_h s) k i j = klen s k * @delta NumR i j
}.

Lemma c_width s k i j : cdiag s -> (k <= k_N s)%nat -> (i < k_n s)%nat -> (j < k_n s)%nat ->
  get2 (node_width s k) i j = kwidth s k * @delta NumR i j.
Proof.
  intros Sh Hk Hi Hj. unfold node_width, kwidth. pose proof (cd_N _ Sh) as HN.
  destruct (Nat.eqb_spec k 0) as [->|Hk0]; [now apply (cd_h _ Sh)|].
  destruct (Nat.eqb_spec k (k_N s)) as [->|Hk1]; [apply (cd_h _ Sh); auto; lia|].
  rewrite get2_mscal, get2_madd by auto.
  pose proof (cd_h _ Sh k i j ltac:(lia) Hi Hj) as E1.
  pose proof (cd_h _ Sh (k - 1) i j ltac:(lia) Hi Hj) as E2.
  unfold get3 in E1, E2. rewrite E1, E2. rfield.
Qed.

Lemma c_cg_F1 s k i j : cdiag s -> (k <= k_N s)%nat -> (i < k_n s)%nat -> (j < k_n s)%nat ->
  get2 (cg_F1 s k) i j = kwidth s k * (kC s k i j / k_dt s + kG s k i j / 2).
Proof.
  intros Sh Hk Hi Hj. unfold cg_F1. cbv zeta.
  rewrite mm_diag with (x := kwidth s k); auto.
  - rewrite get2_madd, !get2_mdivs by auto. reflexivity.
  - intros; now apply c_width.
Qed.
Lemma c_cg_F2 s k i j : cdiag s -> (k <= k_N s)%nat -> (i < k_n s)%nat -> (j < k_n s)%nat ->
  get2 (cg_F2 s k) i j = kwidth s k * (kC s k i j / k_dt s - kG s k i j / 2).
Proof.
  intros Sh Hk Hi Hj. unfold cg_F2. cbv zeta.
  rewrite mm_diag with (x := kwidth s k); auto.
  - rewrite get2_msub, !get2_mdivs by auto. reflexivity.
  - intros; now apply c_width.
Qed.
Lemma c_lr_F1 s k i j : cdiag s -> (k < k_N s)%nat -> (i < k_n s)%nat -> (j < k_n s)%nat ->
  get2 (lr_F1 s k) i j =
    klen s k * (kL s k i j / k_dt s + kD s k i j / 2 + kE s k i j / k_dt s + kR s k i j / 2 + kQ1 s k i j).
Proof.
  intros Sh Hk Hi Hj. unfold lr_F1. cbv zeta.
  rewrite mm_diag with (x := klen s k); auto.
  - rewrite !get2_madd, !get2_mdivs, !get2_mscal by auto.
    unfold kL, kD, kE, kR, kQ1, get3. rsimpl. f_equal. unfold Rdiv. ring.
  - intros; now apply (cd_h _ Sh).
Qed.
Lemma c_lr_F2 s k i j : cdiag s -> (k < k_N s)%nat -> (i < k_n s)%nat -> (j < k_n s)%nat ->
  get2 (lr_F2 s k) i j =
    klen s k * (kL s k i j / k_dt s - kD s k i j / 2 + kE s k i j / k_dt s - kR s k i j / 2 - kQ2 s k i j).
Proof.
  intros Sh Hk Hi Hj. unfold lr_F2. cbv zeta.
  rewrite mm_diag with (x := klen s k); auto.
  - rewrite !get2_msub, !get2_madd, !get2_msub, !get2_mdivs, !get2_mscal by auto.
    unfold kL, kD, kE, kR, kQ2, get3. rsimpl. f_equal. unfold Rdiv. ring.
  - intros; now apply (cd_h _ Sh).
Qed.

Section Eq.
Variable LA : lapack NumR.
Hypothesis LAok : lapack_ok LA.

Lemma core_volt s s' (t dtn : NumR) c k : cdiag s -> cg_ready LA s ->
  advance_voltage s (eval_fields (k_eL s) (k_eT s) t dtn) = Ok s' ->
  (c < k_n s)%nat -> (0 < k)%nat -> (k < k_N s)%nat ->
  let n := k_n s in let dt := k_dt s in
  let de p := kTran s p k t - kTran s p k (t - dtn) in
  kwidth s k * (sumR n (fun p => kC s k c p * (kv s' p k - kv s p k + de p)) / dt
             + sumR n (fun p => kG s k c p * (kv s' p k + kv s p k + de p)) / 2)
  + ki s c k - ki s c (k - 1) = 0.
Proof.
  intros Sh Hcg Hst Hc Hk0 Hk1 n dt de.
  destruct (cg_ready_inv LA _ Hcg) as (vt & idf & Ecg & Hinv & Hvt).
  unfold advance_voltage in Hst. rewrite Ecg in Hst. apply OkI in Hst. subst s'.
  assert (Hi : is_inverse n (cg_F1 s k) (getm idf k)) by (apply (inv_ok LA LAok), Hinv; lia).
  set (di := fun j => ki s j k - ki s j (k - 1)).
  set (y := fun j => sumR n (fun p => get2 (cg_F2 s k) j p * kv s p k) - di j).
  match goal with |- context [kv ?S0 _ _ - kv s _ _ + _] => set (s' := S0) end.
  assert (E : forall j, (j < n)%nat -> kv s' j k + de j = sumR n (fun p => get2 (getm idf k) j p * y p)).
  { intros j Hj. unfold kv at 1, s'. cbn [k_v set_v]. rewrite get2_mk2 by (unfold n in *; lia).
    rewrite (proj2 (Nat.ltb_lt 0 k)), (proj2 (Nat.ltb_lt k (k_N s))) by lia. cbn [andb].
    unfold interior_voltage. cbv zeta. fold n.
    rewrite (sumR_ext _ (fun p => get2 (getm idf k) j p * y p)
      (fun p => get2 (getm idf k) j p * sumR n (fun q => get2 (cg_F2 s k) p q * kv s q k)
                - get2 (getm idf k) j p * di p)).
    2:{ intros p Hp. unfold y. rring. }
    rewrite sumR_minus.
    rewrite <- (sumR_assoc n n (fun p => get2 (getm idf k) j p)
                  (fun p q => get2 (cg_F2 s k) p q) (fun q => kv s q k)).
    rewrite (sumR_ext _ (fun p => get3 vt k j p * get2 (k_v s) p k)%num
       (fun q => sumR n (fun p => get2 (getm idf k) j p * get2 (cg_F2 s k) p q) * kv s q k)).
    2:{ intros q Hq. unfold get3. rewrite Hvt by lia. fold n. rewrite get2_mm by auto. reflexivity. }
    unfold de, kTran, eval_fields. cbn [eT_now eT_prev]. rewrite !eval_at_get.
    unfold di, get3, ki. rsimpl. ring. }
  pose proof (inverse_cancel_l n _ _ y c Hi Hc) as E2.
  rewrite (sumR_ext _ _ (fun j => get2 (cg_F1 s k) c j * (kv s' j k + de j))) in E2
    by (intros j Hj; now rewrite E).
  unfold y in E2.
  rewrite (sum_scaled _ (kwidth s k) (fun j => get2 (cg_F1 s k) c j) (fun j => kC s k c j / dt + kG s k c j / 2)) in E2
    by (intros; apply c_cg_F1; auto; lia).
  rewrite (sum_scaled _ (kwidth s k) (fun j => get2 (cg_F2 s k) c j) (fun j => kC s k c j / dt - kG s k c j / 2)) in E2
    by (intros; apply c_cg_F2; auto; lia).
  rewrite <- !sumR_div, <- sumR_plus.
  assert (E3 : sumR n (fun p => kC s k c p * (kv s' p k - kv s p k + de p) / dt
                       + kG s k c p * (kv s' p k + kv s p k + de p) / 2)
     = sumR n (fun j => (kC s k c j / dt + kG s k c j / 2) * (kv s' j k + de j))
     - sumR n (fun j => (kC s k c j / dt - kG s k c j / 2) * kv s j k)).
  { rewrite <- sumR_minus. apply sumR_ext; intros p Hp. unfold Rdiv. rring. }
  rewrite E3. rewrite Rmult_minus_distr_l. rsimpl. rewrite E2. unfold di. ring.
Qed.

Lemma core_volt_end s s' (f : fsrc NumR) c k : advance_voltage s f = Ok s' -> (c < k_n s)%nat ->
  (k = 0 \/ k = k_N s)%nat -> kv s' c k = kv s c k.
Proof.
  unfold advance_voltage. destruct (k_cg s) as [[vt idf]|]; [|discriminate]. intros Hst Hc Hk. apply OkI in Hst. subst s'.
  unfold kv. cbn [k_v set_v]. rewrite get2_mk2 by lia.
  destruct Hk as [-> | ->]; [reflexivity|].
  rewrite (proj2 (Nat.ltb_ge (k_N s) (k_N s))) by lia. now rewrite andb_false_r.
Qed.

Lemma core_curr s s' (t dtn : NumR) c k : cdiag s -> lr_ready LA s ->
  advance_current s (eval_fields (k_eL s) (k_eT s) t dtn) = Ok s' ->
  (c < k_n s)%nat -> (k < k_N s)%nat ->
  let n := k_n s in let dt := k_dt s in
  klen s k *
    (sumR n (fun p => kL s k c p * (ki s' p k - ki s p k)) / dt
     + sumR n (fun p => kR s k c p * (ki s' p k + ki s p k)) / 2
     + sumR n (fun p => kD s k c p * (ki s' p k + ki s p k)) / 2
     + sumR n (fun p => kE s k c p * (ki s' p k - ki s p k)) / dt
     + sumR n (fun p => kQ1 s k c p * ki s' p k)
     + sumR n (fun p => kQ2 s k c p * ki s p k)
     + kmem s' k c)
  + (kv s c (S k) - kv s c k) + (kTran s c (S k) t - kTran s c k t)
  = klen s k * (kLong s c k (t + dtn / 2) + kLong s c k (t - dtn / 2)) / 2.
Proof.
  intros Sh Hlr Hst Hc Hk n dt.
  destruct (lr_ready_inv LA _ Hlr) as (it & vd & Elr & Hinv & Hit).
  unfold advance_current in Hst. inv_bind Hst. rename a into d1. rewrite Elr in Hst. cbv zeta in Hst. inv_bind Hst.
  rename a into d2. apply OkI in Hst. subst s'.
  assert (Hi : is_inverse n (lr_F1 s k) (getm vd k)) by (apply (inv_ok LA LAok), Hinv; auto).
  apply update_phi_same in Ha0 as [_ Hq3].
  match goal with |- context [ki ?S0 _ _ - ki s _ _] => set (s' := S0) end.
  set (h := klen s k) in *.
  set (x := fun j => kv s j (S k) - kv s j k + (kTran s j (S k) t - kTran s j k t)
              - h * (kLong s j k (t + dtn / 2) + kLong s j k (t - dtn / 2)) / 2).
  set (y := fun j => sumR n (fun p => get2 (lr_F2 s k) j p * ki s p k) - x j - h * kmem s' k j).
  assert (E : forall j, (j < n)%nat -> ki s' j k = sumR n (fun p => get2 (getm vd k) j p * y p)).
  { intros j Hj. unfold ki at 1, s'. cbn [k_i set_i_disp]. rewrite get2_mk2 by auto.
    unfold cell_current. cbv zeta. cbn [k_n k_v k_h k_disp k_i set_disp set_i_disp]. fold n.
    rewrite (sumR_ext _ (fun p => get2 (getm vd k) j p * y p)
      (fun p => get2 (getm vd k) j p * sumR n (fun q => get2 (lr_F2 s k) p q * ki s q k)
                - (get2 (getm vd k) j p * x p + get2 (getm vd k) j p * (h * kmem s' k p)))).
    2:{ intros p Hp. unfold y. rring. }
    rewrite sumR_minus, sumR_plus.
    rewrite <- (sumR_assoc n n (fun p => get2 (getm vd k) j p)
                  (fun p q => get2 (lr_F2 s k) p q) (fun q => ki s q k)).
    rewrite (sumR_ext _ (fun p => get3 it k j p * get2 (k_i s) p k)%num
       (fun q => sumR n (fun p => get2 (getm vd k) j p * get2 (lr_F2 s k) p q) * ki s q k)).
    2:{ intros q Hq. unfold get3. rewrite Hit by auto. fold n. rewrite get2_mm by auto. reflexivity. }
    match goal with |- context [nsub (nsub _ ?A) ?B] =>
      assert (EA : A = sumR n (fun p => get2 (getm vd k) j p * x p));
      [|assert (EB : B = sumR n (fun p => get2 (getm vd k) j p * (h * kmem s' k p)))] end.
    - apply sumR_ext; intros p Hp. unfold get3 at 1. f_equal. unfold x.
      rewrite (sumR_ext n _ (fun q => @delta NumR p q * (h * (kLong s q k (t + dtn / 2) + kLong s q k (t - dtn / 2)) / 2))).
      2:{ intros q Hq. rewrite (cd_h _ Sh) by auto. fold h.
          unfold eval_fields. cbn [eL_now eL_prev]. unfold kLong. rewrite !eval_at_get.
          rsimpl. field. }
      rewrite sumR_delta_l by auto.
      unfold eval_fields. cbn [eT_now]. unfold kTran. rewrite !eval_at_get. unfold kv. rring.
    - apply sumR_ext; intros p Hp. unfold get3 at 1. f_equal.
      rewrite (sumR_ext n _ (fun q => @delta NumR p q * (h * kmem s' k q))).
      2:{ intros q Hq. rewrite (cd_h _ Sh) by auto. fold h. unfold kmem, s'. cbn [k_disp set_i_disp]. rewrite Hq3. rring. }
      now rewrite sumR_delta_l by auto.
    - rewrite EA, EB. rring. }
  pose proof (inverse_cancel_l n _ _ y c Hi Hc) as E2.
  rewrite (sumR_ext _ _ (fun j => get2 (lr_F1 s k) c j * ki s' j k)) in E2
    by (intros j Hj; now rewrite E).
  unfold y in E2.
  rewrite (sum_scaled _ h (fun j => get2 (lr_F1 s k) c j) (fun j => kL s k c j / dt + kD s k c j / 2 + kE s k c j / dt + kR s k c j / 2 + kQ1 s k c j)) in E2
    by (intros; apply c_lr_F1; auto).
  rewrite (sum_scaled _ h (fun j => get2 (lr_F2 s k) c j) (fun j => kL s k c j / dt - kD s k c j / 2 + kE s k c j / dt - kR s k c j / 2 - kQ2 s k c j)) in E2
    by (intros; apply c_lr_F2; auto).
  rewrite <- !sumR_div, <- !sumR_plus.
  match goal with |- context [sumR n ?g] => set (gg := g) end.
  assert (E3 : sumR n gg =
       sumR n (fun j => (kL s k c j / dt + kD s k c j / 2 + kE s k c j / dt + kR s k c j / 2 + kQ1 s k c j) * ki s' j k)
     - sumR n (fun j => (kL s k c j / dt - kD s k c j / 2 + kE s k c j / dt - kR s k c j / 2 - kQ2 s k c j) * ki s j k)).
  { rewrite <- sumR_minus. apply sumR_ext; intros p Hp. unfold gg, Rdiv. rring. }
  rewrite E3. rewrite Rmult_plus_distr_l, Rmult_minus_distr_l. rsimpl. rewrite E2. unfold x. field.
Qed.
End Eq.
