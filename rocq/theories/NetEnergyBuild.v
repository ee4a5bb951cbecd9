(** Networks of lines put together in the plain way meet the hypotheses of the energy balance. *)
From Coq Require Import String List Arith ZArith Bool Permutation Lia Reals Lra.
From Verif Require Import Num Py Arr ArrFacts NumR RFacts LinAlg Utils Probes Dispersive Line LineFacts StepTotal Bundle Networks Mtln
  SpecLine SpecR SpecBundle SpecNet SpecMtln SpecCore SpecDisp SpecEnergy SpecTele SpecSuper SpecSolo SpecNetEnergy HistoryFacts TotalFacts BundleFacts BundleR BundleMore CoreEq CoreUnique SymFacts
  AloneFacts AloneRun NetFacts NetBuild NetR NetStamp NetStamp2 NetPlace NetMore NetTotal MtlnFacts MtlnProps MtlnR SuperNet SoloNet SoloNet2 SoloRun PropGeom LapackR MtlnTotal NetEnergy NetEnergyRun.
Import ListNotations.
Local Open Scope R_scope.

(** *** registration at level 0 changes nothing *)
Lemma shift_zero (bs : bdict NumR) kn kn' : shift_node bs 0 kn = Ok kn' -> kn' = kn.
Proof. destruct kn as [id nd]. unfold shift_node. intros H. inv_bind H. cbv zeta in H. apply OkI in H. subst kn'. unfold n_before. cbn [firstn map fold_right]. destruct nd; cbn. now rewrite Nat.add_0_r. Qed.
Lemma mapM_same_list {A} (f : A -> res A) l : forall l', mapM f l = Ok l' -> (forall a a', f a = Ok a' -> a' = a) -> l' = l.
Proof. induction l as [|a l IH]; intros l' H E; cbn [mapM] in H; [apply OkI in H; now subst|]. inv_bind H. inv_bind H. apply OkI in H. subst l'. f_equal; eauto. Qed.
Lemma register_zero (bs : bdict NumR) (w : network NumR) d' : update_index_numbers [(0%nat, w)] bs = Ok d' -> d' = [(0%nat, w)].
Proof.
  unfold update_index_numbers. cbn [mapM fst snd]. intros H. inv_bind H. inv_bind Ha. apply OkI in Ha, H. subst.
  apply mapM_same_list in Ha0; [|apply shift_zero]. subst a0. now destruct w.
Qed.
Lemma new_nets (bs : list (bundle NumR)) (ws : list (network NumR)) x : mtln_new bs (map (fun w => [(0%nat, w)]) ws) = Ok x ->
  t_bundles x = named bs /\ NoDup (map (@b_name NumR) bs) /\ nets x = ws.
Proof.
  intros H. destruct (new_order _ _ _ H) as [E ND]. split; [exact E|]. split; [exact ND|]. unfold mtln_new in H. inv_bind H. pose proof (fold_add _ _ _ Ha) as (_ & En & _).
  apply fold_networks_map in H as (ws' & Hw & ->). unfold nets. cbn [t_set t_networks]. rewrite En. cbn [mtln_empty t_networks app]. clear - Hw.
  revert ws' Hw. induction ws as [|w ws IH]; intros ws' H; cbn [map mapM] in H; [apply OkI in H; now subst|]. inv_bind H. inv_bind H. apply OkI in H. subst ws'.
  apply register_zero in Ha. subst a0. cbn [flat_map tiers map snd app]. f_equal. now apply IH.
Qed.

(** *** what the calls leave alone *)
Lemma calls_history (LA : lapack NumR) ds l : forall w w' : network NumR, net_history LA ds w -> do_calls w l = Ok w' -> net_history LA ds w'.
Proof. induction l as [|c l IH]; intros w w' Hw H; unfold do_calls in H; cbn [foldM] in H; [apply OkI in H; subst; exact Hw|]. inv_bind H. eapply IH; [eapply nh_call; eauto|exact H]. Qed.
Lemma calls_stamps l : forall w w' : network NumR, nshape w -> do_calls w l = Ok w' -> nshape w' /\ exists P1 Ps M N1 Ns O Q1 Qs vs, w' = set_stamps w P1 Ps M N1 Ns O Q1 Qs vs.
Proof.
  induction l as [|c l IH]; intros w w' S H; unfold do_calls in H; cbn [foldM] in H.
  - apply OkI in H. subst. split; [exact S|]. exists (w_P1 w'), (w_Ps w'), (w_M w'), (w_N1 w'), (w_Ns w'), (w_O w'), (w_Q1 w'), (w_Qs w'), (w_vsrc w'). now destruct w'.
  - inv_bind H. destruct (call_shape _ _ _ S Ha) as (S1 & p1 & ps & m & n1 & ns & o & q1 & qs & vs & E). destruct (IH _ _ S1 H) as (S2 & p1' & ps' & m' & n1' & ns' & o' & q1' & qs' & vs' & E').
    split; [exact S2|]. exists p1', ps', m', n1', ns', o', q1', qs', vs'. rewrite E', E. reflexivity.
Qed.

(** *** sources that are off *)
Definition dark (t0 : R) (V : tfun NumR) : Prop := match V with TFun f => forall t, t0 <= t -> f t = 0 | TInt _ => True end.
Lemma dark_add t0 g V : dark t0 g -> dark t0 V -> dark t0 (add_t_functions g V).
Proof. destruct g as [z|f], V as [z'|f']; cbn; auto. intros H H' t Ht. rewrite H, H' by exact Ht. apply Rplus_0_l. Qed.
Lemma dark_nth t0 l k : Forall (dark t0) l -> dark t0 (nth k l (TInt 0)).
Proof. intros F. destruct (nth_in_or_default k l (TInt 0)) as [I|E]; [rewrite Forall_forall in F; auto|rewrite E; exact I]. Qed.
Lemma dark_call t0 w c w' : Forall (dark t0) (w_vsrc w) -> to_ground c \/ between_nodes c -> off_from t0 c -> do_call w c = Ok w' -> Forall (dark t0) (w_vsrc w').
Proof.
  intros F K O H. destruct c as [id R V|id R L C V|id C V|id|id1 id2 R V|id1 id2]; cbn [do_call] in H; [|destruct K as [K|K]; destruct K| | | |].
  - unfold connect_to_ground in H. inv_bind H. cbv zeta in H. inv_bind H. assert (D : dark t0 V) by (destruct V; exact O).
    destruct (tf_nonzero V); [inv_bind H|]; apply OkI in H; subst w'; [apply lset_Forall; assumption|exact F].
  - unfold connect_to_ground_C in H. inv_bind H. cbv zeta in H. assert (D : dark t0 V) by (destruct V; exact O).
    destruct (tf_nonzero V); apply OkI in H; subst w'; [apply lset_Forall; assumption|exact F].
  - unfold short_to_ground in H. inv_bind H. apply OkI in H. subst w'. exact F.
  - unfold connect_nodes in H. inv_bind H. inv_bind H. inv_bind H. cbv zeta in H. inv_bind H. inv_bind H. assert (D : dark t0 V) by (destruct V; exact O).
    destruct (tf_nonzero V); apply OkI in H; subst w'; [|exact F]. cbn [set_P set_stamps w_vsrc].
    assert (F1 : Forall (dark t0) (lset (w_vsrc w) (nd_index a) (add_t_functions (nth (nd_index a) (w_vsrc w) (TInt 0)) V))) by (apply lset_Forall; [exact F|apply dark_add; [now apply dark_nth|exact D]]).
    apply lset_Forall; [exact F1|apply dark_add; [now apply dark_nth|exact D]].
  - unfold short_nodes in H. inv_bind H. inv_bind H. apply OkI in H. subst w'. exact F.
Qed.
Lemma dark_calls t0 l : forall w w', Forall (dark t0) (w_vsrc w) -> Forall (fun c => to_ground c \/ between_nodes c) l -> Forall (off_from t0) l -> do_calls w l = Ok w' -> Forall (dark t0) (w_vsrc w').
Proof.
  induction l as [|c l IH]; intros w w' F K O H; unfold do_calls in H; cbn [foldM] in H; [apply OkI in H; now subst|]. inv_bind H. inversion K; inversion O; subst.
  eapply IH; [eapply dark_call; eauto|assumption|assumption|exact H].
Qed.

(** *** one circuit *)
Section One.
Variable LA : lapack NumR.
Lemma quad_opp n (A : nat -> nat -> R) u : quad n (fun i j => - A i j) u = - quad n A u.
Proof. unfold quad. rewrite <- sumR_opp. apply sumR_ext. intros i Hi. rewrite Ropp_mult_distr_r. f_equal. rewrite <- sumR_opp. apply sumR_ext. intros. rring. Qed.
Record made (ds : list (descr NumR)) (w : network NumR) : Prop := {
  md_hist : net_history LA ds w; md_conn : all_connected ds;
  md_row : map cend_of (w_conns w) = flat_map (fun d => map (fun r => (d_bundle d, r, d_end d)) (seq 0 (conductors (d_line d)))) ds;
  md_at : forall q d r, nth_error ds q = Some d -> (r < conductors (d_line d))%nat ->
    exists kn, In kn (w_conns w) /\ nd_index (snd kn) = (first_node ds q + r)%nat /\ cend_of kn = (d_bundle d, r, d_end d);
  md_V : forall i, nV w i = 0; md_I : forall i, nI w i = 0;
  md_Q : forall i j, nQ w i j = nQ w j i; md_G' : forall u, quad (w_nodes w) (nG w) u <= 0; md_Q' : forall u, quad (w_nodes w) (nQ w) u <= 0;
  md_ns : w_ns w = 0%nat
}.
Lemma builds_made ds gs bs w : builds (ds, (gs, bs)) w -> made ds w.
Proof.
  intros (A & G & B & w0 & Hn & Hs & Hc). pose proof (new_shape _ _ Hn) as S0. destruct (calls_stamps _ _ _ S0 Hc) as (S & p1 & ps & m & n1 & ns & o & q1 & qs & vs & Ew).
  pose proof (built_rc ds w0 gs bs w Hn G B Hc) as RC.
  assert (Ec : w_conns w = w_conns w0) by now rewrite Ew.
  destruct (new_built _ _ Hn) as (a & nds & Bt & E). assert (Ev : w_v w0 = zeros (w_nodes w0)) by tauto. assert (Ei : w_i w0 = zeros (w_nodes w0)) by tauto. clear E.
  split.
  - eapply calls_history; [apply nh_new; exact Hn|exact Hc].
  - exact A.
  - rewrite Ec. destruct (new_nodes _ _ Hn) as (nds' & E & F). rewrite E. clear - A F. revert A. induction F as [|d l ds nds (cs & St & Fl) F IH]; intros A; [reflexivity|].
    inversion A as [|? ? A1 A2]; subst. cbn [concat flat_map]. rewrite map_app. rewrite (IH A2). f_equal.
    assert (Ec : map c_cond cs = seq 0 (conductors (d_line d))).
    { destruct St as (P & Ss & _). apply sorted_unique; [|apply seq_sorted|].
      - clear - Ss. induction Ss as [|x l S IH F]; cbn [map]; constructor; auto. clear - F. induction F; cbn [map]; constructor; auto.
      - eapply Permutation_trans; [apply Permutation_map, Permutation_sym, P|exact A1]. }
    rewrite <- Ec. clear - Fl. induction Fl as [|x kn cs l ((D1 & D2 & D3 & D4 & D5) & _) Fl IH]; [reflexivity|]. cbn [map]. rewrite IH. f_equal. unfold cend_of. now rewrite D3, D4, D5.
  - intros q d r Hq Hr. destruct (new_node_at ds w0 q d r Hn A Hq Hr) as (kn & Hk & E1 & E2 & E3 & E4 & _). exists kn. rewrite Ec. split; [eapply nth_error_In; eauto|]. split; [exact E1|]. unfold cend_of. now rewrite E2, E3, E4.
  - intros i. rewrite Ew. change (get (w_v w0) i = 0). rewrite Ev. exact (get_zeros _ _).
  - intros i. rewrite Ew. change (get (w_i w0) i = 0). rewrite Ei. exact (get_zeros _ _).
  - unfold do_calls in Hc. rewrite foldM_app in Hc. inv_bind Hc. rename a0 into w1. destruct (grounds_diag gs _ _ S0 (new_diag _ _ Hn) G Ha) as [S1 D1].
    pose proof (calls_effect bs _ _ S1 B Hc) as Ef. assert (Eq : forall i j, nQ w i j = nQ w1 i j) by (destruct (es_same _ _ _ Ef) as (P & Q & V & ->); reflexivity).
    intros i j. rewrite !Eq. destruct (Nat.eq_dec i j) as [->|Nij]; [reflexivity|]. rewrite !(rd_Q _ D1) by congruence. reflexivity.
  - intros u. pose proof (rc_G _ RC u) as H. rewrite quad_opp in H. lra.
  - intros u. pose proof (rc_Q _ RC u) as H. rewrite quad_opp in H. lra.
  - rewrite Ew. exact Hs.
Qed.
Lemma builds_dark t0 ds gs bs w : builds (ds, (gs, bs)) w -> Forall (off_from t0) (gs ++ bs) -> forall i t, t0 <= t -> nSrc w i t = 0.
Proof.
  intros (A & G & B & w0 & Hn & Hs & Hc) O i t Ht. assert (F : Forall (dark t0) (w_vsrc w)).
  { eapply dark_calls; [| |exact O|exact Hc].
    - destruct (new_built _ _ Hn) as (a & nds & Bt & E). assert (Ev : w_vsrc w0 = mk (w_nodes w0) (fun _ => TFun (fun _ => @n0 NumR))) by tauto. rewrite Ev.
      apply Forall_forall. intros V HV. unfold mk in HV. apply in_map_iff in HV as (k & <- & _). intros ? _. reflexivity.
    - apply Forall_app. split; [eapply Forall_impl; [|exact G]|eapply Forall_impl; [|exact B]]; cbn; auto. }
  pose proof (dark_nth t0 _ i F) as D. unfold nSrc. destruct (nth i (w_vsrc w) (TInt 0)); [reflexivity|]. exact (D t Ht).
Qed.
End One.

(** *** lists *)
Lemma flat_map_perm {A B} (f g : A -> list B) l : (forall a, In a l -> Permutation (f a) (g a)) -> Permutation (flat_map f l) (flat_map g l).
Proof. induction l as [|a l IH]; intros H; cbn [flat_map]; [constructor|]. apply Permutation_app; [apply H; now left|apply IH; intros; apply H; now right]. Qed.
Lemma flat_map_flat {A B C} (f : A -> list B) (g : B -> list C) l : flat_map g (flat_map f l) = flat_map (fun a => flat_map g (f a)) l.
Proof. induction l as [|a l IH]; cbn [flat_map]; [reflexivity|]. now rewrite flat_map_app, IH. Qed.
Lemma flat_map_map {A B C} (f : A -> B) (g : B -> list C) l : flat_map g (map f l) = flat_map (fun a => g (f a)) l.
Proof. induction l as [|a l IH]; cbn [flat_map map]; [reflexivity|]. now rewrite IH. Qed.
Lemma flat_map_ext_in {A B} (f g : A -> list B) l : (forall a, In a l -> f a = g a) -> flat_map f l = flat_map g l.
Proof. induction l as [|a l IH]; intros H; cbn [flat_map]; [reflexivity|]. rewrite H by (now left). f_equal. apply IH. intros; apply H; now right. Qed.
Lemma NoDup_part {A B} (f : A -> list B) l a : NoDup (flat_map f l) -> In a l -> NoDup (f a).
Proof. induction l as [|b l IH]; intros H I; [destruct I|]. cbn [flat_map] in H. apply NoDup_halves in H as [H1 H2]. destruct I as [->|I]; auto. Qed.
Lemma interleave {A B} (f g : A -> B) l : Permutation (map f l ++ map g l) (flat_map (fun a => [f a; g a]) l).
Proof.
  induction l as [|a l IH]; cbn [map flat_map app]; [constructor|]. constructor. eapply Permutation_trans; [apply Permutation_sym, Permutation_middle|]. now constructor.
Qed.
Lemma both_NoDup {A} (l : list (string * A)) : NoDup (map fst l) -> NoDup (flat_map (fun nm => [(fst nm, false); (fst nm, true)]) l).
Proof.
  induction l as [|[n a] l IH]; cbn [map fst flat_map app]; intros H; [constructor|]. apply NoDup_cons_iff in H as [Hn H].
  assert (K : forall e, ~ In (n, e) (flat_map (fun nm : string * A => [(fst nm, false); (fst nm, true)]) l)).
  { intros e I. apply in_flat_map in I as (nm & I1 & I2). apply Hn. destruct I2 as [I2|[I2|[]]]; injection I2 as <- _; now apply in_map. }
  constructor; [intros [E|I]; [discriminate E|exact (K _ I)]|]. constructor; [apply K|auto].
Qed.

(** *** the whole *)
Lemma asm_name (lines : list (string * mtl NumR)) (bs : list (bundle NumR)) : Forall2 (fun nm b => mtld_new [[snd nm]] (fst nm) = Ok b) lines bs -> map (@b_name NumR) bs = map fst lines.
Proof.
  induction 1 as [|nm b l bs H F IH]; [reflexivity|]. cbn [map]. rewrite IH. f_equal. unfold mtld_new in H. inv_bind H. apply OkI in H. rewrite <- H. reflexivity.
Qed.
Section Whole.
Variable LA : lapack NumR.
Variables (lines : list (string * mtl NumR)) (cs : list circuit) (x : mtln NumR).
Hypothesis HA : assembled lines cs x.
Hypothesis HL : Forall (fun nm => unlit_line LA (snd nm)) lines.
Notation key := (fun d : descr NumR => (d_bundle d, d_end d)).

Lemma asm_all : NoDup (map fst lines) /\ map fst (t_bundles x) = map fst lines /\
  Forall2 (fun nm kb => fst kb = fst nm /\ mtld_new [[snd nm]] (fst nm) = Ok (snd kb)) lines (t_bundles x) /\
  Forall2 builds cs (nets x).
Proof.
  destruct HA as (_ & _ & bs & ws & F & G & H). pose proof (asm_name _ _ F) as En. destruct (new_nets _ _ _ H) as (E1 & ND & E2). rewrite E1, E2, named_keys, <- En.
  split; [exact ND|]. split; [reflexivity|]. split; [|exact G]. clear - F. unfold named. induction F as [|nm b l bs H F IH]; cbn [map]; constructor; auto. cbn [fst snd]. split; [|exact H].
  unfold mtld_new in H. inv_bind H. apply OkI in H. rewrite <- H. reflexivity.
Qed.
Lemma asm_NoDup : NoDup (map fst (t_bundles x)).
Proof. destruct asm_all as (ND & E & _). now rewrite E. Qed.
Lemma asm_of_line name m : In (name, m) lines -> exists b, bundle_of x name = Some b /\ mtld_new [[m]] name = Ok b.
Proof.
  intros I. destruct asm_all as (ND & E & F & _). assert (K : exists kb, In kb (t_bundles x) /\ fst kb = name /\ mtld_new [[m]] name = Ok (snd kb)).
  { clear - F I. induction F as [|nm kb l l' H F IH]; [destruct I|]. destruct I as [->|I]; [exists kb; split; [now left|exact H]|]. destruct (IH I) as (kb' & J & K). exists kb'. split; [now right|exact K]. }
  destruct K as ([n b] & J & K1 & K2). cbn [fst snd] in *. subst n. exists b. split; [|exact K2]. apply sget_in; [exact asm_NoDup|exact J].
Qed.
Lemma asm_of_bundle name b : bundle_of x name = Some b -> exists m, In (name, m) lines /\ mtld_new [[m]] name = Ok b.
Proof.
  intros H. apply sget_some in H. destruct asm_all as (_ & _ & F & _). clear - F H. induction F as [|[n m] kb l l' (E1 & E2) F IH]; [destruct H|]. cbn [fst snd] in *.
  destruct H as [->|H]; [cbn [fst snd] in *; subst n; exists m; split; [now left|exact E2]|]. destruct (IH H) as (m' & J & K). exists m'. split; [now right|exact K].
Qed.
Lemma asm_carries name m b : In (name, m) lines -> mtld_new [[m]] name = Ok b -> carries LA m b /\ (forall c k, b_volt b c k = 0) /\ (forall c k, b_curr b c k = 0).
Proof.
  intros I H. rewrite Forall_forall in HL. specialize (HL _ I). cbn [snd] in HL. destruct (carries_new LA m name b (ul_reach _ _ HL) (ul_und _ _ HL) H) as (A & B & C & _). auto.
Qed.
Lemma asm_net w : In w (nets x) -> exists c, In c cs /\ builds c w /\ made LA (fst c) w.
Proof.
  intros I. destruct asm_all as (_ & _ & _ & F). clear - LA F I. induction F as [|c w' l l' H F IH]; [destruct I|]. destruct I as [->|I].
  - exists c. split; [now left|]. split; [exact H|]. destruct c as (ds & gs & bs). eapply builds_made. exact H.
  - destruct (IH I) as (c' & J & K). exists c'. split; [now right|exact K].
Qed.
Lemma asm_keys c : In c cs -> NoDup (map key (fst c)).
Proof.
  intros I. destruct HA as (_ & P & _). destruct asm_all as (ND & _). apply (NoDup_part (fun c : circuit => map key (fst c)) cs c); [|exact I].
  eapply Permutation_NoDup; [apply Permutation_sym; exact P|now apply both_NoDup].
Qed.
Lemma asm_wired : wired x.
Proof.
  pose proof HA as (Hd & P & _). destruct asm_all as (ND & E & Fb & Fn).
  set (nof := fun name => match dget String.eqb name lines with Some m => conductors m | None => 0%nat end).
  set (G := fun ke : string * bool => map (fun r => (fst ke, r, snd ke)) (seq 0 (nof (fst ke)))).
  assert (El : flat_map (fun w => map cend_of (w_conns w)) (nets x) = flat_map G (flat_map (fun c : circuit => map key (fst c)) cs)).
  { rewrite flat_map_flat. clear - LA Hd ND Fn G. induction Fn as [|c w l l' H F IH]; [reflexivity|]. cbn [flat_map]. rewrite IH by (intros c' d I; apply Hd; now right). f_equal.
    destruct c as (ds & gs & bs). rewrite (md_row _ _ _ (builds_made LA _ _ _ _ H)). cbn [fst]. rewrite flat_map_map. apply flat_map_ext_in. intros d Id. unfold G. cbn [fst snd].
    assert (En : nof (d_bundle d) = conductors (d_line d)). { unfold nof. rewrite (sget_in _ _ _ ND (Hd _ d (or_introl eq_refl) Id)). reflexivity. }
    now rewrite En. }
  unfold wired. rewrite El. eapply Permutation_trans; [apply Permutation_flat_map; exact P|]. rewrite flat_map_flat.
  assert (Nof : forall nm, In nm lines -> nof (fst nm) = conductors (snd nm)). { intros [name m] I. unfold nof. cbn [fst snd]. now rewrite (sget_in _ _ _ ND I). }
  assert (Cof : forall nm (kb : string * bundle NumR), In nm lines -> mtld_new [[snd nm]] (fst nm) = Ok (snd kb) -> b_conductors (snd kb) = conductors (snd nm)).
  { intros [name m] kb I H. cbn [fst snd] in *. destruct (asm_carries _ _ _ I H) as (C & _). exact (ca_n _ _ _ C). }
  clearbody nof. clear - Fb Nof Cof. induction Fb as [|nm kb l l' (E1 & E2) F IH]; [constructor|]. cbn [flat_map].
  apply Permutation_app; [|apply IH; [intros; apply Nof; now right|intros nm' kb' I; apply Cof; now right]]. rewrite app_nil_r. unfold G, cends. cbn [fst snd].
  rewrite (Nof nm (or_introl eq_refl)), E1, (Cof nm kb (or_introl eq_refl) E2). apply interleave.
Qed.
(** where a node stands *)
Lemma asm_node w kn : In w (nets x) -> In kn (w_conns w) -> exists c q d r, In c cs /\ builds c w /\ made LA (fst c) w /\ nth_error (fst c) q = Some d /\ (r < conductors (d_line d))%nat /\
  In (d_bundle d, d_line d) lines /\ nd_index (snd kn) = (first_node (fst c) q + r)%nat /\ nd_bundle (snd kn) = d_bundle d /\ nd_row (snd kn) = r /\ nd_end (snd kn) = d_end d.
Proof.
  intros Hw Hk. destruct (asm_net w Hw) as (c & Hc & Bc & M). assert (I : In (cend_of kn) (map cend_of (w_conns w))) by now apply in_map. rewrite (md_row _ _ _ M) in I.
  apply in_flat_map in I as (d & Id & I). apply in_map_iff in I as (r & Er & Ir). apply in_seq in Ir. destruct (In_nth_error _ _ Id) as [q Hq].
  destruct (md_at _ _ _ M q d r Hq ltac:(lia)) as (kn' & Hk' & Ei & Ec).
  pose proof (wired_NoDup x asm_NoDup asm_wired) as NDw. destruct (NoDup_flat_same _ _ _ w w kn kn' NDw Hw Hw Hk Hk') as [_ <-]; [congruence|].
  unfold cend_of in Ec. injection Ec as E1 E2 E3. exists c, q, d, r. destruct HA as (Hd & _). repeat (split; [solve [eauto | lia]|]). exact E3.
Qed.
Lemma same_end c q d q' d' : In c cs -> nth_error (fst c) q = Some d -> nth_error (fst c) q' = Some d' -> d_bundle d' = d_bundle d -> d_end d' = d_end d -> q = q'.
Proof.
  intros Hc Hq Hq' E1 E2. pose proof (asm_keys c Hc) as ND. apply (proj1 (NoDup_nth_error _) ND).
  - rewrite map_length. apply nth_error_Some. congruence.
  - rewrite (map_nth_error key _ _ Hq), (map_nth_error key _ _ Hq'). now rewrite E1, E2.
Qed.
Lemma end_match m b d : carries LA m b -> d_line d = m -> end_cell d = (if d_end d then b_cells b - 1 else 0)%nat /\ end_node d = (if d_end d then b_cells b else 0)%nat.
Proof. intros C <-. rewrite (ca_N _ _ _ C). unfold end_cell, end_node. now destruct (d_end d). Qed.
Lemma asm_cap name m b d r r' : In (name, m) lines -> mtld_new [[m]] name = Ok b -> d_line d = m -> (r < conductors m)%nat -> (r' < conductors m)%nat ->
  b_end_cap b (d_end d) r r' = cell_len m (end_cell d) * C_ m (end_node d) r r'.
Proof.
  intros I H Ed Hr Hr'. destruct (asm_carries _ _ _ I H) as (C & _). destruct (end_match _ _ _ C Ed) as [E1 E2]. unfold b_end_cap. rewrite <- E1, <- E2.
  assert (Hc : (1 <= cells m)%nat). { rewrite Forall_forall in HL. destruct (ul_reach _ _ (HL _ I)) as [m0 Hh]. exact (sh_N _ (proj1 (HistoryFacts.history_shape LA _ _ Hh))). }
  assert (Hn : (end_cell d < cells m)%nat /\ (end_node d <= cells m)%nat) by (rewrite E1, E2, (ca_N _ _ _ C); destruct (d_end d); lia). destruct Hn as [H1 H2].
  rewrite (ca_h _ _ _ C _ H1). f_equal. exact (proj1 (ca_C _ _ _ C _ _ _ H2 Hr Hr')).
Qed.
Lemma asm_matched : matched x.
Proof.
  split.
  - intros w kn kn' Hw Hk Hk' b Hb. destruct (asm_node w kn Hw Hk) as (c & q & d & r & Hc & Bc & M & Hq & Hr & Hl & Ei & Eb & Er & Ee).
    assert (I' : exists q' d' r', nth_error (fst c) q' = Some d' /\ (r' < conductors (d_line d'))%nat /\ In (d_bundle d', d_line d') lines /\ nd_index (snd kn') = (first_node (fst c) q' + r')%nat /\ nd_bundle (snd kn') = d_bundle d' /\ nd_row (snd kn') = r' /\ nd_end (snd kn') = d_end d').
    { assert (I : In (cend_of kn') (map cend_of (w_conns w))) by now apply in_map. rewrite (md_row _ _ _ M) in I.
      apply in_flat_map in I as (d' & Id & I). apply in_map_iff in I as (r' & Er' & Ir). apply in_seq in Ir. destruct (In_nth_error _ _ Id) as [q' Hq'].
      destruct (md_at _ _ _ M q' d' r' Hq' ltac:(lia)) as (kn2 & Hk2 & Ei2 & Ec).
      pose proof (wired_NoDup x asm_NoDup asm_wired) as NDw. destruct (NoDup_flat_same _ _ _ w w kn' kn2 NDw Hw Hw Hk' Hk2) as [_ <-]; [congruence|].
      unfold cend_of in Ec. injection Ec as E1 E2 E3. exists q', d', r'. destruct HA as (Hd & _). repeat (split; [solve [eauto | lia]|]). exact E3. }
    destruct I' as (q' & d' & r' & Hq' & Hr' & Hl' & Ei' & Eb' & Er' & Ee'). rewrite Ei, Ei', Eb, Eb', Er, Er', Ee, Ee'.
    destruct (node_ends LA (fst c) w q d r (md_hist _ _ _ M) (md_conn _ _ _ M) Hq Hr) as (_ & N1 & _ & N2 & N3). cbv zeta in N1, N2, N3. rewrite N1.
    destruct (asm_of_line _ _ Hl) as (b1 & Hb1 & Hm1). rewrite Eb, Hb1 in Hb. injection Hb as ->.
    destruct (String.eqb_spec (d_bundle d') (d_bundle d)) as [X1|X1]; [destruct (Bool.eqb_spec (d_end d') (d_end d)) as [X2|X2]|]; cbn [andb].
    + assert (q = q') by (eapply same_end; eauto). subst q'. assert (d' = d) by congruence. subst d'. rewrite (N2 r' Hr'). symmetry. eapply asm_cap; eauto.
    + assert (q <> q') by (intros ->; congruence). rewrite (N3 q' d' r' Hq' Hr') by assumption. apply Rmult_0_r.
    + assert (q <> q') by (intros ->; congruence). rewrite (N3 q' d' r' Hq' Hr') by assumption. apply Rmult_0_r.
  - intros w kn b r' Hw Hk Hb Hr' _. destruct (asm_node w kn Hw Hk) as (c & q & d & r & Hc & Bc & M & Hq & Hr & Hl & Ei & Eb & Er & Ee).
    destruct (asm_of_line _ _ Hl) as (b1 & Hb1 & Hm1). rewrite Eb, Hb1 in Hb. injection Hb as ->. destruct (asm_carries _ _ _ Hl Hm1) as (C & _). rewrite (ca_n _ _ _ C) in Hr'.
    destruct (md_at _ _ _ M q d r' Hq Hr') as (kn' & Hk' & _ & Ec). exists kn'. split; [exact Hk'|]. now rewrite Ec, Eb, Ee.
Qed.
Lemma asm_joined : joined x.
Proof.
  intros w kn Hw Hk. destruct (asm_node w kn Hw Hk) as (c & q & d & r & Hc & Bc & M & Hq & Hr & Hl & Ei & Eb & Er & Ee).
  destruct (asm_of_line _ _ Hl) as (b & Hb & Hm). exists b. rewrite Eb. split; [exact Hb|]. destruct (asm_carries _ _ _ Hl Hm) as (_ & V0 & I0). cbv zeta. unfold bV, bI. rewrite !V0, !I0, (md_V _ _ _ M), (md_I _ _ _ M).
  destruct (nd_end (snd kn)); split; lra.
Qed.
Lemma asm_closed : closed LA x.
Proof.
  split; [exact asm_wired|exact asm_matched| |].
  - intros name b Hb. destruct (asm_of_bundle _ _ Hb) as (m & I & Hm). destruct (asm_carries _ _ _ I Hm) as (C & _). rewrite Forall_forall in HL. specialize (HL _ I). cbn [snd] in HL. split.
    + intros k Hk i j Hi Hj. rewrite (ca_n _ _ _ C) in *. rewrite (ca_N _ _ _ C) in *. rewrite (proj1 (ca_C _ _ _ C k i j Hk Hi Hj)), (proj1 (ca_C _ _ _ C k j i Hk Hj Hi)). now apply (ul_C _ _ HL).
    + intros k Hk i j Hi Hj. rewrite (ca_n _ _ _ C) in *. rewrite (ca_N _ _ _ C) in *. rewrite (proj1 (ca_L _ _ _ C k i j Hk Hi Hj)), (proj1 (ca_L _ _ _ C k j i Hk Hj Hi)). now apply (ul_L _ _ HL).
    + intros c k t _ _. apply (ca_T _ _ _ C).
    + intros c k t _ _. apply (ca_E _ _ _ C).
    + apply (ca_D _ _ _ C).
    + apply (ca_one _ _ _ C).
  - intros w Hw. destruct (asm_net w Hw) as (c & Hc & Bc & M). split.
    + intros i j _ _. apply (md_Q _ _ _ M).
    + intros i t Hi. assert (Hk : exists kn, In kn (w_conns w) /\ nd_index (snd kn) = i).
      { pose proof (NetBuild.history_shape LA _ _ (md_hist _ _ _ M)) as S. assert (J : In i (map (fun kn : Z * node => nd_index (snd kn)) (w_conns w))) by (rewrite (sh_idx _ S); apply in_seq; lia).
        apply in_map_iff in J as (kn & J1 & J2). eauto. }
      destruct Hk as (kn & Hk & <-). destruct (asm_node w kn Hw Hk) as (c' & q & d & r & Hc' & Bc' & M' & Hq & Hr & Hl & Ei & Eb & Er & Ee).
      destruct (node_ends LA (fst c') w q d r (md_hist _ _ _ M') (md_conn _ _ _ M') Hq Hr) as (_ & _ & N2 & _). cbv zeta in N2. rewrite Ei, N2.
      rewrite Forall_forall in HL. specialize (HL _ Hl). cbn [snd] in HL. apply (ul_T _ _ HL); [exact Hr|]. unfold end_node. destruct (d_end d); lia.
Qed.
Lemma asm_passive t0 : Forall (fun nm => passive_line (snd nm)) lines -> Forall (fun c : circuit => Forall (off_from t0) (fst (snd c) ++ snd (snd c))) cs -> passive t0 x.
Proof.
  intros PL OF. split.
  - intros name b Hb. destruct (asm_of_bundle _ _ Hb) as (m & I & Hm). destruct (asm_carries _ _ _ I Hm) as (C & _). rewrite Forall_forall in PL. specialize (PL _ I). cbn [snd] in PL.
    split; rewrite ?(ca_n _ _ _ C), (ca_N _ _ _ C); intros k Hk.
    + rewrite (ca_h _ _ _ C k Hk). now apply (pa_h _ PL).
    + eapply psd_ext; [|exact (pa_R _ PL k Hk)]. intros i j Hi Hj. symmetry. exact (proj2 (ca_L _ _ _ C k i j Hk Hi Hj)).
    + eapply psd_ext; [|exact (pa_G _ PL k Hk)]. intros i j Hi Hj. symmetry. exact (proj2 (ca_C _ _ _ C k i j Hk Hi Hj)).
  - intros w Hw. destruct (asm_net w Hw) as (c & Hc & Bc & M). split.
    + apply (md_G' _ _ _ M).
    + apply (md_Q' _ _ _ M).
    + apply (md_ns _ _ _ M).
    + intros i t _ Ht. rewrite Forall_forall in OF. specialize (OF c Hc). destruct c as (ds & gs & bs). eapply builds_dark; eauto.
Qed.
Lemma asm_lines : lines_net LA x.
Proof.
  pose proof asm_all as (_ & _ & Fb & Fn). destruct HA as (_ & _ & bs & ws & F & G & H). destruct (new_nets _ _ _ H) as (_ & _ & E2).
  unfold mtln_new in H. inv_bind H. rename a into x0.
  assert (Rb : Forall (reachable_bundle LA) bs).
  { clear - F HL. induction F as [|nm b l bs H F IH]; [constructor|]. inversion HL as [|? ? H1 H2]; subst. constructor; [|exact (IH H2)].
    exists b. apply bh_new. exists [[snd nm]], (fst nm). split; [|exact H]. repeat constructor. exact (ul_reach _ _ H1). }
  assert (L0 : forall bs, Forall (reachable_bundle LA) bs -> forall y y', lines_net LA y -> foldM add_bundle bs y = Ok y' -> lines_net LA y').
  { clear. induction bs as [|b bs IH]; intros R y y' L H; cbn [foldM] in H; [apply OkI in H; now subst|]. inv_bind H. inversion R; subst. eapply IH; [assumption| |exact H]. eapply ln_bundle; eauto. }
  assert (L1 : lines_net LA x0) by (eapply L0; [exact Rb|apply ln_empty|exact Ha]).
  assert (Rn : Forall (fun w => exists ds, net_history LA ds w) ws).
  { clear - LA G. induction G as [|c w l ws B G IH]; [constructor|]. constructor; [|exact IH]. destruct c as (ds & gs & bs). exists ds. exact (md_hist _ _ _ (builds_made LA _ _ _ _ B)). }
  clear - H L1 Rn. revert x0 L1 H. induction Rn as [|w ws Rw Rn IH]; intros y L H; cbn [map foldM] in H; [apply OkI in H; now subst|]. inv_bind H. eapply IH; [|exact H].
  eapply ln_network; [exact L| |exact Ha]. unfold net_reachable. cbn [tiers map snd]. constructor; [exact Rw|constructor].
Qed.
(** and they run *)
Lemma asm_runnable : Forall (fun nm => physical (snd nm)) lines -> runnable LA x.
Proof.
  intros PH. split.
  - intros name b Hb. destruct (asm_of_bundle _ _ Hb) as (m & I & Hm). rewrite Forall_forall in PH, HL. apply (new_physical LA [[m]] name b); [| |exact Hm].
    + repeat constructor. exact (ul_reach _ _ (HL _ I)).
    + constructor; [constructor; [exact (PH _ I)|constructor]|constructor].
  - intros w Hw. destruct (asm_net w Hw) as (c & Hc & Bc & M). destruct c as (ds & gs & bs). exists ds. destruct Bc as (A & G & B & w0 & Hn & Hs & Hd).
    split; [|split; [exact A|]].
    + apply Forall_forall. intros d Id. rewrite Forall_forall in PH. exact (PH _ (proj1 HA _ d Hc Id)).
    + exists w0, gs, bs, w. repeat (split; [assumption|]). apply af_refl.
  - intros w kn Hw Hk. destruct (wired_resolves x w kn asm_NoDup asm_wired Hw Hk) as (b & E1 & E2). exists b. split; assumption.
Qed.
End Whole.

(** the ingredients are enough *)
Lemma assemble (lines : list (string * mtl NumR)) (cs : list circuit) : NoDup (map fst lines) ->
  (forall c d, In c cs -> In d (fst c) -> In (d_bundle d, d_line d) lines) ->
  Permutation (flat_map (fun c : circuit => map (fun d => (d_bundle d, d_end d)) (fst c)) cs) (flat_map (fun nm => [(fst nm, false); (fst nm, true)]) lines) ->
  Forall (fun c : circuit => exists w0, all_connected (fst c) /\ Forall to_ground (fst (snd c)) /\ Forall between_nodes (snd (snd c)) /\ network_new (fst c) = Ok w0 /\ w_ns w0 = 0%nat /\
    forall c' id, In c' (fst (snd c) ++ snd (snd c)) -> In id (c_ids c') -> exists nd, find_node w0 id = Some nd) cs ->
  exists x, assembled lines cs x.
Proof.
  intros ND Hd P F.
  assert (B : exists bs, Forall2 (fun nm b => mtld_new [[snd nm]] (fst nm) = Ok b) lines bs).
  { clear. induction lines as [|[n m] l (bs & IH)]; [exists []; constructor|]. destruct (bundle_of_one m n) as (b & Hb & _). exists (b :: bs). constructor; assumption. }
  destruct B as [bs B]. pose proof (asm_name _ _ B) as En.
  assert (W : exists ws, Forall2 builds cs ws).
  { clear - F. induction F as [|c l (w0 & A & G & Br & Hn & Hs & Hi) F (ws & IH)]; [exists []; constructor|]. destruct c as (ds & gs & br). cbn [fst snd] in *.
    destruct (calls_total (gs ++ br) w0 (new_shape _ _ Hn)) as (w & Hw & _); [|exact Hi|].
    - apply Forall_app. split; [revert G|revert Br]; apply Forall_impl; auto.
    - exists (w :: ws). constructor; [|exact IH]. repeat (split; [assumption|]). exists w0. auto. }
  destruct W as [ws W].
  assert (N : NoDup (map (@b_name NumR) bs)) by (now rewrite En). destruct (proj2 (proj1 (fold_add_iff bs (@mtln_empty NumR) (NoDup_nil _))) N) as [x0 Hx0].
  pose proof (fold_add _ _ _ Hx0) as (Eb & _). cbn [mtln_empty t_bundles app] in Eb.
  destruct (mapM_accept (fun d => update_index_numbers d (t_bundles x0)) (map (fun w => [(0%nat, w)]) ws)) as [ws' Hws].
  { intros d Id. apply in_map_iff in Id as (w & <- & Iw). unfold update_index_numbers. cbn [mapM fst snd].
    assert (K : exists c, mapM (shift_node (t_bundles x0) 0) (w_conns w) = Ok c).
    { apply mapM_accept. intros kn Hk. destruct (F2_back _ _ _ _ W Iw) as (c & Ic & Bc). pose proof Bc as M. destruct c as (ds & gs & br). apply (builds_made LR) in M.
      assert (I : In (cend_of kn) (map cend_of (w_conns w))) by now apply in_map. rewrite (md_row _ _ _ M) in I. apply in_flat_map in I as (d & Id & I). apply in_map_iff in I as (r & Er & _).
      unfold cend_of in Er. injection Er as Er _ _. assert (J : In (d_bundle d) (map fst (t_bundles x0))).
      { rewrite Eb, named_keys, En. change (d_bundle d) with (fst (d_bundle d, d_line d)). apply in_map. exact (Hd _ d Ic Id). }
      unfold shift_node. destruct kn as [id nd]. cbn [snd] in Er. rewrite <- Er. apply in_map_iff in J as ([k b] & J1 & J2). cbn [fst] in J1. subst k. assert (Hb : dget String.eqb (d_bundle d) (t_bundles x0) = Some b) by (apply sget_in; [rewrite Eb, named_keys; exact N|exact J2]). rewrite Hb. cbn [of_option bind]. eauto. }
    destruct K as [c K]. rewrite K. cbn [bind]. eauto. }
  exists (t_set x0 (t_bundles x0) (t_networks x0 ++ ws')). split; [exact Hd|]. split; [exact P|]. exists bs, ws. split; [exact B|]. split; [exact W|].
  unfold mtln_new. rewrite Hx0. cbn [bind]. apply fold_networks_map. exists ws'. split; [exact Hws|reflexivity].
Qed.
