(** Energy balance of networks of lines: one step of the whole, and runs. *)
From Coq Require Import String List Arith ZArith Bool Permutation Lia Reals Lra.
From Verif Require Import AloneRun Num Py Arr ArrFacts NumR RFacts LinAlg Utils Probes Dispersive Line LineFacts Bundle Networks Mtln SpecLine SpecR SpecBundle SpecCore SpecDisp SpecDyn SpecNet SpecMtln
  SpecEnergy SpecTele SpecSuper SpecNetEnergy RunEqFacts EnergyFacts BundleFacts BundleR BundleMore AloneFacts CoreEq NetFacts NetBuild NetPlace NetR MtlnFacts MtlnProps MtlnPerm MtlnR MtlnTotal
  DispR SuperNet SoloNet SoloRun NetEnergy.
Import ListNotations.
Local Open Scope R_scope.

(** ** lists *)
Lemma by_name {V W} (P : V -> W -> Prop) (l : list (string * V)) : forall l' : list (string * W), NoDup (map fst l) -> map fst l' = map fst l ->
  (forall name b, dget String.eqb name l = Some b -> exists b', dget String.eqb name l' = Some b' /\ P b b') ->
  Forall2 (fun kb kb' => fst kb' = fst kb /\ P (snd kb) (snd kb')) l l'.
Proof.
  induction l as [|[k b] l IH]; intros [|[k' b'] l'] ND E H; cbn [map fst] in E; try discriminate; [constructor|].
  injection E as -> E. cbn [map fst] in ND. apply NoDup_cons_iff in ND as [NI ND]. constructor; cbn [fst snd].
  - split; [reflexivity|]. destruct (H k b) as (b1 & G & Q); [cbn [dget]; now rewrite String.eqb_refl|]. cbn [dget] in G. rewrite String.eqb_refl in G. injection G as <-. exact Q.
  - apply IH; auto. intros name c G. assert (Nk : name <> k) by (intros ->; apply NI; apply (in_map fst _ (k, c)); now apply sget_some).
    destruct (H name c) as (c' & G' & Q).
    + cbn [dget]. destruct (String.eqb_spec k name); [congruence|exact G] || (destruct (String.eqb_spec name k); [congruence|exact G]).
    + exists c'. split; [|exact Q]. cbn [dget] in G'. destruct (String.eqb_spec name k) in G'; [congruence|exact G'].
Qed.
Lemma F2_total {A B} (P : A -> B -> Prop) (f g : A * B -> R) l l' : Forall2 P l l' -> (forall a b, In a l -> In b l' -> P a b -> f (a, b) = g (a, b)) -> total f (combine l l') = total g (combine l l').
Proof.
  intros F. induction F as [|a b l l' H F IH]; intros E; cbn [combine]; [reflexivity|]. rewrite !total_cons, (E a b), IH; auto; try (now left).
  intros a' b' Ha Hb. apply E; now right.
Qed.
Lemma F2_total_le {A B} (P : A -> B -> Prop) (f : A * B -> R) l l' : Forall2 P l l' -> (forall a b, In a l -> In b l' -> P a b -> 0 <= f (a, b)) -> 0 <= total f (combine l l').
Proof.
  intros F. induction F as [|a b l l' H F IH]; intros E; cbn [combine]; [rewrite total_nil; lra|]. rewrite total_cons.
  assert (0 <= f (a, b)) by (apply E; auto; now left). assert (0 <= total f (combine l l')) by (apply IH; intros; apply E; auto; now right). lra.
Qed.
Lemma F2_length {A B} (P : A -> B -> Prop) l l' : Forall2 P l l' -> length l' = length l.
Proof. induction 1; cbn; congruence. Qed.
Lemma NoDup_halves {A} (a b : list A) : NoDup (a ++ b) -> NoDup a /\ NoDup b.
Proof.
  induction a as [|c a IH]; intros H; cbn [app] in H; [split; [constructor|exact H]|]. apply NoDup_cons_iff in H as [N H]. destruct (IH H) as [H1 H2].
  split; [constructor; [|exact H1]|exact H2]. intros K. apply N. apply in_or_app. now left.
Qed.
Lemma NoDup_flat_same {A B C} (h : A -> list B) (g : B -> C) L a1 a2 b1 b2 : NoDup (flat_map (fun a => map g (h a)) L) ->
  In a1 L -> In a2 L -> In b1 (h a1) -> In b2 (h a2) -> g b1 = g b2 -> a1 = a2 /\ b1 = b2.
Proof.
  assert (X : forall l c c', NoDup (map g l) -> In c l -> In c' l -> g c = g c' -> c = c').
  { clear. induction l as [|a l IH]; intros c c' ND H H' E; [destruct H|]. cbn [map] in ND. apply NoDup_cons_iff in ND as [N ND].
    destruct H as [<-|H], H' as [<-|H']; auto; exfalso; apply N; [rewrite E|rewrite <- E]; now apply in_map. }
  induction L as [|a L IH]; intros ND H1 H2 I1 I2 E; [destruct H1|]. cbn [flat_map] in ND.
  destruct (NoDup_halves _ _ ND) as [ND1 ND2].
  assert (DJ : forall c, In c (map g (h a)) -> ~ In c (flat_map (fun a => map g (h a)) L)).
  { intros c Hc Hc'. clear - ND Hc Hc'. induction (map g (h a)) as [|d l IHl]; [destruct Hc|]. cbn [app] in ND. apply NoDup_cons_iff in ND as [N ND]. destruct Hc as [<-|Hc]; [|now apply IHl].
    apply N. apply in_or_app. now right. }
  assert (FL : forall a' b', In a' L -> In b' (h a') -> In (g b') (flat_map (fun a => map g (h a)) L)) by (intros a' b' Ha Hb; apply in_flat_map; exists a'; split; [exact Ha|now apply in_map]).
  destruct H1 as [<-|H1], H2 as [<-|H2].
  - split; [reflexivity|]. eapply X; eauto.
  - exfalso. apply (DJ (g b1)); [now apply in_map|]. rewrite E. eapply FL; eauto.
  - exfalso. apply (DJ (g b2)); [now apply in_map|]. rewrite <- E. eapply FL; eauto.
  - eapply IH; eauto.
Qed.

(** ** wiring *)
Lemma in_cends kb c : In c (cends kb) <-> exists r e, c = (fst kb, r, e) /\ (r < b_conductors (snd kb))%nat.
Proof.
  unfold cends. rewrite in_flat_map. split.
  - intros (r & Hr & Hc). apply in_seq in Hr. destruct Hc as [<-|[<-|[]]]; [exists r, false|exists r, true]; split; auto; lia.
  - intros (r & e & -> & Hr). exists r. split; [apply in_seq; lia|]. destruct e; [right; left|left]; reflexivity.
Qed.
Lemma cends_NoDup kb : NoDup (cends kb).
Proof.
  unfold cends. generalize (seq_NoDup (b_conductors (snd kb)) 0). generalize (seq 0 (b_conductors (snd kb))). induction l as [|r l IH]; intros ND; cbn [flat_map app]; [constructor|].
  apply NoDup_cons_iff in ND as [NI ND]. assert (Z : forall e, ~ In (fst kb, r, e) (flat_map (fun r => [(fst kb, r, false); (fst kb, r, true)]) l)).
  { intros e H. apply in_flat_map in H as (r' & Hr & [H|[H|[]]]); injection H as <-; auto. }
  constructor; [|constructor; [apply Z|now apply IH]]. intros [H|H]; [discriminate H|]. exact (Z _ H).
Qed.
Lemma all_cends_NoDup (l : list (string * bundle NumR)) : NoDup (map fst l) -> NoDup (flat_map cends l).
Proof.
  induction l as [|kb l IH]; intros ND; cbn [flat_map]; [constructor|]. cbn [map] in ND. apply NoDup_cons_iff in ND as [NI ND].
  assert (AP : forall (a b : list cend), NoDup a -> NoDup b -> (forall c, In c a -> ~ In c b) -> NoDup (a ++ b)).
  { clear. induction a as [|c a IH]; intros b Ha Hb D; cbn [app]; [exact Hb|]. apply NoDup_cons_iff in Ha as [N Ha]. constructor.
    - intros H. apply in_app_or in H as [H|H]; [auto|]. apply (D c); [now left|exact H].
    - apply IH; auto. intros c' Hc. apply D. now right. }
  apply AP; [apply cends_NoDup|now apply IH|]. intros c Hc H. apply in_cends in Hc as (r & e & -> & _). apply in_flat_map in H as (kb' & Hk & H). apply in_cends in H as (r' & e' & E & _).
  injection E as E _ _. apply NI. rewrite E. now apply in_map.
Qed.
Notation node_ends_of := (fun w : network NumR => map cend_of (w_conns w)).
Lemma wired_NoDup x : NoDup (map fst (t_bundles x)) -> wired x -> NoDup (flat_map node_ends_of (nets x)).
Proof. intros ND W. eapply Permutation_NoDup; [apply Permutation_sym; exact W|now apply all_cends_NoDup]. Qed.
Lemma wired_resolves x w kn : NoDup (map fst (t_bundles x)) -> wired x -> In w (nets x) -> In kn (w_conns w) ->
  exists b, bundle_of x (nd_bundle (snd kn)) = Some b /\ (nd_row (snd kn) < b_conductors b)%nat.
Proof.
  intros ND W Hw Hk. assert (H : In (cend_of kn) (flat_map cends (t_bundles x))).
  { eapply Permutation_in; [exact W|]. apply in_flat_map. exists w. split; [exact Hw|now apply in_map]. }
  apply in_flat_map in H as ([name b] & Hb & H). apply in_cends in H as (r & e & E & Hr). cbn [fst snd] in *. unfold cend_of in E. injection E as E1 E2 E3.
  exists b. rewrite E1, E2. split; [|exact Hr]. now apply sget_in.
Qed.

Section WithLA.
Variable LA : lapack NumR.
Hypothesis LAok : lapack_ok LA.
Implicit Types x y z : mtln NumR.

(** ** after a step the nodes hold what the conductor ends hold *)
Lemma conns_flat (l l' : list (network NumR)) : Forall2 (fun w w' => w_conns w' = w_conns w) l l' -> flat_map node_ends_of l' = flat_map node_ends_of l.
Proof. induction 1 as [|w w' l l' E F IH]; cbn [flat_map]; [reflexivity|]. now rewrite E, IH. Qed.
Lemma F2_comp {A B C} (P : A -> B -> Prop) (Q : B -> C -> Prop) l1 l2 l3 : Forall2 P l1 l2 -> Forall2 Q l2 l3 -> Forall2 (fun a c => exists b, In b l2 /\ P a b /\ Q b c) l1 l3.
Proof.
  intros F. revert l3. induction F as [|a b l1 l2 H F IH]; intros l3 G; inversion G; subst; constructor.
  - exists b. split; [now left|auto].
  - eapply F2_impl; [|apply IH; eassumption]. intros a' c' (b' & I & K). exists b'. split; [now right|exact K].
Qed.
Lemma joined_step x y : ninv LA x -> wired x -> mtln_step LA x = Ok y -> joined y.
Proof.
  intros I W H. pose proof (ninv_step LA _ _ I H) as I'.
  pose proof H as H0. apply step_split in H0 as (bs1 & ws & bs2 & bs3 & [H1 H2 H3 H4 H5 H6 H7 H8]).
  pose proof (nets_F2 (fun w => nw_advance_voltage LA w (t_time x) (t_dt x)) _ _ H2) as F1. fold (nets x) in F1.
  pose proof (nets_F2 (fun w => nw_update_currents w bs3) _ _ H5) as F2. fold (nets y) in F2.
  assert (EC : flat_map node_ends_of (flat_map tiers ws) = flat_map node_ends_of (nets x)).
  { apply conns_flat. eapply F2_impl; [|exact F1]. intros w w' E. eapply advance_conns; exact E. }
  pose proof (wired_NoDup x (nv_keys _ _ I) W) as ND. rewrite <- EC in ND.
  intros w' kn Hw Hk. destruct (F2_back _ _ _ _ F2 Hw) as (w1 & Hw1 & C1). destruct (F2_back _ _ _ _ F1 Hw1) as (w0 & Hw0 & C0).
  assert (Ec1 : w_conns w' = w_conns w1) by (eapply currents_conns; exact C1). assert (Ec0 : w_conns w1 = w_conns w0) by (eapply advance_conns; exact C0).
  destruct (wired_resolves x w0 kn (nv_keys _ _ I) W Hw0 ltac:(rewrite <- Ec0, <- Ec1; exact Hk)) as (b & Gb & Hr).
  pose proof (proj1 (bundle_in LA x _ b I Gb)) as Rb. pose proof (reachable_vgrid LA _ Rb) as G. pose proof (bundle_cells LA b Rb) as Nb.
  destruct (map_bundles_get _ _ _ _ _ H1 Gb) as (b1 & V & G1).
  assert (M1 : marches LA b b1) by (eapply ma_volt; [constructor|exact V]).
  pose proof (marches_vgrid LA b b1 G M1) as Gv1. destruct (marches_binv LA b b1 M1 (reachable_binv LA _ Rb)) as [_ K1].
  destruct (put_all_val _ _ _ H3) as [_ F]. destruct (F _ b1 G1 Gv1) as (b2 & G2 & O & Gv2 & Val).
  destruct (map_bundles_get _ _ _ _ _ H4 G2) as (b3 & C & G3). destruct (map_bundles_get _ _ _ _ _ H6 G3) as (b' & U & G4).
  destruct (step_marches LA _ _ _ _ H Gb) as (b4 & Gb' & Mb). assert (b4 = b') by (unfold bundle_of in Gb'; congruence). subst b4.
  destruct (marches_binv LA b b' Mb (reachable_binv LA _ Rb)) as [_ Kb].
  pose proof (curr_volt _ _ _ _ C) as [Cv _]. pose proof (probes_core _ _ _ U) as Uc.
  assert (EV : forall r k, b_volt b' r k = b_volt b2 r k) by (intros; unfold b_volt; now rewrite Uc, Cv).
  assert (EI : forall r k, b_curr b' r k = b_curr b3 r k) by (intros; unfold b_curr; now rewrite Uc).
  assert (EN : b_cells b' = b_cells b) by exact (bk_N _ _ Kb). assert (EN3 : b_cells b3 = b_cells b) by (unfold b_cells; rewrite <- Uc; exact EN).
  assert (EN1 : b_cells b1 = b_cells b) by exact (bk_N _ _ K1).
  exists b'. split; [exact Gb'|]. cbv zeta.
  pose proof (nv_nets _ _ I) as HN. rewrite Forall_forall in HN. destruct (HN w0 Hw0) as (ds & Hh). pose proof (history_shape LA ds w0 Hh) as S0.
  destruct (volt_shape LA _ _ _ _ S0 C0) as [S1 _].
  destruct (update_currents w1 bs3 w' S1 C1) as [Ew RI]. 
  assert (EVw : nV w' (nd_index (snd kn)) = nV w1 (nd_index (snd kn))) by (rewrite Ew; reflexivity).
  assert (VV : b_volt b' (nd_row (snd kn)) (if nd_end (snd kn) then b_cells b else 0%nat) = nV w' (nd_index (snd kn))).
  { rewrite EV, EVw. rewrite Val.
    apply (fold_hit (fun nv : node * NumR => hits b1 (nd_bundle (snd kn)) (fst nv) (nd_row (snd kn)) (if nd_end (snd kn) then b_cells b else 0%nat)) snd).
    - exists (snd kn, get (w_v w1) (nd_index (snd kn))). split.
      + unfold puts. apply in_flat_map. exists w1. split; [exact Hw1|]. apply in_map_iff. exists kn. split; [reflexivity|]. now rewrite <- Ec1.
      + cbn [fst]. apply hits_iff. split; [reflexivity|]. split; [reflexivity|]. now rewrite EN1.
    - intros nv Hn Hh'. apply in_puts in Hn as (w2 & kn2 & Hw2 & Hk2 & ->). cbn [fst snd] in *. apply hits_iff in Hh' as (B1 & B2 & B3). rewrite EN1 in B3.
      assert (Ee : cend_of kn2 = cend_of kn).
      { unfold cend_of. rewrite B1, B2. f_equal. destruct (nd_end (snd kn)), (nd_end (snd kn2)); auto; lia. }
      destruct (NoDup_flat_same (@w_conns NumR) cend_of _ w2 w1 kn2 kn ND Hw2 Hw1 Hk2 ltac:(rewrite <- Ec1; exact Hk) Ee) as [-> ->]. reflexivity. }
  destruct (RI kn ltac:(rewrite <- Ec1; exact Hk)) as (b5 & G5 & _ & EIw). assert (b5 = b3) by congruence. subst b5.
  unfold bV, bI. rewrite EN. unfold i_factor in EIw.
  destruct (nd_end (snd kn)); (split; [symmetry; exact VV|]); rewrite EI, EIw, ?EN3; rsimpl; rring.
Qed.

(** ** what a run leaves as it was *)
Definition kept_net (w w' : network NumR) : Prop := same_circuit w w' /\ w_vsrc w' = w_vsrc w /\ w_eT w' = w_eT w.
Definition kept x y : Prop :=
  Forall2 (fun kb kb' => fst kb' = fst kb /\ marches LA (snd kb) (snd kb')) (t_bundles x) (t_bundles y) /\ Forall2 kept_net (nets x) (nets y).
Lemma kept_get x y name b : kept x y -> bundle_of x name = Some b -> exists b', bundle_of y name = Some b' /\ marches LA b b'.
Proof.
  intros [KB _]. unfold bundle_of. induction KB as [|[k c] [k' c'] l l' [E M] _ IH]; cbn [dget fst snd] in *; [discriminate|]. subst k'.
  destruct (String.eqb _ _); [|exact IH]. intros E. injection E as <-. eauto.
Qed.
Lemma kept_back x y name b' : kept x y -> bundle_of y name = Some b' -> exists b, bundle_of x name = Some b /\ marches LA b b'.
Proof.
  intros [KB _]. unfold bundle_of. induction KB as [|[k c] [k' c'] l l' [E M] _ IH]; cbn [dget fst snd] in *; [discriminate|]. subst k'.
  destruct (String.eqb _ _); [|exact IH]. intros E. injection E as <-. eauto.
Qed.
Lemma kept_net_trans u v w : kept_net u v -> kept_net v w -> kept_net u w.
Proof. intros (A & B & C) (A' & B' & C'). split; [eapply same_circuit_trans; eauto|split; congruence]. Qed.
Lemma kept_trans x y z : kept x y -> kept y z -> kept x z.
Proof.
  intros [A B] [A' B']. split; (eapply F2_impl; [|eapply F2_comp; eassumption]).
  - intros kb kb2 (kb1 & _ & [E M] & [E' M']). split; [congruence|eapply marches_trans; eauto].
  - intros w w2 (w1 & _ & H & H'). eapply kept_net_trans; eauto.
Qed.
Lemma currents_kept w (bs : bdict NumR) w' : nw_update_currents w bs = Ok w' -> kept_net w w' /\ w_v w' = w_v w /\ w_vprev w' = w_vprev w /\ w_X w' = w_X w.
Proof. intros H. unfold nw_update_currents in H. inv_bind H. apply OkI in H. subst w'. split; [split; [split|]|]; repeat split. Qed.
Lemma volt_kept w t dt w' : nw_advance_voltage LA w t dt = Ok w' -> kept_net w w'.
Proof. intros H. destruct (volt_fields LA _ _ _ _ H) as (A & _ & _ & _ & B & C). split; auto. Qed.
Lemma kept_step x y : ninv LA x -> mtln_step LA x = Ok y -> kept x y.
Proof.
  intros I H. split.
  - apply by_name; [exact (nv_keys _ _ I)|exact (step_keys LA _ _ H)|]. intros name b G. exact (step_marches LA _ _ _ _ H G).
  - eapply F2_impl; [|exact (step_nets LA _ _ H)]. intros w w' (w1 & bs & V & C). eapply kept_net_trans; [eapply volt_kept; exact V|exact (proj1 (currents_kept _ _ _ C))].
Qed.
Lemma kept_start x T dt y : ninv LA x -> reaches LA x T dt 0 y -> kept x y /\
  (forall name b, bundle_of x name = Some b -> exists b', bundle_of y name = Some b' /\ forall c k, b_volt b' c k = b_volt b c k /\ b_curr b' c k = b_curr b c k) /\
  Forall2 (fun w w' => kept_net w w' /\ w_v w' = w_v w /\ w_vprev w' = w_vprev w /\ w_i w' = w_i w /\ w_X w' = w_X w) (nets x) (nets y).
Proof.
  intros I R. destruct (run_start LA _ _ _ _ _ R) as (ws & steps & p & H1 & H2 & H3 & H4 & H5 & H6 & H7 & H8 & H9 & _). cbn [iterM] in H4. injection H4 as ->.
  assert (FN : Forall2 (fun w w' => kept_net w w' /\ w_v w' = w_v w /\ w_vprev w' = w_vprev w /\ w_i w' = w_i w /\ w_X w' = w_X w) (nets x) (nets y)).
  { unfold nets at 2. rewrite H5. eapply F2_impl; [|exact (terms_nets _ _ _ H1)]. intros w w' E. destruct (terms_fields _ _ _ E) as (A & B & C & D & F & G & K). repeat split; auto; apply A. }
  split; [split|split; [|exact FN]].
  - apply by_name; [exact (nv_keys _ _ I)|exact H8|]. intros name b G. destruct (H9 name b G) as (b' & P & G'). exists b'. split; [exact G'|].
    eapply ma_prepare; [|exact P]. destruct (negb _); [apply ma_dt|]; constructor.
  - eapply F2_impl; [|exact FN]. intros w w' (A & _). exact A.
  - intros name b G. destruct (H9 name b G) as (b' & P & G'). exists b'. split; [exact G'|]. intros c k. destruct (ready_prep LA _ _ _ P) as (_ & Ev & Ei & _).
    unfold b_volt, b_curr. rewrite ?Ev, ?Ei. destruct (negb _); split; reflexivity.
Qed.
Lemma reaches_kept x T dt n y : ninv LA x -> reaches LA x T dt n y -> kept x y.
Proof.
  intros I. revert y. induction n as [|n IH]; intros y R; [exact (proj1 (kept_start _ _ _ _ I R))|].
  destruct (reaches_step LA _ _ _ _ _ R) as (z & Rz & St & _). eapply kept_trans; [apply IH; exact Rz|]. eapply kept_step; [|exact St]. eapply reaches_ninv; eauto.
Qed.
Lemma joined_start x T dt y : ninv LA x -> joined x -> reaches LA x T dt 0 y -> joined y.
Proof.
  intros I J R. destruct (kept_start _ _ _ _ I R) as (K & B & F). intros w' kn Hw Hk. destruct (F2_back _ _ _ _ F Hw) as (w & Hw0 & (A & Ev & Ep & Ei & _)).
  rewrite (sc_conns _ _ (proj1 A)) in Hk. destruct (J w kn Hw0 Hk) as (b & G & E). destruct (B _ b G) as (b' & G' & S). exists b'. split; [exact G'|]. cbv zeta in *.
  assert (EN : b_cells b' = b_cells b).
  { destruct (kept_get _ _ _ _ K G) as (b1 & G1 & M). assert (b1 = b') by congruence. subst b1.
    exact (bk_N _ _ (proj2 (marches_binv LA b b' M (reachable_binv LA _ (proj1 (bundle_in LA x _ b I G)))))). }
  unfold nV, nI, bV, bI in *. rewrite Ev, Ei, EN. destruct (nd_end (snd kn)); rewrite (proj1 (S _ _)), (proj2 (S _ _)); exact E.
Qed.

(** ** the assumptions hold throughout a run *)
Record statics (b b' : bundle NumR) : Prop := {
  st_n : b_conductors b' = b_conductors b; st_N : b_cells b' = b_cells b; st_h : forall k, klen (b_core b') k = klen (b_core b) k;
  st_C : kC (b_core b') = kC (b_core b); st_L : kL (b_core b') = kL (b_core b); st_R : kR (b_core b') = kR (b_core b); st_G : kG (b_core b') = kG (b_core b);
  st_D : kD (b_core b') = kD (b_core b); st_E : kE (b_core b') = kE (b_core b); st_1 : kQ1 (b_core b') = kQ1 (b_core b); st_2 : kQ2 (b_core b') = kQ2 (b_core b);
  st_eT : kTran (b_core b') = kTran (b_core b); st_eL : kLong (b_core b') = kLong (b_core b)
}.
Lemma marches_statics b b' : marches LA b b' -> statics b b'.
Proof.
  intros M. destruct (marches_static LA _ _ M) as (D & EL & ET). split.
  - exact (dy_n _ _ D). - exact (dy_N _ _ D). - intros k. exact (klen_dyn _ _ k D).
  - unfold kC; now rewrite (dy_c _ _ D). - unfold kL; now rewrite (dy_l _ _ D). - unfold kR; now rewrite (dy_r _ _ D). - unfold kG; now rewrite (dy_g _ _ D).
  - unfold kD; now rewrite (dy_d _ _ D). - unfold kE; now rewrite (dy_e _ _ D). - unfold kQ1; now rewrite (dy_1 _ _ D). - unfold kQ2; now rewrite (dy_2 _ _ D).
  - unfold kTran; now rewrite ET. - unfold kLong; now rewrite EL.
Qed.
Lemma unlit_march b b' : marches LA b b' -> unlit_bundle LA b -> unlit_bundle LA b'.
Proof.
  intros M U. pose proof (marches_statics _ _ M) as S. split; intros; rewrite ?(st_n _ _ S), ?(st_N _ _ S), ?(st_C _ _ S), ?(st_L _ _ S), ?(st_eT _ _ S), ?(st_eL _ _ S), ?(st_D _ _ S), ?(st_E _ _ S), ?(st_1 _ _ S), ?(st_2 _ _ S) in *.
  - now apply (ub_C _ _ U). - now apply (ub_L _ _ U). - now apply (ub_T _ _ U). - now apply (ub_E _ _ U). - apply (ub_D _ _ U).
  - destruct (ub_way _ _ U) as [b0 W]. exists b0. eapply ow_march; eauto.
Qed.
Lemma passive_march b b' : marches LA b b' -> passive_bundle b -> passive_bundle b'.
Proof. intros M []. destruct (marches_statics _ _ M). split; intros; rewrite ?st_n0, ?st_N0, ?st_h0, ?st_R0, ?st_G0 in *; auto. Qed.
Lemma courant_march b b' dt : marches LA b b' -> b_courant b dt -> b_courant b' dt.
Proof. intros M (A & B & C & D). destruct (marches_statics _ _ M). split; [|split; [|split]]; intros; rewrite ?st_n0, ?st_N0, ?st_h0, ?st_L0, ?st_C0 in *; auto. Qed.
Lemma unlit_keep w w' : kept_net w w' -> unlit_net w -> unlit_net w'.
Proof.
  intros (S & _ & ET) U. destruct (same_circuit_obs _ _ S) as (O1 & O2 & O3 & O4 & O5 & _). split; rewrite (sc_nodes _ _ S).
  - intros i j Hi Hj. rewrite !O5. now apply (un_Q _ U).
  - intros i t Hi. unfold nField. rewrite ET. now apply (un_F _ U).
Qed.
Lemma passive_keep t0 w w' : kept_net w w' -> passive_net t0 w -> passive_net t0 w'.
Proof.
  intros (S & EV & ET) U. destruct (same_circuit_obs _ _ S) as (O1 & O2 & O3 & O4 & O5 & _). split; rewrite ?(sc_nodes _ _ S), ?(sc_ns _ _ S).
  - intros u. rewrite (quad_ext (w_nodes w) (nG w') (nG w) u u) by auto. apply (pt_G _ _ U).
  - intros u. rewrite (quad_ext (w_nodes w) (nQ w') (nQ w) u u) by auto. apply (pt_Q _ _ U).
  - apply (pt_ns _ _ U).
  - intros i t Hi Ht. unfold nSrc. rewrite EV. now apply (pt_src _ _ U).
Qed.
Lemma cends_keep kb kb' : fst kb' = fst kb -> b_conductors (snd kb') = b_conductors (snd kb) -> cends kb' = cends kb.
Proof. intros E F. unfold cends. now rewrite E, F. Qed.
Lemma wired_keep x y : kept x y -> wired x -> wired y.
Proof.
  intros [KB KN] W. unfold wired. rewrite (conns_flat (nets x) (nets y)) by (eapply F2_impl; [|exact KN]; intros w w' [S _]; exact (sc_conns _ _ S)).
  replace (flat_map cends (t_bundles y)) with (flat_map cends (t_bundles x)); [exact W|]. clear - KB. induction KB as [|kb kb' l l' [E M] _ IH]; cbn [flat_map]; [reflexivity|].
  rewrite IH, (cends_keep kb kb' E (st_n _ _ (marches_statics _ _ M))). reflexivity.
Qed.
Lemma b_end_cap_keep b b' e r r' : marches LA b b' -> b_end_cap b' e r r' = b_end_cap b e r r'.
Proof. intros M. destruct (marches_statics _ _ M). unfold b_end_cap. now rewrite st_h0, st_C0, st_N0. Qed.
Lemma closed_keep x y : kept x y -> closed LA x -> closed LA y.
Proof.
  intros K [W [M1 M2] B Nt]. pose proof K as [KB KN]. split.
  - eapply wired_keep; eauto.
  - split.
    + intros w' kn kn' Hw Hk Hk' b' G. destruct (F2_back _ _ _ _ KN Hw) as (w & Hw0 & (S & _)). rewrite (sc_conns _ _ S) in Hk, Hk'. destruct (same_circuit_obs _ _ S) as (O1 & O2 & _).
      destruct (kept_back _ _ _ _ K G) as (b & Gb & M). rewrite O1, O2, (M1 w kn kn' Hw0 Hk Hk' b Gb), (b_end_cap_keep b b') by exact M. reflexivity.
    + intros w' kn b' r' Hw Hk G Hr He. destruct (F2_back _ _ _ _ KN Hw) as (w & Hw0 & (S & _)). rewrite (sc_conns _ _ S) in *.
      destruct (kept_back _ _ _ _ K G) as (b & Gb & M). rewrite (b_end_cap_keep b b') in He by exact M. rewrite (st_n _ _ (marches_statics _ _ M)) in Hr. eapply M2; eauto.
  - intros name b' G. destruct (kept_back _ _ _ _ K G) as (b & Gb & M). eapply unlit_march; eauto.
  - intros w' Hw. destruct (F2_back _ _ _ _ KN Hw) as (w & Hw0 & Kw). eapply unlit_keep; eauto.
Qed.
Lemma passive_kept t0 x y : kept x y -> passive t0 x -> passive t0 y.
Proof.
  intros K [B Nt]. pose proof K as [KB KN]. split.
  - intros name b' G. destruct (kept_back _ _ _ _ K G) as (b & Gb & M). eapply passive_march; eauto.
  - intros w' Hw. destruct (F2_back _ _ _ _ KN Hw) as (w & Hw0 & Kw). eapply passive_keep; eauto.
Qed.
Lemma run_nets x T dt n y : ninv LA x -> reaches LA x T dt n y -> forall w, In w (nets y) -> exists ds, net_run LA ds (t_dt y) w.
Proof.
  intros I. revert y. induction n as [|n IH]; intros y R w Hw.
  - destruct (run_start LA _ _ _ _ _ R) as (ws & steps & p & H1 & H2 & H3 & H4 & H5 & H6 & H7 & H8 & H9 & _). cbn [iterM] in H4. injection H4 as ->.
    unfold nets in Hw. rewrite H5 in Hw. destruct (F2_back _ _ _ _ (terms_nets _ _ _ H1) Hw) as (w0 & Hw0 & E).
    pose proof (nv_nets _ _ I) as HN. rewrite Forall_forall in HN. destruct (HN w0 Hw0) as [ds Hh]. exists ds. eapply nr_terms; eauto.
  - destruct (reaches_step LA _ _ _ _ _ R) as (z & Rz & St & _). destruct (F2_back _ _ _ _ (step_nets LA _ _ St) Hw) as (w0 & Hw0 & (w1 & bs & V & C)).
    destruct (IH z Rz w0 Hw0) as [ds Hr]. exists ds. rewrite (proj1 (step_clock LA _ _ St)). eapply nr_curr; [|exact C]. eapply nr_volt; eauto.
Qed.

(** ** one step *)
Lemma conn_sum (w : network NumR) (f : nat -> R) : nshape w -> sumR (w_nodes w) f = total (fun kn => f (nd_index (snd kn))) (w_conns w).
Proof.
  intros S. rewrite <- (total_map f (fun kn => nd_index (snd kn))), (sh_idx _ S). rewrite total_seq. apply sumR_ext. reflexivity.
Qed.
Lemma conn_index (w : network NumR) kn : nshape w -> In kn (w_conns w) -> (nd_index (snd kn) < w_nodes w)%nat.
Proof. intros S H. assert (X : In (nd_index (snd kn)) (seq 0 (w_nodes w))) by (rewrite <- (sh_idx _ S); apply (in_map (fun kn => nd_index (snd kn))); exact H). apply in_seq in X. lia. Qed.
(** the change of charge seen by the circuit is that of the end cell *)
Lemma match_sum y w kn b (d : nat -> R) : NoDup (map fst (t_bundles y)) -> closed LA y -> nshape w -> In w (nets y) -> In kn (w_conns w) -> bundle_of y (nd_bundle (snd kn)) = Some b ->
  forall g : nat -> R, (forall kn', In kn' (w_conns w) -> nd_bundle (snd kn') = nd_bundle (snd kn) -> nd_end (snd kn') = nd_end (snd kn) -> d (nd_index (snd kn')) = g (nd_row (snd kn'))) ->
  sumR (w_nodes w) (fun j => nLen w (nd_index (snd kn)) * nCap w (nd_index (snd kn)) j * d j) = sumR (b_conductors b) (fun r' => b_end_cap b (nd_end (snd kn)) (nd_row (snd kn)) r' * g r').
Proof.
  intros NDk [W [M1 M2] _ _] S Hw Hk G g Hd. rewrite (conn_sum w _ S).
  set (p := fun kn' : Z * node => (String.eqb (nd_bundle (snd kn')) (nd_bundle (snd kn)) && Bool.eqb (nd_end (snd kn')) (nd_end (snd kn)))%bool).
  assert (Pp : forall kn', p kn' = true -> nd_bundle (snd kn') = nd_bundle (snd kn) /\ nd_end (snd kn') = nd_end (snd kn)).
  { intros kn' E. unfold p in E. apply andb_true_iff in E as [E1 E2]. split; [now apply String.eqb_eq|now apply Bool.eqb_prop]. }
  assert (Pi : forall kn', nd_bundle (snd kn') = nd_bundle (snd kn) -> nd_end (snd kn') = nd_end (snd kn) -> p kn' = true).
  { intros kn' E1 E2. unfold p. rewrite E1, E2, String.eqb_refl, Bool.eqb_reflx. reflexivity. }
  set (h := fun r' => b_end_cap b (nd_end (snd kn)) (nd_row (snd kn)) r' * g r').
  rewrite (total_ext _ (fun kn' => if p kn' then h (nd_row (snd kn')) else 0)).
  2:{ intros kn' Hk'. rewrite (M1 w kn kn' Hw Hk Hk' b G). fold (p kn'). destruct (p kn') eqn:E; [|rring]. destruct (Pp _ E) as [E1 E2]. unfold h. rewrite (Hd kn' Hk' E1 E2). reflexivity. }
  rewrite total_filter. rewrite <- (total_map h (fun kn' => nd_row (snd kn'))). apply total_support.
  - pose proof (wired_NoDup y NDk W) as ND. assert (NDw : NoDup (map cend_of (w_conns w))).
    { clear - ND Hw. induction (nets y) as [|u l IH]; [destruct Hw|]. cbn [flat_map] in ND. apply NoDup_halves in ND as [N1 N2]. destruct Hw as [<-|Hw]; auto. }
    clear - NDw Pp. induction (w_conns w) as [|k l IH]; cbn [filter map]; [constructor|]. cbn [map] in NDw. apply NoDup_cons_iff in NDw as [NI ND]. destruct (p k) eqn:E; [|now apply IH].
    cbn [map]. constructor; [|now apply IH]. intros H. apply in_map_iff in H as (k' & E' & H). apply filter_In in H as [H Ek]. apply NI. apply in_map_iff. exists k'. split; [|exact H].
    destruct (Pp _ E) as [A1 A2], (Pp _ Ek) as [B1 B2]. unfold cend_of. rewrite E', A1, A2, B1, B2. reflexivity.
  - intros r H. apply in_map_iff in H as (k' & <- & H). apply filter_In in H as [H Ek]. destruct (Pp _ Ek) as [B1 B2].
    destruct (wired_resolves y w k' NDk W Hw H) as (b1 & G1 & Hr). rewrite B1 in G1. assert (b1 = b) by congruence. subst b1. exact Hr.
  - intros r Hr Hne. destruct (M2 w kn b r Hw Hk G Hr) as (k' & Hk' & E).
    + intros Z. apply Hne. unfold h. rewrite Z. rring.
    + unfold cend_of in E. injection E as E1 E2 E3. apply in_map_iff. exists k'. split; [exact E2|]. apply filter_In. split; [exact Hk'|now apply Pi].
Qed.
(** energy through the node [kn] of [w] *)
Definition flow (dt : R) y z (c : cend) : R :=
  match bundle_of y (fst (fst c)), bundle_of z (fst (fst c)) with Some b, Some b' => inflow dt b b' (snd c) (snd (fst c)) | _, _ => 0 end.
Lemma joined_V x w kn b : joined x -> In w (nets x) -> In kn (w_conns w) -> bundle_of x (nd_bundle (snd kn)) = Some b ->
  nV w (nd_index (snd kn)) = eV b (nd_end (snd kn)) (nd_row (snd kn)) /\ nI w (nd_index (snd kn)) = in_cur b (nd_end (snd kn)) (nd_row (snd kn)).
Proof.
  intros J Hw Hk G. destruct (J w kn Hw Hk) as (b1 & G1 & E). assert (b1 = b) by congruence. subst b1. cbv zeta in E. unfold eV, in_cur. destruct (nd_end (snd kn)); exact E.
Qed.
Lemma node_flow y z w w1 w' (bs : bdict NumR) ds kn : ninv LA y -> closed LA y -> joined y -> joined z -> kept y z -> t_dt y <> 0 ->
  In w (nets y) -> In w' (nets z) -> net_run LA ds (t_dt y) w -> nw_advance_voltage LA w (t_time y) (t_dt y) = Ok w1 -> nw_update_currents w1 bs = Ok w' -> In kn (w_conns w) ->
  let i := nd_index (snd kn) in let dt := t_dt y in let t := t_time y in
  flow dt y z (cend_of kn) = dt / 4 * ((nV w' i + nV w i) *
    (circuit_current w dt (nV w') (nV w) (nX w') (fun j => nSrc w j t) (fun j => nSrc w j (t - dt)) i
     + circuit_current w dt (nV w) (nVprev w) (nX w) (fun j => nSrc w j (t - dt)) (fun j => nSrc w j (t - 2 * dt)) i)).
Proof.
  intros I Cl J J' K D Hw Hw' Rw V C Hk i dt t. pose proof (history_shape LA ds w (run_history LA ds _ w Rw)) as S.
  destruct (currents_kept _ _ _ C) as (Kc & Ev & _ & EX). pose proof (volt_kept _ _ _ _ V) as Kv. pose proof (kept_net_trans _ _ _ Kv Kc) as Kw.
  assert (Hk' : In kn (w_conns w')) by (rewrite (sc_conns _ _ (proj1 Kw)); exact Hk).
  destruct (J w kn Hw Hk) as (b & G & _). destruct (kept_get _ _ _ _ K G) as (b' & G' & M).
  destruct (joined_V y w kn b J Hw Hk G) as [EV EI]. destruct (joined_V z w' kn b' J' Hw' Hk' G') as [EV' _].
  pose proof (conn_index w kn S Hk) as Hi.
  pose proof (net_kcl LA LAok ds dt w w1 t i Rw V Hi) as Q. cbv zeta in Q.
  rewrite (sumR_zero (w_nodes w) (fun j => nLen w i * nCap w i j * (nField w j t - nField w j (t - dt)))) in Q.
  2:{ intros j Hj. rewrite !(un_F _ (cl_nets _ _ Cl w Hw)) by exact Hj. rring. }
  assert (E1 : nV w1 = nV w') by (unfold nV; now rewrite Ev). assert (E2 : nX w1 = nX w') by (unfold nX; now rewrite EX). rewrite E1, E2 in Q.
  assert (MS : sumR (w_nodes w) (fun j => nLen w i * nCap w i j * (nV w' j - nV w j)) = sumR (b_conductors b) (fun r' => b_end_cap b (nd_end (snd kn)) (nd_row (snd kn)) r' * (eV b' (nd_end (snd kn)) r' - eV b (nd_end (snd kn)) r'))).
  { apply (match_sum y w kn b (fun j => nV w' j - nV w j) (nv_keys _ _ I) Cl S Hw Hk G (fun r => eV b' (nd_end (snd kn)) r - eV b (nd_end (snd kn)) r)).
    intros kn' Hk1 B1 B2. destruct (joined_V y w kn' b J Hw Hk1 ltac:(rewrite B1; exact G)) as [A1 _].
    destruct (joined_V z w' kn' b' J' Hw' ltac:(rewrite (sc_conns _ _ (proj1 Kw)); exact Hk1) ltac:(rewrite B1; exact G')) as [A2 _]. rewrite A1, A2, B2. reflexivity. }
  change (@sumn NumR) with sumR in *. rewrite MS in Q.
  unfold flow, cend_of. cbn [fst snd]. rewrite G, G'. unfold inflow. rewrite <- EV, <- EV', <- EI. fold i.
  set (q := sumR (b_conductors b) _) in *. fold dt in D.
  set (c1 := circuit_current w dt (nV w') (nV w) (nX w') (fun j => nSrc w j t) (fun j => nSrc w j (t - dt)) i) in *.
  set (c0 := circuit_current w dt (nV w) (nVprev w) (nX w) (fun j => nSrc w j (t - dt)) (fun j => nSrc w j (t - 2 * dt)) i) in *.
  assert (Qq : q = dt * (c1 + c0 - 2 * nI w i)).
  { change (car NumR) with R in *. assert (X : q / dt = c1 + c0 - 2 * nI w i) by (rewrite Q; unfold Rdiv; rsimpl; ring). rewrite <- X. field. exact D. }
  rewrite Qq. rsimpl. unfold Rdiv. field || ring.
Qed.

Lemma total_cends (f : cend -> R) (kb : string * bundle NumR) : total f (cends kb) = sumR (b_conductors (snd kb)) (fun r => f (fst kb, r, false) + f (fst kb, r, true)).
Proof.
  unfold cends. rewrite total_flat, total_seq. apply sumR_ext. intros r _. rewrite !total_cons, total_nil. cbn [plus]. lra.
Qed.
Lemma step_balance y z : ninv LA y -> ninv LA z -> closed LA y -> joined y -> joined z -> kept y z -> mtln_step LA y = Ok z -> t_dt y <> 0 ->
  (forall w, In w (nets y) -> exists ds, net_run LA ds (t_dt y) w) ->
  (forall name b b', bundle_of y name = Some b -> bundle_of z name = Some b' -> telegraph (t_dt y) (t_dt y) (t_time y) b b') ->
  net_energy z = net_energy y - net_lost y z + net_work y z.
Proof.
  intros I I' Cl J J' K St D Run Tel. pose proof K as [KB KN]. destruct (step_clock LA _ _ St) as [Ed _]. set (dt := t_dt y) in *. set (t := t_time y) in *.
  pose proof (nv_keys _ _ I) as ND. pose proof (nv_keys _ _ I') as ND'.
  pose proof (F2_length _ _ _ KB) as LB. pose proof (step_nets LA _ _ St) as SN. pose proof (F2_length _ _ _ SN) as LN.
  (* bundles *)
  assert (EB : total (fun kb => b_energy dt (snd kb)) (t_bundles z) - total (fun kb => b_energy dt (snd kb)) (t_bundles y) =
     - over_bundles (b_lost_R dt) y z - over_bundles (b_lost_G dt) y z + total (flow dt y z) (flat_map cends (t_bundles y))).
  { rewrite total_flat. rewrite <- (total_fst (fun kb => total (flow dt y z) (cends kb)) (t_bundles y) (t_bundles z) LB).
    rewrite <- (total_snd (fun kb => b_energy dt (snd kb)) (t_bundles y) (t_bundles z) LB), <- (total_fst (fun kb => b_energy dt (snd kb)) (t_bundles y) (t_bundles z) LB).
    unfold over_bundles. rewrite <- total_minus, <- total_opp, <- total_minus, <- total_plus. eapply F2_total; [exact KB|].
    intros [name b] [name' b'] Hb Hb' [E M]. cbn [fst snd] in *. subst name'.
    assert (G : bundle_of y name = Some b) by now apply sget_in. assert (G' : bundle_of z name = Some b') by now apply sget_in.
    pose proof (cl_bundles _ _ Cl name b G) as U. pose proof (marches_statics _ _ M) as S.
    rewrite (bundle_balance LA dt t b b' U D (bundle_cells LA b (proj1 (bundle_in LA y _ b I G))) (Tel name b b' G G') (st_N _ _ S) (st_n _ _ S) (st_h _ _ S)).
    - rewrite total_cends. cbn [fst snd]. unfold flow. cbn [fst snd]. rewrite G, G'. reflexivity.
    - intros k i j. rewrite (st_C _ _ S), (st_L _ _ S). split; reflexivity.
    - intros k c Hk Hc. destruct (ub_way _ _ U) as [b0 W]. apply (one_way_memory LA (fun _ => False) b0 b'); [eapply ow_march; eauto| |].
      + rewrite (st_N _ _ S). exact Hk. + rewrite (st_n _ _ S). exact Hc. }
  rewrite <- (total_perm _ _ _ (cl_wired _ _ Cl)), total_flat in EB.
  (* circuits *)
  assert (EN : total (fun w => total (flow dt y z) (map cend_of (w_conns w))) (nets y) =
     - over_nets (w_lost_R dt) y z - over_nets w_lost_C y z - (total w_stored (nets z) - total w_stored (nets y)) + over_nets (w_work dt t) y z).
  { rewrite <- (total_fst (fun w => total (flow dt y z) (map cend_of (w_conns w))) (nets y) (nets z) LN).
    rewrite <- (total_snd w_stored (nets y) (nets z) LN), <- (total_fst w_stored (nets y) (nets z) LN).
    unfold over_nets. rewrite <- total_opp, <- !total_minus, <- total_plus. eapply F2_total; [exact SN|].
    intros w w' Hw Hw' (w1 & bs & V & C). cbn [fst snd]. destruct (Run w Hw) as [ds Rw].
    pose proof (history_shape LA ds w (run_history LA ds _ w Rw)) as S.
    destruct (currents_kept _ _ _ C) as (Kc & Ev & Ep & EX). pose proof (volt_kept _ _ _ _ V) as Kv. pose proof (kept_net_trans _ _ _ Kv Kc) as Kw.
    destruct (volt_fields LA _ _ _ _ V) as (_ & _ & _ & Epv & _).
    rewrite <- (net_balance w w' dt t (un_Q _ (cl_nets _ _ Cl w Hw)) D).
    - rewrite (conn_sum w _ S), <- total_scal, total_map. apply total_ext. intros kn Hk.
      exact (node_flow y z w w1 w' bs ds kn I Cl J J' K D Hw Hw' Rw V C Hk).
    - intros i. unfold nQ. rewrite (sc_Q1 _ _ (proj1 Kw)). reflexivity.
    - exact (sc_nodes _ _ (proj1 Kw)).
    - intros i. unfold nVprev, nV. rewrite Ep, Epv. reflexivity. }
  rewrite EN in EB. unfold net_energy, net_lost, net_work. cbv zeta. rewrite Ed. fold dt t. lra.
Qed.

(** ** runs *)
Lemma one_step_dt x T dt n y : lines_net LA x -> one_step x dt -> reaches LA x T dt n y -> 0 < t_dt y /\ forall name b, bundle_of y name = Some b -> k_dt (b_core b) = t_dt y.
Proof.
  intros L O R. destruct (run_clock LA _ _ _ _ _ R) as [E _].
  destruct O as [O|(-> & O & Ob)].
  - rewrite (proj2 (Reqb_false dt 0)) in E by lra. split; [lra|]. intros name b G. destruct (run_ready LA _ _ _ _ _ _ _ L R G) as (_ & b0 & _ & Ek). rewrite (proj2 (Reqb_false dt 0)) in Ek by lra. rewrite Ek. now symmetry.
  - rewrite (proj2 (Reqb_true 0 0) eq_refl) in E. split; [lra|]. intros name b G. destruct (run_ready LA _ _ _ _ _ _ _ L R G) as (_ & b0 & G0 & Ek). rewrite (proj2 (Reqb_true 0 0) eq_refl) in Ek.
    rewrite Ek, E. eapply Ob; exact G0.
Qed.
Lemma run_joined x T dt n y : lines_net LA x -> wired x -> (0 < n)%nat \/ joined x -> reaches LA x T dt n y -> joined y.
Proof.
  intros L W O R. pose proof (lines_ninv LA x L) as I. destruct n as [|n].
  - destruct O as [O|O]; [lia|]. eapply joined_start; eauto.
  - destruct (reaches_step LA _ _ _ _ _ R) as (z & Rz & St & _). eapply joined_step; [eapply reaches_ninv; eauto| |exact St]. eapply wired_keep; [eapply reaches_kept; eauto|exact W].
Qed.
Lemma run_balance x T dt n y z : lines_net LA x -> closed LA x -> one_step x dt -> (0 < n)%nat \/ joined x -> steps_to LA x T dt n y z ->
  net_energy z = net_energy y - net_lost y z + net_work y z.
Proof.
  intros L Cl O J S. pose proof S as (R & St & R'). pose proof (lines_ninv LA x L) as I. destruct (one_step_dt _ _ _ _ _ L O R) as [Dp Db].
  apply step_balance; auto.
  - eapply reaches_ninv; eauto. - eapply reaches_ninv; eauto.
  - eapply closed_keep; [eapply reaches_kept; eauto|exact Cl].
  - eapply run_joined; eauto. apply Cl. - eapply run_joined; [exact L|apply Cl| |exact R']. left. lia.
  - eapply kept_step; [eapply reaches_ninv; eauto|exact St].
  - lra.
  - eapply run_nets; eauto.
  - intros name b b' G G'. rewrite <- (Db name b G) at 1. eapply run_telegraph; eauto.
Qed.

(** ** nothing supplies energy *)
Lemma driven_zero t0 w dt t X i : passive_net t0 w -> 0 <= dt -> t0 <= t - dt -> (i < w_nodes w)%nat -> driven_current w dt t X i = 0.
Proof.
  intros P D Ht Hi. unfold driven_current, circuit_current. rewrite (pt_ns _ _ P). change (@sumn NumR) with sumR.
  rewrite (sumR_0). rewrite !sumR_zero; [unfold Rdiv; rsimpl; unfold Rdiv; ring| | | |]; intros j Hj; rewrite ?(pt_src _ _ P) by (auto; rsimpl; lra); rsimpl; ring.
Qed.
Lemma passive_losses t0 y z : passive t0 y -> kept y z -> ninv LA y -> ninv LA z -> 0 < t_dt y -> t0 + 2 * t_dt y <= t_time y -> 0 <= net_lost y z /\ net_work y z = 0.
Proof.
  intros [PB PN] K I I' D Ht. pose proof K as [KB KN]. set (dt := t_dt y) in *.
  assert (B : forall f, (forall b b', passive_bundle b -> 0 <= f b b') -> 0 <= over_bundles f y z).
  { intros f Hf. unfold over_bundles. eapply F2_total_le; [exact KB|]. intros [name b] [name' b'] Hb _ _. cbn [fst snd]. apply Hf. apply (PB name). apply sget_in; [apply I|exact Hb]. }
  assert (W : forall f, (forall w w', passive_net t0 w -> 0 <= f w w') -> 0 <= over_nets f y z).
  { intros f Hf. unfold over_nets. eapply F2_total_le; [exact KN|]. intros w w' Hw _ _. apply Hf. now apply PN. }
  split.
  - unfold net_lost. cbv zeta. fold dt.
    assert (B1 : 0 <= over_bundles (b_lost_R dt) y z).
    { apply B. intros b b' P. unfold b_lost_R. apply Rmult_le_pos; [lra|]. apply sumR_nonneg. intros k Hk. apply Rmult_le_pos; [now apply (pv_h _ P)|now apply (pv_R _ P)]. }
    assert (B2 : 0 <= over_bundles (b_lost_G dt) y z).
    { apply B. intros b b' P. unfold b_lost_G. apply Rmult_le_pos; [lra|]. apply sumR_nonneg. intros k Hk. apply Rmult_le_pos; [|apply (pv_G _ P); lia].
      unfold b_share. change (S k =? 0)%nat with false. cbv iota. pose proof (pv_h _ P) as H. destruct (S k =? b_cells b)%nat.
      - pose proof (H (b_cells b - 1)%nat ltac:(lia)). change (car NumR) with R in *. lra.
      - pose proof (H (S k - 1)%nat ltac:(lia)). pose proof (H (S k) ltac:(lia)). change (car NumR) with R in *. lra. }
    assert (B3 : 0 <= over_nets (w_lost_R dt) y z).
    { apply W. intros w w' P. unfold w_lost_R. pose proof (pt_G _ _ P (fun i => (nV w' i + nV w i) / 2)) as X. change (car NumR) with R in *. nra. }
    assert (B4 : 0 <= over_nets w_lost_C y z).
    { apply W. intros w w' P. unfold w_lost_C. pose proof (pt_Q _ _ P (fun i => (nV w' i - nVprev w i) / 2)) as X. change (car NumR) with R in *. lra. }
    lra.
  - unfold net_work, over_nets. fold dt.
    rewrite (F2_total _ _ (fun _ => 0) _ _ KN).
    + generalize (combine (nets y) (nets z)). induction l as [|a l IH]; [apply total_nil|]. rewrite total_cons, IH. lra.
    + intros w w' Hw _ Kw. cbn [fst snd]. unfold w_work. pose proof (PN w Hw) as P. rewrite sumR_zero; [rsimpl; ring|]. intros i Hi. rewrite !(driven_zero t0 w) by (auto; change (car NumR) with R in *; lra). rsimpl. unfold Rdiv. ring.
Qed.
Lemma run_decay x T dt t0 j (u : mtln NumR) k v : lines_net LA x -> closed LA x -> passive t0 x -> one_step x dt -> (0 < j)%nat \/ joined x -> t0 + 2 * t_dt u <= t_time u ->
  reaches LA x T dt j u -> reaches LA x T dt k v -> (j <= k)%nat -> net_energy v <= net_energy u.
Proof.
  intros L Cl P O J Ht R. revert v. induction k as [|k IH]; intros v Rv Hj.
  - assert (j = 0%nat) by lia. subst j. rewrite (reaches_fun LA _ _ _ _ _ _ R Rv). lra.
  - destruct (Nat.eq_dec j (S k)) as [->|]; [rewrite (reaches_fun LA _ _ _ _ _ _ R Rv); lra|].
    destruct (reaches_step LA _ _ _ _ _ Rv) as (y & S). pose proof S as (Ry & St & _). specialize (IH y Ry ltac:(lia)).
    pose proof (lines_ninv LA x L) as I. destruct (one_step_dt _ _ _ _ _ L O Ry) as [Dp _].
    assert (Iy : ninv LA y) by (eapply reaches_ninv; eauto).
    assert (Hy : t0 + 2 * t_dt y <= t_time y).
    { destruct (run_clock LA _ _ _ _ _ R) as [A1 A2]. destruct (run_clock LA _ _ _ _ _ Ry) as [B1 B2]. assert (Ed : t_dt u = t_dt y) by congruence.
      rewrite B2. rewrite A2, Ed in Ht. assert (INR j <= INR k) by (apply le_INR; lia). change (car NumR) with Rdefinitions.R in *. nra. }
    destruct (passive_losses t0 y v (passive_kept _ _ _ (reaches_kept _ _ _ _ _ I Ry) P) (kept_step _ _ Iy St) Iy (reaches_ninv LA _ _ _ _ _ I Rv) Dp Hy) as [A B].
    rewrite (run_balance x T dt k y v L Cl O ltac:(destruct J; [left; lia|now right]) S). lra.
Qed.

(** ** the energy bounds what is stored *)
Lemma cell_bound (h dt0 rho A q0 q1 B p : R) : 0 <= h -> 0 < rho <= 1 -> 0 <= A -> 0 <= B -> B <= 2 * (q0 + q1) -> (dt0 * p) ^ 2 <= h ^ 2 * (A * B) ->
  (1 - rho) * (h * A / 2 + h / 2 * (q0 + q1) / 2) <= h * A / 2 + h / 2 * (q0 + q1) / 2 + rho * dt0 / 2 * p.
Proof.
  intros Hh [R0 R1] HA HB HB2 HC. set (X := h * A + h * B / 4). set (Y := dt0 * p).
  assert (HX : 0 <= X) by (unfold X; nra).
  assert (XY : Y ^ 2 <= X ^ 2).
  { apply Rle_trans with (h ^ 2 * (A * B)); [exact HC|]. unfold X. pose proof (Rle_0_sqr (h * A - h * B / 4)) as Q. unfold Rsqr in Q. nra. }
  assert (Yb : - X <= Y).
  { destruct (Rle_dec 0 Y); [lra|]. assert (- Y <= X); [|lra]. apply Rsqr_incr_0; [unfold Rsqr; simpl in XY; nra|lra|lra]. }
  assert (XB : X <= h * A + h / 2 * (q0 + q1)) by (unfold X; nra).
  replace (rho * dt0 / 2 * p) with (rho / 2 * Y) by (unfold Y; field). nra.
Qed.
Lemma shares_by_cell b (q : nat -> R) : (1 <= b_cells b)%nat ->
  sumR (S (b_cells b)) (fun k => b_share b k * q k) = sumR (b_cells b) (fun k => klen (b_core b) k / 2 * (q k + q (S k))).
Proof.
  intros N1. rewrite (sumR_ends _ _ N1). set (N := b_cells b) in *. set (h := klen (b_core b)). assert (E : N = S (N - 1)) by lia.
  rewrite (sumR_ext N _ (fun k => h k / 2 * q k + h k / 2 * q (S k))) by (intros; unfold h; rring). rewrite sumR_plus.
  assert (A : sumR N (fun k => h k / 2 * q k) = h 0%nat / 2 * q 0%nat + sumR (N - 1) (fun k => h (S k) / 2 * q (S k))) by (rewrite E at 1; now rewrite sumR_shift).
  assert (B : sumR N (fun k => h k / 2 * q (S k)) = sumR (N - 1) (fun k => h k / 2 * q (S k)) + h (N - 1)%nat / 2 * q N).
  { replace (sumR N) with (sumR (S (N - 1))) by (now rewrite <- E). rewrite sumR_S. now rewrite <- E. }
  rewrite A, B.
  assert (W0 : b_share b 0 = h 0%nat / 2) by reflexivity.
  assert (WN : b_share b N = h (N - 1)%nat / 2). { unfold b_share. fold N. rewrite (Nat.eqb_refl N). destruct (Nat.eqb_spec N 0); [lia|reflexivity]. }
  rewrite W0, WN.
  rewrite (sumR_ext (N - 1) (fun k => b_share b (S k) * q (S k)) (fun k => h (S k) / 2 * q (S k) + h k / 2 * q (S k))).
  2:{ intros k Hk. unfold b_share. fold N. assert (X : (S k =? N)%nat = false) by (apply Nat.eqb_neq; lia). rewrite X. cbn [Nat.eqb]. replace (S k - 1)%nat with k by lia. fold h. rsimpl. unfold Rdiv. ring. }
  rewrite sumR_plus. rring.
Qed.
Lemma b_energy_bound b dt dt0 : (1 <= b_cells b)%nat -> b_courant b dt0 -> (forall k, (k < b_cells b)%nat -> 0 <= klen (b_core b) k) -> 0 < dt <= dt0 ->
  (1 - dt / dt0) * b_stored b <= b_energy dt b.
Proof.
  intros N1 (CFL & SC & HL & HC) HH [D DD]. set (n := b_conductors b) in *. set (rho := dt / dt0).
  assert (Rho : 0 < rho <= 1).
  { unfold rho. split; [apply Rdiv_lt_0_compat; lra|]. apply (Rmult_le_reg_r dt0); [lra|]. unfold Rdiv. rewrite Rmult_assoc, Rinv_l, Rmult_1_r, Rmult_1_l; lra. }
  unfold b_energy, b_stored. fold n. rewrite (shares_by_cell b (fun k => quad n (kC (b_core b) k) (bV b k)) N1).
  replace dt with (rho * dt0) by (unfold rho; field; lra).
  rewrite <- !sumR_div, <- sumR_plus, <- !sumR_scal, <- sumR_plus. apply sumR_le. intros k Hk.
  assert (X : (1 - rho) * (klen (b_core b) k * quad n (kL (b_core b) k) (bI b k) / 2 + klen (b_core b) k / 2 * (quad n (kC (b_core b) k) (bV b k) + quad n (kC (b_core b) (S k)) (bV b (S k))) / 2) <=
     klen (b_core b) k * quad n (kL (b_core b) k) (bI b k) / 2 + klen (b_core b) k / 2 * (quad n (kC (b_core b) k) (bV b k) + quad n (kC (b_core b) (S k)) (bV b (S k))) / 2
     + rho * dt0 / 2 * dot n (bI b k) (fun c => bV b (S k) c - bV b k c)).
  { apply (cell_bound _ dt0 rho _ _ _ (quad n (kC (b_core b) k) (fun c => bV b (S k) c - bV b k c))); auto.
    - apply HL; auto.
    - apply HC; lia.
    - assert (E : quad n (kC (b_core b) (S k)) (bV b (S k)) = quad n (kC (b_core b) k) (bV b (S k))).
      { apply quad_ext; auto. intros i j Hi Hj. rewrite (SC (S k)), (SC k) by (auto; lia). reflexivity. }
      rewrite E. pose proof (HC k ltac:(lia) (fun c => bV b (S k) c + bV b k c)) as Q. fold n in Q.
      assert (PL : quad n (kC (b_core b) k) (fun c => bV b (S k) c - bV b k c) + quad n (kC (b_core b) k) (fun c => bV b (S k) c + bV b k c) =
        2 * (quad n (kC (b_core b) k) (bV b k) + quad n (kC (b_core b) k) (bV b (S k)))).
      { rewrite !quad_dot.
        rewrite (dot_ext n (fun c => bV b (S k) c - bV b k c) _ (fun c => bV b (S k) c - bV b k c) (fun c => mulv n (kC (b_core b) k) (bV b (S k)) c - mulv n (kC (b_core b) k) (bV b k) c)) by (auto; intros; apply mulv_sub).
        rewrite (dot_ext n (fun c => bV b (S k) c + bV b k c) _ (fun c => bV b (S k) c + bV b k c) (fun c => mulv n (kC (b_core b) k) (bV b (S k)) c + mulv n (kC (b_core b) k) (bV b k) c)) by (auto; intros; apply mulv_add).
        rewrite dot_sub_l, dot_add_l, !dot_sub_r, !dot_add_r. ring. }
      lra. }
  rsimpl. lra.
Qed.
Lemma w_stored_nonneg t0 w : passive_net t0 w -> 0 <= w_stored w.
Proof. intros P. unfold w_stored. pose proof (pt_Q _ _ P (fun i => (nV w i + nVprev w i) / 2)) as X. change (car NumR) with R in *. lra. Qed.
Lemma net_bound t0 y dt0 : ninv LA y -> passive t0 y -> 0 < t_dt y <= dt0 -> (forall name b, bundle_of y name = Some b -> b_courant b dt0) ->
  (1 - t_dt y / dt0) * net_stored y <= net_energy y.
Proof.
  intros I [PB PN] [D DD] C. unfold net_stored, net_energy. set (dt := t_dt y) in *.
  assert (Rho : 0 < dt / dt0 <= 1).
  { split; [apply Rdiv_lt_0_compat; lra|]. apply (Rmult_le_reg_r dt0); [lra|]. unfold Rdiv. rewrite Rmult_assoc, Rinv_l, Rmult_1_r, Rmult_1_l; lra. }
  assert (A : (1 - dt / dt0) * total (fun kb => b_stored (snd kb)) (t_bundles y) <= total (fun kb => b_energy dt (snd kb)) (t_bundles y)).
  { rewrite <- total_scal. apply total_le. intros [name b] Hb. cbn [snd]. assert (G : bundle_of y name = Some b) by (apply sget_in; [apply I|exact Hb]).
    apply b_energy_bound; [exact (bundle_cells LA b (proj1 (bundle_in LA y _ b I G)))|eapply C; exact G|exact (pv_h _ (PB name b G))|lra]. }
  assert (B : 0 <= total w_stored (nets y)) by (apply total_nonneg; intros w Hw; apply (w_stored_nonneg t0); now apply PN).
  nra.
Qed.
Lemma b_stored_nonneg b dt0 : b_courant b dt0 -> (forall k, (k < b_cells b)%nat -> 0 <= klen (b_core b) k) -> (1 <= b_cells b)%nat -> 0 <= b_stored b.
Proof.
  intros (_ & _ & HL & HC) HH N1. unfold b_stored.
  assert (A : 0 <= sumR (S (b_cells b)) (fun k => b_share b k * quad (b_conductors b) (kC (b_core b) k) (bV b k))).
  { apply sumR_nonneg. intros k Hk. apply Rmult_le_pos; [|apply (HC k); lia]. unfold b_share. destruct (Nat.eqb_spec k 0); [|destruct (Nat.eqb_spec k (b_cells b))].
    - pose proof (HH 0%nat ltac:(lia)). lra.
    - pose proof (HH (b_cells b - 1)%nat ltac:(lia)). lra.
    - pose proof (HH (k - 1)%nat ltac:(lia)). pose proof (HH k ltac:(lia)). lra. }
  assert (B : 0 <= sumR (b_cells b) (fun k => klen (b_core b) k * quad (b_conductors b) (kL (b_core b) k) (bI b k))).
  { apply sumR_nonneg. intros k Hk. apply Rmult_le_pos; [now apply HH|now apply (HL k)]. }
  lra.
Qed.
Lemma run_stored x T dt t0 dt0 k (v : mtln NumR) : lines_net LA x -> passive t0 x -> (forall name b, bundle_of x name = Some b -> b_courant b dt0) -> reaches LA x T dt k v -> 0 <= net_stored v.
Proof.
  intros L P C Rv. pose proof (lines_ninv LA x L) as I. pose proof (reaches_kept _ _ _ _ _ I Rv) as K. assert (Iv : ninv LA v) by (eapply reaches_ninv; eauto).
  assert (Pv : passive t0 v) by (eapply passive_kept; eauto). unfold net_stored.
  assert (A : 0 <= total (fun kb => b_stored (snd kb)) (t_bundles v)).
  { apply total_nonneg. intros [name b] Hb. cbn [snd]. assert (G : bundle_of v name = Some b) by (apply sget_in; [apply Iv|exact Hb]). destruct (kept_back _ _ _ _ K G) as (b0 & Gb & M).
    eapply b_stored_nonneg; [eapply courant_march; eauto|exact (pv_h _ (proj1 Pv name b G))|exact (bundle_cells LA b (proj1 (bundle_in LA v _ b Iv G)))]. }
  assert (B : 0 <= total w_stored (nets v)) by (apply total_nonneg; intros w Hw; apply (w_stored_nonneg t0); now apply (proj2 Pv)). lra.
Qed.
Lemma run_bound x T dt t0 dt0 j (u : mtln NumR) k (v : mtln NumR) : lines_net LA x -> closed LA x -> passive t0 x -> one_step x dt -> (0 < j)%nat \/ joined x -> t0 + 2 * t_dt u <= t_time u ->
  (forall name b, bundle_of x name = Some b -> b_courant b dt0) -> t_dt u <= dt0 ->
  reaches LA x T dt j u -> reaches LA x T dt k v -> (j <= k)%nat -> (1 - t_dt u / dt0) * net_stored v <= net_energy u.
Proof.
  intros L Cl P O J Ht C Hd R Rv Hj. pose proof (lines_ninv LA x L) as I. destruct (one_step_dt _ _ _ _ _ L O Rv) as [Dp _].
  assert (E : t_dt u = t_dt v) by (rewrite (proj1 (run_clock LA _ _ _ _ _ R)), (proj1 (run_clock LA _ _ _ _ _ Rv)); reflexivity).
  pose proof (reaches_kept _ _ _ _ _ I Rv) as K. eapply Rle_trans; [|exact (run_decay _ _ _ _ _ _ _ _ L Cl P O J Ht R Rv Hj)]. rewrite E in *.
  apply (net_bound t0); [eapply reaches_ninv; eauto|eapply passive_kept; eauto|lra|]. intros name b' G. destruct (kept_back _ _ _ _ K G) as (b & Gb & M). eapply courant_march; eauto.
Qed.
Lemma run_bound_both x T dt t0 dt0 j (u : mtln NumR) k (v : mtln NumR) : lines_net LA x -> closed LA x -> passive t0 x -> one_step x dt -> (0 < j)%nat \/ joined x -> t0 + 2 * t_dt u <= t_time u ->
  (forall name b, bundle_of x name = Some b -> b_courant b dt0) -> t_dt u <= dt0 ->
  reaches LA x T dt j u -> reaches LA x T dt k v -> (j <= k)%nat -> 0 <= (1 - t_dt u / dt0) * net_stored v <= net_energy u.
Proof.
  intros L Cl P O J Ht C Hd R Rv Hj. split; [|exact (run_bound _ _ _ _ _ _ _ _ _ L Cl P O J Ht C Hd R Rv Hj)]. destruct (one_step_dt _ _ _ _ _ L O R) as [Dp _].
  apply Rmult_le_pos; [|eapply run_stored; eauto]. change (car NumR) with Rdefinitions.R in *. assert (t_dt u / dt0 <= 1); [|lra].
  apply (Rmult_le_reg_r dt0); [lra|]. unfold Rdiv. rewrite Rmult_assoc, Rinv_l, Rmult_1_r, Rmult_1_l; lra.
Qed.
End WithLA.
