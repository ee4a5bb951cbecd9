(** Networks the parser builds: where their nodes are and which calls are made on them. *)
From Coq Require Import String List Arith ZArith Lia Bool Permutation.
From Verif Require Import Num Py Arr ArrFacts Utils Probes Dispersive Line Bundle Networks Mtln SpecLine SpecBundle SpecNet SpecMtln SpecAlone
  CoreEq NetPlace Parser SpecParser ParserFacts ParserBuild.
Import ListNotations.

Lemma find_first {A} (f : A -> bool) (P : A -> Prop) l : (forall a, f a = true <-> P a) -> forall a, find f l = Some a <-> first_such P l a.
Proof.
  intros HP. induction l as [|x l IH]; intros a; cbn [find].
  - split; [discriminate|]. intros (b & c & E & _). destruct b; discriminate.
  - destruct (f x) eqn:Ef.
    + split.
      * intros H. injection H as <-. exists [], l. split; [reflexivity|]. split; [now apply HP|intros ? []].
      * intros (b & c & E & Pa & Nb). destruct b as [|y b]; [cbn in E; injection E as -> _; reflexivity|]. injection E as -> E. exfalso. apply (Nb y); [now left|now apply HP].
    + rewrite IH. split.
      * intros (b & c & -> & Pa & Nb). exists (x :: b), c. split; [reflexivity|]. split; [exact Pa|]. intros y [<-|I]; [|now apply Nb]. intros Px. apply HP in Px. congruence.
      * intros (b & c & E & Pa & Nb). destruct b as [|y b]; [cbn in E; injection E as -> _; apply HP in Pa; congruence|]. injection E as -> E. exists b, c. split; [exact E|]. split; [exact Pa|]. intros z I. apply Nb. now right.
Qed.

Section Places.
Context {N : num}.
Variable D : doc N.

(** *** Ends of lines *)
Lemma end_of_cases c0 cs c : end_of (c0 :: cs) c false <-> c0 = c. Proof. reflexivity. Qed.
Lemma element_in_spec lines c x far : element_of_node_in lines c = Ok (x, far) <->
  exists before cs after, lines = before ++ (x, cs) :: after /\ end_of cs c far /\ forall y cs', In (y, cs') before -> cs' <> [] /\ forall f, ~ end_of cs' c f.
Proof.
  induction lines as [|[y ys] lines IH]; cbn [element_of_node_in].
  - split; [discriminate|]. intros (b & cs & a & E & _). destruct b; discriminate.
  - assert (INV : forall b cs a, (y, ys) :: lines = b ++ (x, cs) :: a -> (b = [] /\ y = x /\ ys = cs /\ lines = a) \/ (exists b', b = (y, ys) :: b' /\ lines = b' ++ (x, cs) :: a)).
    { intros b cs a E. destruct b as [|z b]; [left; cbn in E; injection E as -> -> ->; auto|right; injection E as <- E; exists b; auto]. }
    destruct ys as [|c0 ys].
    + split; [discriminate|]. intros (b & cs & a & E & En & Nb). destruct (INV _ _ _ E) as [(-> & -> & <- & ->)|(b' & -> & E')]; [destruct En|]. destruct (Nb y [] (or_introl eq_refl)) as [X _]. now destruct X.
    + destruct (c0 =? c)%Z eqn:E0.
      * apply Z.eqb_eq in E0. split.
        -- intros H. injection H as <- <-. exists [], (c0 :: ys), lines. split; [reflexivity|]. split; [exact E0|intros ? ? []].
        -- intros (b & cs & a & E & En & Nb). destruct (INV _ _ _ E) as [(-> & -> & <- & ->)|(b' & -> & E')].
           ++ destruct far; [destruct En as [X _]; now destruct X|reflexivity].
           ++ destruct (Nb y (c0 :: ys) (or_introl eq_refl)) as [_ X]. now destruct (X false).
      * apply Z.eqb_neq in E0. destruct (last (c0 :: ys) c0 =? c)%Z eqn:E1.
        -- apply Z.eqb_eq in E1. split.
           ++ intros H. injection H as <- <-. exists [], (c0 :: ys), lines. split; [reflexivity|]. split; [now split|intros ? ? []].
           ++ intros (b & cs & a & E & En & Nb). destruct (INV _ _ _ E) as [(-> & -> & <- & ->)|(b' & -> & E')].
              ** destruct far; [reflexivity|now destruct E0].
              ** destruct (Nb y (c0 :: ys) (or_introl eq_refl)) as [_ X]. now destruct (X true).
        -- apply Z.eqb_neq in E1. rewrite IH. split.
           ++ intros (b & cs & a & -> & En & Nb). exists ((y, c0 :: ys) :: b), cs, a. split; [reflexivity|]. split; [exact En|]. intros z zs [E|I]; [|now apply (Nb z)]. injection E as <- <-. split; [discriminate|]. intros [|]; [intros [_ X]; now destruct E1|exact E0].
           ++ intros (b & cs & a & E & En & Nb). destruct (INV _ _ _ E) as [(-> & -> & <- & ->)|(b' & -> & E')].
              ** destruct far; [destruct En as [_ X]; now destruct E1|now destruct E0].
              ** exists b', cs, a. split; [exact E'|]. split; [exact En|]. intros z zs I. apply (Nb z). now right.
Qed.
Lemma element_ends c x far : getElementOfNode D c = Ok (x, far) <-> ends_at D c x far.
Proof. exact (element_in_spec (dc_lines D) c x far). Qed.
Lemma element_none c : (forall x cs, In (x, cs) (dc_lines D) -> cs <> [] /\ forall f, ~ end_of cs c f) -> getElementOfNode D c = Err GenericException.
Proof.
  unfold getElementOfNode. induction (dc_lines D) as [|[x cs] l IH]; intros H; [reflexivity|]. cbn [element_of_node_in]. destruct (H x cs (or_introl eq_refl)) as [Hne Hend]. destruct cs as [|c0 cs]; [now destruct Hne|].
  destruct (c0 =? c)%Z eqn:E0; [apply Z.eqb_eq in E0; now destruct (Hend false)|]. destruct (last (c0 :: cs) c0 =? c)%Z eqn:E1; [apply Z.eqb_eq in E1; apply Z.eqb_neq in E0; now destruct (Hend true)|]. apply IH. intros y ys I. apply (H y). now right.
Qed.
Lemma element_err c e : getElementOfNode D c = Err e -> (forall x far, ~ ends_at D c x far) /\ (e = GenericException \/ exists x, In (x, []) (dc_lines D)).
Proof.
  intros H. split; [intros x far E; apply element_ends in E; congruence|]. unfold getElementOfNode in H. revert H. induction (dc_lines D) as [|[x cs] l IH]; cbn [element_of_node_in]; intros H; [injection H as <-; now left|].
  destruct cs as [|c0 cs]; [right; exists x; now left|]. destruct (c0 =? c)%Z; [discriminate|]. destruct (_ =? c)%Z; [discriminate|]. destruct (IH H) as [E|[y I]]; [now left|right; exists y; now right].
Qed.

(** *** Sources and places *)
Lemma terminal_source_spec c src : getTerminalSourceInNode D c = Ok src -> source_at D c src.
Proof.
  unfold getTerminalSourceInNode, source_at. generalize (dc_sources D). induction l as [|s l IH]; cbn [terminal_source_in]; intros H; [injection H as <-; left; split; [reflexivity|intros ? []]|].
  assert (SK : ~ drives D c s -> terminal_source_in D l c = Ok src -> (src = TInt 0 /\ (forall s0, In s0 (s :: l) -> ~ drives D c s0)) \/ (exists s0 f, first_such (drives D c) (s :: l) s0 /\ source_fun s0 = Ok f /\ src = TFun f)).
  { intros Nd E. destruct (IH E) as [[-> X]|(s0 & f & (b & a & -> & P & Nb) & Ef & ->)]; [left; split; [reflexivity|]; intros s0 [<-|I]; [exact Nd|now apply X]|right]. exists s0, f. split; [|now split]. exists (s :: b), a. split; [reflexivity|]. split; [exact P|]. intros y [<-|I]; [exact Nd|now apply Nb]. }
  destruct (String.eqb_spec (so_type s) "TerminalSource") as [Et|Et]; [|apply SK; [intros [X _]; now destruct Et|exact H]].
  destruct (dc_nodes D) as [|nd nds] eqn:En; [apply SK; [intros (_ & e & r & _ & I); rewrite En in I; destruct I|exact H]|]. rewrite <- En in H. inv_bind H. destruct (so_elems s) as [|e0 es] eqn:Es; [discriminate|]. injection Ha as <-.
  destruct (existsb _ _) eqn:Ex.
  - inv_bind H. injection H as <-. right. exists s, a. split; [|now split]. exists [], l. split; [reflexivity|]. split; [|intros ? []]. split; [exact Et|]. exists e0, es. split; [exact Es|]. apply existsb_exists in Ex as ([x y] & I & E). apply andb_true_iff in E as [E1 E2]. apply Z.eqb_eq in E1. apply Z.eqb_eq in E2. cbn [fst snd] in *. now subst.
  - apply SK; [|exact H]. intros (_ & e & r & Ee & I). rewrite Es in Ee. injection Ee as <- <-. apply Bool.not_true_iff_false in Ex. apply Ex. apply existsb_exists. exists (e0, c). split; [exact I|]. cbn [fst snd]. now rewrite !Z.eqb_refl.
Qed.
Lemma connector_place c conn name k side : getConnectorAndCableInNode D c = Ok (conn, name, k, side) ->
  exists x far cb, ends_at D c x far /\ first_such (fun cb => In x (cb_elems cb)) (dc_cables D) cb /\ name = cb_name cb /\ position x (cb_elems cb) k /\ side = (if far then "L" else "S")%string /\
    first_such (fun m => cm_id m = if far then cb_end cb else cb_init cb) (dc_conns D) conn.
Proof.
  unfold getConnectorAndCableInNode. intros H. inv_bind H. inv_bind H. destruct a as [x far]. destruct a0 as [[cid nm] k']. cbn [fst snd] in *. destruct (connector_with D cid) as [m|] eqn:Ec; [|discriminate]. injection H as <- <- <- <-.
  unfold getConnectorAndCableOnElementSide in Ha0. destruct (find _ _) as [cb|] eqn:Ef; [|discriminate]. inv_bind Ha0. injection Ha0 as <- <- <-.
  exists x, far, cb. split; [now apply element_ends|]. split; [apply (find_first (fun c => memZ x (cb_elems c))); [intros; apply memZ_In|exact Ef]|]. split; [reflexivity|]. split; [now apply indexZ_Ok|]. split; [reflexivity|].
  unfold connector_with in Ec. destruct (find (fun c => (cm_id c =? _)%Z) _) as [m'|] eqn:Em; [|discriminate]. injection Ec as ->. revert Em. apply (find_first (fun c0 => (cm_id c0 =? (if far then cb_end cb else cb_init cb))%Z)). intros; apply Z.eqb_eq.
Qed.

(** *** Descriptions *)
Definition conn_of (p : place N) : @connection N := (pl_node p, pl_cond p, pl_conn p).
Definition entry_of (p : place N) (e : entry N) : Prop := en_node e = pl_node p /\ cm_conn (en_conn e) = pl_conn p /\ en_cond e = pl_cond p /\ en_src e = pl_src p.
(** the items under construction *)
Definition building (once : bool) (st : built N) (ps : list (place N)) (d : list (string * descr N)) : Prop :=
  NoDup (map fst d) /\ (forall name, In name (map fst d) <-> exists p, In p ps /\ pl_cable p = name) /\ forall name x, dget String.eqb name d = Some x -> cable_item once st ps name x.
Lemma sget_In {V} k (v : V) d : dget String.eqb k d = Some v -> In (k, v) d.
Proof. induction d as [|[k0 v0] d IH]; cbn [dget]; [discriminate|]. destruct (String.eqb_spec k k0) as [->|E]; [intros X; injection X as ->; now left|intros X; right; now apply IH]. Qed.
Lemma sget_None {V} k (d : list (string * V)) : dget String.eqb k d = None <-> ~ In k (map fst d).
Proof. induction d as [|[k0 v0] d IH]; cbn [dget map fst]; [split; [intros _ []|reflexivity]|]. destruct (String.eqb_spec k k0) as [->|E]; [split; [discriminate|intros X; destruct X; now left]|]. rewrite IH. split; [intros X [Y|Y]; [now destruct E|now apply X]|intros X Y; apply X; now right]. Qed.
Lemma sset_fst {V} k (v : V) d x : In x (map fst (dset String.eqb k v d)) <-> x = k \/ In x (map fst d).
Proof. induction d as [|[k0 v0] d IH]; cbn [dset map fst]; [split; [intros [->|[]]; now left|intros [->|[]]; now left]|]. destruct (String.eqb_spec k k0) as [->|E]; cbn [map fst In]; [|rewrite IH]; intuition congruence. Qed.
Lemma sset_NoDup {V} k (v : V) d : NoDup (map fst d) -> NoDup (map fst (dset String.eqb k v d)).
Proof. induction d as [|[k0 v0] d IH]; cbn [dset map fst]; intros ND; [constructor; [intros []|constructor]|]. inversion ND; subst. destruct (String.eqb_spec k k0) as [->|E]; cbn [map fst]; constructor; auto. rewrite sset_fst. intros [->|I]; [now destruct E|auto]. Qed.
Lemma on_cable_app name (ps qs : list (place N)) : on_cable name (ps ++ qs) = on_cable name ps ++ on_cable name qs.
Proof. apply filter_app. Qed.
Lemma firsts_snoc (ps : list (place N)) p : first_occurrences (ps ++ [p]) = if existsb (fun q => (pl_node q =? pl_node p)%Z) (first_occurrences ps) then first_occurrences ps else first_occurrences ps ++ [p].
Proof. unfold first_occurrences. rewrite fold_left_app. reflexivity. Qed.
Lemma existsb_map {A B} (f : B -> bool) (g : A -> B) l : existsb f (map g l) = existsb (fun a => f (g a)) l.
Proof. induction l as [|a l IH]; [reflexivity|]. cbn [map existsb]. now rewrite IH. Qed.
Lemma add_entry_spec st bs once (acc acc' : dacc) c e ps : add_entry D st bs once acc c = Ok (acc', e) -> building once st ps (fst acc) ->
  exists p, placed D c p /\ entry_of p e /\ building once st (ps ++ [p]) (fst acc') /\ getLevelOfCable (pl_cable p) bs = Ok (snd acc').
Proof.
  unfold add_entry. intros H (ND & KN & IT). inv_bind H. destruct a as [[[conn name] k] side]. inv_bind H. rename a into src. inv_bind H. rename a into level. inv_bind H. rename a into line. inv_bind H. destruct a as [ln [sd [bn conns]]]. apply OkI in H.
  set (conns' := if once && existsb (fun x : @connection N => (fst (fst x) =? c)%Z) conns then conns else conns ++ [(c, k, cm_conn conn)]) in H.
  injection H as <- <-. cbn [fst snd]. apply connector_place in Ha as PL. destruct PL as (x & far & cb & P1 & P2 & P3 & P4 & P5 & P6).
  set (p := Place c name k side (cm_conn conn) src). assert (Pp : placed D c p). { split; [reflexivity|]. exists x, far, cb, conn. do 6 (split; [assumption|]). split; [reflexivity|]. cbn [pl_src p]. now apply terminal_source_spec. }
  exists p. split; [exact Pp|]. split; [now repeat split|]. split; [|exact Ha1].
  assert (El : dget String.eqb name (bt_mtl st) = Some line) by (destruct (dget String.eqb name (bt_mtl st)); [now injection Ha2 as ->|discriminate]).
  split; [now apply sset_NoDup|]. split.
  - intros nm. rewrite sset_fst, KN. split.
    + intros [->|(q & I & E)]; [exists p; split; [apply in_or_app; right; now left|reflexivity]|exists q; split; [apply in_or_app; now left|exact E]].
    + intros (q & I & E). apply in_app_or in I as [I|[<-|[]]]; [right; now exists q|left; symmetry; exact E].
  - intros nm d Hd. rewrite sget_set in Hd. destruct (String.eqb_spec nm name) as [->|Ne].
    + injection Hd as <-. unfold cable_item. rewrite on_cable_app. replace (on_cable name [p]) with [p] by (unfold on_cable; cbn [filter pl_cable p]; now rewrite String.eqb_refl).
      destruct (dget String.eqb name (fst acc)) as [d0|] eqn:E0.
      * injection Ha3 as ->. destruct (IT name _ E0) as (p0 & rest & F1 & F2 & F3 & F4 & F5). cbn [fst snd] in *. exists p0, (rest ++ [p]). rewrite F1. split; [reflexivity|]. split; [exact F2|]. split; [exact F3|]. split; [exact F4|].
        unfold conns'. clear conns'. change (p0 :: rest ++ [p]) with ((p0 :: rest) ++ [p]). destruct once; cbn [andb].
        -- subst conns. rewrite existsb_map. unfold p. cbn [fst pl_node]. rewrite firsts_snoc. cbn [pl_node]. destruct (existsb _ (first_occurrences (p0 :: rest))); [reflexivity|]. now rewrite map_app.
        -- rewrite F5, map_app. reflexivity.
      * inv_bind Ha3. injection Ha3 as <- <- <- <-. assert (NO : on_cable name ps = []).
        { destruct (on_cable name ps) as [|q l] eqn:Eq; [reflexivity|]. exfalso. apply sget_None in E0. apply E0. apply KN. exists q. assert (I : In q (on_cable name ps)) by (rewrite Eq; now left). apply filter_In in I as [I E]. split; [exact I|now apply String.eqb_eq in E]. }
        rewrite NO. exists p, []. split; [reflexivity|]. cbn [fst snd]. split; [exact El|]. split; [match goal with X : of_option KeyError (dget String.eqb name (bt_bundle st)) = Ok _ |- _ => destruct (dget String.eqb name (bt_bundle st)); [now injection X as ->|discriminate] end|]. split; [reflexivity|]. unfold conns'. cbn [existsb]. rewrite andb_false_r. destruct once; reflexivity.
    + destruct (IT nm d Hd) as (p0 & rest & F1 & F). exists p0, rest. split; [|exact F]. rewrite on_cable_app, F1. unfold on_cable. cbn [filter pl_cable p]. destruct (String.eqb_spec name nm) as [E|_]; [now destruct Ne|]. now rewrite app_nil_r.
Qed.
Lemma add_entries_spec st bs once cs : forall (acc : dacc) acc' es ps, add_entries D st bs once acc cs = Ok (acc', es) -> building once st ps (fst acc) ->
  exists qs, Forall2 (placed D) cs qs /\ Forall2 entry_of qs es /\ building once st (ps ++ qs) (fst acc') /\
    (snd acc' = snd acc /\ qs = [] \/ exists l p, qs = l ++ [p] /\ getLevelOfCable (pl_cable p) bs = Ok (snd acc')).
Proof.
  induction cs as [|c cs IH]; intros acc acc' es ps H B; cbn [add_entries] in H; [injection H as <- <-; exists []; rewrite app_nil_r; repeat split; try constructor; auto; apply B|]. inv_bind H. inv_bind H. injection H as <- <-. destruct a as [acc1 e]. destruct a0 as [acc2 es']. cbn [fst snd] in *.
  destruct (add_entry_spec _ _ _ _ _ _ _ _ Ha B) as (p & P1 & P2 & P3 & P4). destruct (IH _ _ _ _ Ha0 P3) as (qs & Q1 & Q2 & Q3 & Q4). exists (p :: qs). split; [now constructor|]. split; [now constructor|]. split; [now rewrite <- app_assoc in Q3|].
  right. destruct Q4 as [[E ->]|(l & q & -> & L)]; [exists [], p; split; [reflexivity|congruence]|exists (p :: l), q; now split].
Qed.
Lemma add_rows_spec st bs once t : forall (acc : dacc) acc' ess ps, add_rows D st bs once acc t = Ok (acc', ess) -> building once st ps (fst acc) ->
  exists rows, Forall2 (Forall2 (placed D)) t rows /\ Forall2 (Forall2 entry_of) rows ess /\ building once st (ps ++ concat rows) (fst acc') /\
    (snd acc' = snd acc /\ concat rows = [] \/ exists l p, concat rows = l ++ [p] /\ getLevelOfCable (pl_cable p) bs = Ok (snd acc')).
Proof.
  induction t as [|cs t IH]; intros acc acc' ess ps H B; cbn [add_rows] in H; [injection H as <- <-; exists []; cbn [concat]; rewrite app_nil_r; repeat split; try constructor; auto; apply B|]. inv_bind H. inv_bind H. injection H as <- <-. destruct a as [acc1 es]. destruct a0 as [acc2 ess']. cbn [fst snd] in *.
  destruct (add_entries_spec _ _ _ _ _ _ _ _ Ha B) as (qs & Q1 & Q2 & Q3 & Q4). destruct (IH _ _ _ _ Ha0 Q3) as (rows & R1 & R2 & R3 & R4). exists (qs :: rows). split; [now constructor|]. split; [now constructor|]. cbn [concat]. split; [now rewrite <- app_assoc in R3|].
  destruct R4 as [[E ->]|(l & p & -> & L)]; [|right; exists (qs ++ l), p; split; [now rewrite app_assoc|exact L]]. rewrite app_nil_r. destruct Q4 as [[E' ->]|(l & p & -> & L)]; [left; split; [congruence|reflexivity]|right; exists l, p; split; [reflexivity|congruence]].
Qed.
Lemma building_nil once st : building once st [] [].
Proof. split; [constructor|]. split; [|discriminate]. intros name. split; [intros []|intros (p & [] & _)]. Qed.
Lemma building_description once st ps d : building once st ps d -> description once st ps (map snd d).
Proof.
  intros (ND & KN & IT). exists (map fst d). split; [exact ND|]. split; [exact KN|]. assert (G : forall d', (forall k x, In (k, x) d' -> In (k, x) d) -> Forall2 (cable_item once st ps) (map fst d') (map snd d')).
  { induction d' as [|[k x] d' IH]; intros H; [constructor|]. cbn [map fst snd]. constructor; [|apply IH; intros k0 x0 I; apply H; now right]. apply IT. specialize (H k x (or_introl eq_refl)). clear - ND H. induction d as [|[k0 x0] d IH]; [destruct H|]. cbn [map fst] in ND. inversion ND; subst. cbn [dget]. destruct (String.eqb_spec k k0) as [->|E]; [|destruct H as [H|H]; [injection H as -> ->; now destruct E|now apply IH]].
    destruct H as [H|H]; [now injection H as ->|]. exfalso. apply H2. apply in_map_iff. now exists (k0, x). }
  apply G. auto.
Qed.

(** *** Calls *)
Lemma single_calls p e (w w' : network N) : entry_of p e -> ground_single w e = Ok w' -> exists cs, single_call (pl_node p) (pl_conn p) (pl_src p) cs /\ do_calls w cs = Ok w'.
Proof.
  intros (E1 & E2 & E3 & E4) H. unfold ground_single in H. rewrite E1, E2, E4 in H. unfold do_calls.
  destruct (String.eqb_spec (cn_type (pl_conn p)) "Conn_short") as [T|T1]; [exists [GroundShort (pl_node p)]; split; [now constructor|]; cbn [foldM do_call]; now rewrite H|].
  destruct (String.eqb_spec (cn_type (pl_conn p)) "Conn_sRLC") as [T|T2]; cbn [orb] in H.
  { inv_bind H. destruct (cn_R (pl_conn p)) eqn:ER; [|discriminate]. injection Ha as <-. eexists. split; [apply sc_R; [now right|exact ER]|]. cbn [foldM do_call]. now rewrite H. }
  destruct (String.eqb_spec (cn_type (pl_conn p)) "Conn_R") as [T|T3].
  { inv_bind H. destruct (cn_R (pl_conn p)) eqn:ER; [|discriminate]. injection Ha as <-. eexists. split; [apply sc_R; [now left|exact ER]|]. cbn [foldM do_call]. now rewrite H. }
  destruct (String.eqb_spec (cn_type (pl_conn p)) "Conn_C") as [T|T4].
  { inv_bind H. destruct (cn_C (pl_conn p)) eqn:ER; [|discriminate]. injection Ha as <-. eexists. split; [apply sc_C; [exact T|exact ER]|]. cbn [foldM do_call]. now rewrite H. }
  destruct (String.eqb_spec (cn_type (pl_conn p)) "Conn_LCpRs") as [T|T5].
  { inv_bind H. inv_bind H. inv_bind H. destruct (cn_R (pl_conn p)) eqn:ER; [|discriminate]. destruct (cn_L (pl_conn p)) eqn:EL; [|discriminate]. destruct (cn_C (pl_conn p)) eqn:EC; [|discriminate]. injection Ha as <-. injection Ha0 as <-. injection Ha1 as <-. eexists. split; [apply sc_LCpRs; eassumption|]. cbn [foldM do_call]. now rewrite H. }
  exists []. split; [apply sc_open; unfold grounding, resistive; tauto|exact H].
Qed.
Lemma vec_or_at (v : option (vec N)) c d x : vec_or v c d = Ok x -> entry_at v c d x.
Proof. unfold vec_or, entry_at. destruct v as [l|]; [|intros H; apply OkI in H; now symmetry]. unfold py_get. destruct (nth_error l c); [intros H; apply OkI in H; now subst|discriminate]. Qed.
Lemma F2_nth_r {A B} (R : A -> B -> Prop) l l' i b : Forall2 R l l' -> nth_error l' i = Some b -> exists a, nth_error l i = Some a /\ R a b.
Proof. intros F. revert i. induction F; intros [|i] E; try discriminate; [injection E as <-; eexists; split; [reflexivity|assumption]|now apply IHF]. Qed.
Lemma multi_calls ps es p e (w w' : network N) : Forall2 entry_of ps es -> entry_of p e -> ground_multi es w e = Ok w' ->
  exists cs, (exists x, nth_error ps (pl_cond p) = Some x /\ multi_call (pl_node p) (pl_conn x) (pl_cond p) (pl_src x) cs) /\ do_calls w cs = Ok w'.
Proof.
  intros F (E1 & E2 & E3 & E4) H. unfold ground_multi in H. rewrite E1, E3 in H. inv_bind H. unfold py_get in Ha. destruct (nth_error es (pl_cond p)) as [x'|] eqn:Ex; [|discriminate]. injection Ha as ->. destruct (F2_nth_r _ _ _ _ _ F Ex) as (x & Ep & (X1 & X2 & X3 & X4)). rewrite X2, X4 in H. unfold do_calls.
  assert (G : exists cs, multi_call (pl_node p) (pl_conn x) (pl_cond p) (pl_src x) cs /\ foldM do_call cs w = Ok w'); [|destruct G as (cs & M & C); exists cs; split; [now exists x|exact C]].
  destruct (String.eqb_spec (cn_type (pl_conn x)) "MultiwireConnector") as [T|T]; cbn [negb] in H; [|exists []; split; [now apply mc_open|exact H]].
  inv_bind H. inv_bind H. inv_bind H. inv_bind H. apply vec_or_at in Ha. apply vec_or_at in Ha0. apply vec_or_at in Ha1. unfold py_get in Ha2. destruct (nth_error (cn_conns (pl_conn x)) (pl_cond p)) as [ty|] eqn:Ety; [|discriminate]. apply OkI in Ha2. subst a3.
  assert (G : forall cs, ((ty = "Conn_short"%string /\ cs = [GroundShort (pl_node p)]) \/ (resistive ty /\ cs = [GroundR (pl_node p) a0 (pl_src x)]) \/ (ty = "Conn_C"%string /\ cs = [GroundC (pl_node p) a1 (pl_src x)]) \/
     (ty = "Conn_LCpRs"%string /\ cs = [GroundLCpRs (pl_node p) a0 a2 a1 (pl_src x)]) \/ (~ grounding ty /\ cs = [])) -> foldM do_call cs w = Ok w' -> exists cs, multi_call (pl_node p) (pl_conn x) (pl_cond p) (pl_src x) cs /\ foldM do_call cs w = Ok w').
  { intros cs Hc Hw. exists cs. split; [eapply mc_call; eassumption|exact Hw]. }
  destruct (String.eqb_spec ty "Conn_short") as [->|T1]; [eapply G; [left; split; reflexivity|cbn [foldM do_call]; now rewrite H]|].
  destruct (String.eqb_spec ty "Conn_R") as [->|T2]; cbn [orb] in H; [eapply G; [right; left; split; [now left|reflexivity]|cbn [foldM do_call]; now rewrite H]|].
  destruct (String.eqb_spec ty "Conn_sRLC") as [->|T3]; [eapply G; [right; left; split; [now right|reflexivity]|cbn [foldM do_call]; now rewrite H]|].
  destruct (String.eqb_spec ty "Conn_LCpRs") as [->|T4]; [eapply G; [right; right; right; left; split; reflexivity|cbn [foldM do_call]; now rewrite H]|].
  destruct (String.eqb_spec ty "Conn_C") as [->|T5]; [eapply G; [right; right; left; split; reflexivity|cbn [foldM do_call]; now rewrite H]|].
  eapply G; [right; right; right; right; split; [unfold grounding, resistive; tauto|reflexivity]|exact H].
Qed.
Lemma do_calls_app (w w1 w2 : network N) cs cs' : do_calls w cs = Ok w1 -> do_calls w1 cs' = Ok w2 -> do_calls w (cs ++ cs') = Ok w2.
Proof. unfold do_calls. rewrite foldM_app. intros -> H. exact H. Qed.
Lemma row_grounds ps es (w w' : network N) : Forall2 entry_of ps es -> ground_row w es = Ok w' -> exists cs, row_calls ps cs /\ do_calls w cs = Ok w'.
Proof.
  intros F H. destruct F as [|p e ps es He F]; [exists []; split; [reflexivity|exact H]|]. destruct F as [|p1 e1 ps es He1 F]; [exact (single_calls p e w w' He H)|].
  cbn [ground_row] in H. cbn [row_calls]. assert (F0 : Forall2 entry_of (p :: p1 :: ps) (e :: e1 :: es)) by (constructor; [assumption|constructor; assumption]). revert F0 H. generalize (p :: p1 :: ps) (e :: e1 :: es). clear. intros ps es F0.
  assert (G : forall qs fs w, Forall2 entry_of qs fs -> foldM (ground_multi es) fs w = Ok w' -> exists css, Forall2 (fun p cs => exists x, nth_error ps (pl_cond p) = Some x /\ multi_call (pl_node p) (pl_conn x) (pl_cond p) (pl_src x) cs) qs css /\ do_calls w (concat css) = Ok w').
  { intros qs fs w0 F. revert w0. induction F as [|p e qs fs He F IH]; intros w0 H; cbn [foldM] in H; [exists []; split; [constructor|exact H]|]. inv_bind H. destruct (multi_calls ps es p e _ _ F0 He Ha) as (cs & M & C). destruct (IH _ H) as (css & M' & C'). exists (cs :: css). split; [now constructor|]. cbn [concat]. eapply do_calls_app; eassumption. }
  intros H. destruct (G ps es w F0 H) as (css & M & C). exists (concat css). split; [now exists css|exact C].
Qed.
Lemma rows_ground rows ess : Forall2 (Forall2 entry_of) rows ess -> forall (w w' : network N), foldM ground_row ess w = Ok w' -> exists css, Forall2 row_calls rows css /\ do_calls w (concat css) = Ok w'.
Proof.
  induction 1 as [|ps es rows ess F _ IH]; intros w w' H; cbn [foldM] in H; [exists []; split; [constructor|exact H]|]. inv_bind H. destruct (row_grounds _ _ _ _ F Ha) as (cs & M & C). destruct (IH _ _ H) as (css & M' & C'). exists (cs :: css). split; [now constructor|]. cbn [concat]. eapply do_calls_app; eassumption.
Qed.
Lemma level_in_Some name (lls : list (list (mtl N))) : forall k lev, level_in name lls k = Some lev -> exists j ls, lev = k + j /\ nth_error lls j = Some ls /\ has_line name ls /\
  forall i ls', i < j -> nth_error lls i = Some ls' -> ~ has_line name ls'.
Proof.
  induction lls as [|ls lls IH]; intros k lev H; cbn [level_in] in H; [discriminate|]. destruct (existsb _ ls) eqn:E.
  - injection H as <-. exists 0, ls. split; [lia|]. split; [reflexivity|]. split; [|intros i ls' Hi; lia].
    apply existsb_exists in E as (m & Hm & En). apply String.eqb_eq in En. now exists m.
  - apply IH in H as (j & ls' & -> & Hn & Hl & Hb). exists (S j), ls'. split; [lia|]. split; [exact Hn|]. split; [exact Hl|].
    intros [|i] l Hi El; cbn [nth_error] in El; [|now apply (Hb i l); [lia|]]. injection El as <-. intros (m & Hm & En).
    assert (existsb (fun m => String.eqb (m_name m) name) ls = true) as X by (apply existsb_exists; exists m; split; [exact Hm|now apply String.eqb_eq]). congruence.
Qed.
Lemma level_in_None name (lls : list (list (mtl N))) : forall k, level_in name lls k = None -> forall ls, In ls lls -> ~ has_line name ls.
Proof.
  induction lls as [|l lls IH]; intros k H ls Hl; [destruct Hl|]. cbn [level_in] in H. destruct (existsb _ l) eqn:E; [discriminate|].
  destruct Hl as [<-|Hl]; [|exact (IH _ H ls Hl)]. intros (m & Hm & En).
  assert (existsb (fun m => String.eqb (m_name m) name) l = true) as X by (apply existsb_exists; exists m; split; [exact Hm|now apply String.eqb_eq]). congruence.
Qed.
Lemma level_of_cable name (bs : list (bundle N)) lev : getLevelOfCable name bs = Ok lev -> level_of bs name lev.
Proof.
  induction bs as [|b bs IH]; intros H; cbn [getLevelOfCable] in H; [discriminate|]. destruct (level_in name (b_levels b) 0) as [k|] eqn:E.
  - injection H as <-. apply level_in_Some in E as (j & ls & -> & Hn & Hl & Hb). exists b, ls. split; [|now repeat split].
    exists [], bs. split; [reflexivity|]. split; [exists ls; split; [exact (nth_error_In _ _ Hn)|exact Hl]|]. intros a [].
  - destruct (IH H) as (b' & ls & (bf & af & -> & Hp & Hf) & R). exists b', ls. split; [|exact R]. exists (b :: bf), af. split; [reflexivity|]. split; [exact Hp|].
    intros a [<-|Ha]; [|exact (Hf a Ha)]. intros (l & Hl & Hh). exact (level_in_None _ _ _ E l Hl Hh).
Qed.
Lemma last_of bs (ps : list (place N)) lev : (ps = [] /\ lev = 0) \/ (exists l p, ps = l ++ [p] /\ getLevelOfCable (pl_cable p) bs = Ok lev) -> last_level bs ps lev.
Proof. intros [H|(l & p & E & H)]; [now left|]. right. exists l, p. split; [exact E|]. now apply level_of_cable. Qed.
Lemma termination_spec st bs t lev (w : network N) : termination_network D st bs t = Ok (lev, w) ->
  exists rows ds w0 css, Forall2 (Forall2 (placed D)) t rows /\ description false st (concat rows) ds /\ network_new ds = Ok w0 /\ Forall2 row_calls rows css /\ do_calls w0 (concat css) = Ok w /\ last_level bs (concat rows) lev.
Proof.
  unfold termination_network. intros H. inv_bind H. inv_bind H. inv_bind H. apply OkI in H. injection H as <- <-. destruct a as [acc ess]. cbn [fst snd] in *. destruct (add_rows_spec _ _ _ _ _ _ _ _ Ha (building_nil false st)) as (rows & R1 & R2 & R3 & R4). destruct (rows_ground _ _ R2 _ _ Ha1) as (css & M & C).
  exists rows, (map snd (fst acc)), a0, css. split; [exact R1|]. split; [exact (building_description _ _ _ _ R3)|]. split; [exact Ha0|]. split; [exact M|]. split; [exact C|]. apply last_of. destruct R4 as [[E X]|X]; [left; now split|right; exact X].
Qed.
(** *** Junctions *)
Lemma junction_brings p e R : entry_of p e -> junction_R e = Ok R -> brings p R.
Proof.
  intros (E1 & E2 & E3 & E4) H. unfold junction_R in H. rewrite E2, E3 in H.
  destruct (String.eqb_spec (cn_type (pl_conn p)) "Conn_sRLC") as [T|T1]; cbn [orb] in H.
  { inv_bind H. apply OkI in H. subst R. destruct (cn_R (pl_conn p)) eqn:ER; [|discriminate]. injection Ha as <-. apply br_R; [now right|exact ER]. }
  destruct (String.eqb_spec (cn_type (pl_conn p)) "Conn_R") as [T|T2].
  { inv_bind H. apply OkI in H. subst R. destruct (cn_R (pl_conn p)) eqn:ER; [|discriminate]. injection Ha as <-. apply br_R; [now left|exact ER]. }
  destruct (String.eqb_spec (cn_type (pl_conn p)) "MultiwireConnector") as [T|T3]; [|apply OkI in H; subst R; apply br_other; [unfold resistive; tauto|exact T3]].
  inv_bind H. unfold py_get in Ha. destruct (nth_error (cn_conns (pl_conn p)) (pl_cond p)) as [ty|] eqn:Ety; [|discriminate]. apply OkI in Ha. subst a.
  destruct (String.eqb_spec ty "Conn_R") as [Y|Y1]; cbn [orb] in H; [|destruct (String.eqb_spec ty "Conn_sRLC") as [Y|Y2]]; try (apply OkI in H; subst R; eapply br_multi_other; [exact T|exact Ety|unfold resistive; tauto]);
  (inv_bind H; inv_bind H; apply OkI in H; subst R; destruct (cn_Rv (pl_conn p)) as [v|] eqn:Ev; [|discriminate]; injection Ha as <-; unfold py_get in Ha0; destruct (nth_error v (pl_cond p)) as [r|] eqn:Er; [|discriminate]; apply OkI in Ha0; subst; eapply br_multi; [exact T|exact Ety|unfold resistive; tauto|exact Ev|exact Er]).
Qed.
Lemma row_joins ps es (w w' : network N) : Forall2 entry_of ps es -> join_row w es = Ok w' -> exists cs, joined_by ps cs /\ do_calls w cs = Ok w'.
Proof.
  intros F H. unfold join_row in H. destruct F as [|p e ps es He F]; [discriminate|]. destruct F as [|p1 e1 ps es He1 F]; [discriminate|]. destruct F as [|]; [|discriminate]. inv_bind H. inv_bind H.
  pose proof (junction_brings _ _ _ He Ha) as B0. pose proof (junction_brings _ _ _ He1 Ha0) as B1. destruct He as (E1 & _ & _ & E4), He1 as (F1 & _ & _ & F4). rewrite E1, E4, F1, F4 in H.
  eexists. split; [exists p, p1, a, a0; split; [reflexivity|]; split; [exact B0|]; split; [exact B1|reflexivity]|]. unfold do_calls. cbn [foldM]. destruct (neqb (nadd a0 a) n0); cbn [do_call]; now rewrite H.
Qed.
Lemma rows_join rows ess : Forall2 (Forall2 entry_of) rows ess -> forall (w w' : network N), foldM join_row ess w = Ok w' -> exists css, Forall2 joined_by rows css /\ do_calls w (concat css) = Ok w'.
Proof.
  induction 1 as [|ps es rows ess F _ IH]; intros w w' H; cbn [foldM] in H; [exists []; split; [constructor|exact H]|]. inv_bind H. destruct (row_joins _ _ _ _ F Ha) as (cs & M & C). destruct (IH _ _ H) as (css & M' & C'). exists (cs :: css). split; [now constructor|]. cbn [concat]. eapply do_calls_app; eassumption.
Qed.
Lemma junction_spec st bs t lev (w : network N) : junction_network D st bs t = Ok (lev, w) ->
  exists rows ds w0 css, Forall2 (Forall2 (placed D)) t rows /\ description true st (concat rows) ds /\ network_new ds = Ok w0 /\ Forall2 joined_by rows css /\ do_calls w0 (concat css) = Ok w /\ last_level bs (concat rows) lev.
Proof.
  unfold junction_network. intros H. inv_bind H. inv_bind H. inv_bind H. apply OkI in H. injection H as <- <-. destruct a as [acc ess]. cbn [fst snd] in *. destruct (add_rows_spec _ _ _ _ _ _ _ _ Ha (building_nil true st)) as (rows & R1 & R2 & R3 & R4). destruct (rows_join _ _ R2 _ _ Ha1) as (css & M & C).
  exists rows, (map snd (fst acc)), a0, css. split; [exact R1|]. split; [exact (building_description _ _ _ _ R3)|]. split; [exact Ha0|]. split; [exact M|]. split; [exact C|]. apply last_of. destruct R4 as [[E X]|X]; [left; now split|right; exact X].
Qed.
End Places.
