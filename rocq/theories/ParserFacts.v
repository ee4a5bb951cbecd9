(** Facts about the parser model: the graph of nested elements, conductor numbers, ends of lines. *)
From Coq Require Import String List Arith ZArith Lia Bool Permutation.
From Verif Require Import Num Py Arr ArrFacts Utils Dispersive Line Bundle Networks Mtln SpecLine SpecBundle BundleFacts BundleMore RecordFacts Parser SpecParser.
Import ListNotations.
Local Open Scope nat_scope.

(** *** lists and lookups *)
Lemma memZ_In x l : memZ x l = true <-> In x l.
Proof. unfold memZ. rewrite existsb_exists. split; [intros (y & I & E); apply Z.eqb_eq in E; now subst|intros I; exists x; split; [exact I|apply Z.eqb_refl]]. Qed.
Lemma memZ_not x l : memZ x l = false <-> ~ In x l.
Proof. rewrite <- memZ_In. destruct (memZ x l); split; congruence. Qed.
Lemma indexZ_Ok x l k : indexZ x l = Ok k <-> position x l k.
Proof.
  revert k. induction l as [|y l IH]; intros k; cbn [indexZ].
  - split; [discriminate|]. intros [E _]. destruct k; discriminate E.
  - destruct (Z.eqb_spec x y) as [->|Ne].
    + split; [intros E; injection E as <-; split; [reflexivity|intros j Hj; lia]|]. intros [E M]. destruct k as [|k]; [reflexivity|]. exfalso. exact (M 0 (Nat.lt_0_succ k) eq_refl).
    + split.
      * intros E. destruct (indexZ x l) as [k'|]; [|discriminate E]. injection E as <-. destruct (proj1 (IH k') eq_refl) as [A B]. split; [exact A|]. intros [|j] Hj; [cbn; congruence|]. apply B. lia.
      * intros [E M]. destruct k as [|k]; [cbn in E; congruence|]. rewrite (proj2 (IH k)); [reflexivity|]. split; [exact E|]. intros j Hj. exact (M (S j) (proj1 (Nat.succ_lt_mono _ _) Hj)).
Qed.
Lemma indexZ_In x l : In x l -> exists k, indexZ x l = Ok k.
Proof. induction l as [|y l IH]; [intros []|]. cbn [indexZ]. destruct (Z.eqb_spec x y); [eauto|]. intros [->|I]; [congruence|]. destruct (IH I) as [k ->]. eexists; reflexivity. Qed.
Lemma indexZ_Err x l : ~ In x l -> indexZ x l = Err ValueError.
Proof. induction l as [|y l IH]; [reflexivity|]. cbn [indexZ]. intros H. destruct (Z.eqb_spec x y) as [->|]; [exfalso; apply H; now left|]. rewrite IH by (intros I; apply H; now right). reflexivity. Qed.
Lemma dget_dset_eq {V} (k : Z) (v : V) d : dget Z.eqb k (dset Z.eqb k v d) = Some v.
Proof. induction d as [|[k' v'] d IH]; cbn [dset dget]; [now rewrite Z.eqb_refl|]. destruct (Z.eqb_spec k k') as [->|Ne]; cbn [dget]; [now rewrite Z.eqb_refl|]. destruct (Z.eqb_spec k k'); [congruence|exact IH]. Qed.
Lemma dget_dset_neq {V} (k k0 : Z) (v : V) d : k <> k0 -> dget Z.eqb k (dset Z.eqb k0 v d) = dget Z.eqb k d.
Proof.
  intros Ne. induction d as [|[k' v'] d IH]; cbn [dset dget]; [destruct (Z.eqb_spec k k0); congruence|].
  destruct (Z.eqb_spec k0 k') as [->|Ne']; cbn [dget]; [destruct (Z.eqb_spec k k'); congruence|]. destruct (Z.eqb_spec k k'); [reflexivity|exact IH].
Qed.

Lemma bind_assoc' {A B C} (r : res A) (f : A -> res B) (g : B -> res C) : (b <- (a <- r ;; f a) ;; g b) = (a <- r ;; b <- f a ;; g b).
Proof. destruct r; reflexivity. Qed.
Lemma bind_ext' {A B} (r : res A) (f g : A -> res B) : (forall a, f a = g a) -> bind r f = bind r g.
Proof. intros H. destruct r; [apply H|reflexivity]. Qed.
(** *** induction on nesting descriptions *)
Lemma nested_ind' (P : nested -> Prop) : (forall ids, P (NStr ids)) -> (forall kvs, (forall x sub, In (x, sub) kvs -> P sub) -> P (NDict kvs)) -> forall t, P t.
Proof.
  intros HS HD. fix F 1. intros [ids|kvs]; [apply HS|]. apply HD. induction kvs as [|[y s] kvs IH]; [intros x sub []|]. intros x sub [E|I]; [|exact (IH x sub I)]. injection E as _ <-. apply F.
Qed.
(** elements in the order of the text, with levels; nested pairs *)
Fixpoint flat (t : nested) (lev : nat) : list (Z * nat) :=
  match t with
  | NStr ids => map (fun x => (x, lev)) ids
  | NDict kvs => (fix go kvs := match kvs with [] => [] | (x, sub) :: kvs' => (x, lev) :: flat sub (S lev) ++ go kvs' end) kvs
  end.
Fixpoint pairs (p : Z) (t : nested) : list (Z * Z) :=
  match t with
  | NStr ids => map (fun x => (p, x)) ids
  | NDict kvs => (fix go kvs := match kvs with [] => [] | (x, sub) :: kvs' => (p, x) :: pairs x sub ++ go kvs' end) kvs
  end.
Definition root_pairs (t : nested) : list (Z * Z) := match t with NStr _ => [] | NDict kvs => flat_map (fun kv => pairs (fst kv) (snd kv)) kvs end.
Lemma flat_dict kvs lev : flat (NDict kvs) lev = flat_map (fun kv => (fst kv, lev) :: flat (snd kv) (S lev)) kvs.
Proof. induction kvs as [|[x s] kvs IH]; [reflexivity|]. cbn [flat flat_map fst snd] in *. rewrite IH. reflexivity. Qed.
Lemma pairs_dict p kvs : pairs p (NDict kvs) = flat_map (fun kv => (p, fst kv) :: pairs (fst kv) (snd kv)) kvs.
Proof. induction kvs as [|[x s] kvs IH]; [reflexivity|]. cbn [pairs flat_map fst snd] in *. rewrite IH. reflexivity. Qed.
Lemma elements_dict kvs : elements (NDict kvs) = flat_map (fun kv => fst kv :: elements (snd kv)) kvs.
Proof. induction kvs as [|[x s] kvs IH]; [reflexivity|]. cbn [elements flat_map fst snd] in *. rewrite IH. reflexivity. Qed.
Lemma flat_names t : forall lev, map fst (flat t lev) = elements t.
Proof.
  induction t as [ids|kvs IH] using nested_ind'; intros lev.
  - cbn [flat elements]. rewrite map_map. cbn [fst]. apply map_id.
  - rewrite flat_dict, elements_dict. induction kvs as [|[x s] kvs IHk]; [reflexivity|]. cbn [flat_map map fst snd app]. rewrite !map_app, IHk by (intros y sub I; apply (IH y sub); now right).
    rewrite (IH x s (or_introl eq_refl)). reflexivity.
Qed.
Lemma listed_flat t : forall lev x d, In (x, d) (flat t lev) <-> lev <= d /\ listed t (d - lev) x.
Proof.
  induction t as [ids|kvs IH] using nested_ind'; intros lev x d.
  - cbn [flat]. rewrite in_map_iff. split; [intros (y & E & I); injection E as -> ->; split; [lia|]; rewrite Nat.sub_diag; now constructor|]. intros [Le L]. inversion L; subst. exists x. split; [f_equal; lia|assumption].
  - rewrite flat_dict, in_flat_map. split.
    + intros ([y s] & I & [E|F]); cbn [fst snd] in *; [injection E as -> ->; split; [lia|]; rewrite Nat.sub_diag; now apply (listed_key kvs x s)|].
      apply (IH y s I) in F as [Le L]. split; [lia|]. replace (d - lev) with (S (d - S lev)) by lia. exact (listed_sub kvs y s _ _ I L).
    + intros [Le L]. inversion L as [|k0 x0 sub I EK ED EX|k0 y sub d0 x0 I L' EK ED EX]; subst.
      * exists (x, sub). split; [exact I|]. left. cbn [fst]. f_equal. lia.
      * exists (y, sub). split; [exact I|]. right. cbn [snd]. apply (IH y sub I). split; [lia|]. replace (d - S lev) with d0 by lia. exact L'.
Qed.
Lemma pairs_spec t : forall p x y, In (x, y) (pairs p t) <-> (x = p /\ listed t 0 y) \/ nests t x y.
Proof.
  induction t as [ids|kvs IH] using nested_ind'; intros p x y.
  - cbn [pairs]. rewrite in_map_iff. split; [intros (z & E & I); injection E as <- <-; left; split; [reflexivity|now constructor]|]. intros [[-> L]|Ns]; [|inversion Ns]. inversion L; subst. now exists y.
  - rewrite pairs_dict, in_flat_map. split.
    + intros ([z s] & I & [E|F]); cbn [fst snd] in *; [injection E as <- <-; left; split; [reflexivity|now apply (listed_key kvs z s)]|].
      apply (IH z s I) in F as [[-> L]|Ns]; right; [exact (nests_here kvs z s y I L)|exact (nests_sub kvs z s x y I Ns)].
    + intros [[-> L]|Ns].
      * inversion L as [|k0 x0 sub I EK ED EX|]; subst. exists (y, sub). split; [exact I|now left].
      * inversion Ns as [k0 x0 sub y0 I L EK EX EY|k0 z sub x0 y0 I Ns' EK EX EY]; subst.
        -- exists (x, sub). split; [exact I|]. right. cbn [fst snd]. apply (IH x sub I). left. now split.
        -- exists (z, sub). split; [exact I|]. right. cbn [fst snd]. apply (IH z sub I). now right.
Qed.
Lemma root_pairs_spec t x y : In (x, y) (root_pairs t) <-> nests t x y.
Proof.
  destruct t as [ids|kvs]; cbn [root_pairs]; [split; [intros []|intros H; inversion H]|]. rewrite in_flat_map. split.
  - intros ([z s] & I & F). cbn [fst snd] in F. apply pairs_spec in F as [[-> L]|Ns]; [exact (nests_here kvs z s y I L)|exact (nests_sub kvs z s x y I Ns)].
  - intros Ns. inversion Ns as [k0 x0 sub y0 I L EK EX EY|k0 z sub x0 y0 I Ns' EK EX EY]; subst; [exists (x, sub)|exists (z, sub)]; (split; [exact I|]); cbn [fst snd]; apply pairs_spec; [left; now split|now right].
Qed.
Lemma pairs_targets t : forall p, map snd (pairs p t) = elements t.
Proof.
  induction t as [ids|kvs IH] using nested_ind'; intros p.
  - cbn [pairs elements]. rewrite map_map. cbn [snd]. apply map_id.
  - rewrite pairs_dict, elements_dict. induction kvs as [|[x s] kvs IHk]; [reflexivity|]. cbn [flat_map map fst snd app]. rewrite !map_app, IHk by (intros y sub I; apply (IH y sub); now right). rewrite (IH x s (or_introl eq_refl)). reflexivity.
Qed.

Lemma ge0 d (P : Prop) : (0 <= d /\ P) <-> P.
Proof. split; [tauto|]. intros H. split; [lia|exact H]. Qed.
Lemma F2_In_l {A B} (R : A -> B -> Prop) l1 l2 a : Forall2 R l1 l2 -> In a l1 -> exists b, In b l2 /\ R a b.
Proof. induction 1 as [|x y l1 l2 H F IH]; [intros []|]. intros [->|I]; [exists y; split; [now left|exact H]|]. destruct (IH I) as (b & I' & E). exists b. split; [now right|exact E]. Qed.
Lemma F2_In_r {A B} (R : A -> B -> Prop) l1 l2 b : Forall2 R l1 l2 -> In b l2 -> exists a, In a l1 /\ R a b.
Proof. induction 1 as [|x y l1 l2 H F IH]; [intros []|]. intros [->|I]; [exists x; split; [now left|exact H]|]. destruct (IH I) as (a & I' & E). exists a. split; [now right|exact E]. Qed.
(** *** the graph built *)
Section Graph.
Context {N : num}.
Variable D : doc N.
Notation zt := (option (ratmodel N)).
Definition zt_from (x : Z) (z : zt) : Prop := exists name, name_of D x = Ok name /\ z = getTransferImpedance D name.
Definition named (vs : list vertex) (i : nat) (x : Z) : Prop := exists v, nth_error vs i = Some v /\ v_name v = x.
Definition edge_is (vs : list vertex) (e : nat * nat * zt) (xy : Z * Z) : Prop :=
  named vs (fst (fst e)) (fst xy) /\ named vs (snd (fst e)) (snd xy) /\ zt_from (fst xy) (snd e).
Definition grows (g g' : graph N) (vs : list (Z * nat)) (es : list (Z * Z)) : Prop :=
  exists nv ne, g_vs g' = g_vs g ++ nv /\ map (fun v => (v_name v, v_level v)) nv = vs /\ (forall v, In v nv -> name_of D (v_name v) = Ok (v_cable v)) /\
    g_es g' = g_es g ++ ne /\ Forall2 (edge_is (g_vs g')) ne es.
Lemma named_app vs ws i x : named vs i x -> named (vs ++ ws) i x.
Proof. intros (v & E & Ex). exists v. split; [|exact Ex]. rewrite nth_error_app1; [exact E|]. apply nth_error_Some. congruence. Qed.
Lemma edge_is_app vs ws e xy : edge_is vs e xy -> edge_is (vs ++ ws) e xy.
Proof. intros (A & B & C). split; [now apply named_app|]. split; [now apply named_app|exact C]. Qed.
Lemma grows_refl g : grows g g [] [].
Proof. exists [], []. rewrite !app_nil_r. repeat split; [intros v []|constructor]. Qed.
Lemma grows_trans g1 g2 g3 v1 e1 v2 e2 : grows g1 g2 v1 e1 -> grows g2 g3 v2 e2 -> grows g1 g3 (v1 ++ v2) (e1 ++ e2).
Proof.
  intros (nv & ne & A1 & A2 & A3 & A4 & A5) (nv' & ne' & B1 & B2 & B3 & B4 & B5). exists (nv ++ nv'), (ne ++ ne'). split; [rewrite B1, A1; now rewrite app_assoc|]. split; [rewrite map_app, A2, B2; reflexivity|].
  split; [intros v I; apply in_app_or in I as [I|I]; [now apply A3|now apply B3]|]. split; [rewrite B4, A4; now rewrite app_assoc|]. apply Forall2_app; [|exact B5].
  rewrite B1. clear - A5. induction A5; constructor; [now apply edge_is_app|assumption].
Qed.
Lemma vindex_Ok x vs i : vindex x vs = Ok i -> named vs i x.
Proof.
  revert i. induction vs as [|v vs IH]; intros i H; [discriminate|]. cbn [vindex] in H. destruct (Z.eqb_spec (v_name v) x) as [E|Ne]; [injection H as <-; exists v; now split|].
  destruct (vindex x vs) as [k|]; [|discriminate]. injection H as <-. destruct (IH k eq_refl) as (w & A & B). exists w. now split.
Qed.
Lemma vindex_In x vs : In x (map v_name vs) -> exists i, vindex x vs = Ok i.
Proof. induction vs as [|v vs IH]; [intros []|]. cbn [vindex map]. intros [E|I]; [rewrite E, Z.eqb_refl; eauto|]. destruct (v_name v =? x)%Z; [eauto|]. destruct (IH I) as [k ->]. eexists; reflexivity. Qed.
Lemma add_vertex_grows g x lev g' : add_vertex D g x lev = Ok g' -> grows g g' [(x, lev)] [].
Proof. unfold add_vertex. intros H. inv_bind H. injection H as <-. exists [Vertex x lev a], []. cbn [g_vs g_es]. rewrite app_nil_r. split; [reflexivity|]. split; [reflexivity|]. split; [intros v [<-|[]]; exact Ha|]. split; [reflexivity|constructor]. Qed.
Lemma add_edge_grows g x y n g' : name_of D x = Ok n -> add_edge g x y (getTransferImpedance D n) = Ok g' -> grows g g' [] [(x, y)].
Proof.
  unfold add_edge. intros Hn H. inv_bind H. inv_bind H. injection H as <-. exists [], [(a, a0, getTransferImpedance D n)]. cbn [g_vs g_es]. rewrite app_nil_r. split; [reflexivity|]. split; [reflexivity|]. split; [intros v []|]. split; [reflexivity|].
  constructor; [|constructor]. split; [exact (vindex_Ok _ _ _ Ha)|]. split; [exact (vindex_Ok _ _ _ Ha0)|]. exists n. now split.
Qed.
Lemma add_dict g p kvs lev : add_to_graph D g p (NDict kvs) lev =
  foldM (fun g kv => g1 <- add_vertex D g (fst kv) lev ;; pn <- name_of D p ;; g2 <- add_edge g1 p (fst kv) (getTransferImpedance D pn) ;; add_to_graph D g2 (fst kv) (snd kv) (S lev)) kvs g.
Proof.
  revert g. induction kvs as [|[x s] kvs IH]; intros g; [reflexivity|]. cbn [add_to_graph foldM fst snd]. rewrite bind_assoc'. apply bind_ext'. intros g1. rewrite bind_assoc'. apply bind_ext'. intros pn. rewrite bind_assoc'. apply bind_ext'. intros g2.
  replace (match s with NStr ids => add_leaves D g2 x ids (S lev) | NDict _ => add_to_graph D g2 x s (S lev) end) with (add_to_graph D g2 x s (S lev)) by (destruct s; reflexivity).
  apply bind_ext'. intros g3. apply IH.
Qed.
Lemma add_leaves_grows ids : forall g p lev g', add_leaves D g p ids lev = Ok g' -> grows g g' (map (fun x => (x, lev)) ids) (map (fun x => (p, x)) ids).
Proof.
  unfold add_leaves. induction ids as [|x ids IH]; intros g p lev g' H; [injection H as <-; apply grows_refl|]. cbn [foldM] in H. inv_bind H. inv_bind Ha. inv_bind Ha. cbn [map].
  apply (grows_trans g a g' [(x, lev)] [(p, x)]); [|now apply IH]. apply (grows_trans g a0 a [(x, lev)] [] [] [(p, x)]); [now apply add_vertex_grows|now apply (add_edge_grows a0 p x a1)].
Qed.
Lemma add_to_graph_grows t : forall g p lev g', add_to_graph D g p t lev = Ok g' -> grows g g' (flat t lev) (pairs p t).
Proof.
  induction t as [ids|kvs IH] using nested_ind'; intros g p lev g' H; [exact (add_leaves_grows ids g p lev g' H)|]. rewrite add_dict in H. rewrite flat_dict, pairs_dict. revert g H. induction kvs as [|[x s] kvs IHk]; intros g H; [injection H as <-; apply grows_refl|].
  cbn [foldM fst snd] in H. inv_bind H. inv_bind Ha. inv_bind Ha. inv_bind Ha. cbn [flat_map fst snd]. apply (grows_trans g a g'); [|apply IHk; [intros y sub I; apply (IH y sub); now right|exact H]].
  change ((x, lev) :: flat s (S lev)) with ([(x, lev)] ++ flat s (S lev)). change ((p, x) :: pairs x s) with ([(p, x)] ++ pairs x s). apply (grows_trans g a2 a); [|exact (IH x s (or_introl eq_refl) a2 x (S lev) a Ha)].
  apply (grows_trans g a0 a2 [(x, lev)] [] [] [(p, x)]); [now apply add_vertex_grows|now apply (add_edge_grows a0 p x a1)].
Qed.
Lemma build_grows t g : buildGraphFromConnections D t = Ok g -> grows {| g_vs := []; g_es := [] |} g (flat t 0) (root_pairs t).
Proof.
  destruct t as [ids|kvs]; cbn [buildGraphFromConnections root_pairs].
  - cbn [flat]. generalize {| g_vs := []; g_es := @nil (nat * nat * zt) |}. induction ids as [|x ids IH]; intros g0 H; [injection H as <-; apply grows_refl|]. cbn [foldM] in H. inv_bind H. exact (grows_trans g0 a g [(x, 0)] [] (map (fun x => (x, 0)) ids) [] (add_vertex_grows _ _ _ _ Ha) (IH a H)).
  - rewrite flat_dict. generalize {| g_vs := []; g_es := @nil (nat * nat * zt) |}. induction kvs as [|[x s] kvs IH]; intros g0 H; [injection H as <-; apply grows_refl|]. cbn [foldM fst snd] in H. inv_bind H. inv_bind Ha. cbn [flat_map fst snd].
    apply (grows_trans g0 a g); [|exact (IH a H)]. exact (grows_trans g0 a0 a [(x, 0)] [] (flat s 1) (pairs x s) (add_vertex_grows _ _ _ _ Ha0) (add_to_graph_grows s a0 x 1 a Ha)).
Qed.
Lemma name_of_cable x name : name_of D x = Ok name <-> cable_of D x name.
Proof.
  unfold name_of, elem_names, cable_of. set (step := fun d c => fold_left (fun d e => dset Z.eqb e (cb_name c) d) (cb_elems c) d).
  assert (S1 : forall l d, dget Z.eqb x (fold_left (fun d e => dset Z.eqb e name d) l d) = if memZ x l then Some name else dget Z.eqb x d) by
    (intros l; induction l as [|e l IH]; intros d; [reflexivity|]; cbn [fold_left]; rewrite IH; unfold memZ; cbn [existsb]; fold (memZ x l); destruct (memZ x l); [now rewrite orb_true_r|]; rewrite orb_false_r; destruct (Z.eqb_spec x e) as [->|Ne]; [apply dget_dset_eq|now apply dget_dset_neq]).
  assert (S2 : forall c d, dget Z.eqb x (step d c) = if memZ x (cb_elems c) then Some (cb_name c) else dget Z.eqb x d).
  { intros c d. unfold step. generalize (cb_name c). clear. intros n. revert d. induction (cb_elems c) as [|e l IH]; intros d; [reflexivity|]. cbn [fold_left]. rewrite IH. unfold memZ. cbn [existsb]. fold (memZ x l). destruct (memZ x l); [now rewrite orb_true_r|]. rewrite orb_false_r. destruct (Z.eqb_spec x e) as [->|Ne]; [apply dget_dset_eq|now apply dget_dset_neq]. }
  clear S1. generalize (dc_cables D). intros cs. assert (G : forall d, dget Z.eqb x (fold_left step cs d) = Some name <->
    (exists before c after, cs = before ++ c :: after /\ In x (cb_elems c) /\ cb_name c = name /\ forall c', In c' after -> ~ In x (cb_elems c')) \/ ((forall c', In c' cs -> ~ In x (cb_elems c')) /\ dget Z.eqb x d = Some name)).
  { induction cs as [|c cs IH]; intros d; cbn [fold_left].
    - split; [intros H; right; split; [intros c' []|exact H]|]. intros [(b & c & a & E & _)|[_ H]]; [destruct b; discriminate|exact H].
    - rewrite IH, S2. split.
      + intros [(b & c1 & a & E & R)|[M H]]; [left; exists (c :: b), c1, a; rewrite E; now split|]. destruct (memZ x (cb_elems c)) eqn:EM.
        * left. exists [], c, cs. apply memZ_In in EM. injection H as <-. now repeat split.
        * right. apply memZ_not in EM. split; [intros c' [<-|I]; [exact EM|now apply M]|exact H].
      + intros [(b & c1 & a & E & I & Nm & R)|[M H]].
        * destruct b as [|b0 b]; injection E as <- ->; [|left; exists b, c1, a; now repeat split]. right. split; [exact R|]. rewrite (proj2 (memZ_In _ _) I). now rewrite Nm.
        * right. split; [intros c' I; apply M; now right|]. rewrite (proj2 (memZ_not _ _)); [exact H|]. apply M. now left. }
  specialize (G []). cbn [dget] in G. destruct (dget Z.eqb x (fold_left step cs [])) as [n|]; cbn [of_option].
  - split; [intros H; injection H as ->; destruct (proj1 G eq_refl) as [H|[_ H]]; [exact H|discriminate]|]. intros H. f_equal. assert (Some n = Some name) by (apply G; now left). congruence.
  - split; [discriminate|]. intros H. assert (None = Some name) by (apply G; now left). discriminate.
Qed.

Lemma graph_spec t g : buildGraphFromConnections D t = Ok g ->
  (forall x d, (exists v, In v (g_vs g) /\ v_name v = x /\ v_level v = d) <-> listed t d x) /\
  (forall v, In v (g_vs g) -> cable_of D (v_name v) (v_cable v)) /\
  (forall x y, (exists z, edge g x y z) <-> nests t x y) /\
  (forall x y z, edge g x y z -> exists name, cable_of D x name /\ z = getTransferImpedance D name) /\
  length (g_vs g) = length (elements t).
Proof.
  intros H. destruct (build_grows _ _ H) as (nv & ne & A1 & A2 & A3 & A4 & A5). cbn [g_vs g_es app] in A1, A4. subst nv ne. split; [|split; [|split; [|split]]].
  - intros x d. pose proof (listed_flat t 0 x d) as L. rewrite Nat.sub_0_r in L. rewrite <- A2, in_map_iff in L. rewrite <- (ge0 d (listed t d x)), <- L. split; [intros (v & I & <- & <-); now exists v|]. intros (v & E & I). exists v. injection E as <- <-. now repeat split.
  - intros v I. apply name_of_cable. now apply A3.
  - intros x y. rewrite <- root_pairs_spec. split.
    + intros (z & i & j & v & w & I & E1 & E2 & N1 & N2). destruct (F2_In_l _ _ _ _ A5 I) as ([x' y'] & I' & (v' & V1 & V2) & (w' & W1 & W2) & _). cbn [fst snd] in *. congruence.
    + intros I. destruct (F2_In_r _ _ _ _ A5 I) as ([[i j] z] & I' & (v' & V1 & V2) & (w' & W1 & W2) & _). cbn [fst snd] in *. exists z, i, j, v', w'. now repeat split.
  - intros x y z (i & j & v & w & I & E1 & E2 & N1 & N2). destruct (F2_In_l _ _ _ _ A5 I) as ([x' y'] & I' & (v' & V1 & V2) & _ & (n & C1 & C2)). cbn [fst snd] in *. exists n. split; [|exact C2]. apply name_of_cable. congruence.
  - rewrite <- (flat_names t 0), map_length, <- A2, map_length. reflexivity.
Qed.
End Graph.

(** *** levels and parents in a nesting without repetitions *)
Lemma listed_elements t d x : listed t d x -> In x (elements t).
Proof. intros H. rewrite <- (flat_names t 0). apply in_map_iff. exists (x, d). split; [reflexivity|]. apply listed_flat. rewrite Nat.sub_0_r. split; [lia|exact H]. Qed.
Lemma elements_listed t x : In x (elements t) -> exists d, listed t d x.
Proof. rewrite <- (flat_names t 0), in_map_iff. intros ([y d] & E & I). cbn [fst] in E. subst y. exists d. apply listed_flat in I as [_ L]. now rewrite Nat.sub_0_r in L. Qed.
Lemma NoDup_fst_inj {A B} (l : list (A * B)) x a b : NoDup (map fst l) -> In (x, a) l -> In (x, b) l -> a = b.
Proof.
  induction l as [|[y c] l IH]; [intros _ []|]. cbn [map fst]. intros ND. inversion ND as [|y0 l0 Ny ND']; subst. intros [E|I] [E'|I'].
  - congruence.
  - injection E as -> ->. exfalso. apply Ny. apply in_map_iff. now exists (x, b).
  - injection E' as -> ->. exfalso. apply Ny. apply in_map_iff. now exists (x, a).
  - now apply IH.
Qed.
Lemma level_unique t d d' x : distinct t -> listed t d x -> listed t d' x -> d = d'.
Proof.
  intros ND L L'. unfold distinct in ND. rewrite <- (flat_names t 0) in ND. apply (NoDup_fst_inj _ x d d' ND); apply listed_flat; (split; [lia|]); now rewrite Nat.sub_0_r.
Qed.
Lemma nests_levels t x y : nests t x y -> exists d, listed t d x /\ listed t (S d) y.
Proof.
  induction 1 as [kvs x sub y I L|kvs z sub x y I Ns (d & L1 & L2)]; [exists 0; split; [now apply (listed_key kvs x sub)|exact (listed_sub kvs x sub 0 y I L)]|].
  exists (S d). split; [exact (listed_sub kvs z sub d x I L1)|exact (listed_sub kvs z sub (S d) y I L2)].
Qed.
Lemma parent_exists t : forall d y, listed t (S d) y -> exists x, nests t x y /\ listed t d x.
Proof.
  induction t as [ids|kvs IH] using nested_ind'; intros d y L; inversion L as [| |k0 x sub d0 y0 I L' EK ED EX]; subst. destruct d as [|d].
  - exists x. split; [exact (nests_here kvs x sub y I L')|now apply (listed_key kvs x sub)].
  - destruct (IH x sub I d y L') as (p & Ns & Lp). exists p. split; [exact (nests_sub kvs x sub p y I Ns)|exact (listed_sub kvs x sub d p I Lp)].
Qed.
Lemma NoDup_app_parts {A} (l1 l2 : list A) : NoDup (l1 ++ l2) -> NoDup l1 /\ NoDup l2 /\ forall x, In x l1 -> ~ In x l2.
Proof.
  induction l1 as [|a l1 IH]; [intros H; repeat split; [constructor|exact H|intros x []]|]. cbn [app]. intros H. inversion H as [|a0 l0 Na ND]; subst. destruct (IH ND) as (A1 & A2 & A3). repeat split; [constructor; [|exact A1]; intros I; apply Na; apply in_or_app; now left|exact A2|].
  intros x [<-|I]; [intros I; apply Na; apply in_or_app; now right|now apply A3].
Qed.
Lemma NoDup_app_join {A} (l1 l2 : list A) : NoDup l1 -> NoDup l2 -> (forall x, In x l1 -> ~ In x l2) -> NoDup (l1 ++ l2).
Proof. induction 1 as [|a l1 Na ND IH]; intros H2 Dj; [exact H2|]. cbn [app]. constructor; [intros I; apply in_app_or in I as [I|I]; [now apply Na|now apply (Dj a); [left|]]|apply IH; [exact H2|]; intros x I; apply Dj; now right]. Qed.
Lemma NoDup_sub_flat {A B} (f : A -> B) (h : A -> list B) l : NoDup (flat_map (fun a => f a :: h a) l) -> NoDup (flat_map h l).
Proof.
  induction l as [|a l IH]; [intros _; constructor|]. cbn [flat_map app]. intros H. inversion H as [|b l0 Nb ND]; subst. apply NoDup_app_parts in ND as (A1 & A2 & A3). apply NoDup_app_join; [exact A1|now apply IH|].
  intros x I I'. apply (A3 x I). apply in_flat_map in I' as (c & Ic & Ix). apply in_flat_map. exists c. split; [exact Ic|now right].
Qed.
Lemma root_targets t : distinct t -> NoDup (map snd (root_pairs t)).
Proof.
  destruct t as [ids|kvs]; [intros _; constructor|]. unfold distinct. rewrite elements_dict. intros H. apply NoDup_sub_flat in H. cbn [root_pairs]. replace (map snd (flat_map (fun kv => pairs (fst kv) (snd kv)) kvs)) with (flat_map (fun kv => elements (snd kv)) kvs); [exact H|].
  clear H. induction kvs as [|[x s] kvs IH]; [reflexivity|]. cbn [flat_map fst snd]. rewrite map_app, pairs_targets, IH. reflexivity.
Qed.
Section Graph2.
Context {N : num}.
Variable D : doc N.
Lemma targets_NoDup vs (ne : list (nat * nat * option (ratmodel N))) l : Forall2 (edge_is D vs) ne l -> NoDup (map snd l) -> NoDup (map (fun e => snd (fst e)) ne).
Proof.
  induction 1 as [|e xy ne l He F IH]; [constructor|]. cbn [map]. intros ND. inversion ND as [|y l0 Ny ND']; subst. constructor; [|now apply IH]. intros I. apply Ny. apply in_map_iff in I as (e' & Ee & Ie). destruct (F2_In_l _ _ _ _ F Ie) as (xy' & Ixy & E').
  apply in_map_iff. exists xy'. split; [|exact Ixy]. destruct He as (_ & (v & V1 & V2) & _), E' as (_ & (w & W1 & W2) & _). congruence.
Qed.
Lemma named_index vs i x v : NoDup (map v_name vs) -> named vs i x -> In v vs -> v_name v = x -> nth_error vs i = Some v.
Proof.
  intros ND (w & W1 & W2) I E. apply In_nth_error in I as [j Ej]. assert (i = j); [|congruence].
  assert (Hi : nth_error (map v_name vs) i = Some x) by (rewrite nth_error_map, W1; cbn; congruence). assert (Hj : nth_error (map v_name vs) j = Some x) by (rewrite nth_error_map, Ej; cbn; congruence).
  apply (proj1 (NoDup_nth_error _) ND); [apply nth_error_Some; congruence|congruence].
Qed.
Lemma graph_tree t g : buildGraphFromConnections D t = Ok g -> distinct t ->
  NoDup (map v_name (g_vs g)) /\ NoDup (map (fun e => snd (fst e)) (g_es g)) /\
  (forall i j z, In (i, j, z) (g_es g) -> exists v w, nth_error (g_vs g) i = Some v /\ nth_error (g_vs g) j = Some w /\ v_level w = S (v_level v)) /\
  (forall j w, nth_error (g_vs g) j = Some w -> (exists i z, In (i, j, z) (g_es g)) <-> 0 < v_level w).
Proof.
  intros H ND. destruct (build_grows D _ _ H) as (nv & ne & A1 & A2 & A3 & A4 & A5). cbn [g_vs g_es app] in A1, A4. subst nv ne.
  assert (NV : NoDup (map v_name (g_vs g))). { replace (map v_name (g_vs g)) with (map fst (map (fun v => (v_name v, v_level v)) (g_vs g))) by (rewrite map_map; reflexivity). rewrite A2, flat_names. exact ND. }
  assert (LV : forall v, In v (g_vs g) -> listed t (v_level v) (v_name v)).
  { intros v I. assert (I' : In (v_name v, v_level v) (flat t 0)) by (rewrite <- A2; apply in_map_iff; now exists v). apply listed_flat in I' as [_ L]. now rewrite Nat.sub_0_r in L. }
  assert (ED : forall i j z, In (i, j, z) (g_es g) -> exists v w, nth_error (g_vs g) i = Some v /\ nth_error (g_vs g) j = Some w /\ v_level w = S (v_level v)).
  { intros i j z I. destruct (F2_In_l _ _ _ _ A5 I) as ([x y] & Ixy & (v & V1 & V2) & (w & W1 & W2) & _). cbn [fst snd] in *. exists v, w. split; [exact V1|]. split; [exact W1|]. apply root_pairs_spec in Ixy. destruct (nests_levels _ _ _ Ixy) as (d & L1 & L2).
    pose proof (LV v (nth_error_In _ _ V1)) as Lv. pose proof (LV w (nth_error_In _ _ W1)) as Lw. rewrite V2 in Lv. rewrite W2 in Lw. rewrite (level_unique t _ _ x ND Lv L1), (level_unique t _ _ y ND Lw L2). reflexivity. }
  split; [exact NV|]. split; [exact (targets_NoDup _ _ _ A5 (root_targets t ND))|]. split; [exact ED|].
  intros j w Ej. split.
  - intros (i & z & I). destruct (ED i j z I) as (v & w' & _ & Ew & L). rewrite Ej in Ew. injection Ew as <-. lia.
  - intros P. destruct (v_level w) as [|d] eqn:EL; [lia|]. pose proof (LV w (nth_error_In _ _ Ej)) as Lw. rewrite EL in Lw. destruct (parent_exists t d (v_name w) Lw) as (x & Ns & _). apply root_pairs_spec in Ns. destruct (F2_In_r _ _ _ _ A5 Ns) as ([[i j'] z] & I & _ & Nj & _). cbn [fst snd] in *.
    exists i, z. assert (j' = j); [|now subst]. pose proof (named_index _ _ _ w NV Nj (nth_error_In _ _ Ej) eq_refl) as E'. apply (proj1 (NoDup_nth_error _) NV); [apply nth_error_Some; rewrite nth_error_map, E'; discriminate|]. rewrite !nth_error_map, Ej, E'. reflexivity.
Qed.
(** acceptance *)
Definition unnamed x := name_of D x = Err KeyError.
Lemma name_of_cases x : (exists n, name_of D x = Ok n) \/ unnamed x.
Proof. unfold unnamed, name_of. destruct (dget _ _ _); [left; eexists; reflexivity|now right]. Qed.
Definition outcome (r : res (graph N)) (xs : list Z) (p : option Z) : Prop :=
  (exists g, r = Ok g /\ (forall x, In x xs -> exists n, name_of D x = Ok n) /\ (forall q, p = Some q -> In q (map v_name (g_vs g)))) \/ (r = Err KeyError /\ exists x, In x xs /\ unnamed x).
Lemma add_vertex_outcome g x lev : (exists g', add_vertex D g x lev = Ok g' /\ g_vs g' = g_vs g ++ [Vertex x lev match name_of D x with Ok n => n | Err _ => EmptyString end] /\ exists n, name_of D x = Ok n) \/ (add_vertex D g x lev = Err KeyError /\ unnamed x).
Proof. unfold add_vertex. destruct (name_of_cases x) as [[n E]|E]; rewrite E; [left|now right]. eexists. split; [reflexivity|]. split; [reflexivity|eauto]. Qed.
Lemma add_edge_ok g x y (z : option (ratmodel N)) : In x (map v_name (g_vs g)) -> In y (map v_name (g_vs g)) -> exists g', add_edge g x y z = Ok g' /\ g_vs g' = g_vs g.
Proof. intros Hx Hy. unfold add_edge. destruct (vindex_In _ _ Hx) as [i ->], (vindex_In _ _ Hy) as [j ->]. eexists. split; reflexivity. Qed.
Lemma grows_keeps g g' vs es x : grows D g g' vs es -> In x (map v_name (g_vs g)) -> In x (map v_name (g_vs g')).
Proof. intros (nv & ne & E & _) I. rewrite E, map_app. apply in_or_app. now left. Qed.
Lemma add_child_outcome g p n x lev : In p (map v_name (g_vs g)) -> name_of D p = Ok n ->
  (exists g2, (g1 <- add_vertex D g x lev ;; pn <- name_of D p ;; add_edge g1 p x (getTransferImpedance D pn)) = Ok g2 /\ In p (map v_name (g_vs g2)) /\ In x (map v_name (g_vs g2)) /\ exists m, name_of D x = Ok m) \/
  ((g1 <- add_vertex D g x lev ;; pn <- name_of D p ;; add_edge g1 p x (getTransferImpedance D pn)) = Err KeyError /\ unnamed x).
Proof.
  intros Ip Hn. destruct (add_vertex_outcome g x lev) as [(g1 & -> & Ev & Nx)|(-> & U)]; [left|right; now split]. cbn [bind]. rewrite Hn. cbn [bind].
  assert (I1 : In p (map v_name (g_vs g1))) by (rewrite Ev, map_app; apply in_or_app; now left). assert (I2 : In x (map v_name (g_vs g1))) by (rewrite Ev, map_app; apply in_or_app; right; now left).
  destruct (add_edge_ok g1 p x (getTransferImpedance D n) I1 I2) as (g2 & -> & E2). exists g2. rewrite E2. now repeat split.
Qed.
Lemma add_to_graph_outcome t : forall g p n lev, In p (map v_name (g_vs g)) -> name_of D p = Ok n -> outcome (add_to_graph D g p t lev) (elements t) (Some p).
Proof.
  induction t as [ids|kvs IH] using nested_ind'; intros g p n lev Ip Hn.
  - cbn [add_to_graph elements]. unfold add_leaves. revert g Ip. induction ids as [|x ids IHi]; intros g Ip; [left; exists g; split; [reflexivity|]; split; [intros x []|intros q E; injection E as <-; exact Ip]|].
    cbn [foldM]. destruct (add_child_outcome g p n x lev Ip Hn) as [(g2 & E & I2 & _ & Nx)|(E & U)]; rewrite E; [|right; split; [reflexivity|exists x; split; [now left|exact U]]]. cbn [bind].
    destruct (IHi g2 I2) as [(g' & E' & A & B)|(E' & y & Iy & U)]; rewrite E'; [left; exists g'; split; [reflexivity|]; split; [intros y [<-|I]; [exact Nx|now apply A]|exact B]|right; split; [reflexivity|exists y; split; [now right|exact U]]].
  - rewrite add_dict, elements_dict. revert g Ip. induction kvs as [|[x s] kvs IHk]; intros g Ip; [left; exists g; split; [reflexivity|]; split; [intros x []|intros q E; injection E as <-; exact Ip]|].
    cbn [foldM fst snd flat_map]. assert (Hsplit : (s' <- (g1 <- add_vertex D g x lev;; pn <- name_of D p;; g2 <- add_edge g1 p x (getTransferImpedance D pn);; add_to_graph D g2 x s (S lev)) ;; foldM (fun g kv => g1 <- add_vertex D g (fst kv) lev ;; pn <- name_of D p ;; g2 <- add_edge g1 p (fst kv) (getTransferImpedance D pn) ;; add_to_graph D g2 (fst kv) (snd kv) (S lev)) kvs s') =
      (g2 <- (g1 <- add_vertex D g x lev ;; pn <- name_of D p ;; add_edge g1 p x (getTransferImpedance D pn)) ;; s' <- add_to_graph D g2 x s (S lev) ;; foldM (fun g kv => g1 <- add_vertex D g (fst kv) lev ;; pn <- name_of D p ;; g2 <- add_edge g1 p (fst kv) (getTransferImpedance D pn) ;; add_to_graph D g2 (fst kv) (snd kv) (S lev)) kvs s')).
    { rewrite !bind_assoc'. apply bind_ext'. intros g1. rewrite !bind_assoc'. apply bind_ext'. intros pn. rewrite !bind_assoc'. apply bind_ext'. intros g2. reflexivity. }
    rewrite Hsplit. clear Hsplit. destruct (add_child_outcome g p n x lev Ip Hn) as [(g2 & E & I2 & Ix & (m & Nx))|(E & U)]; rewrite E; [|right; split; [reflexivity|exists x; split; [now left|exact U]]]. cbn [bind].
    destruct (IH x s (or_introl eq_refl) g2 x m (S lev) Ix Nx) as [(g3 & E3 & A3 & _)|(E3 & y & Iy & U)]; [|rewrite E3; right; split; [reflexivity|exists y; split; [right; apply in_or_app; now left|exact U]]].
    rewrite E3. cbn [bind]. assert (I3 : In p (map v_name (g_vs g3))) by (eapply grows_keeps; [exact (add_to_graph_grows D s g2 x (S lev) g3 E3)|exact I2]).
    destruct (IHk (fun y sub I => IH y sub (or_intror I)) g3 I3) as [(g' & E' & A & B)|(E' & y & Iy & U)]; rewrite E'.
    + left. exists g'. split; [reflexivity|]. split; [|exact B]. intros y [<-|I]; [eauto|]. apply in_app_or in I as [I|I]; [now apply A3|now apply A].
    + right. split; [reflexivity|]. exists y. split; [right; apply in_or_app; now right|exact U].
Qed.
Lemma build_outcome t : outcome (buildGraphFromConnections D t) (elements t) None.
Proof.
  destruct t as [ids|kvs]; cbn [buildGraphFromConnections].
  - cbn [elements]. generalize {| g_vs := []; g_es := @nil (nat * nat * option (ratmodel N)) |}. induction ids as [|x ids IH]; intros g; [left; exists g; split; [reflexivity|]; split; [intros x []|discriminate]|].
    cbn [foldM]. destruct (add_vertex_outcome g x 0) as [(g1 & E & _ & Nx)|(E & U)]; rewrite E; [|right; split; [reflexivity|exists x; split; [now left|exact U]]]. cbn [bind].
    destruct (IH g1) as [(g' & E' & A & B)|(E' & y & Iy & U)]; rewrite E'; [left; exists g'; split; [reflexivity|]; split; [intros y [<-|I]; [exact Nx|now apply A]|exact B]|right; split; [reflexivity|exists y; split; [now right|exact U]]].
  - rewrite elements_dict. generalize {| g_vs := []; g_es := @nil (nat * nat * option (ratmodel N)) |}. induction kvs as [|[x s] kvs IH]; intros g; [left; exists g; split; [reflexivity|]; split; [intros x []|discriminate]|].
    cbn [foldM fst snd flat_map]. destruct (add_vertex_outcome g x 0) as [(g1 & E & Ev & (m & Nx))|(E & U)]; rewrite E; [|right; split; [reflexivity|exists x; split; [now left|exact U]]]. cbn [bind].
    assert (Ix : In x (map v_name (g_vs g1))) by (rewrite Ev, map_app; apply in_or_app; right; now left).
    destruct (add_to_graph_outcome s g1 x m 1 Ix Nx) as [(g3 & E3 & A3 & _)|(E3 & y & Iy & U)]; rewrite E3; [|right; split; [reflexivity|exists y; split; [right; apply in_or_app; now left|exact U]]]. cbn [bind].
    destruct (IH g3) as [(g' & E' & A & B)|(E' & y & Iy & U)]; rewrite E'.
    + left. exists g'. split; [reflexivity|]. split; [|exact B]. intros y [<-|I]; [eauto|]. apply in_app_or in I as [I|I]; [now apply A3|now apply A].
    + right. split; [reflexivity|]. exists y. split; [right; apply in_or_app; now right|exact U].
Qed.
Lemma graph_accepted t : ((exists g, buildGraphFromConnections D t = Ok g) <-> forall d x, listed t d x -> exists name, cable_of D x name) /\
  ((exists g, buildGraphFromConnections D t = Ok g) \/ buildGraphFromConnections D t = Err KeyError).
Proof.
  destruct (build_outcome t) as [(g & E & A & _)|(E & x & I & U)].
  - split; [|left; now exists g]. split; [|intros _; now exists g]. intros _ d x L. destruct (A x (listed_elements _ _ _ L)) as [n En]. exists n. now apply name_of_cable.
  - split; [|right; exact E]. split; [intros [g Eg]; congruence|]. intros H. exfalso. destruct (elements_listed _ _ I) as [d L]. destruct (H d x L) as [n C]. apply name_of_cable in C. unfold unnamed in U. congruence.
Qed.
End Graph2.
