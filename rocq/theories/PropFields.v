(** Properties C68, C69 and C79: external fields and plane waves.  [integ] is the numerical quadrature of
    the transversal integrals; statements with [N] hold for every arithmetic. *)
From Coq Require Import String List Arith ZArith Bool Lia Reals Lra.
From Verif Require Import Num Py Arr ArrFacts NumR RFacts LapackR Utils Probes Dispersive Line Bundle Networks Mtln SpecLine SpecBundle HistoryFacts
  Fields SpecFields FieldsFacts FieldsProps ExampleFields Rotate RotateFacts SpecPlane PlaneFacts.
Import ListNotations.
Local Open Scope R_scope.

(** ** C79: what add_external_field stores *)
(** the arrays always have an entry per conductor and cell or node *)
Theorem C79_arrays (N : num) (LA : lapack N) integ :
  (forall m : mtl N, built LA m -> lit_arrays (m_core m)) /\
  (forall levels name (b : bundle N), mtld_new levels name = Ok b -> lit_arrays (b_core b)) /\
  (forall (m : mtl N) f dist loc m', reachable LA m -> lit_arrays (m_core m) -> mtl_add_external_field LA integ m f dist loc = Ok m' -> reachable LA m' /\ lit_arrays (m_core m')) /\
  (forall (b : bundle N) f dist loc b', reachable_bundle LA b -> lit_arrays (b_core b) -> bundle_add_external_field LA integ b f dist loc = Ok b' -> reachable_bundle LA b' /\ lit_arrays (b_core b')).
Proof. exact (conj (built_arrays LA) (conj bundle_arrays (conj (line_field_reach LA integ) (bundle_field_reach LA integ)))). Qed.
Print Assumptions C79_arrays.
Theorem C79_line (N : num) (LA : lapack N) integ (m : mtl N) f dist loc m' : reachable LA m -> lit_arrays (m_core m) -> mtl_add_external_field LA integ m f dist loc = Ok m' ->
  m' = m_set_core m (m_core m') /\ illuminated LA integ false (conductors m) (m_u m) (m_du m) (m_core m) f dist loc (m_core m') /\
  (exists k, is_lit false (m_u m) (cells m) loc k) /\ (forall k, is_lit false (m_u m) (cells m) loc k -> (k < cells m)%nat).
Proof. exact (line_field LA integ m f dist loc m'). Qed.
Print Assumptions C79_line.
(** in a bundle only the conductors of the outermost line are illuminated *)
Theorem C79_bundle (N : num) (LA : lapack N) integ (b : bundle N) f dist loc b' n : reachable_bundle LA b -> lit_arrays (b_core b) -> outer_conductors b = Ok n ->
  bundle_add_external_field LA integ b f dist loc = Ok b' ->
  b' = b_set_core b (b_core b') /\ illuminated LA integ true n (b_u b) (b_du b) (b_core b) f dist loc (b_core b') /\
  (exists k, is_lit true (b_u b) (b_cells b) loc k) /\ (forall k, is_lit true (b_u b) (b_cells b) loc k -> (k < b_cells b)%nat).
Proof. exact (bundle_field LA integ b f dist loc b' n). Qed.
Print Assumptions C79_bundle.
(** a second field over at least the same cells leaves nothing of the first one *)
Theorem C79_line_replaces (N : num) (LA : lapack N) integ (m : mtl N) f1 d1 loc1 m1 f2 d2 loc2 m2 : reachable LA m -> lit_arrays (m_core m) ->
  mtl_add_external_field LA integ m f1 d1 loc1 = Ok m1 -> mtl_add_external_field LA integ m1 f2 d2 loc2 = Ok m2 ->
  (forall k, is_lit false (m_u m) (cells m) loc1 k -> is_lit false (m_u m) (cells m) loc2 k) ->
  mtl_add_external_field LA integ m f2 d2 loc2 = Ok m2.
Proof. exact (line_field_again LA integ m f1 d1 loc1 m1 f2 d2 loc2 m2). Qed.
Print Assumptions C79_line_replaces.
Theorem C79_bundle_replaces (N : num) (LA : lapack N) integ (b : bundle N) f1 d1 loc1 b1 f2 d2 loc2 b2 : reachable_bundle LA b -> lit_arrays (b_core b) ->
  bundle_add_external_field LA integ b f1 d1 loc1 = Ok b1 -> bundle_add_external_field LA integ b1 f2 d2 loc2 = Ok b2 ->
  (forall k, is_lit true (b_u b) (b_cells b) loc1 k -> is_lit true (b_u b) (b_cells b) loc2 k) ->
  bundle_add_external_field LA integ b f2 d2 loc2 = Ok b2.
Proof. exact (bundle_field_again LA integ b f1 d1 loc1 b1 f2 d2 loc2 b2). Qed.
Print Assumptions C79_bundle_replaces.
(** a localisation whose two ends snap to the same or to reversed nodes of a line raises UnboundLocalError *)
Theorem C79_line_empty (N : num) (LA : lapack N) integ (m : mtl N) f (dist : ten N) a b r : reachable LA m -> has_shape dist (conductors m) (S (cells m)) = true ->
  (nearest (m_u m) b <= nearest (m_u m) a)%nat -> mtl_add_external_field LA integ m f dist (a :: b :: r) = Err NameError.
Proof. exact (line_field_empty LA integ m f dist a b r). Qed.
Print Assumptions C79_line_empty.
(** a localisation up to the last node of a bundle never succeeds *)
Theorem C79_bundle_end (N : num) (LA : lapack N) integ (b : bundle N) f (dist : ten N) a p r b' : reachable_bundle LA b -> lit_arrays (b_core b) ->
  nearest (b_u b) p = b_cells b -> (nearest (b_u b) a <= b_cells b)%nat -> bundle_add_external_field LA integ b f dist (a :: p :: r) <> Ok b'.
Proof. exact (bundle_field_end LA integ b f dist a p r b'). Qed.
Print Assumptions C79_bundle_end.
(** otherwise it succeeds as soon as cells have a length and a phase velocity *)
Theorem C79_accepted (LA : lapack NumR) integ (m : mtl NumR) f (dist : ten NumR) loc : reachable LA m -> has_shape dist (conductors m) (S (cells m)) = true -> length loc <> 1%nat ->
  (exists k, is_lit false (m_u m) (cells m) loc k) -> (forall k, is_lit false (m_u m) (cells m) loc k -> (k < cells m)%nat /\ 0 < @vnorm NumR (nth k (m_du m) [])) ->
  (forall k, (k < cells m)%nat -> exists v, speed_at LA (m_core m) k v) -> exists m', mtl_add_external_field LA integ m f dist loc = Ok m'.
Proof.
  intros (m0 & R) Sh Ll E L V. destruct (HistoryFacts.history_shape _ _ _ R) as [S1 _]. destruct (illuminate_total LA integ false (conductors m) (m_u m) (m_du m) (m_core m) f dist loc) as [s' Hs]; auto;
    [rewrite (sh_u _ S1); exact Sh|exact (sh_u _ S1)|exact (sh_du _ S1)|pose proof (sh_N _ S1); lia|]. unfold mtl_add_external_field. unfold conductors in Hs. rewrite Hs. cbn [bind]. eauto.
Qed.
Print Assumptions C79_accepted.

(** the field with only a z component, proportional to x, and the one with only an x component, equal to z *)
Definition field_zx (a : R) : field NumR := @Field NumR (fun _ _ _ _ _ => 0) (fun _ _ _ _ _ => 0) (fun x _ _ _ _ => a * x).
Definition field_xz : field NumR := @Field NumR (fun _ _ z _ _ => z) (fun _ _ _ _ _ => 0) (fun _ _ _ _ _ => 0).
Definition one_aside : ten NumR := [[[1; 0; 0]; [1; 0; 0]; [1; 0; 0]; [1; 0; 0]]].
Lemma bright_lit integ m b f : bright m b -> exists m', reachable LR m /\ lit_arrays (m_core m) /\ mtl_add_external_field LR integ m f one_aside [] = Ok m'.
Proof.
  intros B. assert (R : reachable LR m) by (exists m; apply h_new; exact (br_built _ _ B)). destruct (C79_accepted LR integ m f one_aside []) as [m' H].
  - exact R.
  - rewrite (br_n _ _ B), (br_N _ _ B). reflexivity.
  - cbn. lia.
  - exists 0%nat. unfold is_lit, first_lit, after_lit. rewrite (br_N _ _ B). lia.
  - unfold is_lit, first_lit, after_lit. intros k [_ Hk]. split; [exact Hk|]. rewrite (br_N _ _ B) in Hk. rewrite (br_du _ _ B k Hk). rewrite (ExampleLine.vnorm_z 1). rewrite Rabs_R1. lra.
  - intros k Hk. rewrite (br_N _ _ B) in Hk. eexists. exact (br_speed _ _ B k Hk).
  - exists m'. split; [exact R|]. split; [exact (built_arrays LR m (br_built _ _ B))|exact H].
Qed.
Lemma bright_long integ m b a m' t : bright m b -> reachable LR m -> lit_arrays (m_core m) -> mtl_add_external_field LR integ m (field_zx a) one_aside [] = Ok m' -> eLong (m_core m') 0 0 t = a.
Proof.
  intros B R Ar H. destruct (C79_line _ _ _ _ _ _ _ _ R Ar H) as (_ & (_ & _ & _ & HL & _) & _).
  destruct (HL 0%nat 0%nat) as (v & _ & E); [rewrite (br_n _ _ B); lia|unfold is_lit, first_lit, after_lit; pose proof (br_N _ _ B) as X; unfold cells in X; rewrite X; lia|].
  rewrite E. rewrite (br_u _ _ B 0%nat), (br_du _ _ B 0%nat) by lia. unfold long_drive, along, at3, back, vadd. rewrite !get_mk by lia. rewrite (ExampleLine.vnorm_z 1), Rabs_R1. unfold field_zx, one_aside, get. cbn [e_x e_y e_z nth]. rsimpl. field.
Qed.
(** two fields are not superposed: proportional fields of strengths 1 and 2 leave 2, not 3 *)
Theorem C79_superposition_refuted : forall integ, exists (m m1 m2 m12 : mtl NumR) f1 f2 dist, reachable LR m /\ lit_arrays (m_core m) /\
  mtl_add_external_field LR integ m f1 dist [] = Ok m1 /\ mtl_add_external_field LR integ m f2 dist [] = Ok m2 /\ mtl_add_external_field LR integ m1 f2 dist [] = Ok m12 /\
  forall t, eLong (m_core m1) 0 0 t = 1 /\ eLong (m_core m2) 0 0 t = 2 /\ eLong (m_core m12) 0 0 t = 2.
Proof.
  intros integ. destruct bright_exists as (m & b & B). destruct (bright_lit integ m b (field_zx 1) B) as (m1 & R & Ar & H1). destruct (bright_lit integ m b (field_zx 2) B) as (m2 & _ & _ & H2).
  destruct (C79_arrays _ LR integ) as (_ & _ & Nx & _). destruct (Nx _ _ _ _ _ R Ar H1) as [R1 Ar1]. pose proof (C79_line _ _ _ _ _ _ _ _ R Ar H1) as (Em & (Es & _) & _).
  assert (H12 : exists m12, mtl_add_external_field LR integ m1 (field_zx 2) one_aside [] = Ok m12).
  { assert (En : conductors m1 = 1%nat) by (unfold conductors; rewrite Es; exact (br_n _ _ B)). assert (EN : cells m1 = 3%nat) by (unfold cells; rewrite Es; exact (br_N _ _ B)).
    apply C79_accepted; auto.
    - rewrite En, EN. reflexivity.
    - exists 0%nat. unfold is_lit, first_lit, after_lit. rewrite EN. lia.
    - unfold is_lit, first_lit, after_lit. intros k [_ Hk]. split; [exact Hk|]. rewrite EN in Hk. rewrite Em. change (0 < @vnorm NumR (nth k (m_du m) [])). rewrite (br_du _ _ B k Hk). rewrite (ExampleLine.vnorm_z 1). rewrite Rabs_R1. lra.
    - intros k Hk. rewrite EN in Hk. eexists. unfold speed_at. rewrite Es. exact (br_speed _ _ B k Hk). }
  destruct H12 as [m12 H12]. exists m, m1, m2, m12, (field_zx 1), (field_zx 2), one_aside. split; [exact R|]. split; [exact Ar|]. split; [exact H1|]. split; [exact H2|]. split; [exact H12|].
  assert (m12 = m2) by (pose proof (C79_line_replaces _ _ _ _ _ _ _ _ _ _ _ _ R Ar H1 H12 (fun k H => H)) as X; rewrite H2 in X; injection X as X; symmetry; exact X). subst m12.
  intros t. rewrite (bright_long integ m b 1 m1 t B R Ar H1), (bright_long integ m b 2 m2 t B R Ar H2). auto.
Qed.
Print Assumptions C79_superposition_refuted.
(** the term of the last node is that of the position of the node before the last cell: with the x component equal to z, and any quadrature that
    is exact on constants, the end z = 3 gets the value 2 *)
Theorem C79_last_node_refuted : forall integ, (forall c a b, integ (fun _ => c) a b = c * (b - a)) ->
  exists (m m' : mtl NumR) f dist, reachable LR m /\ lit_arrays (m_core m) /\ mtl_add_external_field LR integ m f dist [] = Ok m' /\ nth (cells m) (m_u m) [] = [0; 0; 3] /\
  forall v t, eTran (m_core m') 0 (cells m) t = 2 /\ tran_drive integ f (nth (cells m) (m_u m) []) (nth (cells m) (nth 0 dist []) []) v t = 3.
Proof.
  intros integ Hi. destruct bright_exists as (m & b & B). destruct (bright_lit integ m b field_xz B) as (m' & R & Ar & H). exists m, m', field_xz, one_aside. split; [exact R|]. split; [exact Ar|]. split; [exact H|].
  pose proof (br_N _ _ B) as EN. assert (U3 : nth (cells m) (m_u m) [] = [0; 0; 3]) by (rewrite EN, (br_u _ _ B) by lia; simpl; repeat f_equal; lra). split; [exact U3|].
  assert (Tr : forall z v t, tran_drive integ field_xz [0; 0; z] [1; 0; 0] v t = z).
  { intros z v t. unfold tran_drive, cosine. assert (Q : @vnorm NumR (mk 3 (fun i => @nabs NumR (@get NumR [1; 0; 0] i))) = 1).
    { unfold vnorm, mk, get, nsq. cbn [sumn seq map nth]. rsimpl. rewrite Rabs_R1, Rabs_R0. replace (0 + 1 * 1 + 0 * 0 + 0 * 0) with 1 by ring. apply sqrt_1. }
    rewrite Q. unfold field_xz, get. cbn [e_x e_y e_z nth]. rsimpl. rewrite !Hi, Rabs_R1, Rabs_R0. field. }
  intros v t. split; [|rewrite U3, EN; apply Tr].
  destruct (C79_line _ _ _ _ _ _ _ _ R Ar H) as (_ & (_ & _ & _ & _ & _ & _ & HT) & _). destruct (HT 0%nat) as (w & _ & E); [rewrite (br_n _ _ B); lia|]. cbv zeta in E. unfold cells in EN. unfold cells. rewrite E. unfold after_lit. rewrite EN. cbn [Nat.sub].
  rewrite (br_u _ _ B 2%nat) by lia. simpl INR. change (nth 3 (nth 0 one_aside []) []) with ([1; 0; 0] : vec NumR). rewrite Tr. lra.
Qed.
Print Assumptions C79_last_node_refuted.
Example C79_nontrivial : exists (m m' : mtl NumR) (b : bundle NumR), bright m b /\ reachable LR m /\ lit_arrays (m_core m) /\ mtl_add_external_field LR (fun f a b => f a * (b - a)) m field_xz one_aside [] = Ok m' /\
  reachable_bundle LR b /\ lit_arrays (b_core b) /\ outer_conductors b = Ok 1%nat.
Proof.
  destruct bright_exists as (m & b & B). destruct (bright_lit (fun f a b => f a * (b - a)) m b field_xz B) as (m' & R & Ar & H). exists m, m', b. split; [exact B|]. split; [exact R|]. split; [exact Ar|]. split; [exact H|].
  assert (RB : reachable_bundle LR b) by (exists b; apply bh_new; exists [[m]], "b"%string; split; [constructor; [constructor; [exact R|constructor]|constructor]|exact (br_new _ _ B)]). split; [exact RB|].
  split; [exact (bundle_arrays _ _ _ (br_new _ _ B))|]. destruct (BundleFacts.mtld_new_inv _ _ _ (br_new _ _ B)) as (o & r & E & _ & E1 & _). unfold outer_conductors. rewrite E1. cbn. rewrite <- (br_n _ _ B). reflexivity.
Qed.

(** ** C68: plane waves *)
Theorem C68_orthonormal (w : planewave NumR) : let k := [cos (pw_polar w); sin (pw_polar w) * cos (pw_azimuth w); sin (pw_azimuth w) * sin (pw_polar w)] in
  dot3 (pw_e w) (pw_e w) = 1 /\ dot3 k k = 1 /\ dot3 (pw_e w) k = 0.
Proof. exact (conj (wave_unit (pw_polar w) (pw_azimuth w) (pw_polarization w)) (conj (wave_heading w) (wave_orthogonal w))). Qed.
Print Assumptions C68_orthonormal.
(** the slowness vector is minus the direction over the speed, when no component of the direction is zero *)
Theorem C68_slowness (w : planewave NumR) v : 0 < v -> (forall j, (j < 3)%nat -> nth j (heading w) 0 <> 0) ->
  let s := map Rinv (@compute_velocities NumR w v) in (forall j, (j < 3)%nat -> nth j s 0 = - nth j (heading w) 0 / v) /\ len3 s = 1 / v.
Proof. exact (wave_slow w v). Qed.
Print Assumptions C68_slowness.
(** so the field of add_planewave is the waveform, constant along the fronts, moving at speed v against the direction *)
Theorem C68_travels (w : planewave NumR) v x y z s t d : 0 < v -> (forall j, (j < 3)%nat -> nth j (heading w) 0 <> 0) ->
  let k := heading w in let x' := x - v * d * nth 0 k 0 in let y' := y - v * d * nth 1 k 0 in let z' := z - v * d * nth 2 k 0 in
  let F := planewave_field w v in e_x F x' y' z' s (t + d) = e_x F x y z s t /\ e_y F x' y' z' s (t + d) = e_y F x y z s t /\ e_z F x' y' z' s (t + d) = e_z F x y z s t.
Proof. exact (wave_travels w v x y z s t d). Qed.
Print Assumptions C68_travels.
Theorem C68_value (w : planewave NumR) v x y z s t : 0 < v -> (forall j, (j < 3)%nat -> nth j (heading w) 0 <> 0) ->
  let a := pw_field w (t + dot3 (heading w) [x; y; z] / v) in let F := planewave_field w v in
  e_x F x y z s t = a * nth 0 (pw_e w) 0 /\ e_y F x y z s t = a * nth 1 (pw_e w) 0 /\ e_z F x y z s t = a * nth 2 (pw_e w) 0.
Proof. intros Hv. exact (wave_field w v x y z s t (Rgt_not_eq _ _ Hv)). Qed.
Print Assumptions C68_value.
(** add_planewave on a line adds the external field of the wave at the largest phase velocity of the line *)
Theorem C68_speed (LA : lapack NumR) integ (m m' : mtl NumR) (w : planewave NumR) (dist : ten NumR) : mtl_add_planewave LA integ m w dist = Ok m' <->
  exists v, fastest LA m v /\ mtl_add_external_field LA integ m (@planewave_field NumR w v) dist [] = Ok m'.
Proof. split; [exact (planewave_speed LA integ m m' w dist)|intros (v & Hv & H); exact (planewave_accepted LA integ m m' w dist v Hv H)]. Qed.
Print Assumptions C68_speed.
(** on a network of lines it raises as soon as there is a bundle *)
Theorem C68_networks (N : num) (x : mtln N) : (t_bundles x = [] -> mtln_add_planewave x = Ok x) /\ (t_bundles x <> [] -> mtln_add_planewave x = Err AttributeError).
Proof. unfold mtln_add_planewave. destruct (t_bundles x); split; intros H; congruence || reflexivity. Qed.
Print Assumptions C68_networks.
Example C68_speed_met : exists (m m' : mtl NumR), reachable LR m /\ mtl_add_planewave LR (fun f a b => f a * (b - a)) m (@PlaneWave NumR (fun t => t) (PI / 4) (PI / 4) 0) one_aside = Ok m'.
Proof.
  destruct bright_exists as (m & b & B).
  destruct (some_speed LR (m_core m) 0 _ ltac:(pose proof (br_N _ _ B) as X; unfold cells in X; rewrite X; lia) (br_speed _ _ B 0%nat ltac:(lia))) as [a Ha].
  destruct (bright_lit (fun f a b => f a * (b - a)) m b (@planewave_field NumR (@PlaneWave NumR (fun t => t) (PI / 4) (PI / 4) 0) a) B) as (m' & R & _ & H).
  exists m, m'. split; [exact R|]. unfold mtl_add_planewave. rewrite Ha. exact H.
Qed.
Example C68_nontrivial : forall j, (j < 3)%nat -> nth j (heading (@PlaneWave NumR (fun t => t) (PI / 4) (PI / 4) 0)) 0 <> 0.
Proof.
  intros j Hj. unfold heading. cbn [pw_polar pw_azimuth]. assert (C : 0 < cos (PI / 4)) by (apply cos_gt_0; pose proof PI_RGT_0; lra). assert (S : 0 < sin (PI / 4)) by (apply sin_gt_0; pose proof PI_RGT_0; lra).
  do 3 (destruct j as [|j]; [cbn [nth]; nra|]). lia.
Qed.

(** ** C69: rotation to a segment *)
(** it is a rotation: it keeps scalar products *)
Theorem C69_isometry u f g f' g' : rotation u f = Some f' -> rotation u g = Some g' -> dot3 f' g' = dot3 f g.
Proof. exact (rotation_dot u f g f' g'). Qed.
Print Assumptions C69_isometry.
(** segments going up, and horizontal ones along y, are turned to +z *)
Theorem C69_up u : 0 < nth 2 u 0 \/ nth 2 u 0 = 0 /\ nth 1 u 0 <> 0 -> rotation u u = Some [0; 0; len3 u].
Proof. intros H. apply rotation_up; destruct H; [lra|lra|lra|tauto]. Qed.
Print Assumptions C69_up.
(** segments going down are not: in particular never to +z *)
Theorem C69_down u : nth 2 u 0 < 0 -> exists f, rotation u u = Some f /\ f <> [0; 0; len3 u] /\
  f = [2 * nth 0 u 0 * sqrt (nth 1 u 0 * nth 1 u 0 + nth 2 u 0 * nth 2 u 0) / len3 u; 0; (nth 0 u 0 * nth 0 u 0 - (nth 1 u 0 * nth 1 u 0 + nth 2 u 0 * nth 2 u 0)) / len3 u].
Proof. exact (rotation_down' u). Qed.
Print Assumptions C69_down.
(** a segment along x gives no number *)
Theorem C69_along_x u f : nth 1 u 0 = 0 -> nth 2 u 0 = 0 -> rotation u f = None.
Proof. exact (rotation_x u f). Qed.
Print Assumptions C69_along_x.
(** the rotated wave: same waveform and polarization angle, and the angles of the rotated direction, unless that one is in the plane z = 0 with y < 0 *)
Theorem C69_wave (w w' : planewave NumR) u f : rotation u (heading w) = Some f -> rotate_to_segment w u = Some w' ->
  pw_field w' = pw_field w /\ pw_polarization w' = pw_polarization w /\
  (nth 2 f 0 <> 0 \/ 0 <= nth 1 f 0 -> heading w' = f) /\
  (nth 2 f 0 = 0 -> nth 1 f 0 < 0 -> heading w' = [nth 0 f 0; - nth 1 f 0; 0]).
Proof. exact (rotated_wave w w' u f). Qed.
Print Assumptions C69_wave.
(** the polarization angle is not the rotated wave's: a wave along y polarized along z, and a segment at 45 degrees *)
Theorem C69_polarization_refuted : exists (w w' : planewave NumR) u e', rotate_to_segment w u = Some w' /\ rotation u (pw_e w) = Some e' /\ pw_e w' <> e'.
Proof. exact polarization_lost. Qed.
Print Assumptions C69_polarization_refuted.
Example C69_nontrivial : rotation [3; 0; 4] [3; 0; 4] = Some [0; 0; 5] /\ (exists f, rotation [0; 0; -1] [0; 0; -1] = Some f /\ f = [0; 0; -1]).
Proof. exact rotation_ex. Qed.
