(** A three-cell line, illuminated. *)
From Coq Require Import String List Arith ZArith Bool Lia Reals Lra.
From Verif Require Import Num Py Arr ArrFacts NumR RFacts LapackR Utils Probes Dispersive Line Bundle Networks Mtln SpecLine SpecBundle SpecGeom SpecR HistoryFacts BundleFacts BundleR
  NewTotal TotalFacts GeometryFacts GeomProps GeomProps2 ExampleLine Fields SpecFields FieldsFacts FieldsProps PropGeom.
Import ListNotations.
Local Open Scope R_scope.

Record bright (m : mtl NumR) (b : bundle NumR) : Prop := {
  br_built : built LR m; br_n : conductors m = 1%nat; br_N : cells m = 3%nat;
  br_u : forall k, (k <= 3)%nat -> nth k (m_u m) [] = [0; 0; INR k]; br_lu : length (m_u m) = 4%nat;
  br_du : forall k, (k < 3)%nat -> nth k (m_du m) [] = [0; 0; 1]; br_ldu : length (m_du m) = 3%nat;
  br_speed : forall k, (k < 3)%nat -> speed_at LR (m_core m) k (1 / sqrt (1 * 1));
  br_new : mtld_new [[m]] "b" = Ok b
}.
Lemma coords3 (v w : list R) : length v = 3%nat -> length w = 3%nat -> (forall k, (k < 3)%nat -> coord v k = coord w k) -> v = w.
Proof. intros L1 L2 H. apply (nth_ext _ _ 0 0); [congruence|]. intros k Hk. apply H. lia. Qed.
Lemma bright_exists : exists m b, bright m b.
Proof.
  destruct (one_conductor LR LR_ok LR_complete (fun _ => []) (fun _ => []) 1 1 0 0 3 1 1 3 "m") as (m & Hm & P & O & _ & Hu & _); try lra; try lia.
  destruct (bundle_of_one m "b") as (b & Hb & _). exists m, b. pose proof (ph_shape _ P) as Sh.
  assert (C1 : conductors m = 1%nat) by exact (ol_n _ _ _ _ _ _ _ _ _ O). assert (C3 : cells m = 3%nat) by exact (ol_N _ _ _ _ _ _ _ _ _ O).
  pose proof (new_parts _ _ _ _ _ _ _ _ _ _ _ _ _ _ Hm) as (_ & _ & _ & HG & _).
  pose proof (equal_divisions LR _ _ _ _ _ _ _ _ 3 1 _ _ _ m Hm) as (_ & _ & _ & Ldu & Hc & _).
  split; auto.
  - do 12 eexists; exact Hm.
  - intros k Hk. rewrite (Hu k Hk). repeat f_equal. rewrite INR_IZR_INZ. simpl (INR 3). field.
  - rewrite (sh_u _ Sh). unfold cells in C3. now rewrite C3.
  - intros k Hk. assert (D : forall j, (j < 3)%nat -> coord (nth k (m_du m) []) j = if (j =? 2)%nat then 1 else 0).
    { intros j Hj. destruct (Hc 0%nat k j) as [_ E]; [lia|lia|auto|]. cbn [Nat.mul Nat.add] in E. rewrite E. unfold coord. cbn [vertices nth].
      do 3 (destruct j as [|j]; [cbn [nth Nat.eqb]; rsimpl; cbn; field|]). lia. }
    assert (L3 : length (nth k (m_du m) []) = 3%nat).
    { change [3%nat] with (repeat 3%nat 1) in HG. rewrite geometry_equal in HG by (cbn; lia). injection HG as _ Hd _. rewrite <- Hd, nth_mk by (cbn; lia). unfold seg_du, vdivs. apply length_mk. }
    apply coords3; [exact L3|reflexivity|]. intros j Hj. rewrite D by exact Hj. do 3 (destruct j as [|j]; [reflexivity|]). lia.
  - intros k Hk. unfold speed_at, get_phase_velocities. unfold conductors, cells in *. rewrite C1, C3. rewrite nth_mk by exact Hk. rewrite (eig_ok _ LR_ok). cbn [map vmax]. unfold lmax. cbn [fold_left].
    f_equal. unfold mm. rewrite get2_mk2 by lia. cbn [sumn]. pose proof (ol_L _ _ _ _ _ _ _ _ _ O k ltac:(lia)) as HL. pose proof (ol_C _ _ _ _ _ _ _ _ _ O (S k) ltac:(lia)) as HC.
    unfold L_, C_, get3 in *. rsimpl. rewrite HL, HC. f_equal. f_equal. ring.
Qed.
