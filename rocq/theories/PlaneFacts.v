(** The speed of a plane wave on a line (C68). *)
From Coq Require Import String List Arith ZArith Bool Lia Reals Lra.
From Verif Require Import Num Py Arr ArrFacts NumR RFacts Utils Line Bundle Networks Mtln SpecLine SpecR TotalFacts Fields SpecFields SpecPlane.
Import ListNotations.
Local Open Scope R_scope.

Lemma vmax_spec (l : vec NumR) v : vmax l = Ok v -> In v l /\ forall x, In x l -> x <= v.
Proof. unfold vmax. destruct l as [|a l]; [discriminate|]. intros H. injection H as <-. split; [apply lmax_In|intros x Hx; now apply lmax_ge]. Qed.
Lemma speeds_in (LA : lapack NumR) (s : core NumR) x : In x (concat (get_phase_velocities LA s)) <->
  exists k e, (k < k_N s)%nat /\ In e (la_eig LA (k_n s) (mm (k_n s) (getm (k_l s) k) (getm (k_c s) (S k)))) /\ x = 1 / sqrt e.
Proof.
  unfold get_phase_velocities, mk. rewrite in_concat. split.
  - intros (r & Hr & Hx). apply in_map_iff in Hr as (k & <- & Hk). apply in_seq in Hk. apply in_map_iff in Hx as (e & <- & He). exists k, e. split; [lia|]. split; [exact He|reflexivity].
  - intros (k & e & Hk & He & ->). eexists. split; [apply in_map_iff; exists k; split; [reflexivity|apply in_seq; lia]|]. apply in_map_iff. exists e. split; [reflexivity|exact He].
Qed.
Lemma planewave_speed (LA : lapack NumR) integ (m m' : mtl NumR) (w : planewave NumR) (dist : ten NumR) : mtl_add_planewave LA integ m w dist = Ok m' ->
  exists v, fastest LA m v /\ mtl_add_external_field LA integ m (planewave_field w v) dist [] = Ok m'.
Proof.
  unfold mtl_add_planewave. intros H. inv_bind H. exists a. split; [|exact H]. destruct (vmax_spec _ _ Ha) as [I M]. split.
  - apply speeds_in in I as (k & e & Hk & He & E). exists k, e. auto.
  - intros k e Hk He. apply M. apply speeds_in. eauto.
Qed.
Lemma planewave_accepted (LA : lapack NumR) integ (m m' : mtl NumR) (w : planewave NumR) (dist : ten NumR) (v : R) : fastest LA m v ->
  mtl_add_external_field LA integ m (planewave_field w v) dist [] = Ok m' -> mtl_add_planewave LA integ m w dist = Ok m'.
Proof.
  intros [(k & e & Hk & He & E) M] H. unfold mtl_add_planewave. assert (I : In v (concat (get_phase_velocities LA (m_core m)))) by (apply speeds_in; exists k, e; auto).
  destruct (vmax (concat (get_phase_velocities LA (m_core m)))) as [a|] eqn:Ea; cbn [bind].
  - destruct (vmax_spec _ _ Ea) as [I' M']. assert (Eq : a = v); [|now subst a].
    apply Rle_antisym; [|now apply M']. apply speeds_in in I' as (k' & e' & Hk' & He' & ->). exact (M k' e' Hk' He').
  - unfold vmax in Ea. destruct (concat _); [destruct I|discriminate Ea].
Qed.
Lemma some_speed (LA : lapack NumR) (s : core NumR) k v : (k < k_N s)%nat -> speed_at LA s k v -> exists a, vmax (concat (get_phase_velocities LA s)) = Ok a.
Proof.
  intros Hk H. destruct (vmax_spec _ _ H) as [I _]. assert (J : In v (concat (get_phase_velocities LA s))).
  { apply in_concat. eexists. split; [|exact I]. apply nth_In. unfold get_phase_velocities. now rewrite length_mk. }
  unfold vmax. destruct (concat _); [destruct J|eauto].
Qed.
