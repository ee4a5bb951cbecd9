(** The line of a one-cable document with a cable end, in real arithmetic. *)
From Coq Require Import String List Arith ZArith Bool Lia Reals Lra.
From Verif Require Import Num Py Arr ArrFacts NumR RFacts LapackR Utils Probes Dispersive Line Bundle Networks SpecLine SpecGeom SpecR
  NearestFacts TotalFacts StepTotal HistoryFacts GeomProps GeomProps4 GeomProps5 ExampleLine Parser SpecParser SpecDoc SpecDocR.
Import ListNotations.
Local Open Scope R_scope.

Definition dr : doc NumR := @Doc NumR
  [(1%Z, [0; 0; 0]); (2%Z, [0; 0; 1])] [(10%Z, [1; 2]%Z)] []
  [Cable "a" 100 200 200 [10%Z] [2%nat]]
  [@Wire NumR 100 (@WFloat NumR 1) (@WFloat NumR 1) (@WFloat NumR 0) None]
  [@Cmat NumR 200 (@Connector NumR "Conn_R" (Some 3) None None [] None None None) None None]
  [("b"%string, NStr [10%Z])] [] [] [] [Cend [1%Z] 200] [] [].

Lemma dr_line : exists m, line_of_cable LR dr (fun _ => []) (fun _ => []) "a" m.
Proof.
  destruct (one_conductor LR LR_ok LR_complete (fun _ => []) (fun _ => []) 1 1 0 0 1 0 0 2 "a"%string) as (m & Hm & P & OL & _ & Hu & _); try lra; try lia.
  assert (B : SpecLine.built LR m) by (repeat eexists; exact Hm). assert (R0 : reachable LR m) by (exists m; now constructor).
  pose proof (new_LC _ _ _ _ _ _ _ _ _ _ _ _ _ _ Hm) as (Hn & HL & HC). pose proof (new_parts _ _ _ _ _ _ _ _ _ _ _ _ _ _ Hm) as (_ & _ & _ & _ & HN). cbn in HN. pose proof (new_RG _ _ _ _ _ _ _ _ _ _ _ _ _ _ Hm) as [[_ HR] _].
  destruct (history_full LR m m) as [[F1 F2] _]; [now constructor|].
  assert (E : exists m', set_resistance_at_point LR m (@PosL NumR [0; 0; 0]) 0 3 = Ok m').
  { unfold set_resistance_at_point, set_resistance_in_region. assert (G : @assert_ge NumR (@PosL NumR [0; 0; 0]) (@PosL NumR [0; 0; 0]) = Ok tt) by (cbn [assert_ge list_ge passert]; change (@neqb NumR 0 0) with (Reqb 0 0); rewrite (proj2 (Reqb_true 0 0) eq_refl); reflexivity). rewrite G. cbn [bind pos_vec].
    assert (Nr : @nearest NumR (m_u m) [0; 0; 0] = 0%nat).
    { pose proof (sh_u _ (reachable_shape _ _ R0)) as Lu. fold (cells m) in Lu. rewrite HN in Lu. pose proof (nearest_z (m_u m) 2 (1 / INR 2) 0 Lu) as X. replace [0; 0; 0] with [0; 0; INR 0 * (1 / INR 2)] by (cbn [INR]; f_equal; f_equal; f_equal; lra). apply X; try lia; [cbn; lra|exact Hu]. }
    rewrite Nr. unfold cells, conductors in *. rewrite HN. cbn [Nat.eqb negb]. unfold region_assign. rewrite F1, HN, Hn. cbn [Nat.min Nat.sub Nat.ltb Nat.leb andb bind Nat.add].
    set (x := @ndiv NumR 3 _). assert (Hx : 0 <= x).
    { unfold x. change (0 <= 3 / @vnorm NumR (nth 0 (m_du m) [])). apply Rmult_le_pos; [lra|]. destruct (Req_dec (@vnorm NumR (nth 0 (m_du m) [])) 0) as [Z|Z]; [rewrite Z, Rinv_0; lra|]. apply Rlt_le, Rinv_0_lt_compat. assert (0 <= @vnorm NumR (nth 0 (m_du m) [])) by (rewrite norm3_vnorm; apply sqrt_pos). lra. }
    clearbody x. set (r' := lset _ _ _).
    assert (P' : physical (m_set_core m (set_r (m_core m) r'))).
    { apply physical_r; auto; [unfold r'; rewrite length_lset; exact F1|]. unfold cells, conductors. intros k Hk. rewrite Hn. rewrite HN in Hk.
      apply (psd_1 (get3 r' k 0 0)); [reflexivity|]. unfold r'. rewrite (set_row 1 (k_r (m_core m)) 0 0 x k 0 0); [|rewrite F1; lia|rewrite F2 by lia; rewrite Hn; lia|lia].
      destruct (_ && _)%bool; [exact Hx|]. change (0 <= R_ m k 0 0). unfold cells, conductors in HR. rewrite HR; [lra|lia|lia|lia]. }
    destruct (update_lr_total LR LR_complete (set_r (m_core m) r') (physical_lr _ P')) as [s' ->]. cbn [bind]. eauto. }
  destruct E as [m' E]. exists m'. exists (Cable "a" 100 200 200 [10%Z] [2%nat]), (@Wire NumR 100 (@WFloat NumR 1) (@WFloat NumR 1) (@WFloat NumR 0) None), [[0; 0; 0]; [0; 0; 1]], (@PFloat NumR 1), (@PFloat NumR 1), (@PFloat NumR 0), m, m'.
  split. { split; [exists [], []|exists [], []]; (split; [reflexivity|]); (split; [reflexivity|intros ? []]). }
  split. { exists 10%Z, [], [1; 2]%Z. split; [reflexivity|]. split; [exists [], []; (split; [reflexivity|]); (split; [reflexivity|intros ? []])|]. constructor; [|constructor; [|constructor]].
    - exists [], [(2%Z, [0; 0; 1])]. split; [reflexivity|]. split; [reflexivity|]. intros t [<-|[]]. discriminate.
    - exists [(1%Z, [0; 0; 0])], []. split; [reflexivity|]. split; [reflexivity|]. intros t []. }
  split; [now constructor|]. split; [exact Hm|]. split; [|left; now split].
  eapply (loaded_here LR dr _ (Cend [1%Z] 200) [] 1%Z 10%Z false 0 [0; 0; 0]); [| | | | |exact E|constructor].
  - exists []. split; [reflexivity|]. exists [], [1; 2]%Z, []. split; [reflexivity|]. split; [|intros ? ? []]. reflexivity.
  - split; [reflexivity|]. intros j Hj. lia.
  - exists [], [(2%Z, [0; 0; 1])]. split; [reflexivity|]. split; [reflexivity|]. intros t [<-|[]]. discriminate.
  - exists [], []. split; [reflexivity|]. split; [reflexivity|intros ? []].
  - reflexivity.
Qed.
