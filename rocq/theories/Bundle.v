(** Model of class MTLD (python/src/mtl.py:604-997): concentric levels of lines. *)
From Coq Require Import String List Arith ZArith Bool.
From Verif Require Import Num Py Arr Utils Probes Dispersive Line.
Import ListNotations.

Section Bundle.
Context {N : num}.
Local Open Scope num_scope.
Variable LA : lapack N.

Record bundle := Bundle {
  b_name : string;
  b_u : mat N;
  b_du : mat N;
  b_core : core N;
  b_levels : list (list (mtl N));   (* dict with keys 0..L-1 in order *)
  b_cil : list nat;                 (* conductors_in_level *)
  b_probes : list (probe N)
}.
Definition b_set (b : bundle) (s : core N) (ps : list (probe N)) : bundle :=
  {| b_name := b_name b; b_u := b_u b; b_du := b_du b; b_core := s;
     b_levels := b_levels b; b_cil := b_cil b; b_probes := ps |}.
Definition b_set_core (b : bundle) (s : core N) : bundle := b_set b s (b_probes b).

(** repeated block_diag over lines (mtl.py:653-666): size and matrix *)
Definition bd_lines (sel : mtl N -> mat N) (lines : list (mtl N)) : nat * mat N :=
  fold_left (fun acc m => let n := k_n (m_core m) in
               ((fst acc + n)%nat, block_diag (fst acc) (snd acc) n (sel m)))
            lines (0%nat, []).

(** the same for the object arrays q1, q2, q3; scipy fills with the number 0 *)
Definition qblock_diag (a : nat) (A : list (list (qe N))) (b : nat) (B : list (list (qe N)))
  : list (list (qe N)) :=
  mk2 (a + b) (a + b) (fun i j =>
    if (i <? a)%nat then (if (j <? a)%nat then qget2 A i j else qzero)
    else (if (j <? a)%nat then qzero else qget2 B (i - a) (j - a))).
Definition qbd_lines (sel : mtl N -> list (list (qe N))) (lines : list (mtl N))
  : nat * list (list (qe N)) :=
  fold_left (fun acc m => let n := k_n (m_core m) in
               ((fst acc + n)%nat, qblock_diag (fst acc) (snd acc) n (sel m)))
            lines (0%nat, []).

(** np.array_equal on node arrays *)
Definition vec_eqb (a b : vec N) : bool :=
  (length a =? length b)%nat && forallb (fun k => get a k =? get b k) (seq 0 (length a)).
Definition u_eqb (a b : mat N) : bool :=
  (length a =? length b)%nat &&
  forallb (fun k => vec_eqb (nth k a []) (nth k b [])) (seq 0 (length a)).

(** conductors in a list of lines *)
Definition count_conductors (ls : list (mtl N)) : nat :=
  fold_left (fun n m => (n + k_n (m_core m))%nat) ls 0%nat.

(** mtl.py:608-709.  Level keys are 0,1,2,... in order (the parser builds them so). *)
Definition mtld_new (levels : list (list (mtl N))) (name : string) : res bundle :=
  match levels with
  | [] => Err KeyError
  | [outer] :: _ =>
      let lines := concat levels in
      _ <- foldM (fun _ m => passert (u_eqb (m_u outer) (m_u m))) lines tt ;;
      let cells := (length (m_u outer) - 1)%nat in
      let n := count_conductors lines in
      let dt := fold_left (fun dt m => if k_dt (m_core m) <? dt then k_dt (m_core m) else dt)
                          lines n1e10 in
      let bd (sel : core N -> ten N) k := snd (bd_lines (fun m => getm (sel (m_core m)) k) lines) in
      let qbd (sel : disp N -> list (list (list (qe N)))) k :=
        snd (qbd_lines (fun m => nth k (sel (k_disp (m_core m))) []) lines) in
      let dd (sel : disp N -> ten N) k :=
        snd (bd_lines (fun m => getm (sel (k_disp (m_core m))) k) lines) in
      let q1 := mk cells (qbd ds_q1) in
      let q2 := mk cells (qbd ds_q2) in
      let q3 := mk cells (qbd ds_q3) in
      let base := disp_new n cells (m_u outer) dt in
      let ti := {| ds_n := n; ds_nx := cells; ds_u := m_u outer; ds_dt := dt;
                   ds_phi := ds_phi base; ds_q1 := q1; ds_q2 := q2; ds_q3 := q3;
                   ds_q3phi := ds_q3phi base;
                   ds_d := mk cells (dd ds_d); ds_e := mk cells (dd ds_e);
                   ds_q1sum := qsum3 q1; ds_q2sum := qsum3 q2 |} in
      Ok {| b_name := name; b_u := m_u outer; b_du := m_du outer;
            b_core := {| k_n := n; k_N := cells;
                         k_h := mk cells (fun k => mscal n (get3 (k_h (m_core outer)) k 0 0) (eye n));
                         k_l := mk cells (bd k_l); k_r := mk cells (bd k_r);
                         k_c := mk (S cells) (bd k_c); k_g := mk (S cells) (bd k_g);
                         k_dt := dt; k_disp := ti;
                         k_v := zeros2 n (S cells); k_i := zeros2 n cells;
                         k_eL := mk2 n cells (fun _ _ _ => n0);
                         k_eT := mk2 n (S cells) (fun _ _ _ => n0);
                         k_lr := None; k_cg := None |};
            b_levels := levels;
            b_cil := map count_conductors levels;
            b_probes := [] |}
  | _ => Err AssertionError
  end.

(** Python indexing with possibly negative index *)
Definition pyidx (len : nat) (z : Z) : option nat :=
  if (0 <=? z)%Z then (if (z <? Z.of_nat len)%Z then Some (Z.to_nat z) else None)
  else if (0 <=? z + Z.of_nat len)%Z then Some (Z.to_nat (z + Z.of_nat len)) else None.
Definition py_getZ {A} (l : list A) (z : Z) : res A :=
  match pyidx (length l) z with
  | Some k => py_get l k
  | None => Err IndexError
  end.

Definition fdict := list (Z * N).
Definition fset (z : Z) (x : N) (d : fdict) : fdict := dset Z.eqb z x d.

(** mtl.py:729-748 *)
Definition start_factors (u du : mat N) (start : vec N) (si : Z) (d : fdict) : res fdict :=
  us <- py_getZ u si ;;
  let off := vsub start us in
  if (n1em10 <? vnorm off) && negb (si =? 0)%Z then
    dprev <- py_getZ du (si - 1) ;;
    dcurr <- py_getZ du si ;;
    let cross_prev := vnorm (vcross dprev off) in
    let cross_curr := vnorm (vcross dcurr off) in
    if (cross_prev <? n1em10) && (cross_curr <? n1em10) then
      if vdot off dcurr <? n0 then Ok (fset (si - 1) (vnorm off / vnorm dprev) d)
      else if n0 <? vdot off dcurr then Ok (fset si (n1 - vnorm off / vnorm dcurr) d)
      else Ok d
    else if cross_prev <? n1em10 then Ok (fset (si - 1) (vnorm off / vnorm dprev) d)
    else if cross_curr <? n1em10 then Ok (fset si (n1 - vnorm off / vnorm dcurr) d)
    else Ok d
  else Ok d.

(** mtl.py:750-771; the test [end_index != self.u.shape[0]] is always true *)
Definition end_factors (u du : mat N) (end_ : vec N) (ei : Z) (d : fdict) : res fdict :=
  ue <- py_getZ u ei ;;
  let off := vsub end_ ue in
  if n1em10 <? vnorm off then
    dprev <- py_getZ du (ei - 1) ;;
    dcurr <- py_getZ du ei ;;
    let cross_prev := vnorm (vcross dprev off) in
    let cross_curr := vnorm (vcross dcurr off) in
    if (cross_prev <? n1em10) && (cross_curr <? n1em10) then
      if vdot off dcurr <? n0 then
        Ok (fset ei n0 (fset (ei - 1) (n1 - vnorm off / vnorm dprev) d))
      else if n0 <? vdot off dcurr then Ok (fset ei (vnorm off / vnorm dcurr) d)
      else Ok d
    else if cross_prev <? n1em10 then
      Ok (fset ei n0 (fset (ei - 1) (n1 - vnorm off / vnorm dprev) d))
    else if cross_curr <? n1em10 then Ok (fset ei (vnorm off / vnorm dcurr) d)
    else Ok d
  else Ok d.

(** [self.e_L[conductor, index] = f] with a possibly negative index *)
Definition set_eL (n cells : nat) (eL : list (list (N -> N))) (c : nat) (z : Z)
    (upd : (N -> N) -> (N -> N)) : res (list (list (N -> N))) :=
  match pyidx cells z with
  | Some k => if (c <? n)%nat
              then Ok (upd2 eL c k (upd (nth k (nth c eL []) (fun _ => n0))))
              else Err IndexError
  | None => Err IndexError
  end.

(** mtl.py:712-777 *)
Definition add_localized_longitudinal_field (b : bundle) (start end_ : posarg N)
    (conductor : nat) (magnitude : N -> N) (source_type : string) : res bundle :=
  let s := b_core b in
  let st := pos_vec start in let en := pos_vec end_ in
  if out_of_box (b_u b) st || out_of_box (b_u b) en then Err ValueError else
  let si := Z.of_nat (nearest (b_u b) st) in
  let ei := Z.of_nat (nearest (b_u b) en) in
  let d0 := map (fun k => (si + Z.of_nat k, n1)%Z) (seq 0 (Z.to_nat (ei - si))) in
  d1 <- start_factors (b_u b) (b_du b) st si d0 ;;
  d2 <- end_factors (b_u b) (b_du b) en ei d1 ;;
  eL' <- foldM (fun eL kf =>
           let '(z, factor) := kf in
           let k := if String.eqb source_type "Planewave" then factor / nofZ (ei - si)
                    else factor in
           set_eL (k_n s) (k_N s) eL conductor z
             (fun old => fun t => old t + multiply magnitude k t)) d2 (k_eL s) ;;
  Ok (b_set_core b (set_fields s eL' (k_eT s))).

(** mtl.py:783-794: is the position on some cell, or on one more cell appended after the
    last node? *)
Fixpoint probe_on_cells (dus : mat N) (start last : vec N) (p : vec N) : bool :=
  match dus with
  | [] => point_in_line p start (vadd start last)
  | du :: rest => point_in_line p start (vadd start du)
                  || probe_on_cells rest (vadd start du) du p
  end.

(** mtl.py:779-802 *)
Definition bundle_add_probe (b : bundle) (p : posarg N) (ty : string) : res bundle :=
  if probe_on_cells (b_du b) (nth 0 (b_u b) []) [] (pos_vec p)
  then Ok (b_set b (b_core b)
             (b_probes b ++ [probe_new (pos_vec p) ty (k_dt (b_core b)) (b_u b)]))
  else Err ValueError.

(** mtl.py:933-942 *)
Definition bundle_add_transfer_impedance (b : bundle) (out_level : nat) (out_cond : list nat)
    (in_level : nat) (in_cond : list nat) (m : ratmodel N) : res bundle :=
  d <- add_transfer_impedance (k_disp (b_core b)) (b_cil b) out_level out_cond in_level in_cond m ;;
  Ok (b_set_core b (set_disp (b_core b) d)).

(** mtl.py:944-962 *)
Definition set_connector_transfer_impedance (b : bundle) (side : string)
    (out_level : nat) (out_cond : list nat) (in_level : nat) (in_cond : list nat)
    (m : ratmodel N) : res bundle :=
  let s := b_core b in
  index <- (if String.eqb side "initial" then Ok 0%nat
            else if String.eqb side "end" then Ok (k_N s - 1)%nat
            else Err GenericException) ;;
  d <- set_transfer_impedance_at_index (k_disp s) (b_cil b) out_level out_cond in_level in_cond
         index m ;;
  Ok (b_set_core b (set_disp s d)).

(** mtl.py:964-979: no clamping of the last node; [self.du[index1]] raises there *)
Definition bundle_set_resistance (b : bundle) (start end_ : posarg N) (c : nat) (R : N) : res bundle :=
  let s := b_core b in
  _ <- assert_ge end_ start ;;
  let i1 := nearest (b_u b) (pos_vec start) in
  let i2 := nearest (b_u b) (pos_vec end_) in
  x <- (if negb (i1 =? i2)%nat
        then Ok (R / vnorm (vsub (nth i2 (b_u b) []) (nth i1 (b_u b) [])))
        else du <- py_get (b_du b) i1 ;; Ok (R / vnorm du)) ;;
  r' <- region_assign (k_n s) (k_r s) i1 i2 c x ;;
  s' <- update_lr_terms LA (set_r s r') ;;
  Ok (b_set_core b s').

(** mtl.py:981-997 *)
Definition bundle_add_conductance (b : bundle) (start end_ : posarg N) (c : nat) (G : N) : res bundle :=
  let s := b_core b in
  _ <- assert_ge end_ start ;;
  let i1 := nearest (b_u b) (pos_vec start) in
  let i2 := nearest (b_u b) (pos_vec end_) in
  x <- (if negb (i1 =? i2)%nat
        then Ok (G / vnorm (vsub (nth i2 (b_u b) []) (nth i1 (b_u b) [])))
        else du <- py_get (b_du b) i1 ;; Ok (G / vnorm du)) ;;
  g' <- region_assign (k_n s) (k_g s) i1 i2 c x ;;
  s' <- update_cg_terms LA (set_g s g') ;;
  Ok (b_set_core b s').

End Bundle.
Arguments bundle N : clear implicits.
