(** Model of python/src/probes.py (class Probe). *)
From Coq Require Import String List Arith ZArith Bool.
From Verif Require Import Num Py Arr.
Import ListNotations.

Section Probes.
Context {N : num}.
Local Open Scope num_scope.

(** [self.val].  numpy shares memory when [self.val = new_values] is executed with
    [new_values] a column slice of the line's array (probes.py:43); this state of the
    attribute is [PView]: reading it reads the line's CURRENT array. *)
Inductive pval :=
| PEmpty                                  (* np.array([]), shape (0,) *)
| PRows (rows : mat N)                    (* own 2-d array, one row per frame *)
| PView (voltage : bool) (index : nat).   (* 1-d view of v[:,index] or i[:,index] *)

Record probe := Probe {
  p_type : string;
  p_t : vec N;
  p_val : pval;
  p_index : nat;
  p_dt : N;
  p_frame : nat
}.

(** np.argmin of the distances to all nodes: probes.py:13-14, mtl.py:104,382,440,479,...
    (the np.abs before the norm does not change it) *)
Definition nearest (u : mat N) (pos : vec N) : nat :=
  argmin (map (fun x => vnorm (mk 3 (fun i => nabs (get x i - get pos i)))) u).

(** probes.py:6-17 *)
Definition probe_new (pos : vec N) (ty : string) (dt : N) (u : mat N) : probe :=
  {| p_type := ty; p_t := []; p_val := PEmpty; p_index := nearest u pos;
     p_dt := dt; p_frame := 0 |}.

(** probes.py:19-22 *)
Definition resize_frames (p : probe) (num_frames num_conductors : nat) : probe :=
  {| p_type := p_type p; p_t := zeros num_frames;
     p_val := PRows (zeros2 num_frames num_conductors);
     p_index := p_index p; p_dt := p_dt p; p_frame := 0 |}.

(** what a user sees when reading [probe.val] while the line holds [v], [i]
    ([n] conductors): the recorded rows *)
Definition probe_rows (p : probe) (n : nat) (v i : mat N) : mat N :=
  match p_val p with
  | PEmpty => []
  | PRows rows => rows
  | PView vol k => [col n (if vol then v else i) k]
  end.

(** probes.py:36-47.  [vol]/[idx] say which column the new values are a slice of.
    vstack copies; np.vstack on the one-row view copies its current contents. *)
Definition save_frame (p : probe) (time : N) (n : nat) (v i : mat N) (vol : bool) (idx : nat)
  : res probe :=
  let new := col n (if vol then v else i) idx in
  if (p_frame p <? length (p_t p))%nat then
    match p_val p with
    | PRows rows =>
        rows' <- py_set rows (p_frame p) new ;;
        Ok {| p_type := p_type p; p_t := lset (p_t p) (p_frame p) time;
              p_val := PRows rows'; p_index := p_index p; p_dt := p_dt p;
              p_frame := S (p_frame p) |}
    | _ => Err IndexError  (* unreachable: frames are only pre-allocated by resize_frames *)
    end
  else
    let val' := match p_val p with
                | PEmpty => PView vol idx
                | PRows rows => PRows (rows ++ [new])
                | PView vol0 k => PRows ([col n (if vol0 then v else i) k] ++ [new])
                end in
    Ok {| p_type := p_type p; p_t := p_t p ++ [time]; p_val := val';
          p_index := p_index p; p_dt := p_dt p; p_frame := S (p_frame p) |}.

(** probes.py:24-34; [n] conductors, [cells] = i.shape[1].  Column slicing raises
    IndexError when the index is out of range. *)
Definition probe_update (p : probe) (t : N) (n cells : nat) (v i : mat N) : res probe :=
  if String.eqb (p_type p) "voltage" then
    if (p_index p <? S cells)%nat then save_frame p t n v i true (p_index p)
    else Err IndexError
  else if String.eqb (p_type p) "current" then
    let t' := t + p_dt p / n2 in
    if (p_index p =? cells)%nat then save_frame p t' n v i false (p_index p - 1)
    else if (p_index p <? cells)%nat then save_frame p t' n v i false (p_index p)
    else Err IndexError
  else Err ValueError.

End Probes.
Arguments probe N : clear implicits.
Arguments pval N : clear implicits.
