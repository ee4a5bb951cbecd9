(** Model of python/src/utils.py. *)
From Coq Require Import List ZArith Bool.
From Verif Require Import Num Py Arr.

Section Utils.
Context {N : num}.
Local Open Scope num_scope.

(** A value that Python code passes where a source is expected: an [int] (0 for "no
    source") or a function of t.  Simplification: the check that the function's variable
    is called 't' (utils.py:17,20,23,24,29) is not modelled; all functions given by the
    code base satisfy it. *)
Inductive tfun :=
| TInt (z : Z)
| TFun (f : N -> N).

(** utils.py:13-25 *)
Definition add_t_functions (f1 f2 : tfun) : tfun :=
  match f1, f2 with
  | TInt _, TInt _ => TInt 0
  | TInt _, TFun g => TFun (fun t => g t)
  | TFun f, TInt _ => TFun (fun t => f t)
  | TFun f, TFun g => TFun (fun t => f t + g t)
  end.

(** utils.py:27-29 *)
Definition multiply (f : N -> N) (k : N) : N -> N := fun t => k * f t.

(** utils.py:31-39 *)
Definition point_in_line (point start end_ : vec N) : bool :=
  let v1 := vsub start end_ in
  let v2 := vsub start point in
  let line_norm := vnorm (vsub start end_) in
  let cross := vcross v1 v2 in
  (vnorm cross <? n1em6) && (vnorm (vsub start point) <=? line_norm)
  && (vnorm (vsub end_ point) <=? line_norm).

End Utils.
Arguments tfun N : clear implicits.
