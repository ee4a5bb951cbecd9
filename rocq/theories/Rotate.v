(** Model of PlaneWave.rotate_to_segment (python/src/mtl.py:59-79), in exact real arithmetic
    because it uses arctan and arccos. *)
From Coq Require Import String List Arith Bool Reals.
From Verif Require Import Num Py Arr NumR RFacts Fields.
Import ListNotations.
Local Open Scope R_scope.

(** np.arctan(a/b): numpy divides by zero without raising; a/0 is an infinity (the zero is taken as positive),
    0/0 is nan, modelled by [None] (every number computed from it is nan) *)
Definition atan_ratio (a b : R) : option R :=
  if Reqb b 0 then (if Rltb 0 a then Some (PI / 2) else if Rltb a 0 then Some (- (PI / 2)) else None)
  else Some (atan (a / b)).
(** mtl.py:61-62; [** 0.5] is the square root *)
Definition thetax (u : list R) : option R := atan_ratio (nth 1 u 0) (nth 2 u 0).
Definition thetay (u : list R) : option R := atan_ratio (- nth 0 u 0) (sqrt (nth 1 u 0 * nth 1 u 0 + nth 2 u 0 * nth 2 u 0)).
(** mtl.py:64-67, applied to a vector *)
Definition rx (th : R) (f : list R) : list R :=
  [nth 0 f 0; cos th * nth 1 f 0 - sin th * nth 2 f 0; sin th * nth 1 f 0 + cos th * nth 2 f 0].
Definition ry (th : R) (f : list R) : list R :=
  [cos th * nth 0 f 0 + sin th * nth 2 f 0; nth 1 f 0; - sin th * nth 0 f 0 + cos th * nth 2 f 0].
(** mtl.py:70: ry(thetay).dot(rx(thetax)).dot(F) *)
Definition rotation (u f : list R) : option (list R) :=
  match thetax u, thetay u with Some a, Some b => Some (ry b (rx a f)) | _, _ => None end.
(** np.sign *)
Definition nsign (x : R) : R := if Rltb 0 x then 1 else if Rltb x 0 then -1 else 0.
(** mtl.py:69: direction the angles of a wave stand for *)
Definition heading (w : planewave NumR) : list R :=
  [cos (pw_polar w); sin (pw_polar w) * cos (pw_azimuth w); sin (pw_azimuth w) * sin (pw_polar w)].
(** mtl.py:71-79; the polarization angle is passed on unchanged *)
Definition rotate_to_segment (w : planewave NumR) (u : list R) : option (planewave NumR) :=
  match rotation u (heading w) with
  | None => None
  | Some f =>
      let a := nth 0 f 0 in let b := nth 1 f 0 in let c := nth 2 f 0 in
      let polar := acos (a / sqrt (a * a + b * b + c * c)) in
      let azimuth := if Reqb b 0 && Reqb c 0 then 0 else nsign c * acos (b / sqrt (b * b + c * c)) in
      Some (@PlaneWave NumR (pw_field w) polar azimuth (pw_polarization w))
  end.
