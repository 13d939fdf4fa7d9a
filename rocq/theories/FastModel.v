(** line_from_points_fast (rzline.py:470-482).  Floats are exact real numbers. *)
From Coq Require Import List Reals.
From Verif Require Import Prelude FieldReal ShapeModel.
Import ListNotations.
Open Scope R_scope.

(** np.mean; that of nothing is not a number *)
Definition mean (l : list R) : R := rsum l / INR (length l).
Section Fast.
(** np.argsort: the order of equal values is not fixed *)
Variable argsort : list R -> list nat.
(** for rarray and zarray of the same length (others do not broadcast, but for a single
    value), given as one list of points; np.arctan2( *dist) has the radial part first, so
    the angle is that from the Z axis, clockwise *)
Definition fast (pts : list (R * R)) : res (list (R * R)) :=
  let rc := mean (map fst pts) in
  let zc := mean (map snd pts) in
  let angle := map (fun p => atan2 (fst p - rc) (snd p - zc)) pts in
  let ind := argsort angle in
  rz_init (map (fun i => nth i (map fst pts) 0) ind) (map (fun i => nth i (map snd pts) 0) ind).
End Fast.
