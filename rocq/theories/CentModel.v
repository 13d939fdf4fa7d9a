(** toCent (stencil_dagp_fv.py:22-25): the centres of the cells between grid points.  One
    of the two coordinates (the first axis of RZ) as a list of rows, one for each radial
    index, each with a value for each poloidal index. *)
From Coq Require Import List ZArith QArith.
From Verif Require Import Prelude SmoothModel.
Import ListNotations.
Open Scope Q_scope.

(** the sum of two arrays of the same shape *)
Definition add1 (a b : list Q) : list Q := map (fun p => fst p + snd p) (combine a b).
Definition add2 (a b : list (list Q)) : list (list Q) := map (fun p => add1 (fst p) (snd p)) (combine a b).
(** toCent (stencil_dagp_fv.py:22-25) *)
Definition toCent (RZ : list (list Q)) : list (list Q) :=
  let RZc := add2 RZ (map (rollz 1) RZ) in
  let RZc := add2 (tl RZc) (removelast RZc) in
  map (map (fun v => v / 4)) RZc.
