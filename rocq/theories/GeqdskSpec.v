(** Vocabulary for the statements about GEQDSK: what is asked of scipy's splines. *)
From Coq Require Import List ZArith QArith.
From Verif Require Import Prelude GeqdskModel.
Import ListNotations.
Open Scope Q_scope.

(** the same number, or both not finite *)
Definition same (a b : option Q) : Prop :=
  match a, b with Some a, Some b => a == b | None, None => True | _, _ => False end.

(** A spline over a mesh, of degree 3 each way, goes through the values it was made from,
    one for each pair of an entry of the first axis and an entry of the second. *)
Definition through_mesh (rect_spline : list Q -> list Q -> array2 (option Q) -> res spline2) : Prop :=
  forall xs ys a s, rect_spline xs ys a = Ok s ->
    length xs = len0 a /\ length ys = len1 a /\ (4 <= len0 a)%nat /\ (4 <= len1 a)%nat /\
    forall i j, (i < len0 a)%nat -> (j < len1 a)%nat -> same (ev s (nth i xs 0) (nth j ys 0)) (cell a i j).
(** A spline over a line, of degree 3 and made with ext=3, goes through its values and
    keeps the first and the last beyond the ends. *)
Definition through_line (line_spline : list Q -> list Q -> nat -> res (Q -> Q)) : Prop :=
  forall xs vs f, line_spline xs vs 3%nat = Ok f ->
    length xs = length vs /\ (4 <= length xs)%nat /\ (forall s t, s == t -> f s == f t) /\
    (forall k, (k < length xs)%nat -> f (nth k xs 0) == nth k vs 0) /\
    (forall t, t <= nth 0 xs 0 -> f t == nth 0 vs 0) /\
    (forall t, last xs 0 <= t -> f t == last vs 0).
