(** What the theorems of ShapeProps.v speak about, apart from the model *)
From Coq Require Import List Reals.
From Verif Require Import Prelude.
Import ListNotations.
Open Scope R_scope.

(** a least squares solution with m parameters of the residuals f *)
Definition sumsq (l : list R) : R := fold_right (fun x s => x * x + s) 0 l.
Definition least (f : list R -> res (list R)) (m : nat) (x : list R) : Prop :=
  length x = m /\ exists v, f x = Ok v /\ forall x' v', length x' = m -> f x' = Ok v' -> sumsq v <= sumsq v'.
(** a solver finds one for f when started at zeros *)
Definition minimises (ls : (list R -> res (list R)) -> list R -> list R) (m : nat) (f : list R -> res (list R)) : Prop := least f m (ls f (repeat 0 m)).
(** a0 + sum over i of s_i sin (i t) + c_i cos (i t), i from i0 *)
Fixpoint trig_from (i0 : nat) (l : list (R * R)) (t : R) : R :=
  match l with [] => 0 | (s, c) :: l' => s * sin (INR i0 * t) + c * cos (INR i0 * t) + trig_from (S i0) l' t end.
Definition trig (a0 : R) (l : list (R * R)) (t : R) : R := a0 + trig_from 1 l t.
(** the sum of f 0 .. f (n - 1) *)
Fixpoint total (n : nat) (f : nat -> R) : R := match n with O => 0 | S n' => total n' f + f n' end.
