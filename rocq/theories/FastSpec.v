(** What the theorems of FastProps.v speak about, apart from the model *)
From Coq Require Import List Reals Permutation Sorted.
Import ListNotations.
Open Scope R_scope.

(** an argsort: the indices in an order in which the values do not decrease *)
Definition sorts (argsort : list R -> list nat) : Prop := forall keys,
  Permutation (argsort keys) (seq 0 (length keys)) /\ StronglySorted Rle (map (fun i => nth i keys 0) (argsort keys)).
(** twice the area of a triangle, positive if it is anticlockwise *)
Definition orient (a b c : R * R) : R := (fst b - fst a) * (snd c - snd a) - (fst c - fst a) * (snd b - snd a).
(** the corners of a strictly convex polygon, anticlockwise *)
Definition convex (n : nat) (P : nat -> R * R) : Prop := forall i j k, (i < j)%nat -> (j < k)%nat -> (k < n)%nat -> 0 < orient (P i) (P j) (P k).
Fixpoint sum (n : nat) (f : nat -> R) : R := match n with O => 0 | S n' => sum n' f + f n' end.
(** the mean of the corners *)
Definition centre (n : nat) (P : nat -> R * R) : R * R := (sum n (fun k => fst (P k)) / INR n, sum n (fun k => snd (P k)) / INR n).
(** the corners of a polygon around the point c, anticlockwise, seen from c under
    increasing angles within one turn *)
Definition around (n : nat) (c : R * R) (P : nat -> R * R) : Prop := exists t rho : nat -> R,
  (forall k, (k < n)%nat -> 0 < rho k /\ P k = (fst c + rho k * cos (t k), snd c + rho k * sin (t k))) /\
  (forall j k, (j < k)%nat -> (k < n)%nat -> t j < t k /\ t k < t j + 2 * PI).
(** the same cyclic list with another start *)
Definition rotation {A} (l l' : list A) : Prop := exists a b, l = a ++ b /\ l' = b ++ a.
(** points seen from c anticlockwise, starting straight below it, within one turn *)
Definition seen (n : nat) (c : R * R) (P : nat -> R * R) : Prop := exists t rho : nat -> R,
  (forall k, (k < n)%nat -> 0 <= rho k /\ - (PI / 2) <= t k < 3 * (PI / 2) /\ P k = (fst c + rho k * cos (t k), snd c + rho k * sin (t k))) /\
  (forall j k, (j < k)%nat -> (k < n)%nat -> t j <= t k).
