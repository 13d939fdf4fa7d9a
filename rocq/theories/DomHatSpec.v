(** Vocabulary for the statements about the approximate invariant of Dommaschk potentials. *)
From Coq Require Import List Reals ZArith.
From Verif Require Import Prelude FieldReal CoilSpec DomModel DomHatModel.
Open Scope R_scope.

(** the table with all coefficients multiplied by eps *)
Definition scaled (eps : R) (A : nat -> nat -> R * R * R * R) (i j : nat) : R * R * R * R :=
  let '(a, b, c, d) := A i j in (eps * a, eps * b, eps * c, eps * d).
(** Rfunc: R is x (field.py:630-640) *)
Definition radius (x z phi : R) : R := x.
(** Along every field line of a small multiple of the table A that stays in r1 <= R <= r2, |Z| <= zm, the invariant
    changes by at most a constant times the square of the multiple, per unit of the toroidal angle. *)
Definition second_order n0 n1 A R_0 r1 r2 zm : Prop :=
  exists e0 C, 0 < e0 /\ forall eps B_0 X Z a b, Rabs eps <= e0 -> a <= b ->
    field_line (dom_Bx n0 n1 (scaled eps A) R_0 B_0) (dom_By n0 n1 (scaled eps A) R_0 B_0) (dom_Bz n0 n1 (scaled eps A) R_0 B_0) radius X Z a b ->
    (forall s, a <= s <= b -> r1 <= X s <= r2 /\ Rabs (Z s) <= zm) ->
    Rabs (Sfunc n0 n1 (scaled eps A) R_0 (X b) (Z b) b - Sfunc n0 n1 (scaled eps A) R_0 (X a) (Z a) a) <= C * eps ^ 2 * (b - a).
(** one coefficient a or b of the mode with n = 0 and m = 2 *)
Definition mode02 (a b : R) (i j : nat) : R * R * R * R := match i, j with 0%nat, 2%nat => (a, b, 0, 0) | _, _ => (0, 0, 0, 0) end.
(** the sum of the modes, with the dependence on phi integrated where there is one, and with - b and - d for a and c
    where there is none *)
Definition integrated (n0 n1 : nat) (A : nat -> nat -> R * R * R * R) (R_0 x z phi : R) : R :=
  rsum (map (fun i => rsum (map (fun j => let '(a, b, c, d) := A i j in
    if Nat.eqb i 0 then - (b * lambdify (D i (Z.of_nat j)) (x / R_0) phi (z / R_0) + d * lambdify (N i (Z.of_nat j - 1)) (x / R_0) phi (z / R_0)) * phi
    else ((a * sin (INR i * phi) - b * cos (INR i * phi)) * lambdify (D i (Z.of_nat j)) (x / R_0) phi (z / R_0) +
          (c * sin (INR i * phi) - d * cos (INR i * phi)) * lambdify (N i (Z.of_nat j - 1)) (x / R_0) phi (z / R_0)) / INR i) (seq 0 n1))) (seq 0 n0)).
