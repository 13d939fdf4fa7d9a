(** field.py: the approximate invariant of the field lines of Dommaschk potentials (Sfunc, V_hat and U_hat of
    DommaschkPotentials, field.py:579-595, 614-628, 834-879). *)
From Coq Require Import List Reals ZArith.
From Verif Require Import Prelude FieldReal DomModel.
Import ListNotations.
Open Scope R_scope.

(** V_hat (field.py:834-851) *)
Definition V_hat (n m : nat) (a b c d : R) : expr :=
  let arg := Add (Mul (Num (INR n)) (Sym Sphi)) (Num (- (PI / 2))) in
  Add (Mul (Add (Mul (Num a) (Cos arg)) (Mul (Num b) (Sin arg))) (D n (Z.of_nat m)))
      (Mul (Add (Mul (Num c) (Cos arg)) (Mul (Num d) (Sin arg))) (N n (Z.of_nat m - 1))).
(** Piecewise((phi, i == 0), (1 / i, i > 0)): the conditions are True or False when it is made (field.py:864-877) *)
Definition piece (i : nat) : expr := if Nat.eqb i 0 then Sym Sphi else Num (/ INR i).
(** U_hat (field.py:853-879) *)
Definition U_hat (n0 n1 : nat) (A : nat -> nat -> R * R * R * R) : expr :=
  fold_left (fun U i =>
    fold_left (fun U j =>
      let '(a, b, c, d) := A i j in
      if orb (negb (zero a)) (orb (negb (zero b)) (orb (negb (zero c)) (negb (zero d)))) then Add U (Mul (V_hat i j a b c d) (piece i)) else U)
      (seq 0 n1) U)
    (seq 0 n0) (Num 0).
(** field.py:579-583 *)
Definition P_hat (n0 n1 : nat) (A : nat -> nat -> R * R * R * R) (R_0 : R) : expr :=
  subs (subs (U_hat n0 n1 A) SR (Mul (Sym SR) (Num (/ R_0)))) SZ (Mul (Sym SZ) (Num (/ R_0))).
(** S (field.py:585-590) *)
Definition S_expr (n0 n1 : nat) (A : nat -> nat -> R * R * R * R) (R_0 : R) : expr :=
  let r := Mul (Sym SR) (Num (/ R_0)) in
  let z := Mul (Sym SZ) (Num (/ R_0)) in
  Add (Mul (Num (1 / 2)) (Add (Pow (Log r) 2) (Pow z 2)))
      (Mul (Num (-1)) (Mul r (Add (Mul (Mul (Log r) (Num R_0)) (diff (P_hat n0 n1 A R_0) SR))
                                  (Mul (Mul (Mul (Sym SZ) (Sym SR)) (Num (/ R_0))) (diff (P_hat n0 n1 A R_0) SZ))))).
(** Sfunc(x, z, y) (field.py:596, 614-628) *)
Definition Sfunc n0 n1 A R_0 (x z y : R) : R := lambdify (S_expr n0 n1 A R_0) x y z.
