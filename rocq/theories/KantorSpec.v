(** Vocabulary for the convergence of the index search. *)
From Coq Require Import List ZArith QArith Qabs Qminmax.
From Verif Require Import Prelude PolModel.
Open Scope Q_scope.

Section Grid.
Variable nx nz : Z.
Variable splR splZ : nat -> nat -> Q -> Q -> Q.
Variable nearest : Q * Q -> Z.

(** A spline at the toroidal index z, taken around the period *)
Definition at_index (s : nat -> nat -> Q -> Q -> Q) (d e : nat) (x z : Q) : Q := s d e x (qrem z (inject_Z nz) + inject_Z nz).
(** The grid point nearest to a target, and the larger of the two differences there *)
Definition near_x (t : Q * Q) : Q := inject_Z (nearest t / nz).
Definition near_z (t : Q * Q) : Q := inject_Z (nearest t mod nz).
Definition residual (t : Q * Q) (x z : Q) : Q :=
  Qmax (Qabs (at_index splR 0 0 x z - fst t)) (Qabs (at_index splZ 0 0 x z - snd t)).
Definition r0 (t : Q * Q) : Q := residual t (near_x t) (near_z t).
(** The square of indices around that point *)
Definition around (t : Q * Q) (rho x z : Q) : Prop := Qabs (x - near_x t) <= rho /\ Qabs (z - near_z t) <= rho.

(** In the square of half width 2 beta r0 around the nearest grid point, which is
    away from the boundary rows, the inverse of the derivative is bounded by beta
    and the coordinates are linear up to L/2 times the square of the distance,
    with L beta^2 r0 <= 1 (the condition of Kantorovich) *)
Record regular (t : Q * Q) (beta L : Q) : Prop := {
  k_beta : 0 <= beta;
  k_L : 0 <= L;
  k_kantorovich : L * beta * beta * r0 t <= 1;
  k_row : 1 # 2 <= near_x t - 2 * beta * r0 t /\ near_x t + 2 * beta * r0 t <= inject_Z nx - (3 # 2);
  k_inverse : forall x z, around t (2 * beta * r0 t) x z ->
    let Rx := at_index splR 1 0 x z in let Rz := at_index splR 0 1 x z in let Zx := at_index splZ 1 0 x z in let Zz := at_index splZ 0 1 x z in
    let det := Rx * Zz - Rz * Zx in
    ~ det == 0 /\ Qabs Zz + Qabs Rz <= beta * Qabs det /\ Qabs Rx + Qabs Zx <= beta * Qabs det;
  k_linear : forall x z x' z' h, around t (2 * beta * r0 t) x z -> around t (2 * beta * r0 t) x' z' -> Qabs (x' - x) <= h -> Qabs (z' - z) <= h ->
    Qabs (at_index splR 0 0 x' z' - at_index splR 0 0 x z - (at_index splR 1 0 x z * (x' - x) + at_index splR 0 1 x z * (z' - z))) <= L / 2 * (h * h) /\
    Qabs (at_index splZ 0 0 x' z' - at_index splZ 0 0 x z - (at_index splZ 1 0 x z * (x' - x) + at_index splZ 0 1 x z * (z' - z))) <= L / 2 * (h * h) }.

(** The nearest grid point is in a boundary row, where the coordinates are regular *)
Definition at_boundary (t : Q * Q) : Prop :=
  (nearest t / nz = 0 \/ nearest t / nz = nx - 1)%Z /\
  forall x z, x == near_x t -> z == near_z t ->
    ~ at_index splR 1 0 x z * at_index splZ 0 1 x z - at_index splR 0 1 x z * at_index splZ 1 0 x z == 0.

(** The answer for both kinds of targets *)
Definition found (tol : Q) (t : Q * Q) (beta : Q) (p : fl * fl) : Prop :=
  exists x z, p = (Fin x, Fin z) /\ around t (2 * beta * r0 t) x z /\
    (at_index splR 0 0 x z - fst t) * (at_index splR 0 0 x z - fst t) + (at_index splZ 0 0 x z - snd t) * (at_index splZ 0 0 x z - snd t) < tol.
Definition marked (t : Q * Q) (p : fl * fl) : Prop :=
  exists z, p = (Fin (if (nearest t / nz =? 0)%Z then -(1) else inject_Z nx), Fin z) /\ z == near_z t.
End Grid.
