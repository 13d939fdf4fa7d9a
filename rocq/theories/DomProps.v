(** Property C77. *)
From Coq Require Import List Reals ZArith Lra Lia.
From Verif Require Import Prelude FieldReal CoilSpec DomModel DomSpec DomField.
Import ListNotations.
Open Scope R_scope.

(** C77: for every toroidal mode number n and every v, D is the harmonic function with
    the value z^v/v! and no slope at R = 1, *)
Theorem C77_dirichlet n v a b :
  harmonic (fun x z phi => (a * cos (INR n * phi) + b * sin (INR n * phi)) * lambdify (D n (Z.of_nat v)) x phi z) /\
  (forall z phi, lambdify (D n (Z.of_nat v)) 1 phi z = zpower v z) /\
  (forall z phi, d_x (fun x z phi => lambdify (D n (Z.of_nat v)) x phi z) 1 z phi 0).
Proof.
  split; [exact (D_harmonic n (Z.of_nat v) _ _ ltac:(lia) (trig_d1 n a b) (trig_d2 n a b))|].
  split; intros z phi; [exact (proj1 (D_boundary n v z phi))|exact (proj2 (D_boundary n v z phi))].
Qed.
Print Assumptions C77_dirichlet.
(** and N the one with the value 0 and the slope z^v/v! there, *)
Theorem C77_neumann n v a b :
  harmonic (fun x z phi => (a * cos (INR n * phi) + b * sin (INR n * phi)) * lambdify (N n (Z.of_nat v)) x phi z) /\
  (forall z phi, lambdify (N n (Z.of_nat v)) 1 phi z = 0) /\
  (forall z phi, d_x (fun x z phi => lambdify (N n (Z.of_nat v)) x phi z) 1 z phi (zpower v z)).
Proof.
  split; [exact (N_harmonic n (Z.of_nat v) _ _ ltac:(lia) (trig_d1 n a b) (trig_d2 n a b))|].
  split; intros z phi; [exact (proj1 (N_boundary n v z phi))|exact (proj2 (N_boundary n v z phi))].
Qed.
Print Assumptions C77_neumann.
(** and zero for v = -1. *)
Theorem C77_neumann_below n x phi z : lambdify (N n (-1)) x phi z = 0.
Proof. exact (N_minus n x phi z). Qed.
Print Assumptions C77_neumann_below.
(** The potential is phi plus the sum over all modes, at lengths in units of R_0. *)
Theorem C77_superposition n0 n1 A R_0 x phi z : lambdify (P n0 n1 A R_0) x phi z =
  phi + rsum (map (fun i => rsum (map (fun j => let '(a, b, c, d) := A i j in
    (a * cos (INR i * phi) + b * sin (INR i * phi)) * lambdify (D i (Z.of_nat j)) (x / R_0) phi (z / R_0) +
    (c * cos (INR i * phi) + d * sin (INR i * phi)) * lambdify (N i (Z.of_nat j - 1)) (x / R_0) phi (z / R_0)) (seq 0 n1))) (seq 0 n0)).
Proof. exact (P_sum n0 n1 A R_0 x phi z). Qed.
Print Assumptions C77_superposition.
(** The field is the gradient of a multiple of the potential, *)
Theorem C77_curl_free n0 n1 A R_0 B_0 : 0 < R_0 ->
  gradient (fun x z phi => R_0 / Byf n0 n1 A R_0 R_0 0 0 * B_0 * lambdify (P n0 n1 A R_0) x phi z)
    (dom_Bx n0 n1 A R_0 B_0) (dom_By n0 n1 A R_0 B_0) (dom_Bz n0 n1 A R_0 B_0).
Proof. exact (field_gradient n0 n1 A R_0 B_0). Qed.
Print Assumptions C77_curl_free.
(** has no divergence, whatever the table of coefficients, *)
Theorem C77_divergence_free n0 n1 A R_0 B_0 x z phi : 0 < R_0 -> 0 < x ->
  cylindrical_divergence (dom_Bx n0 n1 A R_0 B_0) (dom_By n0 n1 A R_0 B_0) (dom_Bz n0 n1 A R_0 B_0) x z phi 0.
Proof. exact (fun HR => field_divergence n0 n1 A R_0 B_0 HR x z phi). Qed.
Print Assumptions C77_divergence_free.
(** has the toroidal field B_0 on the axis, *)
Theorem C77_axis n0 n1 A R_0 B_0 : Byf n0 n1 A R_0 R_0 0 0 <> 0 -> dom_By n0 n1 A R_0 B_0 R_0 0 0 = B_0.
Proof. exact (field_axis n0 n1 A R_0 B_0). Qed.
Print Assumptions C77_axis.
(** and is periodic in the toroidal angle. *)
Theorem C77_periodic n0 n1 A R_0 B_0 x z phi : 0 < R_0 -> 0 < x ->
  dom_Bx n0 n1 A R_0 B_0 x z (phi + 2 * PI) = dom_Bx n0 n1 A R_0 B_0 x z phi /\
  dom_By n0 n1 A R_0 B_0 x z (phi + 2 * PI) = dom_By n0 n1 A R_0 B_0 x z phi /\
  dom_Bz n0 n1 A R_0 B_0 x z (phi + 2 * PI) = dom_Bz n0 n1 A R_0 B_0 x z phi.
Proof. exact (fun HR => field_period n0 n1 A R_0 B_0 HR x z phi). Qed.
Print Assumptions C77_periodic.
(** A table of axisymmetric modes only leaves the toroidal field B_0 R_0 / R, and an
    empty one nothing else. *)
Theorem C77_axisymmetric n0 n1 A R_0 B_0 x z phi : 0 < R_0 -> (n0 <= 1)%nat -> 0 < x -> dom_By n0 n1 A R_0 B_0 x z phi = B_0 * R_0 / x.
Proof. exact (fun HR => axisymmetric_By n0 n1 A R_0 B_0 HR x z phi). Qed.
Print Assumptions C77_axisymmetric.
Theorem C77_empty n0 n1 A R_0 B_0 x z phi : 0 < R_0 -> (forall i j, A i j = (0, 0, 0, 0)) -> 0 < x ->
  dom_Bx n0 n1 A R_0 B_0 x z phi = 0 /\ dom_By n0 n1 A R_0 B_0 x z phi = B_0 * R_0 / x /\ dom_Bz n0 n1 A R_0 B_0 x z phi = 0.
Proof. exact (fun HR => empty_field n0 n1 A R_0 B_0 HR x z phi). Qed.
Print Assumptions C77_empty.
(** D with n = 0 and v = 2, and a field with a mode in it *)
Example C77_example x phi z : 0 < x -> lambdify (D 0 2) x phi z = z ^ 2 / 2 + 1 / 4 - x ^ 2 / 4 + ln x / 2 /\
  Byf 1 3 (fun _ _ => (1, 0, 0, 0)) 2 2 0 0 <> 0.
Proof.
  intros H. split; [exact (D_0_2 x phi z H)|]. rewrite axisymmetric_axis; [lra|lra|lia].
Qed.
