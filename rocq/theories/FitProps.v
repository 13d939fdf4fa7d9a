(** Property C92: the curve fitted by smooth. *)
From Coq Require Import List Reals Lra.
From Verif Require Import FitModel FitSpec FitProofs.
Import ListNotations.
Open Scope R_scope.

(** The curve starts at the first point of the run. *)
Theorem C92_start r0 x : curve r0 x 0 = r0.
Proof. unfold curve. destruct r0. cbn [fst snd]. f_equal; field. Qed.
Print Assumptions C92_start.
(** The equations A x = b say that it ends at the last one, and that it is parallel to the line before it at the
    start and after it at the end. *)
Theorem C92_conditions rm r0 r1 rp x v0 v1 : velocity (curve r0 x) 0 v0 -> velocity (curve r0 x) 1 v1 ->
  (firstn 4 (residuals rm r0 r1 rp x) = [0; 0; 0; 0] <-> curve r0 x 1 = r1 /\ parallel (step rm r0) v0 /\ parallel (step rp r1) v1).
Proof.
  intros H0 H1. rewrite (velocity_unique _ _ _ _ H0 (curve_velocity r0 x 0)), (velocity_unique _ _ _ _ H1 (curve_velocity r0 x 1)). exact (conditions rm r0 r1 rp x).
Qed.
Print Assumptions C92_conditions.
(** lenofs is the mean of its speed at 100 points. *)
Theorem C92_speed r0 x s v : velocity (curve r0 x) s v -> speed x s = sqrt (norm2 v).
Proof. intros H. rewrite (velocity_unique _ _ _ _ H (curve_velocity r0 x s)). exact (speed_vel x s). Qed.
Print Assumptions C92_speed.
(** The last two terms are the squares of the second derivative at the end and at the start. *)
Theorem C92_curvature r0 x (v : R -> pt) a0 a1 : (forall s, velocity (curve r0 x) s (v s)) -> velocity v 0 a0 -> velocity v 1 a1 ->
  curv x = (norm2 a1 / 1000, norm2 a0 / 1000).
Proof. exact (curvature r0 x v a0 a1). Qed.
Print Assumptions C92_curvature.
(** Coefficients at least as good as those of the curve that stops at both ends (so any best
    ones) end near the last point and are nearly parallel: a run of length d is missed by less than
    (d/66000)^2 + (d^2/19)^2, squared.  Missing: reaching it. *)
Theorem C92_close_partial rm r0 r1 rp x v0 v1 : velocity (curve r0 x) 0 v0 -> velocity (curve r0 x) 1 v1 ->
  (forall y, velocity (curve r0 y) 0 (0, 0) -> velocity (curve r0 y) 1 (0, 0) -> curve r0 y 1 = r1 -> cost (residuals rm r0 r1 rp x) <= cost (residuals rm r0 r1 rp y)) ->
  norm2 (step (curve r0 x 1) r1) + cross (step rm r0) v0 ^ 2 + cross (step rp r1) v1 ^ 2 <= 9 / 4 / 10 ^ 10 * norm2 (step r0 r1) + 2 * (36 / 1000 * norm2 (step r0 r1)) ^ 2.
Proof.
  intros H0 H1 H. rewrite (velocity_unique _ _ _ _ H0 (curve_velocity r0 x 0)), (velocity_unique _ _ _ _ H1 (curve_velocity r0 x 1)).
  apply (close rm r0 r1 rp x), H.
  - replace (0, 0) with (vel (stopping r0 r1) 0) by (unfold vel, stopping; cbn [x1 x2 x3 fst snd]; f_equal; ring). apply curve_velocity.
  - replace (0, 0) with (vel (stopping r0 r1) 1) by (unfold vel, stopping; cbn [x1 x2 x3 fst snd]; f_equal; ring). apply curve_velocity.
  - rewrite end_residual. unfold stopping, step. cbn [x1 x2 x3 fst snd]. destruct r1. cbn [fst snd]. f_equal; field.
Qed.
Print Assumptions C92_close_partial.
(** The best coefficients never meet all the conditions: whatever meets them can be improved, as
    length and curvature are part of the sum. *)
Theorem C92_exact_refuted rm r0 r1 rp x : r0 <> r1 -> firstn 4 (residuals rm r0 r1 rp x) = [0; 0; 0; 0] ->
  exists x', cost (residuals rm r0 r1 rp x') < cost (residuals rm r0 r1 rp x).
Proof. exact (improvable rm r0 r1 rp x). Qed.
Print Assumptions C92_exact_refuted.
(** The problem is the same for a line that comes from the opposite side (or leaves to it): forwards
    for one of them is backwards for the other. *)
Theorem C92_direction_refuted rm r0 r1 rp : (forall x, cost (residuals (reflect r0 rm) r0 r1 rp x) = cost (residuals rm r0 r1 rp x)) /\
  (forall x, cost (residuals rm r0 r1 (reflect r1 rp) x) = cost (residuals rm r0 r1 rp x)) /\
  (forall v, dot (step (reflect r0 rm) r0) v = - dot (step rm r0) v) /\ (forall v, dot (step (reflect r1 rp) r1) v = - dot (step rp r1) v).
Proof.
  split; [intros x; apply (direction rm r0 r1 rp x)|]. split; [intros x; apply (direction rm r0 r1 rp x)|]. split; intros v; apply opposite.
Qed.
Print Assumptions C92_direction_refuted.
(** A quarter turn meets the conditions and is better than the stopping curve. *)
Example C92_example : firstn 4 (residuals (0, 0) (1, 0) (2, 1) (2, 2) w_x) = [0; 0; 0; 0] /\
  cost (residuals (0, 0) (1, 0) (2, 1) (2, 2) w_x) <= cost (residuals (0, 0) (1, 0) (2, 1) (2, 2) (stopping (1, 0) (2, 1))).
Proof. split; [exact w_conditions|exact w_better]. Qed.
