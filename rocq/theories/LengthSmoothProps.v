(** Property C123. *)
From Coq Require Import List Reals Lia Lra Bool.
From Verif Require Import Prelude LengthModel LengthProofs LengthWitness LengthSmooth.
Import ListNotations.
Open Scope R_scope.

(** C123: take any spline and the curve it draws through a trace: the angle y(t), and the
    position at this angle.  If the curve has second derivatives, of size A at most, and
    s is its arc length, then field_line_length returns a length that is not larger than
    the arc length of the whole curve and smaller by at most 2 A over the number of steps. *)
Theorem C123_arc_length spline RZ ys refine L X1 Y1 Z1 X2 Y2 Z2 s A : (1 <= refine)%nat -> field_line_length spline RZ ys refine = Ok L ->
  let y t := spline (map (fun k => INR k / INR (length ys - 1)) (seq 0 (length ys))) ys t in
  (forall t, derivable_pt_lim (fun t => cos (y t) * spline ys (map fst RZ) (y t)) t (X1 t)) ->
  (forall t, derivable_pt_lim (fun t => sin (y t) * spline ys (map fst RZ) (y t)) t (Y1 t)) ->
  (forall t, derivable_pt_lim (fun t => spline ys (map snd RZ) (y t)) t (Z1 t)) ->
  (forall t, derivable_pt_lim X1 t (X2 t)) -> (forall t, derivable_pt_lim Y1 t (Y2 t)) -> (forall t, derivable_pt_lim Z1 t (Z2 t)) ->
  (forall t, 0 <= t <= 1 -> Rabs (X2 t) <= A /\ Rabs (Y2 t) <= A /\ Rabs (Z2 t) <= A) ->
  (forall t, derivable_pt_lim s t (sqrt (X1 t ^ 2 + Y1 t ^ 2 + Z1 t ^ 2))) ->
  L <= s 1 - s 0 <= L + 2 * A / INR ((length ys - 1) * refine).
Proof. exact (line_arc spline RZ ys refine L X1 Y1 Z1 X2 Y2 Z2 s A). Qed.
Print Assumptions C123_arc_length.
(** So it converges to the arc length as the refinement grows. *)
Theorem C123_converges spline RZ ys X1 Y1 Z1 X2 Y2 Z2 s A : (2 <= length ys)%nat -> length RZ = length ys -> increasing ys = true ->
  let y t := spline (map (fun k => INR k / INR (length ys - 1)) (seq 0 (length ys))) ys t in
  (forall t, derivable_pt_lim (fun t => cos (y t) * spline ys (map fst RZ) (y t)) t (X1 t)) ->
  (forall t, derivable_pt_lim (fun t => sin (y t) * spline ys (map fst RZ) (y t)) t (Y1 t)) ->
  (forall t, derivable_pt_lim (fun t => spline ys (map snd RZ) (y t)) t (Z1 t)) ->
  (forall t, derivable_pt_lim X1 t (X2 t)) -> (forall t, derivable_pt_lim Y1 t (Y2 t)) -> (forall t, derivable_pt_lim Z1 t (Z2 t)) ->
  (forall t, 0 <= t <= 1 -> Rabs (X2 t) <= A /\ Rabs (Y2 t) <= A /\ Rabs (Z2 t) <= A) ->
  (forall t, derivable_pt_lim s t (sqrt (X1 t ^ 2 + Y1 t ^ 2 + Z1 t ^ 2))) ->
  forall eps, 0 < eps -> exists n0, forall refine, (n0 <= refine)%nat -> exists L, field_line_length spline RZ ys refine = Ok L /\ Rabs (L - (s 1 - s 0)) < eps.
Proof. exact (line_converges spline RZ ys X1 Y1 Z1 X2 Y2 Z2 s A). Qed.
Print Assumptions C123_converges.
(** With refine = 0 a single point is left, and the length of any trace is zero. *)
Theorem C123_refine_zero spline RZ ys : (2 <= length ys)%nat -> length RZ = length ys -> increasing ys = true -> field_line_length spline RZ ys 0 = Ok 0.
Proof. exact (line_zero spline RZ ys). Qed.
Print Assumptions C123_refine_zero.
(** If the curve moves with the speed v0 at least, the difference is of second order. *)
Theorem C123_second_order spline RZ ys refine L X1 Y1 Z1 X2 Y2 Z2 s A v0 : (1 <= refine)%nat -> field_line_length spline RZ ys refine = Ok L ->
  let y t := spline (map (fun k => INR k / INR (length ys - 1)) (seq 0 (length ys))) ys t in
  (forall t, derivable_pt_lim (fun t => cos (y t) * spline ys (map fst RZ) (y t)) t (X1 t)) ->
  (forall t, derivable_pt_lim (fun t => sin (y t) * spline ys (map fst RZ) (y t)) t (Y1 t)) ->
  (forall t, derivable_pt_lim (fun t => spline ys (map snd RZ) (y t)) t (Z1 t)) ->
  (forall t, derivable_pt_lim X1 t (X2 t)) -> (forall t, derivable_pt_lim Y1 t (Y2 t)) -> (forall t, derivable_pt_lim Z1 t (Z2 t)) ->
  (forall t, 0 <= t <= 1 -> Rabs (X2 t) <= A /\ Rabs (Y2 t) <= A /\ Rabs (Z2 t) <= A) ->
  (forall t, derivable_pt_lim s t (sqrt (X1 t ^ 2 + Y1 t ^ 2 + Z1 t ^ 2))) ->
  0 < v0 -> (forall t, 0 <= t <= 1 -> v0 <= sqrt (X1 t ^ 2 + Y1 t ^ 2 + Z1 t ^ 2)) ->
  L <= s 1 - s 0 <= L + 2 * A * A / (3 * v0) / (INR ((length ys - 1) * refine) * INR ((length ys - 1) * refine)).
Proof. exact (line_arc2 spline RZ ys refine L X1 Y1 Z1 X2 Y2 Z2 s A v0). Qed.
Print Assumptions C123_second_order.
(** For any spline, a multiple of the refinement does not make the length smaller. *)
Theorem C123_refined spline RZ ys refine m L L' : (1 <= refine)%nat -> (1 <= m)%nat ->
  field_line_length spline RZ ys refine = Ok L -> field_line_length spline RZ ys (refine * m) = Ok L' -> L <= L'.
Proof. intros Hr Hm E E'. exact (line_refined spline RZ ys refine m L L' Hm E E' Hr). Qed.
Print Assumptions C123_refined.
(** A helix: the length is sqrt 5, up to 4 over the refinement and 2 over its square. *)
Example C123_helix refine : (1 <= refine)%nat -> exists L, field_line_length plin hRZ hys refine = Ok L /\ L <= sqrt 5 <= L + 4 / INR refine /\ sqrt 5 <= L + 2 / (INR refine * INR refine).
Proof.
  intros H. destruct (h_ok refine) as [L E]. exists L. split; [exact E|].
  assert (T := C123_arc_length plin hRZ hys refine L (fun t => 2 * - sin t) (fun t => 2 * cos t) (fun _ => 1) (fun t => 2 * - cos t) (fun t => 2 * - sin t) (fun _ => 0) (fun t => t * sqrt 5) 2 H E
    h_DX h_DY h_DZ h_DX2 h_DY2 (fun t => derivable_pt_lim_const 1 t) (fun t _ => h_bound t) h_arc).
  assert (T2 := C123_second_order plin hRZ hys refine L (fun t => 2 * - sin t) (fun t => 2 * cos t) (fun _ => 1) (fun t => 2 * - cos t) (fun t => 2 * - sin t) (fun _ => 0) (fun t => t * sqrt 5) 2 (4 / 3) H E
    h_DX h_DY h_DZ h_DX2 h_DY2 (fun t => derivable_pt_lim_const 1 t) (fun t _ => h_bound t) h_arc h_pos (fun t _ => h_speed t)).
  cbn [length hys Nat.sub] in T, T2. rewrite Nat.mul_1_l in T, T2. replace (2 * 2) with 4 in T by ring. replace (2 * 2 * 2 / (3 * (4 / 3))) with 2 in T2 by field. lra.
Qed.
