(** Properties C83 and C84. *)
From Coq Require Import List Reals Lia Lra Bool.
From Verif Require Import Prelude LengthModel LengthProofs LengthWitness.
Import ListNotations.
Open Scope R_scope.

(** C83: for every spline that passes through its points, the length is not smaller
    than that of the polygon through the points of the trace, *)
Theorem C83_polygon spline RZ ys refine L :
  (forall xs vs k, (2 <= length xs)%nat -> length vs = length xs -> increasing xs = true -> (k < length xs)%nat -> spline xs vs (nth k xs 0) = nth k vs 0) ->
  (1 <= refine)%nat -> field_line_length spline RZ ys refine = Ok L ->
  path_length (map (fun k => (cos (nth k ys 0) * nth k (map fst RZ) 0, sin (nth k ys 0) * nth k (map fst RZ) 0, nth k (map snd RZ) 0)) (seq 0 (length ys))) <= L.
Proof. intros Hs Hr H. exact (length_chords spline Hs RZ ys refine L Hr H). Qed.
Print Assumptions C83_polygon.
(** so not smaller than the distance of its ends. *)
Theorem C83_chord spline RZ ys refine L :
  (forall xs vs k, (2 <= length xs)%nat -> length vs = length xs -> increasing xs = true -> (k < length xs)%nat -> spline xs vs (nth k xs 0) = nth k vs 0) ->
  (1 <= refine)%nat -> field_line_length spline RZ ys refine = Ok L ->
  let X k := cos (nth k ys 0) * nth k (map fst RZ) 0 in let Y k := sin (nth k ys 0) * nth k (map fst RZ) 0 in
  let Z k := nth k (map snd RZ) 0 in let n := (length ys - 1)%nat in
  sqrt ((X n - X 0%nat) ^ 2 + (Y n - Y 0%nat) ^ 2 + (Z n - Z 0%nat) ^ 2) <= L.
Proof. intros Hs Hr H. exact (length_ends spline Hs RZ ys refine L Hr H). Qed.
Print Assumptions C83_chord.
(** A length is returned exactly for two or more increasing angles with a position each. *)
Theorem C83_defined spline RZ ys refine :
  if ((2 <=? length ys) && (length RZ =? length ys))%nat%bool && increasing ys then exists L, field_line_length spline RZ ys refine = Ok L /\ 0 <= L
  else field_line_length spline RZ ys refine = Err ValueError.
Proof. exact (length_defined spline RZ ys refine). Qed.
Print Assumptions C83_defined.
(** The length of a helix (a circle for slope zero) with the radius r and the slope s,
    if the spline is exact for straight lines: the polygon with the step h = d/refine, *)
Theorem C83_helix spline y0 d n r z0 s refine :
  (forall xs a b t, (2 <= length xs)%nat -> increasing xs = true -> spline xs (map (fun x => a + b * x) xs) t = a + b * t) ->
  (2 <= n)%nat -> (1 <= refine)%nat -> 0 < d ->
  let ys := map (fun k => y0 + INR k * d) (seq 0 n) in let h := d / INR refine in
  field_line_length spline (map (fun y => (r, z0 + s * y)) ys) ys refine =
  Ok (INR ((n - 1) * refine) * sqrt ((2 * r * sin (h / 2)) ^ 2 + (s * h) ^ 2)).
Proof. intros Hs Hn Hr Hd. exact (helix_length spline Hs y0 d n r z0 s refine Hn Hr Hd). Qed.
Print Assumptions C83_helix.
(** which is below the length of the arc by at most the fraction h^2/24. *)
Theorem C83_helix_accuracy r s h : 0 <= h -> h ^ 2 <= 24 ->
  (1 - h ^ 2 / 24) * (h * sqrt (r ^ 2 + s ^ 2)) <= sqrt ((2 * r * sin (h / 2)) ^ 2 + (s * h) ^ 2) <= h * sqrt (r ^ 2 + s ^ 2).
Proof. exact (arc_bounds r s h). Qed.
Print Assumptions C83_helix_accuracy.
(** The length does not change when the trace is turned about or shifted along the axis,
    for splines that do not depend on the origins. *)
Theorem C83_invariant spline RZ ys refine c h :
  (forall c xs vs t, spline (map (fun x => x + c) xs) vs (t + c) = spline xs vs t) ->
  (forall c xs vs t, (2 <= length xs)%nat -> length vs = length xs -> spline xs (map (fun v => v + c) vs) t = spline xs vs t + c) ->
  field_line_length spline (map (fun p => (fst p, snd p + h)) RZ) (map (fun y => y + c) ys) refine = field_line_length spline RZ ys refine.
Proof. intros H1 H2. exact (length_turn spline H1 H2 RZ ys refine c h). Qed.
Print Assumptions C83_invariant.
(** piecewise linear interpolation has all four properties *)
Example C83_ex : (exists L, field_line_length plin [(1, 0); (2, 1); (3, 0)] [0; 1; 3] 4 = Ok L) /\
  field_line_length plin (map (fun y => (2, 1 + 0 * y)) (map (fun k => 0 + INR k * PI) (seq 0 3))) (map (fun k => 0 + INR k * PI) (seq 0 3)) 1 = Ok 8.
Proof.
  split.
  - pose proof (C83_defined plin [(1, 0); (2, 1); (3, 0)] [0; 1; 3] 4) as H.
    assert (E : increasing [0; 1; 3] = true) by (cbn; unfold Rltb; destruct (Rlt_dec 0 1), (Rlt_dec 1 3); try reflexivity; lra).
    rewrite E in H. cbn [length Nat.leb Nat.eqb andb] in H. destruct H as [L [H _]]. exists L. exact H.
  - pose proof (C83_helix plin 0 PI 3 2 1 0 1 plin_linear ltac:(lia) ltac:(lia) PI_RGT_0) as H. cbv zeta in H. rewrite H. f_equal.
    cbn [Nat.sub Nat.mul Nat.add INR]. replace (PI / 1 / 2) with (PI / 2) by field. rewrite sin_PI2.
    replace ((2 * 2 * 1) ^ 2 + (0 * (PI / 1)) ^ 2) with (4 ^ 2) by (simpl; lra). rewrite sqrt_pow2 by lra. lra.
Qed.
Example C83_ex_chord L : field_line_length plin [(1, 0); (2, 1); (3, 0)] [0; 1; 3] 4 = Ok L -> sqrt ((cos 3 * 3 - cos 0 * 1) ^ 2 + (sin 3 * 3 - sin 0 * 1) ^ 2 + (0 - 0) ^ 2) <= L.
Proof. intros H. exact (C83_chord plin _ _ 4 L plin_nodes ltac:(lia) H). Qed.
Example C83_ex_invariant c h : field_line_length plin (map (fun p => (fst p, snd p + h)) [(1, 0); (2, 1); (3, 0)]) (map (fun y => y + c) [0; 1; 3]) 4 = field_line_length plin [(1, 0); (2, 1); (3, 0)] [0; 1; 3] 4.
Proof. exact (C83_invariant plin _ _ 4 c h plin_shift_nodes plin_shift_values). Qed.

(** C84: the first slice of a trace by FusionSCTracer is the start, and the others have
    the position that the backend gives, in cylindrical coordinates. *)
Theorem C84_trace poincare kw xs zs y0 y1 ys rtol pnts :
  poincare (map (fun xz : R * R => (cos y0 * fst xz, sin y0 * fst xz, snd xz)) (combine xs zs)) (y1 :: ys) (Rltb y0 y1) kw = Ok pnts ->
  exists out, fsc_follow poincare kw xs zs (y0 :: y1 :: ys) rtol = Ok (combine xs zs :: out) /\ length out = length pnts /\
  forall i j x y z, nth_error pnts i = Some j -> forall k, nth_error j k = Some (x, y, z) ->
    exists row, nth_error out i = Some row /\ nth_error row k = Some (sqrt (x ^ 2 + y ^ 2), z).
Proof. exact (fsc_trace poincare kw xs zs y0 y1 ys rtol pnts). Qed.
Print Assumptions C84_trace.
Theorem C84_cylindrical y r : 0 <= r -> sqrt ((cos y * r) ^ 2 + (sin y * r) ^ 2) = r.
Proof. exact (sqrt_turn y r). Qed.
Print Assumptions C84_cylindrical.
(** The backend is called in the direction of the first step; a single y raises. *)
Theorem C84_single poincare kw xs zs ys rtol : (length ys < 2)%nat -> fsc_follow poincare kw xs zs ys rtol = Err IndexError.
Proof. exact (fsc_single poincare kw xs zs ys rtol). Qed.
Print Assumptions C84_single.
(** C84, false: rtol does not overwrite targetError; it has no influence at all, even
    on a backend that gives an error for every other accuracy than the requested one. *)
Theorem C84_rtol_refuted : (forall poincare kw xs zs ys rtol rtol', fsc_follow poincare kw xs zs ys rtol = fsc_follow poincare kw xs zs ys rtol') /\
  exists poincare kw xs zs ys out, fsc_follow poincare (mkKw (Some 1) kw) xs zs ys None = Ok out /\
    fsc_follow poincare (mkKw (Some 0) kw) xs zs ys (Some 1) = Err ValueError.
Proof. exact fsc_rtol. Qed.
Print Assumptions C84_rtol_refuted.
Example C84_ex : exists out, fsc_follow (fun start planes _ _ => Ok (map (fun _ => start) planes)) (mkKw None 0) [2] [1] [0; 1; 2] None = Ok ([(2, 1)] :: out) /\
  out = [[(sqrt ((cos 0 * 2) ^ 2 + (sin 0 * 2) ^ 2), 1)]; [(sqrt ((cos 0 * 2) ^ 2 + (sin 0 * 2) ^ 2), 1)]].
Proof. eexists. split; reflexivity. Qed.
