(** Properties C42 to C44. *)
From Coq Require Import List ZArith QArith Lia.
From Verif Require Import Prelude PreludeFacts SmoothModel SmoothSpec SmoothProofs SmoothReplace SmoothWitness.
Import ListNotations.
Open Scope Z_scope.

(** C42: a sorted list without repetitions of exactly the indices within the bound
    of an outlier and below the length, cut into runs of consecutive integers with
    a gap between neighbouring runs. *)
Theorem C42_runs bounds outliers n runs : outliers <> [] -> generate_points bounds outliers n = Ok runs ->
  strictly_increasing (concat runs) /\ Forall consecutive runs /\ gaps runs /\
  (forall x, In x (concat runs) <-> x < n /\ exists d, In d outliers /\ d - bounds <= x <= d + bounds).
Proof. exact (generate_ok bounds outliers n runs). Qed.
Print Assumptions C42_runs.
Theorem C42_defined bounds outliers n : (exists d, In d outliers /\ d - bounds < n /\ 0 <= bounds) \/ outliers = [] ->
  exists runs, generate_points bounds outliers n = Ok runs.
Proof. exact (generate_total bounds outliers n). Qed.
Print Assumptions C42_defined.
Theorem C42_no_outliers bounds n : generate_points bounds [] n = Ok [].
Proof. exact eq_refl. Qed.
Print Assumptions C42_no_outliers.
Theorem C42_errors bounds outliers n e : generate_points bounds outliers n = Err e -> e = IndexError.
Proof. exact (generate_error bounds outliers n e). Qed.
Print Assumptions C42_errors.
Example C42_example : generate_points 1 [6; -1; 2; 7; 7] 8 = Ok [[-2; -1; 0; 1; 2; 3]; [5; 6; 7]].
Proof. vm_compute. reflexivity. Qed.
Example C42_example_empty : generate_points 1 [20] 8 = Err IndexError.
Proof. vm_compute. reflexivity. Qed.

(** C43 *)
Theorem C43_window l start n v : 0 <= n <= len l -> len v = n ->
  exists l', rollup l start n v = Ok l' /\ length l' = length l /\
    (forall k, 0 <= k < n -> nth (Z.to_nat ((start + k) mod len l)) l' 0%Q = nth (Z.to_nat k) v 0%Q) /\
    (forall j, 0 <= j < len l -> (forall k, 0 <= k < n -> j <> (start + k) mod len l) -> nth (Z.to_nat j) l' 0%Q = nth (Z.to_nat j) l 0%Q).
Proof. exact (rollup_ok l start n v). Qed.
Print Assumptions C43_window.
Example C43_example : rollup [1; 2; 3; 4; 5]%Q (-2) 3 [7; 8; 9]%Q = Ok [9; 2; 3; 7; 8]%Q.
Proof. vm_compute. reflexivity. Qed.

(** C44, what holds: with a line of at least twice [bounds_find] points the search
    for corners and the runs are defined; *)
Theorem C44_search sqrt r z cutoff bounds bf : length z = length r -> 0 <= bounds -> 2 * bf <= len r ->
  exists o runs, all_outliers sqrt r z cutoff bf = Ok o /\ generate_points bounds o (len r) = Ok runs.
Proof.
  exact (fun Lz Hb H2 => match all_outliers_ok sqrt r z cutoff bf Lz H2 with
    | ex_intro _ o Ho => match turn_runs sqrt r z cutoff bounds bf o Lz Hb H2 Ho with ex_intro _ runs Hr => ex_intro _ o (ex_intro _ runs (conj Ho Hr)) end end).
Qed.
Print Assumptions C44_search.
(** if no run contains the last point, every run is replaced or "Too many points"
    is raised, and only the points of the runs change; *)
Theorem C44_in_range_partial sqrt fit r z cutoff bounds bf outliers runs : length z = length r -> 0 <= bounds -> 2 * bf <= len r ->
  all_outliers sqrt r z cutoff bf = Ok outliers -> generate_points bounds outliers (len r) = Ok runs -> ~ In (len r - 1) (concat runs) ->
  (exists newr newz f, gen_newr fit r z runs bounds = Ok (newr, newz, f) /\ length newr = length r /\ length newz = length r /\
     untouched r newr (concat runs) /\ untouched z newz (concat runs)) \/
  gen_newr fit r z runs bounds = Err ValueError.
Proof. exact (turn_ok sqrt fit r z cutoff bounds bf outliers runs). Qed.
Print Assumptions C44_in_range_partial.
(** the points of a run whose equations were solved lie on the curve, at equal steps
    of its parameter, and the attempt counts as failed unless the gaps to the two
    neighbours of the run are within a factor of three of each other; *)
Theorem C44_replaced fit r z bounds newr newz failed a b c : length z = length r -> length newr = length r -> length newz = length r ->
  a < b -> bounds <= b - a -> 2 * (b - a) < len r -> 1 - len r <= a -> b < len r -> fit r z (zrange a b) = Some c ->
  exists newr' newz' f, smooth_run fit r z bounds (newr, newz, failed) (zrange a b) = Ok (newr', newz', f) /\ length newr' = length r /\ length newz' = length r /\
    (forall k, 0 <= k < b - a -> let p := curve (wrap r a, wrap z a) c (inject_Z k / inject_Z (b - a - 1)%Z)%Q in
       (wrap newr' (a + k)%Z == fst p)%Q /\ (wrap newz' (a + k)%Z == snd p)%Q) /\
    untouched newr newr' (zrange a b) /\ untouched newz newz' (zrange a b) /\
    (let d1 := dist2 (wrap newr' a, wrap newz' a) (wrap newr (a - 1), wrap newz (a - 1)) in
     let d2 := dist2 (wrap newr' (b - 1), wrap newz' (b - 1)) (wrap newr b, wrap newz b) in
     f = false <-> failed = false /\ (d2 < 9 * d1)%Q /\ (d1 < 9 * d2)%Q).
Proof. exact (run_replaced fit r z bounds newr newz failed a b c). Qed.
Print Assumptions C44_replaced.
(** and without a solution the run is left as it is, and the attempt has failed; *)
Theorem C44_not_replaced fit r z bounds newr newz failed a b : length z = length r -> length newr = length r -> length newz = length r ->
  a < b -> bounds <= b - a -> 2 * (b - a) < len r -> 1 - len r <= a -> b < len r -> fit r z (zrange a b) = None ->
  smooth_run fit r z bounds (newr, newz, failed) (zrange a b) = Ok (newr, newz, true).
Proof. exact (run_not_fitted fit r z bounds newr newz failed a b). Qed.
Print Assumptions C44_not_replaced.
(** in the square whose first corner is its first point, the run -1 .. 1: *)
Example C44_replaced_example : w_fit w_r0 w_z0 (zrange (-1) 2) = Some ((1, 0, 0), (0, 1, 0))%Q /\
  match smooth_run w_fit w_r0 w_z0 1 (w_r0, w_z0, false) (zrange (-1) 2) with
  | Ok (x, y, f) => (wrap x (-1) == 0 /\ wrap y (-1) == 1 /\ wrap x 0 == 1 # 2 /\ wrap y 0 == 9 # 8 /\ wrap x 1 == 1 /\ wrap y 1 == 3 # 2)%Q /\ f = false
  | Err _ => False
  end.
Proof. split; [reflexivity|]. vm_compute. repeat split. Qed.
(** whichever outcome it has, the whole loop ends, keeps the lengths and raises
    nothing but these errors; *)
Theorem C44_outcomes sqrt fit cutoff bf b0 fuel b r z res : 0 <= b0 -> length z = length r -> 2 * bf <= len r -> 0 <= b ->
  smooth_loop sqrt fit fuel cutoff bf b0 b r z = Some res ->
  match res with
  | Ok (a, c) => length a = length r /\ length c = length r
  | Err e => In e [IndexError; ValueError; NameError]
  end.
Proof. exact (fun H => smooth_outcome sqrt fit cutoff bf b0 H fuel b r z res). Qed.
Print Assumptions C44_outcomes.
Theorem C44_terminates sqrt fit cutoff bf b0 fuel b r z : (Z.to_nat (b0 * 5 + 1 - b) < fuel)%nat -> smooth_loop sqrt fit fuel cutoff bf b0 b r z <> None.
Proof. exact (smooth_terminates sqrt fit cutoff bf b0 fuel b r z). Qed.
Print Assumptions C44_terminates.
(** and a line without corners is returned as it is. *)
Theorem C44_no_corners sqrt fit fuel cutoff bf b0 b r z : all_outliers sqrt r z cutoff bf = Ok [] ->
  smooth_loop sqrt fit (S fuel) cutoff bf b0 b r z = Some (Ok (r, z)).
Proof. exact (smooth_unchanged sqrt fit fuel cutoff bf b0 b r z). Qed.
Print Assumptions C44_no_corners.
(** [bounds_find] of None or 0 stands for [bounds], any other number for itself. *)
Theorem C44_bounds_find sqrt fit fuel r z cutoff bounds :
  smooth sqrt fit fuel r z cutoff bounds None = smooth_loop sqrt fit fuel cutoff bounds bounds bounds r z /\
  smooth sqrt fit fuel r z cutoff bounds (Some 0) = smooth_loop sqrt fit fuel cutoff bounds bounds bounds r z /\
  (forall b, b <> 0 -> smooth sqrt fit fuel r z cutoff bounds (Some b) = smooth_loop sqrt fit fuel cutoff b bounds bounds r z).
Proof. exact (smooth_default sqrt fit fuel r z cutoff bounds). Qed.
Print Assumptions C44_bounds_find.
Example C44_example : length w_z0 = length w_r0 /\ 2 * 1 <= len w_r0 /\
  exists o runs, all_outliers w_sqrt w_r0 w_z0 (3 # 4) 1 = Ok o /\ generate_points 1 o (len w_r0) = Ok runs /\
  runs = [[-1; 0; 1]; [3; 4; 5]; [7; 8; 9]; [11; 12; 13]].
Proof. split; [reflexivity|]. split; [discriminate|exact w_runs_0]. Qed.
(** Whether a point counts as a corner depends on the angle alone: three points on a
    straight line, at any distances, are one only if the cutoff is above the cosine
    of no turn, 1, and going back over the same line is one if it is above -1. *)
Theorem C44_straight sqrt r z cutoff b i r1 z1 r2 z2 r3 z3 k :
  getz r i = Ok r1 -> getz z i = Ok z1 -> getz r (i - b) = Ok r2 -> getz z (i - b) = Ok z2 -> getz r (i - b * 2) = Ok r3 -> getz z (i - b * 2) = Ok z3 ->
  (r1 - r2 == k * (r1 - r3) -> z1 - z2 == k * (z1 - z3) ->
   (forall a b, In (a, b) [(z1 - z2, r1 - r2); (z1 - z3, r1 - r3)] -> is_sqrt (sqrt (a * a + b * b)) (a * a + b * b)) ->
   ~ (r1 - r3) * (r1 - r3) + (z1 - z3) * (z1 - z3) == 0 ->
   (0 < k -> sharp sqrt r z cutoff b i = Ok (Qlt_bool 1 cutoff)) /\ (k < 0 -> sharp sqrt r z cutoff b i = Ok (Qlt_bool (-(1)) cutoff)))%Q.
Proof. exact (sharp_collinear sqrt r z cutoff b i r1 z1 r2 z2 r3 z3 k). Qed.
Print Assumptions C44_straight.
Example C44_straight_example : sharp w_sqrt w_r w_z (3 # 4) 1 6 = Ok false /\ sharp w_sqrt w_r w_z (3 # 4) 1 7 = Ok true /\
  (forall a b, In (a, b) [(4 - 3, 4 - 4); (4 - 2, 4 - 4)] -> is_sqrt (w_sqrt (a * a + b * b)) (a * a + b * b))%Q /\
  ((4 - 3 == (1 # 2) * (4 - 2))%Q /\ (4 - 4 == (1 # 2) * (4 - 4))%Q).
Proof.
  split; [vm_compute; reflexivity|]. split; [vm_compute; reflexivity|]. split; [|split; reflexivity].
  intros a b [[= <- <-]|[[= <- <-]|[]]]; split; vm_compute; congruence.
Qed.

(** The corners found are the points between the two others of a sharp triple, for
    all distances up to [bounds_find], *)
Theorem C44_outliers sqrt r z cutoff bf o : all_outliers sqrt r z cutoff bf = Ok o ->
  forall x, In x o <-> exists b item, 1 <= b <= bf /\ 0 <= item < len z /\ x = item - b /\ sharp sqrt r z cutoff b item = Ok true.
Proof. exact (all_outliers_are sqrt r z cutoff bf o). Qed.
Print Assumptions C44_outliers.
(** and with both at the same distance a triple is sharp if the cosine of the turn is
    below 2 cutoff^2 - 1 for a positive cutoff: the angle is that at the end of the
    triple, half the turn. *)
Theorem C44_half_angle sqrt r z cutoff b i r1 z1 r2 z2 r3 z3 :
  getz r i = Ok r1 -> getz z i = Ok z1 -> getz r (i - b) = Ok r2 -> getz z (i - b) = Ok z2 -> getz r (i - b * 2) = Ok r3 -> getz z (i - b * 2) = Ok z3 ->
  (forall a b, In (a, b) [((z1 - z2)%Q, (r1 - r2)%Q); ((z1 - z3)%Q, (r1 - r3)%Q)] -> is_sqrt (sqrt (a * a + b * b)%Q) (a * a + b * b)%Q) ->
  (0 < dist2 (r1, z1) (r2, z2) -> dist2 (r1, z1) (r2, z2) == dist2 (r2, z2) (r3, z3) ->
   let turn := ((r1 - r2) * (r2 - r3) + (z1 - z2) * (z2 - z3)) / dist2 (r1, z1) (r2, z2) in
   sharp sqrt r z cutoff b i = Ok (Qlt_bool 0 cutoff && Qlt_bool (-(1)) turn && Qlt_bool turn (2 * (cutoff * cutoff) - 1)))%Q.
Proof. exact (sharp_isosceles sqrt r z cutoff b i r1 z1 r2 z2 r3 z3). Qed.
Print Assumptions C44_half_angle.
Example C44_half_angle_example :
  (forall a b, In (a, b) [((24 # 5) - 0, (18 # 5) - 5); ((24 # 5) - 0, (18 # 5) - 0)] -> is_sqrt (t_sqrt (a * a + b * b)) (a * a + b * b))%Q /\
  (dist2 (18 # 5, 24 # 5) (5, 0) == dist2 (5, 0) (0, 0) /\ 0 < dist2 (18 # 5, 24 # 5) (5, 0))%Q /\
  sharp t_sqrt t_r t_z (1 # 2) 1 2 = Ok false /\ sharp t_sqrt t_r t_z (3 # 4) 1 2 = Ok true.
Proof. exact t_example. Qed.
(** So a cutoff that is, as documented, the cosine of the angle does not find the
    corners: the turn here has the cosine -7/25, the cutoff is 1/2. *)
Theorem C44_cosine_refuted : ~ forall sqrt r z cutoff b i r1 z1 r2 z2 r3 z3,
  getz r i = Ok r1 -> getz z i = Ok z1 -> getz r (i - b) = Ok r2 -> getz z (i - b) = Ok z2 -> getz r (i - b * 2) = Ok r3 -> getz z (i - b * 2) = Ok z3 ->
  (forall a b, In (a, b) [((z1 - z2)%Q, (r1 - r2)%Q); ((z1 - z3)%Q, (r1 - r3)%Q)] -> is_sqrt (sqrt (a * a + b * b)%Q) (a * a + b * b)%Q) ->
  (0 < dist2 (r1, z1) (r2, z2) -> dist2 (r1, z1) (r2, z2) == dist2 (r2, z2) (r3, z3) ->
   ((r1 - r2) * (r2 - r3) + (z1 - z2) * (z2 - z3)) / dist2 (r1, z1) (r2, z2) < cutoff ->
   sharp sqrt r z cutoff b i = Ok true)%Q.
Proof. exact t_cosine. Qed.
Print Assumptions C44_cosine_refuted.
(** A line that turns back on itself has no corner there, whatever the cutoff: the
    angle is NaN. *)
Theorem C44_hairpin sqrt r z cutoff b i r1 z1 r2 z2 r3 z3 :
  getz r i = Ok r1 -> getz z i = Ok z1 -> getz r (i - b) = Ok r2 -> getz z (i - b) = Ok z2 -> getz r (i - b * 2) = Ok r3 -> getz z (i - b * 2) = Ok z3 ->
  (forall a b, In (a, b) [((z1 - z2)%Q, (r1 - r2)%Q); ((z1 - z3)%Q, (r1 - r3)%Q)] -> is_sqrt (sqrt (a * a + b * b)%Q) (a * a + b * b)%Q) ->
  (r3 == r1 -> z3 == z1 -> sharp sqrt r z cutoff b i = Ok false)%Q.
Proof. exact (sharp_hairpin sqrt r z cutoff b i r1 z1 r2 z2 r3 z3). Qed.
Print Assumptions C44_hairpin.
Example C44_hairpin_example : sharp w_sqrt [0; 1; 2; 1]%Q [0; 0; 0; 0]%Q 1 1 3 = Ok false /\
  (forall a b, In (a, b) [(0 - 0, 1 - 2); (0 - 0, 1 - 1)] -> is_sqrt (w_sqrt (a * a + b * b)) (a * a + b * b))%Q.
Proof. split; [reflexivity|]. intros a b [[= <- <-]|[[= <- <-]|[]]]; split; vm_compute; congruence. Qed.

(** C44, false as stated: a run that reaches the last point always fails once its
    fit succeeds (newr[start_index + len(alist)] is one too far), *)
Theorem C44_last_point fit r z bounds newr newz failed a : length z = length r -> length newr = length r -> length newz = length r ->
  a < len r -> bounds <= len r - a -> fit r z (zrange a (len r)) <> None ->
  smooth_run fit r z bounds (newr, newz, failed) (zrange a (len r)) = Err (if len r <=? 2 * (len r - a) then ValueError else IndexError).
Proof. exact (smooth_run_end fit r z bounds newr newz failed a). Qed.
Print Assumptions C44_last_point.
(** which happens for a square whose last corner is the last point but one; *)
Theorem C44_index_error_refuted : ~ forall sqrt fit fuel r z cutoff bounds, length z = length r -> 0 < bounds -> 2 * bounds <= len r ->
  smooth sqrt fit fuel r z cutoff bounds None <> Some (Err IndexError).
Proof. exact (fun H => H w_sqrt w_fit 10%nat w_r w_z (3 # 4)%Q 1 eq_refl eq_refl ltac:(discriminate) w_index_error). Qed.
Print Assumptions C44_index_error_refuted.
(** lines with fewer than twice [bounds] points fail too; *)
Theorem C44_short_line_refuted sqrt r z cutoff b : length z = length r -> r <> [] -> len r < 2 * b -> find_outliers sqrt r z cutoff b = Err IndexError.
Proof. exact (find_outliers_short sqrt r z cutoff b). Qed.
Print Assumptions C44_short_line_refuted.
(** and if no fit succeeds the loop does not report failure but refers to a name
    that is not bound (or raises "Too many points"). *)
Theorem C44_no_fit sqrt fit cutoff bf b0 r z fuel b : 0 <= b0 -> length z = length r -> 2 * bf <= len r -> (forall l, fit r z l = None) ->
  (exists o, all_outliers sqrt r z cutoff bf = Ok o /\ o <> []) -> 0 <= b -> (Z.to_nat (b0 * 5 + 1 - b) < fuel)%nat ->
  smooth_loop sqrt fit fuel cutoff bf b0 b r z = Some (Err NameError) \/ smooth_loop sqrt fit fuel cutoff bf b0 b r z = Some (Err ValueError).
Proof. exact (fun H1 H2 H3 H4 H5 => smooth_never sqrt fit cutoff bf b0 r z H1 H2 H3 H4 H5 fuel b). Qed.
Print Assumptions C44_no_fit.
Example C44_no_fit_example : smooth w_sqrt w_nofit 10 w_big_r w_big_z (3 # 4)%Q 1 None = Some (Err NameError).
Proof. exact w_name_error. Qed.
