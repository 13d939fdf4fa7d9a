(** Properties C36 to C41, C69 and C70. *)
From Coq Require Import List ZArith QArith Qround Lia Lqa Permutation.
From Verif Require Import Prelude PreludeFacts PolModel PolSpec RzModel RzSpec RzProofs RzGreedy RzTwoOpt RzPoly RzWitness.
Import ListNotations.
Open Scope Q_scope.

(** C36: what __init__ does with the points, completely: [oriented l l'] says that
    l' is l or its reversal and that its area is positive. *)
Theorem C36_orientation k r z : length z = length r -> let l := combine r z in
  (area2 l == 0 -> rz_init true k r z = Err AssertionError) /\
  (~ area2 l == 0 -> exists l', oriented l l' /\ rz_init true k r z = if (k <? length l + 1)%nat then Ok l' else Err TypeError).
Proof. exact (rz_init_true k r z). Qed.
Print Assumptions C36_orientation.
Theorem C36_lengths anticlockwise k r z : length z <> length r -> rz_init anticlockwise k r z = Err AssertionError.
Proof. exact (rz_init_lengths anticlockwise k r z). Qed.
Print Assumptions C36_lengths.
Theorem C36_as_given k r z l : rz_init false k r z = Ok l -> l = combine r z.
Proof. exact (rz_init_false k r z l). Qed.
Print Assumptions C36_as_given.
Example C36_example : rz_init true 3 [0; 0; 1; 1] [0; 1; 1; 0] = Ok [(1, 0); (1, 1); (0, 1); (0, 0)].
Proof. vm_compute. reflexivity. Qed.
Example C36_example_degenerate : rz_init true 3 [0; 1; 2; 3] [0; 1; 2; 3] = Err AssertionError.
Proof. vm_compute. reflexivity. Qed.

(** C37, for angles from 0 on: on the straight line through the two neighbouring
    vertices, at distance fraction [theta - i dtheta] -- which is not the fraction
    of the segment, see below. *)
Theorem C37_position_partial pi l theta : 0 < pi -> l <> [] -> 0 <= theta ->
  let n := Z.of_nat (length l) in let dtheta := 2 * pi / inject_Z n in let i := Qfloor (theta / dtheta) in
  qeq2 (positionPolygon pi l theta) (along (znth l (i mod n)) (znth l ((i + 1) mod n)) (theta - inject_Z i * dtheta)).
Proof. intros Hpi Hl. exact (polygon_nonneg pi Hpi l Hl theta). Qed.
Print Assumptions C37_position_partial.
Theorem C37_vertices pi l k : 0 < pi -> l <> [] -> (0 <= k)%Z ->
  let n := Z.of_nat (length l) in qeq2 (positionPolygon pi l (inject_Z k * (2 * pi / inject_Z n))) (znth l (k mod n)).
Proof. intros Hpi Hl. exact (polygon_vertex pi Hpi l Hl k). Qed.
Print Assumptions C37_vertices.
Example C37_example : 0 < np_pi /\ w_square <> [] /\ 0 <= np_pi / 4.
Proof. repeat split; try discriminate. Qed.
(** C37, false as stated: the fraction is not divided by dtheta, *)
Theorem C37_fraction_refuted : ~ forall l theta, (3 <= length l)%nat -> 0 <= theta ->
  let n := Z.of_nat (length l) in let dtheta := 2 * np_pi / inject_Z n in let i := Qfloor (theta / dtheta) in
  qeq2 (positionPolygon np_pi l theta) (along (znth l (i mod n)) (znth l ((i + 1) mod n)) ((theta - inject_Z i * dtheta) / dtheta)).
Proof. exact fraction_wrong. Qed.
Print Assumptions C37_fraction_refuted.
(** the point need not even be on the segment, *)
Theorem C37_segment_refuted : ~ forall l theta, (3 <= length l)%nat -> 0 <= theta ->
  let n := Z.of_nat (length l) in let i := Qfloor (theta / (2 * np_pi / inject_Z n)) in
  exists t, 0 <= t <= 1 /\ qeq2 (positionPolygon np_pi l theta) (along (znth l (i mod n)) (znth l ((i + 1) mod n)) t).
Proof. exact segment_wrong. Qed.
Print Assumptions C37_segment_refuted.
(** and negative angles give another segment than the same angle one turn later. *)
Theorem C37_negative_refuted : ~ forall l theta, (3 <= length l)%nat ->
  qeq2 (positionPolygon np_pi l theta) (positionPolygon np_pi l (theta + 2 * np_pi)).
Proof. exact negative_wrong. Qed.
Print Assumptions C37_negative_refuted.

(** C38 *)
Theorem C38_polygon_distance sqrt l : (forall q, 0 <= sqrt q) -> let d := distance_poly sqrt l None in
  length d = S (length l) /\ nth 0 d 0 == 0 /\ nondecreasing d /\ last d 0 == perimeter sqrt l /\
  (forall i, (i <= length l)%nat -> nth i d 0 == qsum (firstn i (map (fun e => sqrt (dist2 (fst e) (snd e))) (combine l (skipn 1 l ++ firstn 1 l))))).
Proof. intros Hs. exact (distance_poly_ok sqrt Hs l). Qed.
Print Assumptions C38_polygon_distance.
Theorem C38_weights sqrt l w : (forall q, 0 <= sqrt q) -> (0 < length w)%nat -> (forall x, In x w -> 0 <= x) ->
  let d := distance_poly sqrt l (Some w) in length d = S (length l) /\ nth 0 d 0 == 0 /\ nondecreasing d.
Proof. intros Hs. exact (distance_poly_weights sqrt Hs l w). Qed.
Print Assumptions C38_weights.
Theorem C38_spline_distance pi dl n sample d : 0 < pi -> (0 < n)%nat -> (forall t, 0 <= dl t) ->
  distance_spline pi dl n sample None = Ok d -> length d = S n /\ nth 0 d 0 == 0 /\ nondecreasing d.
Proof. exact (distance_spline_ok pi dl n sample d). Qed.
Print Assumptions C38_spline_distance.
Example C38_example : map Qred (distance_poly (fun q => q) [(0, 0); (2, 0); (2, 1); (0, 1)] None) = [0; 4; 5; 9; 10].
Proof. vm_compute. reflexivity. Qed.
Example C38_example_spline : exists d, distance_spline np_pi (fun _ => 1) 4 2 None = Ok d.
Proof. eexists. vm_compute. reflexivity. Qed.

(** C39, when a line is returned.  [nearest_order g]: every point of g is followed
    by the nearest of those still to come. *)
Theorem C39_greedy_partial total k r z l : line_from_points total k false r z = Ok (Some l) ->
  let pts := combine r z in
  length z = length r /\ Permutation pts l /\ 0 < area2 l /\
  (exists i, (i < length pts)%nat /\ exists g t, g = nth i pts (0, 0) :: t /\ Permutation pts g /\ nearest_order g /\ oriented g l) /\
  (forall i, (i < length pts)%nat -> exists g t line, g = nth i pts (0, 0) :: t /\ Permutation pts g /\ nearest_order g /\
     oriented g line /\ total l <= total line).
Proof. exact (lfp_result total k r z l). Qed.
Print Assumptions C39_greedy_partial.
Theorem C39_failures total k r z e : line_from_points total k false r z = Err e ->
  (e = AssertionError /\ (length z <> length r \/ exists g, Permutation (combine r z) g /\ nearest_order g /\ area2 g == 0)) \/
  (e = IndexError /\ length (combine r z) = 1%nat) \/
  (e = TypeError /\ (length (combine r z) < k)%nat).
Proof. exact (lfp_errors total k r z e). Qed.
Print Assumptions C39_failures.
Example C39_example : exists l, line_from_points (perimeter (fun q => q)) 3 false [0; 1; 1; 0] [0; 1; 0; 1] = Ok (Some l).
Proof. eexists. vm_compute. reflexivity. Qed.
(** C39, false as stated: points of a convex polygon with area are rejected when
    one greedy path happens to enclose no area. *)
Theorem C39_convex_refuted total : ~ forall r z, length z = length r -> (4 <= length r)%nat -> 0 < area2 (combine r z) ->
  exists l, line_from_points total 3 false r z = Ok (Some l).
Proof. exact (convex_rejected total). Qed.
Print Assumptions C39_convex_refuted.

(** C40.  [closed_sum]: sum over the segments of the closed path. *)
Theorem C40_result norm fuel n threshold route : two_opt norm fuel n threshold = Some route ->
  Permutation (seq 0 n) route /\ (forall d, (0 < n)%nat -> nth 0 route d = 0%nat) /\
  closed_sum (fun a b => norm b a) route <= closed_sum (fun a b => norm b a) (seq 0 n).
Proof. exact (two_opt_ok norm fuel n threshold route). Qed.
Print Assumptions C40_result.
(** threshold 0: no reversal of a stretch (not ending at the first point and not
    starting at the last two) makes the route shorter *)
Theorem C40_optimal norm fuel n route : (forall a b, 0 <= norm a b) -> (4 <= n)%nat -> two_opt norm fuel n 0 = Some route ->
  forall a b c, route = a ++ b ++ c -> (1 <= length a < n - 2)%nat -> (2 <= length b)%nat ->
  closed_sum (fun a b => norm b a) route <= closed_sum (fun a b => norm b a) (a ++ rev b ++ c).
Proof. exact (two_opt_stretch norm fuel n route). Qed.
Print Assumptions C40_optimal.
Theorem C40_terminates norm n threshold : (forall a b, 0 <= norm a b) -> (4 <= n)%nat -> 0 <= threshold ->
  exists fuel route, two_opt norm fuel n threshold = Some route.
Proof. intros H. exact (two_opt_terminates norm H n threshold). Qed.
Print Assumptions C40_terminates.
Example C40_example : two_opt w_norm 5 4 (1 # 1000) = Some [0; 2; 1; 3]%nat /\ (forall a b, 0 <= w_norm a b).
Proof. exact (conj corners_two_opt w_norm_nonneg). Qed.
Example C40_example_optimal : two_opt w_norm 5 4 0 = Some [0; 2; 1; 3]%nat.
Proof. exact corners_two_opt0. Qed.
(** C40, false as stated: up to three points the loop never ends, nor does it for
    a negative threshold. *)
Theorem C40_three_points_refuted norm fuel n threshold : (n <= 3)%nat -> threshold < 1 -> two_opt norm fuel n threshold = None.
Proof. exact (two_opt_small norm n threshold fuel). Qed.
Print Assumptions C40_three_points_refuted.
Theorem C40_negative_threshold_refuted norm fuel n threshold : (4 <= n)%nat -> threshold < 0 ->
  (forall r, Permutation (seq 0 n) r -> 0 < path_distance norm r) -> two_opt norm fuel n threshold = None.
Proof. exact (two_opt_negative norm n threshold fuel). Qed.
Print Assumptions C40_negative_threshold_refuted.
Example C40_example_negative : forall r, Permutation (seq 0 4) r -> 0 < path_distance (fun _ _ => 1) r.
Proof. exact ones_positive. Qed.

(** C41 *)
Theorem C41_all_points pi k r z l : 0 < pi -> line_from_points_poly pi k r z = Ok l ->
  length r = length z /\ (3 <= length r)%nat /\ Permutation (combine r z) l /\ 0 < area2 l.
Proof. intros Hpi. exact (poly_result pi Hpi k r z l). Qed.
Print Assumptions C41_all_points.
(** C41: one insertion, when the points so far run anticlockwise: between the end
    points of the segment to which the angle found by closestPoint belongs.  That
    this is the nearest segment is false. *)
Theorem C41_insertion_partial pi k orig vals i v : 0 < pi -> (0 < i < length orig)%nat -> length vals = length orig -> 0 < area2 (firstn i vals) ->
  poly_step pi orig k vals i = Ok v ->
  let theta := closestPoint pi (firstn i vals) (nth i orig (0, 0)) 3 20 in
  let ind := Qfloor (theta / (2 * pi / inject_Z (Z.of_nat i))) in
  (0 <= ind < Z.of_nat i)%Z /\
  firstn (S i) v = firstn (S (Z.to_nat ind)) (firstn i vals) ++ nth i orig (0, 0) :: skipn (S (Z.to_nat ind)) (firstn i vals).
Proof. intros Hpi. exact (poly_step_place pi Hpi k orig vals i v). Qed.
Print Assumptions C41_insertion_partial.
Example C41_example : exists l, line_from_points_poly np_pi 3 [0; 4; 0; 2] [0; 0; 4; 0] = Ok l.
Proof. exact (ex_intro _ _ triangle_insert). Qed.
Example C41_example_area : 0 < area2 (firstn 3 [(0, 0); (4, 0); (0, 4); (2, 0)]).
Proof. vm_compute. reflexivity. Qed.
(** C41, false as stated: the midpoint of the first side of an anticlockwise
    triangle is not put between the ends of that side. *)
Theorem C41_nearest_refuted : exists a b c m, 0 < area2 [a; b; c] /\ qeq2 m (along a b (1 # 2)) /\
  line_from_points_poly np_pi 3 (map fst [a; b; c; m]) (map snd [a; b; c; m]) = Ok [a; b; c; m].
Proof. exact triangle_wrong_side. Qed.
Print Assumptions C41_nearest_refuted.

(** C69: equallySpaced.  [dist] is the table of distances at the angles
    i * dtheta; the new angles are those at which its linear interpolant takes
    the values j/n of the way. *)
Theorem C69_equal_spacing pi dist n : 0 < pi -> increasing dist -> (2 <= length dist)%nat -> forall j, (j < n)%nat ->
  let s := nth 0 dist 0 + inject_Z (Z.of_nat j) * ((last dist 0 - nth 0 dist 0) / inject_Z (Z.of_nat n)) in
  let dth := 2 * pi / inject_Z (Z.of_nat (length dist - 1)) in
  exists lo t, (S lo < length dist)%nat /\ 0 <= t <= 1 /\
    s == nth lo dist 0 + t * (nth (S lo) dist 0 - nth lo dist 0) /\
    nth j (equal_thetas pi dist n) 0 == (inject_Z (Z.of_nat lo) + t) * dth.
Proof. intros _. exact (equal_thetas_ok pi dist n). Qed.
Print Assumptions C69_equal_spacing.
Example C69_example : increasing [0; 1; 3; 4] /\ (2 <= length [0; 1; 3; 4])%nat /\ map Qred (equal_thetas (3 # 2) [0; 1; 3; 4] 4) = [0; 1; 3 # 2; 2].
Proof. repeat split. cbn. lia. Qed.

(** C70: closestPoint is not farther than any vertex, provided the nearest vertex
    is neither of the first two. *)
Theorem C70_closest_partial pi l target niter subdivide : 0 < pi -> (2 <= length l)%nat -> (4 <= subdivide)%nat -> Nat.even subdivide = true ->
  (forall j, (j < 2)%nat -> exists q, In q l /\ dist2 q target < dist2 (nth j l (0, 0)) target) ->
  forall q, In q l -> dist2 (positionPolygon pi l (closestPoint pi l target niter subdivide)) target <= dist2 q target.
Proof. intros Hpi Hl. exact (closest_no_worse pi Hpi l Hl target niter subdivide). Qed.
Print Assumptions C70_closest_partial.
Theorem C70_range pi l target niter subdivide : 0 < pi -> 0 <= closestPoint pi l target niter subdivide < 2 * pi.
Proof. intros Hpi. exact (closest_range pi Hpi l target niter subdivide). Qed.
Print Assumptions C70_range.
Example C70_example : forall j, (j < 2)%nat -> exists q, In q w_square /\ dist2 q (9 # 10, 1) < dist2 (nth j w_square (0, 0)) (9 # 10, 1).
Proof. exact square_near. Qed.
Theorem C70_closest_refuted : ~ forall l target q, (3 <= length l)%nat -> In q l ->
  dist2 (positionPolygon np_pi l (closestPoint np_pi l target 3 20)) target <= dist2 q target.
Proof. exact closest_wrong. Qed.
Print Assumptions C70_closest_refuted.
