(** Properties C52 and C53. *)
From Coq Require Import List ZArith QArith Qabs Bool.
From Verif Require Import Prelude BoundaryModel BoundarySpec BoundaryProofs BoundaryLoop BoundaryConvex BoundaryVertex BoundaryWitness.
Import ListNotations.
Open Scope Q_scope.

(** C52 *)
Theorem C52_rectangle r x z : rect_outside r x z = true <-> ~ (xmin r <= x <= xmax r /\ zmin r <= z <= zmax r).
Proof. exact (rect_outside_ok r x z). Qed.
Print Assumptions C52_rectangle.
Theorem C52_no_boundary xs : length (no_outside xs) = length xs /\ forall b, In b (no_outside xs) -> b = false.
Proof. exact (no_outside_ok xs). Qed.
Print Assumptions C52_no_boundary.
Theorem C52_arrays r xs zs i x z : nth_error xs i = Some x -> nth_error zs i = Some z ->
  exists b, nth_error (rect_outside_array r xs zs) i = Some b /\ (b = true <-> ~ (xmin r <= x <= xmax r /\ zmin r <= z <= zmax r)).
Proof. exact (rect_array_ok r xs zs i x z). Qed.
Print Assumptions C52_arrays.
Example C52_example : map (fun p => rect_outside (mkRect 1 3 (-1) 1) (fst p) (snd p)) [(1, 1); (2, 0); (3, -1); (4, 0); (2, 2); (0, -2)] = [false; false; false; true; true; true].
Proof. vm_compute. reflexivity. Qed.

(** C53, partial: for a position on no side of the polygon and vertically below or
    above none of its vertices, and a polygon whose sides are exactly vertical or at
    least 1e-6 wide, the answer is that of the even-odd rule: outside unless the
    position is in an odd number of the triangles that make up the polygon.  (The
    position must also be off the lines from the first vertex, where the triangles
    meet.)  Nothing is asked of the polygon: it may be concave or cross itself. *)
Theorem C53_even_odd_partial vs P p : polygon_init (map fst vs) (map snd vs) = Ok P ->
  (forall v, In v vs -> ~ fst v == fst p) ->
  (forall a b, In (a, b) (sides vs ++ spokes vs) -> ~ on_segment a b p) ->
  (forall a b, In (a, b) (sides vs) -> fst a == fst b \/ 1 # 1000000 <= Qabs (fst b - fst a)) ->
  polygon_outside P (fst p) (snd p) = Ok (negb (even_odd vs p)).
Proof. exact (polygon_even_odd vs P p). Qed.
Print Assumptions C53_even_odd_partial.
Example C53_even_odd_example : polygon_init (map fst w_ell) (map snd w_ell) = Ok (w_poly w_ell) /\
  (forall v, In v w_ell -> ~ fst v == 1 # 2) /\
  (forall a b, In (a, b) (sides w_ell ++ spokes w_ell) -> ~ on_segment a b (1 # 2, 2)) /\
  (forall a b, In (a, b) (sides w_ell) -> fst a == fst b \/ 1 # 1000000 <= Qabs (fst b - fst a)) /\
  polygon_outside (w_poly w_ell) (1 # 2) 2 = Ok false /\ even_odd w_ell (1 # 2, 2) = true /\
  polygon_outside (w_poly w_ell) 2 2 = Ok true /\ even_odd w_ell (2, 2) = false.
Proof. exact w_ell_ok. Qed.

(** For a strictly convex polygon, of either orientation, the answer is true exactly
    for the positions that are not on the inner side of every side. *)
Theorem C53_convex_partial s vs P p : ~ s == 0 -> convex s vs -> polygon_init (map fst vs) (map snd vs) = Ok P ->
  (forall v, In v vs -> ~ fst v == fst p) ->
  (forall a b, In (a, b) (sides vs) -> ~ on_segment a b p) ->
  (forall a b, In (a, b) (sides vs) -> fst a == fst b \/ 1 # 1000000 <= Qabs (fst b - fst a)) ->
  exists o, polygon_outside P (fst p) (snd p) = Ok o /\ (o = true <-> ~ convex_interior s vs p).
Proof. exact (polygon_convex s vs P p). Qed.
Print Assumptions C53_convex_partial.
Example C53_convex_example : convex 1 w_hex /\ polygon_init (map fst w_hex) (map snd w_hex) = Ok (w_poly w_hex) /\
  (forall v, In v w_hex -> ~ fst v == 2) /\
  (forall a b, In (a, b) (sides w_hex) -> ~ on_segment a b (2, 1)) /\
  (forall a b, In (a, b) (sides w_hex) -> fst a == fst b \/ 1 # 1000000 <= Qabs (fst b - fst a)) /\
  polygon_outside (w_poly w_hex) 2 1 = Ok false /\ polygon_outside (w_poly w_hex) 2 3 = Ok true.
Proof. exact (conj (proj1 w_convex) w_hex_ok). Qed.

(** every polygon with at least one vertex gets an answer at every position *)
Theorem C53_defined vs p : vs <> [] -> exists P o, polygon_init (map fst vs) (map snd vs) = Ok P /\ polygon_outside P (fst p) (snd p) = Ok o.
Proof. exact (polygon_defined vs p). Qed.
Print Assumptions C53_defined.
(** A polygon without points is refused. *)
Theorem C53_empty xs : polygon_init xs [] = Err ValueError.
Proof. reflexivity. Qed.
Print Assumptions C53_empty.

(** What the answer is at every position, for every polygon: outside if an even number
    of the sides that are at least 1e-6 wide has a point at or above it. *)
Theorem C53_everywhere vs P p : polygon_init (map fst vs) (map snd vs) = Ok P ->
  polygon_outside P (fst p) (snd p) = Ok (Nat.even (count (fun ab => Qle_bool (1 # 1000000) (Qabs (fst (snd ab) - fst (fst ab))) && at_or_above p ab) (sides vs))).
Proof. exact (every_position vs P p). Qed.
Print Assumptions C53_everywhere.
(** So below vertices it is the answer a little to the right, turned around for each
    side that ends there. *)
Theorem C53_right vs P p : polygon_init (map fst vs) (map snd vs) = Ok P ->
  (forall a b, In (a, b) (sides vs) -> ~ on_segment a b p) ->
  (forall a b, In (a, b) (sides vs) -> fst a == fst b \/ 1 # 1000000 <= Qabs (fst b - fst a)) ->
  exists e0, 0 < e0 /\ forall e, 0 < e < e0 -> exists o, polygon_outside P (fst p + e) (snd p) = Ok o /\
    polygon_outside P (fst p) (snd p) = Ok (xorb o (Nat.odd (count (ends_above p) (sides vs)))).
Proof. exact (step_right vs P p). Qed.
Print Assumptions C53_right.
(** In a convex polygon the answer is wrong exactly vertically below a vertex; *)
Theorem C53_interior s vs P p : ~ s == 0 -> convex s vs -> polygon_init (map fst vs) (map snd vs) = Ok P ->
  (forall a b, In (a, b) (sides vs) -> fst a == fst b \/ 1 # 1000000 <= Qabs (fst b - fst a)) -> convex_interior s vs p ->
  exists o, polygon_outside P (fst p) (snd p) = Ok o /\ (o = true <-> exists v, In v vs /\ fst v == fst p /\ snd p < snd v).
Proof. exact (interior_answer s vs P p). Qed.
Print Assumptions C53_interior.
(** out of it, where an odd number of sides ends vertically above the position. *)
Theorem C53_exterior s vs P p : ~ s == 0 -> convex s vs -> polygon_init (map fst vs) (map snd vs) = Ok P ->
  (forall a b, In (a, b) (sides vs) -> ~ on_segment a b p) ->
  (forall a b, In (a, b) (sides vs) -> fst a == fst b \/ 1 # 1000000 <= Qabs (fst b - fst a)) -> (exists a b, In (a, b) (sides vs) /\ s * orient a b p < 0) ->
  polygon_outside P (fst p) (snd p) = Ok (Nat.even (count (ends_above p) (sides vs))).
Proof. exact (exterior_answer s vs P p). Qed.
Print Assumptions C53_exterior.
Example C53_vertices_example : polygon_init (map fst w_diamond) (map snd w_diamond) = Ok (w_poly w_diamond) /\
  (forall a b, In (a, b) (sides w_diamond) -> fst a == fst b \/ 1 # 1000000 <= Qabs (fst b - fst a)) /\
  convex 1 w_diamond /\ convex_interior 1 w_diamond (0, 0) /\ existsb (above (0, 0)) w_diamond = true /\ polygon_outside (w_poly w_diamond) 0 0 = Ok true /\
  convex_interior 1 w_diamond (1 # 2, 0) /\ existsb (above (1 # 2, 0)) w_diamond = false /\ polygon_outside (w_poly w_diamond) (1 # 2) 0 = Ok false /\
  1 * orient (-1, 0) (0, -1) (0, -2) < 0 /\ count (ends_above (0, -2)) (sides w_diamond) = 2%nat /\ polygon_outside (w_poly w_diamond) 0 (-2) = Ok true.
Proof. exact w_diamond_all. Qed.

(** C53, false without these conditions: below a vertex two sides are counted for
    one crossing, so the centre of a diamond is reported outside, *)
Theorem C53_vertex_refuted : ~ forall vs P p, convex 1 vs -> polygon_init (map fst vs) (map snd vs) = Ok P ->
  convex_interior 1 vs p -> polygon_outside P (fst p) (snd p) = Ok false.
Proof. exact (fun H => diamond_wrong (H w_diamond (w_poly w_diamond) (0, 0) (proj1 (proj2 w_convex)) eq_refl (proj1 w_diamond_centre))). Qed.
Print Assumptions C53_vertex_refuted.
(** every position below the tip of a triangle, however far away, inside, *)
Theorem C53_below_tip_refuted z : z < 0 -> ~ convex_interior 1 w_tri (0, z) /\ polygon_outside (w_poly w_tri) 0 z = Ok false.
Proof. exact (w_tri_below z). Qed.
Print Assumptions C53_below_tip_refuted.
(** and sides narrower than 1e-6 in x are left out. *)
Theorem C53_narrow_refuted : convex 1 w_narrow /\ convex_interior 1 w_narrow (1 # 20000000, 1 # 2) /\
  polygon_outside (w_poly w_narrow) (1 # 20000000) (1 # 2) = Ok true.
Proof. exact (conj (proj2 (proj2 (proj2 w_convex))) w_narrow_centre). Qed.
Print Assumptions C53_narrow_refuted.
