(** Properties C109-C114: double precision in the weights, the indices of
    rectangular grids, remainders, integer quotients and the vertices of lines; and
    rows depend continuously on the maps.  Statements only; proofs are in FloatRound,
    FloatProofs, FloatMore, FloatLine, FloatNear and WeightsLip. *)
From Coq Require Import List ZArith QArith Qround Qabs Bool Lia.
From Verif Require Import Prelude PreludeFacts PolModel RzModel RzSpec W7xModel FloatModel FloatSpec FloatRound FloatProofs FloatMore FloatLine FloatNear WeightsModel WeightsSpec WeightsInput WeightsRows WeightsTop WeightsLip WeightsProps.
Import ListNotations.
Open Scope Q_scope.

(** * C109: the check of the toroidal weights never raises *)
(** The arithmetic: the result is a double, no double is nearer to the exact one, a double is kept, *)
Theorem C109_nearest q : double (b64 q) /\ (forall x, double x -> Qabs (b64 q - q) <= Qabs (x - q)) /\ (double q -> b64 q == q).
Proof. exact (conj (b64_double q) (conj (fun x => b64_nearest q x) (b64_of_double q))). Qed.
Print Assumptions C109_nearest.
(** of two that are equally near the even one. *)
Example C109_ties : b64 (inject_Z (2 ^ 53 + 1)) == inject_Z (2 ^ 53) /\ b64 (inject_Z (2 ^ 53 + 3)) == inject_Z (2 ^ 53 + 4) /\
  b64 (1 # 10) == 3602879701896397 # 36028797018963968 /\ b64 (- (1 # 3)) == - (6004799503160661 # 18014398509481984) /\
  b64 (3 * Qpower 2 (-1075)) == Qpower 2 (-1073) /\ b64 (Qpower 2 (-1075)) == 0.
Proof. vm_compute. repeat split. Qed.
Theorem C109_weights cube u : accurate_cube cube -> - (1) <= u <= 1 ->
  exists w0 w1 w2 w3, catmull_fl b64 cube u = [w0; w1; w2; w3] /\
    Qabs (w0 - (1 # 2) * (- (u * u * u) + 2 * (u * u) - u)) <= 128 * ulp_u /\
    Qabs (w1 - (1 # 2) * (3 * (u * u * u) - 5 * (u * u) + 2)) <= 128 * ulp_u /\
    Qabs (w2 - (1 # 2) * (- (3) * (u * u * u) + 4 * (u * u) + u)) <= 128 * ulp_u /\
    Qabs (w3 - (1 # 2) * (u * u * u - u * u)) <= 128 * ulp_u.
Proof. exact (fun H => weights_near b64 b64_rounding cube (cube_ok cube H) u). Qed.
Print Assumptions C109_weights.
Theorem C109_sum cube z : accurate_cube cube -> Qabs (fsum b64 (z_weights_fl b64 cube z) - 1) <= 600 * ulp_u.
Proof. exact (fun H => weights_sum b64 b64_rounding cube (cube_ok cube H) z). Qed.
Print Assumptions C109_sum.
Theorem C109_check_quiet cube z : accurate_cube cube -> z_check_raises b64 cube z = false.
Proof. exact (fun H => check_quiet b64 b64_rounding cube (cube_ok cube H) z). Qed.
Print Assumptions C109_check_quiet.
Example C109_example : accurate_cube (fun u => b64 (u * u * u)) /\ ulp_u == 1 # (2 ^ 53).
Proof. exact (conj rounded_cube (Qeq_refl _)). Qed.
(** The sum is not always one, *)
Example C109_not_one : ~ fsum b64 (z_weights_fl b64 (fun u => b64 (u * u * u)) (b64 (7 # 10))) == 1 \/ ~ fsum b64 (z_weights_fl b64 (fun u => b64 (u * u * u)) (b64 (1 # 10))) == 1.
Proof. vm_compute. first [left; discriminate|right; discriminate]. Qed.
(** and the check does raise for weights that are off by more. *)
Example C109_check_works : z_check_raises b64 (fun u => 1) (1 # 4) = false /\ z_check_raises (fun q => q + (1 # 1000)) (fun u => u * u * u) (1 # 4) = true.
Proof. vm_compute. split; reflexivity. Qed.

(** * C110: rows depend continuously on the maps *)
Theorem C110_rows_continuous :
  forall jw jc jw' jc' m m' n X Zm X' Zm' w, valid_maps m n X Zm w -> valid_maps m' n X' Zm' w ->
  (m_nx m' = m_nx m /\ m_ny m' = m_ny m /\ m_nz m' = m_nz m /\ m_mxg m' = m_mxg m) ->
  forall v v', calculate_parallel_map_operators jw jc m = Ok v -> calculate_parallel_map_operators jw' jc' m' = Ok v' ->
  forall d c f f' g M delta, evolving m c -> some_inside m n (X d) c ->
  (forall s, (s < n)%nat -> (leaves m (X d c s) <-> leaves m (X' d c s)) /\
     (~ leaves m (X d c s) -> 0 <= Zm d c s /\ 0 <= Zm' d c s /\ Qabs (X d c s - X' d c s) <= delta /\ Qabs (Zm d c s - Zm' d c s) <= delta)) ->
  (forall c', evolving m c' -> f (wv_cell_number v c') == g c' /\ f' (wv_cell_number v' c') == g c') ->
  (forall c', evolving m c' -> Qabs (g c') <= M) ->
  Qabs (row_apply (leg_row v d (lo_interior_number (wv_dir d v) c)) f - row_apply (leg_row v' d (lo_interior_number (wv_dir d v') c)) f')
    <= (10 * delta + (1 # 1000000000)) * M.
Proof. exact rows_continuous. Qed.
Print Assumptions C110_rows_continuous.
(** The hypotheses are met by the maps of C01 and the same with all positions shifted by 1/1000 *)
Definition ex_X' (d : dir) (c : cell) (s : nat) : Q := ex_X d c s + (1 # 1000).
Definition ex_Z' (d : dir) (c : cell) (s : nat) : Q := ex_Z d c s + (1 # 1000).
Definition ex_maps' : maps :=
  {| m_nx := 8; m_ny := 2; m_nz := 6; m_mxg := 1;
     m_fxts := Some (A4 2 (ex_X' Fwd)); m_fxt := None; m_fzts := Some (A4 2 (ex_Z' Fwd)); m_fzt := None;
     m_bxts := Some (A4 2 (ex_X' Bwd)); m_bxt := None; m_bzts := Some (A4 2 (ex_Z' Bwd)); m_bzt := None;
     m_subw := Some (W1 ex_w) |}.
Example C110_example : valid_maps ex_maps' 2 ex_X' ex_Z' ex_w /\ evolving ex_maps (3, 1, 2)%Z /\
  (forall d s, (s < 2)%nat -> ~ leaves ex_maps (ex_X d (3, 1, 2)%Z s) /\ ~ leaves ex_maps (ex_X' d (3, 1, 2)%Z s) /\
     Qabs (ex_X d (3, 1, 2)%Z s - ex_X' d (3, 1, 2)%Z s) <= 1 # 1000).
Proof.
  split; [|split].
  - constructor; cbn; try lia; try (apply P4; reflexivity); try reflexivity.
    + apply PW. reflexivity.
    + repeat constructor.
  - cbn. lia.
  - intros d [|[|s]] Hs; [| |lia].
    + split; [intros [C|C]; revert C; vm_compute; discriminate|]. split; [intros [C|C]; revert C; vm_compute; discriminate|]. vm_compute. discriminate.
    + split; [intros [C|C]; revert C; vm_compute; discriminate|]. split; [intros [C|C]; revert C; vm_compute; discriminate|]. vm_compute. discriminate.
Qed.

(** * C111: the points of a rectangular grid at their own indices *)
(** The points are spread evenly around the centre, up to rounding errors. *)
Theorem C111_coordinate_near L cells c n i : (0 < cells)%Z -> (1 <= n <= 2 ^ 45)%Z -> (0 <= i < n)%Z -> pow2 (-900) <= L / inject_Z cells ->
  Qabs (rect_coordinate b64 (rect_min b64 c (rect_d b64 L cells) n) (rect_d b64 L cells) (inject_Z i)
    - (c + (inject_Z i - (inject_Z n - 1) / 2) * (L / inject_Z cells))) <= 20 * (Qabs c + inject_Z n * (L / inject_Z cells)) * ulp_u.
Proof. exact (rect_coordinate_near b64 b64_rounding L cells c n i). Qed.
Print Assumptions C111_coordinate_near.
(** Within a rounding error the index of a point is its own, *)
Theorem C111_index_near m d i M : pow2 (-900) <= d -> 1 <= M <= inject_Z (2 ^ 45) -> Qabs m <= M * d -> 0 <= i <= M ->
  Qabs (rect_index b64 m d (rect_coordinate b64 m d i) - i) <= 12 * M * ulp_u.
Proof. exact (rect_roundtrip b64 b64_rounding m d i M). Qed.
Print Assumptions C111_index_near.
(** so that the inner columns are never seen outside, *)
Theorem C111_inner_columns_partial m d M nx mxg i : pow2 (-900) <= d -> 1 <= M <= inject_Z (2 ^ 45) -> Qabs m <= M * d -> inject_Z i <= M ->
  (0 <= mxg < i)%Z -> (i < nx - mxg - 1)%Z ->
  inject_Z mxg < rect_index b64 m d (rect_coordinate b64 m d (inject_Z i)) < inject_Z (nx - mxg - 1).
Proof. exact (inner_columns m d M nx mxg i). Qed.
Print Assumptions C111_inner_columns_partial.
Example C111_example : let d := rect_d b64 1 12 in let m := rect_min b64 0 d 16 in
  pow2 (-900) <= d /\ Qabs m <= 16 * d /\ 16 <= inject_Z (2 ^ 45) /\ pow2 (-900) <= 1 / inject_Z 12.
Proof. vm_compute. repeat split; discriminate. Qed.
(** but the first evolving column can be: the index of column 2 of 16 is less than 2, *)
Theorem C111_edge_refuted : ~ forall L c nx ny nz mxg jw jc v d x y z, 0 < L -> (0 <= mxg)%Z -> (2 * mxg < nx)%Z ->
  calculate_parallel_map_operators jw jc (straight_maps L c nx ny nz mxg) = Ok v -> evolving (straight_maps L c nx ny nz mxg) (x, y, z)%Z ->
  (0 <= lo_interior_number (wv_dir d v) (x, y, z))%Z.
Proof. exact straight_leaves_false. Qed.
Print Assumptions C111_edge_refuted.
(** every line of that column ends at the boundary although it stays at its R and Z. *)
Theorem C111_edge_column jw jc ny nz v d y z : (0 <= y < ny)%Z -> (0 <= z < nz)%Z ->
  calculate_parallel_map_operators jw jc (straight_maps 1 0 16 ny nz 2) = Ok v ->
  (lo_interior_number (wv_dir d v) (2, y, z)%Z < 0)%Z /\ (0 <= lo_boundary_number (wv_dir d v) (2, y, z)%Z)%Z.
Proof. exact (straight_edge jw jc ny nz v d y z). Qed.
Print Assumptions C111_edge_column.
Example C111_columns : own_index 1 0 16 2 2 == 4503599627370495 # 2251799813685248 /\ own_index 1 0 16 2 3 == 3 /\ own_index 1 0 16 2 13 == 13 /\
  8 - 2 - 1 < own_index 1 0 9 2 6.
Proof. vm_compute. repeat split. Qed.

(** * C112: remainders *)
Theorem C112_range a b : 0 < b -> double b -> 0 <= fremainder b64 a b <= b.
Proof. exact (fun Hb D => fremainder_range b64 b64_rounding a b Hb (b64_of_double b D)). Qed.
Print Assumptions C112_range.
Theorem C112_exact a b : 0 < b -> 0 <= a -> fremainder b64 a b == qrem a b.
Proof. exact (fremainder_nonneg b64 a b). Qed.
Print Assumptions C112_exact.
Theorem C112_near a b : 0 < b -> Qabs (fremainder b64 a b - qrem a b) <= ulp_u * b + ulp_eta.
Proof. exact (fremainder_near b64 b64_rounding a b). Qed.
Print Assumptions C112_near.
(** The period itself comes out for small negative numbers, *)
Theorem C112_below_refuted : ~ forall a, fremainder b64 a (2 * np_pi) < 2 * np_pi.
Proof. exact remainder_false. Qed.
Print Assumptions C112_below_refuted.
(** which the table of W7X_vacuum covers. *)
Theorem C112_table_covers ny phi : (2 <= ny)%nat -> outside_axis (W7xModel.linspace 0 (2 * np_pi) ny) (fremainder b64 phi (2 * np_pi)) = false.
Proof. exact (table_covers ny phi). Qed.
Print Assumptions C112_table_covers.
Example C112_example : double (2 * np_pi) /\ fremainder b64 (- (1 # 100000000000000000000)) (2 * np_pi) == 2 * np_pi /\ fremainder b64 7 2 == 1 /\ fremainder b64 (- (7)) 2 == 1.
Proof. split; [exact tau_double|]. vm_compute. repeat split. Qed.

(** * C113: integer quotients that go through a float *)
Theorem C113_floor a b : (Z.abs a < 2 ^ 53)%Z -> (0 < b <= 2 ^ 53)%Z -> floor_quotient b64 a b = (a / b)%Z.
Proof. exact (floor_quotient_exact b64 b64_rounding a b). Qed.
Print Assumptions C113_floor.
Theorem C113_int a b : (0 <= a < 2 ^ 53)%Z -> (0 < b <= 2 ^ 53)%Z -> int_quotient b64 a b = (a / b)%Z.
Proof. exact (int_quotient_exact b64 b64_rounding a b). Qed.
Print Assumptions C113_int.
Theorem C113_window n : (0 <= n < 2 ^ 52)%Z -> window_fl b64 n = ((n + 1) / 2 / 2 * 2 + 1)%Z.
Proof. exact (window_exact b64 b64_rounding n). Qed.
Print Assumptions C113_window.
(** Beyond that size it is not so. *)
Example C113_example : floor_quotient b64 (-1) 16 = (-1)%Z /\ int_quotient b64 2999 1000 = 2%Z /\ window_fl b64 64 = 33%Z /\ window_fl b64 5 = 3%Z /\
  floor_quotient b64 (2 ^ 54 - 1) (2 ^ 53) = 2%Z.
Proof. vm_compute. repeat split. Qed.

(** * C114: the vertices of a line at their own angles *)
(** The vertex comes out when the angle of the vertex was not rounded down, *)
Theorem C114_vertices_partial l k B : let n := Z.of_nat (length l) in let d := b64 (2 * np_pi / inject_Z n) in let theta := vertex_angle b64 l k in
  (k < length l)%nat -> (n <= 2 ^ 40)%Z -> inject_Z (Z.of_nat k) * d <= theta ->
  1 # (2 ^ 100) <= B -> (forall p, In p l -> Qabs (fst p) <= B /\ Qabs (snd p) <= B) ->
  let p := positionPolygon_fl b64 l theta in let v := nth k l (0, 0) in
  Qabs (fst p - fst v) <= 32 * ulp_u * B /\ Qabs (snd p - snd v) <= 32 * ulp_u * B.
Proof. exact (vertex_good l k B). Qed.
Print Assumptions C114_vertices_partial.
(** otherwise the fraction is that of a whole segment, with the index of the vertex or the one before *)
Theorem C114_rounded_down l k : let n := Z.of_nat (length l) in let d := b64 (2 * np_pi / inject_Z n) in let theta := vertex_angle b64 l k in
  (k < length l)%nat -> (n <= 2 ^ 40)%Z -> theta < inject_Z (Z.of_nat k) * d ->
  (polygon_ind b64 n theta = Z.of_nat k \/ polygon_ind b64 n theta = (Z.of_nat k - 1)%Z) /\ (1 - (1 # 1000)) * d <= polygon_rem b64 n theta <= d.
Proof. exact (vertex_wrong l k). Qed.
Print Assumptions C114_rounded_down.
(** and it happens: the last vertex of a hexagon is off by half its size. *)
Theorem C114_vertices_refuted : ~ forall l k, (3 <= length l)%nat -> (k < length l)%nat ->
  Qabs (fst (positionPolygon_fl b64 l (vertex_angle b64 l k)) - fst (nth k l (0, 0))) <= 1 # 2.
Proof. exact polygon_vertices_false. Qed.
Print Assumptions C114_vertices_refuted.
Example C114_example : let theta := vertex_angle b64 w_hexagon 3 in inject_Z 3 * b64 (2 * np_pi / inject_Z 6) <= theta /\
  qeq2 (positionPolygon_fl b64 w_hexagon theta) (- (9007199254740991 # 9007199254740992), - (1 # 4503599627370496)) /\
  qeq2 (positionPolygon_fl b64 w_hexagon (vertex_angle b64 w_hexagon 5)) (2304939532180697 # 2251799813685248, 53139718495449 # 1125899906842624).
Proof. vm_compute. repeat split; discriminate. Qed.
