(** C119: the rows of the parallel operators on smooth fields.  Statements only; the proofs are in WeightsSmooth. *)
From Coq Require Import List ZArith QArith Qabs Qround Reals Qreals Lia Lra Bool.
From Verif Require Import Prelude RevLipSpec.
From Verif Require Import WeightsModel WeightsSpec WeightsInput SmoothRowSpec WeightsSmooth.
Import ListNotations.
Open Scope R_scope.

(** A row of a smooth field gives the average of the field over the ends of the lines, up to an error
    of third order in the spacing of the cells (lengths are counted in cells), *)
Theorem C119_smooth_fields jw jc m n X Zm w : valid_maps m n X Zm w -> forall v, calculate_parallel_map_operators jw jc m = Ok v ->
  forall d c f g M, evolving m c -> some_inside m n (X d) c ->
  (forall c', evolving m c' -> (f (wv_cell_number v c') == g c')%Q) -> (forall c', evolving m c' -> (Qabs (g c') <= M)%Q) ->
  forall G Mx Mz delta, smooth2 Mx Mz G -> 0 <= delta -> (forall x z, G x (z + IZR (m_nz m)) = G x z) ->
  (forall i k, evolving m (i, next_y m d c, k) -> Rabs (Q2R (g (i, next_y m d c, k)) - G (IZR i) (IZR k)) <= delta) ->
  (forall s, (s < n)%nat -> ~ leaves m (X d c s) -> (0 <= Zm d c s)%Q /\ (m_mxg m + 1 <= Qfloor (X d c s) <= m_nx m - m_mxg m - 3)%Z) ->
  Rabs (Q2R (row_apply (leg_row v d (lo_interior_number (wv_dir d v) c)) f) - inside_average_R m n (X d) w c (fun s => G (Q2R (X d c s)) (Q2R (Zm d c s))))
    <= 3 / 32 * Mx + 15 / 128 * Mz + 25 / 16 * delta + 5 / 10000000000 * Q2R M.
Proof. exact (smooth_rows jw jc m n X Zm w). Qed.
Print Assumptions C119_smooth_fields.
(** also at the points where the lines should end, if the maps are off by at most e, *)
Theorem C119_true_ends jw jc m n X Zm w : valid_maps m n X Zm w -> forall v, calculate_parallel_map_operators jw jc m = Ok v ->
  forall d c f g M, evolving m c -> some_inside m n (X d) c ->
  (forall c', evolving m c' -> (f (wv_cell_number v c') == g c')%Q) -> (forall c', evolving m c' -> (Qabs (g c') <= M)%Q) ->
  forall G Mx Mz delta, smooth2 Mx Mz G -> 0 <= delta -> (forall x z, G x (z + IZR (m_nz m)) = G x z) ->
  (forall i k, evolving m (i, next_y m d c, k) -> Rabs (Q2R (g (i, next_y m d c, k)) - G (IZR i) (IZR k)) <= delta) ->
  forall L e xs zs, (forall a b a' b', Rabs (G a b - G a' b') <= L * (Rabs (a - a') + Rabs (b - b'))) ->
  (forall s, (s < n)%nat -> ~ leaves m (X d c s) -> (0 <= Zm d c s)%Q /\ (m_mxg m + 1 <= Qfloor (X d c s) <= m_nx m - m_mxg m - 3)%Z /\
    Rabs (Q2R (X d c s) - xs s) <= e /\ Rabs (Q2R (Zm d c s) - zs s) <= e) ->
  Rabs (Q2R (row_apply (leg_row v d (lo_interior_number (wv_dir d v) c)) f) - inside_average_R m n (X d) w c (fun s => G (xs s) (zs s)))
    <= 3 / 32 * Mx + 15 / 128 * Mz + 25 / 16 * delta + 2 * L * e + 5 / 10000000000 * Q2R M.
Proof. exact (smooth_rows_ends jw jc m n X Zm w). Qed.
Print Assumptions C119_true_ends.
(** and next to the radial boundaries, where the clamped index costs an eighth of a cell's variation. *)
Theorem C119_next_to_boundaries jw jc m n X Zm w : valid_maps m n X Zm w -> forall v, calculate_parallel_map_operators jw jc m = Ok v ->
  forall d c f g M, evolving m c -> some_inside m n (X d) c ->
  (forall c', evolving m c' -> (f (wv_cell_number v c') == g c')%Q) -> (forall c', evolving m c' -> (Qabs (g c') <= M)%Q) ->
  forall G Mx Mz delta, smooth2 Mx Mz G -> 0 <= delta -> (forall x z, G x (z + IZR (m_nz m)) = G x z) ->
  (forall i k, evolving m (i, next_y m d c, k) -> Rabs (Q2R (g (i, next_y m d c, k)) - G (IZR i) (IZR k)) <= delta) ->
  forall L, (forall a b z, Rabs (G a z - G b z) <= L * Rabs (a - b)) -> (forall s, (s < n)%nat -> ~ leaves m (X d c s) -> (0 <= Zm d c s)%Q) ->
  Rabs (Q2R (row_apply (leg_row v d (lo_interior_number (wv_dir d v) c)) f) - inside_average_R m n (X d) w c (fun s => G (Q2R (X d c s)) (Q2R (Zm d c s))))
    <= 3 / 32 * Mx + 15 / 128 * Mz + 25 / 16 * delta + L / 8 + 5 / 10000000000 * Q2R M.
Proof. exact (smooth_rows_edge jw jc m n X Zm w). Qed.
Print Assumptions C119_next_to_boundaries.
(** The interpolation is not exact on cubics, so that the order is three. *)
Theorem C119_cubics_refuted : ~ forall F f f' M x, smooth M f f' -> (forall i, Q2R (F i) = f (IZR i)) -> Rabs (Q2R (interp1 F x) - f (Q2R x)) <= M / 100.
Proof. exact cubics_refuted. Qed.
Print Assumptions C119_cubics_refuted.

(** x^2 + sin (pi z / 2) on 4 toroidal cells *)
Definition sx (d : dir) (c : cell) (s : nat) : Q := match s with O => 9 # 4 | _ => 11 # 4 end.
Definition sz (d : dir) (c : cell) (s : nat) : Q := match s with O => 1 # 3 | _ => 19 # 8 end.
Definition smooth_maps : maps :=
  {| m_nx := 6; m_ny := 2; m_nz := 4; m_mxg := 1;
     m_fxts := Some (A4 2 (sx Fwd)); m_fxt := None; m_fzts := Some (A4 2 (sz Fwd)); m_fzt := None;
     m_bxts := Some (A4 2 (sx Bwd)); m_bxt := None; m_bzts := Some (A4 2 (sz Bwd)); m_bzt := None;
     m_subw := Some (W1 [1 # 4; 3 # 4]%Q) |}.
Example C119_example : valid_maps smooth_maps 2 sx sz [1 # 4; 3 # 4]%Q /\ (exists v, calculate_parallel_map_operators 0 0 smooth_maps = Ok v) /\
  evolving smooth_maps (3, 1, 2)%Z /\ some_inside smooth_maps 2 (sx Fwd) (3, 1, 2)%Z /\ (forall c', evolving smooth_maps c' -> (Qabs (wave_value c') <= 17)%Q) /\
  smooth2 0 8 wave /\ (forall x z, wave x (z + IZR (m_nz smooth_maps)) = wave x z) /\
  (forall i k, evolving smooth_maps (i, next_y smooth_maps Fwd (3, 1, 2)%Z, k) -> Rabs (Q2R (wave_value (i, next_y smooth_maps Fwd (3, 1, 2)%Z, k)) - wave (IZR i) (IZR k)) <= 0) /\
  (forall s, (s < 2)%nat -> (0 <= sz Fwd (3, 1, 2)%Z s)%Q /\ (1 + 1 <= Qfloor (sx Fwd (3, 1, 2)%Z s) <= 6 - 1 - 3)%Z).
Proof.
  split; [|split; [|split; [|split; [|split; [|split; [|split; [|split]]]]]]].
  - constructor; cbn; try lia; try (apply P4; reflexivity); try reflexivity; [apply PW; reflexivity|repeat constructor].
  - vm_compute. eexists. reflexivity.
  - cbn. lia.
  - exists 0%nat. split; [lia|]. intros [C|C]; revert C; vm_compute; discriminate.
  - intros ((x, y), k) (Hx & _ & Hk). cbn in Hx, Hk. assert (x = 1 \/ x = 2 \/ x = 3 \/ x = 4)%Z as [->|[->|[->| ->]]] by lia;
      assert (k = 0 \/ k = 1 \/ k = 2 \/ k = 3)%Z as [->|[->|[->| ->]]] by lia; vm_compute; discriminate.
  - exact wave_smooth.
  - exact wave_periodic.
  - intros i k (_ & _ & Hk). cbn in Hk. rewrite wave_on_cells by exact Hk. rewrite Rminus_diag_eq by reflexivity. rewrite Rabs_R0. lra.
  - intros [|[|s]] Hs; [| |lia]; vm_compute; repeat split; discriminate.
Qed.
