(** C120: from the tracer to the derivative along the field lines.  Statements only; the proofs are in PipeSmooth. *)
From Coq Require Import String List ZArith QArith Qabs Reals Qreals Lia Lra.
From Verif Require Import Prelude GridModel GridSpec PolModel FieldModel MapsModel MapsSpec MapsExamples SlabModel SlabProofs RevLipSpec PipeSmoothSpec
  WeightsModel WeightsSpec WeightsInput PipeModel PipeSpec PipeTop SmoothRowSpec PipeSmooth PipeSmoothEx.
Import ListNotations.
Open Scope R_scope.

Section C120.
Variable repr : Q -> string.
Variable trace : arr2 -> arr2 -> list Q -> list (arr2 * arr2).
Variable Byf : Q -> Q -> Q -> Q.
Variable roots_jacobi : nat -> list Q * list Q.
Variable fll : list (Q * Q) -> list Q -> Q.
Variable Jperp : rect -> Z -> Z -> Q.
Variable is_slab : bool.
Variable flow : arr2 -> arr2 -> Q -> Q -> arr2 * arr2.
Variable t1 : Q -> Q -> list Q -> list (Q * Q).
Hypothesis Hflow : follows trace flow.
Hypothesis Ht : pointwise trace t1.
Hypothesis Hrule : rule roots_jacobi.
Variable g : grid rect.
Hypothesis Wg : well_formed g.
Variables (mxg spd : Z) (refine : nat).
Hypothesis Hspd : (1 <= spd)%Z.
Hypothesis Href : (1 <= refine)%nat.
Variables nx nz : Z.
Hypothesis Hmxg : (0 <= mxg)%Z.
Hypothesis Hnx : (2 * mxg <= nx)%Z.
Hypothesis Hnz : (0 < nz)%Z.
(** the tracer is accurate to [e] *)
Variables (e : R) (line : R -> R -> R -> R -> R * R).
Hypothesis Hline : ends_within e line flow.
Notation run := (make_maps repr rect rect_R rect_Z (fun r => Z.to_nat (r_nx r)) (fun r => Z.to_nat (r_nz r)) rect_find trace nowhere Byf roots_jacobi fll Jperp is_slab g 1 mxg spd refine).
Notation nd := (Z.to_nat spd).
Notation ns := (Z.to_nat spd * Z.to_nat spd)%nat.
(** the errors of interpolation, of the tracer, of the values of the field and of the dropped weights *)
Notation error r Kx Kz L delta M :=
  (3 / 32 * (Kx * (Q2R (r_dR r) * Q2R (r_dR r) * Q2R (r_dR r))) + 15 / 128 * (Kz * (Q2R (r_dZ r) * Q2R (r_dZ r) * Q2R (r_dZ r))) + 2 * L * e + 25 / 16 * delta + 5 / 10000000000 * Q2R M).

(** The row of a direction gives the field where the field lines through the sub-samples of the cell meet the next slice, *)
Theorem C120_rows n_chunks junk jw jc d m v dr i j k r0 yj r yo f q M phi Kx Kz L delta : n_chunks <> 0%nat -> run n_chunks junk = Ok d ->
  weights_input d nx (ny g) nz ns = Ok m -> calculate_parallel_map_operators jw jc m = Ok v ->
  getPoloidalGrid g (inject_Z j) = Ok (Some r0, yj) -> getPoloidalGrid g (inject_Z j + inject_Z (sgn dr))%Q = Ok (Some r, yo) -> r_nz r0 = nz -> (0 < r_dR r)%Q -> (0 < r_dZ r)%Q ->
  (mxg <= i < nx - mxg)%Z -> (0 <= j < ny g)%Z -> (0 <= k < nz)%Z ->
  let fin a := line (place_R r0 (inject_Z i + nth a (hs roots_jacobi spd) 0)%Q) (place_Z r0 (inject_Z k)) (Q2R yj) (Q2R yo) in
  (forall a, (a < nd)%nat -> place_R r (inject_Z (mxg + 1)) + e <= fst (fin a) < place_R r (inject_Z (nx - mxg - 2)) - e /\ place_Z r 0 + e <= snd (fin a)) ->
  (forall c', evolving m c' -> (f (wv_cell_number v c') == q c')%Q) -> (forall c', evolving m c' -> (Qabs (q c') <= M)%Q) ->
  smooth2 Kx Kz phi -> slope_below L phi -> (forall x z, phi x (z + IZR nz * Q2R (r_dZ r)) = phi x z) -> 0 <= delta ->
  (forall i' k', (mxg <= i' < nx - mxg)%Z -> (0 <= k' < nz)%Z ->
     Rabs (Q2R (q (i', (j + sgn dr) mod ny g, k')%Z) - phi (place_R r (inject_Z i')) (place_Z r (inject_Z k'))) <= delta) ->
  (lo_boundary_number (wv_dir dr v) (i, j, k) < 0)%Z /\
  Rabs (Q2R (row_apply (leg_row v dr (lo_interior_number (wv_dir dr v) (i, j, k))) f) -
        total_R (map (fun a => Q2R (nth a (node_weights roots_jacobi spd) 0%Q) * phi (fst (fin a)) (snd (fin a))) (seq 0 nd))) <= error r Kx Kz L delta M.
Proof. exact (rect_rows repr trace Byf roots_jacobi fll Jperp is_slab flow t1 Hflow Ht Hrule g Wg mxg spd refine Hspd Href nx nz Hmxg Hnx Hnz e line Hline
  n_chunks junk jw jc d m v dr i j k r0 yj r yo f q M phi Kx Kz L delta). Qed.
(** and half the difference of the two rows over the distance of the slices is the derivative along the lines, averaged over the sub-samples, to second order in that distance. *)
Theorem C120_derivative n_chunks junk jw jc d m v i j k r yb yj yf f q M phi Kx Kz L delta K dpsi : n_chunks <> 0%nat -> run n_chunks junk = Ok d ->
  weights_input d nx (ny g) nz ns = Ok m -> calculate_parallel_map_operators jw jc m = Ok v ->
  getPoloidalGrid g (inject_Z j) = Ok (Some r, yj) -> getPoloidalGrid g (inject_Z j + inject_Z 1)%Q = Ok (Some r, yf) -> getPoloidalGrid g (inject_Z j + inject_Z (-1))%Q = Ok (Some r, yb) ->
  (0 < yf - yj)%Q -> (yj - yb == yf - yj)%Q ->
  r_nz r = nz -> (0 < r_dR r)%Q -> (0 < r_dZ r)%Q -> (mxg <= i < nx - mxg)%Z -> (0 <= j < ny g)%Z -> (0 <= k < nz)%Z ->
  let fin a y := line (place_R r (inject_Z i + nth a (hs roots_jacobi spd) 0)%Q) (place_Z r (inject_Z k)) (Q2R yj) y in
  (forall a y, (a < nd)%nat -> In y [yb; yf] -> place_R r (inject_Z (mxg + 1)) + e <= fst (fin a (Q2R y)) < place_R r (inject_Z (nx - mxg - 2)) - e /\ place_Z r 0 + e <= snd (fin a (Q2R y))) ->
  (forall c', evolving m c' -> (f (wv_cell_number v c') == q c')%Q) -> (forall c', evolving m c' -> (Qabs (q c') <= M)%Q) ->
  (forall y, smooth2 Kx Kz (fun x z => phi x z y) /\ slope_below L (fun x z => phi x z y)) -> (forall x z y, phi x (z + IZR nz * Q2R (r_dZ r)) y = phi x z y) -> 0 <= delta ->
  (forall i' k' o y, In (o, y) [(1, yf); (-1, yb)]%Z -> (mxg <= i' < nx - mxg)%Z -> (0 <= k' < nz)%Z ->
     Rabs (Q2R (q (i', (j + o) mod ny g, k')%Z) - phi (place_R r (inject_Z i')) (place_Z r (inject_Z k')) (Q2R y)) <= delta) ->
  (forall a, (a < nd)%nat -> smooth K (fun t => phi (fst (fin a t)) (snd (fin a t)) t) (dpsi a)) ->
  let h := Q2R yf - Q2R yj in
  Rabs ((Q2R (row_apply (leg_row v Fwd (lo_interior_number (wv_dir Fwd v) (i, j, k))) f) - Q2R (row_apply (leg_row v Bwd (lo_interior_number (wv_dir Bwd v) (i, j, k))) f)) / (2 * h) -
        total_R (map (fun a => Q2R (nth a (node_weights roots_jacobi spd) 0%Q) * dpsi a (Q2R yj)) (seq 0 nd)))
    <= error r Kx Kz L delta M / h + K * (h * h) / 6.
Proof. exact (rect_derivative repr trace Byf roots_jacobi fll Jperp is_slab flow t1 Hflow Ht Hrule g Wg mxg spd refine Hspd Href nx nz Hmxg Hnx Hnz e line Hline
  n_chunks junk jw jc d m v i j k r yb yj yf f q M phi Kx Kz L delta K dpsi). Qed.
End C120.
Print Assumptions C120_rows.
Print Assumptions C120_derivative.

(** Concrete: the slab of C94, 9 x 3 x 8 cells, 2 x 2 sub-samples, and the field sin x + sin (2 pi z) + y *)
Example C120_example : exists d m v f, ex_slab_maps 1 = Ok d /\ weights_input d 9 (ny ex_rgrid) 8 (2 * 2) = Ok m /\ calculate_parallel_map_operators 0 0 m = Ok v /\
  (forall c', evolving m c' -> (f (wv_cell_number v c') == ripple_value c')%Q) /\
  Rabs ((Q2R (row_apply (leg_row v Fwd (lo_interior_number (wv_dir Fwd v) (4, 1, 3)%Z)) f) - Q2R (row_apply (leg_row v Bwd (lo_interior_number (wv_dir Bwd v) (4, 1, 3)%Z)) f)) / (2 * / 10) -
        (/ 2 * (1 + 2 * PI * (9 / 140) * cos (2 * PI * (- / 16))) + / 2 * (1 + 2 * PI * (19 / 140) * cos (2 * PI * (- / 16)))))
    <= (3 / 32 * (1 * (/ 7 * / 7 * / 7)) + 15 / 128 * (2 * PI * (2 * PI) * (2 * PI) * (/ 8 * / 8 * / 8)) + 25 / 16 * / 1000 + 5 / 10000000000 * 4) / / 10 + 2 * PI * (2 * PI) * (2 * PI) * (/ 10 * / 10) / 6.
Proof. exact ripple_example. Qed.
