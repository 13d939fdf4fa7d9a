(** Property C89: calc_curvilinear_curvature. *)
From Coq Require Import List Reals.
From Verif Require Import CurvModel CurvProofs.
Open Scope R_scope.

(** The three arrays written are the contravariant components of the curl of the vector with
    the covariant components of b/B in the poloidal plane, for all grids with a metric that fits
    their positions.  Missing: the components are those at (R, number of the slice, Z) in the place
    of (R, Z, phi), and the toroidal one is multiplied by g_yy = R^2 in the place of R. *)
Theorem C89_curl_partial deriv Bxfunc Byfunc Bzfunc nx ny nz polR polZ dx dz g_xx g_yy g_zz g_xz B fR dy :
  poloidal_metric deriv nx ny nz polR polZ dx dz g_xx g_zz g_xz fR ->
  (forall x y z, inside nx ny nz x y z -> B x y z <> 0) ->
  forall x y z, inside nx ny nz x y z ->
  bxcvx deriv Bxfunc Byfunc Bzfunc nx ny nz polR polZ dx dz g_yy g_zz g_xz B fR dy x y z =
    curl_x deriv nx ny nz polR polZ dx dz fR dy (cov_y B (at_index polR polZ Byfunc) g_yy) (cov_z deriv nz polR polZ dz B (at_index polR polZ Bxfunc) (at_index polR polZ Bzfunc)) x y z /\
  bxcvy deriv Bxfunc Byfunc Bzfunc nx nz polR polZ dx dz g_xx g_zz g_xz B fR x y z =
    curl_y deriv nx nz polR polZ dx dz fR (cov_x deriv nx polR polZ dx B (at_index polR polZ Bxfunc) (at_index polR polZ Bzfunc)) (cov_z deriv nz polR polZ dz B (at_index polR polZ Bxfunc) (at_index polR polZ Bzfunc)) x y z /\
  bxcvz deriv Bxfunc Byfunc Bzfunc nx ny nz polR polZ dx dz g_xx g_yy g_xz B fR dy x y z =
    curl_z deriv nx ny nz polR polZ dx dz fR dy (cov_x deriv nx polR polZ dx B (at_index polR polZ Bxfunc) (at_index polR polZ Bzfunc)) (cov_y B (at_index polR polZ Byfunc) g_yy) x y z.
Proof. exact (bxcv_curl deriv Bxfunc Byfunc Bzfunc nx ny nz polR polZ dx dz g_xx g_yy g_zz g_xz B fR dy). Qed.
Print Assumptions C89_curl_partial.

(** The differences are the derivatives on grids with slanted, evenly spaced lines, for all
    difference formulas that are right for straight lines, and J is R times the area. *)
Theorem C89_slanted deriv nx nz (R0 Z0 : nat -> R) rx rz zx zz hx hz fR x y z :
  exact_on_lines deriv -> (3 <= nx)%nat -> (3 <= nz)%nat -> (x < nx)%nat -> (z < nz)%nat -> hx <> 0 -> hz <> 0 ->
  let polR := fun y x z => R0 y + rx * (hx * INR x) + rz * (hz * INR z) in
  let polZ := fun y x z => Z0 y + zx * (hx * INR x) + zz * (hz * INR z) in
  let dx := fun _ _ _ => hx in let dz := fun _ _ _ => hz in
  dRdx deriv nx polR dx x y z = rx /\ dRdz deriv nz polR dz x y z = rz /\
  dZdx deriv nx polZ dx x y z = zx /\ dZdz deriv nz polZ dz x y z = zz /\
  J deriv nx nz polR polZ dx dz fR x y z = fR x y z * (rx * zz - rz * zx).
Proof. exact (slanted deriv nx nz R0 Z0 rx rz zx zz hx hz fR x y z). Qed.
Print Assumptions C89_slanted.

(** The toroidal component: the vacuum field 1/R on a rectangular grid, at R = 2. *)
Theorem C89_toroidal_refuted : poloidal_metric w_deriv 3 3 3 w_R w_Z one3 one3 one3 one3 zero3 w_fR /\
  bxcvz w_deriv (fun _ _ _ => 0) w_By (fun _ _ _ => 0) 3 3 3 w_R w_Z one3 one3 one3 w_g22 zero3 w_B w_fR one3 1 1 1 = 13 / 2 /\
  curl_z w_deriv 3 3 3 w_R w_Z one3 one3 w_fR one3
   (cov_x w_deriv 3 w_R w_Z one3 w_B zero3 zero3) (cov_y w_B (fun x y z => w_By (w_R y x z) (w_Z y x z) 0) w_fR) 1 1 1 = 2.
Proof. exact (conj w_metric (conj w_code w_right)). Qed.
Print Assumptions C89_toroidal_refuted.

(** The arguments: the field (z, 1, 0) on the same grid. *)
Theorem C89_arguments_refuted :
  bxcvy w_deriv w_Bx (fun _ _ _ => 1) (fun _ _ _ => 0) 3 3 w_R w_Z one3 one3 one3 one3 zero3 w_B2 w_fR 1 1 1 = - (1 / 5) /\
  curl_y w_deriv 3 3 w_R w_Z one3 one3 w_fR
   (cov_x w_deriv 3 w_R w_Z one3 w_B2 (fun x y z => w_Bx (w_R y x z) (w_Z y x z) 0) zero3)
   (cov_z w_deriv 3 w_R w_Z one3 w_B2 (fun x y z => w_Bx (w_R y x z) (w_Z y x z) 0) zero3) 1 1 1 = 1 / 10.
Proof. exact w_arguments. Qed.
Print Assumptions C89_arguments_refuted.

(** The hypotheses are met by the grid of the two witnesses. *)
Example C89_example : poloidal_metric w_deriv 3 3 3 w_R w_Z one3 one3 one3 one3 zero3 w_fR /\ inside 3 3 3 1 1 1 /\
  (forall x y z, inside 3 3 3 x y z -> w_B2 x y z <> 0).
Proof. split; [exact w_metric|]. split; [repeat split; now apply Nat.leb_le|intros; apply w_B2_nz]. Qed.
(** Central differences, one-sided at the ends, are right for straight lines. *)
Example C89_example_slanted : exact_on_lines w_deriv.
Proof. exact w_exact. Qed.
