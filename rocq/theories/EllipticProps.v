(** Properties C34, C35 and C68. *)
From Coq Require Import List ZArith QArith Lia Lqa.
From Verif Require Import Prelude PreludeFacts PolModel PolSpec EllipticModel EllipticSpec EllipticProofs EllipticSmooth EllipticWitness.
Import ListNotations.
Open Scope Q_scope.

Section Props.
Variable pi : Q.
Variable innerR innerZ outerR outerZ : Q -> Q.
Variable inner_theta : Z -> option (Z -> Q).
Variable interpolate : Z -> Z -> Z -> Z -> arr2 -> arr2.
Variable tol : Q.
Variable s : Z.
Variable f : Q.
Variable dzr : Q.
Notation ge := (grid_elliptic pi innerR innerZ outerR outerZ inner_theta interpolate tol s f dzr).
Notation core' := (core pi innerR innerZ outerR outerZ inner_theta interpolate tol s f dzr).

(** C34: size, boundary rows on the given lines, guard rows the linear
    continuation.  Bounds on the iteration count are nowhere used. *)
Theorem C34_boundary_and_guards fuel nx nz o n rc g : ~ pi == 0 -> ge fuel nx nz o n rc = Some (Ok g) ->
  g_nx g = nx /\ g_nz g = nz /\ (0 <= n)%Z /\ (0 <= o)%Z /\ (2 <= nx - o - n)%Z /\
  exists ti, inner_theta nz = Some ti /\
  (forall j,
    g_R g n j == innerR (ti j) /\ g_Z g n j == innerZ (ti j) /\
    g_R g (nx - 1 - o)%Z j == outerR (theta pi nz j) /\ g_Z g (nx - 1 - o)%Z j == outerZ (theta pi nz j)) /\
  (forall j m, (0 <= m <= o)%Z -> let b := (nx - 1 - o)%Z in
    g_R g (b + m)%Z j == g_R g b j + inject_Z m * (g_R g b j - g_R g (b - 1)%Z j) /\
    g_Z g (b + m)%Z j == g_Z g b j + inject_Z m * (g_Z g b j - g_Z g (b - 1)%Z j)) /\
  (forall j m, (0 <= m <= n)%Z ->
    g_R g (n - m)%Z j == g_R g n j + inject_Z m * (g_R g n j - g_R g (n + 1)%Z j) /\
    g_Z g (n - m)%Z j == g_Z g n j + inject_Z m * (g_Z g n j - g_Z g (n + 1)%Z j)).
Proof. exact (grid_elliptic_ok pi innerR innerZ outerR outerZ inner_theta interpolate tol s f dzr fuel nx nz o n rc g). Qed.

(** C34: the returned points differ by less than the tolerance from a state
    [R0], [Y0] with the same boundary, and the difference is the residual of the
    equation there divided by the (non-zero) diagonal.  [relax_value dzr] is
    10/3 by default, so this is not the documented equation: hence partial. *)
Theorem C34_last_step_partial fuel nx nz R Y : ~ pi == 0 -> core' fuel nx nz = Some (Ok (R, Y)) ->
  exists R0 Y0 : arr2,
    let dx := 1 / inject_Z (nx - 1) in let dz := 2 * pi / inject_Z nz in let k := relax_value dzr in
    (forall i j, (i = 0 \/ i = nx - 1)%Z -> R0 i j == R i j /\ Y0 i j == Y i j) /\
    (forall i j, (1 <= i <= nx - 2)%Z -> (0 <= j < nz)%Z ->
       exists d, ~ d == 0 /\
       (R i j - R0 i j) * d == residual nz dx dz k R0 Y0 R0 i j /\
       (Y i j - Y0 i j) * d == residual nz dx dz k R0 Y0 Y0 i j /\
       dist2 (R i j, Y i j) (R0 i j, Y0 i j) < tol).
Proof. exact (last_step pi innerR innerZ outerR outerZ inner_theta interpolate tol s f dzr fuel nx nz R Y). Qed.

(** C35: the recursion ends, with fuel (depth) at most nx + nz + 1. *)
Theorem C35_recursion_terminates fuel nx nz : 1 < f -> (forall n, inner_theta n <> None) ->
  (Z.to_nat nx + Z.to_nat nz < fuel)%nat -> core' fuel nx nz <> None.
Proof. intros Hf Ht. exact (core_terminates pi innerR innerZ outerR outerZ inner_theta interpolate tol s f dzr Hf Ht fuel nx nz). Qed.

(** C35: with coarse sizes of at least 4, the only failure is non-convergence. *)
Theorem C35_only_convergence_fails fuel nx nz e : 1 < f -> 4 * f <= inject_Z (s + 1) -> (4 <= nx)%Z -> (4 <= nz)%Z ->
  core' fuel nx nz = Some (Err e) -> e = RuntimeError.
Proof. intros Hf H4. exact (core_errors pi innerR innerZ outerR outerZ inner_theta interpolate tol s f dzr Hf H4 fuel nx nz e). Qed.

(** Refused: fewer than two rows between the guards, fewer than two columns, a negative number of guards. *)
Theorem C34_refused fuel nx nz o n rc : (o < 0 \/ n < 0 \/ nx - o - n <= 1 \/ nz <= 1)%Z -> ge (S fuel) nx nz o n rc = Some (Err AssertionError).
Proof. exact (refused pi innerR innerZ outerR outerZ inner_theta interpolate tol s f dzr fuel nx nz o n rc). Qed.
End Props.
Print Assumptions C34_refused.
Print Assumptions C34_boundary_and_guards.
Print Assumptions C34_last_step_partial.
Print Assumptions C35_recursion_terminates.
Print Assumptions C35_only_convergence_fails.

(** C34: unchanged by an iteration = solves the equation with [k = dz_relax]. *)
Theorem C34_fixed_point_partial nx nz dx dz k R Y F i j : ~ dx == 0 -> ~ dz == 0 -> (1 <= i <= nx - 2)%Z ->
  ~ diag nz dx dz k R Y i j == 0 ->
  (step_arr nx nz dx dz k R Y F i j == F i j <-> residual nz dx dz k R Y F i j == 0).
Proof. exact (step_fixed_iff nx nz dx dz k R Y F i j). Qed.
Print Assumptions C34_fixed_point_partial.

(** C34: with the default the iteration rests where the documented equation
    (k = 1) does not hold. *)
Theorem C34_documented_equation_refuted pi : 0 < pi ->
  exists R Y : arr2, let dx := 1 / inject_Z 2 in let dz := 2 * pi / inject_Z 4 in let k := relax_value 0 in
  (forall i j, (0 <= i < 3)%Z -> (0 <= j < 4)%Z -> step_arr 3 4 dx dz k R Y R i j == R i j /\ step_arr 3 4 dx dz k R Y Y i j == Y i j) /\
  (forall tol, 0 < tol -> forall m, exists R' Y', solve 3 4 dx dz k (S m) tol R Y = Ok (R', Y')) /\
  ~ residual 4 dx dz 1 R Y R 1 0 == 0.
Proof. exact (resting_not_documented pi). Qed.
Print Assumptions C34_documented_equation_refuted.

(** C35: every chain of sizes exists, is finite, decreases, respects the lower
    bound and ends within the limit. *)
Theorem C35_sizes s f q nx nz : 1 < f -> (0 <= s)%Z -> (0 < q)%Z -> inject_Z q * f <= inject_Z (s + 1) ->
  (q <= nx)%Z -> (q <= nz)%Z ->
  exists l, coarsening s f (nx, nz) l /\
  (forall a b, In (a, b) l -> (q <= a <= nx /\ q <= b <= nz /\ a + b < nx + nz)%Z) /\
  (let e := last l (nx, nz) in (fst e <= s /\ snd e <= s)%Z).
Proof. exact (chain s f q nx nz). Qed.
Print Assumptions C35_sizes.

(** C35: with a factor of 1 the recursion never ends. *)
Theorem C35_factor_one_refuted pi iR iZ oR oZ th ip tol s dzr nx nz fuel : (1 < nx)%Z -> (1 < nz)%Z -> (s < nx)%Z ->
  core pi iR iZ oR oZ th ip tol s 1 dzr fuel nx nz = None.
Proof. exact (factor_one pi iR iZ oR oZ th ip tol s dzr nx nz fuel). Qed.
Print Assumptions C35_factor_one_refuted.

(** C35: by default three radial points with more than twenty poloidal ones
    never give a grid. *)
Theorem C35_thin_grid_refuted pi iR iZ oR oZ th ip tol dzr nz fuel R : (20 < nz)%Z ->
  core pi iR iZ oR oZ th ip tol 20 2 dzr fuel 3 nz <> Some (Ok R).
Proof. exact (thin_grid pi iR iZ oR oZ th ip tol dzr nz fuel R). Qed.
Print Assumptions C35_thin_grid_refuted.

(** C68: the sum of the angular steps is a whole number of turns; the smoothing
    returns if and only if it is positive, and keeps it. *)
Theorem C68_whole_turns pi n x : 0 < pi -> (0 < n)%Z -> exists w, turns pi n x w.
Proof. intros H Hn. exact (turns_exists pi n Hn x). Qed.
Print Assumptions C68_whole_turns.

Theorem C68_terminates pi n x w : 0 < pi -> (0 < n)%Z -> no_opposite pi n x -> turns pi n x w ->
  ((exists fuel y, laplace pi n fuel x = Some y) <-> (0 < w)%Z).
Proof. exact (laplace_terminates_iff pi n x w). Qed.
Print Assumptions C68_terminates.

Theorem C68_result pi n fuel x y : 0 < pi -> (0 < n)%Z -> laplace pi n fuel x = Some y ->
  (forall i, 0 < gap pi n y i) /\ (forall w, no_opposite pi n x -> turns pi n x w -> turns pi n y w).
Proof. intros H Hn. exact (laplace_result pi H n Hn fuel x y). Qed.
Print Assumptions C68_result.

(** C68: two poloidal points hang. *)
Theorem C68_two_points_refuted pi fuel x : 0 < pi -> laplace pi 2 fuel x = None.
Proof. exact (laplace_two pi fuel x). Qed.
Print Assumptions C68_two_points_refuted.

(** ** Non-vacuity *)
(** three points once round the circle, one pair swapped by noise: terminates *)
Example C68_noisy : no_opposite 3 4 noisy /\ turns 3 4 noisy 1 /\ ~ (forall i, 0 < gap 3 4 noisy i).
Proof. exact noisy_ok. Qed.
(** backwards: never *)
Example C68_backwards : no_opposite 3 4 backwards /\ turns 3 4 backwards (-1).
Proof. exact backwards_ok. Qed.
Example C35_default_sizes : inject_Z 4 * 2 <= inject_Z (20 + 1) /\ coarsening 20 2 (68, 256)%Z [(34, 128); (17, 64); (17, 32); (17, 16)]%Z.
Proof. exact default_sizes. Qed.
(** a run that succeeds: annulus of radii 1 and 2 with three rows and a guard *)
Example C34_runs : exists g, grid_elliptic 3 sq_R sq_Z sq2_R sq2_Z sq_theta (fun _ _ _ _ F => F) 1 20 2 1 5 4 4 1 0 true = Some (Ok g) /\
  g_nx g = 4%Z /\ g_R g 0%Z 0%Z == 1 /\ g_R g 2%Z 0%Z == 2 /\ 1 < g_R g 1%Z 0%Z < 3 # 2.
Proof. exact runs. Qed.
