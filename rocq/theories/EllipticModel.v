(** grid_elliptic (poloidal_grid.py:606-1047). *)
From Coq Require Import List ZArith QArith Qround Bool.
From Verif Require Import Prelude PolModel.
Import ListNotations.
Open Scope Q_scope.

(** ** laplace: smoothing of the inner angles (poloidal_grid.py:756-816) *)
Section Smooth.
Variable pi : Q.  (* numpy.pi, a float *)
Variable n : Z.   (* len(x) *)
Definition arr1 := Z -> Q.

(** remainder(v + pi, 2 pi) - pi *)
Definition wrap (v : Q) : Q := qrem (v + pi) (2 * pi) - pi.
(** poloidal_grid.py:757-760; [np.roll(x, s)[i] = x[(i - s) mod n]] *)
Definition dxv (x : arr1) (sign : Z) : arr1 := fun i => wrap (x ((i - sign) mod n)%Z - x i).
(** poloidal_grid.py:769, 780, 804 *)
Definition smooth_step (fac : Q) (x : arr1) : arr1 := fun i => x i + fac * (dxv x 1 i + dxv x (-1) i).
(** poloidal_grid.py:779, 803, 809: np.all(dx(x, -1) > 0) *)
Definition monotonic (x : arr1) : bool := forallb (fun i => Qlt_bool 0 (dxv x (-1) i)) (zrange 0 n).

Fixpoint iter {A} (k : nat) (f : A -> A) (a : A) : A := match k with O => a | S k => iter k f (f a) end.

(** poloidal_grid.py:803-805, [None]: out of fuel *)
Fixpoint until_monotonic (fuel : nat) (fac : Q) (x : arr1) : option arr1 :=
  match fuel with
  | O => None
  | S fuel => if monotonic x then Some x else until_monotonic fuel fac (smooth_step fac x)
  end.

(** poloidal_grid.py:762-766 *)
Definition smooth_fac (nz : Z) : Q * Z :=
  let fac := (1#10) * inject_Z nz / 192 in
  if Qlt_bool (1#10) fac then (1#10, Qtrunc (10 * fac / (1#10))) else (fac, 10%Z).

(** poloidal_grid.py:756-816 without [maxfac_inner]; [n] is nz. *)
Definition laplace (fuel : nat) (x : arr1) : option arr1 :=
  let '(fac, steps) := smooth_fac n in
  until_monotonic fuel fac (iter (Z.to_nat steps) (smooth_step fac) x).
End Smooth.

(** ** The solver loop (poloidal_grid.py:936-1001) *)
Section Jacobi.
Variable nx nz : Z.
Variable dx dz dz_relax : Q.
Definition arr2 := Z -> Z -> Q.

Definition zm (j : Z) : Z := ((j - 1) mod nz)%Z.
Definition zp (j : Z) : Z := ((j + 1) mod nz)%Z.

(** lines 968-977 *)
Definition dRdz (R : arr2) i j := dz_relax * (R i (zp j) - R i (zm j)) / (2 * dz).
Definition dRdx (R : arr2) i j := (R (i + 1)%Z j - R (i - 1)%Z j) / (2 * dx).
Definition coef_a (R Z : arr2) i j := dRdz R i j * dRdz R i j + dRdz Z i j * dRdz Z i j.
Definition coef_b (R Z : arr2) i j := dRdz R i j * dRdx R i j + dRdx Z i j * dRdz Z i j.
Definition coef_c (R Z : arr2) i j := dRdx R i j * dRdx R i j + dRdx Z i j * dRdx Z i j.
(** line 985, without the inversion *)
Definition diag (R Z : arr2) i j := 2 * coef_a R Z i j / (dx * dx) + 2 * coef_c R Z i j / (dz * dz).

(** lines 990-1000, the new value of [F] (R or Z) at an interior point *)
Definition jacobi (R Z F : arr2) i j : Q :=
  (coef_a R Z i j / (dx * dx) * (F (i - 1)%Z j + F (i + 1)%Z j)
   - coef_b R Z i j / (2 * dx * dz) *
     (F (i + 1)%Z (zp j) - F (i - 1)%Z (zp j) - F (i + 1)%Z (zm j) + F (i - 1)%Z (zm j))
   + coef_c R Z i j / (dz * dz) * (F i (zm j) + F i (zp j)))
  * (1 / diag R Z i j).

Definition interior_row (i : Z) : bool := ((1 <=? i) && (i <=? nx - 2))%Z%bool.
Definition step_arr (R Z F : arr2) : arr2 := fun i j => if interior_row i then jacobi R Z F i j else F i j.

Definition all_points (p : Z -> Z -> bool) : bool :=
  forallb (fun i => forallb (p i) (zrange 0 nz)) (zrange 0 nx).

(** numpy.amax((R - Rold)**2 + (Z - Zold)**2) < tol *)
Definition small_change (tol : Q) (R Z R' Z' : arr2) : bool :=
  all_points (fun i j => Qlt_bool ((R' i j - R i j) * (R' i j - R i j) + (Z' i j - Z i j) * (Z' i j - Z i j)) tol).

(** No vanishing diagonal.  Otherwise the code divides by zero; the NaN or
    infinity spreads to the neighbours, the maximum is never below [tol] and the
    loop ends with RuntimeError.  Here: RuntimeError at once. *)
Definition regular (R Z : arr2) : bool :=
  all_points (fun i j => (negb (interior_row i) || negb (qzero (diag R Z i j)))%bool).

(** [for _ in range(maxit): ... else: raise RuntimeError] *)
Fixpoint solve (maxit : nat) (tol : Q) (R Z : arr2) : res (arr2 * arr2) :=
  match maxit with
  | O => Err RuntimeError
  | S m =>
    if negb (regular R Z) then Err RuntimeError
    else
      let R' := step_arr R Z R in
      let Z' := step_arr R Z Z in
      if small_change tol R Z R' Z' then Ok (R', Z') else solve m tol R' Z'
  end.
End Jacobi.

(** ** The whole function *)
Section Elliptic.
Variable pi : Q.
(** Rvalue and Zvalue of the lines, after the alignment of lines 694-754 (which
    only rolls their points). *)
Variable innerR innerZ outerR outerZ : Q -> Q.
(** The angles on the inner line for [nz] points, lines 886-891, 906-911
    (closestPoint, laplace, fft_smooth, or the equally spaced angles);
    [None] when laplace does not terminate. *)
Variable inner_theta : Z -> option (Z -> Q).
(** RectBivariateSpline(x_r, z_r, F) evaluated on the fine grid, given the sizes
    of the coarse (without the repeated column) and fine grids. *)
Variable interpolate : Z -> Z -> Z -> Z -> arr2 -> arr2.
Variable tol : Q.
Variable restrict_size : Z.
Variable restrict_factor : Q.
Variable dz_relax : Q. (* 0 stands for None *)

Definition relax_value : Q := if qzero dz_relax then 10#3 else dz_relax.

(** lines 690, 898-899 *)
Definition theta (nz j : Z) : Q := inject_Z j * (2 * pi) / inject_Z nz.
Definition xval (nx i : Z) : Q := inject_Z i / inject_Z (nx - 1).

(** lines 913-916 *)
Definition first_guess (nx nz : Z) (iv ov : Q -> Q) (ti : Z -> Q) : arr2 :=
  fun i j => xval nx i * ov (theta nz j) + (1 - xval nx i) * iv (ti j).

(** lines 883-895: boundary rows put on the lines *)
Definition set_boundary (nx nz : Z) (iv ov : Q -> Q) (ti : Z -> Q) (F : arr2) : arr2 :=
  fun i j => if (i =? 0)%Z then iv (ti j) else if (i =? nx - 1)%Z then ov (theta nz j) else F i j.

(** lines 842-848: sizes of the coarse grid *)
Definition coarse (n : Z) : Z := if (restrict_size <? n)%Z then Qtrunc (inject_Z n / restrict_factor) else n.
Definition too_big (nx nz : Z) : bool := ((restrict_size <? nx) || (restrict_size <? nz))%Z%bool.

(** A cubic spline needs four points in each direction (the coarse grid has one
    more column than [nz]). *)
Definition spline_ok (nx nz : Z) : bool := ((4 <=? nx) && (3 <=? nz))%Z%bool.

(** lines 936-939 *)
Definition run_solver (nx nz : Z) (R Z : arr2) : res (arr2 * arr2) :=
  solve nx nz (1 / inject_Z (nx - 1)) (2 * pi / inject_Z nz) relax_value
    (Z.to_nat (Z.max (Z.max nx nz * 10) 300)) tol R Z.

(** grid_elliptic without guard cells, returning the coordinates; [None]: out of
    fuel (recursion depth) or laplace does not terminate. *)
Fixpoint core (fuel : nat) (nx nz : Z) : option (res (arr2 * arr2)) :=
  match fuel with
  | O => None
  | S fuel =>
    if negb (1 <? nx)%Z then Some (Err AssertionError)
    else if negb (1 <? nz)%Z then Some (Err AssertionError)
    else if too_big nx nz then
      match core fuel (coarse nx) (coarse nz) with
      | None => None
      | Some (Err e) => Some (Err e)
      | Some (Ok (Rr, Zr)) =>
        if negb (spline_ok (coarse nx) (coarse nz)) then Some (Err ValueError)
        else match inner_theta nz with
             | None => None
             | Some ti =>
               let R := set_boundary nx nz innerR outerR ti (interpolate (coarse nx) (coarse nz) nx nz Rr) in
               let Z := set_boundary nx nz innerZ outerZ ti (interpolate (coarse nx) (coarse nz) nx nz Zr) in
               Some (run_solver nx nz R Z)
             end
      end
    else match inner_theta nz with
         | None => None
         | Some ti => Some (run_solver nx nz (first_guess nx nz innerR outerR ti) (first_guess nx nz innerZ outerZ ti))
         end
  end.

(** lines 1027-1038: guard rows; [nx] is the size without guards *)
Definition add_guards (nx nx_outer nx_inner : Z) (F : arr2) : arr2 :=
  fun i j =>
    let F1 i j := if (nx <=? i)%Z then F (nx - 1)%Z j + (F (nx - 1)%Z j - F (nx - 2)%Z j) * inject_Z (i - (nx - 1))
                  else F i j in
    if (i <? nx_inner)%Z then F1 0%Z j + (F1 0%Z j - F1 1%Z j) * inject_Z (nx_inner - i)
    else F1 (i - nx_inner)%Z j.

(** poloidal_grid.py:606-1047; guard counts of 0 mean none. *)
Definition grid_elliptic (fuel : nat) (nx nz nx_outer nx_inner : Z) (return_coords : bool) : option (res grid2) :=
  if (negb (nx_outer =? 0) && negb (0 <? nx_outer))%Z%bool then Some (Err AssertionError)
  else if (negb (nx_inner =? 0) && negb (0 <? nx_inner))%Z%bool then Some (Err AssertionError)
  else
    let n := (nx - nx_outer - nx_inner)%Z in
    match core fuel n nz with
    | None => None
    | Some (Err e) => Some (Err e)
    | Some (Ok (R, Z)) =>
      let g := {| g_nx := (n + nx_outer + nx_inner)%Z; g_nz := nz;
                  g_R := add_guards n nx_outer nx_inner R; g_Z := add_guards n nx_outer nx_inner Z |} in
      Some (if return_coords then Ok g else struct_init g)
    end.
End Elliptic.
