(** upscale (zoidberg.py:936-1052).  Floats are exact real numbers. *)
From Coq Require Import List Reals Bool.
From Verif Require Import Prelude FieldReal.
Import ListNotations.
Open Scope R_scope.
Open Scope res_scope.

(** an array: its shape, and its values in C order *)
Record array := mkArray { shape : list nat; flat : nat -> R }.
Definition arr3 := (nat -> nat -> nat -> R)%type.
Definition prod (l : list nat) : nat := fold_right Nat.mul 1%nat l.
Definition shape_eqb (a b : list nat) : bool := if list_eq_dec PeanoNat.Nat.eq_dec a b then true else false.
(** the field as an array of the shape of the maps (zoidberg.py:972-980): the reshape
    is to the shape of the transposed maps, and its result is transposed *)
Definition fitted (field : array) (nx ny nz : nat) : res arr3 :=
  if shape_eqb (shape field) [nx; ny; nz] then Ok (fun x y z => flat field ((x * ny + y) * nz + z)%nat)
  else if (prod (shape field) =? nz * ny * nx)%nat then Ok (fun x y z => flat field ((z * ny + y) * nx + x)%nat)
  else Err ValueError.
(** map_coordinates with the default order, three, for an array [a, b] along its first
    axis at a position between 0 and 1.  The coordinates along the other axes are
    integers in upscale, where the spline passes through its data.  The coefficients
    solve (c_(k-1) + 4 c_k + c_(k+1)) / 6 = data, mirrored at the ends. *)
Definition spline2 (a b t : R) : R :=
  let c0 := 2 * a - b in
  let c1 := 2 * b - a in
  let w0 := (1 - t) ^ 3 / 6 in
  let w1 := (4 - 6 * t ^ 2 + 3 * t ^ 3) / 6 in
  let w2 := (1 + 3 * t + 3 * t ^ 2 - 3 * t ^ 3) / 6 in
  let w3 := t ^ 3 / 6 in
  c1 * w0 + c0 * w1 + c1 * w2 + c0 * w3.

Section Upscale.
(** scipy's map_coordinates for a 3D array of a shape, at one position *)
Variable map_coordinates : nat * nat * nat -> arr3 -> R * R * R -> R.
(** whether tqdm is installed: then update_progress is not imported (zoidberg.py:16-20) *)
Variable have_tqdm : bool.
(** scipy's griddata for points and values (method linear, fill_value 0): raises an
    error if there is no triangulation of the points, and else gives a function *)
Variable griddata : list (R * R) -> list R -> res (R * R -> R).

(** the y index of the next slice (zoidberg.py:986-988) *)
Definition yup (ny y : nat) : nat := if (y =? ny - 1)%nat then 0%nat else (y + 1)%nat.
(** a 2D array in the order of .T.flat: the last index outside *)
Definition flat_T {A} (nx nz : nat) (a : nat -> nat -> A) : list A := flat_map (fun z => map (fun x => a x z) (seq 0 nx)) (seq 0 nz).
(** upscale.  The maps are two arrays of the shape (nx, ny, nz), upscale_factor is not
    negative.  After transposing and reshaping (twizzle, zoidberg.py:1020-1024) slice K
    is the fraction K mod upscale_factor between the slices K / upscale_factor and the
    next one.  The result is the list of its y slices. *)
Definition upscale (field : array) (nx ny nz : nat) (xt_prime zt_prime : arr3) (upscale_factor : nat) (quiet : bool) : res (list (nat -> nat -> R)) :=
  let* field := fitted field nx ny nz in
  if (ny =? 0)%nat then Err IndexError else
  let field_prime x y z := map_coordinates (nx, ny, nz) field (xt_prime x y z, INR (yup ny y), zt_prime x y z) in
  if (upscale_factor =? 0)%nat then Err ZeroDivisionError else
  let midpoint m := INR m / INR upscale_factor in
  let hires (start fin : arr3) x K z :=
    let m := (K mod upscale_factor)%nat in
    let y := (K / upscale_factor)%nat in
    spline2 (start x y z) (fin x y z) (midpoint m) in
  let hires_field := hires field field_prime in
  let hires_x := hires (fun x _ _ => INR x) xt_prime in
  let hires_z := hires (fun _ _ z => INR z) zt_prime in
  foldM (fun hires_grid_field k =>
    let points := flat_T nx nz (fun x z => (hires_x x k z, hires_z x k z)) in
    let f_slice := flat_T nx nz (fun x z => hires_field x k z) in
    let* g := griddata points f_slice in
    let hires_grid_field := hires_grid_field ++ [fun x z => g (INR x, INR z)] in
    if quiet then Ok hires_grid_field
    else if have_tqdm then Err NameError
    else if (ny - 1 =? 0)%nat then Err ZeroDivisionError
    else Ok hires_grid_field) (seq 0 (upscale_factor * ny)) [].
End Upscale.
