(** Vocabulary for the statements about grid_elliptic. *)
From Coq Require Import List ZArith QArith.
From Verif Require Import Prelude PolModel EllipticModel.
Open Scope Q_scope.

(** Central differences, periodic in the second index. *)
Definition D_x (dx : Q) (F : arr2) (i j : Z) : Q := (F (i + 1)%Z j - F (i - 1)%Z j) / (2 * dx).
Definition D_z (nz : Z) (dz : Q) (F : arr2) (i j : Z) : Q := (F i ((j + 1) mod nz)%Z - F i ((j - 1) mod nz)%Z) / (2 * dz).
Definition D_xx (dx : Q) (F : arr2) (i j : Z) : Q := (F (i + 1)%Z j - 2 * F i j + F (i - 1)%Z j) / (dx * dx).
Definition D_zz (nz : Z) (dz : Q) (F : arr2) (i j : Z) : Q :=
  (F i ((j + 1) mod nz)%Z - 2 * F i j + F i ((j - 1) mod nz)%Z) / (dz * dz).
Definition D_xz (nz : Z) (dx dz : Q) (F : arr2) (i j : Z) : Q :=
  (F (i + 1)%Z ((j + 1) mod nz)%Z - F (i - 1)%Z ((j + 1) mod nz)%Z
   - F (i + 1)%Z ((j - 1) mod nz)%Z + F (i - 1)%Z ((j - 1) mod nz)%Z) / (4 * dx * dz).

(** a F_xx - 2 b F_xz + c F_zz with a = k^2 (R_z^2 + Z_z^2), b = k (R_z R_x + Z_x Z_z),
    c = R_x^2 + Z_x^2.  The equation of the documentation is [k = 1]. *)
Definition residual (nz : Z) (dx dz k : Q) (R Y F : arr2) (i j : Z) : Q :=
  let Rz := D_z nz dz R i j in let Zz := D_z nz dz Y i j in
  let Rx := D_x dx R i j in let Zx := D_x dx Y i j in
  k * k * (Rz * Rz + Zz * Zz) * D_xx dx F i j
  - 2 * (k * (Rz * Rx + Zx * Zz)) * D_xz nz dx dz F i j
  + (Rx * Rx + Zx * Zx) * D_zz nz dz F i j.

(** The sequence of grid sizes of the recursion. *)
Inductive coarsening (restrict_size : Z) (restrict_factor : Q) : Z * Z -> list (Z * Z) -> Prop :=
| base : forall nx nz, (nx <= restrict_size)%Z -> (nz <= restrict_size)%Z ->
    coarsening restrict_size restrict_factor (nx, nz) nil
| again : forall nx nz l, (restrict_size < nx \/ restrict_size < nz)%Z ->
    coarsening restrict_size restrict_factor (coarse restrict_size restrict_factor nx, coarse restrict_size restrict_factor nz) l ->
    coarsening restrict_size restrict_factor (nx, nz)
      ((coarse restrict_size restrict_factor nx, coarse restrict_size restrict_factor nz) :: l).

(** Angular steps between neighbouring points, in [-pi, pi), and their number of turns. *)
Definition gap (pi : Q) (n : Z) (x : arr1) (i : Z) : Q := wrap pi (x ((i + 1) mod n)%Z - x (i mod n)%Z).
Definition turns (pi : Q) (n : Z) (x : arr1) (w : Z) : Prop :=
  qsum (map (gap pi n x) (zrange 0 n)) == inject_Z w * (2 * pi).
(** No two neighbours exactly opposite. *)
Definition no_opposite (pi : Q) (n : Z) (x : arr1) : Prop := forall i, - pi < gap pi n x i.
