(** calc_curvilinear_curvature (examples/common.py:9-86), in real arithmetic.  Arrays are
    functions of the indices x, y, z; the file is the arrays read from it. *)
From Coq Require Import List Reals.
Import ListNotations.
Open Scope R_scope.

Notation arr3 := (nat -> nat -> nat -> R).
Section Curvature.
(** boututils.calculus.deriv of one line of values, with respect to the index *)
Variable deriv : list R -> list R.
(** the components of the field; parameters x, z, phi as in field.py:58-104 *)
Variable Bxfunc Byfunc Bzfunc : R -> R -> R -> R.
Variable nx ny nz : nat.
(** R and Z of the poloidal grid of slice y: arguments y, x, z *)
Variable polR polZ : nat -> nat -> nat -> R.
(** grid.metric() *)
Variable dx dz g_xx g_yy g_zz g_xz : arr3.
(** f.read *)
Variable B fR dy : arr3.

(** calc.deriv along one axis *)
Definition deriv_x (a : arr3) : arr3 := fun x y z => nth x (deriv (map (fun i => a i y z) (seq 0 nx))) 0.
Definition deriv_y (a : arr3) : arr3 := fun x y z => nth y (deriv (map (fun i => a x i z) (seq 0 ny))) 0.
Definition deriv_z (a : arr3) : arr3 := fun x y z => nth z (deriv (map (fun i => a x y i) (seq 0 nz))) 0.

(** lines 30-46: the functions are called with R, the number of the slice, and Z *)
Definition GR : arr3 := fun x y z => Bxfunc (polR y x z) (INR y) (polZ y x z) / (B x y z) ^ 2.
Definition GZ : arr3 := fun x y z => Bzfunc (polR y x z) (INR y) (polZ y x z) / (B x y z) ^ 2.
Definition Gphi : arr3 := fun x y z => Byfunc (polR y x z) (INR y) (polZ y x z) / (B x y z) ^ 2.
Definition dRdz : arr3 := fun x y z => deriv_z (fun x y z => polR y x z) x y z / dz x y z.
Definition dZdz : arr3 := fun x y z => deriv_z (fun x y z => polZ y x z) x y z / dz x y z.
Definition dRdx : arr3 := fun x y z => deriv_x (fun x y z => polR y x z) x y z / dx x y z.
Definition dZdx : arr3 := fun x y z => deriv_x (fun x y z => polZ y x z) x y z / dx x y z.
(** lines 52-59; g_12 = g_23 = 0 (lines 19, 21) *)
Definition J : arr3 := fun x y z => fR x y z * (dZdz x y z * dRdx x y z - dZdx x y z * dRdz x y z).
Definition Gx : arr3 := fun x y z => (GR x y z * dZdz x y z - GZ x y z * dRdz x y z) * (fR x y z / J x y z).
Definition Gz : arr3 := fun x y z => (GZ x y z * dRdx x y z - GR x y z * dZdx x y z) * (fR x y z / J x y z).
Definition G_x : arr3 := fun x y z => Gx x y z * g_xx x y z + Gphi x y z * 0 + Gz x y z * g_xz x y z.
Definition G_y : arr3 := fun x y z => Gx x y z * 0 + Gphi x y z * g_yy x y z + Gz x y z * 0.
Definition G_z : arr3 := fun x y z => Gx x y z * g_xz x y z + Gphi x y z * 0 + Gz x y z * g_zz x y z.
(** lines 67-82 *)
Definition bxcvx : arr3 := fun x y z => (deriv_y G_z x y z / dy x y z - deriv_z G_y x y z / dz x y z) / J x y z.
Definition bxcvy : arr3 := fun x y z => (deriv_z G_x x y z / dz x y z - deriv_x G_z x y z / dx x y z) / J x y z.
Definition bxcvz : arr3 := fun x y z => (deriv_x G_y x y z / dx x y z - deriv_y G_x x y z / dy x y z) / J x y z.
End Curvature.
