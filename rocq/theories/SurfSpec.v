(** Vocabulary for the statements about make_surfaces, write_Bfield_to_vtk and plot_streamlines. *)
From Coq Require Import List ZArith QArith.
From Verif Require Import Prelude VtkModel SurfModel.
Import ListNotations.
Open Scope Q_scope.

(** a grid object with all attributes, and sizes that agree *)
Record complete (g : grid_object) (xc zc : Q) (xs ys zs : list Q) (x3 : nd3) (L : Q) : Prop := {
  c_xcentre : o_xcentre g = Some xc; c_zcentre : o_zcentre g = Some zc; c_xarray : o_xarray g = Some xs; c_yarray : o_yarray g = Some ys;
  c_zarray : o_zarray g = Some zs; c_x_3d : o_x_3d g = Some x3; c_ny : o_ny g = Some (length ys); c_Ly : o_Ly g = Some L; c_points : xs <> [];
  c_n0 : n0 x3 = length xs; c_n1 : n1 x3 = length ys; c_n2 : n2 x3 = length zs }.
Definition greatest (m : Q) (l : list Q) : Prop := In m l /\ forall a, In a l -> a <= m.
(** s of n surfaces as a fraction: 0 for the first, 1 for the last *)
Definition fraction (s n : nat) : Q := inject_Z (Z.of_nat s) / inject_Z (Z.of_nat n - 1).
(** [P], [v]: where the lines of n surfaces meet slice y in every revolution, and the numbers of the surfaces; the lines start at
    z = zc and x between xc and xc + half *)
Definition section_of (flow : Q * Q -> Q -> Q -> Q * Q) (xc zc half : Q) (ys : list Q) (L : Q) (n revs y : nat) (P : list (Q * Q)) (v : list Q) : Prop :=
  length P = (revs * n)%nat /\ length v = (revs * n)%nat /\
  forall r s, (r < revs)%nat -> (s < n)%nat -> exists x t,
    x == xc + fraction s n * half /\ t == nth y ys 0 + inject_Z (Z.of_nat r) * L /\
    nth (r * n + s) P (0, 0) = flow (x, zc) (hd 0 ys) t /\ nth (r * n + s) v 0 == fraction s n.
