(** Words of the statements about the perpendicular operator as a diffusion operator. *)
From Coq Require Import List ZArith QArith Reals Qreals.
From Verif Require Import Prelude PolModel DagpModel DagpSpec.
Import ListNotations.
Open Scope Q_scope.

(** the sum over the inner cells of a plane *)
Definition over_plane (nx nz : Z) (u : Z -> Z -> Q) : Q := sum_over 1 (nx - 1) (fun i => sum_over 0 nz (fun k => u i k)).
(** a field that is zero in the first and last radial row of plane [j] *)
Definition zero_edges (nx nz j : Z) (f : Z -> Z -> Z -> Q) : Prop := forall k, (0 <= k < nz)%Z -> f 0%Z j k == 0 /\ f (nx - 1)%Z j k == 0.
(** a grid with positive distances and, in a torus, to the right of the axis *)
Definition proper_grid (isSlab : bool) (r : rect) : Prop :=
  0 < r_dR r /\ forall x, 0 <= x <= inject_Z (r_nx r - 1) -> 0 < major_radius isSlab r x.
(** a function with third and fourth derivatives bounded by [M3] and [M4]; [f1] and [f2] are the first two *)
Definition smoother (M3 M4 : R) (f f1 f2 : R -> R) : Prop :=
  exists f3 f4, (forall t, derivable_pt_lim f t (f1 t)) /\ (forall t, derivable_pt_lim f1 t (f2 t)) /\
    (forall t, derivable_pt_lim f2 t (f3 t)) /\ (forall t, derivable_pt_lim f3 t (f4 t)) /\
    (forall t, (Rabs (f3 t) <= M3)%R) /\ (forall t, (Rabs (f4 t) <= M4)%R).
