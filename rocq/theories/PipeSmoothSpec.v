(** Words of the statements about the operators made from the maps of any tracer on rectangular grids. *)
From Coq Require Import List ZArith QArith Reals Qreals.
From Verif Require Import Prelude PolModel MapsModel.
Import ListNotations.
Open Scope R_scope.

(** the position with index coordinates (x, z), also between the points *)
Definition place_R (r : rect) (x : Q) : R := Q2R (r_Rmin r + x * r_dR r)%Q.
Definition place_Z (r : rect) (z : Q) : R := Q2R (r_Zmin r + z * r_dZ r)%Q.
(** the tracer ends within [e] of where the field lines end: [line R Z y0 y] is the position at [y] of the
    field line through (R, Z) at [y0] *)
Definition ends_within (e : R) (line : R -> R -> R -> R -> R * R) (flow : arr2 -> arr2 -> Q -> Q -> arr2 * arr2) : Prop :=
  forall a b y0 y i k, let q := line (Q2R (a i k)) (Q2R (b i k)) (Q2R y0) (Q2R y) in
    Rabs (Q2R (fst (flow a b y0 y) i k) - fst q) <= e /\ Rabs (Q2R (snd (flow a b y0 y) i k) - snd q) <= e.
(** the weights of the sub-samples along x *)
Definition node_weights (roots : nat -> list Q * list Q) (spd : Z) : list Q :=
  if (spd =? 1)%Z then [1%Q] else map (fun u => (u * (1 # 2))%Q) (snd (roots (Z.to_nat spd))).
(** slope of at most [L] along x and z *)
Definition slope_below (L : R) (phi : R -> R -> R) : Prop := forall a b a' b', Rabs (phi a b - phi a' b') <= L * (Rabs (a - a') + Rabs (b - b')).
