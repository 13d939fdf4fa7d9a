(** Vocabulary for the statements about Grid. *)
From Coq Require Import List ZArith QArith Qabs Qround.
From Verif Require Import Prelude GridModel.
Import ListNotations.

(** A grid as built by Grid.__init__: as many slices as y coordinates, at least one. *)
Definition well_formed {G} (g : grid G) : Prop :=
  length (poloidal_grids g) = length (ycoords g) /\ (0 < length (ycoords g))%nat.

(** y coordinates strictly increasing inside [0, Ly). *)
Definition admissible {G} (g : grid G) : Prop :=
  well_formed g /\
  (forall i y, nth_error (ycoords g) i = Some y -> 0 <= y /\ y < Ly g) /\
  (forall i y1 y2, nth_error (ycoords g) i = Some y1 -> nth_error (ycoords g) (S i) = Some y2 -> y1 < y2).

(** The y position the docstring promises for integer index [i] of a periodic
    grid: the periodic extension of the coordinates. *)
Definition periodic_y {G} (g : grid G) (i : Z) : Q :=
  nth (Z.to_nat (i mod ny g)) (ycoords g) 0 + inject_Z (i / ny g) * Ly g.

(** y coordinates with constant spacing Ly/ny. *)
Definition uniform {G} (g : grid G) : Prop :=
  well_formed g /\
  exists y0, forall i, (i < length (ycoords g))%nat ->
    nth i (ycoords g) 0 == y0 + inject_Z (Z.of_nat i) * (Ly g / inject_Z (ny g)).

(** Result equality up to [==] on the coordinate. *)
Definition returns {G} (r : res (option G * Q)) (p : option G) (y : Q) : Prop :=
  exists y', r = Ok (p, y') /\ y' == y.
