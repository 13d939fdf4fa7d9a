(** Vocabulary for the statements about magnetic_axis. *)
From Coq Require Import List Reals.
From Verif Require Import Prelude FieldModel AxisModel.
Open Scope R_scope.

(** The vertex counts: its angle from the ratio y / x is within three percent. *)
Definition counts (phi_axis : R) (v : R * R * R) : Prop :=
  exists a, angle (fst (fst v)) (snd (fst v)) = Some a /\ 97 / 100 * phi_axis <= a <= 103 / 100 * phi_axis.
