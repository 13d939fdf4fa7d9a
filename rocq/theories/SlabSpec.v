(** Vocabulary for the statements about the maps of a slab. *)
From Coq Require Import List ZArith QArith Bool.
From Verif Require Import FieldModel.
Open Scope Q_scope.

(** one of the two slab fields; Rm is the major radius, 1 for the flat one *)
Definition is_slab_field (f : field) (By Bz xc Bzp Rm : Q) : Prop :=
  (f = slab By Bz xc Bzp /\ Rm == 1) \/ f = curved_slab By Bz xc Bzp Rm.
(** dz/dy of its field lines at x *)
Definition slope (By Bz xc Bzp Rm x : Q) : Q := Rm * (Bz + (x - xc) * Bzp) / By.
(** whether there is a slice at index i of n *)
Definition has_slice (per : bool) (n : nat) (i : Z) : bool := (per || ((0 <=? i) && (i <? Z.of_nat n))%Z)%bool.
(** x of column i of nx, with M guard cells at either end of the width Lx about Rc *)
Definition x_pos (nx M : Z) (Lx Rc : Q) (i : Z) : Q := Rc + (inject_Z i - (inject_Z nx - 1) / 2) * (Lx / inject_Z (nx - 2 * M)).
(** by how many cells in z the lines of column i move over o slices *)
Definition shift (nx nz M : Z) (Lx Lz Rc : Q) (n : nat) (L By Bz xc Bzp Rm : Q) (i o : Z) : Q :=
  slope By Bz xc Bzp Rm (x_pos nx M Lx Rc i) * (inject_Z o * (L / inject_Z (Z.of_nat n))) / (Lz / inject_Z nz).
