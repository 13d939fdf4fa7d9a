(** What SearchProps.v speaks about, apart from the model. *)
From Coq Require Import ZArith QArith.
From Verif Require Import Prelude EmcModel SearchModel.
Open Scope Q_scope.
(** the square of the distance from corner (i, j) *)
Definition far2 (m : mesh) (rz : pt) (i j : nat) : Q :=
  let p := grid m (Z.of_nat i) (Z.of_nat j) in (fst rz - fst p) * (fst rz - fst p) + (snd rz - snd p) * (snd rz - snd p).
(** corner (i, j) is a nearest one *)
Definition nearest (m : mesh) (rz : pt) (i j : nat) : Prop :=
  (i < nr m)%nat /\ (j < nz m)%nat /\ forall i' j', (i' < nr m)%nat -> (j' < nz m)%nat -> far2 m rz i j <= far2 m rz i' j'.
(** it is the only nearest one *)
Definition only_nearest (m : mesh) (rz : pt) (i j : nat) : Prop :=
  nearest m rz i j /\ forall i' j', nearest m rz i' j' -> i' = i /\ j' = j.
(** cell (a, b) has the corner (i, j) *)
Definition has_corner (a b : Z) (i j : nat) : Prop := (a <= Z.of_nat i <= a + 1 /\ b <= Z.of_nat j <= b + 1)%Z.
(** the row and the column of cell number ij in a mesh (fieldtracer.py:784-787) *)
Definition row (m : mesh) (ij : Z) : Z := (ij / (Z.of_nat (nz m) - 1))%Z.
Definition column (m : mesh) (ij : Z) : Z := (ij mod (Z.of_nat (nz m) - 1))%Z.
