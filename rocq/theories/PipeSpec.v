(** Vocabulary for the statements about the operators made from the maps of a slab. *)
From Coq Require Import List ZArith QArith.
From Verif Require Import Prelude MapsModel WeightsModel SlabSpec.
Import ListNotations.
Open Scope Q_scope.
(** x at column q, also between the columns *)
Definition x_at (nx M : Z) (Lx Rc q : Q) : Q := Rc + (q - (inject_Z nx - 1) / 2) * (Lx / inject_Z (nx - 2 * M)).
(** by how many cells in z the lines from there move over o slices *)
Definition shift_at (nx nz M : Z) (Lx Lz Rc : Q) (n : nat) (L By Bz xc Bzp Rm : Q) (q : Q) (o : Z) : Q :=
  slope By Bz xc Bzp Rm (x_at nx M Lx Rc q) * (inject_Z o * (L / inject_Z (Z.of_nat n))) / (Lz / inject_Z nz).
(** offset of the first slice of a direction *)
Definition sgn (dr : dir) : Z := match dr with Fwd => 1 | Bwd => -1 end.
(** a 4-d array read with one index for the cell *)
Definition read4 (a : MapsModel.arr4) : cell -> nat -> Q := fun '(x, y, z) s => a x y z (Z.of_nat s).
Definition read3 (a : MapsModel.arr4) : cell -> Q := fun '(x, y, z) => a x y z 0%Z.
(** the quadrature rules on [-1, 1]: positive weights, exact for constants; and for linear functions *)
Definition rule (roots : nat -> list Q * list Q) : Prop :=
  (forall n, length (fst (roots n)) = n) /\ (forall n, length (snd (roots n)) = n) /\
  (forall n, Forall (fun q => 0 < q) (snd (roots n))) /\ forall n, (0 < n)%nat -> qsum (snd (roots n)) == 2.
Definition centred (roots : nat -> list Q * list Q) : Prop :=
  forall n, qsum (map (fun a => nth a (snd (roots n)) 0 * nth a (fst (roots n)) 0) (seq 0 n)) == 0.
(** how far the sub-samples are from the centre in x, in cells *)
Definition hs (roots : nat -> list Q * list Q) (spd : Z) : list Q :=
  if (spd =? 1)%Z then [0] else map (fun u => u * (1 # 2)) (fst (roots (Z.to_nat spd))).
