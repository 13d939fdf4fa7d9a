(** Specification vocabulary for the leg operators, independent of the model in
    [WeightsModel]: Catmull-Rom interpolation as a cubic Hermite polynomial with
    central-difference tangents, and the meaning of a sparse row. *)
From Coq Require Import List ZArith QArith Qround.
From Verif Require Import Prelude.
Import ListNotations.
Open Scope Q_scope.

(** Cubic Hermite interpolation between p1 (u=0) and p2 (u=1) with tangents
    (p2-p0)/2 and (p3-p1)/2. *)
Definition hermite (p0 p1 p2 p3 u : Q) : Q :=
  let m1 := (p2 - p0) / 2 in
  let m2 := (p3 - p1) / 2 in
  (2 * u^3 - 3 * u^2 + 1) * p1 + (u^3 - 2 * u^2 + u) * m1
  + (- (2) * u^3 + 3 * u^2) * p2 + (u^3 - u^2) * m2.

(** Interpolation of samples at all integers. *)
Definition interp1 (F : Z -> Q) (x : Q) : Q :=
  let b := Qfloor x in
  hermite (F (b - 1)%Z) (F b) (F (b + 1)%Z) (F (b + 2)%Z) (x - inject_Z b).

Definition interp2 (F : Z -> Z -> Q) (x z : Q) : Q :=
  interp1 (fun i => interp1 (F i) z) x.

Definition clampZ (v lo hi : Z) : Z := if (v <? lo)%Z then lo else if (hi <? v)%Z then hi else v.

(** A sparse row as a linear functional on cell-space vectors. *)
Definition row_apply (r : list (Z * Q)) (f : Z -> Q) : Q :=
  qsum (map (fun e => snd e * f (fst e)) r).

(** Row [i] of a CSR matrix. *)
Definition csr_row (weights : list Q) (columns rows : list Z) (i : nat) : list (Z * Q) :=
  let s := Z.to_nat (nth i rows 0%Z) in
  let e := Z.to_nat (nth (S i) rows 0%Z) in
  combine (firstn (e - s) (skipn s columns)) (firstn (e - s) (skipn s weights)).
