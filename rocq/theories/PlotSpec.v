(** Vocabulary for the statements about plot.py. *)
From Coq Require Import String List ZArith QArith.
From Verif Require Import Prelude GridModel MapsModel PlotModel.
Import ListNotations.
Open Scope Q_scope.

(** the points of a series are those of the cells (x, z) of an nx by nz plane that are chosen, none twice *)
Definition shows (s : series) (nx nz : nat) (R Zc : arr2) (chosen : Z -> Z -> Prop) : Prop :=
  exists cells : list (Z * Z), NoDup cells /\ (forall x z, In (x, z) cells <-> (0 <= x < Z.of_nat nx)%Z /\ (0 <= z < Z.of_nat nz)%Z /\ chosen x z) /\
    pts s = map (fun c => (R (fst c) (snd c), Zc (fst c) (snd c))) cells.
(** the direction in the names of the arrays *)
Definition prefix (forward : bool) : string := if forward then "forward"%string else "backward"%string.
Definition step (forward : bool) : Z := if forward then 1 else -1.
(** a click that keeps the points already shown *)
Definition keeps (e : option (Q * Q) * button) : Prop := fst e = None \/ snd e = Right.
(** the lines added by such clicks *)
Definition added (tr : Q * Q -> list (Q * Q)) (e : option (Q * Q) * button) : list (Q * Q) := match fst e with Some p => tr p | None => [] end.
