(** Words of the statements about rows and smooth fields. *)
From Coq Require Import List ZArith QArith Reals Qreals Bool.
From Verif Require Import Prelude RevLipSpec.
From Verif Require Import WeightsModel WeightsSpec WeightsInput.
Import ListNotations.
Open Scope R_scope.

(** a field on a plane with third derivatives of at most Mx along x and of at most Mz along z *)
Definition smooth2 (Mx Mz : R) (G : R -> R -> R) : Prop :=
  (forall z, exists g', smooth Mx (fun x => G x z) g') /\ (forall x, exists g', smooth Mz (fun z => G x z) g').
(** the sum of a list of reals *)
Fixpoint total_R (l : list R) : R := match l with [] => 0 | a :: l' => a + total_R l' end.
(** the average of real values at the sub-samples which stay inside *)
Definition inside_average_R (m : maps) (n : nat) (X : cell -> nat -> Q) (w : list Q) (c : cell) (g : nat -> R) : R :=
  total_R (map (fun s => if leavesb m (X c s) then 0 else Q2R (nth s w 0%Q) * g s) (seq 0 n)) /
  total_R (map (fun s => if leavesb m (X c s) then 0 else Q2R (nth s w 0%Q)) (seq 0 n)).
