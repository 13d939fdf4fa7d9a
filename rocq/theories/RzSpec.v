(** Vocabulary for the statements about rzline.py. *)
From Coq Require Import List ZArith QArith.
From Verif Require Import Prelude PolSpec RzModel.
Import ListNotations.
Open Scope Q_scope.

(** Sum over the segments of an open / closed path. *)
Fixpoint path_sum {A} (f : A -> A -> Q) (p : A) (l : list A) : Q :=
  match l with [] => 0 | q :: l' => f p q + path_sum f q l' end.
Definition closed_sum {A} (f : A -> A -> Q) (l : list A) : Q :=
  match l with [] => 0 | p :: l' => path_sum f p l' + f (last l' p) p end.

(** Twice the signed area of a polygon, positive when anticlockwise. *)
Definition area2 (l : list (Q * Q)) : Q := closed_sum (fun p q => fst p * snd q - fst q * snd p) l.

Definition perimeter (sqrt : Q -> Q) (l : list (Q * Q)) : Q := closed_sum (fun p q => sqrt (dist2 p q)) l.

(** Every point is followed by the nearest of those still to come. *)
Fixpoint nearest_order (l : list (Q * Q)) : Prop :=
  match l with
  | p :: ((q :: _) as t) => (forall x, In x t -> dist2 p q <= dist2 p x) /\ nearest_order t
  | _ => True
  end.

(** The same cyclic line, possibly walked in the other direction, anticlockwise. *)
Definition oriented (g l : list (Q * Q)) : Prop := (l = g \/ l = rev g) /\ 0 < area2 l.

(** Point at parameter [t] of the segment from [p] to [q]. *)
Definition along (p q : Q * Q) (t : Q) : Q * Q := (fst p + t * (fst q - fst p), snd p + t * (snd q - snd p)).
Definition qeq2 (p q : Q * Q) : Prop := fst p == fst q /\ snd p == snd q.

Fixpoint nondecreasing (l : list Q) : Prop :=
  match l with a :: ((b :: _) as t) => a <= b /\ nondecreasing t | _ => True end.
Fixpoint increasing (l : list Q) : Prop :=
  match l with a :: ((b :: _) as t) => a < b /\ increasing t | _ => True end.
