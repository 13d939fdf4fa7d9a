(** What FitProps.v speaks about, apart from the model. *)
From Coq Require Import Reals.
Open Scope R_scope.
(** the velocity of a curve in the plane *)
Definition velocity (c : R -> R * R) (s : R) (v : R * R) : Prop :=
  derivable_pt_lim (fun s => fst (c s)) s (fst v) /\ derivable_pt_lim (fun s => snd (c s)) s (snd v).
(** p x q = 0: parallel, in the same or the opposite direction, or zero *)
Definition parallel (p q : R * R) : Prop := fst p * snd q = snd p * fst q.
(** from p to q *)
Definition step (p q : R * R) : R * R := (fst q - fst p, snd q - snd p).
Definition norm2 (p : R * R) : R := fst p ^ 2 + snd p ^ 2.
(** the point on the other side of c *)
Definition reflect (c p : R * R) : R * R := (2 * fst c - fst p, 2 * snd c - snd p).
(** zero for parallel vectors, else the area between them *)
Definition cross (p q : R * R) : R := snd p * fst q - fst p * snd q.
