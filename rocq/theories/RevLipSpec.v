(** Vocabulary for the accuracy of FieldTracerReversible on any smooth field. *)
From Coq Require Import List ZArith QArith Qabs Reals Qreals.
From Verif Require Import Prelude RevSpec.
Import ListNotations.

Section Q.
Open Scope Q_scope.
Variable dir : Q -> Q -> Q -> Q * Q.
(** The direction changes by at most L times the change of x and z, and depends on the value of y only *)
Definition lipschitz (L : Q) : Prop := 0 <= L /\
  (forall x z x' z' y h, Qabs (x' - x) <= h -> Qabs (z' - z) <= h ->
    Qabs (fst (dir x' z' y) - fst (dir x z y)) <= L * h /\ Qabs (snd (dir x' z' y) - snd (dir x z y)) <= L * h) /\
  forall x z y y', y == y' -> fst (dir x z y) == fst (dir x z y') /\ snd (dir x z y) == snd (dir x z y').
(** The trapezoidal rule between (p, y) and (p', y') up to kappa times the step *)
Definition near_trapezoid (kappa y y' : Q) (p p' : Q * Q) : Prop :=
  let d := dir (fst p) (snd p) y in
  let d' := dir (fst p') (snd p') y' in
  Qabs (fst p' - fst p - (y' - y) * (1#2) * (fst d + fst d')) <= Qabs (y' - y) * kappa /\
  Qabs (snd p' - snd p - (y' - y) * (1#2) * (snd d + snd d')) <= Qabs (y' - y) * kappa.
Inductive near_chain (kappa : Q) : list Q -> Q * Q -> Q * Q -> Prop :=
| near_one y p : near_chain kappa [y] p p
| near_cons y y' l p p' q : near_trapezoid kappa y y' p p' -> near_chain kappa (y' :: l) p' q -> near_chain kappa (y :: y' :: l) p q.
(** the positions at each of the y values, n such steps between neighbours *)
Inductive near_run (kappa : Q) (n : nat) : list Q -> list (list (Q * Q)) -> Prop :=
| near_run_one a ps : near_run kappa n [a] [ps]
| near_run_cons a b t ps ps' r : Forall2 (near_chain kappa (even_grid n a b)) ps ps' -> near_run kappa n (b :: t) (ps' :: r) ->
    near_run kappa n (a :: b :: t) (ps :: ps' :: r).
End Q.

(** every step is at most H *)
Fixpoint steps_below (H : Q) (n : nat) (ys : list Q) : Prop :=
  match ys with
  | a :: ((b :: _) as t) => Qle (Qabs (b - a)) (H * inject_Z (Z.of_nat n)) /\ steps_below H n t
  | _ => True
  end.
(** the way from the first of the y values to number k *)
Fixpoint way (k : nat) (ys : list Q) : Q :=
  match k, ys with
  | S k', a :: ((b :: _) as t) => Qabs (b - a) + way k' t
  | _, _ => 0
  end.

Section R.
Open Scope R_scope.
(** the same field for real arguments *)
Definition extends (u v : R -> R -> R -> R) (dir : Q -> Q -> Q -> Q * Q) : Prop := forall x z y,
  u (Q2R x) (Q2R z) (Q2R y) = Q2R (fst (dir x z y)) /\ v (Q2R x) (Q2R z) (Q2R y) = Q2R (snd (dir x z y)).
Definition lipschitz_R (u v : R -> R -> R -> R) (L : R) : Prop := forall x z x' z' y h, Rabs (x' - x) <= h -> Rabs (z' - z) <= h ->
  Rabs (u x' z' y - u x z y) <= L * h /\ Rabs (v x' z' y - v x z y) <= L * h.
(** a function with a third derivative of at most M *)
Definition smooth (M : R) (f f' : R -> R) : Prop := exists f2 f3 : R -> R,
  (forall t, derivable_pt_lim f t (f' t)) /\ (forall t, derivable_pt_lim f' t (f2 t)) /\ (forall t, derivable_pt_lim f2 t (f3 t)) /\ forall t, Rabs (f3 t) <= M.
(** a field line *)
Definition field_line (u v : R -> R -> R -> R) (M : R) (X Z : R -> R) : Prop :=
  smooth M X (fun t => u (X t) (Z t) t) /\ smooth M Z (fun t => v (X t) (Z t) t).
End R.
