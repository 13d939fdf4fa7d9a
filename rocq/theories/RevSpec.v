(** Vocabulary for the statements about FieldTracerReversible. *)
From Coq Require Import List ZArith QArith.
From Verif Require Import Prelude.
Import ListNotations.
Open Scope Q_scope.

Section S.
Variable dir : Q -> Q -> Q -> Q * Q.
(** The trapezoidal rule between (p, y) and (p', y'). *)
Definition trapezoid (y y' : Q) (p p' : Q * Q) : Prop :=
  let d := dir (fst p) (snd p) y in
  let d' := dir (fst p') (snd p') y' in
  fst p' - fst p == (y' - y) * (1#2) * (fst d + fst d') /\ snd p' - snd p == (y' - y) * (1#2) * (snd d + snd d').
(** from p to q in such steps along a list of y values *)
Inductive chain : list Q -> Q * Q -> Q * Q -> Prop :=
| chain_one y p : chain [y] p p
| chain_cons y y' l p p' q : trapezoid y y' p p' -> chain (y' :: l) p' q -> chain (y :: y' :: l) p q.
End S.

(** n equal steps from a to b: a, a + (b - a)/n, ..., b *)
Definition even_grid (n : nat) (a b : Q) : list Q := map (fun i => a + inject_Z (Z.of_nat i) * ((b - a) / inject_Z (Z.of_nat n))) (seq 0 (n + 1)).

(** a field direction that is affine in x and z at each y *)
Record affine := { A11 : Q -> Q; A12 : Q -> Q; A21 : Q -> Q; A22 : Q -> Q; C1 : Q -> Q; C2 : Q -> Q }.
Definition respects (f : Q -> Q) : Prop := forall a b, a == b -> f a == f b.
Definition affine_ok (F : affine) : Prop :=
  respects (A11 F) /\ respects (A12 F) /\ respects (A21 F) /\ respects (A22 F) /\ respects (C1 F) /\ respects (C2 F).
Definition is_affine (F : affine) (dir : Q -> Q -> Q -> Q * Q) : Prop := forall x z y,
  fst (dir x z y) == A11 F y * x + A12 F y * z + C1 F y /\ snd (dir x z y) == A21 F y * x + A22 F y * z + C2 F y.
(** the determinant of the implicit equation for a step dy ending at y *)
Definition step_det (F : affine) (y dy : Q) : Q :=
  ((1#2) * A11 F y * dy - 1) * ((1#2) * A22 F y * dy - 1) - ((1#2) * A12 F y * dy) * ((1#2) * A21 F y * dy).
(** no step of size (b - a)/n between neighbouring y values, nor its reverse, is singular *)
Fixpoint solvable (F : affine) (n : nat) (ys : list Q) : Prop :=
  match ys with
  | a :: ((b :: _) as t) =>
      (forall y, ~ step_det F y ((b - a) / inject_Z (Z.of_nat n)) == 0 /\ ~ step_det F y (- ((b - a) / inject_Z (Z.of_nat n))) == 0)
      /\ solvable F n t
  | _ => True
  end.
Definition qeq2 (p q : Q * Q) : Prop := fst p == fst q /\ snd p == snd q.

(** pss: the positions at each of the y values, n trapezoidal steps between neighbours *)
Inductive run (dir : Q -> Q -> Q -> Q * Q) (n : nat) : list Q -> list (list (Q * Q)) -> Prop :=
| run_one a ps : run dir n [a] [ps]
| run_cons a b t ps ps' r : Forall2 (chain dir (even_grid n a b)) ps ps' -> run dir n (b :: t) (ps' :: r) -> run dir n (a :: b :: t) (ps :: ps' :: r).
