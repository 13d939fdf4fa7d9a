(** Vocabulary for the statements about fieldtracer.py. *)
From Coq Require Import String List ZArith QArith.
From Verif Require Import Prelude TracerModel.
Import ListNotations.
Open Scope Q_scope.

(** indexing of an array *)
Fixpoint offset (sh idx : list nat) : nat :=
  match sh, idx with
  | _ :: sh, i :: idx => (i * nsize sh + offset sh idx)%nat
  | _, _ => 0%nat
  end.
Definition valid (sh idx : list nat) : Prop := Forall2 lt idx sh.
Definition get (a : nda) (idx : list nat) : Q := nth (offset (shape a) idx) (data a) 0.
Definition wf (a : nda) : Prop := length (data a) = size a.

(** The start points of a call: their shape and the x and z of each.  One of the
    arrays may hold a single number. *)
Inductive starts (x z : nda) : list nat -> (list nat -> Q) -> (list nat -> Q) -> Prop :=
| starts_same : shape x = shape z -> starts x z (shape x) (get x) (get z)
| starts_x : shape x <> shape z -> size x = 1%nat -> (length (shape x) <= length (shape z))%nat ->
    starts x z (shape z) (fun _ => get x (repeat 0%nat (length (shape x)))) (get z)
| starts_z : shape x <> shape z -> size x <> 1%nat -> size z = 1%nat -> (length (shape z) <= length (shape x))%nat ->
    starts x z (shape x) (get x) (fun _ => get z (repeat 0%nat (length (shape z)))).

(** x0 z0 x1 z1 ... *)
Definition flat_points (ps : list (Q * Q)) : list Q := flat_map (fun p => [fst p; snd p]) ps.
(** odeint integrates every point independently of the others: [flow p y0 y] is
    where the line through [p] at [y0] is at [y]. *)
Definition pointwise (odeint : list Q -> list Q -> list (list Q)) (flow : Q * Q -> Q -> Q -> Q * Q) : Prop :=
  forall ps ys, odeint (flat_points ps) ys = map (fun y => flat_points (map (fun p => flow p (hd 0 ys) y) ps)) ys.
(** only the shape of odeint's result *)
Definition rectangular (odeint : list Q -> list Q -> list (list Q)) : Prop :=
  forall pos ys, length (odeint pos ys) = length ys /\ forall row, In row (odeint pos ys) -> length row = length pos.
Definition component (c : nat) (p : Q * Q) : Q := match c with O => fst p | _ => snd p end.

Fixpoint nondecreasing (l : list Q) : Prop :=
  match l with a :: ((b :: _) as t) => a <= b /\ nondecreasing t | _ => True end.

(** [fails j a] for the first c attempts, and not for the next one *)
Definition failures (fails : nat -> nat -> bool) (j c : nat) : Prop :=
  (forall a, (a < c)%nat -> fails j a = true) /\ fails j c = false.
