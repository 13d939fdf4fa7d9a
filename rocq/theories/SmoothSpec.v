(** Vocabulary for the statements about smooth.py. *)
From Coq Require Import List ZArith QArith.
From Verif Require Import Prelude SmoothModel.
Import ListNotations.

(** a non-empty list of consecutive integers *)
Definition consecutive (l : list Z) : Prop := exists a b, (a < b)%Z /\ l = zrange a b.
(** a gap of at least one integer between neighbouring lists *)
Fixpoint gaps (runs : list (list Z)) : Prop :=
  match runs with
  | l1 :: ((l2 :: _) as t) => (last l1 0 + 1 < hd 0 l2)%Z /\ gaps t
  | _ => True
  end.
Fixpoint strictly_increasing (l : list Z) : Prop :=
  match l with
  | a :: ((b :: _) as t) => (a < b)%Z /\ strictly_increasing t
  | _ => True
  end.
(** [s] is the exact square root of [q]; asked only of the distances that occur, as
    not every rational number has one *)
Definition is_sqrt (s q : Q) : Prop := (0 <= s)%Q /\ (s * s == q)%Q.
(** l[i], i counted from the end if negative *)
Definition wrap (l : list Q) (i : Z) : Q := nth (Z.to_nat (i mod len l)) l 0%Q.
(** the square of the distance of two points *)
Definition dist2 (a b : Q * Q) : Q := ((fst a - fst b) * (fst a - fst b) + (snd a - snd b) * (snd a - snd b))%Q.
(** the curve that replaces a run: at s = 0 its first point; s goes to 1 *)
Definition curve (p : Q * Q) (c : (Q * Q * Q) * (Q * Q * Q)) (s : Q) : Q * Q :=
  let f a k := let '(k1, k2, k3) := k in (a + k1 * s + k2 * s ^ 2 / 2 + k3 * s ^ 3 / 3)%Q in (f (fst p) (fst c), f (snd p) (snd c)).
(** outside the indices of the run, taken modulo the length, nothing changes *)
Definition untouched (a b : list Q) (run : list Z) : Prop :=
  forall j, (0 <= j < len a)%Z -> (forall x, In x run -> j <> (x mod len a)%Z) -> nth (Z.to_nat j) b 0%Q = nth (Z.to_nat j) a 0%Q.
