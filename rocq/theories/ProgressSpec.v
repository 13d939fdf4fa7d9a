(** Vocabulary for the statements about progress.py: reading a printed time. *)
From Coq Require Import List ZArith QArith Ascii Bool.
From Verif Require Import Prelude ProgressModel.
Import ListNotations.
Open Scope Z_scope.

(** seconds per unit *)
Definition unit_of (c : ascii) : option Z :=
  if Ascii.eqb c "d" then Some 86400 else if Ascii.eqb c "h" then Some 3600
  else if Ascii.eqb c "m" then Some 60 else if Ascii.eqb c "s" then Some 1 else None.
(** reading from left to right: digits make a number, a unit adds that many of it *)
Definition read_char (st : Z * Z) (c : ascii) : Z * Z :=
  let '(number, total) := st in
  match unit_of c with
  | Some u => (0, total + number * u)
  | None => (10 * number + (Z.of_nat (nat_of_ascii c) - 48), total)
  end.
Definition read_time (text : list ascii) : Z := snd (fold_left read_char text (0, 0)).
(** the number of characters of a bar that are filled *)
Definition filled (ink : ch) (b : list ch) (n : nat) : Prop := exists rest, b = repeat ink n ++ rest /\ Forall (fun c => c = Chr "-") rest.
