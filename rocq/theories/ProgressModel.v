(** progress.py: progress bars and times.  Strings are lists of characters. *)
From Coq Require Import List ZArith QArith Qround Ascii Bool.
From Verif Require Import Prelude.
Import ListNotations.
Open Scope Q_scope.

(** Python's round() on a float, and the rounding of the format ".0f": to the
    nearest integer, ties to the even one *)
Definition round_even (q : Q) : Z :=
  let f := Qfloor q in
  match Qcompare (q - inject_Z f) (1 # 2) with
  | Lt => f
  | Gt => (f + 1)%Z
  | Eq => if Z.even f then f else (f + 1)%Z
  end.

(** decimal digits of a non-negative integer *)
Definition digit (d : Z) : ascii := ascii_of_nat (48 + Z.to_nat d).
Fixpoint dec_loop (fuel : nat) (n : Z) (acc : list ascii) : list ascii :=
  match fuel with
  | O => acc
  | S fuel' => let acc' := digit (n mod 10) :: acc in if (n <? 10)%Z then acc' else dec_loop fuel' (n / 10) acc'
  end.
Definition dec (n : Z) : list ascii := dec_loop (S (Z.to_nat (Z.log2 n))) n [].
(** the format 02d: at least two characters, filled with zeros after the sign *)
Definition pad2 (n : Z) : list ascii :=
  let digits := dec (Z.abs n) in
  let sign := if (n <? 0)%Z then ["-"%char] else [] in
  sign ++ (if (length sign + length digits <? 2)%nat then "0"%char :: digits else digits).
(** the format 02.0f (the sign of negative numbers that round to zero is not modelled) *)
Definition pad2f (q : Q) : list ascii := pad2 (round_even q).

(** format_time (progress.py:87-98) *)
Definition format_step (st : list ascii * bool * Q) (nv : ascii * Z) : list ascii * bool * Q :=
  let '(ret, out, secs) := st in
  let '(name, val) := nv in
  let out := out || Qle_bool (inject_Z val) secs in
  if out then
    let cur := Qfloor (secs / inject_Z val) in
    (ret ++ pad2 cur ++ [name], out, secs - inject_Z (cur * val))
  else (ret, out, secs).
Definition format_time (secs : Q) : list ascii :=
  let '(ret, _, secs) := fold_left format_step (rev [("m"%char, 60%Z); ("h"%char, 3600%Z); ("d"%char, (60 * 60 * 24)%Z)]) ([], false, secs) in
  ret ++ pad2f secs ++ ["s"%char].

(** the characters of a bar; Block is the filled square used unless ascii=True *)
Inductive ch := Chr (a : ascii) | Block.
(** the argument of update_progress *)
Inductive pyval := PInt (z : Z) | PFloat (q : Q) | POther.
Inductive status := NoStatus | StError | StHalt | StDone.
Record shown := mkShown { bar : list ch; percent : Q; stat : status }.

(** the value and the status after the checks (progress.py:36-47) *)
Definition checked (progress : pyval) : Q * status :=
  let '(p, s) := match progress with PInt z => (inject_Z z, NoStatus) | PFloat q => (q, NoStatus) | POther => (0, StError) end in
  let '(p, s) := if Qlt_bool p 0 then (0, StHalt) else (p, s) in
  if Qle_bool 1 p then (1, StDone) else (p, s).

(** update_progress without zoidberg (progress.py:9-51, 83-84): what is between the
    brackets, the number before the per cent sign (before rounding to two decimals)
    and the status *)
Definition update_progress (progress : pyval) (barLength : Z) (ascii_ : bool) : shown :=
  let cursor := if ascii_ then Chr "#" else Block in
  let '(p, s) := checked progress in
  let block := Z.to_nat (round_even (inject_Z barLength * p)) in
  mkShown (repeat cursor block ++ repeat (Chr "-") (Z.to_nat barLength - block)) (p * 100) s.

(** the claws and the face (progress.py:58-75); the eyes are not ASCII characters *)
Definition claw (open_ : bool) : list ch := if open_ then map Chr ["("; "\"; "/"; ")"]%char else map Chr ["("; "|"; ")"]%char.
Definition face (ascii_ : bool) : list ch :=
  let eye := if ascii_ then Chr ";" else Block in
  map Chr [" "; "("]%char ++ [eye] ++ map Chr [","; ","; ","]%char ++ [eye] ++ map Chr [")"; " "]%char.
(** with zoidberg=True (progress.py:53-81) *)
Definition update_zoidberg (progress : pyval) (barLength : Z) (ascii_ : bool) : shown :=
  let '(p, s) := checked progress in
  let barLength := if (barLength <? 40)%Z then 40%Z else barLength in
  let ink := if ascii_ then Chr "#" else Block in
  let odd := negb (Qtrunc (p * inject_Z barLength) mod 2 =? 0)%Z in
  let zb := claw odd ++ face ascii_ ++ claw (negb odd) in
  let zb_middle := Qtrunc (inject_Z (Z.of_nat (length zb)) / 2) in
  let start := round_even (inject_Z (barLength - zb_middle) * p) in
  mkShown (repeat ink (Z.to_nat start) ++ zb ++ repeat (Chr "-") (Z.to_nat (barLength - start - zb_middle))) (p * 100) s.

(** Progress.update (progress.py:105-110): the two times shown; None stands for the
    0 shown instead of the second one *)
Definition progress_times (needed prog : Q) : Q * option Q :=
  (needed, if Qeq_bool prog 0 then None else Some (needed / prog - needed)).
