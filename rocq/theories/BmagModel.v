(** Bmag of the EMC3 field of field.py: the values that are not known are filled in along
    the second poloidal direction.  Floats are exact rationals or nan ([None]); np.sqrt and
    scipy's CubicSpline are oracles.  Simplified: x and z are float arrays of one or two
    dimensions. *)
From Coq Require Import List ZArith QArith Bool.
From Verif Require Import Prelude.
Import ListNotations.
Open Scope Q_scope.

Definition isnan (v : option Q) : bool := match v with None => true | _ => false end.
Definition number (v : option Q) : Q := match v with Some q => q | None => 0 end.
(** An array of [rows] times [cols] *)
Record array2 := { rows : nat; cols : nat; at2 : nat -> nat -> option Q }.

Section Bmag.
Variable sqrt : Q -> Q.
(** CubicSpline(s, v), which raises for fewer than two points and for positions that do not increase *)
Variable spline : list Q -> list Q -> res (Q -> Q).

(** si (field.py:1941-1944): zero, then the cumulative sum *)
Fixpoint along (xi zi : nat -> Q) (k : nat) : Q :=
  match k with
  | O => 0
  | S k' => along xi zi k' + sqrt ((xi (S k') - xi k') * (xi (S k') - xi k') + (zi (S k') - zi k') * (zi (S k') - zi k'))
  end.
(** One column (field.py:1935-1946) *)
Definition fill_column (n : nat) (nans : nat -> nat -> bool) (x z : nat -> nat -> Q) (vals : nat -> nat -> option Q) (i : nat) : res (nat -> nat -> option Q) :=
  if negb (existsb (fun k => nans k i) (seq 0 n)) then Ok vals
  else
    let si := along (fun k => x k i) (fun k => z k i) in
    let known := filter (fun k => negb (nans k i)) (seq 0 n) in
    let* interp := spline (map si known) (map (fun k => number (vals k i)) known) in
    Ok (fun k j => if (j =? i)%nat && nans k i then Some (interp (si k)) else vals k j).
(** Bmag (field.py:1926-1948) for two-dimensional arrays, given what evaluate_at_rpz returned *)
Definition bmag (x z : nat -> nat -> Q) (v : array2) : res array2 :=
  let nans k i := isnan (at2 v k i) in
  if existsb (fun k => existsb (nans k) (seq 0 (cols v))) (seq 0 (rows v)) then
    let* vals := foldM (fun vals i => fill_column (rows v) nans x z vals i) (seq 0 (cols v)) (at2 v) in
    Ok {| rows := rows v; cols := cols v; at2 := vals |}
  else Ok v.
(** The same for one-dimensional arrays: x.shape[1] (field.py:1934) is an IndexError. *)
Definition bmag1 (v : list (option Q)) : res (list (option Q)) :=
  if existsb isnan v then Err IndexError else Ok v.
End Bmag.
