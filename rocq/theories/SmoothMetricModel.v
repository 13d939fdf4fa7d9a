(** smooth_metric (examples/common.py:110-194).  Floats are exact rationals. *)
From Coq Require Import String List ZArith QArith Bool.
From Verif Require Import Prelude.
Import ListNotations.
Open Scope string_scope.

(** a variable of the file, with indices x, y, z *)
Notation var := (nat -> nat -> nat -> Q).
(** the file: variables of one shape (nx, ny, nz); missing ones raise KeyError *)
Definition file := string -> option var.
Definition read (f : file) (k : string) : res var := match f k with Some v => Ok v | None => Err KeyError end.
Definition write (f : file) (k : string) (v : var) : file := fun k' => if String.eqb k' k then Some v else f k'.

Section Smooth.
(** whether numpy has the name np.int (it was taken out in version 1.24) *)
Variable np_int : bool.
(** scipy.signal.savgol_filter for arguments that pass its checks *)
Variable savgol : list Q -> Z -> Z -> list Q.
Variable nx ny nz : nat.

(** [np.int(np.ceil(n / 2) // 2 * 2 + 1)] *)
Definition window : Z := ((Z.of_nat nz + 1) / 2 / 2 * 2 + 1)%Z.
(** savgol_filter in its default mode: polyorder must be less than window_length, which must not exceed the
    size of the data; the lookup of np.int comes first.  AttributeError is OtherError. *)
Definition savgol_filter (l : list Q) (order : Z) : res (list Q) :=
  if negb np_int then Err OtherError
  else if (window <=? order)%Z then Err ValueError
  else if (Z.of_nat (List.length l) <? window)%Z then Err ValueError
  else Ok (savgol l window order).
(** v_smooth[x, y, :] = savgol_filter(v[x, y, :], ...) in an array of zeros *)
Definition smooth_line (v s : var) (order : Z) (x y : nat) : res var :=
  let* l := savgol_filter (map (v x y) (seq 0 nz)) order in
  Ok (fun x' y' z' => if ((x' =? x) && (y' =? y))%nat%bool then nth z' l 0%Q else s x' y' z').
Definition zeros3 : var := fun _ _ _ => 0%Q.
Fixpoint mapM {A B} (f : A -> res B) (l : list A) : res (list B) :=
  match l with [] => Ok [] | a :: l' => let* b := f a in let* bs := mapM f l' in Ok (b :: bs) end.
(** the names smoothed, in the order of lines 142-181 *)
Definition names (smooth_metric : bool) : list string :=
  ["bxcvx"; "bxcvz"; "bxcvy"; "J"] ++ (if smooth_metric then ["g11"; "g_11"; "g13"; "g_13"; "g33"; "g_33"] else []).
(** lines 115-181: reads, then all lines of all variables, y in the outer loop.  Simplified: the variables are read in the
    order in which they are smoothed *)
Definition smooth_all (vs : list var) (order : Z) : res (list var) :=
  foldM (fun ss y => foldM (fun ss x => mapM (fun p => smooth_line (fst p) (snd p) order x y) (combine vs ss)) (seq 0 nx) ss)
        (seq 0 ny) (map (fun _ => zeros3) vs).
(** lines 183-194: what is written (and not the curvature), and what is returned *)
Definition smooth_metric (f : file) (write_to_file return_values smooth : bool) (order : Z) : res (file * option (list var)) :=
  let* vs := mapM (read f) (names smooth) in
  let* ss := smooth_all vs order in
  let f' := if write_to_file then fold_left (fun f p => write f (fst p) (snd p)) (skipn 3 (combine (names smooth) ss)) f else f in
  let nth3 l k := nth k l zeros3 in
  Ok (f', if return_values then Some [nth3 ss 0%nat; nth3 ss 2%nat; nth3 ss 1%nat; nth3 vs 0%nat; nth3 vs 2%nat; nth3 vs 1%nat] else None).
End Smooth.
