(** Model of [parallel_slice_field_name], zoidberg/zoidberg.py:34-54.
    Strings are real character strings.  Offsets are Python ints or floats. *)
From Coq Require Import String Ascii List ZArith QArith Qabs Decimal DecimalString Bool.
From Verif Require Import Prelude.
Open Scope string_scope.

(** The argument [offset]: the callers pass ints and the floats +-0.5
    (zoidberg.py:174-175, [absoffset * direction]). *)
Inductive offset := OInt (z : Z) | OFloat (q : Q).

Definition offset_value (o : offset) : Q :=
  match o with OInt z => inject_Z z | OFloat q => q end.

(** [f"{absoffset}"] for an int: the decimal digits (Python's str(int)). *)
Definition dec (n : N) : string := NilEmpty.string_of_uint (N.to_uint n).

Section Naming.
(** [f"{x}"] for a float with |x| >= 1: Python's repr, left unspecified. *)
Variable float_repr : Q -> string.

Definition offset_str (o : offset) : string :=
  match o with OInt z => dec (Z.abs_N z) | OFloat q => float_repr (Qabs q) end.

(** zoidberg.py:34-54 *)
Definition parallel_slice_field_name (field : string) (o : offset) : res string :=
  let v := offset_value o in
  let absoffset := Qabs v in
  if Qlt_bool absoffset 1 then
    if Qlt_bool (Qabs (absoffset - (1#2))) (1#1000000) then
      let prefix := if Qlt_bool v 0 then "low" else "high" in
      Ok (field ++ "_cell_y" ++ prefix)
    else Err AssertionError
  else
    let prefix := if Qlt_bool 0 v then "forward" else "backward" in
    let suffix := if Qlt_bool 1 absoffset then "_" ++ offset_str o else "" in
    Ok (prefix ++ "_" ++ field ++ suffix).
End Naming.
