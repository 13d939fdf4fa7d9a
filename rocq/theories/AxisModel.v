(** W7X_vacuum.magnetic_axis of field.py, over the reals.  The web service is an oracle.
    Simplified: the sign of a zero in y / 0 is that of a positive zero. *)
From Coq Require Import List Reals.
From Verif Require Import Prelude FieldModel.
Import ListNotations.
Open Scope R_scope.

(** np.arctan(y / x) (field.py:1651); [None] for nan *)
Definition angle (x y : R) : option R :=
  if Req_EM_T x 0 then
    if Rlt_dec 0 y then Some (PI / 2) else if Rlt_dec y 0 then Some (- (PI / 2)) else None
  else Some (atan (y / x)).
(** The condition of np.where (field.py:1653-1656) *)
Definition in_window (phi_axis : R) (v : R * R * R) : bool :=
  let '(x, y, _) := v in
  match angle x y with
  | None => false
  | Some a => if Rle_dec (97 / 100 * phi_axis) a then if Rle_dec a (103 / 100 * phi_axis) then true else false else false
  end.

Section Axis.
(** findAxis of the service (field.py:1640): the vertices *)
Variable find_axis : configuration -> res (list (R * R * R)).
(** magnetic_axis (field.py:1629-1659) *)
Definition magnetic_axis (phi_axis : R) (c : configuration) : res (R * R) :=
  let* _ := set_config c in
  let* vertices := find_axis c in
  match filter (in_window phi_axis) vertices with
  | [] => Err IndexError
  | (x, y, z) :: _ => Ok (sqrt (x * x + y * y), z)
  end.
End Axis.
