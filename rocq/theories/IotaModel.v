(** calc_iota (examples/common.py:197-206), in real arithmetic.  The field line comes from
    FieldTracer.follow_field_lines, which is an oracle here. *)
From Coq Require Import List ZArith Reals Bool.
From Verif Require Import Prelude.
Import ListNotations.
Open Scope R_scope.

(** numpy.greater *)
Definition greater (a b : R) : bool := if Rlt_dec b a then true else false.
(** data.take(i, mode="clip") *)
Definition take_clip (l : list R) (i : Z) : R := nth (Z.to_nat (Z.min (Z.max 0 i) (Z.of_nat (length l) - 1))) l 0.
(** scipy.signal.argrelextrema(data, np.greater, order=order)[0] on one axis: the indices with
    a value greater than the [order] ones on either side, indices beyond the ends being clipped *)
Definition is_peak (order : nat) (l : list R) (k : nat) : bool :=
  forallb (fun shift => greater (take_clip l (Z.of_nat k)) (take_clip l (Z.of_nat k + Z.of_nat shift))
                     && greater (take_clip l (Z.of_nat k)) (take_clip l (Z.of_nat k - Z.of_nat shift)))%bool (seq 1 order).
Definition argrelextrema (order : nat) (l : list R) : list nat := filter (is_peak order l) (seq 0 (length l)).
(** numpy.linspace(0, b, n, endpoint=False) *)
Definition angles (b : R) (n : nat) : list R := map (fun k => INR k * (b / INR n)) (seq 0 n).
(** examples/common.py:200-206; [trace] gives result[:, 0, 0] *)
Definition iota (b : R) (n order : nat) (trace : list R -> res (list R)) : res R :=
  let toroidal_angle := angles b n in
  let* x := trace toroidal_angle in
  match argrelextrema order x with
  | p0 :: p1 :: _ => Ok (2 * PI / (nth p1 toroidal_angle 0 - nth p0 toroidal_angle 0))
  | _ => Err IndexError
  end.
Definition calc_iota (trace : list R -> res (list R)) : res R := iota (400 * PI) (Z.to_nat 10000) 10 trace.
