(** Double precision: the places of the code where rounding decides something,
    with the rounding of every operation.  Numbers are rationals, an operation is
    the exact one followed by [rnd].  Infinities, nans, signed zeros and overflow
    are not modelled: the largest number does not exist here. *)
From Coq Require Import List ZArith QArith Qabs Qround Qpower Qreduction Bool.
From Verif Require Import Prelude ProgressModel RzModel.
Import ListNotations.
Open Scope Q_scope.

Definition pow2 (e : Z) : Q := Qpower (2 # 1) e.

(** the exponent e of a number with 2^e <= |q| < 2^(e+1) *)
Definition qexp (q : Q) : Z :=
  let l := (Z.log2 (Z.abs (Qnum q)) - Z.log2 (Zpos (Qden q)))%Z in
  if Qle_bool (pow2 l) (Qabs q) then l else (l - 1)%Z.

(** IEEE 754 binary64, round to nearest, ties to even, with subnormal numbers *)
Definition b64 (q : Q) : Q :=
  if (Qnum q =? 0)%Z then 0 else
  let e := Z.max (qexp q - 52) (-1074) in
  Qred (inject_Z (round_even (q / pow2 e)) * pow2 e).

Section Rounded.
Variable rnd : Q -> Q.

Definition fadd (a b : Q) : Q := rnd (a + b).
Definition fsub (a b : Q) : Q := rnd (a - b).
Definition fmul (a b : Q) : Q := rnd (a * b).
Definition fdiv (a b : Q) : Q := rnd (a / b).

(** fmod of C, which is exact, and numpy.remainder on floats (npy_divmod): the sign
    is that of the divisor, b itself can come out of the last addition *)
Definition fmod (a b : Q) : Q := a - b * inject_Z (Qtrunc (a / b)).
Definition fremainder (a b : Q) : Q :=
  let m := fmod a b in
  if Qeq_bool m 0 then 0
  else if Bool.eqb (Qlt_bool b 0) (Qlt_bool m 0) then m else fadd m b.

(** catmull_rom_weights (weights.py:240-249); [cube] is numpy's u**3, which is a
    call of pow *)
Definition catmull_fl (cube : Q -> Q) (u : Q) : list Q :=
  let u3 := cube u in
  let u2 := fmul u u in
  map (fun w => fmul (1 # 2) w)
    [ fsub (fadd (- u3) (fmul 2 u2)) u;
      fadd (fsub (fmul 3 u3) (fmul 5 u2)) 2;
      fadd (fadd (fmul (- (3)) u3) (fmul 4 u2)) u;
      fsub u3 u2 ].
(** numpy.sum of less than eight numbers: one after the other *)
Definition fsum (l : list Q) : Q := fold_left fadd l 0.
(** the weights of a position and the check of their sum (weights.py:451-461) *)
Definition z_weights_fl (cube : Q -> Q) (mapped_z : Q) : list Q :=
  catmull_fl cube (fsub mapped_z (inject_Z (Qtrunc mapped_z))).
Definition z_check_raises (cube : Q -> Q) (mapped_z : Q) : bool :=
  Qle_bool (b64 (1 # 100000000)) (Qabs (fsub (fsum (z_weights_fl cube mapped_z)) 1)).

(** numpy.linspace(0, b, n, endpoint=False)[k] *)
Definition linspace0_fl (b : Q) (n : nat) (k : nat) : Q := fmul (inject_Z (Z.of_nat k)) (fdiv b (inject_Z (Z.of_nat n))).

(** RZline.positionPolygon (rzline.py:175-183) at one angle; 2.0 * np.pi is exact *)
Definition polygon_ind (n : Z) (theta : Q) : Z := (Qtrunc (fdiv theta (fdiv (2 * np_pi) (inject_Z n))) mod n)%Z.
Definition polygon_rem (n : Z) (theta : Q) : Q := fremainder theta (fdiv (2 * np_pi) (inject_Z n)).
Definition positionPolygon_fl (l : list pt) (theta : Q) : pt :=
  let n := zlen l in
  let ind := polygon_ind n theta in
  let rem := polygon_rem n theta in
  let indp := ((ind + 1) mod n)%Z in
  let mix a b := fadd (fmul rem b) (fmul (fsub 1 rem) a) in
  (mix (fst (znth l ind)) (fst (znth l indp)), mix (snd (znth l ind)) (snd (znth l indp))).
(** the angles of the line, RZline.__init__ (rzline.py:84) *)
Definition vertex_angle (l : list pt) (k : nat) : Q := linspace0_fl (2 * np_pi) (length l) k.

(** RectangularPoloidalGrid (poloidal_grid.py:138-141, 203, 231-232), one of the two
    coordinates: size L over [cells] cells, n points, around the centre c *)
Definition rect_d (L : Q) (cells : Z) : Q := fdiv L (inject_Z cells).
Definition rect_min (c d : Q) (n : Z) : Q := fsub c (fdiv (fmul d (fsub (inject_Z n) 1)) 2).
Definition rect_coordinate (m d : Q) (i : Q) : Q := fadd m (fmul i d).
Definition rect_index (m d : Q) (r : Q) : Q := fdiv (fsub r m) d.

(** integer quotients that go through a float: np.floor(yindex / float(ny))
    (grid.py:122), int(len(x_values) / 1000) (fieldtracer.py:108), int(v / 2)
    (field.py:769, 789) *)
Definition floor_quotient (a b : Z) : Z := Qfloor (fdiv (inject_Z a) (inject_Z b)).
Definition int_quotient (a b : Z) : Z := Qtrunc (fdiv (inject_Z a) (inject_Z b)).
(** int(np.ceil(n / 2) // 2 * 2 + 1) (examples/common.py:144); // of floats *)
Definition window_fl (n : Z) : Z :=
  let c := Qceiling (fdiv (inject_Z n) 2) in
  Qtrunc (fadd (fmul (inject_Z (floor_quotient c 2)) 2) 1).
End Rounded.
