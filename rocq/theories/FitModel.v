(** The least squares problem of gen_newr (smooth.py:53-206), in real arithmetic.  fac = 1 is
    multiplied out; of the two matrices of lines 75-107 only the second is ever used ("if 0"). *)
From Coq Require Import List Reals.
Import ListNotations.
Open Scope R_scope.

Notation pt := (R * R)%type.
(** the six unknowns, x[:3] and x[3:], as three vectors: the derivative of the curve is x1 + x2 s + x3 s^2 *)
Record coefs := { x1 : pt; x2 : pt; x3 : pt }.
(** the curve of lines 212-223 *)
Definition curve (r0 : pt) (x : coefs) (s : R) : pt :=
  (fst r0 + fst (x1 x) * s + (fst (x2 x) * s ^ 2) * (1 / 2) + fst (x3 x) * s ^ 3 / 3,
   snd r0 + snd (x1 x) * s + (snd (x2 x) * s ^ 2) * (1 / 2) + snd (x3 x) * s ^ 3 / 3).

(** lenofs (smooth.py:112-132) *)
Definition dot (a b : pt) : R := fst a * fst b + snd a * snd b.
Definition speed (x : coefs) (s : R) : R :=
  sqrt (dot (x1 x) (x1 x) + dot (x2 x) (x2 x) * s ^ 2 + dot (x3 x) (x3 x) * s ^ 4
        + 2 * (dot (x1 x) (x2 x) * s + dot (x1 x) (x3 x) * s ^ 2 + dot (x2 x) (x3 x) * s ^ 3)).
(** np.linspace(0, 1, num) *)
Definition samples (num : nat) : list R := map (fun k => INR k / INR (num - 1)) (seq 0 num).
Definition lenofs (x : coefs) : R := fold_right Rplus 0 (map (speed x) (samples 100)) / 100.
(** curv (smooth.py:177-183) with f = 1 / 1e3 *)
Definition curv (x : coefs) : R * R :=
  let a := fst (x1 x) * 0 + fst (x2 x) * 1 + fst (x3 x) * 2 in
  let b := fst (x2 x) in
  let c := snd (x1 x) * 0 + snd (x2 x) * 1 + snd (x3 x) * 2 in
  let d := snd (x2 x) in
  ((a * a + c * c) * (1 / 1000), (b * b + d * d) * (1 / 1000)).

(** A @ x - b and the rest of fun (smooth.py:92-111, 185-191), for a run from r0 to r1 with the neighbours
    rm before and rp after it (lines 64-73); signs is not used *)
Definition residuals (rm r0 r1 rp : pt) (x : coefs) : list R :=
  let diff_minus_r := fst r0 - fst rm in
  let diff_minus_z := snd r0 - snd rm in
  let diff_plus_r := fst r1 - fst rp in
  let diff_plus_z := snd r1 - snd rp in
  [ 1 * fst (x1 x) + 1 / 2 * fst (x2 x) + 1 / 3 * fst (x3 x) - (fst r1 - fst r0);
    1 * snd (x1 x) + 1 / 2 * snd (x2 x) + 1 / 3 * snd (x3 x) - (snd r1 - snd r0);
    diff_minus_z * fst (x1 x) - diff_minus_r * snd (x1 x);
    diff_plus_z * fst (x1 x) + diff_plus_z * fst (x2 x) + diff_plus_z * fst (x3 x)
      - diff_plus_r * snd (x1 x) - diff_plus_r * snd (x2 x) - diff_plus_r * snd (x3 x);
    lenofs x / 100000;
    fst (curv x);
    snd (curv x) ].
(** what scipy.optimize.least_squares makes small *)
Definition cost (l : list R) : R := fold_right (fun v s => v * v + s) 0 l / 2.
