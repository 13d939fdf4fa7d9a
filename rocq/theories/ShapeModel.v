(** Lines given by formulas: circle and shaped_line (rzline.py:342-393), and
    spectralline.py.  Floats are exact real numbers. *)
From Coq Require Import List Reals.
From Verif Require Import Prelude FieldReal.
Import ListNotations.
Open Scope R_scope.

(** np.roll(l, 1) *)
Definition roll1 {A} (l : list A) : list A := skipn (length l - 1) l ++ firstn (length l - 1) l.
(** np.sum((r - np.roll(r, 1)) * (z + np.roll(z, 1))) (rzline.py:71, 76) *)
Definition orient_sum (l : list (R * R)) : R :=
  rsum (map (fun pq : (R * R) * (R * R) => (fst (fst pq) - fst (snd pq)) * (snd (fst pq) + snd (snd pq))) (combine l (roll1 l))).
(** RZline.__init__ with the default arguments (rzline.py:59-95), as in RzModel.v with
    real numbers: the points of the line.  splrep wants more than three values. *)
Definition rz_init (r z : list R) : res (list (R * R)) :=
  if negb (length z =? length r)%nat then Err AssertionError
  else
    let l := combine r z in
    let A := orient_sum l in
    if Req_EM_T A 0 then Err AssertionError
    else
      let l' := if Rlt_dec 0 A then rev l else l in
      if Rlt_dec (orient_sum l') 0 then
        match l' with
        | [] => Err IndexError
        | _ => if (3 <? length l' + 1)%nat then Ok l' else Err TypeError
        end
      else Err AssertionError.

(** linspace(0, 2 * pi, n, endpoint=False) (rzline.py:361, 388) *)
Definition thetas (n : nat) : list R := map (fun k => INR k * (2 * PI / INR n)) (seq 0 n).
(** circle (rzline.py:342-363) *)
Definition circle (R0 r : R) (n : nat) : res (list (R * R)) :=
  rz_init (map (fun t => R0 + r * cos t) (thetas n)) (map (fun t => r * sin t) (thetas n)).
(** shaped_line (rzline.py:366-393) *)
Definition shaped_R (R0 a triang indent t : R) : R := R0 - indent + (a + indent * cos t) * cos (t + triang * sin t).
Definition shaped_Z (a elong t : R) : R := (1 + elong) * a * sin t.
Definition shaped_line (R0 a elong triang indent : R) (n : nat) : res (list (R * R)) :=
  rz_init (map (shaped_R R0 a triang indent) (thetas n)) (map (shaped_Z a elong) (thetas n)).

(** * spectralline.py *)
(** _fft (spectralline.py:13-19) at one angle; zip stops at the shorter of args[1::2]
    and args[2::2] *)
Fixpoint fft_loop (i0 : nat) (args : list R) (freq out : R) : R :=
  match args with
  | s :: c :: args' => let i := INR (i0 + 1) in fft_loop (S i0) args' freq (out + sin (i * freq) * s + cos (i * freq) * c)
  | _ => out
  end.
Definition fft (args : list R) (freq : R) : res R :=
  match args with [] => Err IndexError | a :: args' => Ok (fft_loop 0 args' freq a) end.
(** np.linspace(-np.pi, np.pi, n, endpoint=False) *)
Definition own_freq (n : nat) : list R := map (fun k => - PI + INR k * (2 * PI / INR n)) (seq 0 n).
(** _err (spectralline.py:22-24): the third argument is overwritten in the first line *)
Definition err (args data freq : list R) : res (list R) :=
  foldM (fun out p => let* v := fft args (fst p) in Ok (out ++ [v - snd p])) (combine (own_freq (length data)) data) [].

(** SpectralLine (spectralline.py:27-59).  least_squares is an oracle: from the
    residual function and the start value it returns the parameters. *)
Section Spectral.
Variable least_squares : (list R -> res (list R)) -> list R -> list R.
(** __init__ (spectralline.py:32-48), for a line with the given points and the table of
    distances (one entry more than points; rzline.py:185-236) *)
Definition line_freq (dist : list R) : list R := map (fun d => d * PI * 2 / last dist 0) (removelast dist).
Definition spectral_init (points : list (R * R)) (dist : list R) (num : nat) : list R * list R :=
  let freq := line_freq dist in
  (least_squares (fun args => err args (map fst points) freq) (repeat 0 (2 * num + 1)),
   least_squares (fun args => err args (map snd points) freq) (repeat 0 (2 * num + 1))).
(** Rvalue and Zvalue (spectralline.py:50-54) *)
Definition Rvalue (s : list R * list R) (theta : R) : res R := fft (fst s) theta.
Definition Zvalue (s : list R * list R) (theta : R) : res R := fft (snd s) theta.
(** equallySpaced (spectralline.py:56-58): the points handed to RZline; linspace has
    the end point *)
Definition closed_freq (n : nat) : list R := map (fun k => if Nat.eqb n 1 then 0 else INR k * (2 * PI / INR (n - 1))) (seq 0 n).
Definition even_points (s : list R * list R) (num n : nat) : res (list R * list R) :=
  let m := if Nat.eqb num 0 then n else num in
  let* r := foldM (fun out t => let* v := Rvalue s t in Ok (out ++ [v])) (closed_freq m) [] in
  let* z := foldM (fun out t => let* v := Zvalue s t in Ok (out ++ [v])) (closed_freq m) [] in
  Ok (r, z).
Definition equally_spaced (s : list R * list R) (num n : nat) : res (list (R * R)) :=
  let* p := even_points s num n in rz_init (fst p) (snd p).
End Spectral.
