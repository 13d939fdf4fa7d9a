(** rzline.py: periodic lines in the poloidal plane. *)
From Coq Require Import List ZArith QArith Qround Bool.
From Verif Require Import Prelude PolModel.
Import ListNotations.
Open Scope Q_scope.

(** A line is the list of its (R, Z) points; the closing segment is implied. *)
Notation pt := (Q * Q)%type.

(** np.roll(l, k) for 0 <= k <= len(l) *)
Definition roll {A} (k : nat) (l : list A) : list A := skipn (length l - k) l ++ firstn (length l - k) l.

(** rzline.py:71, 76: np.sum((r - np.roll(r, 1)) * (z + np.roll(z, 1))) *)
Definition orient_sum (l : list pt) : Q :=
  qsum (map (fun pq : pt * pt => (fst (fst pq) - fst (snd pq)) * (snd (fst pq) + snd (snd pq))) (combine l (roll 1 l))).

(** RZline.__init__ (rzline.py:59-95).  [k] is the spline order, 3 for None; splrep
    raises TypeError unless there are more than [k] points (the first is repeated
    at the end).  The splines are oracles below. *)
Definition rz_init (anticlockwise : bool) (k : nat) (r z : list Q) : res (list pt) :=
  if negb (length z =? length r)%nat then Err AssertionError
  else
    let l := combine r z in
    let* l' :=
      (if anticlockwise then
         let A := orient_sum l in
         if Qeq_bool A 0 then Err AssertionError
         else
           let l' := if Qlt_bool 0 A then rev l else l in
           if Qlt_bool (orient_sum l') 0 then Ok l' else Err AssertionError
       else Ok l) in
    match l' with
    | [] => Err IndexError  (* r[0] *)
    | _ => if (k <? length l' + 1)%nat then Ok l' else Err TypeError
    end.

(** rzline.py:82, theta = linspace(0, 2 pi, n, endpoint=False) *)
Definition linspace_open (a b : Q) (n : nat) : list Q :=
  map (fun i => a + inject_Z (Z.of_nat i) * ((b - a) / inject_Z (Z.of_nat n))) (seq 0 n).
(** endpoint=True, for n >= 2 *)
Definition linspace_closed (a b : Q) (n : nat) : list Q :=
  map (fun i => a + inject_Z (Z.of_nat i) * ((b - a) / inject_Z (Z.of_nat (n - 1)))) (seq 0 n).

Definition pt0 : pt := (0, 0).
Definition zlen {A} (l : list A) : Z := Z.of_nat (length l).
Definition znth (l : list pt) (i : Z) : pt := nth (Z.to_nat i) l pt0.

(** numpy.pi, exactly *)
Definition np_pi : Q := 884279719003555 # 281474976710656.

Section Line.
Variable pi : Q.

(** RZline.positionPolygon (rzline.py:158-183) at one angle *)
Definition positionPolygon (l : list pt) (theta : Q) : pt :=
  let n := zlen l in
  let dtheta := 2 * pi / inject_Z n in
  let ind := (Qtrunc (theta / dtheta) mod n)%Z in
  let rem := qrem theta dtheta in
  let indp := ((ind + 1) mod n)%Z in
  (rem * fst (znth l indp) + (1 - rem) * fst (znth l ind),
   rem * snd (znth l indp) + (1 - rem) * snd (znth l ind)).

(** numpy.argmin: first index of the smallest entry; 0 for an empty list (where
    numpy raises; the callers have non-empty lists). *)
Fixpoint argmin_from (best : nat) (bv : Q) (i : nat) (l : list Q) : nat :=
  match l with
  | [] => best
  | v :: l' => if Qlt_bool v bv then argmin_from i v (S i) l' else argmin_from best bv (S i) l'
  end.
Definition argmin (l : list Q) : nat := match l with [] => O | v :: l' => argmin_from 0 v 1 l' end.

Definition d2 (p q : pt) : Q := (fst p - fst q) * (fst p - fst q) + (snd p - snd q) * (snd p - snd q).

(** one refinement, rzline.py:291-302; state: (theta0, dtheta); [Qred] brings the
    fraction to lowest terms and does not change the number *)
Definition refine (l : list pt) (target : pt) (subdivide : nat) (st : Q * Q) : Q * Q :=
  let '(theta0, dtheta) := st in
  let thetas := linspace_open (theta0 - dtheta) (theta0 + dtheta) subdivide in
  let ind := argmin (map (fun t => d2 (positionPolygon l t) target) thetas) in
  (Qred (nth ind thetas 0), Qred (nth 1 thetas 0 - nth 0 thetas 0)).
Fixpoint iterate {A} (k : nat) (f : A -> A) (a : A) : A := match k with O => a | S k => iterate k f (f a) end.

(** RZline.closestPoint (rzline.py:269-304), subdivide >= 2, at least two points *)
Definition closestPoint (l : list pt) (target : pt) (niter subdivide : nat) : Q :=
  let theta := linspace_open 0 (2 * pi) (length l) in
  let ind := argmin (map (fun p => d2 p target) l) in
  let st := iterate niter (refine l target subdivide) (nth ind theta 0, nth 1 theta 0 - nth 0 theta 0) in
  qrem (fst st) (2 * pi).

(** ** line_from_points_poly (rzline.py:396-467), plotting left out *)
(** lines 448-453 *)
Definition insert_point (l : list pt) (i ind : nat) (p : pt) : list pt :=
  let l' := if (ind =? i - 1)%nat then l
            else firstn (ind + 2) l ++ firstn (i - (ind + 1)) (skipn (ind + 1) l) ++ skipn (i + 1) l in
  set_nth (ind + 1) p l'.

Definition poly_step (orig : list pt) (k : nat) (vals : list pt) (i : nat) : res (list pt) :=
  let* line := rz_init true k (map fst (firstn i vals)) (map snd (firstn i vals)) in
  let p := nth i orig pt0 in
  let theta := closestPoint line p 3 20 in
  let ind := Qfloor (inject_Z (Z.of_nat i) * theta / (2 * pi)) in
  Ok (insert_point vals i (Z.to_nat ind) p).

Definition line_from_points_poly (k : nat) (r z : list Q) : res (list pt) :=
  if (length r <? 3)%nat then Err AssertionError
  else if negb (length z =? length r)%nat then Err AssertionError
  else
    let l := combine r z in
    let* vals := foldM (poly_step l k) (seq 3 (length l - 3)) l in
    rz_init true k (map fst vals) (map snd vals).
End Line.

(** ** RZline.distance (rzline.py:185-236) *)
Section Distance.
Variable sqrt : Q -> Q.

(** the local function [interp] (lines 200-204): piecewise linear, periodic,
    evaluated at i / n *)
Definition interp_periodic (dat : list Q) (n : nat) : list Q :=
  map (fun i =>
    let m := zlen dat in
    let p := inject_Z (Z.of_nat i) * inject_Z m / inject_Z (Z.of_nat n) in
    let j := Qfloor p in
    let a := nth (Z.to_nat (j mod m)) dat 0 in
    let b := nth (Z.to_nat ((j + 1) mod m)) dat 0 in
    a + (p - inject_Z j) * (b - a)) (seq 0 n).

(** spline order 1 (lines 206-221): running sum, total at the end *)
Definition edges (l : list pt) : list (pt * pt) := combine l (skipn 1 l ++ firstn 1 l).
Fixpoint running (s : Q) (l : list Q) : list Q := match l with [] => [s] | c :: l' => s :: running (s + c) l' end.
Definition distance_poly (l : list pt) (weights : option (list Q)) : list Q :=
  let dr := map (fun e : pt * pt => sqrt (d2 (fst e) (snd e))) (edges l) in
  let w := match weights with None => map (fun _ => 1) dr | Some w => interp_periodic w (length dr) end in
  running 0 (map (fun cw : Q * Q => fst cw * snd cw) (combine dr w)).

(** other orders (lines 223-236): [dl] is dl/dtheta from the spline derivatives *)
Fixpoint cumtrapz (s : Q) (y x : list Q) : list Q :=
  match y, x with
  | a :: ((b :: _) as y'), u :: ((v :: _) as x') => s :: cumtrapz (s + (v - u) * (a + b) / 2) y' x'
  | _ :: _, _ => [s]
  | [], _ => []
  end.
Fixpoint stride_from {A} (k j : nat) (l : list A) : list A :=
  match l with
  | [] => []
  | a :: l' => match j with O => a :: stride_from k (k - 1) l' | S j' => stride_from k j' l' end
  end.
Definition stride {A} (k : nat) (l : list A) : list A := stride_from k 0 l.
Definition distance_spline (pi : Q) (dl : Q -> Q) (n : nat) (sample : Z) (weights : option (list Q)) : res (list Q) :=
  if (sample <? 1)%Z then Err AssertionError
  else
    let s := Z.to_nat sample in
    let thetavals := linspace_closed 0 (2 * pi) (s * n + 1) in
    let dldtheta := map dl thetavals in
    let dldtheta := match weights with
                    | None => dldtheta
                    | Some w => map (fun cw : Q * Q => fst cw * snd cw) (combine dldtheta (interp_periodic w (length thetavals)))
                    end in
    Ok (stride s (cumtrapz 0 dldtheta thetavals)).

(** scipy's interp1d(xs, ys, assume_sorted=True) at [v], xs[0] <= v <= xs[-1]:
    searchsorted, clipped to 1 .. len - 1 *)
Fixpoint searchsorted (xs : list Q) (v : Q) : nat :=
  match xs with [] => O | x :: xs' => if Qlt_bool x v then S (searchsorted xs' v) else O end.
Definition interp1d (xs ys : list Q) (v : Q) : Q :=
  let hi := Nat.min (Nat.max (searchsorted xs v) 1) (length xs - 1) in
  let lo := (hi - 1)%nat in
  (nth hi ys 0 - nth lo ys 0) / (nth hi xs 0 - nth lo xs 0) * (v - nth lo xs 0) + nth lo ys 0.

(** equallySpaced (rzline.py:238-267): the angles at which the new points lie *)
Definition equal_thetas (pi : Q) (dist : list Q) (n : nat) : list Q :=
  let m := (length dist - 1)%nat in
  map (interp1d dist (linspace_open 0 (2 * pi) m ++ [2 * pi]))
      (linspace_open (nth 0 dist 0) (last dist 0) n).
End Distance.

(** ** line_from_points (rzline.py:571-657) *)
Section Greedy.
(** [new_line.distance()[-1]] *)
Variable total : list pt -> Q.

Definition remove_nth {A} (i : nat) (l : list A) : list A := firstn i l ++ skipn (S i) l.

(** lines 628-643: the points after [cur]; the last one is appended after the loop *)
Fixpoint greedy (fuel : nat) (cur : pt) (rem : list pt) : res (list pt) :=
  match rem with
  | [] => Err IndexError
  | [p] => Ok [p]
  | _ =>
    match fuel with
    | O => Err OtherError (* not reached with fuel = number of points *)
    | S fuel =>
      let i := argmin (map (d2 cur) rem) in
      let p := nth i rem pt0 in
      let* tl := greedy fuel p (remove_nth i rem) in
      Ok (p :: tl)
    end
  end.

Definition greedy_from (l : list pt) (start : nat) : res (list pt) :=
  match roll start l with
  | [] => Err IndexError
  | p :: rem => let* tl := greedy (length rem) p rem in Ok (p :: tl)
  end.

(** [Ok None]: the function returns None (no points) *)
Definition line_from_points (k : nat) (is_sorted : bool) (r z : list Q) : res (option (list pt)) :=
  if negb (length z =? length r)%nat then Err AssertionError
  else if is_sorted then (let* l := rz_init true k r z in Ok (Some l))
  else
    let l := combine r z in
    let* best := foldM (fun (best : option (list pt * Q)) start =>
        let* g := greedy_from l start in
        let* new := rz_init true k (map fst g) (map snd g) in
        let nd := total new in
        match best with
        | None => Ok (Some (new, nd))
        | Some (bl, bd) => if Qlt_bool nd bd then Ok (Some (new, nd)) else Ok best
        end) (seq 0 (length l)) None in
    Ok (match best with None => None | Some (bl, _) => Some bl end).
End Greedy.

(** ** two_opt (rzline.py:485-530) *)
Section TwoOpt.
(** np.linalg.norm(c[a] - c[b]) *)
Variable norm : nat -> nat -> Q.

(** lines 494-495; [r[p - 1]] for p = 0 is the last *)
Definition path_distance (r : list nat) : Q :=
  qsum (map (fun ab : nat * nat => norm (fst ab) (snd ab)) (combine r (roll 1 r))).

(** lines 498-499 for 1 <= i <= k < len(r): the middle slice is r[k], ..., r[i] *)
Definition two_opt_swap (r : list nat) (i k : nat) : list nat :=
  firstn i r ++ rev (firstn (k + 1 - i) (skipn i r)) ++ skipn (k + 1) r.

(** lines 516-524 *)
Definition try_swap (i : nat) (st : list nat * Q) (k : nat) : list nat * Q :=
  let new := two_opt_swap (fst st) i k in
  let nd := path_distance new in
  if Qlt_bool nd (snd st) then (new, nd) else st.
(** lines 512-526: one pass; the factor is left alone if there is nothing to swap;
    [None] is NaN *)
Definition opt_pass (n : nat) (st : list nat * Q * option Q) : list nat * Q * option Q :=
  let '(route, best, _) := st in
  fold_left (fun (s : list nat * Q * option Q) i =>
      let '(route', best') := fold_left (try_swap i) (seq (i + 1) (n - (i + 1))) (fst s) in
      (route', best', if Qeq_bool best 0 then None else Some (1 - best' / best)))
    (seq 1 (n - 3)) st.
(** lines 505-527; [None]: out of fuel *)
Fixpoint two_opt_loop (fuel n : nat) (threshold : Q) (st : list nat * Q * option Q) : option (list nat) :=
  match fuel with
  | O => None
  | S fuel =>
    let continue := match snd st with None => false | Some f => Qlt_bool threshold f end in
    if continue then two_opt_loop fuel n threshold (opt_pass n st) else Some (fst (fst st))
  end.
Definition two_opt (fuel n : nat) (threshold : Q) : option (list nat) :=
  two_opt_loop fuel n threshold (seq 0 n, path_distance (seq 0 n), Some 1).
End TwoOpt.
