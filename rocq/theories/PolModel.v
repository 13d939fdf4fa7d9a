(** Poloidal grids (poloidal_grid.py): RectangularPoloidalGrid (91-230),
    StructuredPoloidalGrid (257-473) and grid_annulus (542-603). *)
From Coq Require Import List ZArith QArith Qround Bool.
From Verif Require Import Prelude.
Import ListNotations.
Open Scope Q_scope.

(** ** RectangularPoloidalGrid *)

Record rect := { r_nx : Z; r_nz : Z; r_dR : Q; r_dZ : Q; r_Rmin : Q; r_Zmin : Q }.

(** poloidal_grid.py:125-146; the arrays R, Z of line 146 are getCoordinate at
    the integer indices and not stored here. *)
Definition rect_init (nx nz : Z) (Lx Lz Rcentre Zcentre : Q) (MXG : Z) : res rect :=
  if Z.eqb (nx - 2 * MXG) 0 then Err ZeroDivisionError
  else if Z.eqb nz 0 then Err ZeroDivisionError
  else
    let dR := Lx / inject_Z (nx - 2 * MXG) in
    let dZ := Lz / inject_Z nz in
    Ok {| r_nx := nx; r_nz := nz; r_dR := dR; r_dZ := dZ;
          r_Rmin := Rcentre - dR * (inject_Z nx - 1) / 2;
          r_Zmin := Zcentre - dZ * (inject_Z nz - 1) / 2 |}.

(** poloidal_grid.py:155-199, at one index pair ([xind], [zind] have the same shape). *)
Definition rect_getCoordinate (r : rect) (xind zind : Q) (dx dz : Z) : res (Q * Q) :=
  if negb (0 <=? dx)%Z then Err AssertionError
  else if negb (0 <=? dz)%Z then Err AssertionError
  else if (2 <? dx + dz)%Z then Ok (0, 0)
  else if (dx =? 1)%Z then Ok (r_dR r, 0)
  else if (dz =? 1)%Z then Ok (0, r_dZ r)
  else Ok (r_Rmin r + xind * r_dR r, r_Zmin r + zind * r_dZ r).

(** poloidal_grid.py:201-230, at one position; division by a zero spacing is not modelled. *)
Definition rect_findIndex (r : rect) (R Z : Q) : Q * Q :=
  ((R - r_Rmin r) / r_dR r, (Z - r_Zmin r) / r_dZ r).

(** ** Floats with infinities and NaN, as far as findIndex needs them *)

Inductive fl := Fin (q : Q) | Inf (neg : bool) | NaN.

Definition qneg (q : Q) : bool := Qlt_bool q 0.
Definition qzero (q : Q) : bool := Qeq_bool q 0.

Definition fadd (a b : fl) : fl :=
  match a, b with
  | Fin p, Fin q => Fin (p + q)
  | Inf s, Inf t => if eqb s t then Inf s else NaN
  | Inf s, Fin _ | Fin _, Inf s => Inf s
  | _, _ => NaN
  end.
Definition fopp (a : fl) : fl := match a with Fin q => Fin (- q) | Inf s => Inf (negb s) | NaN => NaN end.
Definition fsub (a b : fl) : fl := fadd a (fopp b).
Definition fmul (a b : fl) : fl :=
  match a, b with
  | Fin p, Fin q => Fin (p * q)
  | Inf s, Inf t => Inf (xorb s t)
  | Inf s, Fin q | Fin q, Inf s => if qzero q then NaN else Inf (xorb s (qneg q))
  | _, _ => NaN
  end.
(** [zneg]: the sign bit of a zero divisor, which the rationals do not have. *)
Definition fdiv (zneg : bool) (a b : fl) : fl :=
  match a, b with
  | Fin p, Fin q => if qzero q then (if qzero p then NaN else Inf (xorb (qneg p) zneg)) else Fin (p / q)
  | Fin _, Inf _ => Fin 0
  | Inf s, Fin q => if qzero q then Inf (xorb s zneg) else Inf (xorb s (qneg q))
  | _, _ => NaN
  end.
(** Comparison; false when NaN is involved. *)
Definition flt (a b : fl) : bool :=
  match a, b with
  | Fin p, Fin q => Qlt_bool p q
  | Inf s, Inf t => (s && negb t)%bool
  | Inf s, Fin _ => s
  | Fin _, Inf t => negb t
  | _, _ => false
  end.
(** numpy.amax, numpy.amin: NaN if any entry is NaN; ValueError on an empty array. *)
Definition fmax2 (a b : fl) : fl := match a, b with NaN, _ | _, NaN => NaN | _, _ => if flt a b then b else a end.
Definition fmin2 (a b : fl) : fl := match a, b with NaN, _ | _, NaN => NaN | _, _ => if flt b a then b else a end.
Definition famax (l : list fl) : res fl := match l with [] => Err ValueError | a :: t => Ok (fold_left fmax2 t a) end.
Definition famin (l : list fl) : res fl := match l with [] => Err ValueError | a :: t => Ok (fold_left fmin2 t a) end.

(** numpy.remainder *)
Definition qrem (a b : Q) : Q := a - b * inject_Z (Qfloor (a / b)).

(** ** StructuredPoloidalGrid *)
Section Structured.
Variable nx nz : Z.
(** The splines of poloidal_grid.py:311-312 with derivative orders; the second
    index is the one into the tripled data. *)
Variable splR splZ : nat -> nat -> Q -> Q -> Q.
(** KDTree.query: index of the nearest grid point in the flattened arrays. *)
Variable nearest : Q * Q -> Z.
(** Sign bit of a zero determinant at index (x, z). *)
Variable zneg : fl -> fl -> bool.

(** A spline evaluated at a NaN or infinite index gives NaN. *)
Definition eval (spl : nat -> nat -> Q -> Q -> Q) (d e : nat) (x z : fl) : fl :=
  match x, z with
  | Fin x, Fin z => Fin (spl d e x (qrem z (inject_Z nz) + inject_Z nz))
  | _, _ => NaN
  end.

(** poloidal_grid.py:317-346 *)
Definition getCoordinate (pts : list (fl * fl)) (dx dz : nat) : res (list (fl * fl)) :=
  let* lo := famin (map fst pts) in
  let* hi := famax (map fst pts) in
  if (flt lo (Fin 0) || flt (Fin (inject_Z nx - 1)) hi)%bool then Err ValueError
  else Ok (map (fun p => (eval splR dx dz (fst p) (snd p), eval splZ dx dz (fst p) (snd p))) pts).

(** One point of the search: index and mask. *)
Record pt := { px : fl; pz : fl; pmask : bool }.
Definition mval (b : bool) : fl := Fin (if b then 1 else 0).
Definition low_x (x : fl) : bool := flt x (Fin (1#2)).
Definition high_x (x : fl) : bool := flt (Fin (inject_Z nx - (3#2))) x.

(** poloidal_grid.py:386-399 *)
Definition start (target : Q * Q) : pt :=
  let ind := nearest target in
  let x := (ind / nz)%Z in
  let xq := Fin (inject_Z x) in
  {| px := xq; pz := Fin (inject_Z (ind - x * nz)); pmask := negb (low_x xq || high_x xq) |}.

(** poloidal_grid.py:443-460: the update of one point with target [(R, Z)],
    position [pos] and derivatives [ddx], [ddz]. *)
Definition newton (ur : Q) (p : pt) (target : Q * Q) (pos ddx ddz : fl * fl) : pt :=
  let dR := fsub (fst pos) (Fin (fst target)) in
  let dZ := fsub (snd pos) (Fin (snd target)) in
  let det := fsub (fmul (fst ddx) (snd ddz)) (fmul (fst ddz) (snd ddx)) in
  let s := zneg (px p) (pz p) in
  let x := fsub (px p) (fmul (mval (pmask p))
             (fdiv false (fdiv s (fsub (fmul (snd ddz) dR) (fmul (fst ddz) dZ)) det) (Fin ur))) in
  let z := fsub (pz p) (fmul (mval (pmask p))
             (fdiv false (fdiv s (fsub (fmul (fst ddx) dZ) (fmul (snd ddx) dR)) det) (Fin ur))) in
  let inb := low_x x in
  let m := if inb then false else pmask p in
  let x := if inb then Fin 0 else x in
  let outb := high_x x in
  {| px := if outb then Fin (inject_Z nx - 1) else x; pz := z; pmask := if outb then false else m |}.

(** poloidal_grid.py:416-420: mask * (dR**2 + dZ**2) of one point *)
Definition mismatch (p : pt) (target : Q * Q) (pos : fl * fl) : fl :=
  let dR := fsub (fst pos) (Fin (fst target)) in
  let dZ := fsub (snd pos) (Fin (snd target)) in
  fmul (mval (pmask p)) (fadd (fmul dR dR) (fmul dZ dZ)).

Definition index_of (pts : list pt) : list (fl * fl) := map (fun p => (px p, pz p)) pts.

(** poloidal_grid.py:430-437 *)
Definition relax (cnt : Z) (ur : Q) : Q :=
  if (cnt =? 10)%Z then 3#2 else if (cnt =? 100)%Z then 2 else if (cnt =? 300)%Z then 5#2
  else if (cnt =? 700)%Z then 3 else ur.

(** poloidal_grid.py:409-460: [while True], with fuel.  [None]: out of fuel. *)
Fixpoint search (fuel : nat) (tol : Q) (targets : list (Q * Q)) (cnt : Z) (ur : Q) (extra : Z) (pts : list pt)
  : option (res (list pt)) :=
  match fuel with
  | O => None
  | S fuel =>
    match (let* pos := getCoordinate (index_of pts) 0 0 in
           let* val := famax (map (fun '(p, t, q) => mismatch p t q) (combine (combine pts targets) pos)) in
           Ok (pos, val)) with
    | Err e => Some (Err e)
    | Ok (pos, val) =>
      let close := flt val (Fin tol) in
      let extra' := if close then (extra + 1)%Z else extra in
      if (close && (3 <? extra')%Z)%bool then Some (Ok pts)
      else if (negb close && negb (extra =? 0)%Z)%bool then Some (Err RuntimeError)
      else
        let cnt := (cnt + 1)%Z in
        let ur := relax cnt ur in
        if (cnt =? 1000)%Z then Some (Err RuntimeError)
        else match (let* ddx := getCoordinate (index_of pts) 1 0 in
                    let* ddz := getCoordinate (index_of pts) 0 1 in Ok (ddx, ddz)) with
             | Err e => Some (Err e)
             | Ok (ddx, ddz) =>
               search fuel tol targets cnt ur extra'
                 (map (fun '(p, t, q, a, b) => newton ur p t q a b)
                      (combine (combine (combine (combine pts targets) pos) ddx) ddz))
             end
    end
  end.

(** poloidal_grid.py:466-471 *)
Definition mark (p : pt) : fl * fl :=
  let x := if low_x (px p) then Fin (-(1)) else px p in
  let x := if high_x x then Fin (inject_Z nx) else x in
  (x, pz p).

(** poloidal_grid.py:348-473 for a flattened list of positions. *)
Definition findIndex (fuel : nat) (targets : list (Q * Q)) (tol : Q) : option (res (list (fl * fl))) :=
  match search fuel tol targets 0 1 0 (map start targets) with
  | None => None
  | Some (Err e) => Some (Err e)
  | Some (Ok pts) => Some (Ok (map mark pts))
  end.
End Structured.

(** ** StructuredPoloidalGrid.__init__ and grid_annulus *)

(** A grid: shape and coordinates. *)
Record grid2 := { g_nx : Z; g_nz : Z; g_R : Z -> Z -> Q; g_Z : Z -> Z -> Q }.

(** shapely.Polygon(...).area of row [x]: modulus of the shoelace sum. *)
Definition shoelace2 (n : Z) (r z : Z -> Q) : Q :=
  qsum (map (fun i => r i * z ((i + 1) mod n)%Z - r ((i + 1) mod n)%Z * z i) (zrange 0 n)).
Definition qabs (q : Q) : Q := if Qlt_bool q 0 then - q else q.
Definition row_area (g : grid2) (x : Z) : Q := qabs (shoelace2 (g_nz g) (g_R g x) (g_Z g x)) / 2.

(** poloidal_grid.py:279-312: the orientation assertion; KDTree and splines are
    the oracles above. *)
Definition struct_init (g : grid2) : res grid2 :=
  if (4 <? g_nx g)%Z then
    if Qle_bool (row_area g 2) (row_area g (g_nx g - 2)) then Ok g else Err AssertionError
  else Ok g.

(** poloidal_grid.py:542-603.  Rvalue and Zvalue of the lines are functions of
    theta / 2 pi.  Plotting left out. *)
Definition grid_annulus (innerR innerZ outerR outerZ : Q -> Q) (nx nz : Z) (return_coords : bool) : res grid2 :=
  if negb (2 <=? nx)%Z then Err AssertionError
  else if negb (1 <? nz)%Z then Err AssertionError
  else
    let theta j := inject_Z j / inject_Z nz in
    let x i := inject_Z i / inject_Z (nx - 1) in
    let g := {| g_nx := nx; g_nz := nz;
                g_R := fun i j => x i * outerR (theta j) + (1 - x i) * innerR (theta j);
                g_Z := fun i j => x i * outerZ (theta j) + (1 - x i) * innerZ (theta j) |} in
    if return_coords then Ok g else struct_init g.
