(** smooth.py: smoothing of sharp corners of a line. *)
From Coq Require Import List ZArith QArith Bool.
From Verif Require Import Prelude.
Import ListNotations.
Open Scope Q_scope.

Definition len {A} (l : list A) : Z := Z.of_nat (length l).

(** numpy indexing of a 1-d array, negative indices count from the end *)
Definition getz (l : list Q) (i : Z) : res Q :=
  if ((- len l <=? i) && (i <? len l))%Z%bool then Ok (nth (Z.to_nat (i mod len l)) l 0) else Err IndexError.

(** numpy.roll(l, k) *)
Definition rollz (k : Z) (l : list Q) : list Q :=
  map (fun i => nth (Z.to_nat ((Z.of_nat i - k) mod len l)) l 0) (seq 0 (length l)).

(** l[a:a+n] = v for 0 <= a; ValueError if the sizes differ (broadcasting of
    one-element values is not modelled: the callers pass n values). *)
Definition assign (l : list Q) (a n : Z) (v : list Q) : res (list Q) :=
  let m := Z.max 0 (Z.min (a + n) (len l) - a) in
  if (len v =? m)%Z then Ok (firstn (Z.to_nat a) l ++ v ++ skipn (Z.to_nat (a + m)) l) else Err ValueError.

(** rollup (smooth.py:46-50) *)
Definition rollup (l : list Q) (startindex n : Z) (v : list Q) : res (list Q) :=
  let* l1 := assign (rollz (- startindex) l) 0 n v in Ok (rollz startindex l1).

Section Smooth.
Variable sqrt : Q -> Q.

(** smooth.py:9-21: is [item - bounds] an outlier?  A zero length gives NaN, whose
    comparison is false. *)
Definition sharp (r z : list Q) (cutoff : Q) (bounds item : Z) : res bool :=
  let* z1 := getz z item in let* r1 := getz r item in
  let* z2 := getz z (item - bounds) in let* r2 := getz r (item - bounds) in
  let* z3 := getz z (item - bounds * 2) in let* r3 := getz r (item - bounds * 2) in
  let az := z1 - z2 in let ar := r1 - r2 in
  let bz := z1 - z3 in let br := r1 - r3 in
  let product := az * bz + ar * br in
  let den := sqrt (az * az + ar * ar) * sqrt (bz * bz + br * br) in
  Ok (if Qeq_bool den 0 then false else Qlt_bool (product / den) cutoff).

(** find_outliers (smooth.py:5-22) *)
Definition find_outliers (r z : list Q) (cutoff : Q) (bounds : Z) : res (list Z) :=
  foldM (fun acc item => let* s := sharp r z cutoff bounds item in
                         Ok (if s then acc ++ [item - bounds]%Z else acc)) (zrange 0 (len z)) [].

(** sorted(list(set(l))) *)
Fixpoint insert_sorted (x : Z) (l : list Z) : list Z :=
  match l with
  | [] => [x]
  | y :: t => if (x <? y)%Z then x :: l else if (x =? y)%Z then l else y :: insert_sorted x t
  end.
Definition sorted_set (l : list Z) : list Z := fold_right insert_sorted [] l.

(** smooth.py:33-42; state: splitedlist, first, last *)
Definition split_step (todel : list Z) (st : list (list Z) * nat * Z) (iv : nat * Z) : list (list Z) * nat * Z :=
  let '(out, first, last) := st in
  let '(index, value) := iv in
  if (last + 1 =? value)%Z then (out, first, value)
  else (out ++ [firstn (index + 1 - first) (skipn first todel)], (index + 1)%nat, value).
Definition split_runs (todel : list Z) : res (list (list Z)) :=
  match todel with
  | [] => Err IndexError
  | x0 :: rest =>
    let '(out, first, _) := fold_left (split_step todel) (combine (seq 0 (length rest)) rest) ([], 0%nat, x0) in
    Ok (out ++ [skipn first todel])
  end.

(** generate_points_tosmooth (smooth.py:25-43) *)
Definition generate_points (bounds : Z) (outliers : list Z) (length : Z) : res (list (list Z)) :=
  match outliers with
  | [] => Ok []
  | _ => split_runs (sorted_set (flat_map (fun dup => filter (fun x => (x <? length)%Z) (zrange (dup - bounds) (dup + bounds + 1))) outliers))
  end.

(** least_squares (smooth.py:194-206) on the run [alist]: the coefficients, or
    None if the optimality is above 1e-8. *)
Variable fit : list Q -> list Q -> list Z -> option ((Q * Q * Q) * (Q * Q * Q)).

(** S = linspace(0, 1, num=n) *)
Definition unit_points (n : nat) : list Q :=
  match n with
  | S O => [0]
  | _ => map (fun i => inject_Z (Z.of_nat i) / inject_Z (Z.of_nat (n - 1))) (seq 0 n)
  end.
(** smooth.py:210-222 *)
Definition cubic (a : Q) (c : Q * Q * Q) (s : Q) : Q :=
  let '(c1, c2, c3) := c in a + c1 * s + c2 * (s * s) * (1#2) + c3 * (s * s * s) / 3.

(** smooth.py:252-257: slice assignment, with rollup for negative starts *)
Definition put_run (l : list Q) (start n : Z) (v : list Q) : res (list Q) :=
  if (start <? 0)%Z then rollup l start n v else assign l start n v.

(** gen_newr for one run (smooth.py:58-257, plotting left out); state:
    newr, newz, have_failed.  Spacing check of lines 239-250: a zero [dend] gives
    infinity or NaN, so the check fails. *)
Definition smooth_run (r z : list Q) (bounds : Z) (st : list Q * list Q * bool) (alist : list Z) : res (list Q * list Q * bool) :=
  let '(newr, newz, failed) := st in
  if negb (bounds <=? len alist)%Z then Err AssertionError
  else if (len r <=? 2 * len alist)%Z then Err ValueError
  else match alist with
  | [] => Err IndexError
  | start :: _ =>
    let fin := last alist 0%Z in
    let n := len alist in
    let* r0 := getz r start in let* rm := getz r (start - 1) in
    let* z0 := getz z start in let* zm := getz z (start - 1) in
    let seconds := if (fin <? len r - 1)%Z then (fin + 1)%Z else 0%Z in
    let* re := getz r fin in let* rs := getz r seconds in
    let* ze := getz z fin in let* zs := getz z seconds in
    match fit r z alist with
    | None => Ok (newr, newz, true)
    | Some (cr, cz) =>
      let S := unit_points (length alist) in
      let X := map (cubic r0 cr) S in
      let Y := map (cubic z0 cz) S in
      let* nr := getz newr (start - 1) in let* nz := getz newz (start - 1) in
      let* er := getz newr (start + n) in let* ez := getz newz (start + n) in
      let dstart := (hd 0 X - nr) * (hd 0 X - nr) + (hd 0 Y - nz) * (hd 0 Y - nz) in
      let dend := (last X 0 - er) * (last X 0 - er) + (last Y 0 - ez) * (last Y 0 - ez) in
      let ok := (negb (Qeq_bool dend 0) && Qlt_bool (1#9) (dstart / dend) && Qlt_bool (dstart / dend) 9)%bool in
      let* newr' := put_run newr start n X in
      let* newz' := put_run newz start n Y in
      Ok (newr', newz', (failed || negb ok)%bool)
    end
  end.
Definition gen_newr (r z : list Q) (runs : list (list Z)) (bounds : Z) : res (list Q * list Q * bool) :=
  foldM (smooth_run r z bounds) runs (r, z, false).

(** smooth.py:317-319 *)
Definition all_outliers (r z : list Q) (cutoff : Q) (bounds_find : Z) : res (list Z) :=
  foldM (fun acc b => let* o := find_outliers r z cutoff b in Ok (acc ++ o)) (zrange 1 (bounds_find + 1)) [].

(** smooth (smooth.py:289-347) with plot=False.  [plt] is then unbound when the
    bounds get too large (lines 335-336): UnboundLocalError, a NameError.  None: out of fuel. *)
Fixpoint smooth_loop (fuel : nat) (cutoff : Q) (bounds_find bounds0 bounds : Z) (r z : list Q) : option (res (list Q * list Q)) :=
  match fuel with
  | O => None
  | S fuel =>
    match (let* outliers := all_outliers r z cutoff bounds_find in
           let* runs := generate_points bounds outliers (len r) in
           gen_newr r z runs bounds) with
    | Err e => Some (Err e)
    | Ok (a, b, fail) =>
      if negb fail then Some (Ok (a, b))
      else if (bounds0 * 5 <? bounds + 1)%Z then Some (Err NameError)
      else smooth_loop fuel cutoff bounds_find bounds0 (bounds + 1) a b
    end
  end.
Definition smooth (fuel : nat) (r z : list Q) (cutoff : Q) (bounds : Z) (bounds_find : option Z) : option (res (list Q * list Q)) :=
  let bf := match bounds_find with None => bounds | Some b => if (b =? 0)%Z then bounds else b end in
  smooth_loop fuel cutoff bf bounds bounds r z.
End Smooth.
