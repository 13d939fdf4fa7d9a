(** diff.py: finite differences along one axis.  The arrays are one-dimensional here:
    for a larger array each line along [axis] is treated on its own by the slices,
    and the other axes are untouched.  field_line_length (diff.py:100-129) is an
    oracle of the tracing part (splines) and not modelled here. *)
From Coq Require Import List ZArith QArith Bool.
From Verif Require Import Prelude SmoothModel.
Import ListNotations.
Open Scope Q_scope.

(** bounds of a Python slice on a sequence of length n *)
Definition clip (n i : Z) : Z := if (i <? 0)%Z then Z.max 0 (i + n) else Z.min i n.
Definition lo_of (n : Z) (a : option Z) : Z := match a with Some i => clip n i | None => 0%Z end.
Definition hi_of (n : Z) (b : option Z) : Z := match b with Some i => clip n i | None => n end.
(** l[a:b] *)
Definition slice_of (l : list Q) (a b : option Z) : list Q :=
  let lo := lo_of (len l) a in let hi := hi_of (len l) b in
  firstn (Z.to_nat (hi - lo)) (skipn (Z.to_nat lo) l).
(** l[a:b] = v; ValueError if the sizes differ *)
Definition set_slice (l : list Q) (a b : option Z) (v : list Q) : res (list Q) :=
  let lo := lo_of (len l) a in let hi := Z.max lo (hi_of (len l) b) in
  if (len v =? hi - lo)%Z then Ok (firstn (Z.to_nat lo) l ++ v ++ skipn (Z.to_nat hi) l) else Err ValueError.
(** l[i] = v *)
Definition setz (l : list Q) (i : Z) (v : Q) : res (list Q) :=
  if ((- len l <=? i) && (i <? len l))%Z%bool then Ok (set_nth (Z.to_nat (i mod len l)) v l) else Err IndexError.
(** a (+) b for arrays of the same size; ValueError otherwise *)
Definition zip_with (op : Q -> Q -> Q) (a b : list Q) : res (list Q) :=
  if (len a =? len b)%Z then Ok (map (fun p => op (fst p) (snd p)) (combine a b)) else Err ValueError.

Section Diff.
(** what numpy.empty_like leaves in the new array *)
Variable junk : Q.
Definition empty_like (f : list Q) : list Q := repeat junk (length f).

(** c2 (diff.py:4-32) *)
Definition c2_periodic (f : list Q) : list Q :=
  map (fun p => (fst p - snd p) / 2) (combine (rollz (-1) f) (rollz 1 f)).
Definition c2 (f : list Q) : res (list Q) :=
  let out := empty_like f in
  let* out := set_slice out (Some 1%Z) (Some (-1)%Z) (slice_of f (Some 2%Z) None) in
  let* d := zip_with Qminus (slice_of out (Some 1%Z) (Some (-1)%Z)) (slice_of f None (Some (-2)%Z)) in
  let* out := set_slice out (Some 1%Z) (Some (-1)%Z) d in
  let* f2 := getz f 2 in
  let* out := setz out 0 f2 in
  let* o0 := getz out 0 in let* f0 := getz f 0 in
  let* out := setz out 0 (o0 - f0) in
  let* fl := getz f (-1) in
  let* out := setz out (-1) fl in
  let* ol := getz out (-1) in let* f3 := getz f (-3) in
  let* out := setz out (-1) (ol - f3) in
  Ok (map (fun v => v / 2) out).

(** c4 (diff.py:35-97) *)
Definition c4_periodic (f : list Q) : list Q :=
  let fi i := rollz (- i) f in
  map (fun k => (- nth k (fi 2%Z) 0 + 8 * nth k (fi 1%Z) 0 - 8 * nth k (fi (-1)%Z) 0 + nth k (fi (-2)%Z) 0) / 12) (seq 0 (length f)).
(** fi on the slice 2:-2 (diff.py:43-54) *)
Definition fi_slice (f : list Q) (i : Z) : list Q :=
  let stop := (-2 + i)%Z in
  slice_of f (Some (2 + i)%Z) (if (stop =? 0)%Z then None else Some stop).
(** fi on an index (diff.py:45-46) *)
Definition fi_at (f : list Q) (base i : Z) : res Q := getz f (base + i).
(** the array expression on diff.py:62 *)
Definition combine4 (a b c d : list Q) : res (list Q) :=
  if ((len a =? len b) && (len b =? len c) && (len c =? len d))%Z%bool
  then Ok (map (fun k => (- nth k a 0 + 8 * nth k b 0 - 8 * nth k c 0 + nth k d 0) / 12) (seq 0 (length a)))
  else Err ValueError.
(** the five decimal coefficients times fi(...) (diff.py:64-96) *)
Definition stencil (f : list Q) (base : Z) (terms : list (Q * Z)) : res Q :=
  foldM (fun acc ct => let* v := fi_at f base (snd ct) in Ok (acc + fst ct * v)) terms 0.
Definition d20833 : Q := 20833333333333333 # 10000000000000000.
Definition d208333 : Q := 208333333333333333 # 100000000000000000.
Definition d13333 : Q := 13333333333333333 # 10000000000000000.
Definition d83333 : Q := 83333333333333333 # 100000000000000000.
Definition d08333 : Q := 83333333333333333 # 1000000000000000000.
Definition c4_first : list (Q * Z) := [(- d20833, 0%Z); (4, 1%Z); (- (3), 2%Z); (d13333, 3%Z); (- (1 # 4), 4%Z)].
Definition c4_second : list (Q * Z) := [(- (1 # 4), (-1)%Z); (- d83333, 0%Z); (3 # 2, 1%Z); (- (1 # 2), 2%Z); (d08333, 3%Z)].
Definition c4_before_last : list (Q * Z) := [(- d08333, (-3)%Z); (1 # 2, (-2)%Z); (- (3 # 2), (-1)%Z); (d83333, 0%Z); (1 # 4, 1%Z)].
Definition c4_last : list (Q * Z) := [(1 # 4, (-4)%Z); (- d13333, (-3)%Z); (3, (-2)%Z); (- (4), (-1)%Z); (d208333, 0%Z)].
Definition c4 (f : list Q) : res (list Q) :=
  let out := empty_like f in
  let* mid := combine4 (fi_slice f 2) (fi_slice f 1) (fi_slice f (-1)) (fi_slice f (-2)) in
  let* out := set_slice out (Some 2%Z) (Some (-2)%Z) mid in
  let* v := stencil f 0 c4_first in
  let* out := setz out 0 v in
  let* v := stencil f 1 c4_second in
  let* out := setz out 1 v in
  let* v := stencil f (-2) c4_before_last in
  let* out := setz out (-2) v in
  let* v := stencil f (-1) c4_last in
  setz out (-1) v.
End Diff.
