(** fieldtracer.py: FieldTracer, trace_poincare, CachingFieldTracer, FieldTracerWeb. *)
From Coq Require Import String List ZArith QArith Bool.
From Verif Require Import Prelude.
Import ListNotations.
Open Scope Q_scope.

(** ** numpy arrays: shape and entries, row-major *)
Record nda := { shape : list nat; data : list Q }.
Fixpoint nsize (sh : list nat) : nat := match sh with [] => 1%nat | d :: t => (d * nsize t)%nat end.
Definition size (a : nda) : nat := nsize (shape a).
Definition shape_eqb (a b : list nat) : bool := if list_eq_dec Nat.eq_dec a b then true else false.
Definition reshape (sh : list nat) (l : list Q) : res nda :=
  if (nsize sh =? length l)%nat then Ok {| shape := sh; data := l |} else Err ValueError.

(** np.zeros(sh) + a for an array [a] with a single entry: sizes 1 are added in
    front if [a] has more dimensions. *)
Definition broadcast1 (a : nda) (sh : list nat) : nda :=
  {| shape := repeat 1%nat (length (shape a) - length sh) ++ sh; data := repeat (hd 0 (data a)) (nsize sh) |}.
(** fieldtracer.py:75-85, 221-231, 568-578 *)
Definition match_shapes (x z : nda) : res (nda * nda) :=
  if shape_eqb (shape x) (shape z) then Ok (x, z)
  else if (size x =? 1)%nat then Ok (broadcast1 x (shape z), z)
  else if (size z =? 1)%nat then Ok (x, broadcast1 z (shape x))
  else Err ValueError.

(** np.column_stack((x, z)).flatten() for one-dimensional arrays *)
Definition interleave (xs zs : list Q) : list Q := flat_map (fun p => [fst p; snd p]) (combine xs zs).

(** np.array_split(l, k) for k > 0 *)
Definition split_sizes (n k : nat) : list nat := repeat (n / k + 1)%nat (n mod k) ++ repeat (n / k)%nat (k - n mod k).
Fixpoint split_list {A} (sizes : list nat) (l : list A) : list (list A) :=
  match sizes with [] => [] | s :: t => firstn s l :: split_list t (skipn s l) end.
Definition array_split {A} (l : list A) (k : nat) : list (list A) := split_list (split_sizes (length l) k) l.

(** np.concatenate(results, axis=1) of arrays with [ny] rows *)
Definition concat_axis1 {A} (ny : nat) (results : list (list (list A))) : list (list A) :=
  map (fun k => flat_map (fun r => nth k r []) results) (seq 0 ny).

Section Tracer.
(** odeint(self.field_direction, position, y_values, args=(True,)): one row for
    each y value. *)
Variable odeint : list Q -> list Q -> list (list Q).
(** 1000 in the code *)
Variable limit : nat.

(** fieldtracer.py:98-128 *)
Definition trace_rows (xs zs ys : list Q) : list (list Q) :=
  if (length xs <? limit)%nat then odeint (interleave xs zs) ys
  else
    let k := (length xs / limit)%nat in
    concat_axis1 (length ys) (map (fun c => odeint (interleave (fst c) (snd c)) ys) (combine (array_split xs k) (array_split zs k))).

(** FieldTracer.follow_field_lines (fieldtracer.py:30-130); y_values is one-dimensional.
    column_stack refuses a one-dimensional x with a two-dimensional z. *)
Definition follow (x z : nda) (ys : list Q) : res nda :=
  if (length ys <? 2)%nat then Err ValueError
  else
    let* (x, z) := match_shapes x z in
    if ((length (shape x) =? 1) && negb (length (shape z) =? 1))%nat%bool then Err ValueError
    else reshape (length ys :: shape x ++ [2%nat]) (concat (trace_rows (data x) (data z) ys)).

(** ** trace_poincare (fieldtracer.py:320-406) *)

Fixpoint qinsert (a : Q) (l : list Q) : list Q :=
  match l with [] => [a] | b :: t => if Qle_bool a b then a :: l else b :: qinsert a t end.
Definition qsort (l : list Q) : list Q := fold_right qinsert [] l.

(** np.linspace(0, yperiod, n, endpoint=False) *)
Definition even_slices (yperiod : Q) (n : nat) : list Q :=
  map (fun i => inject_Z (Z.of_nat i) * (yperiod / inject_Z (Z.of_nat n))) (seq 0 n).
(** fieldtracer.py:357-378 *)
Definition choose_slices (yperiod : Q) (nplot : option Z) (y_slices : option (list Q)) : res (list Q) :=
  match y_slices, nplot with
  | Some l, _ =>
    if (match l with [] => true | _ => false end || negb (forallb (fun y => Qle_bool 0 y && Qle_bool y yperiod) l))%bool then Err ValueError
    else Ok (qsort l)
  | None, Some n => if (n <? 0)%Z then Err ValueError else Ok (even_slices yperiod (Z.to_nat n))
  | None, None => Err ValueError
  end.
(** fieldtracer.py:383-385 *)
Definition revolve (yperiod : Q) (slices : list Q) (revs : nat) : list Q :=
  fold_left (fun acc n => acc ++ map (fun y => inject_Z (Z.of_nat n) * yperiod + y) (firstn (length slices) acc)) (seq 1 (revs - 1)) slices.
(** fieldtracer.py:388-393: entry j of y_values_over *)
Definition over_at (ys : list Q) (nover j : nat) : Q :=
  let q := (j / nover)%nat in
  let i := (j mod nover)%nat in
  if (i =? 0)%nat then nth q ys 0
  else (inject_Z (Z.of_nat i) / inject_Z (Z.of_nat nover)) * nth (q + 1) ys 0
       + (inject_Z (Z.of_nat (nover - i)) / inject_Z (Z.of_nat nover)) * nth q ys 0.
Definition oversample (ys : list Q) (nover : nat) : list Q :=
  map (over_at ys nover) (seq 0 (length ys * nover - (nover - 1))).
(** result[::nover] *)
Definition every {A} (n : nat) (l : list A) : list A :=
  map snd (filter (fun p => (fst p mod n =? 0)%nat) (combine (seq 0 (length l)) l)).
(** the rows of an array along its first dimension *)
Definition blocks (a : nda) : list (list Q) :=
  let w := nsize (tl (shape a)) in map (fun k => firstn w (skipn (k * w) (data a))) (seq 0 (hd 0%nat (shape a))).
(** Without revolutions, slices or a positive over-sampling factor the array
    creation, the slice or follow_field_lines raises ValueError. *)
Definition trace_poincare (x z : nda) (yperiod : Q) (nplot : option Z) (y_slices : option (list Q)) (revs nover : Z) : res (nda * list Q) :=
  let* slices := choose_slices yperiod nplot y_slices in
  let np := length slices in
  if ((revs <? 1) || (nover <? 1))%Z%bool || (np =? 0)%nat then Err ValueError
  else
    let over := oversample (revolve yperiod slices (Z.to_nat revs)) (Z.to_nat nover) in
    let* result := follow x z over in
    let rows := every (Z.to_nat nover) (blocks result) in
    let* r := reshape (Z.to_nat revs :: np :: tl (shape result)) (concat rows) in
    Ok (r, slices).
End Tracer.

(** ** CachingFieldTracer (fieldtracer.py:409-455) *)
Section Caching.
(** str of a float, and the first ten characters of the md5 digest *)
Variable str : Q -> string.
Variable digest : string -> string.
Open Scope string_scope.

(** fieldtracer.py:418-433: one argument is "-".join, the arguments are hashed one
    after the other *)
Definition join (l : list Q) : string := String.concat "-" (map str l).
Definition key (x z : nda) (ys : list Q) : string := digest (join (data x) ++ join (data z) ++ join ys).

(** cached files: name and entries; np.savetxt writes enough digits to read the
    same floats back *)
Definition files := list (string * list Q).
Fixpoint find_file (k : string) (fs : files) : option (list Q) :=
  match fs with [] => None | (k', d) :: t => if String.eqb k k' then Some d else find_file k t end.
Definition guess_shape (x : nda) (ys : list Q) : list nat := List.length ys :: (shape x ++ [2%nat])%list.

(** fieldtracer.py:438-455; the file is written before the shape is checked *)
Definition cached_follow (tracer : nda -> nda -> list Q -> res nda) (fs : files) (x z : nda) (ys : list Q) : res nda * files :=
  let fn := key x z ys in
  match find_file fn fs with
  | Some d => (reshape (guess_shape x ys) d, fs)
  | None =>
    match tracer x z ys with
    | Err e => (Err e, fs)
    | Ok ret => (if shape_eqb (shape ret) (guess_shape x ys) then Ok ret else Err AssertionError, (fn, data ret) :: fs)
    end
  end.
End Caching.

(** ** FieldTracerWeb (fieldtracer.py:465-711) *)
Section Web.
(** self._follow_field_lines on one chunk: one row of x, z values for each y *)
Variable trace : list Q -> list Q -> list Q -> list (list Q).
(** does attempt [a] for chunk [j] fail or time out? *)
Variable fails : nat -> nat -> bool.

(** x_values[i : i + chunk] for i in range(0, len(x_values), chunk) *)
Fixpoint chunks_from (n : nat) (chunk : nat) (l : list Q) : list (list Q) :=
  match n with O => [] | S n => match l with [] => [] | _ => firstn chunk l :: chunks_from n chunk (skipn chunk l) end end.
Definition chunks (chunk : nat) (l : list Q) : list (list Q) := chunks_from (length l) chunk l.

(** fieldtracer.py:623-636 for chunk [j], attempt [a]: the remaining retries, or
    the exception of the last attempt *)
Fixpoint get_chunk (j a retry : nat) : res nat :=
  match retry with
  | O => Err ValueError
  | S r => if fails j a then (match r with O => Err OtherError | _ => get_chunk j (S a) r end) else Ok retry
  end.
(** fieldtracer.py:608-660; [pooled]: self.config is None and there are more
    points than [chunk].  Without retries left the pending results of the pool are
    passed to np.concatenate: ValueError, as for no chunks at all.  Without the
    pool the first failure is raised. *)
Definition web_rows (pooled : bool) (chunk retry : nat) (xs zs ys : list Q) : res (list (list Q)) :=
  let cs := combine (chunks chunk xs) (chunks chunk zs) in
  let* _ := (if pooled then foldM (fun retry j => get_chunk j 0 retry) (seq 0 (length cs)) retry
             else foldM (fun retry j => if fails j 0%nat then Err OtherError else Ok retry) (seq 0 (length cs)) retry) in
  match cs with
  | [] => Err ValueError
  | _ => Ok (concat_axis1 (length ys) (map (fun c => trace (fst c) (snd c) ys) cs))
  end.
(** fieldtracer.py:514-660; a z with more dimensions than x is not modelled *)
Definition web_follow (has_config : bool) (chunk retry : nat) (x z : nda) (ys : list Q) : res nda :=
  if (length ys <? 2)%nat then Err ValueError
  else
    let* (x, z) := match_shapes x z in
    let* rows := web_rows (negb has_config && (chunk <? size x)%nat) chunk retry (data x) (data z) ys in
    reshape (length ys :: shape x ++ [2%nat]) (concat rows).
End Web.
