(** Model of MapWriter, zoidberg/zoidberg.py:473-755, and write_maps 758-798.

    The grid file is a map from names to values.  Values are abstract: what the
    code asks of them is whether they are numpy arrays, whether all entries are
    finite, and slicing.  Methods are functions from the file to the file and a
    result, so that what was written before an exception stays written. *)
From Coq Require Import String List ZArith QArith Qabs Bool.
From Verif Require Import Prelude NamingModel.
Import ListNotations.
Open Scope string_scope.

(** Python dictionaries in insertion order. *)
Definition pdict (V : Type) := list (string * V).
Fixpoint dget {V} (d : pdict V) (k : string) : option V :=
  match d with
  | [] => None
  | (k', v) :: t => if String.eqb k k' then Some v else dget t k
  end.
Definition dmem {V} (d : pdict V) (k : string) : bool := match dget d k with Some _ => true | None => false end.
Fixpoint dput {V} (d : pdict V) (k : string) (v : V) : pdict V :=
  match d with
  | [] => [(k, v)]
  | (k', v') :: t => if String.eqb k k' then (k', v) :: t else (k', v') :: dput t k v
  end.
Definition dget_err {V} (d : pdict V) (k : string) : res V :=
  match dget d k with Some v => Ok v | None => Err KeyError end.

(** update_metric_names, zoidberg.py:411-429 *)
Definition posts : list string := [""; "_cell_ylow"; "_cell_yhigh"].
Definition name_table : list (string * string) :=
  flat_map (fun kv => map (fun post => (fst kv ++ post, snd kv ++ post)) posts)
    [("g_yy", "g_22"); ("gyy", "g22"); ("gxx", "g11"); ("gxz", "g13"); ("gzz", "g33");
     ("g_xx", "g_11"); ("g_xz", "g_13"); ("g_zz", "g_33")].
Definition rename (k : string) : string := match dget name_table k with Some k' => k' | None => k end.
Definition update_metric_names {V} (d : pdict V) : pdict V :=
  fold_left (fun acc kv => dput acc (rename (fst kv)) (snd kv)) d [].

Section Writer.
Variable V : Type.
Variable is_array finite : V -> bool.
(** [v[:, :, 0]] and [v[0, 0]] *)
Variable sub0 sub00 : V -> res V.
(** [(a / b) ** 2] *)
Variable ratio2 : V -> V -> V.
Variable of_int : Z -> V.

Definition file := string -> option V.
Definition fset (f : file) (k : string) (v : V) : file := fun k' => if String.eqb k' k then Some v else f k'.

(** Computations that write to the file and may raise. *)
Definition W (A : Type) := file -> file * res A.
Definition ret {A} (a : A) : W A := fun f => (f, Ok a).
Definition raise {A} (e : exn) : W A := fun f => (f, Err e).
Definition lift {A} (r : res A) : W A := fun f => (f, r).
Definition wbind {A B} (m : W A) (k : A -> W B) : W B :=
  fun f => match m f with (f', Ok a) => k a f' | (f', Err e) => (f', Err e) end.
Notation "'do' x <- m ; k" := (wbind m (fun x => k)) (at level 200, x pattern, m at level 100, k at level 200).

Definition fwrite (k : string) (v : V) : W unit := fun f => (fset f k v, Ok tt).

(** zoidberg.py:650-655 *)
Fixpoint write_items (d : pdict V) : W unit :=
  match d with
  | [] => ret tt
  | (k, v) :: t =>
    if (is_array v && negb (finite v))%bool then raise AssertionError
    else do _ <- fwrite k v; write_items t
  end.

(** zoidberg.py:641-645: [metric[key] = metric[key][:, :, 0]], TypeError ignored *)
Fixpoint squeeze (d : pdict V) : res (pdict V) :=
  match d with
  | [] => Ok []
  | (k, v) :: t =>
    let* v' := match sub0 v with Ok v' => Ok v' | Err TypeError => Ok v | Err e => Err e end in
    let* t' := squeeze t in Ok ((k, v') :: t')
  end.

(** zoidberg.py:631-655.  Returns the caller's dictionary after the call (it is
    modified in place by the 2D option). *)
Definition write_dict (metric2d is_open always3d : bool) (d : pdict V) : W (pdict V) :=
  if negb is_open then raise AssertionError
  else
    do d' <- (if (metric2d && negb always3d)%bool then
                do d1 <- lift (squeeze d);
                match dget d1 "dz" with
                | None => ret d1
                | Some v => do v' <- lift (sub00 v); ret (dput d1 "dz" v')
                end
              else ret d);
    do _ <- write_items d'; ret d'.

(** The object's attributes; grids and fields are abstract. *)
Variable Grid Field : Type.
Record wstate := { metric2d : bool; new_names : bool; is_open : bool; w_grid : option Grid; w_field : option Field }.

(** Oracles: R and Z of a grid (530-542), get_metric of the grid (602), its sizes,
    the field's attributes over the grid (619-629), and for each offset the metric of the
    parallel grid built from that offset's R, Z (674-690). *)
Variable grid_RZ : Grid -> res (V * V).
Variable grid_metric : Grid -> Field -> res (pdict V).
Variable grid_shape : Grid -> Z * Z * Z.
Variable field_attributes : Grid -> Field -> res (pdict V).
Variable par_metric : Grid -> Field -> pdict V -> Z -> res (pdict V).
Variable as_int : V -> option Z.
Variable repr : Q -> string.
Notation name k o := (parallel_slice_field_name repr k (OInt o)).

(** zoidberg.py:530-542, the file part *)
Definition add_grid (w : wstate) (g : Grid) : W wstate :=
  do RZ <- lift (grid_RZ g);
  do _ <- write_dict (metric2d w) (is_open w) true [("R", fst RZ); ("Z", snd RZ)];
  ret {| metric2d := metric2d w; new_names := new_names w; is_open := is_open w; w_grid := Some g; w_field := w_field w |}.

(** zoidberg.py:584-586 *)
Definition add_field (w : wstate) (fd : Field) : wstate :=
  {| metric2d := metric2d w; new_names := new_names w; is_open := is_open w; w_grid := w_grid w; w_field := Some fd |}.

(** zoidberg.py:604-614 *)
Definition full_metric (maps metric : pdict V) : res (pdict V) :=
  if dmem maps "Ly" then
    let* g_yy := dget_err metric "g_yy" in
    let* dy := dget_err metric "dy" in
    let* m := foldM (fun m post =>
        let* L := dget_err maps ("Ly" ++ post) in
        Ok (dput m ("g_yy" ++ post) (ratio2 L dy))) posts (dput metric "g_yy_old" g_yy) in
    let* L := dget_err maps "Ly" in
    Ok (dput m "g_yy_correct" (ratio2 L dy))
  else
    foldM (fun m post => let* g_yy := dget_err m "g_yy" in Ok (dput m ("g_yy" ++ post) g_yy))
      ["_cell_ylow"; "_cell_yhigh"] metric.

(** zoidberg.py:598-629.  [metric_done] is never set, so the early return is not taken. *)
Definition write_metric (w : wstate) (g : Grid) (fd : Field) (maps : pdict V) : W unit :=
  do m <- lift (grid_metric g fd);
  do m <- lift (full_metric maps m);
  do _ <- write_dict (metric2d w) (is_open w) false (if new_names w then m else update_metric_names m);
  do a <- lift (field_attributes g fd);
  do _ <- write_dict (metric2d w) (is_open w) true a;
  ret tt.

(** The offsets 1..nslice, -1..-nslice of zoidberg.py:668 and 714 *)
Definition offsets (nslice : Z) : list Z :=
  zrange 1 (nslice + 1) ++ map Z.opp (zrange 1 (nslice + 1)).

Fixpoint wmapM {A B} (f : A -> res B) (l : list A) : res (list B) :=
  match l with [] => Ok [] | a :: t => let* b := f a in let* r := wmapM f t in Ok (b :: r) end.

(** zoidberg.py:668-700, the file part *)
Fixpoint write_par (w : wstate) (g : Grid) (fd : Field) (keep : pdict V) (os : list Z) : W unit :=
  match os with
  | [] => ret tt
  | o :: t =>
    do m <- lift (par_metric g fd keep o);
    let m := if new_names w then m else update_metric_names m in
    do items <- lift (wmapM (fun kv => let* n := name (fst kv) o in Ok (n, snd kv)) m);
    do _ <- write_dict (metric2d w) (is_open w) true (fold_left (fun d kv => dput d (fst kv) (snd kv)) items []);
    write_par w g fd keep t
  end.

(** zoidberg.py:749-755 (the attributes are modelled in [final_attrs]) *)
Definition write_sizes (shape : Z * Z * Z) : W unit :=
  let '(nx, ny, nz) := shape in
  do _ <- fwrite "nx" (of_int nx); do _ <- fwrite "ny" (of_int ny); do _ <- fwrite "nz" (of_int nz);
  do _ <- fwrite "ixseps1" (of_int (nx + 1)); fwrite "ixseps2" (of_int (nx + 1)).

(** zoidberg.py:702-723.  Returns the caller's [maps] after the call. *)
Definition add_maps (w : wstate) (maps : pdict V) : W (pdict V) :=
  do maps <- (if dmem maps "Rxy" then ret maps
              else do R <- lift (dget_err maps "R"); ret (dput maps "Rxy" R));
  do maps <- write_dict (metric2d w) (is_open w) true maps;
  do v <- lift (dget_err maps "MYG");
  match as_int v with
  | None => raise TypeError
  | Some nslice =>
    do keep <- lift (wmapM (fun ok => let* n := name (snd ok) (fst ok) in
                                    let* v := dget_err maps n in Ok (n, v))
                           (flat_map (fun o => [(o, "R"); (o, "Z")]) (offsets nslice)));
    match w_field w with
    | None => raise AssertionError
    | Some fd =>
      match w_grid w with
      | None => raise AssertionError
      | Some g =>
        do _ <- write_metric w g fd maps;
        do _ <- write_par w g fd keep (offsets nslice);
        do _ <- write_sizes (grid_shape g);
        ret maps
      end
    end
  end.

(** zoidberg.py:796-798 *)
Definition write_maps (m2d nn : bool) (g : Grid) (fd : Field) (maps : pdict V) : W (pdict V) :=
  let w := {| metric2d := m2d; new_names := nn; is_open := true; w_grid := None; w_field := None |} in
  do w <- add_grid (add_field w fd) g;
  add_maps w maps.

(** Arbitrary use of a writer: a sequence of calls, each of which may raise and
    is followed by the next one all the same. *)
Inductive call :=
| CWriteDict (d : pdict V) (always3d : bool)
| CAddGrid (g : Grid) | CAddField (fd : Field) | CAddMaps (maps : pdict V)
| COpen | CClose.

Definition do_call (w : wstate) (c : call) (f : file) : wstate * file :=
  match c with
  | CWriteDict d a => (w, fst (write_dict (metric2d w) (is_open w) a d f))
  | CAddGrid g =>
    match add_grid w g f with
    | (f', Ok w') => (w', f')
    | (f', Err _) => ({| metric2d := metric2d w; new_names := new_names w; is_open := is_open w; w_grid := Some g; w_field := w_field w |}, f')
    end
  | CAddField fd => (add_field w fd, f)
  | CAddMaps m => (w, fst (add_maps w m f))
  | COpen => ({| metric2d := metric2d w; new_names := new_names w; is_open := true; w_grid := w_grid w; w_field := w_field w |}, f)
  | CClose => ({| metric2d := metric2d w; new_names := new_names w; is_open := false; w_grid := w_grid w; w_field := w_field w |}, f)
  end.

Fixpoint do_calls (w : wstate) (cs : list call) (f : file) : wstate * file :=
  match cs with
  | [] => (w, f)
  | c :: t => let '(w', f') := do_call w c f in do_calls w' t f'
  end.
End Writer.

(** ** Provenance attributes: MapWriter._final, zoidberg.py:725-747 *)

(** The while loop of 740-743; [fuel] bounds its turns. *)
Fixpoint fresh_loop (fuel : nat) (old : list string) (k : string) (oldattr : string) (j : N) : option string :=
  match fuel with
  | O => None
  | S fuel' => if existsb (String.eqb oldattr) old
               then fresh_loop fuel' old k ("old" ++ dec j ++ "_" ++ k) (N.succ j)
               else Some oldattr
  end.

(** [attrs] with update: the list of (name, value) written in order.  [None] if
    the search for a free name did not end within the fuel (two more turns than there are attributes). *)
Definition final_keys : list string := ["title"; "software_name"; "software_version"; "id"; "grid_id"].
Fixpoint old_items (attrs : pdict string) (ks : list string) : option (pdict string) :=
  match ks with
  | [] => Some []
  | k :: t =>
    match dget attrs k with
    | Some v =>
      match fresh_loop (length attrs + 2) (map fst attrs) k ("old_" ++ k) 0 with
      | Some n => match old_items attrs t with Some r => Some ((n, v) :: r) | None => None end
      | None => None
      end
    | None => old_items attrs t
    end
  end.
Definition final_attrs (update : bool) (values : string -> string) (attrs : pdict string) : option (pdict string) :=
  let new := map (fun k => (k, values k)) final_keys in
  match (if update then old_items attrs final_keys else Some []) with
  | Some olds => Some (fold_left (fun a kv => dput a (fst kv) (snd kv)) (new ++ olds) attrs)
  | None => None
  end.

(** ** y positions of the parallel slices: _write_par_metric, zoidberg.py:657-676 *)
Open Scope Q_scope.

(** np.isclose(a, b) with the default tolerances *)
Definition isclose (a b : Q) : bool := Qle_bool (Qabs (a - b)) ((1#100000000) + (1#100000) * Qabs b).

(** np.mean(np.diff(l)) for at least two entries; its sum telescopes exactly *)
Definition mean_diff (l : list Q) : Q :=
  (last l 0 - hd 0 l) / inject_Z (Z.of_nat (length l) - 1).

(** np.roll(l, -o) *)
Definition roll (l : list Q) (o : Z) : list Q :=
  map (fun i => nth (Z.to_nat ((Z.of_nat i + o) mod Z.of_nat (length l))) l 0) (seq 0 (length l)).

Definition qsign (q : Q) : Q := if Qlt_bool 0 q then 1 else if Qlt_bool q 0 then -(1) else 0.

(** zoidberg.py:671-673, from the second entry on; [prev] is the (updated) previous entry *)
Fixpoint unwrap (meandy L prev : Q) (l : list Q) : list Q :=
  match l with
  | [] => []
  | y :: t =>
    let y' := if Qlt_bool (meandy * (y - prev)) 0 then y + qsign meandy * L else y in
    y' :: unwrap meandy L y' t
  end.

(** zoidberg.py:658-677 with a grid given *)
Definition par_ycoords (ypar : list Q) (Ly : Q) (yperiodic : bool) (o : Z) : res (list Q) :=
  let n := length ypar in
  let meandy := mean_diff ypar in
  if (Nat.ltb 1 n && negb (isclose Ly (meandy * inject_Z (Z.of_nat n))))%bool then Err AssertionError
  else
    let p := roll ypar o in
    if yperiodic then
      let p' := match p with [] => [] | y :: t => y :: unwrap meandy Ly y t end in
      if (Nat.ltb 1 n && negb (isclose (mean_diff p') meandy))%bool then Err AssertionError else Ok p'
    else Ok p.

(** ** Resumable DAGP generation: MapWriter.add_dagp, zoidberg.py:557-582 *)
Section Dagp.
(** Contents of one poloidal slice of a variable; [fill] is what the file holds
    where nothing has been written yet (netCDF's fill value). *)
Variable S : Type.
Variable fill : S.

(** Progress counter (None: the variable does not exist) and the variables. *)
Record dfile := { prog : option Z; var : string -> option (nat -> S) }.

(** What add_dagp does to the file, step by step. *)
Inductive action :=
| Compute (ind : nat)                       (* dagp = doit([pol]), no file access *)
| CreateProg | SetProg (n : Z)              (* 569-570, 582 *)
| Create (k : string)                       (* 564, createVariable *)
| Put (k : string) (ind : nat) (v : S).     (* 581 *)

(** Fill value of an int32 netCDF variable. *)
Definition fill_int : Z := -2147483647.

Definition step (f : dfile) (a : action) : dfile :=
  match a with
  | Compute _ => f
  | CreateProg => {| prog := Some fill_int; var := var f |}
  | SetProg n => {| prog := Some n; var := var f |}
  | Create k => {| prog := prog f; var := fun k' => if String.eqb k' k then Some (fun _ => fill) else var f k' |}
  | Put k ind v =>
    {| prog := prog f;
       var := fun k' => if String.eqb k' k
                        then match var f k with
                             | Some c => Some (fun i => if Nat.eqb i ind then v else c i)
                             | None => None
                             end
                        else var f k' |}
  end.
Definition steps (f : dfile) (l : list action) : dfile := fold_left step l f.

(** doit([pol]) for slice number [ind]: the variables and their contents. *)
Variable doit : nat -> list (string * S).

(** zoidberg.py:577-581: getHandle creates a missing variable. *)
Fixpoint put_actions (f : dfile) (ind : nat) (d : list (string * S)) : list action :=
  match d with
  | [] => []
  | (k, v) :: t =>
    let acts := match var f k with Some _ => [Put k ind v] | None => [Create k; Put k ind v] end in
    acts ++ put_actions (steps f acts) ind t
  end.

Definition progress (f : dfile) : Z := match prog f with Some p => p | None => fill_int end.

(** zoidberg.py:572-582 *)
Fixpoint loop_actions (f : dfile) (inds : list nat) : list action :=
  match inds with
  | [] => []
  | ind :: t =>
    if (Z.of_nat ind <? progress f)%Z then loop_actions f t
    else
      let acts := Compute ind :: put_actions f ind (doit ind) ++ [SetProg (Z.of_nat ind + 1)] in
      acts ++ loop_actions (steps f acts) t
  end.

(** zoidberg.py:569-582 for [n] poloidal grids: everything one undisturbed call does. *)
Definition dagp_actions (n : nat) (f : dfile) : list action :=
  let init := match prog f with Some _ => [] | None => [CreateProg; SetProg 0] end in
  init ++ loop_actions (steps f init) (seq 0 n).
Definition dagp_run (n : nat) (f : dfile) : dfile := steps f (dagp_actions n f).
End Dagp.
Arguments Build_dfile {S}. Arguments prog {S}. Arguments var {S}. Arguments progress {S}.
Arguments Compute {S}. Arguments CreateProg {S}. Arguments SetProg {S}. Arguments Create {S}. Arguments Put {S}.
