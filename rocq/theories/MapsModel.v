(** Model of make_maps, zoidberg/zoidberg.py:57-408.

    Oracles (section variables): the poloidal grids' coordinates and index
    search, the field line tracer, the boundary test, the field's By, the
    quadrature rule, field_line_length and the square root in the perpendicular
    Jacobian.  Arrays over a poloidal plane are functions of (x, z); arrays in
    the result dictionary are functions of (x, y, z, s), the last index being
    used by the sub-sample arrays only.  Progress output is left out. *)
From Coq Require Import String List ZArith QArith Qabs Qround Bool.
From Verif Require Import Prelude NamingModel GridModel.
Import ListNotations.
Open Scope Q_scope.

Definition arr2 := Z -> Z -> Q.
Definition arr4 := Z -> Z -> Z -> Z -> Q.

(** Values in the result dictionary. *)
Inductive val := VArr (a : arr4) | VInt (n : Z) | VList (l : list Q).
Definition dict := string -> option val.

Definition dset (d : dict) (k : string) (v : val) : dict :=
  fun k' => if String.eqb k' k then Some v else d k'.

(** In-place update of the array stored under [k]. *)
Definition dmod (d : dict) (k : string) (f : arr4 -> arr4) : res dict :=
  match d k with
  | Some (VArr a) => Ok (dset d k (VArr (f a)))
  | Some _ => Err TypeError
  | None => Err KeyError
  end.

(** [a[:, j, :] = v] *)
Definition set3 (j : Z) (v : arr2) (a : arr4) : arr4 :=
  fun x y z s => if Z.eqb y j then v x z else a x y z s.
(** [a[:, j, :, s] = v] *)
Definition set4 (j s : Z) (v : arr2) (a : arr4) : arr4 :=
  fun x y z s' => if (Z.eqb y j && Z.eqb s' s)%bool then v x z else a x y z s'.

Definition zeros : arr4 := fun _ _ _ _ => 0.
Definition const2 (q : Q) : arr2 := fun _ _ => q.

Fixpoint mapM {A B} (f : A -> res B) (l : list A) : res (list B) :=
  match l with
  | [] => Ok []
  | a :: l' => let* b := f a in let* bs := mapM f l' in Ok (b :: bs)
  end.

(** [xind[mask] = -1] *)
Definition mask_out (m : Z -> Z -> bool) (v : arr2) : arr2 :=
  fun x z => if m x z then -(1) else v x z.

(** Python's [sub in s] on strings. *)
Definition contains (sub s : string) : bool :=
  match String.index 0 sub s with Some _ => true | None => false end.

(** numpy.linspace(a, b, n + 1) *)
Definition linspace (a b : Q) (n : nat) : list Q :=
  map (fun i => a + inject_Z (Z.of_nat i) * ((b - a) / inject_Z (Z.of_nat n))) (seq 0 (n + 1)).

(** Python slice [l[lo:hi]] with [lo >= 0] and possibly negative or missing [hi]. *)
Definition pyslice {A} (lo : nat) (hi : option Z) (l : list A) : list A :=
  let n := Z.of_nat (length l) in
  let stop := match hi with
              | None => n
              | Some h => if (h <? 0)%Z then Z.max 0 (n + h) else Z.min h n
              end in
  firstn (Z.to_nat stop - lo) (skipn lo l).

(** numpy.array_split(np.arange(0, nx), n): the first [nx mod n] parts have one
    element more; n = 0 raises ValueError. *)
Definition section_sizes (nx n : nat) : list nat :=
  repeat (nx / n + 1)%nat (nx mod n) ++ repeat (nx / n)%nat (n - nx mod n).
Fixpoint cut (lo : nat) (sizes : list nat) : list (list nat) :=
  match sizes with
  | [] => []
  | s :: t => seq lo s :: cut (lo + s) t
  end.
Definition array_split (nx n : nat) : res (list (list nat)) :=
  if Nat.eqb n 0 then Err ValueError else Ok (cut 0 (section_sizes nx n)).

(** The helper namedtuple, zoidberg.py:162-165.  The arrays are shared with the
    result dictionary (186-195), so the model keeps the dictionary keys. *)
Record pslice := { ps_off : offset; kR : string; kZ : string; kxt : string; kzt : string;
                   kxts : string; kzts : string }.

Section MakeMaps.
Variable float_repr : Q -> string.
Variable G : Type.
Variable pR pZ : G -> arr2.
Variable pnx pnz : G -> nat.
(** pol_slice.findIndex(R, Z) on whole planes *)
Variable findIndex : G -> arr2 -> arr2 -> arr2 * arr2.
(** field_tracer.follow_field_lines(R, Z, y_values): one (R, Z) plane per y value *)
Variable trace : arr2 -> arr2 -> list Q -> list (arr2 * arr2).
(** magnetic_field.boundary.outside(x, y, z) *)
Variable outside : arr2 -> Q -> arr2 -> Z -> Z -> bool.
(** magnetic_field.Byfunc(x, z, y) *)
Variable Byfunc : Q -> Q -> Q -> Q.
(** scipy.special.roots_jacobi(n, 0, 0): nodes and weights *)
Variable roots_jacobi : nat -> list Q * list Q.
(** diff.field_line_length along one field line *)
Variable field_line_length : list (Q * Q) -> list Q -> Q.
(** sqrt(g_xx g_zz - g_xz^2) of a poloidal grid, per cell *)
Variable Jperp : G -> Z -> Z -> Q.
(** isinstance(magnetic_field, Slab) *)
Variable is_slab : bool.

Notation name := (parallel_slice_field_name float_repr).
Open Scope string_scope.

(** zoidberg.py:177-195: create the arrays of one offset and the helper tuple. *)
Definition mk_pslice (d : dict) (o : offset) : res (dict * pslice) :=
  let* nR := name "R" o in
  let* nZ := name "Z" o in
  let* nx := name "xt_prime" o in
  let* nz := name "zt_prime" o in
  let* nxs := name "xt_primes" o in
  let* nzs := name "zt_primes" o in
  let d' := fold_left (fun d k => dset d k (VArr zeros)) [nR; nZ; nx; nz; nxs; nzs] d in
  Ok (d', {| ps_off := o; kR := nR; kZ := nZ; kxt := nx; kzt := nz; kxts := nxs; kzts := nzs |}).

(** The offsets of one direction, zoidberg.py:174-175. *)
Definition dir_offsets (nslice : Z) (dir : Z) : list offset :=
  OFloat ((1#2) * inject_Z dir) :: map (fun k => OInt (k * dir)) (zrange 1 (nslice + 1)).

Definition mk_pslices (d : dict) (os : list offset) : res (dict * list pslice) :=
  foldM (fun st o => let* r := mk_pslice (fst st) o in Ok (fst r, (snd st ++ [snd r])%list)) os (d, []).

Section Loop.
Variable g : grid G.

(** zoidberg.py:225-255: store one slice.  [y_slice] is the variable left over
    from the loop at 216-219, i.e. the y of the *last* slice of this direction.
    The state carries the values the loop variables have after the loop. *)
Definition store_one (y_slice : Q) (j : Z) (st : dict * option (pslice * option G * arr2 * arr2))
    (item : pslice * (arr2 * arr2) * option G) : res (dict * option (pslice * option G * arr2 * arr2)) :=
  let d := fst st in
  let '(ps, coord, pol_slice) := item in
  let* d := dmod d (kR ps) (set3 j (fst coord)) in
  let* d := dmod d (kZ ps) (set3 j (snd coord)) in
  let ind :=
    match pol_slice with
    | None => (const2 (-(1)), const2 (-(1)))
    | Some p =>
      let ind := findIndex p (fst coord) (snd coord) in
      let out := outside (fst coord) y_slice (snd coord) in
      (mask_out out (fst ind), mask_out out (snd ind))
    end in
  let* d := dmod d (kxt ps) (set3 j (fst ind)) in
  let* d := dmod d (kzt ps) (set3 j (snd ind)) in
  Ok (d, Some (ps, pol_slice, fst ind, snd ind)).

(** scipy.interpolate.RegularGridInterpolator over (0..nx-1, -1..nz) on the
    array wrapped around in z (zoidberg.py:271-282): bilinear, extrapolating
    with the outermost cell. *)
Definition clipZ (lo hi v : Z) : Z := Z.max lo (Z.min hi v).
Definition bilinear (nx nz : nat) (a : arr2) (x z : Q) : Q :=
  let i := clipZ 0 (Z.of_nat nx - 2) (Qfloor x) in
  let k := clipZ (-1) (Z.of_nat nz - 1) (Qfloor z) in
  let fx := x - inject_Z i in
  let fz := z - inject_Z k in
  let w z := (z mod Z.of_nat nz)%Z in
  (1 - fx) * (1 - fz) * a i (w k) + fx * (1 - fz) * a (i + 1)%Z (w k)
  + (1 - fx) * fz * a i (w (k + 1)%Z) + fx * fz * a (i + 1)%Z (w (k + 1)%Z).

(** Start positions of a sub-sample, zoidberg.py:289-291. *)
Definition sub_R (p : G) (xo zo : Q) : arr2 :=
  fun x z => bilinear (pnx p) (pnz p) (pR p) (inject_Z x + xo) (inject_Z z).
Definition sub_Z (p : G) (xo zo : Q) : arr2 :=
  fun x z => bilinear (pnx p) (pnz p) (pZ p) (inject_Z x + zo) (inject_Z z).

(** zoidberg.py:288-308, one sub-sample *)
Definition store_sub (p pol_slice : G) (ps : pslice) (ycoord y_slice : Q) (j : Z) (d : dict)
    (item : Z * (Q * Q)) : res dict :=
  let '(s, (xo, zo)) := item in
  match nth_error (trace (sub_R p xo zo) (sub_Z p xo zo) [ycoord; y_slice]) 1 with
  | None => Err IndexError
  | Some coord =>
    let ind := findIndex pol_slice (fst coord) (snd coord) in
    let out := outside (fst coord) y_slice (snd coord) in
    let* d := dmod d (kxts ps) (set4 j s (mask_out out (fst ind))) in
    dmod d (kzts ps) (set4 j s (mask_out out (snd ind)))
  end.

(** Sub-sampling set-up, zoidberg.py:121-148: [nsamples], the offsets (unbound
    unless samples_per_dim > 1) and the weights. *)
Definition outer {A B C} (f : A -> B -> C) (l1 : list A) (l2 : list B) : list C :=
  flat_map (fun a => map (f a) l2) l1.
Definition subcell_offsets (spd : Z) : option (list (Q * Q)) :=
  if (1 <? spd)%Z then
    let xs := map (fun x => x * (1#2)) (fst (roots_jacobi (Z.to_nat spd))) in
    Some (outer pair xs xs)
  else None.
Definition subcell_weights (spd : Z) : list Q :=
  if (1 <? spd)%Z then
    let ws := map (fun w => w * (1#2)) (snd (roots_jacobi (Z.to_nat spd))) in
    outer Qmult ws ws
  else [1].
(** The assertion np.isclose(np.sum(ws), 1.0), zoidberg.py:138 *)
Definition weights_accepted (spd : Z) : bool :=
  if (1 <? spd)%Z then
    Qle_bool (Qabs (qsum (map (fun w => w * (1#2)) (snd (roots_jacobi (Z.to_nat spd)))) - 1))
             ((1#100000000) + (1#100000))
  else true.
Definition nsamples (spd : Z) : Z := (spd * spd)%Z.

(** zoidberg.py:257-308: the sub-sample arrays of the slice left over from the loop. *)
Definition subsample (spd : Z) (pol : G) (ycoord y_slice : Q) (j : Z)
    (last : pslice * option G * arr2 * arr2) (d : dict) : res dict :=
  let '(ps, pol_slice, xind, zind) := last in
  if (nsamples spd =? 1)%Z then
    let* d := dmod d (kxts ps) (set4 j 0 xind) in
    dmod d (kzts ps) (set4 j 0 zind)
  else match pol_slice with
  | None =>
    let* d := dmod d (kxts ps) (set3 j (const2 (-(1)))) in
    dmod d (kzts ps) (set3 j (const2 (-(1))))
  | Some p' =>
    match subcell_offsets spd with
    | None => Err NameError
    | Some offs =>
      foldM (store_sub pol p' ps ycoord y_slice j)
            (combine (zrange 0 (nsamples spd)) offs) d
    end
  end.

(** zoidberg.py:207-308: one direction, one y index. *)
Definition trace_step (spd : Z) (pss : list pslice) (d : dict) (j : Z) : res dict :=
  let* py := getPoloidalGrid g (inject_Z j) in
  match fst py with
  | None => Err TypeError
  | Some pol =>
    let ycoord := snd py in
    let* pys := mapM (fun ps => getPoloidalGrid g (inject_Z j + offset_value (ps_off ps))) pss in
    let coords := skipn 1 (trace (pR pol) (pZ pol) (ycoord :: map snd pys)) in
    let y_slice := last (map snd pys) ycoord in
    let* st := foldM (store_one y_slice j) (combine (combine pss coords) (map fst pys)) (d, None) in
    match snd st with
    | None => Err NameError
    | Some l => subsample spd pol ycoord y_slice j l (fst st)
    end
  end.

(** zoidberg.py:206-208: both directions, all y. *)
Definition trace_all (spd : Z) (psss : list (list pslice)) (d : dict) : res dict :=
  foldM (fun d pss => foldM (trace_step spd pss) (zrange 0 (ny g)) d) psss d.

(** zoidberg.py:309-311 *)
Definition drop_half_maps (d : dict) : dict :=
  fun k => if (contains "_cell_y" k && contains "t_prime" k)%bool then None else d k.

(** zoidberg.py:110-115 *)
Definition gather_RZ : res (arr4 * arr4) :=
  foldM (fun st j =>
      let* py := getPoloidalGrid g (inject_Z j) in
      match fst py with
      | None => Err TypeError
      | Some p => Ok (set3 j (pR p) (fst st), set3 j (pZ p) (snd st))
      end) (zrange 0 (ny g)) (zeros, zeros).

(** ** The parallel integrals, zoidberg.py:322-400 *)

Record jstate := { s_J : arr4; s_sg : nat -> arr4; s_B : nat -> arr4 }.

(** [a[chunk, j, :] = v] where row [i] of [v] goes to x = chunk[i] *)
Fixpoint index_of (x : nat) (l : list nat) : option nat :=
  match l with
  | [] => None
  | a :: t => if Nat.eqb a x then Some O else option_map S (index_of x t)
  end.
Definition set_chunk (chunk : list nat) (j : Z) (v : arr2) (a : arr4) : arr4 :=
  fun x y z s =>
    if (Z.eqb y j && (0 <=? x)%Z)%bool then
      match index_of (Z.to_nat x) chunk with
      | Some i => v (Z.of_nat i) z
      | None => a x y z s
      end
    else a x y z s.
(** [a[chunk]] *)
Definition take_chunk (chunk : list nat) (a : arr2) : arr2 :=
  fun i z => a (Z.of_nat (nth (Z.to_nat i) chunk 0%nat)) z.

Definition upd {A} (k : nat) (v : A) (f : nat -> A) : nat -> A := fun i => if Nat.eqb i k then v else f i.

(** One field line of a traced chunk: the list of its (R, Z) points. *)
Definition line (coords : list (arr2 * arr2)) (i z : Z) : list (Q * Q) :=
  map (fun c => (fst c i z, snd c i z)) coords.

(** zoidberg.py:333-353: points and y of the chunk's lines through both neighbours *)
Definition chunk_lines (refine : nat) (pol : G) (ycoord : Q) (j : Z) (chunk : list nat)
    : res (list (arr2 * arr2) * list Q) :=
  let* pm := getPoloidalGrid g (inject_Z j + inject_Z (-1)) in
  let ym := linspace ycoord (snd pm) (2 * refine) in
  let tm := trace (take_chunk chunk (pR pol)) (take_chunk chunk (pZ pol)) ym in
  let* pp := getPoloidalGrid g (inject_Z j + inject_Z 1) in
  let yp := linspace ycoord (snd pp) (2 * refine) in
  let tp := trace (take_chunk chunk (pR pol)) (take_chunk chunk (pZ pol)) yp in
  Ok (rev tm ++ skipn 1 tp, rev ym ++ skipn 1 yp)%list.

(** zoidberg.py:355-361: integration windows *)
Definition window {A} (refine k : nat) (l : list A) : list A :=
  pyslice (refine * k)
    (if Nat.ltb k 2 then Some (- (Z.of_nat refine * (2 - Z.of_nat k)))%Z else None) l.

(** zoidberg.py:376-379 *)
Definition trapezoid_factors (n : nat) : list Q := set_nth (n - 1) (1#2) (set_nth 0 (1#2) (repeat 1 n)).

(** zoidberg.py:390-398 for one field line: [Bs] along it and its points *)
Definition line_J (Jp : Q) (Bs : list Q) (Rs : list Q) (facs : list Q) : Q :=
  let B0 := nth (length Bs / 2) Bs 0 in
  qsum (map (fun t => Jp * B0 / fst (fst t) * snd (fst t) * snd t) (combine (combine Bs facs) Rs))
  / inject_Z (Z.of_nat (length Bs) - 1).

(** zoidberg.py:328-399, one chunk *)
Definition J_chunk (refine : nat) (pol : G) (ycoord : Q) (j : Z) (st : jstate) (chunk : list nat) : res jstate :=
  let* cy := chunk_lines refine pol ycoord j chunk in
  let coords := fst cy in
  let y_all := snd cy in
  let sg := fold_left (fun sg k =>
      upd k (set_chunk chunk j (fun i z => field_line_length (line (window refine k coords) i z) (window refine k y_all)) (sg k)) sg)
    (seq 0 3) (s_sg st) in
  let coords := pyslice refine (Some (- Z.of_nat refine)%Z) coords in
  let y_all := pyslice refine (Some (- Z.of_nat refine)%Z) y_all in
  let Bs := map (fun cy i z => Byfunc (fst (fst cy) i z) (snd (fst cy) i z) (snd cy)) (combine coords y_all) in
  match nth_error Bs 0, nth_error Bs refine, nth_error Bs (length Bs - 1) with
  | Some B0, Some B1, Some B2 =>
    let B := upd 2 (set_chunk chunk j B2 (s_B st 2%nat))
            (upd 1 (set_chunk chunk j B1 (s_B st 1%nat))
            (upd 0 (set_chunk chunk j B0 (s_B st 0%nat)) (s_B st))) in
    if Nat.eqb (length y_all) (2 * refine + 1) then
      let facs := trapezoid_factors (2 * refine + 1) in
      let J := fun i z => line_J (take_chunk chunk (Jperp pol) i z)
                 (map (fun b : arr2 => b i z) Bs) (map (fun c : arr2 * arr2 => fst c i z) coords) facs in
      Ok {| s_J := set_chunk chunk j J (s_J st); s_sg := sg; s_B := B |}
    else Err AssertionError
  | _, _, _ => Err IndexError
  end.

(** zoidberg.py:326-400.  [junk] is the uninitialised content of np.empty. *)
Definition J_loop (refine n_chunks nx : nat) (junk : jstate) : res jstate :=
  foldM (fun st j =>
      let* chunks := array_split nx n_chunks in
      let* py := getPoloidalGrid g (inject_Z j) in
      match fst py with
      | None => Err TypeError
      | Some pol => foldM (J_chunk refine pol (snd py) j) chunks st
      end) (zrange 0 (ny g)) junk.

(** zoidberg.py:402-407 *)
Definition add_J (st : jstate) (d : dict) : dict :=
  let d := if is_slab then d else
      dset (dset (dset (dset d "J" (VArr (s_J st)))
        "Ly_cell_ylow" (VArr (s_sg st 0%nat))) "Ly" (VArr (s_sg st 1%nat))) "Ly_cell_yhigh" (VArr (s_sg st 2%nat)) in
  dset (dset (dset d "By_cell_ylow" (VArr (s_B st 0%nat))) "By" (VArr (s_B st 1%nat))) "By_cell_yhigh" (VArr (s_B st 2%nat)).

(** zoidberg.py:57-408 *)
Definition make_maps (nslice mxg spd : Z) (refine n_chunks : nat) (junk : jstate) : res dict :=
  let* p0 := getPoloidalGrid g 0 in
  match fst p0 with
  | None => Err TypeError
  | Some pol0 =>
    let* RZ := gather_RZ in
    if negb (weights_accepted spd) then Err AssertionError else
    let d0 : dict := fun _ => None in
    let d := dset (dset (dset (dset (dset d0 "R" (VArr (fst RZ))) "Z" (VArr (snd RZ)))
               "MXG" (VInt mxg)) "MYG" (VInt nslice)) "subcell_weights" (VList (subcell_weights spd)) in
    let* f := mk_pslices d (dir_offsets nslice 1) in
    let* b := mk_pslices (fst f) (dir_offsets nslice (-1)) in
    let* d := trace_all spd [snd f; snd b] (fst b) in
    let d := drop_half_maps d in
    let* st := J_loop refine n_chunks (pnx pol0) junk in
    Ok (add_J st d)
  end.

End Loop.
End MakeMaps.
