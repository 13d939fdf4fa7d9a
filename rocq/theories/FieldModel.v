(** field.py, the parts that need only field operations and comparisons.
    Floats are exact rationals; a magnetic field is given by its component functions,
    which numpy applies to arrays point by point (and which are oracles here: the
    classes below put in their own).  The parts of field.py built on trigonometric
    functions and derivatives are in FieldReal.v. *)
From Coq Require Import String List ZArith QArith Qabs Qminmax Bool.
From Verif Require Import Prelude SmoothModel DiffModel.
Import ListNotations.
Open Scope Q_scope.

(** A magnetic field: Bxfunc, Byfunc, Bzfunc, Bxyzfunc if the class has it, and
    Rfunc, which is None in Cartesian coordinates (field.py:58-124). *)
Record field := {
  Bxfunc : Q -> Q -> Q -> Q; Byfunc : Q -> Q -> Q -> Q; Bzfunc : Q -> Q -> Q -> Q;
  Bxyzfunc : option (Q -> Q -> Q -> Q * Q * Q);
  Rfunc : option (Q -> Q -> Q -> Q) }.

(** numpy.amin: ValueError on an empty array *)
Fixpoint amin (l : list Q) : res Q :=
  match l with
  | [] => Err ValueError
  | [a] => Ok a
  | a :: l' => let* m := amin l' in Ok (Qmin a m)
  end.

(** field_direction (field.py:164-227), from the point where x and z are known.
    Simplified: x and z of different lengths are an error (numpy would stretch a
    length of one). *)
Definition direction (f : field) (x z : list Q) (y : Q) : res (list Q * list Q) :=
  if negb (length x =? length z)%nat then Err ValueError
  else
    let pts := combine x z in
    let B := match Bxyzfunc f with
             | Some b => map (fun p => b (fst p) (snd p) y) pts
             | None => map (fun p => (Bxfunc f (fst p) (snd p) y, Byfunc f (fst p) (snd p) y, Bzfunc f (fst p) (snd p) y)) pts
             end in
    let Bx := map (fun b => fst (fst b)) B in
    let By := map (fun b => snd (fst b)) B in
    let Bz := map snd B in
    let Rmaj := match Rfunc f with
                | Some r => map (fun p => r (fst p) (snd p) y) pts
                | None => map (fun _ => 1) pts
                end in
    let* m := amin (map Qabs By) in
    if Qlt_bool m (1 # 100000000) then Err ValueError
    else
      let R_By := map (fun p => fst p / snd p) (combine Rmaj By) in
      Ok (map (fun p => fst p * snd p) (combine R_By Bx), map (fun p => fst p * snd p) (combine R_By Bz)).

(** [pos.reshape((-1, 2))]: an even number of values, taken two by two *)
Fixpoint two_by_two (l : list Q) : list (Q * Q) :=
  match l with x :: z :: l' => (x, z) :: two_by_two l' | _ => [] end.
(** [np.column_stack((a, b)).flatten()] *)
Definition interleave (a b : list Q) : list Q := flat_map (fun p => [fst p; snd p]) (combine a b).

(** field_direction with flatten=True (field.py:188-194, 222-223) *)
Definition field_direction_flat (f : field) (pos : list Q) (y : Q) : res (list Q) :=
  if negb (Nat.even (length pos)) then Err AssertionError
  else
    let position := two_by_two pos in
    let* d := direction f (map fst position) (map snd position) y in
    Ok (interleave (fst d) (snd d)).
(** and with flatten=False (field.py:196, 225): [x, z = pos] wants two arrays *)
Definition field_direction_pair (f : field) (pos : list (list Q)) (y : Q) : res (list (list Q)) :=
  if negb (Nat.even (length pos)) then Err AssertionError
  else match pos with
       | [x; z] => let* d := direction f x z y in Ok [fst d; snd d]
       | _ => Err ValueError
       end.

(** Slab (field.py:250-268) and CurvedSlab (field.py:297-319) *)
Definition slab (By Bz xcentre Bzprime : Q) : field :=
  {| Bxfunc := fun _ _ _ => 0; Byfunc := fun _ _ _ => By; Bzfunc := fun x _ _ => Bz + (x - xcentre) * Bzprime;
     Bxyzfunc := None; Rfunc := None |}.
Definition curved_slab (By Bz xcentre Bzprime Rmaj : Q) : field :=
  {| Bxfunc := fun _ _ _ => 0; Byfunc := fun _ _ _ => By; Bzfunc := fun x _ _ => Bz + (x - xcentre) * Bzprime;
     Bxyzfunc := None; Rfunc := Some (fun _ _ _ => Rmaj) |}.

(** * The dictionary of attributes *)

(** A dictionary from names to functions of x, z and phi, in insertion order. *)
Notation dict := (list (string * (Q -> Q -> Q -> Q))).
(** [d[k] = v] *)
Fixpoint dict_set (d : dict) (k : string) (v : Q -> Q -> Q -> Q) : dict :=
  match d with
  | [] => [(k, v)]
  | (k', v') :: d' => if String.eqb k' k then (k', v) :: d' else (k', v') :: dict_set d' k v
  end.
Fixpoint dict_get (d : dict) (k : string) : option (Q -> Q -> Q -> Q) :=
  match d with
  | [] => None
  | (k', v) :: d' => if String.eqb k' k then Some v else dict_get d' k
  end.

(** What the constructors of the classes do to [attributes]: most leave it alone and
    so see the dictionary of the class MagneticField (field.py:56), some bind a new
    one to the object (field.py:1783, 1963), and GEQDSK enters its own psi_func into
    whatever [self.attributes] is, which is the one of the class (field.py:1262). *)
Inductive kind := Plain | OwnDict | Geqdsk (psi_func : Q -> Q -> Q).
(** The dictionary of the class, and per object the dictionary bound to it, if any. *)
Record world := { class_dict : dict; objects : list (option dict) }.
Definition start : world := {| class_dict := []; objects := [] |}.
Definition create (w : world) (k : kind) : world :=
  match k with
  | Plain => {| class_dict := class_dict w; objects := objects w ++ [None] |}
  | OwnDict => {| class_dict := class_dict w; objects := objects w ++ [Some []] |}
  | Geqdsk psi => {| class_dict := dict_set (class_dict w) "psi"%string (fun x z _ => psi x z); objects := objects w ++ [None] |}
  end.
(** [field.attributes] of the i-th object: the object's own, else the class's *)
Definition attributes (w : world) (i : nat) : option dict :=
  match nth_error (objects w) i with
  | Some (Some d) => Some d
  | Some None => Some (class_dict w)
  | None => None
  end.

(** * SmoothedMagneticField.smooth_field_line (field.py:1173-1207)
    The eight numbers are attributes of the object that no method of the class sets. *)
Record box := { xl_inner : Q; xl_outer : Q; xr_inner : Q; xr_outer : Q;
                zb_inner : Q; zb_outer : Q; zt_inner : Q; zt_outer : Q }.
Definition smooth_field_line (b : box) (xa za : Q) : Q :=
  let x_left := (xa - xl_inner b) / (xl_inner b - xl_outer b) + 1 in
  let x_right := (xa - xr_inner b) / (xr_inner b - xr_outer b) + 1 in
  let z_top := (za - zt_inner b) / (zt_inner b - zt_outer b) + 1 in
  let z_bottom := (za - zb_inner b) / (zb_inner b - zb_outer b) + 1 in
  let P :=
    if Qlt_bool xa (xl_inner b) then
      if Qlt_bool za (zb_inner b) then Qmin x_left z_bottom
      else if Qle_bool (zt_inner b) za then Qmin x_left z_top
      else x_left
    else if Qle_bool (xr_inner b) xa then
      if Qlt_bool za (zb_inner b) then Qmin x_right z_bottom
      else if Qle_bool (zt_inner b) za then Qmin x_right z_top
      else x_right
    else if Qlt_bool za (zb_inner b) then z_bottom
    else if Qlt_bool (zt_inner b) za then z_top
    else 1 in
  if Qlt_bool P 0 then 0 else P.

(** * VMEC.__rolling_average (field.py:926-931) on one row of the array: a row is one
    Fourier mode, along it runs the radial index, and all rows are treated alike. *)
Definition rolling_average (f : list Q) : res (list Q) :=
  let result := repeat 0 (length f) in
  let* f1 := getz f 1 in let* f2 := getz f 2 in
  let* result := setz result 0 (f1 - (1 # 2) * f2) in
  let* s := zip_with Qplus (slice_of f (Some 2%Z) (Some (-2)%Z)) (slice_of f (Some 3%Z) (Some (-1)%Z)) in
  let* result := set_slice result (Some 2%Z) (Some (-2)%Z) (map (fun v => (1 # 2) * v) s) in
  let* a := getz f (-2) in let* b := getz f (-3) in
  setz result (-1) (2 * a - b).

(** * The W7X services *)

(** The retry loop of _calc_chunk (field.py:1704-1724).  [call n] is what the n-th
    call of the service does; the result has the sleeps between the calls as well.
    [fuel] is the number of times round the loop. *)
Fixpoint service_loop {A} (fuel redo n : nat) (call : nat -> res A) (sleeps : list Q) : option (res A * nat * list Q) :=
  match fuel with
  | O => None
  | S fuel =>
    match call n with
    | Ok a => Some (Ok a, S n, sleeps)
    | Err e =>
      let redo := Nat.pred redo in
      if (redo =? 0)%nat then Some (Err e, S n, sleeps)
      else service_loop fuel redo (S n) call (sleeps ++ [(6 # 10) - (4 # 10) * inject_Z (Z.of_nat redo)])
    end
  end.
Definition calc_chunk {A} (call : nat -> res A) : option (res A * nat * list Q) := service_loop 3 2 0 call [].

(** _set_config (field.py:1728-1776) *)
Inductive configuration := CInt (i : Z) | CName (s : string).
Inductive config := ConfigId (i : Z) | Coils (ids currents : list Z).
Definition known (c : configuration) : res (list Z) :=
  match c with
  | CInt (-1)%Z => Ok (repeat 1%Z 7)
  | CName s => if String.eqb s "FMM002"%string then Ok (repeat 13423 5 ++ repeat (-3544) 2)%Z else Err KeyError
  | _ => Err KeyError
  end.
Definition all_coils : list Z :=
  ([160; 165; 170; 175; 180; 185; 190; 195; 200; 205] ++ [161; 166; 171; 176; 181; 186; 191; 196; 201; 206]
   ++ [162; 167; 172; 177; 182; 187; 192; 197; 202; 207] ++ [163; 168; 173; 178; 183; 188; 193; 198; 203; 208]
   ++ [164; 169; 174; 179; 184; 189; 194; 199; 204; 209] ++ [210; 212; 214; 216; 218; 220; 222; 224; 226; 228]
   ++ [211; 213; 215; 217; 219; 221; 223; 225; 227; 229] ++ [230; 231; 232; 233; 234; 235; 236; 237; 238; 239]
   ++ [350; 241; 351; 352; 353])%Z.
Definition ten_times (l : list Z) : list Z := flat_map (fun x => repeat x 10) l.
(** [np.array([108] * 5 + [36] * 2) * np.array(currents)] has seven entries, so the
    branches for ten and for twenty-two currents are never taken and left out *)
Definition windings : list Z := (repeat 108 5 ++ repeat 36 2)%Z.
Definition coil_config (c : configuration) : res config :=
  let* k := known c in
  let currents := map (fun p => fst p * snd p)%Z (combine windings k) in
  let currents := if (length currents =? 7)%nat then ten_times currents else currents in
  Ok (Coils (if (length currents =? 70)%nat then firstn 70 all_coils else all_coils) currents).
Definition set_config (c : configuration) : res config :=
  match c with
  | CInt i => if (0 <=? i)%Z then Ok (ConfigId i) else coil_config c
  | _ => coil_config c
  end.
