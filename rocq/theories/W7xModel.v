(** W7X_vacuum of field.py: the files in which the samples of the field are kept,
    the mesh, the interpolation; W7X_VMEC.  The web services are oracles.  Floats
    are exact rationals; [twopi] is the float 2.0 * np.pi. *)
From Coq Require Import String List ZArith NArith QArith Qabs Qround Bool.
From Verif Require Import Prelude NamingModel FieldModel PolModel.
Import ListNotations.
Open Scope Q_scope.

(** ** Names of files *)

(** Rounding to the nearest integer, halves to even. *)
Definition round_even (q : Q) : Z :=
  let f := Qfloor q in
  let d := q - inject_Z f in
  if Qlt_bool d (1#2) then f else if Qlt_bool (1#2) d then (f + 1)%Z else if Z.even f then f else (f + 1)%Z.
(** Two digits. *)
Definition two (n : N) : string := (if (n <? 10)%N then "0" ++ dec n else dec n)%string.
(** "{:.2f}".format(q).  The float -0.0, which prints as -0.00, is not a rational. *)
Definition fmt2 (q : Q) : string :=
  let n := Z.to_N (round_even (Qabs q * 100)) in
  ((if Qlt_bool q 0 then "-" else "") ++ dec (n / 100) ++ "." ++ two (n mod 100))%string.
(** "{}".format(configuration) *)
Definition cfg_str (c : configuration) : string :=
  match c with CInt i => ((if (i <? 0)%Z then "-" else "") ++ dec (Z.abs_N i))%string | CName s => s end.

(** The three one-dimensional arrays whose meshgrid is handed to field_values
    (field.py:1361-1366). *)
Record mesh := { ax_r : list Q; ax_phi : list Q; ax_z : list Q }.
(** The first and last entry; IndexError for an empty array. *)
Definition ends (l : list Q) : res (Q * Q) := match l with [] => Err IndexError | a :: _ => Ok (a, last l a) end.

(** "{}.{}.{}.{:.2f}-{:.2f}.{:.2f}-{:.2f}.{:.2f}-{:.2f}" (field.py:1437-1462) *)
Definition label (m : mesh) : res string :=
  let* (r0, r1) := ends (ax_r m) in
  let* (p0, p1) := ends (ax_phi m) in
  let* (z0, z1) := ends (ax_z m) in
  Ok (dec (N.of_nat (length (ax_r m))) ++ "." ++ dec (N.of_nat (length (ax_phi m))) ++ "." ++ dec (N.of_nat (length (ax_z m))) ++ "."
      ++ fmt2 r0 ++ "-" ++ fmt2 r1 ++ "." ++ fmt2 p0 ++ "-" ++ fmt2 p1 ++ "." ++ fmt2 z0 ++ "-" ++ fmt2 z1)%string.
(** fname_old (field.py:1437-1449) *)
Definition fname_old (m : mesh) : res string := let* l := label m in Ok ("B.w7x." ++ l ++ ".dat")%string.
(** fname (field.py:1451-1462) *)
Definition fname (c : configuration) (m : mesh) : res string :=
  let* l := label m in Ok ("B.w7x." ++ cfg_str c ++ "." ++ l ++ ".nc")%string.
(** fname of plasma_field (field.py:1564-1584) *)
Definition fname_plasma (m : mesh) : res string := let* l := label m in Ok ("B.w7x_plasma_field." ++ l ++ ".dat")%string.

(** ** Samples and files *)

(** Br, Bphi and Bz at the points of the mesh. *)
Definition samples := nat -> nat -> nat -> Q * Q * Q.
(** The directory: what the files hold.  Simplified: every file there is can be read. *)
Definition dir := string -> option samples.
Definition save (st : dir) (n : string) (d : samples) : dir := fun m => if String.eqb m n then Some d else st m.

Section Services.
(** _calc_B and the change to cylindrical components, field.py:1489-1494 *)
Variable service : configuration -> mesh -> res samples.
(** getPlasmaField of the service at the given URL, field.py:1616 *)
Variable extender : string -> mesh -> res samples.

(** field_values (field.py:1410-1538) without the Poincare plot: the result and the directory afterwards.
    Simplified: making the client (1427-1430), which needs the network, succeeds. *)
Definition field_values (st : dir) (c : configuration) (m : mesh) : res samples * dir :=
  match (let* o := fname_old m in let* n := fname c m in Ok (o, n)) with
  | Err e => (Err e, st)
  | Ok (o, n) =>
    match st n with
    | Some d => (Ok d, st)
    | None =>
      match st o with
      | Some d => (Ok d, save st n d)
      | None => match service c m with
                | Ok d => (Ok d, save st n d)
                | Err e => (Err e, st)
                end
      end
    end
  end.

(** plasma_field (field.py:1540-1627) *)
Definition vmecURL : string := "http://svvmec1.ipp-hgw.mpg.de:8080/vmecrest/v1/w7x_ref_1/wout.nc".
Definition plasma_field (st : dir) (m : mesh) (wout_file : string) : res samples * dir :=
  match fname_plasma m with
  | Err e => (Err e, st)
  | Ok n =>
    match st n with
    | Some d => (Ok d, st)
    | None => match extender vmecURL m with
              | Ok d => (Ok d, save st n d)
              | Err e => (Err e, st)
              end
    end
  end.

(** ** The constructor *)

(** numpy.linspace; the first entry is [a], the last of several is [b] *)
Definition linspace (a b : Q) (n : nat) : list Q :=
  map (fun i => if (i =? 0)%nat then a else if (S i =? n)%nat then b
                else a + inject_Z (Z.of_nat i) * ((b - a) / inject_Z (Z.of_nat (n - 1)))) (seq 0 n).
(** range[0] and range[-1] *)
Definition axis (range : list Q) (n : nat) : res (list Q) := let* (a, b) := ends range in Ok (linspace a b n).

(** What the object keeps: the points and the arrays handed to RegularGridInterpolator. *)
Record w7x := { w_mesh : mesh; w_B : samples }.

Definition plus3 (a b : Q * Q * Q) : Q * Q * Q :=
  (fst (fst a) + fst (fst b), snd (fst a) + snd (fst b), snd a + snd b).

(** RegularGridInterpolator refuses axes that do not increase.  Simplified: scipy also
    takes decreasing axes in newer versions. *)
Fixpoint increasing (l : list Q) : bool :=
  match l with
  | a :: ((b :: _) as t) => Qlt_bool a b && increasing t
  | _ => true
  end.

(** W7X_vacuum.__init__ (field.py:1333-1402) *)
Definition w7x_vacuum (st : dir) (nx ny nz : nat) (x_range z_range : list Q) (phimax : Q) (c : configuration) (include_plasma : bool) (wout_file : string)
    : res w7x * dir :=
  match (let* r := axis x_range nx in let* z := axis z_range nz in Ok {| ax_r := r; ax_phi := linspace 0 phimax ny; ax_z := z |}) with
  | Err e => (Err e, st)
  | Ok m =>
    match field_values st c m with
    | (Err e, st) => (Err e, st)
    | (Ok v, st) =>
      match (if include_plasma then plasma_field st m wout_file else (Ok (fun _ _ _ => (0, 0, 0)), st)) with
      | (Err e, st) => (Err e, st)
      | (Ok p, st) =>
        if increasing (ax_r m) && increasing (ax_phi m) && increasing (ax_z m)
        then (Ok {| w_mesh := m; w_B := fun i j k => plus3 (v i j k) (p i j k) |}, st)
        else (Err ValueError, st)
      end
    end
  end.
(** The default of z_range, field.py:1339 *)
Definition default_z_range : list Q := [-(135#100); 1; 35].
Definition default_x_range : list Q := [405#100; 655#100].
End Services.

(** ** The field functions *)

(** The cell of a point: the last i with l[i] <= x, but not the last point. *)
Fixpoint cell (l : list Q) (x : Q) : nat :=
  match l with
  | _ :: ((b :: (_ :: _)) as t) => if Qle_bool b x then S (cell t x) else 0%nat
  | _ => 0%nat
  end.
Definition outside_axis (l : list Q) (x : Q) : bool :=
  match l with [] => true | a :: _ => Qlt_bool x a || Qlt_bool (last l a) x end.
Definition fraction (l : list Q) (x : Q) : Q :=
  let i := cell l x in (x - nth i l 0) / (nth (S i) l 0 - nth i l 0).
Definition mix (t a b : Q) : Q := (1 - t) * a + t * b.
(** scipy's RegularGridInterpolator, method linear, bounds_error False, for axes with at
    least two points (one point is not modelled) *)
Definition interpolate (m : mesh) (v : nat -> nat -> nat -> Q) (fill : Q) (r phi z : Q) : Q :=
  if outside_axis (ax_r m) r || outside_axis (ax_phi m) phi || outside_axis (ax_z m) z then fill
  else
    let i := cell (ax_r m) r in let j := cell (ax_phi m) phi in let k := cell (ax_z m) z in
    let along_z i j := mix (fraction (ax_z m) z) (v i j k) (v i j (S k)) in
    let along_phi i := mix (fraction (ax_phi m) phi) (along_z i j) (along_z i (S j)) in
    mix (fraction (ax_r m) r) (along_phi i) (along_phi (S i)).

Section Field.
Variable twopi : Q.
(** field.py:1661-1676 *)
Definition w_Bx (w : w7x) (x z phi : Q) : Q := interpolate (w_mesh w) (fun i j k => fst (fst (w_B w i j k))) 0 x (qrem phi twopi) z.
Definition w_Bz (w : w7x) (x z phi : Q) : Q := interpolate (w_mesh w) (fun i j k => snd (w_B w i j k)) 0 x (qrem phi twopi) z.
Definition w_By (w : w7x) (x z phi : Q) : Q := interpolate (w_mesh w) (fun i j k => snd (fst (w_B w i j k))) 1 x (qrem phi twopi) z.
End Field.

(** ** W7X_VMEC *)

(** The attributes an object has when field_values is called from __init__
    (field.py:1816-1857): those of the class MagneticField and its own methods;
    nothing is assigned before. *)
Definition vmec_attributes : list string :=
  ["boundary"; "attributes"; "field_values"; "Bxfunc"; "Byfunc"; "Bzfunc"; "Rfunc"; "pressure"; "Bmag"; "field_direction"]%string.
Definition getattr (attrs : list string) (a : string) : res unit := if existsb (String.eqb a) attrs then Ok tt else Err OtherError.
(** W7X_VMEC.__init__ and field_values (field.py:1816-1884) up to the call of the service *)
Definition w7x_vmec (answer : mesh -> res samples) (nx ny nz : nat) (x_range z_range phi_range : list Q) : res w7x :=
  let* r := axis x_range nx in
  let* phi := axis phi_range ny in
  let* z := axis z_range nz in
  let m := {| ax_r := r; ax_phi := phi; ax_z := z |} in
  let* _ := getattr vmec_attributes "nx" in
  let* _ := getattr vmec_attributes "ny" in
  let* _ := getattr vmec_attributes "nz" in
  let* v := answer m in
  if increasing r && increasing phi && increasing z then Ok {| w_mesh := m; w_B := v |} else Err ValueError.
