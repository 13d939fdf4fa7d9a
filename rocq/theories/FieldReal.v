(** field.py, the parts built on trigonometric functions and derivatives.
    Floats are exact real numbers; sympy's and numpy's pi are both the real number;
    an expression built by sympy stands for its value (lambdify is trusted). *)
From Coq Require Import List Reals.
From Verif Require Import Prelude.
Import ListNotations.
Open Scope R_scope.

Definition rsum (l : list R) : R := fold_right Rplus 0 l.

(** sympy's atan2 *)
Definition atan2 (y x : R) : R :=
  if Rlt_dec 0 x then atan (y / x)
  else if Rlt_dec x 0 then (if Rle_dec 0 y then atan (y / x) + PI else atan (y / x) - PI)
  else if Rlt_dec 0 y then PI / 2 else if Rlt_dec y 0 then - (PI / 2) else 0.

(** * StraightStellarator (field.py:322-425) and RotatingEllipse (field.py:428-536) *)
Record stellarator := { xcentre : R; zcentre : R; radius : R; yperiod : R; I_coil : R }.
(** iota (field.py:380, 486); a zero yperiod raises ZeroDivisionError *)
Definition iota (p : stellarator) : R := 2 * PI / yperiod p.

(** coil (field.py:340-363, 446-467): x, z and the current of one coil *)
Definition coil (p : stellarator) (angle current phi : R) : R * R * R :=
  (xcentre p + radius p * cos (angle + iota p * phi), zcentre p + radius p * sin (angle + iota p * phi), current).
(** coil_list (field.py:394-404, 500-510) *)
Definition coil_list (p : stellarator) (phi : R) : list (R * R * R) :=
  map (fun i => coil p (INR i / 2 * PI) ((-1) ^ (i mod 2) * I_coil p) phi) (seq 0 4).

(** the bodies of the loop over the coils (field.py:406-420, 512-526) *)
Definition r2 (c : R * R * R) (x z : R) : R := (x - fst (fst c)) ^ 2 + (z - snd (fst c)) ^ 2.
Definition theta (c : R * R * R) (x z : R) : R := atan2 (z - snd (fst c)) (x - fst (fst c)).
Definition B (c : R * R * R) (x z : R) : R := snd c * (2 / 10) / sqrt (r2 c x z).
Definition A_coils (cs : list (R * R * R)) (x z : R) : R := fold_left (fun A c => A - snd c * (1 / 10) * ln (r2 c x z)) cs 0.
Definition Bx_coils (cs : list (R * R * R)) (x z : R) : R := fold_left (fun Bx c => Bx + B c x z * sin (theta c x z)) cs 0.
Definition Bz_coils (cs : list (R * R * R)) (x z : R) : R := fold_left (fun Bz c => Bz - B c x z * cos (theta c x z)) cs 0.

(** Afunc, Bxfunc, Bzfunc (field.py:422-425, 529-532), the same for both classes *)
Definition Afunc (p : stellarator) (x z phi : R) : R := A_coils (coil_list p phi) x z.
Definition Bxfunc (p : stellarator) (x z phi : R) : R := Bx_coils (coil_list p phi) x z.
Definition Bzfunc (p : stellarator) (x z phi : R) : R := Bz_coils (coil_list p phi) x z.
(** The straight one keeps Byfunc = 1 and Rfunc = None of the base class
    (field.py:74-122); the other one has its own (field.py:528, 533-536). *)
Definition ellipse_Byfunc (Btor x z phi : R) : R := Btor / x.
Definition ellipse_Rfunc (x z phi : R) : R := x.

(** * Screwpinch (field.py:882-905) *)
Record screwpinch := { sp_x : R; sp_z : R; shear : R; sp_Btor : R }.
Definition sp_r (p : screwpinch) (x z : R) : R := sqrt ((x - sp_x p) ^ 2 + (z - sp_z p) ^ 2).
Definition sp_theta (p : screwpinch) (x z : R) : R := atan2 (z - sp_z p) (x - sp_x p).
Definition sp_A (p : screwpinch) (x z phi : R) : R := shear p * sp_r p x z ^ 2.
Definition sp_Bx (p : screwpinch) (x z phi : R) : R := - shear p * sp_r p x z * sp_r p x z * sin (sp_theta p x z).
Definition sp_Bz (p : screwpinch) (x z phi : R) : R := shear p * sp_r p x z * sp_r p x z * cos (sp_theta p x z).
Definition sp_By (p : screwpinch) (x z phi : R) : R := sp_Btor p / x.
Definition sp_R (p : screwpinch) (x z phi : R) : R := x.

(** * GEQDSK (field.py:1300-1317): the splines psi_func with its first derivatives,
    psinorm_func and f_spl are oracles *)
Record geqdsk := { psi_func : R -> R -> R; psi_dx : R -> R -> R; psi_dy : R -> R -> R;
                   psinorm_func : R -> R -> R; f_spl : R -> R }.
Definition gq_Bx (g : geqdsk) (x z phi : R) : R := - psi_dy g x z / x.
Definition gq_Bz (g : geqdsk) (x z phi : R) : R := psi_dx g x z / x.
Definition gq_By (g : geqdsk) (x z phi : R) : R := f_spl g (psinorm_func g x z) / x.
Definition gq_R (g : geqdsk) (x z phi : R) : R := x.

(** * The change to cylindrical components of the W7X and FusionSC fields
    (field.py:1493-1494, 1797-1812, 1979-1994) *)
Definition Br_of (b : R * R * R) (phi : R) : R := fst (fst b) * cos phi + snd (fst b) * sin phi.
Definition Bphi_of (b : R * R * R) (phi : R) : R := - fst (fst b) * sin phi + snd (fst b) * cos phi.
(** Bmag (field.py:158-162) *)
Definition Bmag (bx by_ bz : R) : R := sqrt (bx ^ 2 + by_ ^ 2 + bz ^ 2).

(** * VMEC *)
(** np.linspace(0, 2 * np.pi, n) (field.py:1022-1023) *)
Definition angles (n : nat) : list R :=
  map (fun i => if Nat.eqb n 1 then 0 else INR i * (2 * PI) / INR (n - 1)) (seq 0 n).

(** cfunct (field.py:933-955) and sfunct (field.py:957-979).  An array with two
    indices is a function of them; np.dot(a.T, c) sums over the first index.  The
    lengths have to agree, else numpy raises ValueError. *)
Definition dotT (n : nat) (a c : nat -> nat -> R) (j l : nat) : R := rsum (map (fun i => a i j * c i l) (seq 0 n)).
Definition transform (sine : bool) (xm xn th ze : list R) (field : list (list R)) : res (list (list (list R))) :=
  let mt i j := nth i xm 0 * nth j th 0 in
  let nz i l := nth i xn 0 * nth l ze 0 in
  let cosmt i j := cos (mt i j) in let sinmt i j := sin (mt i j) in
  let cosnz i l := cos (nz i l) in let sinnz i l := sin (nz i l) in
  foldM (fun f field_slice =>
    if orb (negb (length field_slice =? length xm)%nat) (negb (length xn =? length xm)%nat) then Err ValueError else
    let rmn i j := nth i field_slice 0 in
    let a i j := rmn i j * (if sine then sinmt i j else cosmt i j) in
    let b := dotT (length xm) a cosnz in
    let c i j := rmn i j * (if sine then cosmt i j else sinmt i j) in
    let d := dotT (length xm) c sinnz in
    Ok (f ++ [map (fun j => map (fun l => if sine then b j l + d j l else b j l - d j l) (seq 0 (length ze))) (seq 0 (length th))]))
    field [].
Definition cfunct := transform false.
Definition sfunct := transform true.

(** [c * x_big] for the transposed arrays (field.py:990-1007): every radial row of the
    coefficients times the mode numbers *)
Definition times (c : list (list R)) (x : list R) : list (list R) := map (fun row => map (fun p => fst p * snd p) (combine row x)) c.
Definition neg (c : list (list R)) : list (list R) := map (map Ropp) c.
(** sums and products of arrays of the same shape *)
Definition zip3 (op : R -> R -> R) (a b : list (list (list R))) : list (list (list R)) :=
  map (fun p => map (fun q => map (fun r => op (fst r) (snd r)) (combine (fst q) (snd q))) (combine (fst p) (snd p))) (combine a b).

(** The file's coefficients; [asym] is rmns and zmnc of an asymmetric equilibrium. *)
Record vmec := { xm : list R; xn : list R; rmnc : list (list R); zmns : list (list R); asym : option (list (list R) * list (list R)) }.
(** r_stz, drdu, drdv, z_stz, dzdu, dzdv of read_vmec_file (field.py:990-1007, 1025-1041) *)
Definition vmec_r (v : vmec) (th ze : list R) :=
  let* r := cfunct (xm v) (xn v) th ze (rmnc v) in
  match asym v with
  | None => Ok r
  | Some _ => let* r' := sfunct (xm v) (xn v) th ze (rmnc v) in Ok (zip3 Rplus r r')
  end.
Definition vmec_drdu (v : vmec) (th ze : list R) :=
  let* r := sfunct (xm v) (xn v) th ze (times (neg (rmnc v)) (xm v)) in
  match asym v with
  | None => Ok r
  | Some (rmns, _) => let* r' := cfunct (xm v) (xn v) th ze (times (neg rmns) (xm v)) in Ok (zip3 Rplus r r')
  end.
Definition vmec_drdv (v : vmec) (th ze : list R) :=
  let* r := sfunct (xm v) (xn v) th ze (times (neg (rmnc v)) (xn v)) in
  match asym v with
  | None => Ok r
  | Some (rmns, _) => let* r' := cfunct (xm v) (xn v) th ze (times (neg rmns) (xn v)) in Ok (zip3 Rplus r r')
  end.
Definition vmec_z (v : vmec) (th ze : list R) :=
  let* z := sfunct (xm v) (xn v) th ze (zmns v) in
  match asym v with
  | None => Ok z
  | Some (_, zmnc) => let* z' := cfunct (xm v) (xn v) th ze zmnc in Ok (zip3 Rplus z z')
  end.
Definition vmec_dzdu (v : vmec) (th ze : list R) :=
  let* z := cfunct (xm v) (xn v) th ze (times (zmns v) (xm v)) in
  match asym v with
  | None => Ok z
  | Some (_, zmnc) => let* z' := sfunct (xm v) (xn v) th ze (times zmnc (xm v)) in Ok (zip3 Rplus z z')
  end.
Definition vmec_dzdv (v : vmec) (th ze : list R) :=
  let* z := cfunct (xm v) (xn v) th ze (times (zmns v) (xn v)) in
  match asym v with
  | None => Ok z
  | Some (_, zmnc) => let* z' := sfunct (xm v) (xn v) th ze (times zmnc (xn v)) in Ok (zip3 Rplus z z')
  end.
(** br, bphi and bz (field.py:1044-1046) from the arrays bu and bv *)
Definition vmec_br (bu bv drdu drdv : list (list (list R))) := zip3 Rplus (zip3 Rmult bu drdu) (zip3 Rmult bv drdv).
Definition vmec_bphi (r bv : list (list (list R))) := zip3 Rmult r bv.
