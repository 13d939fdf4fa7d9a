(** Properties C30-C33: rectangular grids, index search, annulus grids. *)
From Coq Require Import List ZArith QArith Qabs Bool Lia Lqa.
From Verif Require Import Prelude PreludeFacts PolModel PolSpec PolProofs PolFind PolAnnulus PolNewton BoundarySpec PolArea.
Import ListNotations.
Open Scope Q_scope.

(** ** C30 *)
Theorem C30_inverse : forall nx nz Lx Lz Rc Zc MXG r,
  rect_init nx nz Lx Lz Rc Zc MXG = Ok r -> ~ Lx == 0 -> ~ Lz == 0 ->
  (forall x z R Z, rect_getCoordinate r x z 0 0 = Ok (R, Z) ->
     fst (rect_findIndex r R Z) == x /\ snd (rect_findIndex r R Z) == z) /\
  (forall R Z, exists R' Z',
     rect_getCoordinate r (fst (rect_findIndex r R Z)) (snd (rect_findIndex r R Z)) 0 0 = Ok (R', Z') /\ R' == R /\ Z' == Z).
Proof. exact rect_inverse. Qed.
Print Assumptions C30_inverse.

Theorem C30_affine : forall nx nz Lx Lz Rc Zc MXG r,
  rect_init nx nz Lx Lz Rc Zc MXG = Ok r -> forall x z R Z, rect_getCoordinate r x z 0 0 = Ok (R, Z) ->
  R == Rc + (x - (inject_Z nx - 1) / 2) * (Lx / inject_Z (nx - 2 * MXG)) /\
  Z == Zc + (z - (inject_Z nz - 1) / 2) * (Lz / inject_Z nz).
Proof. exact rect_affine. Qed.
Print Assumptions C30_affine.

(** The cells MXG <= i < nx - MXG cover [Rc - Lx/2, Rc + Lx/2) without overlap; the same in z. *)
Theorem C30_cells_tile_box : forall nx nz Lx Lz Rc Zc MXG r,
  rect_init nx nz Lx Lz Rc Zc MXG = Ok r -> 0 < Lx -> (0 < nx - 2 * MXG)%Z -> 0 < Lz -> (0 < nz)%Z ->
  let pos i j := match rect_getCoordinate r (inject_Z i) (inject_Z j) 0 0 with Ok p => p | Err _ => (0, 0) end in
  (forall v, within (Rc - Lx / 2) (Rc + Lx / 2) v <->
     exists! i, (MXG <= i < nx - MXG)%Z /\ within (fst (pos i 0%Z) - r_dR r / 2) (fst (pos i 0%Z) + r_dR r / 2) v) /\
  (forall v, within (Zc - Lz / 2) (Zc + Lz / 2) v <->
     exists! j, (0 <= j < nz)%Z /\ within (snd (pos 0%Z j) - r_dZ r / 2) (snd (pos 0%Z j) + r_dZ r / 2) v).
Proof. exact rect_tiles. Qed.
Print Assumptions C30_cells_tile_box.

Theorem C30_outside : forall nx nz Lx Lz Rc Zc MXG r,
  rect_init nx nz Lx Lz Rc Zc MXG = Ok r -> 0 < Lx -> (0 < nx - 2 * MXG)%Z -> forall R Z,
  (R < Rc - Lx / 2 <-> fst (rect_findIndex r R Z) < inject_Z MXG - (1#2)) /\
  (Rc + Lx / 2 < R <-> inject_Z (nx - MXG - 1) + (1#2) < fst (rect_findIndex r R Z)).
Proof. exact rect_outside. Qed.
Print Assumptions C30_outside.

(** ** C31 *)

(** Right for every order except a + b = 2. *)
Theorem C31_derivatives_partial : forall r a b, (a + b <> 2)%nat ->
  derivative a b (coordR r 0 0) (coordR r a b) /\ derivative a b (coordZ r 0 0) (coordZ r a b).
Proof. exact rect_derivatives. Qed.
Print Assumptions C31_derivatives_partial.

(** Missing, because false: order two.  dx = 2 returns the position, dx = dz = 1
    returns dR/dx; all of them should be zero ("dx + dz > 2" in line 187). *)
Theorem C31_second_order_refuted :
  exists r, rect_init 8 8 1 1 0 0 2 = Ok r /\
    ~ derivative 2 0 (coordR r 0 0) (coordR r 2 0) /\
    ~ derivative 1 1 (coordR r 0 0) (coordR r 1 1) /\
    ~ derivative 0 2 (coordZ r 0 0) (coordZ r 0 2).
Proof.
  eexists. split; [reflexivity|]. split; [|split]; intros C.
  - apply derivative_affine with (x := 0) (z := 0) in C;
      [vm_compute in C; discriminate C|apply coordR_affine|lia].
  - apply derivative_affine with (x := 0) (z := 0) in C;
      [vm_compute in C; discriminate C|apply coordR_affine|lia].
  - apply derivative_affine with (x := 0) (z := 0) in C;
      [vm_compute in C; discriminate C|apply coordZ_affine|lia].
Qed.
Print Assumptions C31_second_order_refuted.

(** Negative orders are refused. *)
Theorem C31_negative : forall r x z dx dz, (dx < 0 \/ dz < 0)%Z -> rect_getCoordinate r x z dx dz = Err AssertionError.
Proof. exact rect_negative. Qed.
Print Assumptions C31_negative.

Example C30_concrete : exists r R Z, rect_init 9 4 5 2 10 0 2 = Ok r /\
  rect_getCoordinate r 2 0 0 0 = Ok (R, Z) /\ R == 8 /\ Z == -(3#4).
Proof. do 3 eexists. split; [vm_compute; reflexivity|]. split; [vm_compute; reflexivity|]. repeat split. Qed.

(** ** C32 *)
Theorem C32_result : forall nx nz splR splZ nearest zneg, (0 < nx)%Z -> (0 < nz)%Z ->
  (forall t, (0 <= nearest t < nx * nz)%Z) ->
  forall fuel targets tol l,
  findIndex nx nz splR splZ nearest zneg fuel targets tol = Some (Ok l) ->
  Forall2 (good_index nx nz splR splZ tol) targets l.
Proof. exact find_result. Qed.
Print Assumptions C32_result.

(** The search loop ends within 1000 rounds.  The only exception is RuntimeError;
    in particular the splines are never asked for a radial index out of range,
    which would be ValueError. *)
Theorem C32_terminates_in_range : forall nx nz splR splZ nearest zneg, (0 < nx)%Z -> (0 < nz)%Z ->
  (forall t, (0 <= nearest t < nx * nz)%Z) ->
  forall fuel targets tol, (1000 <= fuel)%nat -> targets <> [] ->
  (exists l, findIndex nx nz splR splZ nearest zneg fuel targets tol = Some (Ok l)) \/
  findIndex nx nz splR splZ nearest zneg fuel targets tol = Some (Err RuntimeError).
Proof. exact find_terminates. Qed.
Print Assumptions C32_terminates_in_range.

(** No targets: ValueError (numpy.amin of an empty array). *)
Theorem C32_empty : forall nx nz splR splZ nearest zneg fuel tol,
  findIndex nx nz splR splZ nearest zneg (S fuel) [] tol = Some (Err ValueError).
Proof. exact find_empty. Qed.
Print Assumptions C32_empty.

(** One target next to a boundary row where the coordinates are singular (such as
    an inner row shrunk to a point) makes the whole search fail: 0 * NaN is NaN. *)
Theorem C32_singular_boundary_fails : forall nx nz splR splZ nearest zneg, (0 < nx)%Z -> (0 < nz)%Z ->
  (forall t, (0 <= nearest t < nx * nz)%Z) ->
  forall fuel targets tol t, In t targets ->
  let i := (nearest t / nz)%Z in
  (i = 0 \/ i = nx - 1)%Z ->
  (let zi := qrem (inject_Z (nearest t - i * nz)) (inject_Z nz) + inject_Z nz in
   splR 1%nat 0%nat (inject_Z i) zi * splZ 0%nat 1%nat (inject_Z i) zi -
   splR 0%nat 1%nat (inject_Z i) zi * splZ 1%nat 0%nat (inject_Z i) zi == 0) ->
  forall l, findIndex nx nz splR splZ nearest zneg fuel targets tol <> Some (Ok l).
Proof. exact singular_fails. Qed.
Print Assumptions C32_singular_boundary_fails.

(** One step of the search, at an index (x, z) with position (R, Z): the change of
    index solves the linearised equations, up to the under-relaxation.  A point
    that comes closer than half a cell to the boundary rows is put on the row and masked. *)
Theorem C32_newton : forall nx zneg ur x z t R Z Rx Zx Rz Zz, (2 <= nx)%Z -> ~ ur == 0 -> ~ Rx * Zz - Rz * Zx == 0 ->
  let p' := newton nx zneg ur {| px := Fin x; pz := Fin z; pmask := true |} t (Fin R, Fin Z) (Fin Rx, Fin Zx) (Fin Rz, Fin Zz) in
  exists x' z', Rx * (x' - x) + Rz * (z' - z) == (fst t - R) / ur /\ Zx * (x' - x) + Zz * (z' - z) == (snd t - Z) / ur /\
  pz p' = Fin z' /\
  ((x' < 1#2 /\ px p' = Fin 0 /\ pmask p' = false) \/
   (inject_Z nx - (3#2) < x' /\ px p' = Fin (inject_Z nx - 1) /\ pmask p' = false) \/
   (1#2 <= x' <= inject_Z nx - (3#2) /\ px p' = Fin x' /\ pmask p' = true)).
Proof. intros. now apply newton_solves. Qed.
Print Assumptions C32_newton.

(** A masked point stays where it is and stays masked. *)
Theorem C32_masked : forall nx zneg ur x z t R Z Rx Zx Rz Zz, (2 <= nx)%Z -> ~ ur == 0 -> ~ Rx * Zz - Rz * Zx == 0 ->
  x == 0 \/ x == inject_Z nx - 1 ->
  let p' := newton nx zneg ur {| px := Fin x; pz := Fin z; pmask := false |} t (Fin R, Fin Z) (Fin Rx, Fin Zx) (Fin Rz, Fin Zz) in
  exists x' z', px p' = Fin x' /\ x' == x /\ pz p' = Fin z' /\ z' == z /\ pmask p' = false.
Proof. intros. now apply newton_masked. Qed.
Print Assumptions C32_masked.

(** The under-relaxation in round n of the loop. *)
Theorem C32_relaxation : forall n, fold_left (fun ur k => relax (Z.of_nat k) ur) (seq 1 n) 1 =
  if (n <? 10)%nat then 1 else if (n <? 100)%nat then 3#2 else if (n <? 300)%nat then 2 else if (n <? 700)%nat then 5#2 else 3.
Proof. exact relax_table. Qed.
Print Assumptions C32_relaxation.

(** On a grid with affine coordinates (the second argument of the splines is the
    index plus nz) five rounds are enough and the answer is exact, for any number
    of targets at once: also of targets whose row is at the boundary. *)
Theorem C32_affine_exact : forall nx nz splR splZ nearest zneg R0 Rx Rz Z0 Zx Zz, (2 <= nx)%Z -> (0 < nz)%Z ->
  (forall t, (0 <= nearest t < nx * nz)%Z) ->
  (forall x z, splR 0%nat 0%nat x z == R0 + Rx * x + Rz * z) -> (forall x z, splZ 0%nat 0%nat x z == Z0 + Zx * x + Zz * z) ->
  (forall x z, splR 1%nat 0%nat x z == Rx) -> (forall x z, splZ 1%nat 0%nat x z == Zx) ->
  (forall x z, splR 0%nat 1%nat x z == Rz) -> (forall x z, splZ 0%nat 1%nat x z == Zz) -> ~ Rx * Zz - Rz * Zx == 0 ->
  forall targets xs zs tol fuel, targets <> [] ->
  Forall (fun t => fst t == R0 + Rx * xs t + Rz * (zs t + inject_Z nz) /\ snd t == Z0 + Zx * xs t + Zz * (zs t + inject_Z nz) /\
                   0 <= zs t /\ zs t < inject_Z nz) targets ->
  0 < tol -> (5 <= fuel)%nat ->
  exists l, findIndex nx nz splR splZ nearest zneg fuel targets tol = Some (Ok l) /\
  Forall2 (fun t p => affine_answer nx (nearest t / nz) (xs t) (zs t) p) targets l.
Proof. intros. eapply affine_find; eassumption. Qed.
Print Assumptions C32_affine_exact.

(** A 5 by 4 grid with R = x, Z = z - 4: an interior point, one at the inner and one beyond the outer boundary. *)
Definition ex_spl (which : bool) (d e : nat) (x z : Q) : Q :=
  match which, d, e with
  | true, O, O => x | true, S O, O => 1
  | false, O, O => z - 4 | false, O, S O => 1
  | _, _, _ => 0
  end.
Definition ex_near (t : Q * Q) : Z :=
  (Z.min 4 (Z.max 0 (Qround.Qfloor (fst t + (1#2)))) * 4 + Z.min 3 (Z.max 0 (Qround.Qfloor (snd t + (1#2)))))%Z.
Example C32_concrete :
  (match findIndex 5 4 (ex_spl true) (ex_spl false) ex_near (fun _ _ => false) 1000
      [(9#4, 5#4); (0, 1); (6, 2)] (1#1000000000000) with
   | Some (Ok l) => map (fun p => match p with (Fin x, Fin z) => (Qred x, Qred z) | _ => (0, 0) end) l
   | _ => []
   end) = [(9#4, 5#4); (-(1), 1); (5, 2)].
Proof. vm_compute. reflexivity. Qed.
Example C32_hypotheses : forall t, (0 <= ex_near t < 5 * 4)%Z.
Proof. intros t. unfold ex_near. lia. Qed.
(** The same grid meets the hypotheses of C32_affine_exact. *)
Example C32_affine_concrete : exists l,
  findIndex 5 4 (ex_spl true) (ex_spl false) ex_near (fun _ _ => false) 5 [(9#4, 5#4); (0, 1); (6, 2)] (1#1000) = Some (Ok l) /\
  Forall2 (fun t p => affine_answer 5 (ex_near t / 4) (fst t) (snd t) p) [(9#4, 5#4); (0, 1); (6, 2)] l.
Proof.
  apply C32_affine_exact with (R0 := 0) (Rx := 1) (Rz := 0) (Z0 := -(4)) (Zx := 0) (Zz := 1); try lia; try lra; try exact C32_hypotheses;
    try (intros; cbn; ring); try easy.
  repeat constructor; cbn; try lra; try (unfold Qle, Qlt; cbn; lia); ring.
Qed.
(** A grid whose inner row is one point: R = x, Z = x * z. *)
Definition ex_axis (which : bool) (d e : nat) (x z : Q) : Q :=
  match which, d, e with
  | true, O, O => x | true, S O, O => 1
  | false, O, O => x * (z - 4) | false, S O, O => z - 4 | false, O, S O => x
  | _, _, _ => 0
  end.
Example C32_axis : forall fuel tol l,
  findIndex 5 4 (ex_axis true) (ex_axis false) ex_near (fun _ _ => false) fuel [(2, 2); (1#10, 0)] tol <> Some (Ok l).
Proof.
  intros. apply C32_singular_boundary_fails with (t := (1#10, 0)); try lia; [exact C32_hypotheses|cbn; tauto|left; reflexivity|].
  vm_compute. reflexivity.
Qed.

(** The arithmetic with infinities and NaN that the search runs into at singular points. *)
Theorem C32_arithmetic : forall (zneg s t : bool) p q,
  (~ q == 0 -> fdiv zneg (Fin p) (Fin q) = Fin (p / q)) /\
  (q == 0 -> (p == 0 -> fdiv zneg (Fin p) (Fin q) = NaN) /\ (0 < p -> fdiv zneg (Fin p) (Fin q) = Inf zneg) /\
     (p < 0 -> fdiv zneg (Fin p) (Fin q) = Inf (negb zneg)) /\ fmul (Fin q) (Inf s) = NaN /\ fmul (Inf s) (Fin q) = NaN) /\
  fdiv zneg (Fin p) (Inf s) = Fin 0 /\
  (0 < q -> fmul (Fin q) (Inf s) = Inf s /\ fmul (Inf s) (Fin q) = Inf s /\ fdiv zneg (Inf s) (Fin q) = Inf s) /\
  (q < 0 -> fmul (Fin q) (Inf s) = Inf (negb s) /\ fmul (Inf s) (Fin q) = Inf (negb s) /\ fdiv zneg (Inf s) (Fin q) = Inf (negb s)) /\
  fsub (Fin p) (Inf s) = Inf (negb s) /\ fsub (Inf s) (Fin p) = Inf s /\ fsub (Inf s) (Inf s) = NaN /\ fsub (Inf s) (Inf (negb s)) = Inf s /\
  (flt (Inf s) (Inf t) = true <-> s = true /\ t = false) /\ flt (Inf s) (Fin p) = s /\ flt (Fin p) (Inf s) = negb s /\
  flt NaN (Fin p) = false /\ flt (Fin p) NaN = false.
Proof. exact float_rules. Qed.
Print Assumptions C32_arithmetic.

(** ** C33 *)
Theorem C33_annulus : forall innerR innerZ outerR outerZ nx nz return_coords g,
  grid_annulus innerR innerZ outerR outerZ nx nz return_coords = Ok g ->
  (2 <= nx)%Z /\ (2 <= nz)%Z /\ g_nx g = nx /\ g_nz g = nz /\
  forall j, let t := inject_Z j / inject_Z nz in
    (g_R g 0%Z j == innerR t /\ g_Z g 0%Z j == innerZ t) /\
    (g_R g (nx - 1)%Z j == outerR t /\ g_Z g (nx - 1)%Z j == outerZ t) /\
    (forall i, g_R g i j == innerR t + inject_Z i * ((outerR t - innerR t) / inject_Z (nx - 1)) /\
               g_Z g i j == innerZ t + inject_Z i * ((outerZ t - innerZ t) / inject_Z (nx - 1))).
Proof. exact annulus_rows. Qed.
Print Assumptions C33_annulus.

Theorem C33_accepts : forall innerR innerZ outerR outerZ nx nz,
  ((exists g, grid_annulus innerR innerZ outerR outerZ nx nz true = Ok g) <-> (2 <= nx)%Z /\ (2 <= nz)%Z) /\
  (forall rc, ~ ((2 <= nx)%Z /\ (2 <= nz)%Z) -> grid_annulus innerR innerZ outerR outerZ nx nz rc = Err AssertionError) /\
  (forall g, grid_annulus innerR innerZ outerR outerZ nx nz true = Ok g ->
     grid_annulus innerR innerZ outerR outerZ nx nz false =
       if (4 <? nx)%Z then if Qle_bool (row_area g 2) (row_area g (nx - 2)) then Ok g else Err AssertionError else Ok g).
Proof. exact annulus_accepts. Qed.
Print Assumptions C33_accepts.

(** ... where the area of a row is half the modulus of the sum of its triangles seen from the first point. *)
Theorem C33_area : forall (g : grid2) x, (1 <= g_nz g)%Z ->
  row_area g x == Qabs (qsum (map (fun i => orient (g_R g x 0%Z, g_Z g x 0%Z) (g_R g x i, g_Z g x i)
     (g_R g x (i + 1)%Z, g_Z g x (i + 1)%Z)) (zrange 1 (g_nz g - 1)))) / 2.
Proof. exact row_area_is. Qed.
Print Assumptions C33_area.
(** A clockwise rectangle of sides 3 and 2. *)
Example C33_area_concrete :
  row_area {| g_nx := 1; g_nz := 4; g_R := fun _ j => if (j <? 2)%Z then 0 else 3;
              g_Z := fun _ j => if ((1 <=? j) && (j <=? 2))%Z%bool then 2 else 0 |} 0 == 6.
Proof. vm_compute. reflexivity. Qed.

(** Square lines of half width 1 and 3: accepted; swapped: rejected. *)
Definition sq (w : Q) (sh : Q) (t : Q) : Q :=
  let u := qrem (4 * t + sh) 4 in
  if Qlt_bool u 1 then w - 2 * w * u else if Qlt_bool u 2 then -(w) else if Qlt_bool u 3 then -(w) + 2 * w * (u - 2) else w.
Example C33_concrete :
  (exists g, grid_annulus (sq 1 0) (sq 1 3) (sq 3 0) (sq 3 3) 6 8 false = Ok g) /\
  grid_annulus (sq 3 0) (sq 3 3) (sq 1 0) (sq 1 3) 6 8 false = Err AssertionError.
Proof.
  split; [|vm_compute; reflexivity].
  assert (H : is_ok (grid_annulus (sq 1 0) (sq 1 3) (sq 3 0) (sq 3 3) 6 8 false) = true) by (vm_compute; reflexivity).
  destruct (grid_annulus (sq 1 0) (sq 1 3) (sq 3 0) (sq 3 3) 6 8 false) as [g|]; [now exists g|discriminate].
Qed.
