(** Property C86. *)
From Coq Require Import List Reals Lia Lra Bool.
From Verif Require Import Prelude UpscaleModel UpscaleProofs.
Import ListNotations.
Open Scope R_scope.

(** C86: in the slice m of upscale_factor after slice y, the values on the field lines
    from slice y, moved along them by the fraction 3 t^2 - 2 t^3 for t = m/upscale_factor,
    are interpolated to the grid.  This is so for all oracles. *)
Theorem C86_slices_partial mc tq griddata field F nx ny nz xt zt f quiet out :
  fitted field nx ny nz = Ok F -> upscale mc tq griddata field nx ny nz xt zt f quiet = Ok out ->
  length out = (f * ny)%nat /\
  forall y m, (y < ny)%nat -> (m < f)%nat -> exists pts vals g, griddata pts vals = Ok g /\ length pts = (nz * nx)%nat /\ length vals = (nz * nx)%nat /\
    (forall x z, (x < nx)%nat -> (z < nz)%nat ->
      let t := INR m / INR f in let s := 3 * t ^ 2 - 2 * t ^ 3 in
      nth (z * nx + x) pts (0, 0) = (INR x + s * (xt x y z - INR x), INR z + s * (zt x y z - INR z)) /\
      nth (z * nx + x) vals 0 = F x y z + s * (mc (nx, ny, nz) F (xt x y z, INR (if (y + 1 =? ny)%nat then 0%nat else (y + 1)%nat), zt x y z) - F x y z)) /\
    forall x z, nth (y * f + m) out (fun _ _ => 0) x z = g (INR x, INR z).
Proof. exact (upscale_entries mc tq griddata field F nx ny nz xt zt f quiet out). Qed.
Print Assumptions C86_slices_partial.
(** The fraction is in [0, 1) and increases with m, *)
Theorem C86_fraction f m m' : (m < m')%nat -> (m' < f)%nat ->
  let s k := 3 * (INR k / INR f) ^ 2 - 2 * (INR k / INR f) ^ 3 in 0 <= s m /\ s m < s m' /\ s m' <= 1.
Proof. exact (way_steps f m m'). Qed.
Print Assumptions C86_fraction.
(** but it is the fraction m/upscale_factor itself, that of the linear interpolation named
    in the code, only at the start and half way. *)
Theorem C86_linear_refuted a b t : a <> b -> spline2 a b t = a + t * (b - a) <-> t = 0 \/ t = 1 / 2 \/ t = 1.
Proof. exact (spline2_linear a b t). Qed.
Print Assumptions C86_linear_refuted.
(** Interpolations that give the data at their points keep the slices of the field. *)
Theorem C86_kept mc tq griddata field F nx ny nz xt zt f quiet out :
  (forall pts vals g, griddata pts vals = Ok g -> NoDup pts -> length vals = length pts -> forall k, (k < length pts)%nat -> g (nth k pts (0, 0)) = nth k vals 0) ->
  fitted field nx ny nz = Ok F -> upscale mc tq griddata field nx ny nz xt zt f quiet = Ok out ->
  forall x y z, (x < nx)%nat -> (y < ny)%nat -> (z < nz)%nat -> nth (y * f) out (fun _ _ => 0) x z = F x y z.
Proof. intros He. exact (upscale_kept mc tq griddata He field F nx ny nz xt zt f quiet out). Qed.
Print Assumptions C86_kept.
(** If the field lines stay at their position, then the new values are between those of
    the slice and of the next one; that after the last is the first. *)
Theorem C86_straight mc tq griddata field F nx ny nz xt zt f quiet out :
  (forall pts vals g, griddata pts vals = Ok g -> NoDup pts -> length vals = length pts -> forall k, (k < length pts)%nat -> g (nth k pts (0, 0)) = nth k vals 0) ->
  (forall nx ny nz F x y z, (x < nx)%nat -> (y < ny)%nat -> (z < nz)%nat -> mc (nx, ny, nz) F (INR x, INR y, INR z) = F x y z) ->
  fitted field nx ny nz = Ok F -> upscale mc tq griddata field nx ny nz xt zt f quiet = Ok out ->
  (forall x y z, (x < nx)%nat -> (y < ny)%nat -> (z < nz)%nat -> xt x y z = INR x /\ zt x y z = INR z) ->
  forall x y z m, (x < nx)%nat -> (y < ny)%nat -> (z < nz)%nat -> (m < f)%nat ->
  nth (y * f + m) out (fun _ _ => 0) x z =
    F x y z + (3 * (INR m / INR f) ^ 2 - 2 * (INR m / INR f) ^ 3) * (F x (if (y =? ny - 1)%nat then 0%nat else (y + 1)%nat) z - F x y z).
Proof. intros He Hn. exact (upscale_straight mc tq griddata He Hn field F nx ny nz xt zt f quiet out). Qed.
Print Assumptions C86_straight.
(** A field of the shape of the maps is taken as it is, and one of another size raises, *)
Theorem C86_shape field nx ny nz :
  (shape field = [nx; ny; nz] -> exists F, fitted field nx ny nz = Ok F /\ forall x y z, F x y z = flat field ((x * ny + y) * nz + z)%nat) /\
  ((fold_right Nat.mul 1 (shape field) <> nx * ny * nz)%nat -> forall mc tq griddata xt zt f quiet, upscale mc tq griddata field nx ny nz xt zt f quiet = Err ValueError).
Proof.
  split.
  - intros E. eexists. split; [unfold fitted, shape_eqb; rewrite E; destruct (list_eq_dec _ _ _) as [_|N]; [reflexivity|contradiction N; reflexivity]|reflexivity].
  - intros H mc tq griddata xt zt f quiet. unfold upscale. rewrite (fitted_wrong field nx ny nz H). reflexivity.
Qed.
Print Assumptions C86_shape.
(** but fields of another shape with the same size do not: they are reordered. *)
Theorem C86_shape_refuted : exists field F, shape field = [4; 2]%nat /\ fitted field 2 2 2 = Ok F /\ (forall k, flat field k = INR k) /\ F 1%nat 0%nat 0%nat = 1.
Proof.
  exists (mkArray [4; 2]%nat INR). eexists. split; [reflexivity|]. split; [unfold fitted, shape_eqb; cbn [shape]; destruct (list_eq_dec _ _ _) as [E|_]; [discriminate|reflexivity]|].
  split; [reflexivity|]. cbn. reflexivity.
Qed.
Print Assumptions C86_shape_refuted.
(** A result is returned for every interpolation that never fails, but if progress is to
    be shown, then the function for it is missing if tqdm is installed, and else the
    progress is divided by zero for a single slice. *)
Theorem C86_quiet_refuted mc tq griddata field F nx ny nz xt zt f quiet :
  fitted field nx ny nz = Ok F -> (0 < f)%nat -> (0 < ny)%nat -> (forall pts vals, length pts = length vals -> exists g, griddata pts vals = Ok g) ->
  if quiet || negb (tq || (ny =? 1)%nat) then exists out, upscale mc tq griddata field nx ny nz xt zt f quiet = Ok out
  else upscale mc tq griddata field nx ny nz xt zt f quiet = Err (if tq then NameError else ZeroDivisionError).
Proof. exact (upscale_returns mc tq griddata field F nx ny nz xt zt f quiet). Qed.
Print Assumptions C86_quiet_refuted.
Example C86_case :
  (forall pts vals g, nearest pts vals = Ok g -> NoDup pts -> length vals = length pts -> forall k, (k < length pts)%nat -> g (nth k pts (0, 0)) = nth k vals 0) /\
  (forall nx ny nz F x y z, (x < nx)%nat -> (y < ny)%nat -> (z < nz)%nat -> cell (nx, ny, nz) F (INR x, INR y, INR z) = F x y z) /\
  exists out, upscale cell false nearest (mkArray [2; 3; 2]%nat INR) 2 3 2 (fun x _ _ => INR x) (fun _ _ z => INR z) 4 false = Ok out /\
    nth 4 out (fun _ _ => 0) 1%nat 0%nat = 8 /\ nth 5 out (fun _ _ => 0) 1%nat 0%nat = 8 + 5 / 16.
Proof.
  split; [exact lookup_exact|]. split; [exact cell_nodes|].
  destruct (proj1 (C86_shape (mkArray [2; 3; 2]%nat INR) 2 3 2) eq_refl) as [F [EF HF]].
  destruct (C86_quiet_refuted cell false nearest (mkArray [2; 3; 2]%nat INR) F 2 3 2 (fun x _ _ => INR x) (fun _ _ z => INR z) 4 false EF ltac:(lia) ltac:(lia) (fun pts vals _ => ex_intro _ _ eq_refl)) as [out H].
  exists out. split; [exact H|]. split.
  - pose proof (C86_kept _ _ _ _ _ _ _ _ _ _ _ _ _ lookup_exact EF H 1 1 0 ltac:(lia) ltac:(lia) ltac:(lia)) as V. rewrite HF in V. cbn [flat] in V.
    rewrite INR_IZR_INZ in V. exact V.
  - pose proof (C86_straight _ _ _ _ _ _ _ _ _ _ _ _ _ lookup_exact cell_nodes EF H (fun _ _ _ _ _ _ => conj eq_refl eq_refl) 1 1 0 1 ltac:(lia) ltac:(lia) ltac:(lia) ltac:(lia)) as V.
    rewrite !HF in V. cbn [flat] in V. rewrite !INR_IZR_INZ in V.
    change (nth 5 out (fun _ _ => 0) 1%nat 0%nat = IZR 8 + (3 * (IZR 1 / IZR 4) ^ 2 - 2 * (IZR 1 / IZR 4) ^ 3) * (IZR 10 - IZR 8)) in V. rewrite V. lra.
Qed.
