(** Properties C61, C62, C73, C74, C75 and C79. *)
From Coq Require Import List Reals Lra Lia.
From Verif Require Import Prelude FieldReal CoilSpec CoilProofs CoilThms VmecProofs CoilWitness.
Import ListNotations.
Open Scope R_scope.

(** C61: away from the coils Bx = -dA/dz and Bz = dA/dx, *)
Theorem C61_flux_function p x z phi : away (coil_list p phi) x z ->
  d_z (Afunc p) x z phi (- Bxfunc p x z phi) /\ d_x (Afunc p) x z phi (Bzfunc p x z phi).
Proof. exact (stell_flux p x z phi). Qed.
Print Assumptions C61_flux_function.
(** the field of the straight stellarator has no divergence, *)
Theorem C61_divergence_free p x z phi : away (coil_list p phi) x z -> cartesian_divergence (Bxfunc p) one (Bzfunc p) x z phi 0.
Proof. exact (stell_divergence p x z phi). Qed.
Print Assumptions C61_divergence_free.
(** and with the coils held at one position the lines stay on one value of A, whatever
    the toroidal field. *)
Theorem C61_frozen p phi By Rm X Z a b : a <= b ->
  field_line (fun x z _ => Bxfunc p x z phi) By (fun x z _ => Bzfunc p x z phi) Rm X Z a b ->
  (forall s, a <= s <= b -> away (coil_list p phi) (X s) (Z s)) -> Afunc p (X b) (Z b) phi = Afunc p (X a) (Z a) phi.
Proof. exact (stell_frozen p phi By Rm X Z a b). Qed.
Print Assumptions C61_frozen.
(** The rotating ellipse uses the same field in cylindrical coordinates, where its
    divergence is Bx / R, *)
Theorem C61_rotating_ellipse p Btor x z phi : away (coil_list p phi) x z -> x <> 0 ->
  cylindrical_divergence (Bxfunc p) (ellipse_Byfunc Btor) (Bzfunc p) x z phi (Bxfunc p x z phi / x).
Proof. exact (ellipse_divergence p Btor x z phi). Qed.
Print Assumptions C61_rotating_ellipse.
(** so that it is not divergence free. *)
Theorem C61_rotating_ellipse_refuted : ~ forall p Btor x z phi, away (coil_list p phi) x z -> x <> 0 ->
  cylindrical_divergence (Bxfunc p) (ellipse_Byfunc Btor) (Bzfunc p) x z phi 0.
Proof. exact ellipse_sources. Qed.
Print Assumptions C61_rotating_ellipse_refuted.
Example C61_example : away (coil_list w_stell 0) 2 (1 / 2) /\ Bxfunc w_stell 2 (1 / 2) 0 = 32 / 75 /\
  radius w_stell <> 0 /\
  field_line (fun x z _ => Bxfunc w_stell x z 0) one (fun x z _ => Bzfunc w_stell x z 0) one (fun _ => xcentre w_stell) (fun _ => zcentre w_stell) 0 1.
Proof.
  assert (N : radius w_stell <> 0) by (cbn; lra).
  split; [exact w_away|]. split; [exact w_Bx|]. split; [exact N|]. exact (axis_frozen w_stell 0 0 1 N).
Qed.

(** C62: every real space array is the sum of the modes, with m theta + n zeta; *)
Theorem C62_cfunct xm xn th ze c : fits xm xn c ->
  cfunct xm xn th ze c = Ok (table (fun row t z => series cos (modes row xm xn) t z) c th ze).
Proof. exact (transform_ok false xm xn th ze c). Qed.
Print Assumptions C62_cfunct.
Theorem C62_sfunct xm xn th ze c : fits xm xn c ->
  sfunct xm xn th ze c = Ok (table (fun row t z => series sin (modes row xm xn) t z) c th ze).
Proof. exact (transform_ok true xm xn th ze c). Qed.
Print Assumptions C62_sfunct.
(** coefficients and modes that do not match are refused. *)
Theorem C62_refused xm xn th ze c : ~ fits xm xn c -> c <> [] -> cfunct xm xn th ze c = Err ValueError /\ sfunct xm xn th ze c = Err ValueError.
Proof. exact (fun N E => conj (transform_misfit false xm xn th ze c N E) (transform_misfit true xm xn th ze c N E)). Qed.
Print Assumptions C62_refused.
(** For up-down symmetric equilibria R and Z are the two series, *)
Theorem C62_positions v th ze : asym v = None -> fits (xm v) (xn v) (rmnc v) -> fits (xm v) (xn v) (zmns v) ->
  vmec_r v th ze = Ok (table (fun row t z => series cos (modes row (xm v) (xn v)) t z) (rmnc v) th ze) /\
  vmec_z v th ze = Ok (table (fun row t z => series sin (modes row (xm v) (xn v)) t z) (zmns v) th ze).
Proof. exact (vmec_positions v th ze). Qed.
Print Assumptions C62_positions.
(** the four arrays of derivatives are their derivatives, *)
Theorem C62_derivatives v th ze k j l : asym v = None -> fits (xm v) (xn v) (rmnc v) -> fits (xm v) (xn v) (zmns v) ->
  (k < length (rmnc v))%nat -> (k < length (zmns v))%nat -> (j < length th)%nat -> (l < length ze)%nat ->
  exists drdu drdv dzdu dzdv, vmec_drdu v th ze = Ok drdu /\ vmec_drdv v th ze = Ok drdv /\ vmec_dzdu v th ze = Ok dzdu /\ vmec_dzdv v th ze = Ok dzdv /\
  let r := series cos (modes (nth k (rmnc v) []) (xm v) (xn v)) in
  let z := series sin (modes (nth k (zmns v) []) (xm v) (xn v)) in
  derivable_pt_lim (fun t => r t (nth l ze 0)) (nth j th 0) (entry drdu k j l) /\
  derivable_pt_lim (fun s => r (nth j th 0) s) (nth l ze 0) (entry drdv k j l) /\
  derivable_pt_lim (fun t => z t (nth l ze 0)) (nth j th 0) (entry dzdu k j l) /\
  derivable_pt_lim (fun s => z (nth j th 0) s) (nth l ze 0) (entry dzdv k j l).
Proof. exact (vmec_slopes v th ze k j l). Qed.
Print Assumptions C62_derivatives.
(** and the components of B in R and Z are the velocities in R and Z of a point on the
    surface moving with (bu, bv) in the angles, the toroidal one is R times the rate of the toroidal
    angle: B is tangent to the surface. *)
Theorem C62_tangent v th ze bu bv k j l U V s : asym v = None -> fits (xm v) (xn v) (rmnc v) -> fits (xm v) (xn v) (zmns v) ->
  (k < length (rmnc v))%nat -> (k < length (zmns v))%nat -> (j < length th)%nat -> (l < length ze)%nat ->
  has_entry bu k j l -> has_entry bv k j l ->
  U s = nth j th 0 -> V s = nth l ze 0 ->
  derivable_pt_lim U s (entry bu k j l) -> derivable_pt_lim V s (entry bv k j l) ->
  exists drdu drdv dzdu dzdv, vmec_drdu v th ze = Ok drdu /\ vmec_drdv v th ze = Ok drdv /\ vmec_dzdu v th ze = Ok dzdu /\ vmec_dzdv v th ze = Ok dzdv /\
  derivable_pt_lim (fun s' => series cos (modes (nth k (rmnc v) []) (xm v) (xn v)) (U s') (V s')) s (entry (vmec_br bu bv drdu drdv) k j l) /\
  derivable_pt_lim (fun s' => series sin (modes (nth k (zmns v) []) (xm v) (xn v)) (U s') (V s')) s (entry (vmec_br bu bv dzdu dzdv) k j l) /\
  exists r, vmec_r v th ze = Ok r /\ entry (vmec_bphi r bv) k j l = series cos (modes (nth k (rmnc v) []) (xm v) (xn v)) (U s) (V s) * entry bv k j l.
Proof. exact (vmec_tangent v th ze bu bv k j l U V s). Qed.
Print Assumptions C62_tangent.
(** Not so for the asymmetric ones: rmns does not enter R at all, *)
Theorem C62_asymmetric_refuted : ~ forall v rmns zmnc th ze r, asym v = Some (rmns, zmnc) ->
  fits (xm v) (xn v) (rmnc v) -> fits (xm v) (xn v) rmns -> vmec_r v th ze = Ok r ->
  forall k j l, has_entry r k j l ->
    entry r k j l = series cos (modes (nth k (rmnc v) []) (xm v) (xn v)) (nth j th 0) (nth l ze 0) + series sin (modes (nth k rmns []) (xm v) (xn v)) (nth j th 0) (nth l ze 0).
Proof. exact asym_r_refuted. Qed.
Print Assumptions C62_asymmetric_refuted.
(** and its derivatives have the wrong sign. *)
Theorem C62_asymmetric_slope_refuted : ~ forall v rmns zmnc th ze d, asym v = Some (rmns, zmnc) ->
  fits (xm v) (xn v) (rmnc v) -> fits (xm v) (xn v) rmns -> vmec_drdu v th ze = Ok d ->
  forall k j l, has_entry d k j l ->
    derivable_pt_lim (fun t => series cos (modes (nth k (rmnc v) []) (xm v) (xn v)) t (nth l ze 0) + series sin (modes (nth k rmns []) (xm v) (xn v)) t (nth l ze 0))
      (nth j th 0) (entry d k j l).
Proof. exact asym_slope_refuted. Qed.
Print Assumptions C62_asymmetric_slope_refuted.
Example C62_example : asym w_circle = None /\ fits (xm w_circle) (xn w_circle) (rmnc w_circle) /\ fits (xm w_circle) (xn w_circle) (zmns w_circle) /\
  length (angles 5) = 5%nat /\ nth 1 (angles 5) 0 = PI / 2 /\ has_entry [[[1]; [1]; [1]; [1]; [1]]] 0 1 0 /\
  ~ fits (xm w_circle) (xn w_circle) [[1]].
Proof.
  split; [reflexivity|]. split; [apply w_circle_fits|]. split; [apply w_circle_fits|]. split; [reflexivity|]. split; [apply w_angle|].
  split; [apply w_circle_has; lia|]. intros [_ F]. apply Forall_inv in F. discriminate F.
Qed.

(** C73: along the field lines of the straight stellarator, with its turning coils,
    A - iota / 2 * r^2 is constant: they lie on surfaces that turn with the coils. *)
Theorem C73_helical_surfaces p X Z a b : a <= b -> field_line (Bxfunc p) one (Bzfunc p) one X Z a b ->
  (forall s, a <= s <= b -> away (coil_list p s) (X s) (Z s)) ->
  Afunc p (X b) (Z b) b - iota p / 2 * ((X b - xcentre p) ^ 2 + (Z b - zcentre p) ^ 2) =
  Afunc p (X a) (Z a) a - iota p / 2 * ((X a - xcentre p) ^ 2 + (Z a - zcentre p) ^ 2).
Proof. exact (stell_helical p X Z a b). Qed.
Print Assumptions C73_helical_surfaces.
(** The field changes sign with every quarter of the period (the coils have turned by one), and
    repeats with yperiod / 2 and so with yperiod. *)
Theorem C73_quarter p x z phi : yperiod p <> 0 ->
  Afunc p x z (phi + yperiod p / 4) = - Afunc p x z phi /\ Bxfunc p x z (phi + yperiod p / 4) = - Bxfunc p x z phi /\ Bzfunc p x z (phi + yperiod p / 4) = - Bzfunc p x z phi.
Proof. exact (stell_quarter p x z phi). Qed.
Print Assumptions C73_quarter.
Example C73_example p : radius p <> 0 -> field_line (Bxfunc p) one (Bzfunc p) one (fun _ => xcentre p) (fun _ => zcentre p) 0 1 /\
  forall s, 0 <= s <= 1 -> away (coil_list p s) (xcentre p) (zcentre p).
Proof. intros N. split; [exact (axis_line p 0 1 N)|]. intros s _. exact (axis_away p s N). Qed.

(** C74: the lines of a G-EQDSK field keep their flux, *)
Theorem C74_flux_surfaces g X Z a b : a <= b -> field_line (gq_Bx g) (gq_By g) (gq_Bz g) (gq_R g) X Z a b ->
  (forall s, a <= s <= b -> X s <> 0 /\ differentiable2 (psi_func g) (X s) (Z s) (psi_dx g (X s) (Z s)) (psi_dy g (X s) (Z s))) ->
  psi_func g (X b) (Z b) = psi_func g (X a) (Z a).
Proof. exact (gq_psi g X Z a b). Qed.
Print Assumptions C74_flux_surfaces.
(** and the field has no divergence where the mixed derivatives of the flux agree. *)
Theorem C74_divergence_free g x z phi m : x <> 0 ->
  derivable_pt_lim (fun x' => psi_dy g x' z) x m -> derivable_pt_lim (fun z' => psi_dx g x z') z m ->
  cylindrical_divergence (gq_Bx g) (gq_By g) (gq_Bz g) x z phi 0.
Proof. exact (gq_divergence g x z phi m). Qed.
Print Assumptions C74_divergence_free.
(** The poloidal field is that of the flux and R times the toroidal field the current function, *)
Theorem C74_components g x z phi : x <> 0 ->
  x * gq_Bx g x z phi = - psi_dy g x z /\ x * gq_Bz g x z phi = psi_dx g x z /\ x * gq_By g x z phi = f_spl g (psinorm_func g x z).
Proof. exact (gq_components g x z phi). Qed.
Print Assumptions C74_components.
(** which is constant along a line where the normalised flux is a function of the flux. *)
Theorem C74_toroidal g X Z a b h : a <= b -> field_line (gq_Bx g) (gq_By g) (gq_Bz g) (gq_R g) X Z a b ->
  (forall s, a <= s <= b -> X s <> 0 /\ differentiable2 (psi_func g) (X s) (Z s) (psi_dx g (X s) (Z s)) (psi_dy g (X s) (Z s))) ->
  (forall s, a <= s <= b -> psinorm_func g (X s) (Z s) = h (psi_func g (X s) (Z s))) ->
  X b * gq_By g (X b) (Z b) b = X a * gq_By g (X a) (Z a) a.
Proof. exact (gq_rby g X Z a b h). Qed.
Print Assumptions C74_toroidal.
Example C74_example : field_line (gq_Bx w_gq) (gq_By w_gq) (gq_Bz w_gq) (gq_R w_gq) (fun s => 1 / (1 + s)) (fun s => 1 + s) 0 1 /\
  (forall x z, differentiable2 (psi_func w_gq) x z (psi_dx w_gq x z) (psi_dy w_gq x z)) /\
  derivable_pt_lim (fun x' => psi_dy w_gq x' 1) 1 1 /\ derivable_pt_lim (fun z' => psi_dx w_gq 1 z') 1 1.
Proof. split; [exact w_gq_line|]. split; [exact w_gq_diff|]. split; exact (d_id 1). Qed.

(** C75: the lines of a screw pinch are circles about its centre, on which A is constant; *)
Theorem C75_circles p By Rm X Z a b : a <= b -> field_line (sp_Bx p) By (sp_Bz p) Rm X Z a b ->
  sp_r p (X b) (Z b) = sp_r p (X a) (Z a) /\ sp_A p (X b) (Z b) b = sp_A p (X a) (Z a) a.
Proof. exact (sp_circles p By Rm X Z a b). Qed.
Print Assumptions C75_circles.
(** the field is r / 2 times the one of the flux function A; *)
Theorem C75_ratio p x z phi : exists ax az, d_x (sp_A p) x z phi ax /\ d_z (sp_A p) x z phi az /\
  sp_Bx p x z phi = sp_r p x z / 2 * (- az) /\ sp_Bz p x z phi = sp_r p x z / 2 * ax.
Proof. exact (sp_ratio p x z phi). Qed.
Print Assumptions C75_ratio.
(** so that A is not its flux function, *)
Theorem C75_flux_function_refuted : ~ forall p x z phi, d_x (sp_A p) x z phi (sp_Bz p x z phi).
Proof. exact sp_not_flux. Qed.
Print Assumptions C75_flux_function_refuted.
(** and the divergence is Bx / R. *)
Theorem C75_divergence p x z phi : x <> sp_x p \/ z <> sp_z p -> x <> 0 ->
  cylindrical_divergence (sp_Bx p) (sp_By p) (sp_Bz p) x z phi (sp_Bx p x z phi / x).
Proof. exact (sp_divergence p x z phi). Qed.
Print Assumptions C75_divergence.
Example C75_example : field_line (sp_Bx w_sp) one (sp_Bz w_sp) one cos sin 0 (PI / 2).
Proof. exact (circle_line 0 (PI / 2)). Qed.

(** C79: the change to cylindrical components keeps the strength of the field *)
Theorem C79_strength b phi : Bmag (Br_of b phi) (Bphi_of b phi) (snd b) = Bmag (fst (fst b)) (snd (fst b)) (snd b).
Proof. exact (rotate_strength b phi). Qed.
Print Assumptions C79_strength.
(** and is the projection on the unit vectors (cos phi, sin phi) and (- sin phi, cos phi):
    the Cartesian components are found again from it. *)
Theorem C79_inverse b phi : Br_of b phi * cos phi - Bphi_of b phi * sin phi = fst (fst b) /\ Br_of b phi * sin phi + Bphi_of b phi * cos phi = snd (fst b).
Proof. exact (rotate_back b phi). Qed.
Print Assumptions C79_inverse.
Example C79_example : Br_of (1, 2, 3) 0 = 1 /\ Bphi_of (1, 2, 3) 0 = 2 /\ Br_of (1, 2, 3) (PI / 2) = 2 /\ Bphi_of (1, 2, 3) (PI / 2) = -1.
Proof. unfold Br_of, Bphi_of. cbn [fst snd]. rewrite cos_0, sin_0, cos_PI2, sin_PI2. repeat split; ring. Qed.
