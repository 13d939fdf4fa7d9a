(** Property C108. *)
From Coq Require Import String List ZArith Reals Bool.
From Verif Require Import Prelude TracerModel FieldModel FieldReal DemandModel DemandSpec DemandProofs.
Import ListNotations.
Open Scope R_scope.

(** C108: with a service that evaluates a field F, the functions of W7X_vacuum_on_demand
    return arrays of the shape of the positions with the components of F along the radius,
    the angle and the height, and Bmag is their modulus. *)
Theorem C108_on_demand answer c k F sh x z phi : set_config c = Ok k -> evaluates answer k F -> positions sh x z phi ->
  let getB := fun x z phi => calc_B answer x z phi c in
  exists Bx By Bz Bm, c_Bx getB x z phi = Ok Bx /\ c_By getB x z phi = Ok By /\ c_Bz getB x z phi = Ok Bz /\ c_Bmag getB x z phi = Ok Bm /\ c_Bxyz getB x z phi = Ok (Bx, By, Bz) /\
    holds Bx sh (fun i => let b := F (place x z phi i) in fst (fst b) * cos (entry phi i) + snd (fst b) * sin (entry phi i)) /\
    holds By sh (fun i => let b := F (place x z phi i) in - fst (fst b) * sin (entry phi i) + snd (fst b) * cos (entry phi i)) /\
    holds Bz sh (fun i => snd (F (place x z phi i))) /\
    holds Bm sh (fun i => sqrt (nth i (ent Bx) 0 ^ 2 + nth i (ent By) 0 ^ 2 + nth i (ent Bz) 0 ^ 2)).
Proof. exact (fun E H => components_hold _ F (service_gives answer c k F E H) sh x z phi). Qed.
Print Assumptions C108_on_demand.
(** The same for FusionSCField. *)
Theorem C108_fusionsc backend F sh x z phi : evaluates_arrays backend F -> positions sh x z phi ->
  let getB := fusionsc_B backend in
  exists Bx By Bz Bm, c_Bx getB x z phi = Ok Bx /\ c_By getB x z phi = Ok By /\ c_Bz getB x z phi = Ok Bz /\ c_Bmag getB x z phi = Ok Bm /\ c_Bxyz getB x z phi = Ok (Bx, By, Bz) /\
    holds Bx sh (fun i => let b := F (place x z phi i) in fst (fst b) * cos (entry phi i) + snd (fst b) * sin (entry phi i)) /\
    holds By sh (fun i => let b := F (place x z phi i) in - fst (fst b) * sin (entry phi i) + snd (fst b) * cos (entry phi i)) /\
    holds Bz sh (fun i => snd (F (place x z phi i))) /\
    holds Bm sh (fun i => sqrt (nth i (ent Bx) 0 ^ 2 + nth i (ent By) 0 ^ 2 + nth i (ent Bz) 0 ^ 2)).
Proof. exact (fun H => components_hold _ F (backend_gives backend F H) sh x z phi). Qed.
Print Assumptions C108_fusionsc.
(** The samples of W7X_vacuum are the values of W7X_vacuum_on_demand at the points of the mesh. *)
Theorem C108_samples answer c k F r phi z : set_config c = Ok k -> evaluates answer k F -> exists Br Bphi Bz,
  c_Bxyz (fun x z phi => calc_B answer x z phi c) (mesh_r r phi z) (mesh_z r phi z) (mesh_phi r phi z) = Ok (Br, Bphi, Bz) /\
  shp Br = [length r; length phi; length z] /\ shp Bphi = [length r; length phi; length z] /\ shp Bz = [length r; length phi; length z] /\
  forall i j l, (i < length r)%nat -> (j < length phi)%nat -> (l < length z)%nat ->
    let n := ((i * length phi + j) * length z + l)%nat in let p := nth j phi 0 in
    let b := F (nth i r 0 * cos p, nth i r 0 * sin p, nth l z 0) in
    nth n (ent Br) 0 = fst (fst b) * cos p + snd (fst b) * sin p /\ nth n (ent Bphi) 0 = - fst (fst b) * sin p + snd (fst b) * cos p /\ nth n (ent Bz) 0 = snd b.
Proof. exact (samples_hold answer c k F r phi z). Qed.
Print Assumptions C108_samples.
(** If turning about the axis by alpha carries F into itself, the components have the period alpha in the angle. *)
Theorem C108_turned F r z phi alpha : F (turn alpha (r * cos phi, r * sin phi, z)) = turn alpha (F (r * cos phi, r * sin phi, z)) ->
  let p := (r * cos phi, r * sin phi, z) in let q := (r * cos (phi + alpha), r * sin (phi + alpha), z) in
  fst (fst (F q)) * cos (phi + alpha) + snd (fst (F q)) * sin (phi + alpha) = fst (fst (F p)) * cos phi + snd (fst (F p)) * sin phi /\
  - fst (fst (F q)) * sin (phi + alpha) + snd (fst (F q)) * cos (phi + alpha) = - fst (fst (F p)) * sin phi + snd (fst (F p)) * cos phi /\ snd (F q) = snd (F p).
Proof. exact (turned F r z phi alpha). Qed.
Print Assumptions C108_turned.
(** No pressure. *)
Theorem C108_pressure x z phi i : shp (c_pressure x z phi) = shp x /\ length (ent (c_pressure x z phi)) = length (ent x) /\ nth i (ent (c_pressure x z phi)) 0 = 0.
Proof. exact (pressure_zero x z phi i). Qed.
Print Assumptions C108_pressure.
(** After one failure of the service the second request counts; configurations that do not
    exist and answers of the wrong size are refused. *)
Theorem C108_retry answer c k sh x z phi e : positions sh x z phi -> set_config c = Ok k -> (forall xs ys zs, answer 0%nat k xs ys zs = Err e) ->
  calc_B answer x z phi c = calc_B (fun _ => answer 1%nat) x z phi c.
Proof. exact (retried answer c k sh x z phi e). Qed.
Print Assumptions C108_retry.
Theorem C108_configuration answer c e sh x z phi : positions sh x z phi -> set_config c = Err e -> calc_B answer x z phi c = Err e.
Proof. exact (config_refused answer c e sh x z phi). Qed.
Print Assumptions C108_configuration.
Theorem C108_size answer c k sh x z phi b1 b2 b3 : positions sh x z phi -> set_config c = Ok k ->
  (forall xs ys zs, answer 0%nat k xs ys zs = Ok (b1, b2, b3)) -> length b1 <> nsize sh \/ length b2 <> nsize sh \/ length b3 <> nsize sh ->
  calc_B answer x z phi c = Err ValueError.
Proof. exact (size_refused answer c k sh x z phi b1 b2 b3). Qed.
Print Assumptions C108_size.
Example C108_example : (exists k, set_config (CInt 0) = Ok k /\ evaluates (fun _ => w_answer 1) k w_F) /\ evaluates_arrays w_backend w_F /\
  (forall alpha p, w_F (turn alpha p) = turn alpha (w_F p)) /\ positions [2%nat] w_x w_z w_phi /\
  (forall k xs ys zs, w_answer 0 k xs ys zs = Err RuntimeError) /\ w_F (1, 0, 0) = (- 0, 1, 2).
Proof. exact (conj (ex_intro _ _ (conj eq_refl (w_evaluates _))) (conj w_backend_ok (conj w_turn (conj w_positions (conj (fun _ _ _ _ => eq_refl) eq_refl))))). Qed.

(** False for positions that numpy would combine: a scalar height beside an array of radii,
    or an array of heights beside scalars, raise. *)
Theorem C108_scalar_refuted answer c sh x z phi :
  (full x -> full phi -> shp x = sh -> shp phi = sh \/ shp phi = [] -> shp z = [] -> sh <> [] -> calc_B answer x z phi c = Err ValueError) /\
  (shp x = [] -> shp phi = [] -> shp z <> [] -> calc_B answer x z phi c = Err ValueError).
Proof. exact (conj (scalar_height answer c sh x z phi) (only_heights answer c x z phi)). Qed.
Print Assumptions C108_scalar_refuted.
Example C108_scalar_example : full w_x /\ full w_phi /\ shp w_x = [2%nat] /\ shp w_phi = [].
Proof. exact (conj eq_refl (conj eq_refl (conj eq_refl eq_refl))). Qed.
