(** Properties C56 to C59 and C72: the finite-volume operator. *)
From Coq Require Import List ZArith QArith Bool.
From Verif Require Import Prelude PolModel DagpModel DagpSpec DagpProofs DagpLinear DagpThms DagpVolume
  DagpRect DagpWitness DagpDoit.
Import ListNotations.
Open Scope Q_scope.

(** C56: the operator is the sum of the outward fluxes through the four faces
    of a cell; what leaves one cell enters the next. *)
Theorem C56_flux_form nx nz cX cZ f i j k : (1 <= i < nx - 1)%Z ->
  apply_op nx nz cX cZ f i j k ==
  flux_through_x nz cX f i j k - flux_through_x nz cX f (i - 1) j k
  + flux_through_z nz cZ f i j k - flux_through_z nz cZ f i j ((k - 1) mod nz).
Proof. exact (apply_op_cell nx nz cX cZ f i j k). Qed.
Print Assumptions C56_flux_form.
(** C56: for any coefficients and field, the sum over a poloidal plane is the
    flux through the outermost radial faces minus the flux through the innermost. *)
Theorem C56_conservative nx nz cX cZ f j : (2 <= nx)%Z -> (0 < nz)%Z ->
  sum_over 0 nx (fun i => sum_over 0 nz (fun k => apply_op nx nz cX cZ f i j k)) ==
  sum_over 0 nz (fun k => flux_through_x nz cX f (nx - 2) j k)
  - sum_over 0 nz (fun k => flux_through_x nz cX f 0 j k).
Proof. exact (conservative nx nz cX cZ f j). Qed.
Print Assumptions C56_conservative.
(** C56: constants are annihilated, for any coefficients. *)
Theorem C56_constants nx nz cX cZ f j : (0 < nz)%Z ->
  (forall i i' k k', (0 <= i < nx)%Z -> (0 <= i' < nx)%Z -> (0 <= k < nz)%Z -> (0 <= k' < nz)%Z ->
     f i j k == f i' j k') ->
  forall i k, (0 <= i < nx)%Z -> (0 <= k < nz)%Z -> apply_op nx nz cX cZ f i j k == 0.
Proof. exact (constants nx nz cX cZ f j). Qed.
Print Assumptions C56_constants.
Example C56_example :
  apply_op 4 3 (fun i _ k => (inject_Z i, 1 + inject_Z k)) (fun _ _ _ => (2, 3))
    (fun i _ k => inject_Z (i * i * k + k * k * k)) 1 0 2 == -58.
Proof. vm_compute. reflexivity. Qed.

(** C57: with the coefficients of any structured slab geometry, functions linear
    in R and Z are annihilated in every interior cell. *)
Theorem C57_linear sqrt junk pols vol cX cZ a b c j p i k :
  root_like sqrt -> doit sqrt junk pols true = Ok (vol, cX, cZ) ->
  (forall q, In q pols -> structured q) -> nth_error pols j = Some p ->
  (1 <= i < p_nx p - 1)%Z -> (0 <= k < p_nz p)%Z ->
  apply_op (p_nx p) (p_nz p) cX cZ (linear_on p a b c) i (Z.of_nat j) k == 0.
Proof. exact (doit_linear sqrt junk pols vol cX cZ a b c j p i k). Qed.
Print Assumptions C57_linear.
(** In toroidal geometry Z and constants are annihilated and the operator applied to
    R (times the volume) is the area of the cell. *)
Theorem C57_toroidal sqrt junk pols vol cX cZ a b c j p i k :
  root_like sqrt -> doit sqrt junk pols false = Ok (vol, cX, cZ) ->
  (forall q, In q pols -> structured q) -> nth_error pols j = Some p ->
  (1 <= i < p_nx p - 1)%Z -> (0 <= k < p_nz p)%Z ->
  apply_op (p_nx p) (p_nz p) cX cZ (linear_on p a b c) i (Z.of_nat j) k ==
  a * (- polygon_area2 (cell_polygon p i k) / 2).
Proof. exact (doit_toroidal sqrt junk pols vol cX cZ a b c j p i k). Qed.
Print Assumptions C57_toroidal.
(** On rectangular grids with three or more poloidal points [doit] always succeeds
    and gives the five-point Laplacian (with the weight R in toroidal geometry). *)
Theorem C57_rectangular sqrt junk s rs nx nz Lz :
  root_like sqrt -> rs <> [] -> (forall r, In r rs -> rectangular nx nz Lz r) ->
  (4 <= nx)%Z -> (3 <= nz)%Z -> 0 < Lz ->
  exists vol cX cZ, doit sqrt junk (map (fun r => of_rect r Lz) rs) s = Ok (vol, cX, cZ) /\
  forall j r, nth_error rs j = Some r ->
  forall i k, (1 <= i < nx - 1)%Z -> (0 <= k < nz)%Z ->
    let R x := major_radius s r x in
    vol i (Z.of_nat j) k == r_dR r * r_dZ r * R (inject_Z i) /\
    forall f, apply_op nx nz cX cZ f i (Z.of_nat j) k ==
      r_dR r * r_dZ r *
      ((R (inject_Z i + (1#2)) * (f (i + 1)%Z (Z.of_nat j) k - f i (Z.of_nat j) k)
        - R (inject_Z i - (1#2)) * (f i (Z.of_nat j) k - f (i - 1)%Z (Z.of_nat j) k)) / (r_dR r * r_dR r)
       + R (inject_Z i) * (f i (Z.of_nat j) ((k + 1) mod nz)%Z - 2 * f i (Z.of_nat j) k
          + f i (Z.of_nat j) ((k - 1) mod nz)%Z) / (r_dZ r * r_dZ r)).
Proof. exact (rect_total sqrt junk s rs nx nz Lz). Qed.
Print Assumptions C57_rectangular.
Example C57_example : root_like root0 /\ structured diamond /\
  (forall s, exists vol cX cZ, doit root0 (fun _ _ _ => 0) [diamond; diamond] s = Ok (vol, cX, cZ)) /\
  exists r, rectangular 5 4 12 r /\ r_dR r == 2 /\ r_dZ r == 3.
Proof. exact (conj root0_like (conj diamond_structured (conj diamond_result small_rect_rectangular))). Qed.

(** C58: slab volumes are the areas of the cell polygons, positive for right-handed
    cells; [C57_rectangular] gives the values on rectangular grids. *)
Theorem C58_polygon sqrt junk pols vol cX cZ j p i k :
  doit sqrt junk pols true = Ok (vol, cX, cZ) -> nth_error pols j = Some p -> extensional (p_coord p) ->
  (1 <= i < p_nx p - 1)%Z ->
  vol i (Z.of_nat j) k == - polygon_area2 (cell_polygon p i k) / 2 /\
  (right_handed p i k -> 0 < vol i (Z.of_nat j) k).
Proof. exact (doit_polygon sqrt junk pols vol cX cZ j p i k). Qed.
Print Assumptions C58_polygon.
Theorem C58_rectangular s r Lz i k :
  cell_volume s (of_rect r Lz) i k == r_dR r * r_dZ r * (if s then 1 else r_Rmin r + inject_Z i * r_dR r).
Proof. exact (rect_volume s r Lz i k). Qed.
Print Assumptions C58_rectangular.
Example C58_example : right_handed diamond 1 0 /\ cell_volume true diamond 1 0 == red_volume true diamond 1 0
  /\ red_volume true diamond 1 0 == 723 # 242.
Proof.
  split; [exact diamond_right_handed|]. split; [exact (red_volume_eq true diamond 1 0 diamond_ext)|].
  vm_compute. reflexivity.
Qed.
(** C58, false in toroidal geometry: the edges are integrated with the midpoint rule,
    and a thin right-handed cell at R >= 1 gets a negative volume. *)
Theorem C58_toroidal_refuted :
  ~ forall p i k, extensional (p_coord p) -> right_handed p i k ->
      (forall m, (m < 44)%nat -> 1 <= fst (boundary_point p i k m)) -> 0 < cell_volume false p i k.
Proof.
  intros H. destruct thin_witness as (A & B & C & D).
  exact (Qlt_irrefl 0 (Qlt_trans _ _ _ (H thin 1%Z 0%Z A B C) D)).
Qed.
Print Assumptions C58_toroidal_refuted.
(** C58, the first and last radial rows of the volume that is written are whatever
    memory [np.empty] returned. *)
Theorem C58_edge_rows_refuted sqrt junk pols vol cX cZ s j p i k :
  doit sqrt junk pols s = Ok (vol, cX, cZ) -> nth_error pols j = Some p ->
  (i = 0 \/ i = p_nx p - 1)%Z -> vol i (Z.of_nat j) k = junk i (Z.of_nat j) k.
Proof. exact (doit_edge_rows sqrt junk pols vol cX cZ s j p i k). Qed.
Print Assumptions C58_edge_rows_refuted.

(** C59: loading what was written gives back all coefficients and volumes. *)
Theorem C59_roundtrip nx vol cX cZ : exists fl vol' cX' cZ',
  write nx (nx - 1) (nx - 2) vol cX cZ = Ok fl /\ load nx fl = Ok (vol', cX', cZ') /\
  (forall i j k, vol' i j k = vol i j k) /\
  (forall i j k, (0 <= i < nx - 1)%Z -> cX' i j k = cX i j k) /\
  (forall i j k, (0 <= i < nx - 2)%Z -> cZ' i j k = cZ i j k).
Proof. exact (roundtrip nx vol cX cZ). Qed.
Print Assumptions C59_roundtrip.
Example C59_example :
  match write 5 4 3 (fun i j k => inject_Z (i + j + k)) (fun i j k => (inject_Z i, inject_Z k))
              (fun i j k => (inject_Z j, inject_Z (i * k))) with
  | Ok fl => match load 5 fl with
             | Ok (v, x, z) => Qeq_bool (v 4 1 2)%Z 7 && Qeq_bool (fst (x 3 0 1)%Z) 3
                               && Qeq_bool (snd (z 2 1 2)%Z) 4
             | Err _ => false end
  | Err _ => false end = true.
Proof. vm_compute. reflexivity. Qed.

(** C72: grids that do not fit together are refused. *)
Theorem C72_refuses sqrt junk pols s :
  (pols = [] \/ (exists p q, In p pols /\ In q pols /\
     (p_nx p <> p_nx q \/ p_nz p <> p_nz q \/ (p_Lz p = None /\ p_Lz q <> None) \/
      exists l l', p_Lz p = Some l /\ p_Lz q = Some l' /\ ~ l == l')) \/
   (exists p, In p pols /\ (p_nx p < 4)%Z)) ->
  exists e, doit sqrt junk pols s = Err e.
Proof. exact (doit_refuses sqrt junk pols s). Qed.
Print Assumptions C72_refuses.
(** With one or two poloidal points the system for the radial faces is singular. *)
Theorem C72_few_points sqrt junk pols s nz : (forall p, In p pols -> p_nz p = nz) -> (1 <= nz <= 2)%Z ->
  (forall p l, In p pols -> p_Lz p = Some l -> 0 < l) ->
  exists e, doit sqrt junk pols s = Err e.
Proof. exact (few_points sqrt junk pols s nz). Qed.
Print Assumptions C72_few_points.
Theorem C72_same_values l : (exists v, getSame l = Ok v) <-> (l <> [] /\ exists v, forall x, In x l -> x == v).
Proof.
  split.
  - intros [v H]. destruct (getSame_inv l v H) as [A B]. exact (conj A (ex_intro _ v B)).
  - intros [A [v B]]. destruct (getSame_all l v A B) as (w & H & _). exact (ex_intro _ w H).
Qed.
Print Assumptions C72_same_values.
Example C72_example : doit root0 (fun _ _ _ => 0) [of_rect small_rect 12; of_rect small_rect 11] true = Err ValueError /\
  doit root0 (fun _ _ _ => 0) [diamond; of_rect small_rect 12] true = Err ValueError /\
  is_ok (doit root0 (fun _ _ _ => 0) [of_rect small_rect 12] true) = true.
Proof. vm_compute. repeat split. Qed.
