(** Property C107. *)
From Coq Require Import List ZArith QArith Qabs Bool.
From Verif Require Import Prelude BoundaryModel BoundarySpec BoundaryWitness GeqdskModel GeqdskSpec GeqdskProofs GeqdskWitness.
Import ListNotations.
Open Scope Q_scope.

(** C107: the axes.  The second axis of the array in the file is the major radius. *)
Theorem C107_axes rect_spline line_spline d o g : through_mesh rect_spline -> through_line line_spline ->
  geqdsk_init rect_spline line_spline d = (o, Ok g) ->
  length (gr g) = len1 (psirz d) /\ length (gz g) = len0 (psirz d) /\ length (fpol d) = len1 (psirz d) /\ length (pres d) = len1 (psirz d) /\
  (forall i, (i < len1 (psirz d))%nat -> nth i (gr g) 0 == rleft d + inject_Z (Z.of_nat i) * (rdim d / inject_Z (Z.of_nat (len1 (psirz d) - 1)))) /\
  (forall j, (j < len0 (psirz d))%nat -> nth j (gz g) 0 == zmid d - zdim d / 2 + inject_Z (Z.of_nat j) * (zdim d / inject_Z (Z.of_nat (len0 (psirz d) - 1)))).
Proof.
  exact (fun Hr Hl E => let S := built_sizes rect_spline line_spline Hr Hl d o g E in
    conj (proj1 (proj2 (proj2 (proj2 (proj2 S))))) (conj (proj2 (proj2 (proj2 (proj2 (proj2 S))))) (conj (proj1 (proj2 (proj2 S))) (conj (proj1 (proj2 (proj2 (proj2 S))))
      (built_axes rect_spline line_spline Hr Hl d o g E))))).
Qed.
Print Assumptions C107_axes.
(** the flux at the nodes, which is also what is entered as the attribute psi, *)
Theorem C107_flux rect_spline line_spline d o g i j : through_mesh rect_spline ->
  geqdsk_init rect_spline line_spline d = (o, Ok g) -> (i < len1 (psirz d))%nat -> (j < len0 (psirz d))%nat ->
  same (ev (gpsi g) (nth i (gr g) 0) (nth j (gz g) 0)) (Some (cell (psirz d) j i)) /\ o = Some (gpsi g).
Proof. exact (fun Hr E Hi Hj => conj (built_flux rect_spline line_spline Hr d o g i j E Hi Hj) (psi_entered rect_spline line_spline d o g E)). Qed.
Print Assumptions C107_flux.
(** Bx and Bz, which depend on nothing but the flux and the axes, *)
Theorem C107_poloidal rect_spline line_spline d d' o o' g g' x z :
  geqdsk_init rect_spline line_spline d = (o, Ok g) -> geqdsk_init rect_spline line_spline d' = (o', Ok g') ->
  rleft d = rleft d' -> rdim d = rdim d' -> zmid d = zmid d' -> zdim d = zdim d' -> psirz d = psirz d' ->
  gBx g x z = gBx g' x z /\ gBz g x z = gBz g' x z.
Proof. exact (poloidal_only_psi rect_spline line_spline d d' o o' g g' x z). Qed.
Print Assumptions C107_poloidal.
(** being minus its derivative along z and its derivative along x, over the radius; *)
Theorem C107_components g x z vx vz : ~ x == 0 -> ev_dx (gpsi g) x z = Some vx -> ev_dy (gpsi g) x z = Some vz ->
  same (gBx g x z) (Some (- vz / x)) /\ same (gBz g x z) (Some (vx / x)).
Proof. exact (components g x z vx vz). Qed.
Print Assumptions C107_components.
(** the profiles at a node that the polygon test puts in the core: the entry for its
    normalised flux, the last one beyond the edge, the first one below the axis, *)
Theorem C107_inside rect_spline line_spline d o g core i j : through_mesh rect_spline -> through_line line_spline ->
  geqdsk_init rect_spline line_spline d = (o, Ok g) -> polygon_init (rbdry d) (zbdry d) = Ok core ->
  (i < len1 (psirz d))%nat -> (j < len0 (psirz d))%nat -> let x := nth i (gr g) 0 in let z := nth j (gz g) 0 in
  polygon_outside core x z = Ok false -> ~ sibdry d == simagx d ->
  let t := (cell (psirz d) j i - simagx d) / (sibdry d - simagx d) in
  same (ev (gnorm g) x z) (Some t) /\
  (forall k, (k < len1 (psirz d))%nat -> t == inject_Z (Z.of_nat k) / inject_Z (Z.of_nat (len1 (psirz d) - 1)) ->
     (~ x == 0 -> same (gBy g x z) (Some (nth k (fpol d) 0 / x))) /\ same (gpressure g x z) (Some (nth k (pres d) 0))) /\
  (1 <= t -> (~ x == 0 -> same (gBy g x z) (Some (last (fpol d) 0 / x))) /\ same (gpressure g x z) (Some (last (pres d) 0))) /\
  (t <= 0 -> (~ x == 0 -> same (gBy g x z) (Some (nth 0 (fpol d) 0 / x))) /\ same (gpressure g x z) (Some (nth 0 (pres d) 0))).
Proof. exact (fun Hr Hl E Ec Hi Hj => node_inside rect_spline line_spline Hr Hl d o g core i j E Ec Hi Hj). Qed.
Print Assumptions C107_inside.
(** so that R By and the pressure are functions of the flux there, *)
Theorem C107_flux_function rect_spline line_spline d o g core i j i' j' : through_mesh rect_spline -> through_line line_spline ->
  geqdsk_init rect_spline line_spline d = (o, Ok g) -> polygon_init (rbdry d) (zbdry d) = Ok core -> ~ sibdry d == simagx d ->
  (i < len1 (psirz d))%nat -> (j < len0 (psirz d))%nat -> (i' < len1 (psirz d))%nat -> (j' < len0 (psirz d))%nat ->
  polygon_outside core (nth i (gr g) 0) (nth j (gz g) 0) = Ok false -> polygon_outside core (nth i' (gr g) 0) (nth j' (gz g) 0) = Ok false ->
  cell (psirz d) j i == cell (psirz d) j' i' ->
  exists f p, (~ nth i (gr g) 0 == 0 -> same (gBy g (nth i (gr g) 0) (nth j (gz g) 0)) (Some (f / nth i (gr g) 0))) /\
    (~ nth i' (gr g) 0 == 0 -> same (gBy g (nth i' (gr g) 0) (nth j' (gz g) 0)) (Some (f / nth i' (gr g) 0))) /\
    same (gpressure g (nth i (gr g) 0) (nth j (gz g) 0)) (Some p) /\ same (gpressure g (nth i' (gr g) 0) (nth j' (gz g) 0)) (Some p).
Proof. exact (fun Hr Hl => flux_function rect_spline line_spline Hr Hl d o g core i j i' j'). Qed.
Print Assumptions C107_flux_function.
(** and the last entries at a node it puts outside. *)
Theorem C107_outside rect_spline line_spline d o g core i j : through_mesh rect_spline -> through_line line_spline ->
  geqdsk_init rect_spline line_spline d = (o, Ok g) -> polygon_init (rbdry d) (zbdry d) = Ok core ->
  (i < len1 (psirz d))%nat -> (j < len0 (psirz d))%nat -> let x := nth i (gr g) 0 in let z := nth j (gz g) 0 in
  polygon_outside core x z = Ok true ->
  (~ x == 0 -> same (gBy g x z) (Some (last (fpol d) 0 / x))) /\ same (gpressure g x z) (Some (last (pres d) 0)).
Proof. exact (fun Hr Hl E Ec Hi Hj => node_outside rect_spline line_spline Hr Hl d o g core i j E Ec Hi Hj). Qed.
Print Assumptions C107_outside.
(** Partial: with a convex core the last entries are used at every node out of it that is
    below or above none of its corners. *)
Theorem C107_convex_partial rect_spline line_spline d o g i j s vs : through_mesh rect_spline -> through_line line_spline ->
  geqdsk_init rect_spline line_spline d = (o, Ok g) -> (i < len1 (psirz d))%nat -> (j < len0 (psirz d))%nat ->
  rbdry d = map fst vs -> zbdry d = map snd vs -> ~ s == 0 -> convex s vs ->
  (forall v, In v vs -> ~ fst v == nth i (gr g) 0) ->
  (forall a b, In (a, b) (sides vs) -> ~ on_segment a b (nth i (gr g) 0, nth j (gz g) 0)) ->
  (forall a b, In (a, b) (sides vs) -> fst a == fst b \/ 1 # 1000000 <= Qabs (fst b - fst a)) ->
  ~ convex_interior s vs (nth i (gr g) 0, nth j (gz g) 0) ->
  (~ nth i (gr g) 0 == 0 -> same (gBy g (nth i (gr g) 0) (nth j (gz g) 0)) (Some (last (fpol d) 0 / nth i (gr g) 0))) /\
  same (gpressure g (nth i (gr g) 0) (nth j (gz g) 0)) (Some (last (pres d) 0)).
Proof. exact (fun Hr Hl => node_convex rect_spline line_spline Hr Hl d o g i j s vs). Qed.
Print Assumptions C107_convex_partial.
(** The limiter of the file is the boundary of the field; without one nothing is outside. *)
Theorem C107_limiter rect_spline line_spline d o g x z : geqdsk_init rect_spline line_spline d = (o, Ok g) ->
  goutside g x z = match rlim d with [] => Ok false | _ => let* b := polygon_init (rlim d) (zlim d) in polygon_outside b x z end.
Proof. exact (limiter_used rect_spline line_spline d o g x z). Qed.
Print Assumptions C107_limiter.
(** Files whose profiles are not as long as the second axis of the flux are refused, as
    are those where the flux is stored the other way round, unless it is square. *)
Theorem C107_lengths rect_spline line_spline d o r : through_mesh rect_spline -> through_line line_spline ->
  (length (fpol d) <> len1 (psirz d) \/ length (pres d) <> len1 (psirz d)) -> geqdsk_init rect_spline line_spline d = (o, r) -> exists e, r = Err e.
Proof. exact (fun Hr Hl => wrong_length rect_spline line_spline Hr Hl d o r). Qed.
Print Assumptions C107_lengths.
Example C107_example : through_mesh w_rect /\ through_line w_line /\ geqdsk_init w_rect w_line w_file = (Some (gpsi w_built), Ok w_built) /\
  rbdry w_file = map fst w_core /\ zbdry w_file = map snd w_core /\ convex 1 w_core /\
  (forall a b, In (a, b) (sides w_core) -> fst a == fst b \/ 1 # 1000000 <= Qabs (fst b - fst a)) /\
  (forall v, In v w_core -> ~ fst v == nth 3 (gr w_built) 0) /\
  (forall a b, In (a, b) (sides w_core) -> ~ on_segment a b (nth 3 (gr w_built) 0, nth 4 (gz w_built) 0)) /\
  ~ convex_interior 1 w_core (nth 3 (gr w_built) 0, nth 4 (gz w_built) 0) /\
  map (fun ij => let x := nth (fst ij) (gr w_built) 0 in let z := nth (snd ij) (gz w_built) 0 in
      (polygon_outside (w_poly w_core) x z, option_map Qred (gBy w_built x z), option_map Qred (gpressure w_built x z))) [(1, 2); (2, 2); (3, 4); (1, 0)]%nat
  = [(Ok true, Some (13 # 2), Some 2); (Ok false, Some 4, Some 3); (Ok true, Some (13 # 4), Some 2); (Ok false, Some (11 # 2), Some 5)].
Proof. exact (conj w_rect_good (conj w_line_good (conj w_built_ok (conj eq_refl (conj eq_refl (conj w_core_convex (conj w_sides (conj (proj1 w_free) (conj (proj1 (proj2 w_free)) (conj (proj2 (proj2 w_free)) w_values)))))))))). Qed.

(** False at the nodes below a corner of the core: some out of the core keep the flux of
    the file, so a coil or the private flux region gets the pressure of the plasma, *)
Theorem C107_below_tip_refuted : ~ forall rect_spline line_spline d o g i j vs, through_mesh rect_spline -> through_line line_spline ->
  geqdsk_init rect_spline line_spline d = (o, Ok g) -> (i < len1 (psirz d))%nat -> (j < len0 (psirz d))%nat ->
  rbdry d = map fst vs -> zbdry d = map snd vs -> convex 1 vs -> ~ convex_interior 1 vs (nth i (gr g) 0, nth j (gz g) 0) ->
  same (gpressure g (nth i (gr g) 0) (nth j (gz g) 0)) (Some (last (pres d) 0)).
Proof.
  exact (fun H => proj2 w_below_tip (H w_rect w_line w_file _ w_built 1%nat 0%nat w_core w_rect_good w_line_good w_built_ok (ltac:(repeat constructor)) (ltac:(repeat constructor)) eq_refl eq_refl w_core_convex (proj1 w_below_tip))).
Qed.
Print Assumptions C107_below_tip_refuted.
(** and some in the core are taken as outside, so the plasma has a hole there. *)
Theorem C107_hole_refuted : ~ forall rect_spline line_spline d o g i j vs, through_mesh rect_spline -> through_line line_spline ->
  geqdsk_init rect_spline line_spline d = (o, Ok g) -> (i < len1 (psirz d))%nat -> (j < len0 (psirz d))%nat ->
  rbdry d = map fst vs -> zbdry d = map snd vs -> convex 1 vs -> convex_interior 1 vs (nth i (gr g) 0, nth j (gz g) 0) ->
  same (ev (gnorm g) (nth i (gr g) 0) (nth j (gz g) 0)) (Some ((cell (psirz d) j i - simagx d) / (sibdry d - simagx d))).
Proof.
  exact (fun H => proj2 w_centre (H w_rect w_line w_file _ w_built 1%nat 2%nat w_core w_rect_good w_line_good w_built_ok (ltac:(repeat constructor)) (ltac:(repeat constructor)) eq_refl eq_refl w_core_convex (proj1 w_centre))).
Qed.
Print Assumptions C107_hole_refuted.
(** A file without a core boundary is refused, although one without a limiter is not; by
    then the flux has been entered into the attributes. *)
Theorem C107_no_core_refuted rect_spline line_spline d o r : zbdry d = [] -> geqdsk_init rect_spline line_spline d = (o, r) ->
  (exists e, r = Err e) /\ (o <> None -> r = Err ValueError).
Proof. exact (no_core rect_spline line_spline d o r). Qed.
Print Assumptions C107_no_core_refuted.
(** If the flux on the axis is that at the edge nothing in the core is finite, without an error. *)
Theorem C107_flat_refuted rect_spline line_spline d o g core i j : through_mesh rect_spline -> through_line line_spline ->
  geqdsk_init rect_spline line_spline d = (o, Ok g) -> polygon_init (rbdry d) (zbdry d) = Ok core ->
  (i < len1 (psirz d))%nat -> (j < len0 (psirz d))%nat -> sibdry d == simagx d ->
  polygon_outside core (nth i (gr g) 0) (nth j (gz g) 0) = Ok false ->
  gBy g (nth i (gr g) 0) (nth j (gz g) 0) = None /\ gpressure g (nth i (gr g) 0) (nth j (gz g) 0) = None.
Proof. exact (fun Hr Hl => flat rect_spline line_spline Hr Hl d o g core i j). Qed.
Print Assumptions C107_flat_refuted.
Example C107_refused_example : geqdsk_init w_rect w_line w_no_core = (Some (gpsi w_built), Err ValueError) /\ zbdry w_no_core = [] /\
  (exists o, geqdsk_init w_rect w_line w_flat = (o, Ok w_flat_built)) /\ sibdry w_flat == simagx w_flat /\
  polygon_outside (w_poly w_core) (nth 2 (gr w_flat_built) 0) (nth 2 (gz w_flat_built) 0) = Ok false /\
  (exists o e, geqdsk_init w_rect w_line w_other_way = (Some o, Err e)) /\ length (fpol w_other_way) <> len1 (psirz w_other_way).
Proof. exact w_refused. Qed.
