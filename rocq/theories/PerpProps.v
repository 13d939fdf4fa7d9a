(** C121: the perpendicular operator is a diffusion operator. *)
From Coq Require Import List ZArith QArith Reals Qreals Lia Lra Lqa.
From Verif Require Import Prelude PolModel DagpModel DagpSpec DagpProofs DagpRect DagpWitness PerpSpec PerpRect PerpSmooth PerpWitness.
Import ListNotations.
Open Scope Q_scope.

(** On rectangular grids, for fields that are zero in the first and last radial row, the operator is symmetric. *)
Theorem C121_symmetric sqrt junk s rs nx nz Lz vol cX cZ j r f g : root_like sqrt -> (forall r, In r rs -> rectangular nx nz Lz r) ->
  (4 <= nx)%Z -> (3 <= nz)%Z -> 0 < Lz -> doit sqrt junk (map (fun r => of_rect r Lz) rs) s = Ok (vol, cX, cZ) -> nth_error rs j = Some r -> proper_grid s r ->
  let J := Z.of_nat j in let L := apply_op nx nz cX cZ in
  zero_edges nx nz J f -> zero_edges nx nz J g ->
  over_plane nx nz (fun i k => g i J k * L f i J k) == over_plane nx nz (fun i k => f i J k * L g i J k).
Proof. intros Hs Hrs Hx Hz HL Hd Hj Hp J L. exact (symmetric sqrt junk s rs nx nz Lz vol cX cZ j r Hs Hrs Hx Hz HL Hd Hj f g). Qed.
Print Assumptions C121_symmetric.

(** The sum of the squares of such a field falls, unless it is zero. *)
Theorem C121_dissipates sqrt junk s rs nx nz Lz vol cX cZ j r f : root_like sqrt -> (forall r, In r rs -> rectangular nx nz Lz r) ->
  (4 <= nx)%Z -> (3 <= nz)%Z -> 0 < Lz -> doit sqrt junk (map (fun r => of_rect r Lz) rs) s = Ok (vol, cX, cZ) -> nth_error rs j = Some r -> proper_grid s r ->
  let J := Z.of_nat j in let L := apply_op nx nz cX cZ in
  zero_edges nx nz J f ->
  over_plane nx nz (fun i k => f i J k * L f i J k) <= 0 /\
  (over_plane nx nz (fun i k => f i J k * L f i J k) == 0 -> forall i k, (0 <= i < nx)%Z -> (0 <= k < nz)%Z -> f i J k == 0).
Proof. intros Hs Hrs Hx Hz HL Hd Hj Hp J L. exact (dissipates sqrt junk s rs nx nz Lz vol cX cZ j r Hs Hrs Hx Hz HL Hd Hj Hp f). Qed.
Print Assumptions C121_dissipates.

(** Where the operator is nowhere negative the largest value is in the first or the last radial row. *)
Theorem C121_maximum sqrt junk s rs nx nz Lz vol cX cZ j r f : root_like sqrt -> (forall r, In r rs -> rectangular nx nz Lz r) ->
  (4 <= nx)%Z -> (3 <= nz)%Z -> 0 < Lz -> doit sqrt junk (map (fun r => of_rect r Lz) rs) s = Ok (vol, cX, cZ) -> nth_error rs j = Some r -> proper_grid s r ->
  let J := Z.of_nat j in let L := apply_op nx nz cX cZ in
  (forall i k, (1 <= i < nx - 1)%Z -> (0 <= k < nz)%Z -> 0 <= L f i J k) ->
  forall i k, (0 <= i < nx)%Z -> (0 <= k < nz)%Z -> exists i' k', (i' = 0 \/ i' = nx - 1)%Z /\ (0 <= k' < nz)%Z /\ f i J k <= f i' J k'.
Proof. intros Hs Hrs Hx Hz HL Hd Hj Hp J L. exact (max_edge sqrt junk s rs nx nz Lz vol cX cZ j r Hs Hrs Hx Hz HL Hd Hj Hp f). Qed.
Print Assumptions C121_maximum.

(** The values in the first and last radial row and the values of the operator inside determine the field. *)
Theorem C121_unique sqrt junk s rs nx nz Lz vol cX cZ j r f g : root_like sqrt -> (forall r, In r rs -> rectangular nx nz Lz r) ->
  (4 <= nx)%Z -> (3 <= nz)%Z -> 0 < Lz -> doit sqrt junk (map (fun r => of_rect r Lz) rs) s = Ok (vol, cX, cZ) -> nth_error rs j = Some r -> proper_grid s r ->
  let J := Z.of_nat j in let L := apply_op nx nz cX cZ in
  (forall i k, (1 <= i < nx - 1)%Z -> (0 <= k < nz)%Z -> L f i J k == L g i J k) ->
  (forall k, (0 <= k < nz)%Z -> f 0%Z J k == g 0%Z J k /\ f (nx - 1)%Z J k == g (nx - 1)%Z J k) ->
  forall i k, (0 <= i < nx)%Z -> (0 <= k < nz)%Z -> f i J k == g i J k.
Proof. intros Hs Hrs Hx Hz HL Hd Hj Hp J L. exact (solution_unique sqrt junk s rs nx nz Lz vol cX cZ j r Hs Hrs Hx Hz HL Hd Hj Hp f g). Qed.
Print Assumptions C121_unique.

(** Over the volume it is the Laplacian (with the first derivative over R, in a torus), to second order in both distances
    of the grid points; the last three terms are what errors [delta] of the values of the field add. *)
Theorem C121_second_order sqrt junk s rs nx nz Lz vol cX cZ j r (f : Z -> Z -> Z -> Q) (phi px pxx pz pzz : R -> R -> R) (M3 M4 N3 N4 delta : R) i k :
  root_like sqrt -> (forall r, In r rs -> rectangular nx nz Lz r) ->
  (4 <= nx)%Z -> (3 <= nz)%Z -> 0 < Lz -> doit sqrt junk (map (fun r => of_rect r Lz) rs) s = Ok (vol, cX, cZ) -> nth_error rs j = Some r -> proper_grid s r ->
  let J := Z.of_nat j in let h := Q2R (r_dR r) in let d := Q2R (r_dZ r) in
  let at_R i := Q2R (r_Rmin r + inject_Z i * r_dR r) in let at_Z k := Q2R (r_Zmin r + inject_Z k * r_dZ r) in
  let torus (x : R) := if s then 0%R else x in
  (1 <= i < nx - 1)%Z -> (0 <= k < nz)%Z ->
  (forall z, smoother M3 M4 (fun x => phi x z) (fun x => px x z) (fun x => pxx x z)) -> (forall x, smoother N3 N4 (fun z => phi x z) (pz x) (pzz x)) ->
  (forall x z, phi x (z + IZR nz * d)%R = phi x z) ->
  (forall i' k', (0 <= i' < nx)%Z -> (0 <= k' < nz)%Z -> (Rabs (Q2R (f i' J k') - phi (at_R i') (at_Z k')) <= delta)%R) ->
  (Rabs (Q2R (apply_op nx nz cX cZ f i J k / vol i J k) - (pxx (at_R i) (at_Z k) + pzz (at_R i) (at_Z k) + torus (px (at_R i) (at_Z k) / at_R i)))
    <= M4 * (h * h) / 12 + N4 * (d * d) / 12 + torus (M3 * (h * h) / 6 / at_R i) + (4 * delta / (h * h) + 4 * delta / (d * d) + torus (delta / h / at_R i)))%R.
Proof. intros Hs Hrs Hx Hz HL Hd Hj Hp. exact (second_order sqrt junk s rs nx nz Lz vol cX cZ j r Hs Hrs Hx Hz HL Hd Hj Hp f phi px pxx pz pzz M3 M4 N3 N4 delta i k). Qed.
Print Assumptions C121_second_order.

(** On structured grids none of this need be true.  In a slab, with all cells right-handed: a field that is nowhere
    negative and zero in a cell is made negative there. *)
Theorem C121_minimum_refuted sqrt junk : root_like sqrt -> structured spiral /\
  (forall i k, (1 <= i < 3)%Z -> (0 <= k < 8)%Z -> right_handed spiral i k) /\
  exists vol cX cZ f, doit sqrt junk [spiral] true = Ok (vol, cX, cZ) /\
  (forall i j k, 0 <= f i j k) /\ f 2%Z 0%Z 1%Z == 0 /\ apply_op 4 8 cX cZ f 2 0 1 < 0.
Proof. intros R. destruct (sinks sqrt junk R) as (vol & cX & cZ & H). exact (conj spiral_structured (conj spiral_right (ex_intro _ vol (ex_intro _ cX (ex_intro _ cZ (ex_intro _ (peak 1 0) H)))))). Qed.
Print Assumptions C121_minimum_refuted.

(** With positive volumes: the sum of the squares grows, and the operator is not symmetric. *)
Theorem C121_dissipates_refuted sqrt junk : root_like sqrt -> structured swirl /\
  (forall i k, (1 <= i < 3)%Z -> (0 <= k < 4)%Z -> 0 < cell_volume true swirl i k) /\
  exists vol cX cZ f g, doit sqrt junk [swirl] true = Ok (vol, cX, cZ) /\ zero_edges 4 4 0 f /\ zero_edges 4 4 0 g /\
  0 < over_plane 4 4 (fun i k => f i 0%Z k * apply_op 4 4 cX cZ f i 0 k) /\
  over_plane 4 4 (fun i k => g i 0%Z k * apply_op 4 4 cX cZ f i 0 k) < 0 /\
  0 < over_plane 4 4 (fun i k => f i 0%Z k * apply_op 4 4 cX cZ g i 0 k).
Proof.
  intros R. destruct (swirls sqrt junk R) as (vol & cX & cZ & E & H).
  exact (conj swirl_structured (conj swirl_volumes (ex_intro _ vol (ex_intro _ cX (ex_intro _ cZ (ex_intro _ (peak 2 0) (ex_intro _ (peak 2 1)
    (conj E (conj (peak_edges 2 0 (or_intror eq_refl)) (conj (peak_edges 2 1 (or_intror eq_refl)) H)))))))))).
Qed.
Print Assumptions C121_dissipates_refuted.

(** A grid of 5 x 4 points and a field that meet the hypotheses. *)
Example C121_example : root_like root0 /\
  (exists r, rectangular 5 4 12 r /\ proper_grid false r /\ Q2R (r_dZ r) = 3%R /\ is_ok (doit root0 (fun _ _ _ => 0) (map (fun r => of_rect r 12) [r]) false) = true) /\
  zero_edges 5 4 0 (peak 2 1) /\
  (forall z, smoother 0 0 (fun x => x * x + sin (PI / 6 * z))%R (fun x => 2 * x)%R (fun _ => 2%R)) /\
  (forall x, smoother 1 1 (fun z => x * x + sin (PI / 6 * z))%R (fun z => PI / 6 * cos (PI / 6 * z))%R (fun z => - (PI / 6 * (PI / 6)) * sin (PI / 6 * z))%R) /\
  (forall x z, (x * x + sin (PI / 6 * (z + 4 * 3)) = x * x + sin (PI / 6 * z))%R).
Proof.
  split; [exact root0_like|]. split; [|split; [|split; [|split]]].
  - eexists. split; [exists 10, 10, 0, 0%Z; split; [discriminate|reflexivity]|]. split; [|split].
    + split; [reflexivity|]. intros x [H _]. cbv [rect_init Z.eqb Z.sub Z.mul Z.opp Z.add major_radius r_Rmin r_dR].
      match goal with |- 0 < ?a + x * ?b => assert (A : a == 6) by reflexivity; assert (B : b == 2) by reflexivity end. rewrite A, B. Lqa.lra.
    + unfold Q2R. cbn. Lra.lra.
    + vm_compute. reflexivity.
  - intros k Hk. split; reflexivity.
  - intros z. apply parabola.
  - intros x. apply wave. assert (A := PI_RGT_0). assert (B := PI_4). Lra.lra.
  - intros x z. apply wave_period. field.
Qed.
