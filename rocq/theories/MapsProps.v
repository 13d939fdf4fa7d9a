(** Properties C18-C22: make_maps. *)
From Coq Require Import String List ZArith QArith Bool.
From Verif Require Import Prelude NamingModel NamingSpec GridModel GridSpec MapsModel MapsSpec MapsTop MapsMore MapsMain MapsExamples.
Import ListNotations.
Open Scope string_scope.

Section Props.
Variable repr : Q -> string.
Context {G : Type}.
Variable pR pZ : G -> arr2.
Variable pnx pnz : G -> nat.
Variable findIndex : G -> arr2 -> arr2 -> arr2 * arr2.
Variable trace : arr2 -> arr2 -> list Q -> list (arr2 * arr2).
Variable outside : arr2 -> Q -> arr2 -> Z -> Z -> bool.
Variable Byfunc : Q -> Q -> Q -> Q.
Variable roots_jacobi : nat -> list Q * list Q.
Variable fll : list (Q * Q) -> list Q -> Q.
Variable Jperp : G -> Z -> Z -> Q.
Variable is_slab : bool.
(** The tracer follows lines from each start point separately. *)
Variable flow : arr2 -> arr2 -> Q -> Q -> arr2 * arr2.
Variable t1 : Q -> Q -> list Q -> list (Q * Q).
Hypothesis Hflow : follows trace flow.
Hypothesis Ht : pointwise trace t1.
Hypothesis Hroots : forall n, length (fst (roots_jacobi n)) = n.
Variable g : grid G.
Hypothesis Wg : well_formed g.
Variables (nslice mxg spd : Z) (refine : nat).
Hypothesis Hns : (0 <= nslice)%Z.
Hypothesis Hspd : (1 <= spd)%Z.
Hypothesis Hacc : weights_accepted roots_jacobi spd = true.
Hypothesis Href : (1 <= refine)%nat.
Let run := make_maps repr G pR pZ pnx pnz findIndex trace outside Byfunc roots_jacobi fll Jperp is_slab g
                    nslice mxg spd refine.

Theorem C18_never_fails : forall n_chunks junk, n_chunks <> 0%nat -> exists d, run n_chunks junk = Ok d.
Proof. exact (never_fails repr pR pZ pnx pnz findIndex trace outside Byfunc roots_jacobi fll Jperp is_slab flow t1
  Hflow Ht Hroots g Wg nslice mxg spd refine Hns Hspd Hacc Href). Qed.

(** The cells' own positions and the numbers of guard cells are in the dictionary too. *)
Theorem C18_plain_entries : forall n_chunks junk d, n_chunks <> 0%nat -> run n_chunks junk = Ok d ->
  (exists aR aZ, d "R" = Some (VArr aR) /\ d "Z" = Some (VArr aZ) /\
    forall j p y x z s, (0 <= j < ny g)%Z -> getPoloidalGrid g (inject_Z j) = Ok (Some p, y) ->
      aR x j z s = pR p x z /\ aZ x j z s = pZ p x z) /\
  d "MXG" = Some (VInt mxg) /\ d "MYG" = Some (VInt nslice).
Proof. exact (plain_entries repr pR pZ pnx pnz findIndex trace outside Byfunc roots_jacobi fll Jperp is_slab flow t1
  Hflow Ht Hroots g Wg nslice mxg spd refine Hns Hspd Hacc Href). Qed.

(** Every stored entry is the end point of the cell's own line, but the boundary
    test of *all* slices of a direction is made at the y of the outermost slice.
    What is missing for the full property: the boundary test at the slice's own y. *)
Theorem C18_end_points_partial : forall n_chunks junk d o j, n_chunks <> 0%nat ->
  run n_chunks junk = Ok d -> (o <> 0)%Z -> (Z.abs o <= nslice)%Z -> (0 <= j < ny g)%Z ->
  exists yb, y_of g j (OInt (nslice * Z.sgn o)) yb /\
    entries_at repr pR pZ findIndex flow outside g d (OInt o) j yb.
Proof. exact (end_points repr pR pZ pnx pnz findIndex trace outside Byfunc roots_jacobi fll Jperp is_slab flow t1
  Hflow Ht Hroots g Wg nslice mxg spd refine Hns Hspd Hacc Href). Qed.

(** The full property for the outermost slices, in particular for nslice = 1. *)
Theorem C18_outermost_slice : forall n_chunks junk d o j, n_chunks <> 0%nat ->
  run n_chunks junk = Ok d -> (o <> 0)%Z -> (Z.abs o = nslice)%Z -> (0 <= j < ny g)%Z ->
  exists y, y_of g j (OInt o) y /\ entries_at repr pR pZ findIndex flow outside g d (OInt o) j y.
Proof. exact (outermost repr pR pZ pnx pnz findIndex trace outside Byfunc roots_jacobi fll Jperp is_slab flow t1
  Hflow Ht Hroots g Wg nslice mxg spd refine Hns Hspd Hacc Href). Qed.

(** ... and for all slices when the boundary does not depend on y. *)
Theorem C18_y_independent_boundary : (forall R y1 y2 Z x z, outside R y1 Z x z = outside R y2 Z x z) ->
  forall n_chunks junk d o j, n_chunks <> 0%nat ->
  run n_chunks junk = Ok d -> (o <> 0)%Z -> (Z.abs o <= nslice)%Z -> (0 <= j < ny g)%Z ->
  forall y, y_of g j (OInt o) y -> entries_at repr pR pZ findIndex flow outside g d (OInt o) j y.
Proof. exact (y_independent repr pR pZ pnx pnz findIndex trace outside Byfunc roots_jacobi fll Jperp is_slab flow t1
  Hflow Ht Hroots g Wg nslice mxg spd refine Hns Hspd Hacc Href). Qed.

(** The outermost slices get sub-samples (all slices if nslice = 1).  Missing: the inner ones. *)
Theorem C19_outermost_subsamples_partial : forall n_chunks junk d dir j, n_chunks <> 0%nat ->
  run n_chunks junk = Ok d -> (dir = 1 \/ dir = -1)%Z -> (1 <= nslice)%Z -> (0 <= j < ny g)%Z ->
  sub_entries_at repr findIndex flow outside (fst (roots_jacobi (Z.to_nat spd))) g
    (if (spd =? 1)%Z then own_start pR pZ else actual_start pR pZ pnx pnz) d (OInt (nslice * dir)) j.
Proof. exact (outermost_sub repr pR pZ pnx pnz findIndex trace outside Byfunc roots_jacobi fll Jperp is_slab flow t1
  Hflow Ht Hroots g Wg nslice mxg spd refine Hns Hspd Hacc Href). Qed.

(** Whatever the grid, field and tracer, the inner slices' arrays are all zeros. *)
Theorem C19_inner_slices_refuted : forall n_chunks junk d f o, n_chunks <> 0%nat ->
  run n_chunks junk = Ok d -> In f ["xt_primes"; "zt_primes"] -> (o <> 0)%Z -> (Z.abs o < nslice)%Z ->
  stored repr d f (OInt o) zeros.
Proof. exact (inner_zero repr pR pZ pnx pnz findIndex trace outside Byfunc roots_jacobi fll Jperp is_slab flow t1
  Hflow Ht Hroots g Wg nslice mxg spd refine Hns Hspd Hacc Href). Qed.

(** The weights are the outer product of the halved one-dimensional weights. *)
Theorem C20_weights : forall n_chunks junk d, n_chunks <> 0%nat -> run n_chunks junk = Ok d -> (1 < spd)%Z ->
  length (snd (roots_jacobi (Z.to_nat spd))) = Z.to_nat spd ->
  exists w, d "subcell_weights" = Some (VList w) /\
    length w = (Z.to_nat spd * Z.to_nat spd)%nat /\
    (forall a b u v, nth_error (snd (roots_jacobi (Z.to_nat spd))) a = Some u ->
       nth_error (snd (roots_jacobi (Z.to_nat spd))) b = Some v ->
       nth_error w (a * Z.to_nat spd + b) = Some (u * (1#2) * (v * (1#2)))) /\
    (qsum (snd (roots_jacobi (Z.to_nat spd))) == 2 -> qsum w == 1).
Proof. exact (weights repr pR pZ pnx pnz findIndex trace outside Byfunc roots_jacobi fll Jperp is_slab flow t1
  Hflow Ht Hroots g Wg nslice mxg spd refine Hns Hspd Hacc Href). Qed.

(** All integral arrays are the same whatever n_chunks (and the uninitialised
    memory) is, and every other entry is untouched by it.  J and Ly are not
    written for a Slab. *)
Theorem C21_chunk_independence : forall n1 n2 j1 j2 d1 d2 p0 y0 k a1 a2,
  n1 <> 0%nat -> n2 <> 0%nat -> run n1 j1 = Ok d1 -> run n2 j2 = Ok d2 ->
  getPoloidalGrid g 0 = Ok (Some p0, y0) ->
  is_slab = false \/ ~ In k ["J"; "Ly_cell_ylow"; "Ly"; "Ly_cell_yhigh"] ->
  In k ["J"; "Ly_cell_ylow"; "Ly"; "Ly_cell_yhigh"; "By_cell_ylow"; "By"; "By_cell_yhigh"] ->
  d1 k = Some (VArr a1) -> d2 k = Some (VArr a2) ->
  forall x j z s, (0 <= x < Z.of_nat (pnx p0))%Z -> (0 <= j < ny g)%Z -> a1 x j z s == a2 x j z s.
Proof. exact (chunks_agree repr pR pZ pnx pnz findIndex trace outside Byfunc roots_jacobi fll Jperp is_slab flow t1
  Hflow Ht Hroots g Wg nslice mxg spd refine Hns Hspd Hacc Href). Qed.

Theorem C21_other_entries : forall n1 n2 j1 j2 d1 d2 k, run n1 j1 = Ok d1 -> run n2 j2 = Ok d2 ->
  ~ In k ["J"; "Ly_cell_ylow"; "Ly"; "Ly_cell_yhigh"; "By_cell_ylow"; "By"; "By_cell_yhigh"] -> d1 k = d2 k.
Proof. exact (others_agree repr pR pZ pnx pnz findIndex trace outside Byfunc roots_jacobi fll Jperp is_slab g
  nslice mxg spd refine). Qed.

(** Closed form of the stored integrals: lengths over the three windows, By at
    the two half-way points and the centre, trapezoidal rule for J. *)
Theorem C22_integrals : forall n_chunks junk d p0 y0, n_chunks <> 0%nat ->
  run n_chunks junk = Ok d -> getPoloidalGrid g 0 = Ok (Some p0, y0) ->
  exists aJ aL0 aL1 aL2 aB0 aB1 aB2,
    (is_slab = false -> d "J" = Some (VArr aJ) /\ d "Ly_cell_ylow" = Some (VArr aL0) /\
       d "Ly" = Some (VArr aL1) /\ d "Ly_cell_yhigh" = Some (VArr aL2)) /\
    d "By_cell_ylow" = Some (VArr aB0) /\ d "By" = Some (VArr aB1) /\ d "By_cell_yhigh" = Some (VArr aB2) /\
    forall j, (0 <= j < ny g)%Z -> exists pol y pm ym pp yp,
      getPoloidalGrid g (inject_Z j) = Ok (Some pol, y) /\
      getPoloidalGrid g (inject_Z j + inject_Z (-1)) = Ok (pm, ym) /\
      getPoloidalGrid g (inject_Z j + inject_Z 1) = Ok (pp, yp) /\
      forall x z s, (0 <= x < Z.of_nat (pnx p0))%Z ->
        aJ x j z s == J_spec pR pZ t1 Byfunc Jperp refine pol x z ym y yp /\
        aL0 x j z s = length_spec pR pZ t1 fll refine 0 pol x z ym y yp /\
        aL1 x j z s = length_spec pR pZ t1 fll refine 1 pol x z ym y yp /\
        aL2 x j z s = length_spec pR pZ t1 fll refine 2 pol x z ym y yp /\
        aB0 x j z s = B_spec pR pZ t1 Byfunc refine 0 pol x z ym y yp /\
        aB1 x j z s = B_spec pR pZ t1 Byfunc refine 1 pol x z ym y yp /\
        aB2 x j z s = B_spec pR pZ t1 Byfunc refine 2 pol x z ym y yp.
Proof. exact (integral_forms repr pR pZ pnx pnz findIndex trace outside Byfunc roots_jacobi fll Jperp is_slab flow t1
  Hflow Ht Hroots g Wg nslice mxg spd refine Hns Hspd Hacc Href). Qed.

(** Constant By and R along every line: the stored J is Jperp * R. *)
Theorem C22_uniform_J : forall n_chunks junk d p0 y0 B0, n_chunks <> 0%nat ->
  run n_chunks junk = Ok d -> getPoloidalGrid g 0 = Ok (Some p0, y0) -> is_slab = false ->
  ~ B0 == 0 -> (forall a b c, Byfunc a b c == B0) ->
  (forall R Z ys p, In p (t1 R Z ys) -> fst p == R) ->
  exists aJ, d "J" = Some (VArr aJ) /\
  forall j, (0 <= j < ny g)%Z -> exists pol y, getPoloidalGrid g (inject_Z j) = Ok (Some pol, y) /\
  forall x z s, (0 <= x < Z.of_nat (pnx p0))%Z -> aJ x j z s == Jperp pol x z * pR pol x z.
Proof. exact (uniform_field repr pR pZ pnx pnz findIndex trace outside Byfunc roots_jacobi fll Jperp is_slab flow t1
  Hflow Ht Hroots g Wg nslice mxg spd refine Hns Hspd Hacc Href). Qed.

(** The windows: 2*refine+1 points, evenly spaced on either side, running from
    slice j-1 to j, from half-way to half-way, and from j to j+1. *)
Theorem C22_windows : forall k ym y yp, (k < 3)%nat ->
  let w := consecutive (refine * k) (2 * refine + 1) (all_y refine ym y yp) in
  length w = (2 * refine + 1)%nat /\
  nth 0 w 0 == match k with 0%nat => ym | 1%nat => (y + ym) / 2 | _ => y end /\
  nth (2 * refine) w 0 == match k with 0%nat => y | 1%nat => (y + yp) / 2 | _ => yp end.
Proof. exact (windows refine Href). Qed.

Theorem C22_spacing : forall ym y yp i, (i < 4 * refine)%nat ->
  nth (S i) (all_y refine ym y yp) 0 - nth i (all_y refine ym y yp) 0 ==
  (if Nat.ltb i (2 * refine) then y - ym else yp - y) / inject_Z (2 * Z.of_nat refine).
Proof. exact (spacing refine Href). Qed.

(** Half a step away only the positions are kept: R and Z of the end points ... *)
Theorem C18_half_positions : forall n_chunks junk d j, n_chunks <> 0%nat -> run n_chunks junk = Ok d -> (0 <= j < ny g)%Z ->
  exists pol yj pl yl ph yh Rl Zl Rh Zh,
    getPoloidalGrid g (inject_Z j) = Ok (Some pol, yj) /\
    getPoloidalGrid g (inject_Z j + (1#2) * inject_Z (-1)) = Ok (pl, yl) /\
    getPoloidalGrid g (inject_Z j + (1#2) * inject_Z 1) = Ok (ph, yh) /\
    d "R_cell_ylow" = Some (VArr Rl) /\ d "Z_cell_ylow" = Some (VArr Zl) /\
    d "R_cell_yhigh" = Some (VArr Rh) /\ d "Z_cell_yhigh" = Some (VArr Zh) /\
    forall x z s,
      Rl x j z s = fst (flow (pR pol) (pZ pol) yj yl) x z /\ Zl x j z s = snd (flow (pR pol) (pZ pol) yj yl) x z /\
      Rh x j z s = fst (flow (pR pol) (pZ pol) yj yh) x z /\ Zh x j z s = snd (flow (pR pol) (pZ pol) yj yh) x z.
Proof. exact (half_positions repr pR pZ pnx pnz findIndex trace outside Byfunc roots_jacobi fll Jperp is_slab flow t1
  Hflow Ht Hroots g Wg nslice mxg spd refine Hns Hspd Hacc Href). Qed.

(** ... while the index maps half a step away are taken out. *)
Theorem C18_half_dropped : forall n_chunks junk d f side, run n_chunks junk = Ok d ->
  In f ["xt_prime"; "zt_prime"; "xt_primes"; "zt_primes"] -> In side ["low"; "high"] ->
  d (f ++ "_cell_y" ++ side) = None.
Proof. exact (half_dropped repr pR pZ pnx pnz findIndex trace outside Byfunc roots_jacobi fll Jperp is_slab g
  nslice mxg spd refine). Qed.

(** No chunks at all: refused. *)
Theorem C21_zero_chunks : forall junk, run 0 junk = Err ValueError.
Proof. exact (zero_chunks repr pR pZ pnx pnz findIndex trace outside Byfunc roots_jacobi fll Jperp is_slab flow t1
  Hflow Ht Hroots g Wg nslice mxg spd refine Hns Hspd Hacc Href). Qed.

End Props.
Print Assumptions C18_half_positions.
Print Assumptions C18_half_dropped.
Print Assumptions C21_zero_chunks.
Print Assumptions C18_never_fails.
Print Assumptions C18_plain_entries.
Print Assumptions C18_end_points_partial.
Print Assumptions C18_outermost_slice.
Print Assumptions C18_y_independent_boundary.
Print Assumptions C19_outermost_subsamples_partial.
Print Assumptions C19_inner_slices_refuted.
Print Assumptions C20_weights.
Print Assumptions C21_chunk_independence.
Print Assumptions C21_other_entries.
Print Assumptions C22_integrals.
Print Assumptions C22_uniform_J.
Print Assumptions C22_windows.
Print Assumptions C22_spacing.

(** The tracer, grid and rule of MapsExamples meet the hypotheses: straight
    lines on a 3x3 unit grid with three slices, two samples per dimension. *)
Example ex_hypotheses : follows ex_trace ex_flow /\ pointwise ex_trace ex_t1 /\
  (forall n, length (fst (ex_roots n)) = n) /\ well_formed ex_grid /\ weights_accepted ex_roots 2 = true.
Proof. exact ex_hyps. Qed.

(** nslice = 2, a boundary moving with y: the stored map of offset 1 is -1
    although the cell's end point in slice j+1 is inside at that slice's y. *)
Theorem C18_own_y_boundary_refuted : exists d y,
  ex_run ex_moving_wall 2 1 = Ok d /\ y_of ex_grid 0 (OInt 1) y /\
  ~ entries_at (fun _ => "") ex_pR ex_pZ ex_find ex_flow ex_moving_wall ex_grid d (OInt 1) 0 y.
Proof. exact moving_wall. Qed.
Print Assumptions C18_own_y_boundary_refuted.

(** Sub-samples do not start from the node pair: on the unit grid the stored
    z index of a sub-sample is that of the cell centre. *)
Theorem C20_starts_refuted : exists d, ex_run ex_no_wall 1 2 = Ok d /\
  sub_entries_at (fun _ => "") ex_find ex_flow ex_no_wall (fst (ex_roots 2)) ex_grid
    (actual_start ex_pR ex_pZ ex_n ex_n) d (OInt 1) 0 /\
  ~ sub_entries_at (fun _ => "") ex_find ex_flow ex_no_wall (fst (ex_roots 2)) ex_grid
    (intended_start ex_pR ex_pZ ex_n ex_n) d (OInt 1) 0.
Proof. exact wrong_starts. Qed.
Print Assumptions C20_starts_refuted.

(** On every grid whose Z does not vary along x no sub-sample leaves the cell
    centre's Z at all. *)
Theorem C20_no_z_sampling_refuted : forall {G} (pR pZ : G -> arr2) pnx pnz p u v x z,
  (forall i i' k, pZ p i k = pZ p i' k) -> (0 <= z < Z.of_nat (pnz p))%Z ->
  snd (actual_start pR pZ pnx pnz p u v) x z == pZ p x z.
Proof. exact (@no_z_sampling). Qed.
Print Assumptions C20_no_z_sampling_refuted.

(** The start positions of sub-samples are read off by linear interpolation in the cell (i, k): the outermost cells in x
    serve everything beyond them, and in z the grid is continued by one row at either end of the period. *)
Theorem C20_interpolation : forall nx nz (a : arr2) i k s t,
  (0 <= i <= Z.of_nat nx - 2)%Z -> (-1 <= k <= Z.of_nat nz - 1)%Z ->
  0 <= s \/ i = 0%Z -> s <= 1 \/ i = (Z.of_nat nx - 2)%Z ->
  0 <= t \/ k = (-1)%Z -> t <= 1 \/ k = (Z.of_nat nz - 1)%Z ->
  let w z := (z mod Z.of_nat nz)%Z in
  bilinear nx nz a (inject_Z i + s) (inject_Z k + t) ==
  (1 - t) * ((1 - s) * a i (w k) + s * a (i + 1)%Z (w k)) +
  t * ((1 - s) * a i (w (k + 1)%Z) + s * a (i + 1)%Z (w (k + 1)%Z)).
Proof. exact bilinear_cell. Qed.
Print Assumptions C20_interpolation.
Example C20_interpolation_seam : bilinear 3 4 (fun i k => inject_Z (i + 10 * k)) ((1#2) + 1) (3 + (1#4)) == 24.
Proof. vm_compute. reflexivity. Qed.

(** R, forward/backward z maps, a sub-sample, J, Ly and By of that run. *)
Example ex_values : ex_show = (Some 2, Some 2, Some 0, Some (3#4), Some (3#2), Some 1, Some 2).
Proof. vm_compute. reflexivity. Qed.
