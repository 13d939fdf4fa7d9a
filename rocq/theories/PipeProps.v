(** The operators of weights.py made from the maps of make_maps. *)
From Coq Require Import String List ZArith QArith Qabs Lia Lqa.
From Verif Require Import Prelude NamingModel NamingSpec GridModel GridSpec GridMetric PolModel FieldModel MapsModel MapsSpec MapsExamples SlabModel SlabSpec SlabProofs
  WeightsModel WeightsSpec WeightsInput PipeModel PipeSpec PipeProofs PipeSlab PipeTop.
Import ListNotations.
Open Scope Q_scope.

Section Any.
Variable repr : Q -> string.
Context {G : Type}.
Variable pR pZ : G -> arr2.
Variable pnx pnz : G -> nat.
Variable findIndex : G -> arr2 -> arr2 -> arr2 * arr2.
Variable trace : arr2 -> arr2 -> list Q -> list (arr2 * arr2).
Variable outside : arr2 -> Q -> arr2 -> Z -> Z -> bool.
Variable Byfunc : Q -> Q -> Q -> Q.
Variable roots_jacobi : nat -> list Q * list Q.
Variable fll : list (Q * Q) -> list Q -> Q.
Variable Jperp : G -> Z -> Z -> Q.
Variable is_slab : bool.
Variable flow : arr2 -> arr2 -> Q -> Q -> arr2 * arr2.
Variable t1 : Q -> Q -> list Q -> list (Q * Q).
Hypothesis Hflow : follows trace flow.
Hypothesis Ht : pointwise trace t1.
Hypothesis Hrule : rule roots_jacobi.
Variable g : grid G.
Hypothesis Wg : well_formed g.
Variables (nslice mxg spd : Z) (refine : nat).
Hypothesis Hns : (1 <= nslice)%Z.
Hypothesis Hspd : (1 <= spd)%Z.
Hypothesis Href : (1 <= refine)%nat.
Variables nx nz : Z.
Hypothesis Hmxg : (0 <= mxg)%Z.
Hypothesis Hnx : (2 * mxg <= nx)%Z.
Hypothesis Hnz : (0 <= nz)%Z.
Notation run := (make_maps repr G pR pZ pnx pnz findIndex trace outside Byfunc roots_jacobi fll Jperp is_slab g nslice mxg spd refine).
Notation ns := (Z.to_nat spd * Z.to_nat spd)%nat.

(** Nothing fails: the maps are made, weights.py finds every entry it reads, with the shape it expects. *)
Theorem C94_never_fails n_chunks junk jw jc : n_chunks <> 0%nat -> exists d m, run n_chunks junk = Ok d /\ weights_input d nx (ny g) nz ns = Ok m /\
  (exists v, calculate_parallel_map_operators jw jc m = Ok v) /\ forall pb, exists m' v, modify_maps jw jc pb m = Ok (m', v).
Proof. destruct Hrule as (R1 & R2 & R3 & R4). eapply all_runs; eassumption. Qed.

(** A row for the inside of the domain is the average, with the sub-cell weights, of the interpolants at the
    sub-sample positions of the maps, up to the weights dropped below 1e-10. *)
Theorem C94_interpolation n_chunks junk jw jc d m v dr ax az x y z f q M : n_chunks <> 0%nat -> run n_chunks junk = Ok d ->
  weights_input d nx (ny g) nz ns = Ok m -> calculate_parallel_map_operators jw jc m = Ok v ->
  stored repr d "xt_primes" (OInt (sgn dr)) ax -> stored repr d "zt_primes" (OInt (sgn dr)) az ->
  evolving m (x, y, z) -> some_inside m ns (read4 ax) (x, y, z) ->
  (forall s, (s < ns)%nat -> ~ leaves m (ax x y z (Z.of_nat s)) -> 0 <= az x y z (Z.of_nat s)) ->
  (forall c', evolving m c' -> f (wv_cell_number v c') == q c') -> (forall c', evolving m c' -> Qabs (q c') <= M) ->
  Qabs (row_apply (leg_row v dr (lo_interior_number (wv_dir dr v) (x, y, z))) f -
        inside_average m ns (read4 ax) (subcell_weights roots_jacobi spd) (x, y, z)
          (fun s => interp2 (extend m dr (x, y, z) q) (ax x y z (Z.of_nat s)) (az x y z (Z.of_nat s)))) <= (5 # 10000000000) * M.
Proof. destruct Hrule as (R1 & R2 & R3 & R4). eapply interpolates; eassumption. Qed.

(** Where there is no next slice, the only leg is that of the boundary. *)
Theorem C94_ends n_chunks junk jw jc d m v dr x j z y0 : nslice = 1%Z -> n_chunks <> 0%nat -> run n_chunks junk = Ok d ->
  weights_input d nx (ny g) nz ns = Ok m -> calculate_parallel_map_operators jw jc m = Ok v -> evolving m (x, j, z) ->
  getPoloidalGrid g (inject_Z j + inject_Z (sgn dr)) = Ok (None, y0) ->
  (lo_interior_number (wv_dir dr v) (x, j, z) < 0)%Z /\ (0 <= lo_boundary_number (wv_dir dr v) (x, j, z))%Z /\
  leg_row v dr (lo_boundary_number (wv_dir dr v) (x, j, z)) = [(wv_dir_cell_number dr v (x, j, z), 1)].
Proof. destruct Hrule as (R1 & R2 & R3 & R4). eapply no_slice; eassumption. Qed.

(** With two or more slices in each direction none of this holds: the sub-samples are made for the outermost slices
    only and weights.py reads those of the first.  With guard cells, every leg is a boundary leg, whatever the field; *)
Theorem C94_two_slices_refuted n_chunks junk jw jc d m v dr c : (2 <= nslice)%Z -> (1 <= mxg)%Z -> n_chunks <> 0%nat -> run n_chunks junk = Ok d ->
  weights_input d nx (ny g) nz ns = Ok m -> calculate_parallel_map_operators jw jc m = Ok v -> evolving m c ->
  (lo_interior_number (wv_dir dr v) c < 0)%Z /\ (0 <= lo_boundary_number (wv_dir dr v) c)%Z /\
  leg_row v dr (lo_boundary_number (wv_dir dr v) c) = [(wv_dir_cell_number dr v c, 1)].
Proof. destruct Hrule as (R1 & R2 & R3 & R4). intros Htwo. eapply two_boundary; eassumption. Qed.

(** modify_maps(partial_boundaries=True) makes every line of the first slices leave the domain; *)
Theorem C94_modify_refuted n_chunks junk jw jc d m m' v dr : (2 <= nslice)%Z -> (1 <= mxg)%Z -> (2 * mxg < nx)%Z -> (0 < nz)%Z ->
  n_chunks <> 0%nat -> run n_chunks junk = Ok d ->
  weights_input d nx (ny g) nz ns = Ok m -> modify_maps jw jc true m = Ok (m', v) ->
  exists xt', centre_map m' dr = Some (A3 xt') /\ forall c, evolving m c -> xt' c = -1.
Proof. destruct Hrule as (R1 & R2 & R3 & R4). intros Htwo. eapply two_modify; eassumption. Qed.

(** and without guard cells every row reads the corner of the next slice. *)
Theorem C94_corner_refuted n_chunks junk jw jc d m v dr c f : (2 <= nslice)%Z -> mxg = 0%Z -> n_chunks <> 0%nat -> run n_chunks junk = Ok d ->
  weights_input d nx (ny g) nz ns = Ok m -> calculate_parallel_map_operators jw jc m = Ok v -> evolving m c ->
  (lo_boundary_number (wv_dir dr v) c < 0)%Z /\
  row_apply (leg_row v dr (lo_interior_number (wv_dir dr v) c)) f == f (wv_cell_number v (0%Z, next_y m dr c, 0%Z)).
Proof. destruct Hrule as (R1 & R2 & R3 & R4). intros Htwo. eapply two_corner; eassumption. Qed.
End Any.
Print Assumptions C94_never_fails.
Print Assumptions C94_interpolation.
Print Assumptions C94_ends.
Print Assumptions C94_two_slices_refuted.
Print Assumptions C94_modify_refuted.
Print Assumptions C94_corner_refuted.

(** For a slab, away from the edges in x and z: the row of a direction applied to a field that is linear in x and z on
    each slice gives its value where the line through the centre of the cell meets the next slice, although the sub-samples follow
    different lines. *)
Theorem C94_slab_partial nx nz M Lx Lz Rc Zc r n L per g f By Bz xc Bzp Rm repr roots_jacobi fll Jperp is_slab mxg spd refine
    n_chunks junk jw jc d m v dr i j k F (al : Z -> Q) be ga :
  rect_init nx nz Lx Lz Rc Zc M = Ok r -> (0 < nx - 2 * M)%Z -> (0 <= nx)%Z -> (0 < nz)%Z -> ~ Lx == 0 -> ~ Lz == 0 ->
  (0 < n)%nat -> 0 < L -> rectangular_grid r n L per = Ok g ->
  (1 # 100000000) <= Qabs By -> is_slab_field f By Bz xc Bzp Rm ->
  rule roots_jacobi -> centred roots_jacobi -> (1 <= spd)%Z -> (1 <= refine)%nat -> (0 <= mxg)%Z -> (2 * mxg <= nx)%Z ->
  n_chunks <> 0%nat -> slab_maps repr f roots_jacobi fll Jperp is_slab g 1 mxg spd refine n_chunks junk = Ok d ->
  weights_input d nx (ny g) nz (Z.to_nat spd * Z.to_nat spd) = Ok m -> calculate_parallel_map_operators jw jc m = Ok v ->
  (0 <= j < Z.of_nat n)%Z -> (0 <= k < nz)%Z -> (mxg + 2 <= i <= nx - mxg - 3)%Z -> has_slice per n (j + sgn dr) = true ->
  (forall h, In h (hs roots_jacobi spd) -> h == 0 \/ (1 # 10000) <= Qabs h < 1 # 2) ->
  (forall h, In h (hs roots_jacobi spd) ->
     1 <= inject_Z k + shift_at nx nz M Lx Lz Rc n L By Bz xc Bzp Rm (inject_Z i + h) (sgn dr) < inject_Z (nz - 2)) ->
  (forall x y z, evolving m (x, y, z) -> F (wv_cell_number v (x, y, z)) == al y + be * inject_Z x + ga * inject_Z z) ->
  (lo_boundary_number (wv_dir dr v) (i, j, k) < 0)%Z /\
  row_apply (leg_row v dr (lo_interior_number (wv_dir dr v) (i, j, k))) F ==
    al ((j + sgn dr) mod Z.of_nat n)%Z + be * inject_Z i +
    ga * (inject_Z k + shift_at nx nz M Lx Lz Rc n L By Bz xc Bzp Rm (inject_Z i) (sgn dr)).
Proof. intros. eapply slab_row; eassumption. Qed.
Print Assumptions C94_slab_partial.

(** The central difference of the two directions is the derivative along the lines, d/dy + dz/dy d/dz, at the centre. *)
Theorem C94_slab_derivative nx nz M Lx Lz Rc Zc r n L per g f By Bz xc Bzp Rm repr roots_jacobi fll Jperp is_slab mxg spd refine
    n_chunks junk jw jc d m v i j k F (al : Z -> Q) be ga :
  rect_init nx nz Lx Lz Rc Zc M = Ok r -> (0 < nx - 2 * M)%Z -> (0 <= nx)%Z -> (0 < nz)%Z -> ~ Lx == 0 -> ~ Lz == 0 ->
  (0 < n)%nat -> 0 < L -> rectangular_grid r n L per = Ok g ->
  (1 # 100000000) <= Qabs By -> is_slab_field f By Bz xc Bzp Rm ->
  rule roots_jacobi -> centred roots_jacobi -> (1 <= spd)%Z -> (1 <= refine)%nat -> (0 <= mxg)%Z -> (2 * mxg <= nx)%Z ->
  n_chunks <> 0%nat -> slab_maps repr f roots_jacobi fll Jperp is_slab g 1 mxg spd refine n_chunks junk = Ok d ->
  weights_input d nx (ny g) nz (Z.to_nat spd * Z.to_nat spd) = Ok m -> calculate_parallel_map_operators jw jc m = Ok v ->
  (0 <= j < Z.of_nat n)%Z -> (0 <= k < nz)%Z -> (mxg + 2 <= i <= nx - mxg - 3)%Z -> (forall dr, has_slice per n (j + sgn dr) = true) ->
  (forall h, In h (hs roots_jacobi spd) -> h == 0 \/ (1 # 10000) <= Qabs h < 1 # 2) ->
  (forall dr h, In h (hs roots_jacobi spd) ->
     1 <= inject_Z k + shift_at nx nz M Lx Lz Rc n L By Bz xc Bzp Rm (inject_Z i + h) (sgn dr) < inject_Z (nz - 2)) ->
  (forall x y z, evolving m (x, y, z) -> F (wv_cell_number v (x, y, z)) == al y + be * inject_Z x + ga * inject_Z z) ->
  (row_apply (leg_row v Fwd (lo_interior_number (wv_dir Fwd v) (i, j, k))) F -
   row_apply (leg_row v Bwd (lo_interior_number (wv_dir Bwd v) (i, j, k))) F) / (2 * (L / inject_Z (Z.of_nat n))) ==
  (al ((j + 1) mod Z.of_nat n)%Z - al ((j - 1) mod Z.of_nat n)%Z) / (2 * (L / inject_Z (Z.of_nat n))) +
  slope By Bz xc Bzp Rm (x_pos nx M Lx Rc i) * (ga / (Lz / inject_Z nz)).
Proof. intros. eapply slab_derivative; eassumption. Qed.
Print Assumptions C94_slab_derivative.

(** ** Concrete: the midpoint rule with 2 x 2 sub-samples, 9 x 3 x 8 cells, one guard cell; and a field with slopes in x
    and z that differs from slice to slice. *)
Example C94_example :
  rule ex_roots /\ centred ex_roots /\
  rect_init 9 8 1 1 0 0 1 = Ok ex_rect /\ rectangular_grid ex_rect 3 (3 # 10) true = Ok ex_rgrid /\
  is_slab_field (slab 1 (1 # 10) 0 1) 1 (1 # 10) 0 1 1 /\
  (forall h, In h (hs ex_roots 2) -> h == 0 \/ (1 # 10000) <= Qabs h < 1 # 2) /\
  (forall dr, has_slice true 3 (2 + sgn dr) = true) /\
  (forall dr h, In h (hs ex_roots 2) -> 1 <= inject_Z 3 + shift_at 9 8 1 1 1 0 3 (3 # 10) 1 (1 # 10) 0 1 1 (inject_Z 5 + h) (sgn dr) < inject_Z (8 - 2)) /\
  exists d m v F, ex_slab_maps 1 = Ok d /\ weights_input d 9 (ny ex_rgrid) 8 (2 * 2) = Ok m /\ calculate_parallel_map_operators 0 0 m = Ok v /\
    (forall x y z, evolving m (x, y, z) -> F (wv_cell_number v (x, y, z)) == inject_Z (y * y) + 3 * inject_Z x + 5 * inject_Z z) /\
    evolving m (5, 2, 3)%Z /\
    (row_apply (leg_row v Fwd (lo_interior_number (wv_dir Fwd v) (5, 2, 3)%Z)) F -
     row_apply (leg_row v Bwd (lo_interior_number (wv_dir Bwd v) (5, 2, 3)%Z)) F) / (2 # 10) == - (5) + (1 # 10) * 40 + (1 # 7) * 40.
Proof.
  destruct midpoint_rule as [Rl Ce]. destruct ex_slab_facts as (F1 & F2 & F3). pose proof Rl as (R1 & R2 & R3 & R4).
  assert (A1 : forall h, In h (hs ex_roots 2) -> h == 0 \/ (1 # 10000) <= Qabs h < 1 # 2).
  { intros h [<-|[<-|[]]]; right; split; vm_compute; congruence. }
  assert (A2 : forall dr, has_slice true 3 (2 + sgn dr) = true) by (intros []; reflexivity).
  assert (A3 : forall dr h, In h (hs ex_roots 2) -> 1 <= inject_Z 3 + shift_at 9 8 1 1 1 0 3 (3 # 10) 1 (1 # 10) 0 1 1 (inject_Z 5 + h) (sgn dr) < inject_Z (8 - 2)).
  { intros [] h [<-|[<-|[]]]; split; vm_compute; congruence. }
  do 5 (split; [assumption|]). split; [exact A1|]. split; [exact A2|]. split; [exact A3|].
  destruct (rectangular_ok ex_rect 3 (3 # 10) true ltac:(lia) ltac:(reflexivity)) as (g' & E & [W _] & _ & _). rewrite F2 in E.
  assert (W' : well_formed ex_rgrid) by (injection E as ->; exact W). clear E g' W. rename W' into W.
  destruct (C94_never_fails (fun _ => ""%string) rect_R rect_Z (fun r => Z.to_nat (r_nx r)) (fun r => Z.to_nat (r_nz r)) rect_find (slab_trace (slab 1 (1 # 10) 0 1)) nowhere
    (Byfunc (slab 1 (1 # 10) 0 1)) ex_roots ex_fll (fun _ _ _ => 1) true _ _ (slab_follows _) (slab_pointwise _) Rl ex_rgrid W 1 1 2 2
    ltac:(lia) ltac:(lia) ltac:(lia) 9 8 ltac:(lia) ltac:(lia) ltac:(lia) 2%nat ex_junk 0 0%Z ltac:(lia)) as (d & m & Ed & Em & [v Ev] & _).
  destruct (input_ok _ _ _ _ _ _ _ _ _ ex_roots _ _ _ _ _ (slab_follows _) (slab_pointwise _) R1 R2 R3 R4 ex_rgrid W 1%Z 1%Z 2%Z 2%nat
    ltac:(lia) ltac:(lia) ltac:(lia) 9%Z 8%Z ltac:(lia) ltac:(lia) ltac:(lia) 2%nat ex_junk d m ltac:(lia) Ed Em)
    as (M1 & M2 & M3 & M4 & X & Zm & xt & zt & _ & I).
  destruct (field_exists 0 0%Z m _ _ _ _ v (fun '(x, y, z) => inject_Z (y * y) + 3 * inject_Z x + 5 * inject_Z z) (mi_valid _ _ _ _ _ _ _ I) Ev) as [F HF].
  exists d, m, v, F. split; [exact Ed|]. split; [exact Em|]. split; [exact Ev|].
  assert (HF' : forall x y z, evolving m (x, y, z) -> F (wv_cell_number v (x, y, z)) == inject_Z (y * y) + 3 * inject_Z x + 5 * inject_Z z) by (intros x y z Hc; exact (HF (x, y, z) Hc)).
  split; [exact HF'|]. split; [cbn; rewrite M1, M2, M3, M4; cbn; lia|].
  pose proof (C94_slab_derivative 9 8 1 1 1 0 0 ex_rect 3 (3 # 10) true ex_rgrid (slab 1 (1 # 10) 0 1) 1 (1 # 10) 0 1 1 (fun _ => ""%string) ex_roots ex_fll (fun _ _ _ => 1) true
    1 2 2 2%nat ex_junk 0 0%Z d m v 5 2 3 F (fun y => inject_Z (y * y)) 3 5 F1 ltac:(lia) ltac:(lia) ltac:(lia) ltac:(discriminate) ltac:(discriminate) ltac:(lia) ltac:(reflexivity) F2 ltac:(discriminate) F3
    Rl Ce ltac:(lia) ltac:(lia) ltac:(lia) ltac:(lia) ltac:(lia) Ed Em Ev ltac:(lia) ltac:(lia) ltac:(lia) A2 A1 A3 HF') as D.
  setoid_replace (2 # 10) with (2 * ((3 # 10) / inject_Z (Z.of_nat 3))) by reflexivity. rewrite D. reflexivity.
Qed.

(** the same grid and field with two slices: the line of the cell stays well inside, but there is no leg for it *)
Example C94_two_slices_example : exists d m v, ex_slab_maps 2 = Ok d /\ weights_input d 9 (ny ex_rgrid) 8 (2 * 2) = Ok m /\
  calculate_parallel_map_operators 0 0 m = Ok v /\ evolving m (5, 2, 3)%Z /\ (lo_interior_number (wv_dir Fwd v) (5, 2, 3)%Z < 0)%Z.
Proof.
  destruct midpoint_rule as [Rl Ce]. destruct ex_slab_facts as (F1 & F2 & F3). pose proof Rl as (R1 & R2 & R3 & R4).
  destruct (rectangular_ok ex_rect 3 (3 # 10) true ltac:(lia) ltac:(reflexivity)) as (g' & E & [W _] & _ & _). rewrite F2 in E.
  assert (W' : well_formed ex_rgrid) by (injection E as ->; exact W). clear E g' W. rename W' into W.
  destruct (C94_never_fails (fun _ => ""%string) rect_R rect_Z (fun r => Z.to_nat (r_nx r)) (fun r => Z.to_nat (r_nz r)) rect_find (slab_trace (slab 1 (1 # 10) 0 1)) nowhere
    (Byfunc (slab 1 (1 # 10) 0 1)) ex_roots ex_fll (fun _ _ _ => 1) true _ _ (slab_follows _) (slab_pointwise _) Rl ex_rgrid W 2 1 2 2
    ltac:(lia) ltac:(lia) ltac:(lia) 9 8 ltac:(lia) ltac:(lia) ltac:(lia) 2%nat ex_junk 0 0%Z ltac:(lia)) as (d & m & Ed & Em & [v Ev] & _).
  destruct (input_ok _ _ _ _ _ _ _ _ _ ex_roots _ _ _ _ _ (slab_follows _) (slab_pointwise _) R1 R2 R3 R4 ex_rgrid W 2%Z 1%Z 2%Z 2%nat
    ltac:(lia) ltac:(lia) ltac:(lia) 9%Z 8%Z ltac:(lia) ltac:(lia) ltac:(lia) 2%nat ex_junk d m ltac:(lia) Ed Em) as (M1 & M2 & M3 & M4 & _).
  assert (Hc : evolving m (5, 2, 3)%Z) by (cbn; rewrite M1, M2, M3, M4; cbn; lia).
  exists d, m, v. split; [exact Ed|]. split; [exact Em|]. split; [exact Ev|]. split; [exact Hc|].
  exact (proj1 (C94_two_slices_refuted _ _ _ _ _ _ _ _ _ ex_roots _ _ _ _ _ (slab_follows _) (slab_pointwise _) Rl ex_rgrid W 2%Z 1%Z 2%Z 2%nat
    ltac:(lia) ltac:(lia) ltac:(lia) 9%Z 8%Z ltac:(lia) ltac:(lia) ltac:(lia) 2%nat ex_junk 0 0%Z d m v Fwd (5, 2, 3)%Z ltac:(lia) ltac:(lia) ltac:(lia) Ed Em Ev Hc)).
Qed.
