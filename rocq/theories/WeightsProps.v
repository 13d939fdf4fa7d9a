(** Properties C01-C12: cell-space numbering, leg rows and the CSR operators of
    zoidberg/weights.py. Statements only; proofs are in WeightsTop and
    WeightsModifyTop. [jw], [jc] is the arbitrary initial content of np.empty. *)
From Coq Require Import List ZArith QArith Qround Qabs Lia Bool.
From Verif Require Import Prelude WeightsModel WeightsSpec WeightsInput WeightsRows WeightsTop WeightsModify WeightsModifyTop.
Import ListNotations.
Open Scope Q_scope.

(** * A concrete non-trivial input: 8 x 2 x 6 cells, one guard cell on each side,
    two sub-samples of areas 1/4 and 3/4; radially the sub-samples are displaced
    by -1/4 and +1/4, toroidally by 7/5; some cells are split. *)
Definition ex_X (d : dir) (c : cell) (s : nat) : Q :=
  inject_Z (fst (fst c)) + (match s with O => - (1#4) | _ => 1#4 end).
Definition ex_Z (d : dir) (c : cell) (s : nat) : Q := inject_Z (snd c) + (7#5).
Definition ex_xt (d : dir) (c : cell) : Q := inject_Z (fst (fst c)).
Definition ex_zt (d : dir) (c : cell) : Q := inject_Z (snd c) + (7#5).
Definition ex_w : list Q := [1#4; 3#4].
Definition ex_maps : maps :=
  {| m_nx := 8; m_ny := 2; m_nz := 6; m_mxg := 1;
     m_fxts := Some (A4 2 (ex_X Fwd)); m_fxt := Some (A3 (ex_xt Fwd));
     m_fzts := Some (A4 2 (ex_Z Fwd)); m_fzt := Some (A3 (ex_zt Fwd));
     m_bxts := Some (A4 2 (ex_X Bwd)); m_bxt := Some (A3 (ex_xt Bwd));
     m_bzts := Some (A4 2 (ex_Z Bwd)); m_bzt := Some (A3 (ex_zt Bwd));
     m_subw := Some (W1 ex_w) |}.

Example ex_valid : valid_maps ex_maps 2 ex_X ex_Z ex_w.
Proof.
  constructor; cbn; try lia; try (apply P4; reflexivity); try reflexivity.
  - apply PW. reflexivity.
  - repeat constructor.
Qed.

Example ex_input : modify_input ex_maps 2 ex_X ex_Z ex_xt ex_zt ex_w.
Proof. constructor; try reflexivity. exact ex_valid. Qed.

(** The same with the 3-d fall-back keys only and no sub-cell weights. *)
Definition ex_maps3 : maps :=
  {| m_nx := 8; m_ny := 2; m_nz := 6; m_mxg := 1;
     m_fxts := None; m_fxt := Some (A3 (ex_xt Fwd)); m_fzts := None; m_fzt := Some (A3 (ex_zt Fwd));
     m_bxts := None; m_bxt := Some (A3 (ex_xt Bwd)); m_bzts := None; m_bzt := Some (A3 (ex_zt Bwd));
     m_subw := None |}.
Example ex_valid3 : valid_maps ex_maps3 1 (fun d c _ => ex_xt d c) (fun d c _ => ex_zt d c) [1].
Proof.
  constructor; cbn; try lia; try (apply F3; reflexivity); try reflexivity.
  - apply PWdefault. reflexivity.
  - repeat constructor.
Qed.

(** * C01 *)
Theorem C01_cell_numbers_bijective :
  forall jw jc m n X Zm w, valid_maps m n X Zm w ->
  forall v, calculate_parallel_map_operators jw jc m = Ok v ->
  (forall c, on_grid m c -> (0 <= wv_cell_number v c < m_nx m * m_ny m * m_nz m)%Z) /\
  (forall c c', on_grid m c -> on_grid m c' -> wv_cell_number v c = wv_cell_number v c' -> c = c') /\
  (forall k, (0 <= k < m_nx m * m_ny m * m_nz m)%Z -> exists c, on_grid m c /\ wv_cell_number v c = k) /\
  (forall c, on_grid m c -> (evolving m c <-> (wv_cell_number v c < (m_nx m - 2 * m_mxg m) * m_ny m * m_nz m)%Z)).
Proof. exact cell_numbers. Qed.
Print Assumptions C01_cell_numbers_bijective.

(** The reported number of evolving cells is the bound used above. *)
Theorem C01_evolving_count :
  forall jw jc m n X Zm w, valid_maps m n X Zm w ->
  forall v, calculate_parallel_map_operators jw jc m = Ok v ->
  forall cs, assign_cell_space_numbers m = Ok cs ->
  cs_N_evolving cs = ((m_nx m - 2 * m_mxg m) * m_ny m * m_nz m)%Z.
Proof. exact n_evolving. Qed.
Print Assumptions C01_evolving_count.

(** Evolving cells are numbered in C order. *)
Theorem C01_evolving_number_closed_form :
  forall jw jc m n X Zm w, valid_maps m n X Zm w ->
  forall v, calculate_parallel_map_operators jw jc m = Ok v ->
  forall x y z, evolving m (x, y, z) ->
  wv_cell_number v (x, y, z) = (((x - m_mxg m) * m_ny m + y) * m_nz m + z)%Z.
Proof. exact cell_number_closed. Qed.
Print Assumptions C01_evolving_number_closed_form.

(** * C02 *)
Theorem C02_boundary_numbers :
  forall jw jc m n X Zm w, valid_maps m n X Zm w ->
  forall v, calculate_parallel_map_operators jw jc m = Ok v ->
  (forall d c, (0 <= wv_dir_cell_number d v c)%Z <-> evolving m c /\ some_hit m n (X d) c) /\
  (forall d c, (0 <= wv_dir_cell_number d v c)%Z ->
      (m_nx m * m_ny m * m_nz m <= wv_dir_cell_number d v c < wv_total_cells v)%Z) /\
  (forall d c d' c', (0 <= wv_dir_cell_number d v c)%Z -> wv_dir_cell_number d v c = wv_dir_cell_number d' v c' ->
      d = d' /\ c = c') /\
  (forall k, (m_nx m * m_ny m * m_nz m <= k < wv_total_cells v)%Z -> exists d c, wv_dir_cell_number d v c = k).
Proof. exact boundary_numbers. Qed.
Print Assumptions C02_boundary_numbers.

(** * C03 *)
Theorem C03_leg_rows :
  forall jw jc m n X Zm w, valid_maps m n X Zm w ->
  forall v, calculate_parallel_map_operators jw jc m = Ok v ->
  forall d, let lo := wv_dir d v in
  (forall c, (0 <= lo_interior_number lo c)%Z <-> evolving m c /\ some_inside m n (X d) c) /\
  (forall c, (0 <= lo_boundary_number lo c)%Z <-> evolving m c /\ some_hit m n (X d) c) /\
  (forall c, (lo_interior_number lo c < lo_n_legs lo)%Z /\ (lo_boundary_number lo c < lo_n_legs lo)%Z) /\
  (forall c c', (0 <= lo_interior_number lo c)%Z -> lo_interior_number lo c = lo_interior_number lo c' -> c = c') /\
  (forall c c', (0 <= lo_boundary_number lo c)%Z -> lo_boundary_number lo c = lo_boundary_number lo c' -> c = c') /\
  (forall c c', (0 <= lo_interior_number lo c)%Z -> lo_interior_number lo c <> lo_boundary_number lo c') /\
  (forall k, (0 <= k < lo_n_legs lo)%Z -> exists c, lo_interior_number lo c = k \/ lo_boundary_number lo c = k).
Proof. exact legs. Qed.
Print Assumptions C03_leg_rows.

(** Every evolving cell has at least one leg. *)
Theorem C03_at_least_one_leg :
  forall m n X Zm w, valid_maps m n X Zm w -> forall d c, some_hit m n (X d) c \/ some_inside m n (X d) c.
Proof. exact (fun m n X Zm w V d c => hit_or_inside m n X d c (n_pos m n X Zm w V)). Qed.
Print Assumptions C03_at_least_one_leg.

(** * C04 *)
Theorem C04_leg_weights :
  forall jw jc m n X Zm w, valid_maps m n X Zm w ->
  forall v, calculate_parallel_map_operators jw jc m = Ok v ->
  forall d, let lo := wv_dir d v in
  Z.of_nat (length (lo_leg_weights lo)) = lo_n_legs lo /\
  forall c, evolving m c ->
  (some_inside m n (X d) c -> ~ some_hit m n (X d) c ->
     nth_error (lo_leg_weights lo) (Z.to_nat (lo_interior_number lo c)) = Some 1) /\
  (some_hit m n (X d) c -> ~ some_inside m n (X d) c ->
     nth_error (lo_leg_weights lo) (Z.to_nat (lo_boundary_number lo c)) = Some 1) /\
  (some_hit m n (X d) c -> some_inside m n (X d) c ->
     exists wi wb,
     nth_error (lo_leg_weights lo) (Z.to_nat (lo_interior_number lo c)) = Some wi /\
     nth_error (lo_leg_weights lo) (Z.to_nat (lo_boundary_number lo c)) = Some wb /\
     wi == inside_area m n (X d) w c /\ wb == hit_area m n (X d) w c /\ wi + wb == qsum w /\ 0 < wi /\ 0 < wb).
Proof. exact weights_of_legs. Qed.
Print Assumptions C04_leg_weights.

(** * C05 *)
Theorem C05_never_fails :
  forall jw jc m n X Zm w, valid_maps m n X Zm w ->
  exists v, calculate_parallel_map_operators jw jc m = Ok v.
Proof. exact (fun jw jc m n X Zm w V => match calc_ok jw jc m n X Zm w V with
  | ex_intro _ cs (ex_intro _ fl (ex_intro _ bl (conj _ (conj E _)))) => ex_intro _ _ E end). Qed.
Print Assumptions C05_never_fails.

Theorem C05_csr_well_formed :
  forall jw jc m n X Zm w, valid_maps m n X Zm w ->
  forall v, calculate_parallel_map_operators jw jc m = Ok v ->
  forall d, let lo := wv_dir d v in
  length (csr_weights (lo_csr lo)) = length (csr_columns (lo_csr lo)) /\
  Z.of_nat (length (csr_rows (lo_csr lo))) = (lo_n_legs lo + 1)%Z /\
  nth 0 (csr_rows (lo_csr lo)) (-1)%Z = 0%Z /\
  last (csr_rows (lo_csr lo)) (-1)%Z = Z.of_nat (length (csr_columns (lo_csr lo))) /\
  (forall i, (S i < length (csr_rows (lo_csr lo)))%nat ->
     (nth i (csr_rows (lo_csr lo)) 0 <= nth (S i) (csr_rows (lo_csr lo)) 0)%Z) /\
  (forall k, In k (csr_columns (lo_csr lo)) -> (0 <= k < wv_total_cells v)%Z).
Proof. exact csr_shape. Qed.
Print Assumptions C05_csr_well_formed.

(** * C06 *)
Theorem C06_boundary_row :
  forall jw jc m n X Zm w, valid_maps m n X Zm w ->
  forall v, calculate_parallel_map_operators jw jc m = Ok v ->
  forall d c, evolving m c -> some_hit m n (X d) c ->
  leg_row v d (lo_boundary_number (wv_dir d v) c) = [(wv_dir_cell_number d v c, 1)].
Proof. exact decoded_boundary. Qed.
Print Assumptions C06_boundary_row.

(** * C07 *)
Theorem C07_interior_row_sum :
  forall jw jc m n X Zm w, valid_maps m n X Zm w ->
  forall v, calculate_parallel_map_operators jw jc m = Ok v ->
  forall d c, evolving m c -> some_inside m n (X d) c ->
  Qabs (qsum (map snd (leg_row v d (lo_interior_number (wv_dir d v) c))) - 1) <= 4 # 10000000000.
Proof. exact decoded_sum. Qed.
Print Assumptions C07_interior_row_sum.

(** * C08 *)
Theorem C08_interior_row_columns :
  forall jw jc m n X Zm w, valid_maps m n X Zm w ->
  forall v, calculate_parallel_map_operators jw jc m = Ok v ->
  forall d c k, evolving m c -> some_inside m n (X d) c ->
  In k (map fst (leg_row v d (lo_interior_number (wv_dir d v) c))) ->
  exists s i j x' z', (s < n)%nat /\ ~ leaves m (X d c s) /\ (-1 <= i <= 2)%Z /\ (-1 <= j <= 2)%Z /\
    x' = (Qfloor (X d c s) + i)%Z /\
    (0 <= Zm d c s -> z' = ((Qfloor (Zm d c s) + j) mod m_nz m)%Z) /\
    evolving m (x', next_y m d c, z') /\ k = wv_cell_number v (x', next_y m d c, z').
Proof. exact decoded_cols. Qed.
Print Assumptions C08_interior_row_columns.

Theorem C08_no_duplicate_columns :
  forall jw jc m n X Zm w, valid_maps m n X Zm w ->
  forall v, calculate_parallel_map_operators jw jc m = Ok v ->
  forall d c, evolving m c -> some_inside m n (X d) c ->
  NoDup (map fst (leg_row v d (lo_interior_number (wv_dir d v) c))).
Proof. exact decoded_nodup. Qed.
Print Assumptions C08_no_duplicate_columns.

(** * C09. [f] is the vector the operator is applied to, [g] the field it
    represents on the evolving cells. *)
Theorem C09_interpolation :
  forall jw jc m n X Zm w, valid_maps m n X Zm w ->
  forall v, calculate_parallel_map_operators jw jc m = Ok v ->
  forall d c f g M, evolving m c -> some_inside m n (X d) c ->
  (forall s, (s < n)%nat -> ~ leaves m (X d c s) -> 0 <= Zm d c s) ->
  (forall c', evolving m c' -> f (wv_cell_number v c') == g c') ->
  (forall c', evolving m c' -> Qabs (g c') <= M) ->
  Qabs (row_apply (leg_row v d (lo_interior_number (wv_dir d v) c)) f
        - inside_average m n (X d) w c (fun s => interp2 (extend m d c g) (X d c s) (Zm d c s)))
    <= (5 # 10000000000) * M.
Proof. exact decoded_interp. Qed.
Print Assumptions C09_interpolation.

(** Exactly, when no interpolation weight is below the drop tolerance. *)
Theorem C09_interpolation_exact :
  forall jw jc m n X Zm w, valid_maps m n X Zm w ->
  forall v, calculate_parallel_map_operators jw jc m = Ok v ->
  forall d c f g, evolving m c -> some_inside m n (X d) c ->
  (forall s, (s < n)%nat -> ~ leaves m (X d c s) -> 0 <= Zm d c s /\
     (X d c s - inject_Z (Qfloor (X d c s)) == 0 \/
      (1#10000) <= X d c s - inject_Z (Qfloor (X d c s)) <= (9999#10000))) ->
  (forall c', evolving m c' -> f (wv_cell_number v c') == g c') ->
  row_apply (leg_row v d (lo_interior_number (wv_dir d v) c)) f ==
    inside_average m n (X d) w c (fun s => interp2 (extend m d c g) (X d c s) (Zm d c s)).
Proof. exact decoded_exact. Qed.
Print Assumptions C09_interpolation_exact.

Theorem C09_linear_fields :
  forall jw jc m n X Zm w, valid_maps m n X Zm w ->
  forall v, calculate_parallel_map_operators jw jc m = Ok v ->
  forall d c f (a : Z -> Q) b g, evolving m c -> some_inside m n (X d) c ->
  (forall s, (s < n)%nat -> ~ leaves m (X d c s) ->
     (X d c s - inject_Z (Qfloor (X d c s)) == 0 \/
      (1#10000) <= X d c s - inject_Z (Qfloor (X d c s)) <= (9999#10000)) /\
     (m_mxg m + 1 <= Qfloor (X d c s) <= m_nx m - m_mxg m - 3)%Z /\
     (1 <= Qfloor (Zm d c s) <= m_nz m - 3)%Z) ->
  (forall x y z, evolving m (x, y, z) -> f (wv_cell_number v (x, y, z)) == a y + b * inject_Z x + g * inject_Z z) ->
  row_apply (leg_row v d (lo_interior_number (wv_dir d v) c)) f ==
    inside_average m n (X d) w c (fun s => a (next_y m d c) + b * X d c s + g * Zm d c s).
Proof. exact decoded_linear. Qed.
Print Assumptions C09_linear_fields.

(** The interpolant passes through the data: at an integer position it is the
    value of the field there. *)
Theorem C09_interpolant_at_nodes : forall F i k, interp2 F (inject_Z i) (inject_Z k) == F i k.
Proof.
  exact (fun F i k => ltac:(unfold interp2, interp1, hermite; rewrite !Qfloor_Z;
    setoid_replace (inject_Z i - inject_Z i) with 0 by ring; setoid_replace (inject_Z k - inject_Z k) with 0 by ring; field)).
Qed.
Print Assumptions C09_interpolant_at_nodes.

(** * C10. True for non-negative mapped z; refuted in general. *)
Theorem C10_z_period_partial :
  forall jw jc m n X Zm Zm' w, valid_maps m n X Zm w ->
  forall v v', calculate_parallel_map_operators jw jc m = Ok v ->
  calculate_parallel_map_operators jw jc (with_z m n Zm') = Ok v' ->
  (wv_cell_number v = wv_cell_number v' /\ wv_total_cells v = wv_total_cells v' /\
   forall d, wv_dir_cell_number d v = wv_dir_cell_number d v' /\
     lo_n_legs (wv_dir d v) = lo_n_legs (wv_dir d v') /\
     lo_interior_number (wv_dir d v) = lo_interior_number (wv_dir d v') /\
     lo_boundary_number (wv_dir d v) = lo_boundary_number (wv_dir d v') /\
     lo_leg_weights (wv_dir d v) = lo_leg_weights (wv_dir d v')) /\
  (forall d c f k, evolving m c -> some_inside m n (X d) c ->
     (forall s, (s < n)%nat -> 0 <= Zm d c s /\ 0 <= Zm' d c s /\ Zm' d c s == Zm d c s + inject_Z (k s * m_nz m)) ->
     row_apply (leg_row v' d (lo_interior_number (wv_dir d v') c)) f ==
     row_apply (leg_row v d (lo_interior_number (wv_dir d v) c)) f).
Proof.
  exact (fun jw jc m n X Zm Zm' w V v v' C C' =>
    conj (same_numbers jw jc m n Zm' v v' C C') (same_rows jw jc m n X Zm Zm' w V v v' C C')).
Qed.
Print Assumptions C10_z_period_partial.

(** z = -1/2 and z = nz - 1/2 are the same point, but the row for it differs:
    int() truncates towards zero, so the first one extrapolates. *)
Definition zneg_maps (shift : Z) : maps :=
  {| m_nx := 3; m_ny := 1; m_nz := 6; m_mxg := 0;
     m_fxts := None; m_fxt := Some (A3 (fun c => inject_Z (fst (fst c))));
     m_fzts := None; m_fzt := Some (A3 (fun c => - (1#2) + inject_Z shift));
     m_bxts := None; m_bxt := Some (A3 (fun c => inject_Z (fst (fst c))));
     m_bzts := None; m_bzt := Some (A3 (fun c => - (1#2) + inject_Z shift));
     m_subw := None |}.

Example zneg_valid shift : valid_maps (zneg_maps shift) 1 (fun _ c _ => inject_Z (fst (fst c)))
  (fun _ c _ => - (1#2) + inject_Z shift) [1].
Proof.
  constructor; cbn; try lia; try (apply F3; reflexivity); try reflexivity.
  - apply PWdefault. reflexivity.
  - repeat constructor.
Qed.

Definition row_of_z (shift : Z) : option Q :=
  match calculate_parallel_map_operators 0 0 (zneg_maps shift) with
  | Ok v => Some (Qred (row_apply (leg_row v Fwd (lo_interior_number (wv_dir Fwd v) (1, 0, 0)%Z))
                          (fun k => if (k =? wv_cell_number v (1, 0, 0))%Z then 1 else 0)))
  | Err _ => None
  end.

Theorem C10_z_period_refuted :
  exists q q', row_of_z 0 = Some q /\ row_of_z (m_nz (zneg_maps 0)) = Some q' /\ ~ q == q'.
Proof. exists (3#16), (9#16). vm_compute. repeat split; try reflexivity. discriminate. Qed.
Print Assumptions C10_z_period_refuted.

(** * C11. A cell is boundary if all its sub-samples hit, or some do and the
    centre does; every other cell is interior; one leg of weight 1 each. *)
Theorem C11_no_partial_boundaries :
  forall jw jc m n X Zm xt zt w, modify_input m n X Zm xt zt w ->
  forall m' v d c, modify_maps jw jc false m = Ok (m', v) -> evolving m c ->
  let lo := wv_dir d v in
  let boundary := some_hit m n (X d) c /\ (some_inside m n (X d) c -> leaves m (xt d c)) in
  (boundary -> (0 <= lo_boundary_number lo c)%Z /\ (lo_interior_number lo c < 0)%Z /\
    nth_error (lo_leg_weights lo) (Z.to_nat (lo_boundary_number lo c)) = Some 1) /\
  (~ boundary -> (0 <= lo_interior_number lo c)%Z /\ (lo_boundary_number lo c < 0)%Z /\
    nth_error (lo_leg_weights lo) (Z.to_nat (lo_interior_number lo c)) = Some 1).
Proof. exact modify_false. Qed.
Print Assumptions C11_no_partial_boundaries.

(** The sub-samples of cells that are not split are untouched; in a split cell
    whose centre is inside, those that were inside are untouched. *)
Theorem C11_untouched :
  forall m n X Zm xt zt c s, on_grid m c ->
  let out := filter_dir n X Zm (m_nx m) (m_ny m) (m_nz m) (m_mxg m) xt zt in
  (~ (some_hit m n X c /\ some_inside m n X c) -> fst out c s = X c s /\ snd out c s = Zm c s) /\
  (some_hit m n X c -> ~ leaves m (xt c) -> ~ leaves m (X c s) -> (s < n)%nat -> fst out c s = X c s /\ snd out c s = Zm c s).
Proof.
  exact (fun m n X Zm xt zt c s G => conj (filter_untouched m n X Zm xt zt c s G)
    (fun H N L Hs => proj2 (proj2 (filter_split m n X Zm xt zt c s G (conj H (ex_intro _ s (conj Hs L))))) N L)).
Qed.
Print Assumptions C11_untouched.

Theorem modify_maps_never_fails :
  forall jw jc m n X Zm xt zt w, modify_input m n X Zm xt zt w ->
  forall pb, exists m' v, modify_maps jw jc pb m = Ok (m', v).
Proof. exact modify_ok. Qed.
Print Assumptions modify_maps_never_fails.

(** * C12. *)
Theorem C12_partial_boundaries_partial :
  forall jw jc m n X Zm xt zt w, modify_input m n X Zm xt zt w ->
  forall m' v d c, modify_maps jw jc true m = Ok (m', v) -> evolving m c ->
  exists xt', centre_map m' d = Some (A3 xt') /\
  ((0 <= wv_dir_cell_number d v c)%Z <-> some_hit m n (X d) c) /\
  ((0 <= wv_dir_cell_number d v c)%Z -> xt' c = -1 /\ leaves m (xt' c)) /\
  ((wv_dir_cell_number d v c < 0)%Z -> xt' c = xt d c).
Proof. exact modify_true. Qed.
Print Assumptions C12_partial_boundaries_partial.

(** The missing direction: a centre that hits while no sub-sample does. *)
Definition ctr_maps : maps :=
  {| m_nx := 3; m_ny := 1; m_nz := 1; m_mxg := 0;
     m_fxts := Some (A4 2 (fun _ _ => 1)); m_fxt := Some (A3 (fun _ => 5));
     m_fzts := Some (A4 2 (fun _ _ => 0)); m_fzt := Some (A3 (fun _ => 0));
     m_bxts := Some (A4 2 (fun _ _ => 1)); m_bxt := Some (A3 (fun _ => 5));
     m_bzts := Some (A4 2 (fun _ _ => 0)); m_bzt := Some (A3 (fun _ => 0));
     m_subw := Some (W1 [1#2; 1#2]) |}.

Example ctr_input : modify_input ctr_maps 2 (fun _ _ _ => 1) (fun _ _ _ => 0) (fun _ _ => 5) (fun _ _ => 0) [1#2; 1#2].
Proof.
  constructor; try reflexivity. constructor; cbn; try lia; try (apply P4; reflexivity); try reflexivity.
  - apply PW. reflexivity.
  - repeat constructor.
Qed.

Theorem C12_centre_without_subsample_refuted :
  exists m' v xt', modify_maps 0 0 true ctr_maps = Ok (m', v) /\ evolving ctr_maps (1, 0, 0)%Z /\
    centre_map m' Fwd = Some (A3 xt') /\ leaves ctr_maps (xt' (1, 0, 0)%Z) /\
    (wv_dir_cell_number Fwd v (1, 0, 0)%Z < 0)%Z.
Proof.
  destruct (modify_ok 0 0 _ _ _ _ _ _ _ ctr_input true) as (m' & v & E).
  destruct (modify_true 0 0 _ _ _ _ _ _ _ ctr_input m' v Fwd (1, 0, 0)%Z E) as (xt' & E1 & E2 & E3 & E4);
    [cbn; lia|].
  assert (N : (wv_dir_cell_number Fwd v (1, 0, 0) < 0)%Z).
  { destruct (Z_lt_dec (wv_dir_cell_number Fwd v (1, 0, 0)%Z) 0); [assumption|].
    destruct (proj1 E2) as (s & _ & [L|L]); [lia|discriminate L|discriminate L]. }
  exists m', v, xt'. split; [exact E|]. split; [cbn; lia|]. split; [exact E1|]. split; [|exact N].
  rewrite (E4 N). right. reflexivity.
Qed.
Print Assumptions C12_centre_without_subsample_refuted.

(** * Non-vacuity on [ex_maps] *)

Definition ex_v := match calculate_parallel_map_operators 0 0 ex_maps with Ok v => Some v | Err _ => None end.

Example ex_calculates : exists v, ex_v = Some v /\ wv_total_cells v = (96 + 4 * 2 * 6)%Z.
Proof. vm_compute. eexists. split; reflexivity. Qed.

(** A split cell, an interior cell and a boundary cell number. *)
Example ex_split : some_hit ex_maps 2 (ex_X Fwd) (1, 0, 0)%Z /\ some_inside ex_maps 2 (ex_X Fwd) (1, 0, 0)%Z.
Proof.
  split; [exists 0%nat|exists 1%nat]; (split; [lia|]); rewrite <- leavesb_iff; vm_compute; congruence.
Qed.

Example ex_interior : some_inside ex_maps 2 (ex_X Fwd) (2, 1, 3)%Z /\ evolving ex_maps (2, 1, 3)%Z.
Proof. split; [exists 0%nat; split; [lia|]; rewrite <- leavesb_iff; vm_compute; congruence|cbn; lia]. Qed.

(** The hypotheses of [C09_linear_fields] are met by the cell (3, 0, 1). *)
Example ex_linear_hyps : forall s, (s < 2)%nat -> ~ leaves ex_maps (ex_X Fwd (3, 0, 1)%Z s) ->
     (ex_X Fwd (3, 0, 1)%Z s - inject_Z (Qfloor (ex_X Fwd (3, 0, 1)%Z s)) == 0 \/
      (1#10000) <= ex_X Fwd (3, 0, 1)%Z s - inject_Z (Qfloor (ex_X Fwd (3, 0, 1)%Z s)) <= (9999#10000)) /\
     (m_mxg ex_maps + 1 <= Qfloor (ex_X Fwd (3, 0, 1)%Z s) <= m_nx ex_maps - m_mxg ex_maps - 3)%Z /\
     (1 <= Qfloor (ex_Z Fwd (3, 0, 1)%Z s) <= m_nz ex_maps - 3)%Z.
Proof. intros [|[|s]] H _; [| |lia]; (split; [right|]); vm_compute; repeat split; discriminate. Qed.

Example ex_modify : exists m' v, modify_maps 0 0 false ex_maps = Ok (m', v) /\ wv_total_cells v = 96%Z.
Proof. vm_compute. eexists. eexists. split; reflexivity. Qed.
