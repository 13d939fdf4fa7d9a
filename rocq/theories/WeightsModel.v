(** Model of zoidberg/weights.py: cell-space numbering, leg metadata, leg
    weights and the CSR leg operators.

    Conventions: floats are exact rationals ([Q]); integer arrays are [Z]; an
    array of shape (nx, ny, nz) is a function of the cell (x, y, z), its shape
    being carried separately; exceptions are [Err]. *)
From Coq Require Import List ZArith QArith Qround Qabs Bool.
From Verif Require Import Prelude.
Import ListNotations.
Open Scope Q_scope.

(** A cell index (x, y, z). *)
Definition cell := (Z * Z * Z)%type.

Definition cell_eqb (a b : cell) : bool :=
  let '(x, y, z) := a in
  let '(x', y', z') := b in
  (x =? x')%Z && (y =? y')%Z && (z =? z')%Z.

(** Array of shape (nx, ny, nz). *)
Definition arr (V : Type) := cell -> V.

(** [a[x, y, z] = v] *)
Definition upd {V} (a : arr V) (c : cell) (v : V) : arr V :=
  fun c' => if cell_eqb c' c then v else a c'.

(** [for x in range(x0, x1): for y in range(ny): for z in range(nz)]: the cells
    in sweep order. Used by all sweeps of weights.py (lines 187-229, 349-351,
    403-405, 506-508, 619-621, 637-639). *)
Definition cells (x0 x1 ny nz : Z) : list cell :=
  flat_map (fun x => flat_map (fun y => map (fun z => (x, y, z)) (zrange 0 nz)) (zrange 0 ny))
           (zrange x0 x1).

(** * The map dictionary *)

(** A mapped coordinate array: 3-d, 4-d (with its number of sub-samples), or any
    other dimension. *)
Inductive marr :=
| A3 (a : arr Q)
| A4 (n : nat) (a : cell -> nat -> Q)
| Abad.

(** [subcell_weights] entry: 1-d, or of another dimension. *)
Inductive warr := W1 (w : list Q) | Wbad.

(** The entries of the map dictionary that weights.py reads; a missing key is
    [None]. [m_nx], [m_ny], [m_nz] is [maps["R"].shape]; all arrays are
    assumed to have that leading shape. *)
Record maps := {
  m_nx : Z; m_ny : Z; m_nz : Z;
  m_mxg : Z;
  m_fxts : option marr; m_fxt : option marr;   (* forward_xt_primes, forward_xt_prime *)
  m_fzts : option marr; m_fzt : option marr;   (* forward_zt_primes, forward_zt_prime *)
  m_bxts : option marr; m_bxt : option marr;   (* backward_xt_primes, backward_xt_prime *)
  m_bzts : option marr; m_bzt : option marr;   (* backward_zt_primes, backward_zt_prime *)
  m_subw : option warr                         (* subcell_weights *)
}.

(** Direction dictionaries, weights.py:51-69. *)
Inductive dir := Fwd | Bwd.

Definition y_offset (d : dir) : Z := match d with Fwd => 1 | Bwd => -1 end.
Definition xt_key (d : dir) (m : maps) := match d with Fwd => m_fxts m | Bwd => m_bxts m end.
Definition xt_fallback (d : dir) (m : maps) := match d with Fwd => m_fxt m | Bwd => m_bxt m end.
Definition zt_key (d : dir) (m : maps) := match d with Fwd => m_fzts m | Bwd => m_bzts m end.
Definition zt_fallback (d : dir) (m : maps) := match d with Fwd => m_fzt m | Bwd => m_bzt m end.

(** weights.py:72-83 [_get_map_array], with the two dictionary look-ups as
    arguments. *)
Definition get_map_array (primary fallback : option marr) : res marr :=
  match primary with
  | Some a => Ok a
  | None => match fallback with Some a => Ok a | None => Err KeyError end
  end.

(** A 4-d array: number of sub-samples and entries. *)
Definition arr4 := (nat * (cell -> nat -> Q))%type.

(** weights.py:86-95 [_as_subsample_array] *)
Definition as_subsample_array (a : marr) : res arr4 :=
  match a with
  | A3 f => Ok (1%nat, fun c _ => f c)
  | A4 n f => Ok (n, f)
  | Abad => Err ValueError
  end.

(** [a[x, y, z, :]] *)
Definition row4 (a : arr4) (c : cell) : list Q := map (snd a c) (seq 0 (fst a)).

(** 1e-8 and 1e-10 of weights.py. *)
Definition tol_sum : Q := 1 # 100000000.
Definition tol_drop : Q := 1 # 10000000000.

(** weights.py:98-117 [_get_subcell_weights] *)
Definition get_subcell_weights (m : maps) (n_subsamples : nat) : res (list Q) :=
  let* w :=
    match m_subw m with
    | Some w => Ok w
    | None => if Nat.eqb n_subsamples 1 then Ok (W1 [1]) else Err ValueError
    end in
  match w with
  | Wbad => Err ValueError
  | W1 w =>
      if negb (Nat.eqb (length w) n_subsamples) then Err ValueError
      else if Qle_bool tol_sum (Qabs (qsum w - 1)) then Err ValueError
      else Ok w
  end.

(** weights.py:120-122 [hits_radial_boundary] *)
Definition hits_radial_boundary (x_mapped : Q) (nx mxg : Z) : bool :=
  Qlt_bool x_mapped (inject_Z mxg) || Qlt_bool (inject_Z (nx - mxg - 1)) x_mapped.

Record classification := {
  cl_hits : list bool;
  cl_has_boundary : bool;
  cl_has_interior : bool;
  cl_boundary_fraction : Q;
  cl_interior_fraction : Q
}.

(** weights.py:125-162 [classify_leg_contributions]. A mask of another length
    than the weights is an IndexError in numpy. *)
Definition classify_leg_contributions (mapped_xs subcell_weights : list Q) (nx mxg : Z)
  : res classification :=
  let mask := map (fun x => hits_radial_boundary x nx mxg) mapped_xs in
  if negb (Nat.eqb (length mask) (length subcell_weights)) then Err IndexError
  else Ok {|
    cl_hits := mask;
    cl_has_boundary := existsb (fun b => b) mask;
    cl_has_interior := existsb negb mask;
    cl_boundary_fraction := qsum (select mask subcell_weights);
    cl_interior_fraction := qsum (select (map negb mask) subcell_weights)
  |}.

(** * Cell space *)

Record cell_space := {
  cs_nx : Z; cs_ny : Z; cs_nz : Z;    (* shape of cell_number *)
  cs_N_cells : Z;
  cs_N_evolving : Z;
  cs_cell_number : arr Z;
  cs_forward_boundary_number : arr Z;
  cs_backward_boundary_number : arr Z
}.

(** The three identical loop bodies of weights.py:187-205. *)
Definition number_cells (l : list cell) (st : arr Z * Z) : arr Z * Z :=
  fold_left (fun '(a, next) c => (upd a c next, (next + 1)%Z)) l st.

(** [np.any([hits_radial_boundary(v, nx, mxg) for v in xts[x, y, z, :]])],
    weights.py:220-227 *)
Definition any_hits (xts : arr4) (nx mxg : Z) (c : cell) : bool :=
  existsb (fun b => b) (map (fun v => hits_radial_boundary v nx mxg) (row4 xts c)).

(** Loop body weights.py:220-229: state (backward, forward, next_cell). *)
Definition number_boundary_step (bxts fxts : arr4) (nx mxg : Z)
  (st : arr Z * arr Z * Z) (c : cell) : arr Z * arr Z * Z :=
  let '(bw, fw, next) := st in
  let '(bw, next) := if any_hits bxts nx mxg c then (upd bw c next, (next + 1)%Z) else (bw, next) in
  let '(fw, next) := if any_hits fxts nx mxg c then (upd fw c next, (next + 1)%Z) else (fw, next) in
  (bw, fw, next).

(** weights.py:165-237 [assign_cell_space_numbers] *)
Definition assign_cell_space_numbers (m : maps) : res cell_space :=
  let nx := m_nx m in let ny := m_ny m in let nz := m_nz m in
  let mxg := m_mxg m in
  let n_evolving := ((nx - 2 * mxg) * ny * nz)%Z in
  let cell_number : arr Z := fun _ => (-1)%Z in
  let next_cell := 0%Z in
  let st := number_cells (cells mxg (nx - mxg) ny nz) (cell_number, next_cell) in
  let st := number_cells (cells 0 mxg ny nz) st in
  let '(cell_number, next_cell) := number_cells (cells (nx - mxg) nx ny nz) st in
  let* fa := get_map_array (m_fxts m) (m_fxt m) in
  let* forward_xts := as_subsample_array fa in
  let* ba := get_map_array (m_bxts m) (m_bxt m) in
  let* backward_xts := as_subsample_array ba in
  let '(bw, fw, next_cell) :=
    fold_left (number_boundary_step backward_xts forward_xts nx mxg)
              (cells mxg (nx - mxg) ny nz)
              ((fun _ => (-1)%Z), (fun _ => (-1)%Z), next_cell) in
  Ok {| cs_nx := nx; cs_ny := ny; cs_nz := nz;
        cs_N_cells := next_cell; cs_N_evolving := n_evolving;
        cs_cell_number := cell_number;
        cs_forward_boundary_number := fw; cs_backward_boundary_number := bw |}.

(** [cell_space[direction["boundary_number_key"]]] *)
Definition cs_boundary_number (d : dir) (cs : cell_space) : arr Z :=
  match d with Fwd => cs_forward_boundary_number cs | Bwd => cs_backward_boundary_number cs end.

(** * Interpolation weights *)

(** weights.py:240-249 [catmull_rom_weights] *)
Definition catmull_rom_weights (u : Q) : list Q :=
  map (fun w => (1 # 2) * w)
    [ - (u * u * u) + 2 * (u * u) - u;
      3 * (u * u * u) - 5 * (u * u) + 2;
      - (3) * (u * u * u) + 4 * (u * u) + u;
      u * u * u - u * u ].

(** [a[i] += v] for an index already resolved to a position; IndexError if
    outside. *)
Definition add_at (a : list Q) (i : Z) (v : Q) : res (list Q) :=
  let n := Z.of_nat (length a) in
  (* Python resolves a negative index from the end *)
  let i' := if (i <? 0)%Z then (i + n)%Z else i in
  if (0 <=? i')%Z && (i' <? n)%Z
  then Ok (set_nth (Z.to_nat i') (nth (Z.to_nat i') a 0 + v) a)
  else Err IndexError.

(** weights.py:252-270 [shift_weights_out_of_x_boundaries] *)
Definition shift_weights_out_of_x_boundaries
  (weights_x : list Q) (x_base : Z) (x_offsets : list Z) (nx mxg : Z) : res (list Q) :=
  let* adjusted :=
    foldM (fun a '(wi, offset) =>
             if (x_base + offset <? mxg)%Z then
               let* a := add_at a (Z.of_nat wi + 1) (nth wi a 0) in
               Ok (set_nth wi 0 a)
             else Ok a)
          (enumerate x_offsets) weights_x in
  let* adjusted :=
    foldM (fun a '(wi, offset) =>
             if (nx - mxg <=? x_base + offset)%Z then
               let* a := add_at a (Z.of_nat wi - 1) (nth wi a 0) in
               Ok (set_nth wi 0 a)
             else Ok a)
          (rev (enumerate x_offsets)) adjusted in
  if Qle_bool tol_sum (Qabs (qsum adjusted - 1)) then Err ValueError else Ok adjusted.

(** * Sparse rows *)

Definition entry := (Z * Q)%type.            (* (column, weight) *)
Definition builder := list (list entry).     (* SparseRowMatrixBuilder.rows *)

(** weights.py:276-277 *)
Definition new_builder (n_rows : Z) : builder := repeat [] (Z.to_nat n_rows).

(** weights.py:279-283 [set_row]. Row numbers are non-negative at all call
    sites reached without an earlier error; a negative one is an error here. *)
Definition set_row (b : builder) (row : Z) (entries : list entry) : res builder :=
  if (row <? 0)%Z then Err IndexError else
  match nth_error b (Z.to_nat row) with
  | None => Err IndexError
  | Some [] => Ok (set_nth (Z.to_nat row) entries b)
  | Some (_ :: _) => Err ValueError
  end.

(** Inner loop of [add_to_entry], weights.py:287-291, on one row. *)
Fixpoint add_entry (r : list entry) (col : Z) (weight : Q) : list entry :=
  match r with
  | [] => [(col, weight)]
  | (c, w) :: r' =>
      if (c =? col)%Z then (col, w + weight) :: r' else (c, w) :: add_entry r' col weight
  end.

(** weights.py:285-291 [add_to_entry] *)
Definition add_to_entry (b : builder) (row col : Z) (weight : Q) : res builder :=
  if (row <? 0)%Z then Err IndexError else
  match nth_error b (Z.to_nat row) with
  | None => Err IndexError
  | Some r => Ok (set_nth (Z.to_nat row) (add_entry r col weight) b)
  end.

Record csr := { csr_weights : list Q; csr_columns : list Z; csr_rows : list Z }.

(** [np.cumsum] with the leading 0 of the row pointer, weights.py:296-299. *)
Fixpoint cumsum_from (s : Z) (l : list Z) : list Z :=
  match l with [] => [] | a :: l' => (s + a)%Z :: cumsum_from (s + a) l' end.

(** weights.py:293-311 [to_csr]. [junk_w]/[junk_c] is the unspecified content of
    [np.empty]. *)
Definition to_csr (junk_w : Q) (junk_c : Z) (b : builder) : csr :=
  let row_ptr := 0%Z :: cumsum_from 0 (map (fun r => Z.of_nat (length r)) b) in
  let nnz := last row_ptr 0%Z in
  let columns0 := repeat junk_c (Z.to_nat nnz) in
  let weights0 := repeat junk_w (Z.to_nat nnz) in
  let '(columns, weights) :=
    fold_left
      (fun st '(row, entries) =>
         let start := nth row row_ptr 0%Z in
         fold_left
           (fun '(columns, weights) '(i, (col, weight)) =>
              let k := Z.to_nat (start + Z.of_nat i) in
              (set_nth k col columns, set_nth k weight weights))
           (enumerate entries) st)
      (enumerate b) (columns0, weights0) in
  {| csr_weights := weights; csr_columns := columns; csr_rows := row_ptr |}.

(** * Leg space *)

Record leg_space := {
  ls_nx : Z; ls_ny : Z; ls_nz : Z;    (* shape of interior_leg_number *)
  ls_n_legs : Z;
  ls_interior_leg_number : arr Z;
  ls_boundary_leg_number : arr Z;
  ls_interior_fraction : arr Q;
  ls_boundary_fraction : arr Q;
  ls_has_interior_leg : arr bool;
  ls_has_boundary_leg : arr bool
}.

(** weights.py:352-366: one cell of the sweep. *)
Definition leg_step (xts : arr4) (subw : list Q) (nx mxg : Z) (ls : leg_space) (c : cell)
  : res leg_space :=
  let* cl := classify_leg_contributions (row4 xts c) subw nx mxg in
  let next := ls_n_legs ls in
  let '(inum, next) :=
    if cl_has_interior cl then (upd (ls_interior_leg_number ls) c next, (next + 1)%Z)
    else (ls_interior_leg_number ls, next) in
  let '(bnum, next) :=
    if cl_has_boundary cl then (upd (ls_boundary_leg_number ls) c next, (next + 1)%Z)
    else (ls_boundary_leg_number ls, next) in
  Ok {| ls_nx := ls_nx ls; ls_ny := ls_ny ls; ls_nz := ls_nz ls;
        ls_n_legs := next;
        ls_interior_leg_number := inum;
        ls_boundary_leg_number := bnum;
        ls_interior_fraction := upd (ls_interior_fraction ls) c (cl_interior_fraction cl);
        ls_boundary_fraction := upd (ls_boundary_fraction ls) c (cl_boundary_fraction cl);
        ls_has_interior_leg := upd (ls_has_interior_leg ls) c (cl_has_interior cl);
        ls_has_boundary_leg := upd (ls_has_boundary_leg ls) c (cl_has_boundary cl) |}.

(** weights.py:314-377 [build_leg_space_metadata] *)
Definition build_leg_space_metadata (cs : cell_space) (m : maps) (d : dir) : res leg_space :=
  let nx := cs_nx cs in let ny := cs_ny cs in let nz := cs_nz cs in
  let mxg := m_mxg m in
  let* xa := get_map_array (xt_key d m) (xt_fallback d m) in
  let* xt_primes := as_subsample_array xa in
  let* subw := get_subcell_weights m (fst xt_primes) in
  foldM (leg_step xt_primes subw nx mxg) (cells mxg (nx - mxg) ny nz)
    {| ls_nx := nx; ls_ny := ny; ls_nz := nz; ls_n_legs := 0;
       ls_interior_leg_number := fun _ => (-1)%Z;
       ls_boundary_leg_number := fun _ => (-1)%Z;
       ls_interior_fraction := fun _ => 0;
       ls_boundary_fraction := fun _ => 0;
       ls_has_interior_leg := fun _ => false;
       ls_has_boundary_leg := fun _ => false |}.

(** [weights[row] = v] after the check [row < 0 -> IndexError],
    weights.py:412-415 and 417-420. *)
Definition set_weight (w : list Q) (row : Z) (v : Q) : res (list Q) :=
  if (row <? 0)%Z then Err IndexError
  else if (row <? Z.of_nat (length w))%Z then Ok (set_nth (Z.to_nat row) v w)
  else Err IndexError.

(** weights.py:406-420: one cell of the sweep. *)
Definition weight_step (ls : leg_space) (w : list Q) (c : cell) : res (list Q) :=
  let hi := ls_has_interior_leg ls c in
  let hb := ls_has_boundary_leg ls c in
  if negb (hi || hb) then Ok w else
  let split := hi && hb in
  let* w := if hi then set_weight w (ls_interior_leg_number ls c)
                                  (if split then ls_interior_fraction ls c else 1)
            else Ok w in
  if hb then set_weight w (ls_boundary_leg_number ls c)
                        (if split then ls_boundary_fraction ls c else 1)
  else Ok w.

(** weights.py:380-422 [build_leg_weight_vector] *)
Definition build_leg_weight_vector (ls : leg_space) : res (list Q) :=
  foldM (weight_step ls) (cells 0 (ls_nx ls) (ls_ny ls) (ls_nz ls))
        (repeat 0 (Z.to_nat (ls_n_legs ls))).

(** * Interior stencil *)

(** weights.py:439 *)
Definition x_offsets : list Z := [-1; 0; 1; 2]%Z.

(** [np.clip(v, lo, hi)] *)
Definition clip (v lo hi : Z) : Z := Z.min (Z.max v lo) hi.

(** weights.py:469-480: body of the innermost loop. *)
Definition stencil_entry (nx ny nz : Z) (cell_number : arr Z) (row y yo x_base z_base : Z)
  (scale x_weight : Q) (x_offset : Z) (b : builder) (zw : Z * Q) : res builder :=
  let '(z_offset, z_weight) := zw in
  let col := cell_number (clip (x_base + x_offset) 0 (nx - 1),
                          ((y + yo + ny) mod ny)%Z,
                          ((z_base + z_offset + nz) mod nz)%Z) in
  if (col <? 0)%Z then Err ValueError
  else add_to_entry b row col (scale * x_weight * z_weight).

(** weights.py:448-480: one sub-sample. *)
Definition stencil_sample (nx ny nz mxg : Z) (cell_number : arr Z) (row y yo : Z)
  (interior_weight : Q) (b : builder) (s : Q * Q * Q * bool) : res builder :=
  let '(mapped_x, mapped_z, subcell_weight, hit_boundary) := s in
  if hit_boundary : bool then Ok b else
  let x_base := Qtrunc mapped_x in
  let z_base := Qtrunc mapped_z in
  let weights_x := catmull_rom_weights (mapped_x - inject_Z x_base) in
  let weights_z := catmull_rom_weights (mapped_z - inject_Z z_base) in
  let* weights_x := shift_weights_out_of_x_boundaries weights_x x_base x_offsets nx mxg in
  if Qle_bool tol_sum (Qabs (qsum weights_z - 1)) then Err ValueError else
  let scale := subcell_weight / interior_weight in
  foldM (fun b '(x_offset, x_weight) =>
           if Qlt_bool (Qabs x_weight) tol_drop then Ok b else
           foldM (stencil_entry nx ny nz cell_number row y yo x_base z_base scale x_weight x_offset)
                 (combine x_offsets weights_z) b)
        (combine x_offsets weights_x) b.

(** weights.py:425-480 [accumulate_interior_stencil] *)
Definition accumulate_interior_stencil (b : builder) (row : Z) (mapped_xs mapped_zs subw : list Q)
  (hits : list bool) (y yo : Z) (nx ny nz : Z) (cell_number : arr Z) (mxg : Z) : res builder :=
  let interior_weight := qsum (select (map negb hits) subw) in
  if Qle_bool interior_weight 0 then Err ValueError else
  foldM (stencil_sample nx ny nz mxg cell_number row y yo interior_weight)
        (combine (combine (combine mapped_xs mapped_zs) subw) hits) b.

(** weights.py:509-537: one cell of the operator sweep. *)
Definition operator_step (cs : cell_space) (ls : leg_space) (xts zts : arr4) (subw : list Q)
  (mxg : Z) (d : dir) (b : builder) (c : cell) : res builder :=
  let nx := cs_nx cs in let ny := cs_ny cs in let nz := cs_nz cs in
  let '(x, y, z) := c in
  let* cl := classify_leg_contributions (row4 xts c) subw nx mxg in
  let* b :=
    if ls_has_boundary_leg ls c then
      let col := cs_boundary_number d cs c in
      if (col <? 0)%Z then Err ValueError
      else set_row b (ls_boundary_leg_number ls c) [(col, 1)]
    else Ok b in
  if ls_has_interior_leg ls c then
    accumulate_interior_stencil b (ls_interior_leg_number ls c) (row4 xts c) (row4 zts c) subw
      (cl_hits cl) y (y_offset d) nx ny nz (cs_cell_number cs) mxg
  else Ok b.

(** weights.py:483-539 [build_leg_destination_operator], up to the final
    export: the assembled rows. *)
Definition build_rows (cs : cell_space) (ls : leg_space) (m : maps) (d : dir) : res builder :=
  let nx := cs_nx cs in let ny := cs_ny cs in let nz := cs_nz cs in
  let mxg := m_mxg m in
  let* xa := get_map_array (xt_key d m) (xt_fallback d m) in
  let* xt_primes := as_subsample_array xa in
  let* za := get_map_array (zt_key d m) (zt_fallback d m) in
  let* zt_primes := as_subsample_array za in
  let* subw := get_subcell_weights m (fst xt_primes) in
  foldM (operator_step cs ls xt_primes zt_primes subw mxg d)
        (cells mxg (nx - mxg) ny nz) (new_builder (ls_n_legs ls)).

Definition build_leg_destination_operator (junk_w : Q) (junk_c : Z)
  (cs : cell_space) (ls : leg_space) (m : maps) (d : dir) : res csr :=
  let* b := build_rows cs ls m d in Ok (to_csr junk_w junk_c b).

(** The result dictionary of weights.py:570-594, grouped by direction. *)
Record leg_ops := {
  lo_n_legs : Z;
  lo_interior_number : arr Z;
  lo_boundary_number : arr Z;
  lo_leg_weights : list Q;
  lo_csr : csr
}.

Record weight_vars := {
  wv_total_cells : Z;
  wv_cell_number : arr Z;
  wv_forward_cell_number : arr Z;
  wv_backward_cell_number : arr Z;
  wv_forward : leg_ops;
  wv_backward : leg_ops
}.

Definition wv_dir (d : dir) (v : weight_vars) : leg_ops :=
  match d with Fwd => wv_forward v | Bwd => wv_backward v end.
Definition wv_dir_cell_number (d : dir) (v : weight_vars) : arr Z :=
  match d with Fwd => wv_forward_cell_number v | Bwd => wv_backward_cell_number v end.

Definition mk_leg_ops (ls : leg_space) (w : list Q) (op : csr) : leg_ops :=
  {| lo_n_legs := ls_n_legs ls;
     lo_interior_number := ls_interior_leg_number ls;
     lo_boundary_number := ls_boundary_leg_number ls;
     lo_leg_weights := w; lo_csr := op |}.

(** weights.py:542-594 [calculate_parallel_map_operators] *)
Definition calculate_parallel_map_operators (junk_w : Q) (junk_c : Z) (m : maps) : res weight_vars :=
  let* cs := assign_cell_space_numbers m in
  let* fls := build_leg_space_metadata cs m Fwd in
  let* bls := build_leg_space_metadata cs m Bwd in
  let* fop := build_leg_destination_operator junk_w junk_c cs fls m Fwd in
  let* bop := build_leg_destination_operator junk_w junk_c cs bls m Bwd in
  let* fw := build_leg_weight_vector fls in
  let* bw := build_leg_weight_vector bls in
  Ok {| wv_total_cells := cs_N_cells cs;
        wv_cell_number := cs_cell_number cs;
        wv_forward_cell_number := cs_forward_boundary_number cs;
        wv_backward_cell_number := cs_backward_boundary_number cs;
        wv_forward := mk_leg_ops fls fw fop;
        wv_backward := mk_leg_ops bls bw bop |}.

(** * modify_maps, weights.py:597-672 *)

(** weights.py:622-625 on one cell: if a sub-sample hits, mark the centre. *)
Definition mark_step (n : nat) (xts : cell -> nat -> Q) (nx mxg : Z) (xt : arr Q) (c : cell) : arr Q :=
  if existsb (fun w => hits_radial_boundary (xts c w) nx mxg) (seq 0 n)
  then upd xt c (-1) else xt.

(** weights.py:614-626 for one direction. *)
Definition mark_dir (n : nat) (xts : cell -> nat -> Q) (nx ny nz mxg : Z) (xt : arr Q) : arr Q :=
  fold_left (mark_step n xts nx mxg) (cells 0 nx ny nz) xt.

(** Assignment to all sub-samples of a cell, or to those selected by a mask. *)
Definition upd_row (a : cell -> nat -> Q) (c : cell) (f : nat -> Q -> Q) : cell -> nat -> Q :=
  fun c' w => if cell_eqb c' c then f w (a c' w) else a c' w.

(** weights.py:640-656 on one cell. *)
Definition filter_step (n : nat) (xt zt : arr Q) (nx mxg : Z)
  (st : (cell -> nat -> Q) * (cell -> nat -> Q)) (c : cell) :=
  let '(xts, zts) := st in
  let hit_bndry w := hits_radial_boundary (xts c w) nx mxg in
  if existsb hit_bndry (seq 0 n) && negb (forallb hit_bndry (seq 0 n)) then
    if hits_radial_boundary (xt c) nx mxg then
      (upd_row xts c (fun _ _ => xt c), upd_row zts c (fun _ _ => zt c))
    else
      (upd_row xts c (fun w v => if hit_bndry w then xt c else v),
       upd_row zts c (fun w v => if hit_bndry w then zt c else v))
  else (xts, zts).

(** weights.py:630-658 for one direction. *)
Definition filter_dir (n : nat) (xts zts : cell -> nat -> Q) (nx ny nz mxg : Z) (xt zt : arr Q) :=
  fold_left (filter_step n xt zt nx mxg) (cells 0 nx ny nz) (xts, zts).

(** The four arrays [d_xt_primes, d_xt_prime, d_zt_primes, d_zt_prime] that
    [modify_maps] indexes directly. Missing: KeyError; wrong dimension of the
    4-d arrays: ValueError (tuple unpacking of the shape). *)
Definition need4 (o : option marr) : res arr4 :=
  match o with None => Err KeyError | Some (A4 n f) => Ok (n, f) | Some _ => Err ValueError end.
Definition need3 (o : option marr) : res (arr Q) :=
  match o with None => Err KeyError | Some (A3 f) => Ok f | Some _ => Err IndexError end.

(** weights.py:611-658: the maps before the operators are computed. Both
    branches read only the keys they use. *)
Definition premodify (partial_boundaries : bool) (m : maps) : res maps :=
  let nx := m_nx m in let ny := m_ny m in let nz := m_nz m in let mxg := m_mxg m in
  if partial_boundaries then
    let* fxts := need4 (m_fxts m) in
    let* fxt := need3 (m_fxt m) in
    let* bxts := need4 (m_bxts m) in
    let* bxt := need3 (m_bxt m) in
    Ok {| m_nx := nx; m_ny := ny; m_nz := nz; m_mxg := mxg;
          m_fxts := m_fxts m;
          m_fxt := Some (A3 (mark_dir (fst fxts) (snd fxts) nx ny nz mxg fxt));
          m_fzts := m_fzts m; m_fzt := m_fzt m;
          m_bxts := m_bxts m;
          m_bxt := Some (A3 (mark_dir (fst bxts) (snd bxts) nx ny nz mxg bxt));
          m_bzts := m_bzts m; m_bzt := m_bzt m;
          m_subw := m_subw m |}
  else
    let* fxts := need4 (m_fxts m) in
    let* fxt := need3 (m_fxt m) in
    let* fzts := need4 (m_fzts m) in
    let* fzt := need3 (m_fzt m) in
    let* bxts := need4 (m_bxts m) in
    let* bxt := need3 (m_bxt m) in
    let* bzts := need4 (m_bzts m) in
    let* bzt := need3 (m_bzt m) in
    let '(fx', fz') := filter_dir (fst fxts) (snd fxts) (snd fzts) nx ny nz mxg fxt fzt in
    let '(bx', bz') := filter_dir (fst bxts) (snd bxts) (snd bzts) nx ny nz mxg bxt bzt in
    Ok {| m_nx := nx; m_ny := ny; m_nz := nz; m_mxg := mxg;
          m_fxts := Some (A4 (fst fxts) fx'); m_fxt := m_fxt m;
          m_fzts := Some (A4 (fst fzts) fz'); m_fzt := m_fzt m;
          m_bxts := Some (A4 (fst bxts) bx'); m_bxt := m_bxt m;
          m_bzts := Some (A4 (fst bzts) bz'); m_bzt := m_bzt m;
          m_subw := m_subw m |}.

(** weights.py:660-672: operators computed, then the sub-sampled maps and
    weights are dropped from the dictionary. *)
Definition modify_maps (junk_w : Q) (junk_c : Z) (partial_boundaries : bool) (m : maps)
  : res (maps * weight_vars) :=
  let* m' := premodify partial_boundaries m in
  let* wv := calculate_parallel_map_operators junk_w junk_c m' in
  Ok ({| m_nx := m_nx m'; m_ny := m_ny m'; m_nz := m_nz m'; m_mxg := m_mxg m';
         m_fxts := None; m_fxt := m_fxt m'; m_fzts := None; m_fzt := m_fzt m';
         m_bxts := None; m_bxt := m_bxt m'; m_bzts := None; m_bzt := m_bzt m';
         m_subw := None |}, wv).
