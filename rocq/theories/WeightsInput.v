(** Valid inputs of the operator construction, as plain data: which sub-sample
    positions and area weights a map dictionary carries. Used in the statements
    of WeightsProps. *)
From Coq Require Import List ZArith QArith Qround Qabs Bool.
From Verif Require Import Prelude WeightsModel WeightsSpec.
Import ListNotations.
Open Scope Q_scope.

(** The dictionary holds, under a primary or a fall-back key, [n] values
    [f c s] per cell [c]: a 4-d array, or a 3-d one read as one sub-sample. *)
Inductive provides (primary fallback : option marr) : nat -> (cell -> nat -> Q) -> Prop :=
| P4 n f : primary = Some (A4 n f) -> provides primary fallback n f
| P3 g : primary = Some (A3 g) -> provides primary fallback 1 (fun c _ => g c)
| F4 n f : primary = None -> fallback = Some (A4 n f) -> provides primary fallback n f
| F3 g : primary = None -> fallback = Some (A3 g) -> provides primary fallback 1 (fun c _ => g c).

Inductive provides_weights (s : option warr) : list Q -> Prop :=
| PW w : s = Some (W1 w) -> provides_weights s w
| PWdefault : s = None -> provides_weights s [1].

(** Valid maps: [n] sub-samples per cell at positions (X d c s, Zm d c s), of
    positive area [w]_s, adding up to one within the accepted tolerance. *)
Record valid_maps (m : maps) (n : nat) (X Zm : dir -> cell -> nat -> Q) (w : list Q) : Prop := {
  vm_mxg : (0 <= m_mxg m)%Z;
  vm_nx : (2 * m_mxg m <= m_nx m)%Z;
  vm_ny : (0 <= m_ny m)%Z;
  vm_nz : (0 <= m_nz m)%Z;
  vm_xf : provides (m_fxts m) (m_fxt m) n (X Fwd);
  vm_xb : provides (m_bxts m) (m_bxt m) n (X Bwd);
  vm_zf : provides (m_fzts m) (m_fzt m) n (Zm Fwd);
  vm_zb : provides (m_bzts m) (m_bzt m) n (Zm Bwd);
  vm_w : provides_weights (m_subw m) w;
  vm_len : length w = n;
  vm_pos : Forall (fun q => 0 < q) w;
  vm_sum : Qabs (qsum w - 1) < 1 # 100000000
}.

(** A cell of the grid; an evolving cell (not a radial guard cell). *)
Definition on_grid (m : maps) (c : cell) : Prop :=
  let '(x, y, z) := c in (0 <= x < m_nx m /\ 0 <= y < m_ny m /\ 0 <= z < m_nz m)%Z.
Definition evolving (m : maps) (c : cell) : Prop :=
  let '(x, y, z) := c in
  (m_mxg m <= x < m_nx m - m_mxg m /\ 0 <= y < m_ny m /\ 0 <= z < m_nz m)%Z.

(** A mapped radial index leaves the evolving range. *)
Definition leaves (m : maps) (x : Q) : Prop :=
  x < inject_Z (m_mxg m) \/ inject_Z (m_nx m - m_mxg m - 1) < x.
Definition leavesb (m : maps) (x : Q) : bool :=
  negb (Qle_bool (inject_Z (m_mxg m)) x && Qle_bool x (inject_Z (m_nx m - m_mxg m - 1))).

(** Some sub-sample hits / stays inside. *)
Definition some_hit (m : maps) (n : nat) (X : cell -> nat -> Q) (c : cell) : Prop :=
  exists s, (s < n)%nat /\ leaves m (X c s).
Definition some_inside (m : maps) (n : nat) (X : cell -> nat -> Q) (c : cell) : Prop :=
  exists s, (s < n)%nat /\ ~ leaves m (X c s).

(** Area of the sub-samples that hit / stay inside. *)
Definition hit_area (m : maps) (n : nat) (X : cell -> nat -> Q) (w : list Q) (c : cell) : Q :=
  qsum (map (fun s => if leavesb m (X c s) then nth s w 0 else 0) (seq 0 n)).
Definition inside_area (m : maps) (n : nat) (X : cell -> nat -> Q) (w : list Q) (c : cell) : Q :=
  qsum (map (fun s => if leavesb m (X c s) then 0 else nth s w 0) (seq 0 n)).

(** Average over the inside sub-samples. *)
Definition inside_average (m : maps) (n : nat) (X : cell -> nat -> Q) (w : list Q) (c : cell) (g : nat -> Q) : Q :=
  qsum (map (fun s => if leavesb m (X c s) then 0 else nth s w 0 * g s) (seq 0 n)) / inside_area m n X w c.

(** y index of the neighbouring slice, periodic. *)
Definition next_y (m : maps) (d : dir) (c : cell) : Z :=
  let '(_, y, _) := c in
  match d with Fwd => (y + 1) mod m_ny m | Bwd => (y - 1) mod m_ny m end%Z.

(** A field on the cells, read for interpolation: radial index clamped to the
    evolving range, toroidal index periodic. *)
Definition extend (m : maps) (d : dir) (c : cell) (g : cell -> Q) (i k : Z) : Q :=
  g (clampZ i (m_mxg m) (m_nx m - m_mxg m - 1), next_y m d c, (k mod m_nz m)%Z).

(** The dictionary [modify_maps] is called with: sub-sampled and centre maps. *)
Record modify_input (m : maps) (n : nat) (X Zm : dir -> cell -> nat -> Q) (xt zt : dir -> cell -> Q) (w : list Q) : Prop := {
  mi_valid : valid_maps m n X Zm w;
  mi_fxts : m_fxts m = Some (A4 n (X Fwd)); mi_bxts : m_bxts m = Some (A4 n (X Bwd));
  mi_fzts : m_fzts m = Some (A4 n (Zm Fwd)); mi_bzts : m_bzts m = Some (A4 n (Zm Bwd));
  mi_fxt : m_fxt m = Some (A3 (xt Fwd)); mi_bxt : m_bxt m = Some (A3 (xt Bwd));
  mi_fzt : m_fzt m = Some (A3 (zt Fwd)); mi_bzt : m_bzt m = Some (A3 (zt Bwd))
}.

(** The centre map of a direction in a dictionary. *)
Definition centre_map (m : maps) (d : dir) : option marr := match d with Fwd => m_fxt m | Bwd => m_bxt m end.

(** The same dictionary with other sub-sampled z maps. *)
Definition with_z (m : maps) (n : nat) (Zm : dir -> cell -> nat -> Q) : maps :=
  {| m_nx := m_nx m; m_ny := m_ny m; m_nz := m_nz m; m_mxg := m_mxg m;
     m_fxts := m_fxts m; m_fxt := m_fxt m; m_fzts := Some (A4 n (Zm Fwd)); m_fzt := m_fzt m;
     m_bxts := m_bxts m; m_bxt := m_bxt m; m_bzts := Some (A4 n (Zm Bwd)); m_bzt := m_bzt m;
     m_subw := m_subw m |}.

(** Row [r] of the leg operator of direction [d], read from its CSR arrays. *)
Definition leg_row (v : weight_vars) (d : dir) (r : Z) : list (Z * Q) :=
  let op := lo_csr (wv_dir d v) in csr_row (csr_weights op) (csr_columns op) (csr_rows op) (Z.to_nat r).
