(** The derivative along the lines of a slab from the operators of its maps, and a field for the examples. *)
From Coq Require Import String List ZArith QArith Qabs Qround Qfield Lia Lqa Bool.
From Verif Require Import Prelude PreludeFacts NamingModel NamingSpec GridModel GridSpec PolModel FieldModel MapsModel MapsSpec MapsMore MapsMain
  MapsExamples SlabModel SlabSpec SlabProofs WeightsModel WeightsSpec WeightsInput WeightsRows WeightsTop PipeModel PipeSpec PipeProofs PipeSlab.
Import ListNotations.
Open Scope Q_scope.

(** every field on the evolving cells is a function of the cell number *)
Lemma field_exists jw jc m n X Zm w v (q : cell -> Q) : valid_maps m n X Zm w -> calculate_parallel_map_operators jw jc m = Ok v ->
  exists F, forall c, evolving m c -> F (wv_cell_number v c) == q c.
Proof.
  intros V Ev. exists (fun k => q ((k / (m_ny m * m_nz m) + m_mxg m)%Z, ((k / m_nz m) mod m_ny m)%Z, (k mod m_nz m)%Z)).
  intros [[x y] z] Hc. rewrite (cell_number_closed jw jc m n X Zm w V v Ev x y z Hc). cbn in Hc. destruct Hc as (Hx & Hy & Hz).
  assert (A1 : ((((x - m_mxg m) * m_ny m + y) * m_nz m + z) / m_nz m = (x - m_mxg m) * m_ny m + y)%Z).
  { rewrite Z.add_comm, Z.div_add by lia. rewrite Z.div_small by lia. lia. }
  assert (A2 : ((((x - m_mxg m) * m_ny m + y) * m_nz m + z) mod m_nz m = z)%Z).
  { rewrite Z.add_comm, Z.mod_add by lia. apply Z.mod_small. lia. }
  rewrite (Z.mul_comm (m_ny m)), <- Z.div_div by lia. rewrite A1, A2.
  assert (A3 : (((x - m_mxg m) * m_ny m + y) / m_ny m = x - m_mxg m)%Z).
  { rewrite Z.add_comm, Z.div_add by lia. rewrite Z.div_small by lia. lia. }
  assert (A4 : (((x - m_mxg m) * m_ny m + y) mod m_ny m = y)%Z).
  { rewrite Z.add_comm, Z.mod_add by lia. apply Z.mod_small. lia. }
  rewrite A3, A4. replace (x - m_mxg m + m_mxg m)%Z with x by lia. reflexivity.
Qed.

Section Slab.
Variables (nx nz M : Z) (Lx Lz Rc Zc : Q) (r : rect).
Hypothesis Hr : rect_init nx nz Lx Lz Rc Zc M = Ok r.
Hypothesis HM : (0 < nx - 2 * M)%Z.
Hypothesis Hnx : (0 <= nx)%Z.
Hypothesis Hnz : (0 < nz)%Z.
Hypothesis HLx : ~ Lx == 0.
Hypothesis HLz : ~ Lz == 0.
Variables (n : nat) (L : Q) (per : bool) (g : grid rect).
Hypothesis Hn : (0 < n)%nat.
Hypothesis HL : 0 < L.
Hypothesis Hg : rectangular_grid r n L per = Ok g.
Variables (f : field) (By Bz xc Bzp Rm : Q).
Hypothesis HB : (1 # 100000000) <= Qabs By.
Hypothesis HF : is_slab_field f By Bz xc Bzp Rm.
Variable repr : Q -> string.
Variable roots_jacobi : nat -> list Q * list Q.
Variable fll : list (Q * Q) -> list Q -> Q.
Variable Jperp : rect -> Z -> Z -> Q.
Variable is_slab : bool.
Hypothesis Hrule : rule roots_jacobi.
Hypothesis Hcen : centred roots_jacobi.
Variables (mxg spd : Z) (refine : nat).
Hypothesis Hspd : (1 <= spd)%Z.
Hypothesis Href : (1 <= refine)%nat.
Hypothesis Hmxg : (0 <= mxg)%Z.
Hypothesis H2 : (2 * mxg <= nx)%Z.
Notation run := (slab_maps repr f roots_jacobi fll Jperp is_slab g 1 mxg spd refine).
Notation ns := (Z.to_nat spd * Z.to_nat spd)%nat.
Notation shift_at := (shift_at nx nz M Lx Lz Rc n L By Bz xc Bzp Rm).

Lemma slab_row n_chunks junk jw jc d m v dr i j k F (al : Z -> Q) be ga : n_chunks <> 0%nat -> run n_chunks junk = Ok d ->
  weights_input d nx (ny g) nz ns = Ok m -> calculate_parallel_map_operators jw jc m = Ok v ->
  (0 <= j < Z.of_nat n)%Z -> (0 <= k < nz)%Z -> (mxg + 2 <= i <= nx - mxg - 3)%Z -> has_slice per n (j + sgn dr) = true ->
  (forall h, In h (hs roots_jacobi spd) -> h == 0 \/ (1 # 10000) <= Qabs h < 1 # 2) ->
  (forall h, In h (hs roots_jacobi spd) -> 1 <= inject_Z k + shift_at (inject_Z i + h) (sgn dr) < inject_Z (nz - 2)) ->
  (forall x y z, evolving m (x, y, z) -> F (wv_cell_number v (x, y, z)) == al y + be * inject_Z x + ga * inject_Z z) ->
  (lo_boundary_number (wv_dir dr v) (i, j, k) < 0)%Z /\
  row_apply (leg_row v dr (lo_interior_number (wv_dir dr v) (i, j, k))) F ==
    al ((j + sgn dr) mod Z.of_nat n)%Z + be * inject_Z i + ga * (inject_Z k + shift_at (inject_Z i) (sgn dr)).
Proof. destruct Hrule as (R1 & R2 & R3 & R4). eapply slab_linear; eassumption. Qed.

Lemma slab_derivative n_chunks junk jw jc d m v i j k F (al : Z -> Q) be ga : n_chunks <> 0%nat -> run n_chunks junk = Ok d ->
  weights_input d nx (ny g) nz ns = Ok m -> calculate_parallel_map_operators jw jc m = Ok v ->
  (0 <= j < Z.of_nat n)%Z -> (0 <= k < nz)%Z -> (mxg + 2 <= i <= nx - mxg - 3)%Z ->
  (forall dr, has_slice per n (j + sgn dr) = true) ->
  (forall h, In h (hs roots_jacobi spd) -> h == 0 \/ (1 # 10000) <= Qabs h < 1 # 2) ->
  (forall dr h, In h (hs roots_jacobi spd) -> 1 <= inject_Z k + shift_at (inject_Z i + h) (sgn dr) < inject_Z (nz - 2)) ->
  (forall x y z, evolving m (x, y, z) -> F (wv_cell_number v (x, y, z)) == al y + be * inject_Z x + ga * inject_Z z) ->
  (row_apply (leg_row v Fwd (lo_interior_number (wv_dir Fwd v) (i, j, k))) F -
   row_apply (leg_row v Bwd (lo_interior_number (wv_dir Bwd v) (i, j, k))) F) / (2 * (L / inject_Z (Z.of_nat n))) ==
  (al ((j + 1) mod Z.of_nat n)%Z - al ((j - 1) mod Z.of_nat n)%Z) / (2 * (L / inject_Z (Z.of_nat n))) +
  slope By Bz xc Bzp Rm (x_pos nx M Lx Rc i) * (ga / (Lz / inject_Z nz)).
Proof.
  intros Hc E Em Ev Hj Hk Hi Hs Hh Hz HFl.
  destruct (slab_row n_chunks junk jw jc d m v Fwd i j k F al be ga Hc E Em Ev Hj Hk Hi (Hs Fwd) Hh (Hz Fwd) HFl) as [_ A].
  destruct (slab_row n_chunks junk jw jc d m v Bwd i j k F al be ga Hc E Em Ev Hj Hk Hi (Hs Bwd) Hh (Hz Bwd) HFl) as [_ B].
  rewrite A, B. unfold PipeSpec.shift_at. cbn [sgn]. change (x_at nx M Lx Rc (inject_Z i)) with (x_pos nx M Lx Rc i).
  change (j + -1)%Z with (j - 1)%Z. change (inject_Z (-1)) with (- (1)). change (inject_Z 1) with 1.
  assert (N1 : ~ inject_Z (Z.of_nat n) == 0) by (apply inzp; lia). assert (N2 : ~ inject_Z nz == 0) by (apply inzp; lia).
  assert (N3 : ~ L == 0) by lra. field. repeat split; assumption.
Qed.
End Slab.

(** ** Concrete *)
Definition ex_rect : rect := match rect_init 9 8 1 1 0 0 1 with Ok r => r | Err _ => {| r_nx := 0; r_nz := 0; r_dR := 0; r_dZ := 0; r_Rmin := 0; r_Zmin := 0 |} end.
Definition ex_rgrid : grid rect := match rectangular_grid ex_rect 3 (3 # 10) true with Ok g => g | Err _ => {| poloidal_grids := []; ycoords := []; Ly := 0; yperiodic := true |} end.
Definition ex_slab_maps (nslice : Z) : res dict :=
  slab_maps (fun _ => ""%string) (slab 1 (1 # 10) 0 1) ex_roots ex_fll (fun _ _ _ => 1) true ex_rgrid nslice 1 2 2 2 ex_junk.
Lemma ex_slab_facts : rect_init 9 8 1 1 0 0 1 = Ok ex_rect /\ rectangular_grid ex_rect 3 (3 # 10) true = Ok ex_rgrid /\
  is_slab_field (slab 1 (1 # 10) 0 1) 1 (1 # 10) 0 1 1.
Proof. split; [reflexivity|]. split; [reflexivity|]. left. now split. Qed.
