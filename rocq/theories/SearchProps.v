(** Property C93: the search for the cell in EMC3FieldTracer. *)
From Coq Require Import List ZArith QArith Bool Lia Lqa.
From Verif Require Import Prelude EmcModel SearchModel SearchSpec SearchProofs.
Import ListNotations.
Open Scope Q_scope.

(** A position inside of the meshes is found in the first zone that has it, counted from the
    last zone used. *)
Theorem C93_inside find least_squares loc meshes z rz ij pre m post : (forall m rz h, find m rz h = loc m rz) ->
  skipn z meshes ++ firstn z meshes = pre ++ m :: post -> (forall m', In m' pre -> (loc m' rz < 0)%Z) -> (0 <= loc m rz)%Z ->
  rz_to_ab find least_squares rz meshes ij z = let* ab := cell_ab least_squares m rz (loc m rz) in Ok (ab, loc m rz, zid m).
Proof. intros H. exact (found find least_squares loc H meshes z rz ij pre m post). Qed.
Print Assumptions C93_inside.
(** Outside, an answer is for a zone that has its corner nearest to the position within 1 m; the number is
    that of the corner, or of the one in the row before for the last row. *)
Theorem C93_nearest find least_squares loc meshes z rz ij ab k z' : (forall m rz h, find m rz h = loc m rz) ->
  (forall m, In m meshes -> ((2 <= nr m)%nat /\ (0 < nz m)%nat) /\ (loc m rz < 0)%Z) -> rz_to_ab find least_squares rz meshes ij z = Ok (ab, k, z') ->
  exists m i j, In m meshes /\ zid m = z' /\ nearest m rz i j /\ far2 m rz i j < 1 /\
    k = Z.of_nat ((if (i =? nr m - 1)%nat then i - 1 else i) * nz m + j) /\ cell_ab least_squares m rz k = Ok ab.
Proof. intros H. exact (fallback find least_squares loc H meshes z rz ij ab k z'). Qed.
Print Assumptions C93_nearest.
(** Further away it raises RuntimeError. *)
Theorem C93_far find least_squares loc meshes z rz ij : (forall m rz h, find m rz h = loc m rz) ->
  (forall m, In m meshes -> ((2 <= nr m)%nat /\ (0 < nz m)%nat) /\ (loc m rz < 0)%Z) ->
  (forall m i j, In m meshes -> (i < nr m)%nat -> (j < nz m)%nat -> 1 <= far2 m rz i j) ->
  rz_to_ab find least_squares rz meshes ij z = Err RuntimeError.
Proof. intros H. exact (too_far find least_squares loc H meshes z rz ij). Qed.
Print Assumptions C93_far.
(** The cell with this number has the corner in the first row of cells.  Missing: the other rows. *)
Theorem C93_first_row_partial m i j : (2 <= nr m)%nat -> (2 <= nz m)%nat -> (i = 0 \/ i = 1 /\ nr m = 2)%nat -> (j < nz m - 1)%nat ->
  let k := Z.of_nat ((if (i =? nr m - 1)%nat then i - 1 else i) * nz m + j) in row m k = 0%Z /\ column m k = Z.of_nat j /\ has_corner (row m k) (column m k) i j.
Proof.
  intros H1 H2 H3 H4 k. assert (E : (if (i =? nr m - 1)%nat then i - 1 else i)%nat = 0%nat) by (destruct (Nat.eqb_spec i (nr m - 1)); lia).
  pose proof (number_row m i j H1 ltac:(lia) H2) as N. cbv zeta in N. rewrite E in N. destruct (N H4) as [N1 N2]. fold (number m i j) in k.
  unfold k. rewrite N1, N2. unfold has_corner. cbn [Z.of_nat Nat.add]. lia.
Qed.
Print Assumptions C93_first_row_partial.
(** In row i it is i columns away, the corners being counted with one more column than the cells: it does not have the corner. *)
Theorem C93_wrong_cell_refuted find least_squares loc m z rz ij i j : (forall m rz h, find m rz h = loc m rz) ->
  (2 <= nz m)%nat -> (loc m rz < 0)%Z -> only_nearest m rz i j -> far2 m rz i j < 1 -> (1 <= i < nr m - 1)%nat -> (i + j < nz m - 1)%nat ->
  rz_to_ab find least_squares rz [m] ij z = (let* ab := cell_ab least_squares m rz (Z.of_nat (i * nz m + j)) in Ok (ab, Z.of_nat (i * nz m + j), zid m)) /\
  row m (Z.of_nat (i * nz m + j)) = Z.of_nat i /\ column m (Z.of_nat (i * nz m + j)) = Z.of_nat (i + j) /\
  ~ has_corner (row m (Z.of_nat (i * nz m + j))) (column m (Z.of_nat (i * nz m + j))) i j.
Proof.
  intros H H2 L U F Hi Hj. pose proof (one_zone find least_squares loc H m z rz ij i j ltac:(split; lia) L U F) as E.
  pose proof (number_row m i j ltac:(lia) ltac:(lia) H2) as N. unfold number in E, N. cbv zeta in N.
  destruct (Nat.eqb_spec i (nr m - 1)) as [|_]; [lia|]. destruct (N Hj) as [N1 N2]. split; [exact E|]. split; [exact N1|]. split; [exact N2|].
  rewrite N1, N2. unfold has_corner. lia.
Qed.
Print Assumptions C93_wrong_cell_refuted.
(** Next to the last column in the last two rows the number is not that of a cell: AssertionError. *)
Theorem C93_last_refuted find least_squares loc m z rz ij i : (forall m rz h, find m rz h = loc m rz) ->
  (2 <= nr m)%nat -> (2 <= nz m)%nat -> (loc m rz < 0)%Z -> only_nearest m rz i (nz m - 1) -> far2 m rz i (nz m - 1) < 1 -> (nr m - 2 <= i < nr m)%nat ->
  rz_to_ab find least_squares rz [m] ij z = Err AssertionError.
Proof.
  intros H H1 H2 L U F Hi. rewrite (one_zone find least_squares loc H m z rz ij i _ ltac:(split; lia) L U F).
  rewrite cell_outside by (apply number_last; assumption). reflexivity.
Qed.
Print Assumptions C93_last_refuted.
(** A mesh without corners, or one with a single column of them, which has no cells. *)
Theorem C93_degenerate find least_squares loc m z rz ij : (forall m rz h, find m rz h = loc m rz) -> (loc m rz < 0)%Z ->
  ((nr m * nz m = 0)%nat -> rz_to_ab find least_squares rz [m] ij z = Err ValueError) /\
  (nz m = 1%nat -> (2 <= nr m)%nat -> (exists i, (i < nr m)%nat /\ far2 m rz i 0 < 1) -> rz_to_ab find least_squares rz [m] ij z = Err AssertionError).
Proof. intros H. exact (degenerate find least_squares loc H m z rz ij). Qed.
Print Assumptions C93_degenerate.
(** Unit squares: a position near the middle of the left side, and one near the last corner. *)
Example C93_example : let m := {| nr := 4; nz := 5; grid := fun i j => (inject_Z i, inject_Z j); zid := 0 |} in
  only_nearest m (1, - (1 # 10)) 1 0 /\ far2 m (1, - (1 # 10)) 1 0 < 1 /\ only_nearest m (31 # 10, 41 # 10) 3 4 /\ far2 m (31 # 10, 41 # 10) 3 4 < 1.
Proof. exact w_nearest. Qed.
