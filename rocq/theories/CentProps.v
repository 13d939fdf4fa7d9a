(** Property C124. *)
From Coq Require Import List ZArith QArith Lia.
From Verif Require Import Prelude SmoothModel PolModel CentModel CentProofs.
Import ListNotations.
Open Scope Q_scope.

(** C124: for nx rows of nz values, toCent returns nx - 1 rows of nz values (none for no
    rows), and each is the mean of the four corners (i, j), (i, j-1), (i+1, j) and
    (i+1, j-1), where the poloidal index is periodic; *)
Theorem C124_means RZ nz : (forall r, In r RZ -> length r = nz) ->
  length (toCent RZ) = (length RZ - 1)%nat /\
  forall i, (S i < length RZ)%nat -> length (nth i (toCent RZ) []) = nz /\
  forall j, (j < nz)%nat -> let j' := ((j + nz - 1) mod nz)%nat in
  nth j (nth i (toCent RZ) []) 0 == (nth j (nth i RZ []) 0 + nth j' (nth i RZ []) 0 + nth j (nth (S i) RZ []) 0 + nth j' (nth (S i) RZ []) 0) / 4.
Proof. intros H. exact (conj (cent_length RZ) (fun i Hi => conj (cent_row RZ nz H i Hi) (fun j Hj => cent_at RZ nz H i j Hi Hj))). Qed.
Print Assumptions C124_means.
(** so it is inside every box around them. *)
Theorem C124_inside RZ nz i j lo hi : (forall r, In r RZ -> length r = nz) -> (S i < length RZ)%nat -> (j < nz)%nat ->
  (forall i' j', (i' = i \/ i' = S i) -> (j' = j \/ j' = (j + nz - 1) mod nz)%nat -> lo <= nth j' (nth i' RZ []) 0 <= hi) ->
  lo <= nth j (nth i (toCent RZ) []) 0 <= hi.
Proof. exact (cent_between RZ nz i j lo hi). Qed.
Print Assumptions C124_inside.
(** On rectangular grids the centre with the indices i and j is the position of the index
    (i + 1/2, j - 1/2), but for the height of the column j = 0. *)
Theorem C124_rectangular_partial r nx nz i j R0 Z0 : (S i < nx)%nat -> (j < nz)%nat ->
  (forall i j, exists R Z, rect_getCoordinate r (inject_Z (Z.of_nat i)) (inject_Z (Z.of_nat j)) 0 0 = Ok (R, Z) /\ R = R0 i j /\ Z = Z0 i j) ->
  exists R Z, rect_getCoordinate r (inject_Z (Z.of_nat i) + (1 # 2)) (inject_Z (Z.of_nat j) - (1 # 2)) 0 0 = Ok (R, Z) /\
  nth j (nth i (toCent (map (fun i => map (R0 i) (seq 0 nz)) (seq 0 nx))) []) 0 == R /\
  ((1 <= j)%nat -> nth j (nth i (toCent (map (fun i => map (Z0 i) (seq 0 nz)) (seq 0 nx))) []) 0 == Z).
Proof. exact (rect_centres r nx nz i j R0 Z0). Qed.
Print Assumptions C124_rectangular_partial.
(** In this column it is the height in the middle of the grid: here 3/2, where the centres
    of the cell, up to the period 4, are -1/2 and 7/2. *)
Theorem C124_seam_refuted : exists r, rect_init 2 4 2 4 1 (3 # 2) 0 = Ok r /\
  (forall i j, rect_getCoordinate r (inject_Z i) (inject_Z j) 0 0 = Ok (r_Rmin r + inject_Z i * r_dR r, r_Zmin r + inject_Z j * r_dZ r)) /\
  let RZ := map (fun i : nat => map (fun j => r_Zmin r + inject_Z (Z.of_nat j) * r_dZ r) (seq 0 4)) (seq 0 2) in
  nth 0 (nth 0 (toCent RZ) []) 0 == 3 # 2 /\ r_Zmin r + (0 - (1 # 2)) * r_dZ r == - (1 # 2) /\ r_Zmin r + ((4 - (1 # 2))) * r_dZ r == 7 # 2.
Proof. exact seam_witness. Qed.
Print Assumptions C124_seam_refuted.
(** Two rows of three values. *)
Example C124_example : map (map Qred) (toCent [[1; 2; 3]; [3; 4; 5]]) = [[3; 5 # 2; 7 # 2]].
Proof. reflexivity. Qed.
(** Every rectangular grid has the tables R0 and Z0 of C124_rectangular_partial. *)
Example C124_tables r : forall i j : nat, exists R Z, rect_getCoordinate r (inject_Z (Z.of_nat i)) (inject_Z (Z.of_nat j)) 0 0 = Ok (R, Z) /\
  R = (fun (i _ : nat) => r_Rmin r + inject_Z (Z.of_nat i) * r_dR r) i j /\ Z = (fun (_ j : nat) => r_Zmin r + inject_Z (Z.of_nat j) * r_dZ r) i j.
Proof. intros i j. eexists. eexists. split; [reflexivity|]. split; reflexivity. Qed.
