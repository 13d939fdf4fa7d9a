(** Proofs about fci_to_vtk. *)
From Coq Require Import String List ZArith QArith Lia Qfield.
From Verif Require Import Prelude PreludeFacts VtkModel.
Import ListNotations.
Open Scope Q_scope.

Lemma inj_nz z : (z <> 0)%Z -> ~ inject_Z z == 0.
Proof. intros H E. change 0 with (inject_Z 0) in E. rewrite inject_Z_injective in E. lia. Qed.
Lemma linspace_length s n e : length (linspace s n e) = n.
Proof. unfold linspace. now rewrite map_length, seq_length. Qed.
Lemma linspace_nth s n e i : (i < n)%nat ->
  nth i (linspace s n e) 0 = if ((if e then (Z.of_nat n - 1)%Z else Z.of_nat n) =? 0)%Z then 0 else inject_Z (Z.of_nat i) * (s / inject_Z (if e then (Z.of_nat n - 1)%Z else Z.of_nat n)).
Proof.
  intros H. unfold linspace. set (d := if e then _ else _). set (h := fun i : nat => if (d =? 0)%Z then 0 else inject_Z (Z.of_nat i) * (s / inject_Z d)).
  rewrite (nth_indep _ 0 (h 0%nat)) by (rewrite map_length, seq_length; exact H). rewrite map_nth, seq_nth by exact H. reflexivity.
Qed.
Lemma scaled_nth (l : list Q) c i : (i < length l)%nat -> nth i (map (fun q => q * c) l) 0 = nth i l 0 * c.
Proof. intros H. rewrite (nth_indep _ 0 (0 * c)) by (rewrite map_length; exact H). apply (map_nth (fun q => q * c)). Qed.

Section File.
Variables (f : vfile) (dx dy scale : Q) (bx bz : nd3).
Hypothesis Hdx : f_dx f = Some dx.
Hypothesis Hdy : f_dy f = Some dy.
Hypothesis Hbx : f_arr f "bx"%string = Some bx.
Hypothesis Hbz : f_arr f "bz"%string = Some bz.
Hypothesis Hnz : (0 < n2 bx)%nat.
Lemma runs : exists v, fci_to_vtk true f scale = Ok (Some v) /\ v_B v = (times bx scale, ones bx, times bz scale) /\
  length (v_x v) = n0 bx /\ length (v_y v) = n1 bx /\ length (v_z v) = n2 bx /\
  (forall i, (i < n0 bx)%nat -> (1 < n0 bx)%nat -> nth i (v_x v) 0 == scale * inject_Z (Z.of_nat i) * (dx * (inject_Z (Z.of_nat (n0 bx)) / inject_Z (Z.of_nat (n0 bx) - 1)))) /\
  (forall j, (j < n1 bx)%nat -> nth j (v_y v) 0 == inject_Z (Z.of_nat j) * dy) /\
  (forall k, (k < n2 bx)%nat -> nth k (v_z v) 0 == scale * inject_Z (Z.of_nat k) * (dx * (inject_Z (Z.of_nat (n0 bx)) / inject_Z (Z.of_nat (n2 bx))))).
Proof.
  unfold fci_to_vtk. cbn [negb]. rewrite Hbx, Hbz, Hdx, Hdy. cbn [shape_of number bind].
  destruct (Nat.eqb_spec (n2 bx) 0) as [E|_]; [lia|]. eexists. split; [reflexivity|]. cbn [v_x v_y v_z v_B]. split; [reflexivity|].
  rewrite !map_length, !linspace_length. repeat (split; [reflexivity|]). repeat split.
  - intros i Hi H1. rewrite scaled_nth by (rewrite linspace_length; exact Hi). rewrite linspace_nth by exact Hi. cbv iota.
    destruct (Z.eqb_spec (Z.of_nat (n0 bx) - 1) 0) as [E|E]; [lia|]. field. now apply inj_nz.
  - intros j Hj. rewrite linspace_nth by exact Hj. cbv iota. destruct (Z.eqb_spec (Z.of_nat (n1 bx)) 0) as [E|E]; [lia|]. field. now apply inj_nz.
  - intros k Hk. rewrite scaled_nth by (rewrite linspace_length; exact Hk). rewrite linspace_nth by exact Hk. cbv iota.
    destruct (Z.eqb_spec (Z.of_nat (n2 bx)) 0) as [E|E]; [lia|]. field. now apply inj_nz.
Qed.
End File.
