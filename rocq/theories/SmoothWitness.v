(** Concrete lines for the statements about smooth.py. *)
From Coq Require Import List ZArith QArith Bool Lia.
From Verif Require Import Prelude SmoothModel SmoothSpec.
Import ListNotations.
Open Scope Q_scope.

(** good enough for the distances on the grid below *)
Definition w_sqrt (q : Q) : Q :=
  if Qeq_bool q 1 then 1 else if Qeq_bool q 2 then 1414 # 1000 else if Qeq_bool q 4 then 2 else 0.
(** a square of side 4 with corners at 2, 6, 10 and 14, *)
Definition w_r : list Q := [2; 3; 4; 4; 4; 4; 4; 3; 2; 1; 0; 0; 0; 0; 0; 1].
Definition w_z : list Q := [0; 0; 0; 1; 2; 3; 4; 4; 4; 4; 4; 3; 2; 1; 0; 0].
(** and the same one starting at a corner *)
Definition w_r0 : list Q := [0; 1; 2; 3; 4; 4; 4; 4; 4; 3; 2; 1; 0; 0; 0; 0].
Definition w_z0 : list Q := [0; 0; 0; 0; 0; 1; 2; 3; 4; 4; 4; 4; 4; 3; 2; 1].
Definition w_fit : list Q -> list Q -> list Z -> option ((Q * Q * Q) * (Q * Q * Q)) := fun _ _ _ => Some ((1, 0, 0), (0, 1, 0)).
Definition w_nofit : list Q -> list Q -> list Z -> option ((Q * Q * Q) * (Q * Q * Q)) := fun _ _ _ => None.

Lemma w_index_error : smooth w_sqrt w_fit 10 w_r w_z (3 # 4) 1 None = Some (Err IndexError).
Proof. vm_compute. reflexivity. Qed.
(** a square of side 12 starting at a corner *)
Definition up : list Q := map (fun i => inject_Z (Z.of_nat i)) (seq 0 12).
Definition down : list Q := map (fun i => inject_Z (12 - Z.of_nat i)) (seq 0 12).
Definition w_big_r : list Q := up ++ repeat 12 12 ++ down ++ repeat 0 12.
Definition w_big_z : list Q := repeat 0 12 ++ up ++ repeat 12 12 ++ down.
Lemma w_name_error : smooth w_sqrt w_nofit 10 w_big_r w_big_z (3 # 4) 1 None = Some (Err NameError).
Proof. vm_compute. reflexivity. Qed.
Lemma w_runs : exists o, all_outliers w_sqrt w_r w_z (3 # 4) 1 = Ok o /\ o <> [] /\ exists runs, generate_points 1 o (len w_r) = Ok runs /\ In [13; 14; 15]%Z runs.
Proof. exists [2; 6; 10; 14]%Z. split; [vm_compute; reflexivity|]. split; [discriminate|]. eexists. split; [vm_compute; reflexivity|]. cbn. tauto. Qed.
Lemma w_runs_0 : exists o runs, all_outliers w_sqrt w_r0 w_z0 (3 # 4) 1 = Ok o /\ generate_points 1 o (len w_r0) = Ok runs /\
  runs = [[-1; 0; 1]; [3; 4; 5]; [7; 8; 9]; [11; 12; 13]]%Z.
Proof. exists [0; 4; 8; 12]%Z. eexists. split; [vm_compute; reflexivity|]. split; [vm_compute; reflexivity|reflexivity]. Qed.
(** a corner between two sides of length 5, with the third side 6 *)
Definition t_sqrt (q : Q) : Q := if Qeq_bool q 25 then 5 else if Qeq_bool q 36 then 6 else 0.
Definition t_r : list Q := [0; 5; 18 # 5; 0].
Definition t_z : list Q := [0; 0; 24 # 5; 7].
Lemma t_exact a b : In (a, b) [((24 # 5) - 0, (18 # 5) - 5); ((24 # 5) - 0, (18 # 5) - 0)] -> is_sqrt (t_sqrt (a * a + b * b)) (a * a + b * b).
Proof. intros [[= <- <-]|[[= <- <-]|[]]]; split; vm_compute; congruence. Qed.
Lemma t_example :
  (forall a b, In (a, b) [((24 # 5) - 0, (18 # 5) - 5); ((24 # 5) - 0, (18 # 5) - 0)] -> is_sqrt (t_sqrt (a * a + b * b)) (a * a + b * b)) /\
  (dist2 (18 # 5, 24 # 5) (5, 0) == dist2 (5, 0) (0, 0) /\ 0 < dist2 (18 # 5, 24 # 5) (5, 0)) /\
  sharp t_sqrt t_r t_z (1 # 2) 1 2 = Ok false /\ sharp t_sqrt t_r t_z (3 # 4) 1 2 = Ok true.
Proof. split; [exact t_exact|]. split; [split; reflexivity|]. split; vm_compute; reflexivity. Qed.
Lemma t_cosine : ~ forall sqrt r z cutoff b i r1 z1 r2 z2 r3 z3,
  getz r i = Ok r1 -> getz z i = Ok z1 -> getz r (i - b)%Z = Ok r2 -> getz z (i - b)%Z = Ok z2 -> getz r (i - b * 2)%Z = Ok r3 -> getz z (i - b * 2)%Z = Ok z3 ->
  (forall a b, In (a, b) [((z1 - z2), (r1 - r2)); ((z1 - z3), (r1 - r3))] -> is_sqrt (sqrt (a * a + b * b)) (a * a + b * b)) ->
  0 < dist2 (r1, z1) (r2, z2) -> dist2 (r1, z1) (r2, z2) == dist2 (r2, z2) (r3, z3) ->
  ((r1 - r2) * (r2 - r3) + (z1 - z2) * (z2 - z3)) / dist2 (r1, z1) (r2, z2) < cutoff -> sharp sqrt r z cutoff b i = Ok true.
Proof.
  intros H. specialize (H t_sqrt t_r t_z (1 # 2) 1%Z 2%Z _ _ _ _ _ _ eq_refl eq_refl eq_refl eq_refl eq_refl eq_refl t_exact eq_refl eq_refl eq_refl).
  vm_compute in H. discriminate.
Qed.
