(** Normals of faces, linear functions and cell volumes. *)
From Coq Require Import List ZArith QArith Bool Lia Lqa.
From Verif Require Import Prelude PreludeFacts PolModel DagpModel DagpSpec DagpProofs.
Import ListNotations.
Open Scope Q_scope.

(** ** Normals *)

Definition weight (isSlab : bool) (a b : Q * Q) : Q := if isSlab then 1 else (fst a + fst b) / 2.

Section Root.
Variable sqrt : Q -> Q.
Hypothesis Hsqrt : root_like sqrt.

Lemma squares_pos (a b : Q) : ~ (a == 0 /\ b == 0) -> 0 < a * a + b * b.
Proof.
  intros H. assert (Ha : 0 <= a * a) by nra. assert (Hb : 0 <= b * b) by nra.
  destruct (Qlt_le_dec 0 (a * a + b * b)) as [L|L]; [exact L|].
  exfalso. apply H.
  assert (E1 : a * a == 0) by lra. assert (E2 : b * b == 0) by lra.
  apply Qmult_integral in E1. apply Qmult_integral in E2. tauto.
Qed.

Lemma unit_area n0 n1 d0 d1 w : 0 < d0 * d0 + d1 * d1 -> n0 * n0 + n1 * n1 == d0 * d0 + d1 * d1 ->
  n0 / sqrt (n0 * n0 + n1 * n1) * (sqrt (d0 * d0 + d1 * d1) * w) == n0 * w.
Proof.
  destruct Hsqrt as [Hext Hpos]. intros Hd E. rewrite (Hext _ _ E).
  specialize (Hpos _ Hd). field. lra.
Qed.

Lemma edge_x isSlab a b : ~ same_point a b ->
  same_point (edge_normal sqrt isSlab rot_x (a, b))
    (weight isSlab a b * (snd b - snd a), weight isSlab a b * (fst a - fst b)).
Proof.
  intros H. unfold edge_normal, rot_x. cbn [fst snd]. cbv zeta.
  set (d0 := fst a - fst b). set (d1 := snd a - snd b).
  assert (Hd : 0 < d0 * d0 + d1 * d1).
  { apply squares_pos. intros [E1 E2]. apply H. unfold d0, d1 in *. split; lra. }
  assert (E : (- d1) * (- d1) + d0 * d0 == d0 * d0 + d1 * d1) by ring.
  assert (Ew : (if isSlab then sqrt (d0 * d0 + d1 * d1)
                else sqrt (d0 * d0 + d1 * d1) * (fst b + fst a) * (1 # 2))
               == sqrt (d0 * d0 + d1 * d1) * weight isSlab a b).
  { unfold weight. destruct isSlab; field. }
  split; cbn [fst snd]; rewrite Ew.
  - rewrite (unit_area (- d1) d0 d0 d1 _ Hd E). unfold d1. ring.
  - assert (E' : d0 * d0 + - d1 * - d1 == d0 * d0 + d1 * d1) by ring.
    destruct Hsqrt as [Hext Hpos].
    rewrite (Hext (- d1 * - d1 + d0 * d0) (d0 * d0 + - d1 * - d1)) by ring.
    rewrite (unit_area d0 (- d1) d0 d1 _ Hd E'). unfold d0. ring.
Qed.

Lemma edge_z isSlab a b : ~ same_point a b ->
  same_point (edge_normal sqrt isSlab rot_z (a, b))
    (- (weight isSlab a b * (snd b - snd a)), - (weight isSlab a b * (fst a - fst b))).
Proof.
  intros H. unfold edge_normal, rot_z. cbn [fst snd]. cbv zeta.
  set (d0 := fst a - fst b). set (d1 := snd a - snd b).
  assert (Hd : 0 < d0 * d0 + d1 * d1).
  { apply squares_pos. intros [E1 E2]. apply H. unfold d0, d1 in *. split; lra. }
  assert (E : d1 * d1 + - d0 * - d0 == d0 * d0 + d1 * d1) by ring.
  assert (Ew : (if isSlab then sqrt (d0 * d0 + d1 * d1)
                else sqrt (d0 * d0 + d1 * d1) * (fst b + fst a) * (1 # 2))
               == sqrt (d0 * d0 + d1 * d1) * weight isSlab a b).
  { unfold weight. destruct isSlab; field. }
  split; cbn [fst snd]; rewrite Ew.
  - rewrite (unit_area d1 (- d0) d0 d1 _ Hd E). unfold d1. ring.
  - assert (E' : - d0 * - d0 + d1 * d1 == d0 * d0 + d1 * d1) by ring.
    destruct Hsqrt as [Hext Hpos].
    rewrite (Hext (d1 * d1 + - d0 * - d0) (- d0 * - d0 + d1 * d1)) by ring.
    rewrite (unit_area (- d0) d1 d0 d1 _ Hd E'). unfold d0. ring.
Qed.

(** The two components of a face normal as sums along the face. *)
Definition hR (isSlab : bool) (a b : Q * Q) : Q := weight isSlab a b * (snd b - snd a).
Definition hZ (isSlab : bool) (a b : Q * Q) : Q := weight isSlab a b * (fst a - fst b).

Lemma hR_respects s : respects (hR s).
Proof.
  intros a a' b b' [A1 A2] [B1 B2]. unfold hR, weight. destruct s; rewrite A2, B2.
  - reflexivity.
  - rewrite A1, B1. reflexivity.
Qed.
Lemma hZ_respects s : respects (hZ s).
Proof.
  intros a a' b b' [A1 A2] [B1 B2]. unfold hZ, weight. destruct s; rewrite A1, B1; reflexivity.
Qed.

Lemma normal_x isSlab g : (forall m, (m < 11)%nat -> ~ same_point (g m) (g (S m))) ->
  same_point (normal sqrt isSlab rot_x (map g (seq 0 12))) (line (hR isSlab) g, line (hZ isSlab) g).
Proof.
  intros H. unfold normal, vsum. rewrite pairs_map_seq, !map_map. cbn [fst snd].
  split; cbn [fst snd]; unfold line; apply qsum_seq_ext; intros m Hm;
    destruct (edge_x isSlab (g m) (g (S m)) (H m Hm)) as [E1 E2]; [exact E1|exact E2].
Qed.

Lemma normal_z isSlab g : (forall m, (m < 11)%nat -> ~ same_point (g m) (g (S m))) ->
  same_point (normal sqrt isSlab rot_z (map g (seq 0 12))) (- line (hR isSlab) g, - line (hZ isSlab) g).
Proof.
  intros H. unfold normal, vsum. rewrite pairs_map_seq, !map_map. cbn [fst snd].
  split; cbn [fst snd]; unfold line.
  - transitivity ((-1) * qsum (map (fun m => hR isSlab (g m) (g (S m))) (seq 0 11))); [|ring].
    rewrite <- qsum_map_scale. apply qsum_seq_ext. intros m Hm.
    destruct (edge_z isSlab (g m) (g (S m)) (H m Hm)) as [E1 E2]. cbn [fst snd] in E1.
    rewrite E1. unfold hR. ring.
  - transitivity ((-1) * qsum (map (fun m => hZ isSlab (g m) (g (S m))) (seq 0 11))); [|ring].
    rewrite <- qsum_map_scale. apply qsum_seq_ext. intros m Hm.
    destruct (edge_z isSlab (g m) (g (S m)) (H m Hm)) as [E1 E2]. cbn [fst snd] in E2.
    rewrite E2. unfold hZ. ring.
Qed.
End Root.

(** Sums that only depend on the end points. *)
Lemma line_hR_slab g : line (hR true) g == snd (g 11%nat) - snd (g 0%nat).
Proof.
  unfold line. transitivity ((-1) * qsum (map (fun m => snd (g m) - snd (g (S m))) (seq 0 11))).
  - rewrite <- qsum_map_scale. apply qsum_seq_ext. intros m _. unfold hR, weight. ring.
  - rewrite (qsum_telescope (fun m => snd (g m))). ring.
Qed.
Lemma line_hZ_slab g : line (hZ true) g == fst (g 0%nat) - fst (g 11%nat).
Proof.
  unfold line. rewrite <- (qsum_telescope (fun m => fst (g m))).
  apply qsum_seq_ext. intros m _. unfold hZ, weight. ring.
Qed.
Lemma line_hZ_tor g : line (hZ false) g ==
  (fst (g 0%nat) * fst (g 0%nat) - fst (g 11%nat) * fst (g 11%nat)) / 2.
Proof.
  unfold line.
  transitivity (fst (g 0%nat) * fst (g 0%nat) / 2 - fst (g 11%nat) * fst (g 11%nat) / 2); [|field].
  rewrite <- (qsum_telescope (fun m => fst (g m) * fst (g m) / 2)).
  apply qsum_seq_ext. intros m _. unfold hZ, weight. field.
Qed.

(** ** Faces and corners of a cell *)

Section Cell.
Variable p : pol.
Hypothesis Hext : extensional (p_coord p).

Definition fx (i k : Z) (m : nat) : Q * Q :=
  p_coord p (inject_Z i + (1#2)) (inject_Z k - (1#2) + eleventh m).
Definition fz (i k : Z) (m : nat) : Q * Q :=
  p_coord p (inject_Z i + (1#2) + eleventh m) (inject_Z k + (1#2)).

Lemma inj_eleventh m : 0 + inject_Z (Z.of_nat m) * ((1 - 0) / 11) == eleventh m.
Proof. unfold eleventh. field. Qed.

(** The points of the model's faces, one by one. *)
Definition fx' (i k : Z) (m : nat) : Q * Q :=
  p_coord p (injz i + (1#2)) (injz k - (1#2) + (0 + inject_Z (Z.of_nat m) * ((1 - 0) / 11))).
Definition fz' (i k : Z) (m : nat) : Q * Q :=
  p_coord p (injz i + (1#2) + (0 + inject_Z (Z.of_nat m) * ((1 - 0) / 11))) (injz k + (1#2)).
Lemma face_x_seq i k : face_x p i k = map (fx' i k) (seq 0 12).
Proof. unfold face_x, linspace12. now rewrite map_map. Qed.
Lemma face_z_seq i k : face_z p i k = map (fz' i k) (seq 0 12).
Proof. unfold face_z, linspace12. now rewrite map_map. Qed.
Lemma fx_same i k m : same_point (fx' i k m) (fx i k m).
Proof. apply Hext; unfold injz; rewrite ?inj_eleventh; reflexivity. Qed.
Lemma fz_same i k m : same_point (fz' i k m) (fz i k m).
Proof. apply Hext; unfold injz; rewrite ?inj_eleventh; reflexivity. Qed.

Lemma fx_line h i k : respects h -> line h (fx' i k) == line h (fx i k).
Proof. intros Hh. apply line_ext; [exact Hh|]. intros m _. apply fx_same. Qed.
Lemma fz_line h i k : respects h -> line h (fz' i k) == line h (fz i k).
Proof. intros Hh. apply line_ext; [exact Hh|]. intros m _. apply fz_same. Qed.

Lemma face_normal_x sqrt isSlab i k : root_like sqrt -> faces_proper p ->
  (0 <= i < p_nx p - 1)%Z -> (0 <= k < p_nz p)%Z ->
  same_point (normal sqrt isSlab rot_x (face_x p i k))
    (line (hR isSlab) (fx i k), line (hZ isSlab) (fx i k)).
Proof.
  intros Hs Hp Hi Hk. rewrite face_x_seq.
  eapply same_trans; [apply normal_x; [exact Hs|]|].
  - intros m Hm E. destruct (Hp i k m Hi Hk Hm) as [H _]. apply H.
    eapply same_trans; [|eapply same_trans; [exact E|apply fx_same]].
    apply same_sym, fx_same.
  - split; cbn [fst snd]; apply fx_line; [apply hR_respects|apply hZ_respects].
Qed.
Lemma face_normal_z sqrt isSlab i k : root_like sqrt -> faces_proper p ->
  (0 <= i < p_nx p - 2)%Z -> (0 <= k < p_nz p)%Z ->
  same_point (normal sqrt isSlab rot_z (face_z p i k))
    (- line (hR isSlab) (fz i k), - line (hZ isSlab) (fz i k)).
Proof.
  intros Hs Hp Hi Hk. rewrite face_z_seq.
  eapply same_trans; [apply normal_z; [exact Hs|]|].
  - intros m Hm E. destruct (Hp i k m) as [_ H]; [lia|lia|exact Hm|]. apply H; [lia|].
    eapply same_trans; [|eapply same_trans; [exact E|apply fz_same]].
    apply same_sym, fz_same.
  - split; cbn [fst snd]; rewrite fz_line; try reflexivity; [apply hR_respects|apply hZ_respects].
Qed.

(** Corners. *)
Definition corner (x z : Q) : Q * Q := p_coord p x z.
Lemma fx_start i k : same_point (fx i k 0) (corner (inject_Z i + (1#2)) (inject_Z k - (1#2))).
Proof. apply Hext; [reflexivity|]. unfold eleventh. cbn. field. Qed.
Lemma fx_end i k : same_point (fx i k 11) (corner (inject_Z i + (1#2)) (inject_Z k + (1#2))).
Proof. apply Hext; [reflexivity|]. unfold eleventh. change (inject_Z (Z.of_nat 11)) with (inject_Z 11). field. Qed.
Lemma fz_start i k : same_point (fz i k 0) (corner (inject_Z i + (1#2)) (inject_Z k + (1#2))).
Proof. apply Hext; [|reflexivity]. unfold eleventh. cbn. field. Qed.
Lemma fz_end i k : same_point (fz i k 11) (corner (inject_Z i + (3#2)) (inject_Z k + (1#2))).
Proof. apply Hext; [|reflexivity]. unfold eleventh. change (inject_Z (Z.of_nat 11)) with (inject_Z 11). field. Qed.

Lemma wrap_corner x z : closes p -> same_point (p_coord p x (z + inject_Z (p_nz p))) (p_coord p x z).
Proof. intros H. apply H. Qed.

(** The z face below cell k is the one above cell k - 1, whatever the row the
    index wraps to. *)
Definition fzdown (i k : Z) (m : nat) : Q * Q :=
  p_coord p (inject_Z i + (1#2) + eleventh m) (inject_Z k - (1#2)).
Lemma fz_below i k m : closes p -> (0 <= k < p_nz p)%Z ->
  same_point (fz i ((k - 1) mod p_nz p) m) (fzdown i k m).
Proof.
  intros Hc Hk. unfold fz, fzdown.
  destruct (Z.eq_dec k 0) as [->|N].
  - replace ((0 - 1) mod p_nz p)%Z with (p_nz p - 1)%Z.
    2:{ replace (0 - 1)%Z with ((p_nz p - 1) + (-1) * p_nz p)%Z by lia.
        rewrite Z_mod_plus_full, Z.mod_small; lia. }
    eapply same_trans; [|apply (wrap_corner _ (inject_Z 0 - (1#2)) Hc)].
    apply Hext; [reflexivity|]. unfold Z.sub. rewrite inject_Z_plus, inject_Z_opp. ring.
  - rewrite Z.mod_small by lia. apply Hext; [reflexivity|].
    unfold Z.sub. rewrite inject_Z_plus, inject_Z_opp. ring.
Qed.
End Cell.
