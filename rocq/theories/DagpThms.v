(** The operator on linear functions, and the cell volumes. *)
From Coq Require Import List ZArith QArith Bool Lia Lqa.
From Verif Require Import Prelude PreludeFacts PolModel DagpModel DagpSpec DagpProofs DagpLinear.
Import ListNotations.
Open Scope Q_scope.

Definition linear (a b c : Q) (at_ : Z -> pol) : Z -> Z -> Z -> Q :=
  fun i j k => a * p_R (at_ j) i k + b * p_Z (at_ j) i k + c.

Lemma coefficients_spec sqrt isSlab Lz nx ny nz at_ cX cZ :
  coefficients sqrt isSlab Lz nx ny nz at_ = Ok (cX, cZ) ->
  solve (nx - 1) ny nz (dx_at_x (points at_)) (dz_at_x nz Lz (points at_))
    (fun i j k => normal sqrt isSlab rot_x (face_x (at_ j) i k)) = Ok cX /\
  solve (nx - 2) ny nz (dx_at_z nz (points at_)) (dz_at_z nz Lz (points at_))
    (fun i j k => normal sqrt isSlab rot_z (face_z (at_ j) i k)) = Ok cZ.
Proof.
  unfold coefficients. cbv zeta. intros H.
  destruct (solve (nx - 1) _ _ _ _ _) as [x|e] eqn:E1; [|discriminate]. cbn [bind] in H.
  destruct (solve (nx - 2) _ _ _ _ _) as [z|e] eqn:E2; [|discriminate]. cbn [bind] in H.
  injection H as <- <-. split; reflexivity.
Qed.

Lemma flux_x_linear sqrt isSlab nx ny nz at_ cX cZ a b c i j k :
  coefficients sqrt isSlab None nx ny nz at_ = Ok (cX, cZ) ->
  (0 <= i < nx - 1)%Z -> (0 <= j < ny)%Z -> (0 <= k < nz)%Z ->
  flux_through_x nz cX (linear a b c at_) i j k ==
  a * fst (normal sqrt isSlab rot_x (face_x (at_ j) i k))
  + b * snd (normal sqrt isSlab rot_x (face_x (at_ j) i k)).
Proof.
  intros H Hi Hj Hk. destruct (coefficients_spec _ _ _ _ _ _ _ _ _ H) as [Hx _].
  destruct (solve_spec _ _ _ _ _ _ _ Hx i j k Hi Hj Hk) as [E1 E2].
  rewrite <- E1, <- E2. unfold flux_through_x, dx_at_x, dz_at_x, linear, points, roll, unwrap, unwrap1,
    vsub, vadd, vscale. cbn [fst snd]. cbv zeta.
  replace (k - -1)%Z with (k + 1)%Z by lia. field.
Qed.

Lemma flux_z_linear sqrt isSlab nx ny nz at_ cX cZ a b c i j k :
  coefficients sqrt isSlab None nx ny nz at_ = Ok (cX, cZ) ->
  (1 <= i < nx - 1)%Z -> (0 <= j < ny)%Z -> (0 <= k < nz)%Z ->
  flux_through_z nz cZ (linear a b c at_) i j k ==
  a * fst (normal sqrt isSlab rot_z (face_z (at_ j) (i - 1) k))
  + b * snd (normal sqrt isSlab rot_z (face_z (at_ j) (i - 1) k)).
Proof.
  intros H Hi Hj Hk. destruct (coefficients_spec _ _ _ _ _ _ _ _ _ H) as [_ Hz].
  destruct (solve_spec _ _ _ _ _ _ _ Hz (i - 1)%Z j k) as [E1 E2]; [lia|lia|lia|].
  rewrite <- E1, <- E2. unfold flux_through_z, dx_at_z, dz_at_z, linear, points, roll, unwrap, unwrap1,
    vsub, vadd, vscale. cbn [fst snd]. cbv zeta.
  replace (k - -1)%Z with (k + 1)%Z by lia.
  replace (i - 1 + 2)%Z with (i + 1)%Z by lia. replace (i - 1 + 1)%Z with i by lia. field.
Qed.

(** The operator on a linear function, as sums along the four faces. *)
Lemma op_linear sqrt isSlab nx ny nz at_ cX cZ a b c i j k :
  root_like sqrt -> coefficients sqrt isSlab None nx ny nz at_ = Ok (cX, cZ) ->
  (1 <= i < nx - 1)%Z -> (0 <= j < ny)%Z -> (0 <= k < nz)%Z ->
  p_nx (at_ j) = nx -> p_nz (at_ j) = nz ->
  extensional (p_coord (at_ j)) -> closes (at_ j) -> faces_proper (at_ j) ->
  apply_op nx nz cX cZ (linear a b c at_) i j k ==
  a * (line (hR isSlab) (fx (at_ j) i k) - line (hR isSlab) (fx (at_ j) (i - 1) k)
       - line (hR isSlab) (fz (at_ j) (i - 1) k) + line (hR isSlab) (fzdown (at_ j) (i - 1) k))
  + b * (line (hZ isSlab) (fx (at_ j) i k) - line (hZ isSlab) (fx (at_ j) (i - 1) k)
       - line (hZ isSlab) (fz (at_ j) (i - 1) k) + line (hZ isSlab) (fzdown (at_ j) (i - 1) k)).
Proof.
  intros Hs H Hi Hj Hk Ex Ez He Hc Hp.
  assert (Hkm : (0 <= (k - 1) mod nz < nz)%Z) by (apply Z.mod_pos_bound; lia).
  rewrite apply_op_cell by lia.
  rewrite (flux_x_linear _ _ _ _ _ _ _ _ a b c i j k H) by lia.
  rewrite (flux_x_linear _ _ _ _ _ _ _ _ a b c (i - 1) j k H) by lia.
  rewrite (flux_z_linear _ _ _ _ _ _ _ _ a b c i j k H) by lia.
  rewrite (flux_z_linear _ _ _ _ _ _ _ _ a b c i j ((k - 1) mod nz) H) by lia.
  destruct (face_normal_x (at_ j) He sqrt isSlab i k Hs Hp) as [A1 A2]; [lia|lia|].
  destruct (face_normal_x (at_ j) He sqrt isSlab (i - 1) k Hs Hp) as [B1 B2]; [lia|lia|].
  destruct (face_normal_z (at_ j) He sqrt isSlab (i - 1) k Hs Hp) as [C1 C2]; [lia|lia|].
  destruct (face_normal_z (at_ j) He sqrt isSlab (i - 1) ((k - 1) mod nz) Hs Hp) as [D1 D2]; [lia|lia|].
  cbn [fst snd] in *. rewrite A1, A2, B1, B2, C1, C2, D1, D2.
  assert (F : forall h, respects h ->
    line h (fz (at_ j) (i - 1) ((k - 1) mod nz)) == line h (fzdown (at_ j) (i - 1) k)).
  { intros h Hh. apply line_ext; [exact Hh|]. intros m _. rewrite <- Ez. apply fz_below; [exact He|exact Hc|lia]. }
  rewrite (F _ (hR_respects isSlab)), (F _ (hZ_respects isSlab)). ring.
Qed.

Section Corners.
Variable p : pol.
Hypothesis He : extensional (p_coord p).
Lemma fzdown_start i k : same_point (fzdown p i k 0) (p_coord p (inject_Z i + (1#2)) (inject_Z k - (1#2))).
Proof. apply He; [|reflexivity]. unfold eleventh. cbn. field. Qed.
Lemma fzdown_end i k : same_point (fzdown p i k 11) (p_coord p (inject_Z i + (3#2)) (inject_Z k - (1#2))).
Proof. apply He; [|reflexivity]. unfold eleventh. change (inject_Z (Z.of_nat 11)) with (inject_Z 11). field. Qed.

Lemma at_prev i z : same_point (p_coord p (inject_Z (i - 1) + (3#2)) z) (p_coord p (inject_Z i + (1#2)) z).
Proof. apply He; [|reflexivity]. unfold Z.sub. rewrite inject_Z_plus, inject_Z_opp. ring. Qed.
End Corners.

Lemma op_linear_zero sqrt nx ny nz at_ cX cZ a b c i j k :
  root_like sqrt -> coefficients sqrt true None nx ny nz at_ = Ok (cX, cZ) ->
  (1 <= i < nx - 1)%Z -> (0 <= j < ny)%Z -> (0 <= k < nz)%Z ->
  p_nx (at_ j) = nx -> p_nz (at_ j) = nz ->
  extensional (p_coord (at_ j)) -> closes (at_ j) -> faces_proper (at_ j) ->
  apply_op nx nz cX cZ (linear a b c at_) i j k == 0.
Proof.
  intros Hs H Hi Hj Hk Ex Ez He Hc Hp.
  rewrite (op_linear _ _ _ _ _ _ _ _ a b c i j k Hs H Hi Hj Hk Ex Ez He Hc Hp).
  rewrite !line_hR_slab, !line_hZ_slab. set (p := at_ j) in *.
  destruct (fx_start p He i k) as [A1 A2]. destruct (fx_end p He i k) as [A3 A4].
  destruct (fx_start p He (i - 1) k) as [B1 B2]. destruct (fx_end p He (i - 1) k) as [B3 B4].
  destruct (fz_start p He (i - 1) k) as [C1 C2]. destruct (fz_end p He (i - 1) k) as [C3 C4].
  destruct (fzdown_start p He (i - 1) k) as [D1 D2]. destruct (fzdown_end p He (i - 1) k) as [D3 D4].
  unfold corner in *.
  destruct (at_prev p He i (inject_Z k + (1#2))) as [E1 E2].
  destruct (at_prev p He i (inject_Z k - (1#2))) as [E3 E4].
  rewrite A1, A2, A3, A4, B1, B2, B3, B4, C1, C2, C3, C4, D1, D2, D3, D4, E1, E2, E3, E4. ring.
Qed.

(** ** Volumes *)

Definition hV (isSlab : bool) (a b : Q * Q) : Q :=
  let dy := snd b - snd a in let xx := (fst a + fst b) / 2 in
  if isSlab then xx * dy else (1#2) * xx * xx * dy.
Lemma hV_respects s : respects (hV s).
Proof.
  intros a a' b b' [A1 A2] [B1 B2]. unfold hV. cbv zeta. destruct s; rewrite A1, A2, B1, B2; reflexivity.
Qed.
Lemma hV_anti s a b : hV s b a == - hV s a b.
Proof. unfold hV. destruct s; field. Qed.
Lemma hV_zero s a b : same_point a b -> hV s a b == 0.
Proof. intros [_ E]. unfold hV. destruct s; rewrite E; field. Qed.

Section Volume.
Variable p : pol.
Hypothesis He : extensional (p_coord p).

(** The four sides of the cell in the order of the code. *)
Definition top (i k : Z) (m : nat) := p_coord p (inject_Z i - (1#2) + eleventh m) (inject_Z k + (1#2)).
Definition right (i k : Z) (m : nat) := p_coord p (inject_Z i + (1#2)) (inject_Z k + (1#2) - eleventh m).
Definition bottom (i k : Z) (m : nat) := p_coord p (inject_Z i + (1#2) - eleventh m) (inject_Z k - (1#2)).
Definition left_ (i k : Z) (m : nat) := p_coord p (inject_Z i - (1#2)) (inject_Z k - (1#2) + eleventh m).

Lemma map_seq12 (g : nat -> Q * Q) :
  map g (seq 0 12) = (map g (seq 0 11) ++ [g 11%nat]) /\ map g (seq 0 12) = g 0%nat :: map g (seq 1 11).
Proof. split; reflexivity. Qed.

Lemma seg_four h g1 g2 g3 g4 :
  (forall a b, same_point a b -> h a b == 0) ->
  same_point (g1 11%nat) (g2 0%nat) -> same_point (g2 11%nat) (g3 0%nat) -> same_point (g3 11%nat) (g4 0%nat) ->
  seg h (map g1 (seq 0 12) ++ map g2 (seq 0 12) ++ map g3 (seq 0 12) ++ map g4 (seq 0 12)) ==
  line h g1 + line h g2 + line h g3 + line h g4.
Proof.
  intros Hz J1 J2 J3. rewrite <- !seg_line.
  assert (J : forall g rest, rest <> [] -> same_point (g 11%nat) (hd (0, 0) rest) ->
    seg h (map g (seq 0 12) ++ rest) == seg h (map g (seq 0 12)) + seg h rest).
  { intros g rest Hne Hj. destruct rest as [|b rest]; [congruence|]. cbn [hd] in Hj.
    rewrite (proj1 (map_seq12 g)). rewrite seg_join, (Hz _ _ Hj). ring. }
  rewrite (J g1) by (first [discriminate | exact J1]).
  rewrite (J g2) by (first [discriminate | exact J2]).
  rewrite (J g3) by (first [discriminate | exact J3]). ring.
Qed.

Lemma step_up (a : Q) m : a - (1#2) + inject_Z (Z.of_nat m) * ((a + (1#2) - (a - (1#2))) / 11)
  == a - (1#2) + eleventh m.
Proof. unfold eleventh. field. Qed.
Lemma step_down (a : Q) m : a + (1#2) + inject_Z (Z.of_nat m) * ((a - (1#2) - (a + (1#2))) / 11)
  == a + (1#2) - eleventh m.
Proof. unfold eleventh. field. Qed.

Lemma eleventh_0 : eleventh 0 == 0. Proof. reflexivity. Qed.
Lemma eleventh_11 : eleventh 11 == 1. Proof. reflexivity. Qed.

Lemma volume_sides s i k : cell_volume s p i k ==
  - (line (hV s) (top i k) + line (hV s) (right i k) + line (hV s) (bottom i k) + line (hV s) (left_ i k)).
Proof.
  unfold cell_volume. cbv zeta.
  set (g1 := fun m => p_coord p (injz i - (1#2) + inject_Z (Z.of_nat m) * ((injz i + (1#2) - (injz i - (1#2))) / 11)) (injz k + (1#2))).
  set (g2 := fun m => p_coord p (injz i + (1#2)) (injz k + (1#2) + inject_Z (Z.of_nat m) * ((injz k - (1#2) - (injz k + (1#2))) / 11))).
  set (g3 := fun m => p_coord p (injz i + (1#2) + inject_Z (Z.of_nat m) * ((injz i - (1#2) - (injz i + (1#2))) / 11)) (injz k - (1#2))).
  set (g4 := fun m => p_coord p (injz i - (1#2)) (injz k - (1#2) + inject_Z (Z.of_nat m) * ((injz k + (1#2) - (injz k - (1#2))) / 11))).
  assert (E : map (fun q => p_coord p (fst q) (snd q)) (around i k) =
    map g1 (seq 0 12) ++ map g2 (seq 0 12) ++ map g3 (seq 0 12) ++ map g4 (seq 0 12)).
  { unfold around, linspace12. cbv zeta. rewrite !map_app, !map_map. reflexivity. }
  rewrite E. clear E.
  assert (S1 : forall m, same_point (g1 m) (top i k m)).
  { intros m. apply He; [apply step_up|reflexivity]. }
  assert (S2 : forall m, same_point (g2 m) (right i k m)).
  { intros m. apply He; [reflexivity|apply step_down]. }
  assert (S3 : forall m, same_point (g3 m) (bottom i k m)).
  { intros m. apply He; [apply step_down|reflexivity]. }
  assert (S4 : forall m, same_point (g4 m) (left_ i k m)).
  { intros m. apply He; [reflexivity|apply step_up]. }
  assert (F := seg_four (hV s) g1 g2 g3 g4 (hV_zero s)). unfold seg, hV in F. cbv zeta in F. rewrite F.
  - fold (hV s). change (fun a b => _) with (hV s).
    rewrite (line_ext (hV s) g1 (top i k) (hV_respects s)) by (intros; apply S1).
    rewrite (line_ext (hV s) g2 (right i k) (hV_respects s)) by (intros; apply S2).
    rewrite (line_ext (hV s) g3 (bottom i k) (hV_respects s)) by (intros; apply S3).
    rewrite (line_ext (hV s) g4 (left_ i k) (hV_respects s)) by (intros; apply S4). reflexivity.
  - eapply same_trans; [apply S1|eapply same_trans; [|apply same_sym, S2]].
    apply He; [rewrite eleventh_11; ring|rewrite eleventh_0; ring].
  - eapply same_trans; [apply S2|eapply same_trans; [|apply same_sym, S3]].
    apply He; [rewrite eleventh_0; ring|rewrite eleventh_11; ring].
  - eapply same_trans; [apply S3|eapply same_trans; [|apply same_sym, S4]].
    apply He; [rewrite eleventh_11; ring|rewrite eleventh_0; ring].
Qed.

(** The same sides as faces. *)
Lemma inj_pred i : inject_Z (i - 1) == inject_Z i - 1.
Proof. unfold Z.sub. rewrite inject_Z_plus, inject_Z_opp. reflexivity. Qed.
Lemma eleventh_sub m : (m <= 11)%nat -> eleventh (11 - m) == 1 - eleventh m.
Proof.
  intros H. unfold eleventh. rewrite Nat2Z.inj_sub by lia. unfold Z.sub.
  rewrite inject_Z_plus, inject_Z_opp. change (inject_Z (Z.of_nat 11)) with 11. field.
Qed.

Lemma volume_faces s i k : cell_volume s p i k ==
  line (hV s) (fx p i k) - line (hV s) (fx p (i - 1) k)
  - line (hV s) (fz p (i - 1) k) + line (hV s) (fzdown p (i - 1) k).
Proof.
  rewrite volume_sides.
  rewrite (line_ext (hV s) (top i k) (fz p (i - 1) k) (hV_respects s)).
  2:{ intros m _. apply He; [rewrite inj_pred; ring|reflexivity]. }
  rewrite (line_ext (hV s) (left_ i k) (fx p (i - 1) k) (hV_respects s)).
  2:{ intros m _. apply He; [rewrite inj_pred; ring|reflexivity]. }
  rewrite (line_rev (hV s) (fx p i k) (right i k) (hV_respects s) (hV_anti s)).
  2:{ intros m Hm. apply He; [reflexivity|rewrite eleventh_sub by exact Hm; ring]. }
  rewrite (line_rev (hV s) (fzdown p (i - 1) k) (bottom i k) (hV_respects s) (hV_anti s)).
  2:{ intros m Hm. apply He; [rewrite eleventh_sub, inj_pred by exact Hm; ring|reflexivity]. }
  ring.
Qed.
End Volume.

Lemma hR_tor_is_hV g : line (hR false) g == line (hV true) g.
Proof. unfold line. apply qsum_seq_ext. intros m _. unfold hR, hV, weight. reflexivity. Qed.

Lemma op_linear_tor sqrt nx ny nz at_ cX cZ a b c i j k :
  root_like sqrt -> coefficients sqrt false None nx ny nz at_ = Ok (cX, cZ) ->
  (1 <= i < nx - 1)%Z -> (0 <= j < ny)%Z -> (0 <= k < nz)%Z ->
  p_nx (at_ j) = nx -> p_nz (at_ j) = nz ->
  extensional (p_coord (at_ j)) -> closes (at_ j) -> faces_proper (at_ j) ->
  apply_op nx nz cX cZ (linear a b c at_) i j k == a * cell_volume true (at_ j) i k.
Proof.
  intros Hs H Hi Hj Hk Ex Ez He Hc Hp.
  rewrite (op_linear _ _ _ _ _ _ _ _ a b c i j k Hs H Hi Hj Hk Ex Ez He Hc Hp).
  rewrite (volume_faces _ He), !hR_tor_is_hV, !line_hZ_tor. set (p := at_ j) in *.
  destruct (fx_start p He i k) as [A1 A2]. destruct (fx_end p He i k) as [A3 A4].
  destruct (fx_start p He (i - 1) k) as [B1 B2]. destruct (fx_end p He (i - 1) k) as [B3 B4].
  destruct (fz_start p He (i - 1) k) as [C1 C2]. destruct (fz_end p He (i - 1) k) as [C3 C4].
  destruct (fzdown_start p He (i - 1) k) as [D1 D2]. destruct (fzdown_end p He (i - 1) k) as [D3 D4].
  unfold corner in *.
  destruct (at_prev p He i (inject_Z k + (1#2))) as [E1 E2].
  destruct (at_prev p He i (inject_Z k - (1#2))) as [E3 E4].
  rewrite A1, A3, B1, B3, C1, C3, D1, D3, E1, E3. field.
Qed.
