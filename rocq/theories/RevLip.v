(** FieldTracerReversible on fields with Lipschitz direction: the Newton iteration ends and its
    result obeys the trapezoidal rule up to the tolerance. *)
From Coq Require Import List ZArith QArith Qabs Qpower Qfield Lia Lqa Bool Setoid.
From Verif Require Import Prelude PreludeFacts TracerModel TracerSpec TracerProofs RevModel RevSpec RevProofs RevFollow RevLipSpec.
Import ListNotations.
Open Scope Q_scope.

Lemma qabs_le a b : Qabs a <= b <-> - b <= a /\ a <= b.
Proof. apply Qabs_Qle_condition. Qed.
Lemma qabs_mul a b m : Qabs a <= m -> Qabs (a * b) <= m * Qabs b.
Proof. intros H. rewrite Qabs_Qmult. apply Qmult_le_compat_r; [exact H|apply Qabs_nonneg]. Qed.

(** the 2x2 equation *)
Lemma small_solve u11 u12 u21 u22 fx fz : Qabs u11 <= 1 # 8 -> Qabs u12 <= 1 # 8 -> Qabs u21 <= 1 # 8 -> Qabs u22 <= 1 # 8 ->
  let det := (u11 - 1) * (u22 - 1) - u12 * u21 in
  3 # 4 <= det /\
  (forall r, Qabs fx <= r -> Qabs fz <= r -> Qabs (((u22 - 1) * fx - u12 * fz) / det) <= (5 # 3) * r /\ Qabs (((u11 - 1) * fz - u21 * fx) / det) <= (5 # 3) * r) /\
  (u11 * (((u22 - 1) * fx - u12 * fz) / det) + u12 * (((u11 - 1) * fz - u21 * fx) / det) - ((u22 - 1) * fx - u12 * fz) / det == fx) /\
  (u21 * (((u22 - 1) * fx - u12 * fz) / det) + u22 * (((u11 - 1) * fz - u21 * fx) / det) - ((u11 - 1) * fz - u21 * fx) / det == fz).
Proof.
  intros H11 H12 H21 H22 det.
  assert (P : Qabs (u12 * u21) <= (1 # 64)).
  { apply Qle_trans with (1 := qabs_mul _ _ _ H12). assert (0 <= Qabs u21) by apply Qabs_nonneg. lra. }
  apply qabs_le in P. apply qabs_le in H11. apply qabs_le in H22.
  assert (D : 3 # 4 <= det) by (unfold det; nra).
  assert (D0 : ~ det == 0) by lra.
  split; [exact D|]. split.
  - intros r Hx Hz. assert (R0 : 0 <= r) by (apply Qle_trans with (2 := Hx); apply Qabs_nonneg).
    assert (G : forall a b f g, Qabs (a - 1) <= 9 # 8 -> Qabs b <= 1 # 8 -> Qabs f <= r -> Qabs g <= r -> Qabs (((a - 1) * f - b * g) / det) <= (5 # 3) * r).
    { intros a b f g Ha Hb Hf Hg. assert (T : Qabs ((a - 1) * f - b * g) <= (10 # 8) * r).
      { apply Qle_trans with (1 := Qabs_triangle _ _). rewrite Qabs_opp. assert (T1 := qabs_mul _ f _ Ha). assert (T2 := qabs_mul _ g _ Hb). lra. }
      apply qabs_le in T. apply qabs_le. split; [apply Qle_shift_div_l; nra|apply Qle_shift_div_r; nra]. }
    split; apply G; auto; apply qabs_le; lra.
  - split; unfold det in *; field; exact D0.
Qed.

Section L.
Variable dir : Q -> Q -> Q -> Q * Q.
Variable rtol eps L sigma : Q.
Hypothesis HL : lipschitz dir L.
Hypothesis Heps : ~ eps == 0.
Hypothesis Hr : 0 < rtol.
Hypothesis Hsig : 0 <= sigma.
Hypothesis Hrs : rtol <= sigma * sigma.
Notation kappa := ((3 # 2) * L * sigma).

Lemma L0 : 0 <= L.
Proof. apply HL. Qed.
Lemma lip x z x' z' y h : Qabs (x' - x) <= h -> Qabs (z' - z) <= h ->
    Qabs (fst (dir x' z' y) - fst (dir x z y)) <= L * h /\ Qabs (snd (dir x' z' y) - snd (dir x z y)) <= L * h.
Proof. apply HL. Qed.
Lemma respect x x' z z' y y' : x == x' -> z == z' -> y == y' -> fst (dir x z y) == fst (dir x' z' y') /\ snd (dir x z y) == snd (dir x' z' y').
Proof.
  intros Ex Ez Ey. destruct HL as (_ & HL1 & HL2). destruct (HL2 x z y y' Ey) as (A & B). rewrite A, B.
  destruct (HL1 x z x' z' y' 0) as (C & D).
  - rewrite Ex. setoid_replace (x' - x') with 0 by ring. discriminate.
  - rewrite Ez. setoid_replace (z' - z') with 0 by ring. discriminate.
  - rewrite Qmult_0_r in C, D. apply qabs_le in C. apply qabs_le in D. split; lra.
Qed.

(** the equation of a step, at p *)
Definition resid (y dy : Q) (h p : Q * Q) : Q * Q :=
  let d := dir (fst p) (snd p) y in ((1#2) * fst d * dy - fst p + fst h, (1#2) * snd d * dy - snd p + snd h).
Definition within (r : Q) (p : Q * Q) : Prop := Qabs (fst p) <= r /\ Qabs (snd p) <= r.

Lemma entry y dy (D D' : Q) : Qabs dy * L <= 1 # 4 -> Qabs (D' - D) <= L * Qabs eps -> y == y -> Qabs ((1 # 2) * ((D' - D) / eps) * dy) <= Qabs dy * L / 2 /\ Qabs ((1 # 2) * ((D' - D) / eps) * dy) <= 1 # 8.
Proof.
  intros H1 H2 _. assert (E0 : 0 < Qabs eps).
  { destruct (Qlt_le_dec 0 (Qabs eps)) as [C|C]; [exact C|]. exfalso. apply Heps. assert (N := Qabs_nonneg eps). apply qabs_le in C. lra. }
  assert (K : Qabs ((D' - D) / eps) <= L).
  { unfold Qdiv. rewrite Qabs_Qmult. rewrite Qabs_Qinv. apply Qle_shift_div_r; [exact E0|exact H2]. }
  assert (K2 : Qabs ((1 # 2) * ((D' - D) / eps) * dy) <= Qabs dy * L / 2).
  { rewrite !Qabs_Qmult. change (Qabs (1 # 2)) with (1 # 2). assert (0 <= Qabs dy) by apply Qabs_nonneg.
    setoid_replace (Qabs dy * L / 2) with ((1 # 2) * L * Qabs dy) by field. apply Qmult_le_compat_r; [lra|exact H]. }
  split; [exact K2|]. apply Qle_trans with (1 := K2). setoid_replace (1 # 8) with ((1 # 4) / 2) by reflexivity.
  apply Qmult_le_compat_r; [exact H1|discriminate].
Qed.

Lemma delta y dy h p : Qabs dy * L <= 1 # 4 -> exists d, newton_delta dir eps y dy h p = Some d /\
  (forall r, within r (resid y dy h p) -> within ((5 # 3) * r) d) /\
  (forall m, within m d -> within ((3 # 2) * (Qabs dy * L) * m) (resid y dy h (psub p d))).
Proof.
  intros HS. destruct p as [x z], h as [xh zh]. unfold newton_delta.
  assert (XE : Qabs (x + eps - x) <= Qabs eps) by (setoid_replace (x + eps - x) with eps by ring; apply Qle_refl).
  assert (ZE : Qabs (z + eps - z) <= Qabs eps) by (setoid_replace (z + eps - z) with eps by ring; apply Qle_refl).
  assert (X0 : Qabs (x - x) <= Qabs eps) by (setoid_replace (x - x) with 0 by ring; apply Qabs_nonneg).
  assert (Z0 : Qabs (z - z) <= Qabs eps) by (setoid_replace (z - z) with 0 by ring; apply Qabs_nonneg).
  destruct (lip x z (x + eps) z y (Qabs eps) XE Z0) as (LX1 & LX2). destruct (lip x z x (z + eps) y (Qabs eps) X0 ZE) as (LZ1 & LZ2).
  destruct (dir x z y) as [D1 D2] eqn:ED. destruct (dir (x + eps) z y) as [D1x D2x] eqn:EDx. destruct (dir x (z + eps) y) as [D1z D2z] eqn:EDz.
  cbn [fst snd] in LX1, LX2, LZ1, LZ2.
  destruct (entry y dy D1 D1x HS LX1 (Qeq_refl _)) as (B11 & S11). destruct (entry y dy D1 D1z HS LZ1 (Qeq_refl _)) as (B12 & S12).
  destruct (entry y dy D2 D2x HS LX2 (Qeq_refl _)) as (B21 & S21). destruct (entry y dy D2 D2z HS LZ2 (Qeq_refl _)) as (B22 & S22).
  set (u11 := (1 # 2) * ((D1x - D1) / eps) * dy) in *. set (u12 := (1 # 2) * ((D1z - D1) / eps) * dy) in *.
  set (u21 := (1 # 2) * ((D2x - D2) / eps) * dy) in *. set (u22 := (1 # 2) * ((D2z - D2) / eps) * dy) in *.
  destruct (small_solve u11 u12 u21 u22 ((1#2) * D1 * dy - x + xh) ((1#2) * D2 * dy - z + zh) S11 S12 S21 S22) as (DT & SB & E1 & E2). cbv zeta in DT, SB, E1, E2.
  set (det := (u11 - 1) * (u22 - 1) - u12 * u21) in *.
  assert (Qeq_bool det 0 = false) as ->.
  { apply not_true_iff_false. intros C. apply Qeq_bool_iff in C. lra. }
  eexists. split; [reflexivity|].
  set (fx := (1#2) * D1 * dy - x + xh) in *. set (fz := (1#2) * D2 * dy - z + zh) in *.
  set (dx := ((u22 - 1) * fx - u12 * fz) / det) in *. set (dz := ((u11 - 1) * fz - u21 * fx) / det) in *.
  split.
  - intros r (W1 & W2). unfold resid in W1, W2. cbn [fst snd] in W1, W2. rewrite ED in W1, W2. cbn [fst snd] in W1, W2. split; cbn [fst snd]; apply SB; assumption.
  - intros m (M1 & M2). cbn [fst snd] in M1, M2. unfold resid, psub. cbn [fst snd].
    destruct (respect (Qred (x - dx)) (x - dx) (Qred (z - dz)) (z - dz) y y (Qred_correct _) (Qred_correct _) (Qeq_refl _)) as (R1 & R2).
    assert (MX : Qabs (x - dx - x) <= m) by (setoid_replace (x - dx - x) with (- dx) by ring; rewrite Qabs_opp; exact M1).
    assert (MZ : Qabs (z - dz - z) <= m) by (setoid_replace (z - dz - z) with (- dz) by ring; rewrite Qabs_opp; exact M2).
    destruct (lip x z (x - dx) (z - dz) y m MX MZ) as (N1 & N2). rewrite ED in N1, N2. cbn [fst snd] in N1, N2. 
    split; cbn [fst snd].
    + setoid_replace ((1 # 2) * fst (dir (Qred (x - dx)) (Qred (z - dz)) y) * dy - Qred (x - dx) + xh)
        with ((1 # 2) * dy * (fst (dir (x - dx) (z - dz) y) - D1) + (u11 * dx + u12 * dz)).
      2:{ rewrite R1, Qred_correct. assert (E1' : u11 * dx + u12 * dz == fx + dx) by (rewrite <- E1; ring). rewrite E1'. unfold fx. ring. }
      apply Qle_trans with (1 := Qabs_triangle _ _).
      assert (T1 : Qabs ((1 # 2) * dy * (fst (dir (x - dx) (z - dz) y) - D1)) <= (1 # 2) * (Qabs dy * L) * m).
      { rewrite !Qabs_Qmult. change (Qabs (1 # 2)) with (1 # 2). setoid_replace ((1 # 2) * (Qabs dy * L) * m) with ((L * m) * ((1 # 2) * Qabs dy)) by ring.
        rewrite (Qmult_comm _ (Qabs (_ - D1))). apply Qmult_le_compat_r; [exact N1|]. assert (0 <= Qabs dy) by apply Qabs_nonneg. lra. }
      assert (T2 : Qabs (u11 * dx + u12 * dz) <= Qabs dy * L * m).
      { apply Qle_trans with (1 := Qabs_triangle _ _). assert (A := qabs_mul _ dx _ B11). assert (B := qabs_mul _ dz _ B12).
        assert (P : 0 <= Qabs dy * L / 2) by (apply Qle_trans with (2 := B11); apply Qabs_nonneg).
        assert (Qabs dy * L / 2 * Qabs dx <= Qabs dy * L / 2 * m) by (rewrite !(Qmult_comm (Qabs dy * L / 2)); apply Qmult_le_compat_r; assumption).
        assert (Qabs dy * L / 2 * Qabs dz <= Qabs dy * L / 2 * m) by (rewrite !(Qmult_comm (Qabs dy * L / 2)); apply Qmult_le_compat_r; assumption).
        setoid_replace (Qabs dy * L * m) with (Qabs dy * L / 2 * m + Qabs dy * L / 2 * m) by field. lra. }
      setoid_replace ((3 # 2) * (Qabs dy * L) * m) with ((1 # 2) * (Qabs dy * L) * m + Qabs dy * L * m) by ring. lra.
    + setoid_replace ((1 # 2) * snd (dir (Qred (x - dx)) (Qred (z - dz)) y) * dy - Qred (z - dz) + zh)
        with ((1 # 2) * dy * (snd (dir (x - dx) (z - dz) y) - D2) + (u21 * dx + u22 * dz)).
      2:{ rewrite R2, Qred_correct. assert (E2' : u21 * dx + u22 * dz == fz + dz) by (rewrite <- E2; ring). rewrite E2'. unfold fz. ring. }
      apply Qle_trans with (1 := Qabs_triangle _ _).
      assert (T1 : Qabs ((1 # 2) * dy * (snd (dir (x - dx) (z - dz) y) - D2)) <= (1 # 2) * (Qabs dy * L) * m).
      { rewrite !Qabs_Qmult. change (Qabs (1 # 2)) with (1 # 2). setoid_replace ((1 # 2) * (Qabs dy * L) * m) with ((L * m) * ((1 # 2) * Qabs dy)) by ring.
        rewrite (Qmult_comm _ (Qabs (_ - D2))). apply Qmult_le_compat_r; [exact N2|]. assert (0 <= Qabs dy) by apply Qabs_nonneg. lra. }
      assert (T2 : Qabs (u21 * dx + u22 * dz) <= Qabs dy * L * m).
      { apply Qle_trans with (1 := Qabs_triangle _ _). assert (A := qabs_mul _ dx _ B21). assert (B := qabs_mul _ dz _ B22).
        assert (P : 0 <= Qabs dy * L / 2) by (apply Qle_trans with (2 := B21); apply Qabs_nonneg).
        assert (Qabs dy * L / 2 * Qabs dx <= Qabs dy * L / 2 * m) by (rewrite !(Qmult_comm (Qabs dy * L / 2)); apply Qmult_le_compat_r; assumption).
        assert (Qabs dy * L / 2 * Qabs dz <= Qabs dy * L / 2 * m) by (rewrite !(Qmult_comm (Qabs dy * L / 2)); apply Qmult_le_compat_r; assumption).
        setoid_replace (Qabs dy * L * m) with (Qabs dy * L / 2 * m + Qabs dy * L / 2 * m) by field. lra. }
      setoid_replace ((3 # 2) * (Qabs dy * L) * m) with ((1 # 2) * (Qabs dy * L) * m + Qabs dy * L * m) by ring. lra.
Qed.

(** one pass over all points *)
Lemma pass y dy hs ps : Qabs dy * L <= 1 # 4 -> length hs = length ps -> exists ds,
  all_some (map (fun hp => newton_delta dir eps y dy (fst hp) (snd hp)) (combine hs ps)) = Some ds /\ length ds = length ps /\
  (forall r, Forall2 (fun h p => within r (resid y dy h p)) hs ps -> Forall (within ((5 # 3) * r)) ds) /\
  (forall m, Forall (within m) ds -> Forall2 (fun h p => within ((3 # 2) * (Qabs dy * L) * m) (resid y dy h p)) hs (map (fun pd => psub (fst pd) (snd pd)) (combine ps ds))).
Proof.
  intros HS. revert ps. induction hs as [|h hs IH]; intros [|p ps] Ln; try discriminate.
  - exists []. repeat split; cbn; constructor.
  - destruct (IH ps ltac:(now injection Ln)) as (ds & E & Ld & A & B). destruct (delta y dy h p HS) as (d & Ed & A1 & B1).
    exists (d :: ds). cbn [combine map all_some fst snd]. rewrite Ed. cbn [combine map] in E |- *. rewrite E. split; [reflexivity|]. split; [cbn; now rewrite Ld|]. split.
    + intros r H. inversion H; subst. constructor; auto.
    + intros m H. inversion H; subst. constructor; auto.
Qed.

Lemma sq_small d : fst d * fst d + snd d * snd d < rtol -> within sigma d.
Proof.
  intros H. assert (A : 0 <= fst d * fst d) by (destruct (Qlt_le_dec (fst d) 0); nra). assert (B : 0 <= snd d * snd d) by (destruct (Qlt_le_dec (snd d) 0); nra).
  split; apply qabs_le; split; nra.
Qed.
Lemma small_sq r d : 0 <= r -> (50 # 9) * (r * r) < rtol -> within ((5 # 3) * r) d -> fst d * fst d + snd d * snd d < rtol.
Proof. intros R0 H (A & B). apply qabs_le in A. apply qabs_le in B. nra. Qed.

(** the iteration ends *)
Lemma newton_ends k : forall s lx lz y dy hs ps r, lx <> lz -> at_points s lx lz ps -> length hs = length ps -> ps <> [] -> Qabs dy * L <= 1 # 4 -> 0 <= r ->
  Forall2 (fun h p => within r (resid y dy h p)) hs ps -> (50 # 9) * (r * r) * ((25 # 64) ^ Z.of_nat k) < rtol ->
  exists s' ps', (forall fuel, (k < fuel)%nat -> newton dir rtol eps fuel s lx lz y dy hs = Some (Ok s')) /\ at_points s' lx lz ps' /\
    Forall2 (fun h p => within (Qabs dy * kappa) (resid y dy h p)) hs ps' /\ length ps' = length ps /\ forall l, l <> lx -> l <> lz -> s' l = s l.
Proof.
  induction k as [|k IH]; intros s lx lz y dy hs ps r N A Ln Hne HS R0 HR HK.
  all: destruct (pass y dy hs ps HS Ln) as (ds & Ed & Ld & B1 & B2); assert (A' := A); destruct A' as (A1 & A2).
  all: assert (Nd : ds <> []) by (intros ->; destruct ps; [easy|discriminate]).
  all: destruct (pass_points s lx lz ps ds N A Ld) as (P1 & P2).
  all: set (s2 := upd (upd s lx (vsub (s lx) (map fst ds))) lz (vsub (upd s lx (vsub (s lx) (map fst ds)) lz) (map snd ds))) in *.
  all: set (ps2 := map (fun pd => psub (fst pd) (snd pd)) (combine ps ds)) in *.
  all: assert (L2 : length ps2 = length ps) by (unfold ps2; rewrite map_length, combine_length; lia).
  all: specialize (B1 r HR).
  all: assert (STEP : forall fuel, newton dir rtol eps (S fuel) s lx lz y dy hs =
    if forallb (fun d => Qlt_bool (fst d * fst d + snd d * snd d) rtol) ds then Some (Ok s2) else newton dir rtol eps fuel s2 lx lz y dy hs)
    by (intros fuel; cbn [newton]; rewrite A1, A2, combine_fst_snd, Ed, (match_cons ds _ _ Nd), <- A1; reflexivity).
  all: destruct (forallb (fun d => Qlt_bool (fst d * fst d + snd d * snd d) rtol) ds) eqn:Fb.
  1, 3: exists s2, ps2; split; [intros [|fuel] Hf; [lia|]; apply STEP|]; split; [exact P1|]; split; [|split; [exact L2|exact P2]];
    assert (SM : Forall (within sigma) ds) by (apply Forall_forall; intros d Hd; apply sq_small; rewrite forallb_forall in Fb; apply Qlt_bool_iff; now apply Fb);
    specialize (B2 sigma SM); eapply Forall2_impl; [|exact B2]; intros h p (W1 & W2);
    setoid_replace ((3 # 2) * (Qabs dy * L) * sigma) with (Qabs dy * ((3 # 2) * L * sigma)) in W1 by ring; setoid_replace ((3 # 2) * (Qabs dy * L) * sigma) with (Qabs dy * ((3 # 2) * L * sigma)) in W2 by ring; split; assumption.
  - exfalso. apply not_true_iff_false in Fb. apply Fb. apply forallb_forall. intros d Hd. apply Qlt_bool_iff. rewrite Forall_forall in B1.
    apply (small_sq r); [exact R0| |now apply B1]. cbn [Z.of_nat] in HK. change ((25 # 64) ^ 0) with 1 in HK. lra.
  - assert (B3 := B2 _ B1).
    assert (HR2 : Forall2 (fun h p => within ((5 # 8) * r) (resid y dy h p)) hs ps2).
    { eapply Forall2_impl; [|exact B3]. intros h p (W1 & W2). assert (0 <= Qabs dy * L) by (apply Qmult_le_0_compat; [apply Qabs_nonneg|exact L0]). split; nra. }
    destruct (IH s2 lx lz y dy hs ps2 ((5 # 8) * r) N P1) as (s' & ps' & I1 & I2 & I3 & I4 & I5); [lia| |exact HS|lra|exact HR2| |].
    { intros C. rewrite C in L2. destruct ps; [easy|discriminate]. }
    { rewrite Nat2Z.inj_succ in HK. unfold Z.succ in HK. rewrite Qpower_plus in HK by discriminate. change ((25 # 64) ^ 1) with (25 # 64) in HK.
      setoid_replace ((50 # 9) * ((5 # 8) * r * ((5 # 8) * r)) * (25 # 64) ^ Z.of_nat k) with ((50 # 9) * (r * r) * ((25 # 64) ^ Z.of_nat k * (25 # 64))) by ring. exact HK. }
    exists s', ps'. split; [intros [|fuel] Hf; [lia|]; rewrite STEP; apply I1; lia|]. split; [exact I2|]. split; [exact I3|]. split; [lia|].
    intros l N1 N2. now rewrite I5, P2.
Qed.

Lemma power_small c : 0 <= c -> exists k, c * (25 # 64) ^ Z.of_nat k < rtol.
Proof.
  intros C0.
  assert (G : forall k, (25 # 64) ^ Z.of_nat k * (1 + inject_Z (Z.of_nat k)) <= 1).
  { induction k as [|k IH]; [discriminate|]. rewrite Nat2Z.inj_succ. unfold Z.succ. rewrite Qpower_plus, inject_Z_plus by discriminate. change ((25 # 64) ^ 1) with (25 # 64). change (inject_Z 1) with 1.
    assert (0 <= inject_Z (Z.of_nat k)) by (change 0 with (inject_Z 0); rewrite <- Zle_Qle; lia).
    assert (0 <= (25 # 64) ^ Z.of_nat k) by (apply Qpower_0_le; discriminate). nra. }
  exists (Z.to_nat (Qround.Qceiling (c / rtol))). set (k := Z.to_nat _). specialize (G k).
  assert (K : c / rtol <= inject_Z (Z.of_nat k)).
  { apply Qle_trans with (1 := Qround.Qle_ceiling _). rewrite <- Zle_Qle. unfold k. lia. }
  assert (K2 : c <= inject_Z (Z.of_nat k) * rtol).
  { setoid_replace c with (c / rtol * rtol) by (field; lra). apply Qmult_le_compat_r; lra. }
  set (w := (25 # 64) ^ Z.of_nat k) in *. assert (W : 0 < w) by (apply Qpower_0_lt; reflexivity).
  assert (c * w <= inject_Z (Z.of_nat k) * rtol * w) by (apply Qmult_le_compat_r; lra). nra.
Qed.

Lemma bounded_resid y dy hs ps : length hs = length ps -> exists r, 0 <= r /\ Forall2 (fun h p => within r (resid y dy h p)) hs ps.
Proof.
  revert ps. induction hs as [|h hs IH]; intros [|p ps] Ln; try discriminate; [exists 0; split; [discriminate|constructor]|].
  destruct (IH ps ltac:(now injection Ln)) as (r & R0 & F). set (f := resid y dy h p).
  exists (r + Qabs (fst f) + Qabs (snd f)). assert (A := Qabs_nonneg (fst f)). assert (B := Qabs_nonneg (snd f)). split; [lra|]. constructor.
  - fold f. split; lra.
  - eapply Forall2_impl; [|exact F]. intros h' p' (W1 & W2). split; lra.
Qed.

Lemma substep_near s lx lz y dy ps : lx <> lz -> at_points s lx lz ps -> ps <> [] -> Qabs dy * L <= 1 # 4 ->
  exists N s' ps', (forall fuel, (N <= fuel)%nat -> substep dir rtol eps fuel lx lz y dy s = Some (Ok s')) /\ at_points s' lx lz ps' /\
    Forall2 (near_trapezoid dir kappa y (Qred (y + dy))) ps ps' /\ ps' <> [] /\ forall l, l <> lx -> l <> lz -> s' l = s l.
Proof.
  intros N [E1 E2] Hne HS. unfold substep. rewrite E1, E2, combine_fst_snd.
  set (ds := map (fun p => dir (fst p) (snd p) y) ps). set (hs := map _ (combine ps ds)).
  set (s2 := upd (upd s lx _) lz _).
  assert (Lds : length ds = length ps) by (unfold ds; now rewrite map_length).
  assert (A2 : at_points s2 lx lz (map (fun pd => padd (fst pd) (fst (snd pd) * dy, snd (snd pd) * dy)) (combine ps ds))).
  { unfold s2, at_points. rewrite upd_other by exact N. rewrite !upd_same. rewrite upd_other by congruence. rewrite E2. unfold vadd. rewrite !combine_maps, !map_map. split; apply map_ext; intros [p d]; reflexivity. }
  set (ps2 := map (fun pd => padd (fst pd) (fst (snd pd) * dy, snd (snd pd) * dy)) (combine ps ds)) in *.
  assert (Ln : length hs = length ps2) by (unfold hs, ps2; now rewrite !map_length).
  assert (Np : ps2 <> []). { intros C. apply (f_equal (@length _)) in C. unfold ps2 in C. rewrite map_length, combine_length, Lds in C. destruct ps; [contradiction|]. cbn in C. lia. }
  destruct (bounded_resid (Qred (y + dy)) dy hs ps2 Ln) as (r & R0 & F).
  destruct (power_small ((50 # 9) * (r * r))) as (k & K); [nra|].
  destruct (newton_ends k s2 lx lz (Qred (y + dy)) dy hs ps2 r N A2 Ln Np HS R0 F K) as (s' & ps' & I1 & I2 & I3 & I4 & I5).
  exists (S k), s', ps'. split; [intros fuel Hf; apply I1; lia|]. split; [exact I2|]. split; [|split].
  - unfold hs, ds in I3. clear - I3. revert ps' I3. induction ps as [|p ps IH]; intros ps' I3; cbn [map combine] in I3; inversion I3 as [|? p' ? ps'' W I3']; subst; constructor; [|now apply IH].
    destruct W as (W1 & W2). unfold resid in W1, W2. cbn [fst snd] in W1, W2. unfold near_trapezoid. cbv zeta.
    assert (E : Qred (y + dy) - y == dy) by (rewrite Qred_correct; ring). rewrite E.
    set (u := fst (dir (fst p) (snd p) y)) in *. set (v := snd (dir (fst p) (snd p) y)) in *.
    set (u' := fst (dir (fst p') (snd p') (Qred (y + dy)))) in *. set (v' := snd (dir (fst p') (snd p') (Qred (y + dy)))) in *. clearbody u v u' v'.
    split; [setoid_replace (fst p' - fst p - dy * (1 # 2) * (u + u')) with (- ((1 # 2) * u' * dy - fst p' + (fst p + (1 # 2) * u * dy))) by ring
           |setoid_replace (snd p' - snd p - dy * (1 # 2) * (v + v')) with (- ((1 # 2) * v' * dy - snd p' + (snd p + (1 # 2) * v * dy))) by ring]; rewrite Qabs_opp; assumption.
  - intros ->. destruct ps2; [easy|discriminate].
  - intros l L1 L2. rewrite I5 by assumption. unfold s2. now rewrite !upd_other by assumption.
Qed.

Lemma near_trapezoid_comp k y y' z z' p p' : y == z -> y' == z' -> near_trapezoid dir k y y' p p' -> near_trapezoid dir k z z' p p'.
Proof.
  intros E E' [H1 H2]. destruct (respect (fst p) (fst p) (snd p) (snd p) y z) as [A1 A2]; [reflexivity|reflexivity|exact E|].
  destruct (respect (fst p') (fst p') (snd p') (snd p') y' z') as [B1 B2]; [reflexivity|reflexivity|exact E'|].
  unfold near_trapezoid. cbv zeta in *. rewrite <- A1, <- B1, <- A2, <- B2, <- E, <- E'. split; assumption.
Qed.
Lemma near_chain_comp k l l' p q : Forall2 Qeq l l' -> near_chain dir k l p q -> near_chain dir k l' p q.
Proof.
  intros E H. revert l' E. induction H as [y p|y y' l p p' q T H IH]; intros l' E; inversion E as [|? z ? l1 Ez E1]; subst.
  - inversion E1; subst. constructor.
  - inversion E1 as [|? z' ? l2 Ez' E2]; subst. econstructor; [eapply near_trapezoid_comp; eassumption|]. now apply IH.
Qed.
Lemma Forall2_near_cons k y y' l ps ps' ps'' :
  Forall2 (near_trapezoid dir k y y') ps ps' -> Forall2 (near_chain dir k (y' :: l)) ps' ps'' -> Forall2 (near_chain dir k (y :: y' :: l)) ps ps''.
Proof. intros H. revert ps''. induction H; intros ps'' H2; inversion H2; subst; constructor; eauto using near_cons. Qed.
Lemma Forall2_near_refl k y ps : Forall2 (near_chain dir k [y]) ps ps.
Proof. induction ps; constructor; [constructor|assumption]. Qed.

Lemma substeps_near n : forall s lx lz y dy ps, lx <> lz -> at_points s lx lz ps -> ps <> [] -> Qabs dy * L <= 1 # 4 ->
  exists N s' ps' y', (forall fuel, (N <= fuel)%nat -> substeps dir rtol eps fuel n lx lz y dy s = Some (Ok (s', y'))) /\ y' == y + inject_Z (Z.of_nat n) * dy /\ at_points s' lx lz ps'
    /\ Forall2 (near_chain dir kappa (agrid n y dy)) ps ps' /\ ps' <> [] /\ forall l, l <> lx -> l <> lz -> s' l = s l.
Proof.
  induction n as [|n IH]; intros s lx lz y dy ps N A Hne HS.
  - exists 0%nat, s, ps, y. split; [reflexivity|]. split; [cbn [Z.of_nat]; ring|]. split; [exact A|]. split; [apply Forall2_near_refl|auto].
  - destruct (substep_near s lx lz y dy ps N A Hne HS) as (N1 & s1 & ps1 & F1 & A1 & T1 & Hne1 & O1).
    destruct (IH s1 lx lz (Qred (y + dy)) dy ps1 N A1 Hne1 HS) as (N2 & s2 & ps2 & y2 & F2 & E2 & A2 & T2 & Hne2 & O2).
    exists (Nat.max N1 N2), s2, ps2, y2. split; [intros fuel Hf; cbn [substeps]; rewrite F1 by lia; apply F2; lia|].
    split; [rewrite E2, Qred_correct, Nat2Z.inj_succ; unfold Z.succ; rewrite inject_Z_plus; ring|]. split; [exact A2|]. split.
    + cbn [agrid]. destruct (agrid_head n (Qred (y + dy)) dy) as [l E]. rewrite E in *. eapply Forall2_near_cons; eassumption.
    + split; [exact Hne2|]. intros l L1 L2. now rewrite O2, O1.
Qed.

Lemma near_run_head n k a a' t pss : a == a' -> near_run dir k n (a :: t) pss -> near_run dir k n (a' :: t) pss.
Proof.
  intros E H. inversion H; subst; [constructor|]. constructor; [|assumption]. eapply Forall2_impl; [|eassumption].
  intros p q. apply near_chain_comp. apply even_grid_comp; [exact E|reflexivity].
Qed.

Lemma steps_head H n a a' t : a == a' -> steps_below H n (a :: t) -> steps_below H n (a' :: t).
Proof. intros E. destruct t as [|b t]; [auto|]. cbn [steps_below]. intros [H1 H2]. split; [|exact H2]. rewrite <- E. exact H1. Qed.

Lemma rev_rows_near H n ys : (0 < n)%nat -> H * L <= 1 # 4 -> forall s lx lz y ps, lx <> lz -> at_points s lx lz ps -> ps <> [] -> steps_below H n (y :: ys) ->
  exists N s' pss, (forall fuel, (N <= fuel)%nat -> rev_rows dir rtol eps fuel n lx lz y ys s = Some (Ok (s', map row_of pss))) /\ near_run dir kappa n (y :: ys) (ps :: pss)
    /\ forall l, l <> lx -> l <> lz -> s' l = s l.
Proof.
  intros Hn HH. induction ys as [|b t IH]; intros s lx lz y ps N A Hne Hs.
  - exists 0%nat, s, []. split; [reflexivity|]. split; [constructor|auto].
  - destruct Hs as [Hd Hs]. set (dy := Qred ((b - y) / inject_Z (Z.of_nat n))).
    assert (Edy : dy == (b - y) / inject_Z (Z.of_nat n)) by apply Qred_correct.
    assert (PN : 0 < inject_Z (Z.of_nat n)) by (change 0 with (inject_Z 0); rewrite <- Zlt_Qlt; lia).
    assert (HS : Qabs dy * L <= 1 # 4).
    { apply Qle_trans with (2 := HH). apply Qmult_le_compat_r; [|exact L0]. rewrite Edy. unfold Qdiv. rewrite Qabs_Qmult, Qabs_Qinv, (Qabs_pos (inject_Z _)) by lra.
      apply Qle_shift_div_r; assumption. }
    destruct (substeps_near n s lx lz y dy ps N A Hne HS) as (N1 & s1 & ps1 & y1 & F1 & E1 & A1 & T1 & Hne1 & O1).
    assert (Eb : y1 == b). { rewrite E1, Edy. field. now apply injn_neq0. }
    destruct (IH s1 lx lz y1 ps1 N A1 Hne1) as (N2 & s2 & pss & F2 & R2 & O2).
    { apply (steps_head H n b y1 t); [now symmetry|exact Hs]. }
    exists (Nat.max N1 N2), s2, (ps1 :: pss). split; [|split].
    + intros fuel Hf. cbn [rev_rows]. fold dy. rewrite F1 by lia. rewrite F2 by lia. destruct A1 as [-> ->]. reflexivity.
    + constructor; [|now apply (near_run_head n kappa y1)]. eapply Forall2_impl; [|exact T1]. intros p q. apply near_chain_comp. now apply agrid_even_grid.
    + intros l L1 L2. now rewrite O2, O1.
Qed.

Lemma rev_follow_near H n s x z ys sh fx fz : (0 < n)%nat -> (2 <= length ys)%nat -> ~ aliased x z ->
  wf (arg_nda s x) -> wf (arg_nda s z) -> starts (arg_nda s x) (arg_nda s z) sh fx fz -> (0 < nsize sh)%nat -> steps_below H n ys -> H * L <= 1 # 4 ->
  exists N s' ps pss, (forall fuel, (N <= fuel)%nat -> rev_follow dir rtol eps fuel n s x z ys = Some (Ok (s', map row_of (ps :: pss)))) /\ near_run dir kappa n ys (ps :: pss) /\
    length ps = nsize sh /\ (forall idx, valid sh idx -> nth (offset sh idx) ps (0, 0) = (fx idx, fz idx)).
Proof.
  intros Hn Hy Ha Wx Wz St Hs Sv HH. destruct (starts_match _ _ _ _ _ Wx Wz St) as (xa & za & M & Sx & Sz & Lx & Lz & Pt).
  unfold rev_follow. destruct ys as [|y0 [|y1 ys]]; cbn in Hy; try lia. rewrite M.
  destruct (if shape_eqb (shape (arg_nda s x)) (shape (arg_nda s z)) || negb (size (arg_nda s x) =? 1)%nat then arg_loc TmpX x s else (TmpX, upd s TmpX (data xa))) as [lx s1] eqn:Ex.
  destruct (if shape_eqb (shape (arg_nda s x)) (shape (arg_nda s z)) || (size (arg_nda s x) =? 1)%nat then arg_loc TmpZ z s1 else (TmpZ, upd s1 TmpZ (data za))) as [lz s2] eqn:Ez.
  assert (Hx : s1 lx = data xa /\ (forall l, l <> TmpX -> s1 l = s l) /\ (lx = TmpX \/ exists m sh, x = Ref m sh /\ lx = Caller m)).
  { unfold match_shapes in M. destruct (shape_eqb _ _); cbn [orb] in Ex; [|destruct (size (arg_nda s x) =? 1)%nat eqn:S1; cbn [negb] in Ex].
    - injection M as <- <-. destruct x; cbn in Ex; injection Ex as <- <-; [split; [reflexivity|]; split; [auto|right; eauto]|]. split; [now rewrite upd_same|]. split; [intros; now rewrite upd_other|now left].
    - injection Ex as <- <-. split; [now rewrite upd_same|]. split; [intros; now rewrite upd_other|now left].
    - destruct (size (arg_nda s z) =? 1)%nat; [|discriminate]. injection M as <- <-. destruct x; cbn in Ex; injection Ex as <- <-; [split; [reflexivity|]; split; [auto|right; eauto]|]. split; [now rewrite upd_same|]. split; [intros; now rewrite upd_other|now left]. }
  destruct Hx as (X1 & X2 & X3).
  assert (Hz : s2 lz = data za /\ (forall l, l <> TmpZ -> s2 l = s1 l) /\ (lz = TmpZ \/ exists m sh, z = Ref m sh /\ lz = Caller m)).
  { unfold match_shapes in M. destruct (shape_eqb _ _); cbn [orb] in Ez; [|destruct (size (arg_nda s x) =? 1)%nat eqn:S1; cbn [negb] in Ez].
    - injection M as <- <-. destruct z; cbn in Ez; injection Ez as <- <-; [split; [apply X2; discriminate|]; split; [auto|right; eauto]|]. split; [now rewrite upd_same|]. split; [intros; now rewrite upd_other|now left].
    - injection M as <- <-. destruct z; cbn in Ez; injection Ez as <- <-; [split; [apply X2; discriminate|]; split; [auto|right; eauto]|]. split; [now rewrite upd_same|]. split; [intros; now rewrite upd_other|now left].
    - injection Ez as <- <-. split; [now rewrite upd_same|]. split; [intros; now rewrite upd_other|now left]. }
  destruct Hz as (Z1 & Z2 & Z3).
  assert (Nl : lx <> lz).
  { destruct X3 as [->|(m & ? & -> & ->)], Z3 as [->|(m' & ? & -> & ->)]; try discriminate. cbn in Ha. congruence. }
  assert (Nx : lx <> TmpZ) by (destruct X3 as [->|(m & ? & -> & ->)]; discriminate).
  set (ps := combine (data xa) (data za)).
  assert (Lps : length ps = nsize sh) by (unfold ps; rewrite combine_length; lia).
  assert (Fs : forall (a b : list Q), length a = length b -> map fst (combine a b) = a /\ map snd (combine a b) = b).
  { clear. induction a as [|u a IH]; intros [|v b] L; try discriminate; [auto|]. destruct (IH b ltac:(now injection L)) as [I1 I2]. cbn. now rewrite I1, I2. }
  destruct (Fs (data xa) (data za)) as [F1 F2]; [lia|].
  assert (A : at_points s2 lx lz ps). { unfold at_points, ps. rewrite F1, F2. split; [rewrite Z2 by exact Nx; exact X1|exact Z1]. }
  destruct (rev_rows_near H n (y1 :: ys) Hn HH s2 lx lz y0 ps Nl A) as (N & s' & pss & R & Ru & _).
  { intros C. rewrite C in Lps. cbn in Lps. lia. }
  { exact Sv. }
  exists N, s', ps, pss. split; [|auto]. intros fuel Hf. rewrite R by exact Hf. destruct A as [-> ->]. reflexivity.
Qed.
End L.
