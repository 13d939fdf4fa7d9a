(** Second order accuracy of the perpendicular operator on rectangular grids. *)
From Coq Require Import List ZArith QArith Qabs Reals Qreals Bool Lia Lra.
From Verif Require Import Prelude PreludeFacts PolModel DagpModel DagpSpec DagpProofs DagpRect DagpDoit DagpThms PerpSpec PerpProofs PerpRect RevLipSpec RevAcc WeightsSmooth.
Import ListNotations.
Open Scope R_scope.

Section T4.
Variables (f f1 f2 f3 f4 : R -> R) (M : R).
Hypothesis D1 : forall t, derivable_pt_lim f t (f1 t).
Hypothesis D2 : forall t, derivable_pt_lim f1 t (f2 t).
Hypothesis D3 : forall t, derivable_pt_lim f2 t (f3 t).
Hypothesis D4 : forall t, derivable_pt_lim f3 t (f4 t).
Hypothesis B : forall t, Rabs (f4 t) <= M.
Lemma even_lim g g' c s : (forall t, derivable_pt_lim g t (g' t)) -> derivable_pt_lim (fun s => g (c + 1 * s) + g (c + -1 * s)) s (g' (c + 1 * s) * 1 + g' (c + -1 * s) * -1).
Proof. intros D. apply (derivable_pt_lim_plus (fun s => g (c + 1 * s)) (fun s => g (c + -1 * s))); now apply turn_lim. Qed.
Lemma odd_lim g g' c s : (forall t, derivable_pt_lim g t (g' t)) -> derivable_pt_lim (fun s => g (c + 1 * s) - g (c + -1 * s)) s (g' (c + 1 * s) * 1 - g' (c + -1 * s) * -1).
Proof. intros D. apply (derivable_pt_lim_minus (fun s => g (c + 1 * s)) (fun s => g (c + -1 * s))); now apply turn_lim. Qed.
Lemma lim_fourth c s : derivable_pt_lim (fun s => s * s * s * s / 12 * c) s (s * s * s / 6 * (2 * c)).
Proof.
  apply (derivable_pt_lim_ext (fun s => c / 12 * (s * s * (s * s)))); [intros; field|]. replace (s * s * s / 6 * (2 * c)) with (c / 12 * ((1 * s + s * 1) * (s * s) + s * s * (1 * s + s * 1))) by field.
  apply (derivable_pt_lim_scal (fun s => s * s * (s * s))).
  apply (derivable_pt_lim_mult (fun s => s * s) (fun s => s * s)); apply (derivable_pt_lim_mult (fun s => s) (fun s => s)); apply derivable_pt_lim_id.
Qed.
Lemma second_difference c h : 0 <= h -> Rabs (f (c + h) - 2 * f c + f (c - h) - h * h * f2 c) <= h * h * h * h / 12 * M.
Proof.
  intros Hh.
  assert (G3 : forall s, 0 <= s -> Rabs (f3 (c + 1 * s) - f3 (c + -1 * s)) <= s * (2 * M)).
  { intros s0 Hs0. apply (grows (fun s => f3 (c + 1 * s) - f3 (c + -1 * s)) (fun s => f4 (c + 1 * s) * 1 - f4 (c + -1 * s) * -1) (fun s => s * (2 * M)) (fun _ => 2 * M) s0 Hs0).
    - intros s _. now apply odd_lim.
    - intros s _. apply lim_id_scal.
    - intros s _. cbv beta. assert (X := B (c + 1 * s)). assert (Y := B (c + -1 * s)). replace (f4 (c + 1 * s) * 1 - f4 (c + -1 * s) * -1) with (f4 (c + 1 * s) + f4 (c + -1 * s)) by ring.
      apply Rle_trans with (1 := Rabs_triang _ _). lra.
    - rewrite !Rmult_0_r, Rplus_0_r. ring.
    - ring. }
  assert (G2 : forall s, 0 <= s -> Rabs (f2 (c + 1 * s) + f2 (c + -1 * s) - 2 * f2 c) <= s * s / 2 * (2 * M)).
  { intros s0 Hs0. apply (grows (fun s => f2 (c + 1 * s) + f2 (c + -1 * s) - 2 * f2 c) (fun s => f3 (c + 1 * s) * 1 + f3 (c + -1 * s) * -1 - 0) (fun s => s * s / 2 * (2 * M)) (fun s => s * (2 * M)) s0 Hs0).
    - intros s _. apply (derivable_pt_lim_minus (fun s => f2 (c + 1 * s) + f2 (c + -1 * s)) (fun _ => 2 * f2 c)); [now apply even_lim|apply derivable_pt_lim_const].
    - intros s _. apply lim_sq_scal.
    - intros s Hs. replace (f3 (c + 1 * s) * 1 + f3 (c + -1 * s) * -1 - 0) with (f3 (c + 1 * s) - f3 (c + -1 * s)) by ring. apply G3. lra.
    - rewrite !Rmult_0_r, Rplus_0_r. ring.
    - field. }
  assert (G1 : forall s, 0 <= s -> Rabs (f1 (c + 1 * s) - f1 (c + -1 * s) - s * (2 * f2 c)) <= s * s * s / 6 * (2 * M)).
  { intros s0 Hs0. apply (grows (fun s => f1 (c + 1 * s) - f1 (c + -1 * s) - s * (2 * f2 c)) (fun s => f2 (c + 1 * s) * 1 - f2 (c + -1 * s) * -1 - 2 * f2 c) (fun s => s * s * s / 6 * (2 * M)) (fun s => s * s / 2 * (2 * M)) s0 Hs0).
    - intros s _. apply (derivable_pt_lim_minus (fun s => f1 (c + 1 * s) - f1 (c + -1 * s)) (fun s => s * (2 * f2 c))); [now apply odd_lim|apply lim_id_scal].
    - intros s _. apply lim_cube_scal.
    - intros s Hs. replace (f2 (c + 1 * s) * 1 - f2 (c + -1 * s) * -1 - 2 * f2 c) with (f2 (c + 1 * s) + f2 (c + -1 * s) - 2 * f2 c) by ring. apply G2. lra.
    - rewrite !Rmult_0_r, Rplus_0_r. ring.
    - field. }
  assert (G0 : Rabs (f (c + 1 * h) + f (c + -1 * h) - 2 * f c - h * h / 2 * (2 * f2 c)) <= h * h * h * h / 12 * M).
  { apply (grows (fun s => f (c + 1 * s) + f (c + -1 * s) - 2 * f c - s * s / 2 * (2 * f2 c)) (fun s => f1 (c + 1 * s) * 1 + f1 (c + -1 * s) * -1 - 0 - s * (2 * f2 c)) (fun s => s * s * s * s / 12 * M) (fun s => s * s * s / 6 * (2 * M)) h Hh).
    - intros s _. apply (derivable_pt_lim_minus (fun s => f (c + 1 * s) + f (c + -1 * s) - 2 * f c) (fun s => s * s / 2 * (2 * f2 c))); [|apply lim_sq_scal].
      apply (derivable_pt_lim_minus (fun s => f (c + 1 * s) + f (c + -1 * s)) (fun _ => 2 * f c)); [now apply even_lim|apply derivable_pt_lim_const].
    - intros s _. apply lim_fourth.
    - intros s Hs. replace (f1 (c + 1 * s) * 1 + f1 (c + -1 * s) * -1 - 0 - s * (2 * f2 c)) with (f1 (c + 1 * s) - f1 (c + -1 * s) - s * (2 * f2 c)) by ring. apply G1. lra.
    - rewrite !Rmult_0_r, Rplus_0_r. field.
    - field. }
  replace (c + 1 * h) with (c + h) in G0 by ring. replace (c + -1 * h) with (c - h) in G0 by ring.
  replace (f (c + h) - 2 * f c + f (c - h) - h * h * f2 c) with (f (c + h) + f (c - h) - 2 * f c - h * h / 2 * (2 * f2 c)) by field. exact G0.
Qed.
End T4.
Lemma smoother_second M3 M4 f f1 f2 c h : smoother M3 M4 f f1 f2 -> 0 < h -> Rabs ((f (c + h) - 2 * f c + f (c - h)) / (h * h) - f2 c) <= M4 * (h * h) / 12.
Proof.
  intros (f3 & f4 & D1 & D2 & D3 & D4 & B3 & B4) Hh. assert (X := second_difference f f1 f2 f3 f4 M4 D1 D2 D3 D4 B4 c h ltac:(lra)).
  assert (P : 0 < h * h) by (apply Rmult_lt_0_compat; lra).
  replace ((f (c + h) - 2 * f c + f (c - h)) / (h * h) - f2 c) with ((f (c + h) - 2 * f c + f (c - h) - h * h * f2 c) / (h * h)) by (field; lra).
  unfold Rdiv at 1. rewrite Rabs_mult, (Rabs_pos_eq (/ (h * h))) by (apply Rlt_le, Rinv_0_lt_compat; exact P).
  apply Rle_trans with (h * h * h * h / 12 * M4 * / (h * h)); [apply Rmult_le_compat_r; [apply Rlt_le, Rinv_0_lt_compat; exact P|exact X]|]. right. field. lra.
Qed.
Lemma smoother_first M3 M4 f f1 f2 c h : smoother M3 M4 f f1 f2 -> 0 < h -> Rabs ((f (c + h) - f (c - h)) / (2 * h) - f1 c) <= M3 * (h * h) / 6.
Proof.
  intros (f3 & f4 & D1 & D2 & D3 & D4 & B3 & B4) Hh.
  assert (X1 := taylor f f1 f2 f3 M3 D1 D2 D3 B3 c (c + h) h ltac:(rewrite Rabs_pos_eq; lra) ltac:(lra)).
  assert (X2 := taylor f f1 f2 f3 M3 D1 D2 D3 B3 c (c - h) h ltac:(rewrite Rabs_left1; lra) ltac:(lra)).
  replace (c + h - c) with h in X1 by ring. replace (c - h - c) with (- h) in X2 by ring.
  assert (X3 : Rabs (f (c + h) - f (c - h) - 2 * h * f1 c) <= h * h * h / 3 * M3).
  { apply Rabs_le. unfold Rabs in X1, X2. destruct (Rcase_abs _) in X1; destruct (Rcase_abs _) in X2; lra. }
  replace ((f (c + h) - f (c - h)) / (2 * h) - f1 c) with ((f (c + h) - f (c - h) - 2 * h * f1 c) * / (2 * h)) by (field; lra).
  assert (P : 0 < / (2 * h)) by (apply Rinv_0_lt_compat; lra).
  rewrite Rabs_mult, (Rabs_pos_eq (/ (2 * h))) by lra.
  apply Rle_trans with (h * h * h / 3 * M3 * / (2 * h)); [apply Rmult_le_compat_r; [lra|exact X3]|]. right. field. lra.
Qed.

Section Rect.
Variables (sqrt : Q -> Q) (junk : Z -> Z -> Z -> Q) (s : bool) (rs : list rect) (nx nz : Z) (Lz : Q).
Variables (vol : Z -> Z -> Z -> Q) (cX cZ : Z -> Z -> Z -> Q * Q) (j : nat) (r : rect).
Hypothesis Hs : root_like sqrt.
Hypothesis Hrs : forall r, In r rs -> rectangular nx nz Lz r.
Hypothesis Hnx : (4 <= nx)%Z.
Hypothesis Hnz : (3 <= nz)%Z.
Hypothesis HLz : (0 < Lz)%Q.
Hypothesis Hd : doit sqrt junk (map (fun r => of_rect r Lz) rs) s = Ok (vol, cX, cZ).
Hypothesis Hj : nth_error rs j = Some r.
Hypothesis Hp : proper_grid s r.
Notation J := (Z.of_nat j).
Notation h := (Q2R (r_dR r)).
Notation d := (Q2R (r_dZ r)).
Definition at_R (i : Z) : R := Q2R (r_Rmin r + inject_Z i * r_dR r)%Q.
Definition at_Z (k : Z) : R := Q2R (r_Zmin r + inject_Z k * r_dZ r)%Q.
(** nothing in a slab, the term of the major radius in a torus *)
Definition torus (x : R) : R := if s then 0 else x.

Lemma quotient f i k : (1 <= i < nx - 1)%Z -> (0 <= k < nz)%Z ->
  let a := Q2R (f (i + 1)%Z J k) in let b := Q2R (f i J k) in let c := Q2R (f (i - 1)%Z J k) in
  let u := Q2R (f i J ((k + 1) mod nz)%Z) in let v := Q2R (f i J ((k - 1) mod nz)%Z) in
  Q2R (apply_op nx nz cX cZ f i J k / vol i J k) = (a - 2 * b + c) / (h * h) + (u - 2 * b + v) / (d * d) + torus ((a - c) / (2 * h) / at_R i) /\
  0 < h /\ 0 < d /\ (s = false -> 0 < at_R i).
Proof.
  intros Hi Hk a b c u v. assert (PZ := dZ_positive rs nx nz Lz j r Hrs Hnz HLz Hj). destruct Hp as [PR PM].
  assert (PMi : (0 < major_radius s r (inject_Z i))%Q).
  { apply PM. rewrite (nx_r rs nx nz Lz j r Hrs Hnz Hj). assert (inject_Z 0 <= inject_Z i)%Q by (rewrite <- Zle_Qle; lia). assert (inject_Z i <= inject_Z (nx - 1))%Q by (rewrite <- Zle_Qle; lia). split; assumption. }
  assert (Ph : 0 < h) by (replace 0 with (Q2R 0) by apply RMicromega.Q2R_0; now apply Qlt_Rlt).
  assert (Pd : 0 < d) by (replace 0 with (Q2R 0) by apply RMicromega.Q2R_0; now apply Qlt_Rlt).
  assert (PRi : s = false -> 0 < at_R i).
  { intros E. unfold at_R. replace 0 with (Q2R 0) by apply RMicromega.Q2R_0. apply Qlt_Rlt. unfold major_radius in PMi. rewrite E in PMi. exact PMi. }
  split; [|split; [exact Ph|split; [exact Pd|exact PRi]]].
  assert (NR : ~ (r_dR r == 0)%Q) by (intros C; rewrite C in PR; apply (Qlt_irrefl 0 PR)).
  assert (NZ : ~ (r_dZ r == 0)%Q) by (intros C; rewrite C in PZ; apply (Qlt_irrefl 0 PZ)).
  assert (E : (apply_op nx nz cX cZ f i J k / vol i J k ==
     (f (i + 1)%Z J k - 2 * f i J k + f (i - 1)%Z J k) / (r_dR r * r_dR r) + (f i J ((k + 1) mod nz)%Z - 2 * f i J k + f i J ((k - 1) mod nz)%Z) / (r_dZ r * r_dZ r)
     + (if s then 0 else (f (i + 1)%Z J k - f (i - 1)%Z J k) / (2 * r_dR r) / (r_Rmin r + inject_Z i * r_dR r)))%Q).
  { rewrite (vol_at sqrt junk s rs nx nz Lz vol cX cZ j r Hs Hrs Hnx Hnz HLz Hd Hj i k Hi Hk).
    rewrite (op_at sqrt junk s rs nx nz Lz vol cX cZ j r Hs Hrs Hnx Hnz HLz Hd Hj f i k Hi Hk).
    unfold stencil, faceA, faceB. rewrite (mr_ext s r (inject_Z (i - 1) + (1 # 2))%Q (inject_Z i - (1 # 2))%Q) by (unfold Z.sub; rewrite inject_Z_plus; change (inject_Z (- (1))) with (-(1))%Q; ring).
    assert (NM : ~ (major_radius s r (inject_Z i) == 0)%Q) by (intros C; rewrite C in PMi; apply (Qlt_irrefl 0 PMi)).
    unfold major_radius in *. destruct s; field; repeat split; assumption. }
  rewrite (Qeq_eqR _ _ E). unfold torus, at_R, a, b, c, u, v.
  assert (NRR : ~ (r_dR r * r_dR r == 0)%Q) by (intros C; apply Qmult_integral in C; tauto). assert (NZZ : ~ (r_dZ r * r_dZ r == 0)%Q) by (intros C; apply Qmult_integral in C; tauto).
  assert (N2 : ~ (2 * r_dR r == 0)%Q) by (intros C; apply Qmult_integral in C; destruct C; [discriminate|tauto]).
  assert (Q2 : Q2R 2 = 2) by (unfold Q2R; cbn; lra).
  destruct s.
  - rewrite !Q2R_plus, !Q2R_div, !Q2R_plus, !Q2R_minus, !Q2R_mult, Q2, RMicromega.Q2R_0 by assumption. reflexivity.
  - rewrite Q2R_plus. rewrite (Q2R_div _ (r_Rmin r + _)%Q) by (unfold major_radius in PMi; intros C; rewrite C in PMi; apply (Qlt_irrefl 0 PMi)).
    rewrite !Q2R_plus, !Q2R_div, !Q2R_plus, !Q2R_minus, !Q2R_mult, Q2 by assumption. reflexivity.
Qed.
Lemma at_R_next i : at_R (i + 1) = at_R i + h /\ at_R (i - 1) = at_R i - h.
Proof.
  unfold at_R, Z.sub. rewrite !inject_Z_plus. change (inject_Z (- (1))) with (-(1))%Q. change (inject_Z 1) with 1%Q. rewrite !Q2R_plus, !Q2R_mult, !Q2R_plus.
  replace (Q2R 1) with 1 by (unfold Q2R; cbn; lra). replace (Q2R (- (1))) with (-1) by (unfold Q2R; cbn; lra). split; ring.
Qed.
Lemma around_Z (phi : R -> R -> R) x k : (forall x z, phi x (z + IZR nz * d) = phi x z) -> (0 <= k < nz)%Z ->
  phi x (at_Z ((k + 1) mod nz)) = phi x (at_Z k + d) /\ phi x (at_Z ((k - 1) mod nz)) = phi x (at_Z k - d).
Proof.
  intros P Hk.
  assert (L1 : forall k', at_Z k' = Q2R (r_Zmin r) + IZR k' * d) by (intros k'; unfold at_Z; rewrite Q2R_plus, Q2R_mult; f_equal; f_equal; unfold Q2R, inject_Z; cbn; lra).
  split.
  - destruct (mod_up nz Hnz k Hk) as [-> | [-> ->]].
    + f_equal. rewrite !L1, plus_IZR. ring.
    + rewrite <- (P x (at_Z 0)). f_equal. rewrite !L1, minus_IZR. ring.
  - destruct (mod_down nz Hnz k Hk) as [-> | [-> ->]].
    + f_equal. rewrite !L1, minus_IZR. ring.
    + rewrite <- (P x (at_Z 0 - d)). f_equal. rewrite !L1, minus_IZR. ring.
Qed.
Lemma near_quotient (t u e m : R) : Rabs (t - u) <= e -> 0 < m -> Rabs (t / m - u / m) <= e / m.
Proof.
  intros H P. assert (Pi : 0 < / m) by now apply Rinv_0_lt_compat. replace (t / m - u / m) with ((t - u) * / m) by (unfold Rdiv; ring).
  rewrite Rabs_mult, (Rabs_pos_eq (/ m)) by lra. unfold Rdiv. apply Rmult_le_compat_r; lra.
Qed.

Lemma second_order f phi px pxx pz pzz M3 M4 N3 N4 delta i k : (1 <= i < nx - 1)%Z -> (0 <= k < nz)%Z ->
  (forall z, smoother M3 M4 (fun x => phi x z) (fun x => px x z) (fun x => pxx x z)) -> (forall x, smoother N3 N4 (fun z => phi x z) (pz x) (pzz x)) ->
  (forall x z, phi x (z + IZR nz * d) = phi x z) ->
  (forall i' k', (0 <= i' < nx)%Z -> (0 <= k' < nz)%Z -> Rabs (Q2R (f i' J k') - phi (at_R i') (at_Z k')) <= delta) ->
  Rabs (Q2R (apply_op nx nz cX cZ f i J k / vol i J k) - (pxx (at_R i) (at_Z k) + pzz (at_R i) (at_Z k) + torus (px (at_R i) (at_Z k) / at_R i)))
    <= M4 * (h * h) / 12 + N4 * (d * d) / 12 + torus (M3 * (h * h) / 6 / at_R i) + (4 * delta / (h * h) + 4 * delta / (d * d) + torus (delta / h / at_R i)).
Proof.
  intros Hi Hk Sx Sz P V. destruct (quotient f i k Hi Hk) as (E & Ph & Pd & PRi). cbv zeta in E. rewrite E. clear E.
  destruct (at_R_next i) as [R1 R2]. destruct (around_Z phi (at_R i) k P Hk) as [Z1 Z2].
  assert (Pnz : (0 < nz)%Z) by lia.
  assert (Va := V (i + 1)%Z k ltac:(lia) Hk). assert (Vb := V i k ltac:(lia) Hk). assert (Vc := V (i - 1)%Z k ltac:(lia) Hk).
  assert (Vu := V i ((k + 1) mod nz)%Z ltac:(lia) (Z.mod_pos_bound _ _ Pnz)). assert (Vv := V i ((k - 1) mod nz)%Z ltac:(lia) (Z.mod_pos_bound _ _ Pnz)).
  rewrite R1 in Va. rewrite R2 in Vc. rewrite Z1 in Vu. rewrite Z2 in Vv. clear V.
  set (a := Q2R (f (i + 1)%Z J k)) in *. set (b := Q2R (f i J k)) in *. set (c := Q2R (f (i - 1)%Z J k)) in *. set (u := Q2R (f i J ((k + 1) mod nz)%Z)) in *. set (v := Q2R (f i J ((k - 1) mod nz)%Z)) in *.
  set (x := at_R i) in *. set (z := at_Z k) in *.
  assert (Phh : 0 < h * h) by (apply Rmult_lt_0_compat; lra). assert (Pdd : 0 < d * d) by (apply Rmult_lt_0_compat; lra).
  assert (T : forall p q e, Rabs (p - q) <= e -> q - e <= p <= q + e) by (intros p q e0 H; unfold Rabs in H; destruct (Rcase_abs _) in H; lra).
  assert (X1 : Rabs ((a - 2 * b + c) / (h * h) - pxx x z) <= 4 * delta / (h * h) + M4 * (h * h) / 12).
  { apply tri_R with ((phi (x + h) z - 2 * phi x z + phi (x - h) z) / (h * h)).
    - apply near_quotient; [|exact Phh]. apply T in Va, Vb, Vc. apply Rabs_le. lra.
    - exact (smoother_second _ _ _ _ _ x h (Sx z) Ph). }
  assert (X2 : Rabs ((u - 2 * b + v) / (d * d) - pzz x z) <= 4 * delta / (d * d) + N4 * (d * d) / 12).
  { apply tri_R with ((phi x (z + d) - 2 * phi x z + phi x (z - d)) / (d * d)).
    - apply near_quotient; [|exact Pdd]. apply T in Vu, Vb, Vv. apply Rabs_le. lra.
    - exact (smoother_second _ _ _ _ _ z d (Sz x) Pd). }
  assert (X3 : Rabs (torus ((a - c) / (2 * h) / x) - torus (px x z / x)) <= torus (delta / h / x) + torus (M3 * (h * h) / 6 / x)).
  { unfold torus. destruct s; [rewrite Rminus_0_r, Rabs_R0; lra|]. specialize (PRi eq_refl). 
    apply Rle_trans with ((delta / h + M3 * (h * h) / 6) / x); [|right; field; lra]. apply near_quotient; [|exact PRi].
    apply tri_R with ((phi (x + h) z - phi (x - h) z) / (2 * h)).
    - replace (delta / h) with (2 * delta / (2 * h)) by (field; lra). apply near_quotient; [|lra]. apply T in Va, Vc. apply Rabs_le. lra.
    - exact (smoother_first _ _ _ _ _ x h (Sx z) Ph). }
  apply T in X1, X2, X3. apply Rabs_le. lra.
Qed.
End Rect.

(** ** a field that fits *)
Lemma parabola c : smoother 0 0 (fun x => x * x + c) (fun x => 2 * x) (fun _ => 2).
Proof.
  exists (fun _ => 0), (fun _ => 0). split; [|split; [|split; [|split; [|split]]]]; intros t.
  - replace (2 * t) with (1 * t + t * 1 + 0) by ring. apply derivable_pt_lim_plus; [|apply derivable_pt_lim_const]. apply (derivable_pt_lim_mult id id); apply derivable_pt_lim_id.
  - assert (H := derivable_pt_lim_scal id 2 t 1 (derivable_pt_lim_id t)). rewrite Rmult_1_r in H. exact H.
  - apply derivable_pt_lim_const.
  - apply derivable_pt_lim_const.
  - rewrite Rabs_R0. lra.
  - rewrite Rabs_R0. lra.
Qed.
Lemma sin_w w a t : derivable_pt_lim (fun z => a * sin (w * z)) t (a * w * cos (w * t)).
Proof.
  replace (a * w * cos (w * t)) with (a * (cos (w * t) * (w * 1))) by ring. apply derivable_pt_lim_scal.
  apply (derivable_pt_lim_comp (fun z => w * z) sin); [apply (derivable_pt_lim_scal id w), derivable_pt_lim_id | apply derivable_pt_lim_sin].
Qed.
Lemma cos_w w a t : derivable_pt_lim (fun z => a * cos (w * z)) t (- (a * w) * sin (w * t)).
Proof.
  replace (- (a * w) * sin (w * t)) with (a * (- sin (w * t) * (w * 1))) by ring. apply derivable_pt_lim_scal.
  apply (derivable_pt_lim_comp (fun z => w * z) cos); [apply (derivable_pt_lim_scal id w), derivable_pt_lim_id | apply derivable_pt_lim_cos].
Qed.
Lemma unit_product a b : Rabs a <= 1 -> Rabs b <= 1 -> Rabs (a * b) <= 1.
Proof. intros A B. rewrite Rabs_mult. assert (X := Rabs_pos a). assert (Y := Rabs_pos b). replace 1 with (1 * 1) by ring. apply Rmult_le_compat; assumption. Qed.
Lemma wave w c : 0 <= w <= 1 -> smoother 1 1 (fun z => c + sin (w * z)) (fun z => w * cos (w * z)) (fun z => - (w * w) * sin (w * z)).
Proof.
  intros Hw. assert (W : Rabs w <= 1) by (rewrite Rabs_pos_eq; lra).
  assert (WS : forall t, Rabs (sin t) <= 1) by (intros t; destruct (SIN_bound t); unfold Rabs; destruct (Rcase_abs _); lra).
  assert (WC : forall t, Rabs (cos t) <= 1) by (intros t; destruct (COS_bound t); unfold Rabs; destruct (Rcase_abs _); lra).
  exists (fun z => - (w * w) * w * cos (w * z)), (fun z => - (- (w * w) * w * w) * sin (w * z)). split; [|split; [|split; [|split; [|split]]]]; intros t.
  - replace (w * cos (w * t)) with (0 + 1 * w * cos (w * t)) by ring. apply derivable_pt_lim_plus; [apply derivable_pt_lim_const|].
    intros e He. destruct (sin_w w 1 t e He) as [d0 H]. exists d0. intros u U V. replace (sin (w * (t + u)) - sin (w * t)) with (1 * sin (w * (t + u)) - 1 * sin (w * t)) by ring. now apply H.
  - apply cos_w.
  - apply sin_w.
  - apply cos_w.
  - apply unit_product; [|apply WC]. apply unit_product; [|exact W]. rewrite Rabs_Ropp. now apply unit_product.
  - apply unit_product; [|apply WS]. rewrite Rabs_Ropp. apply unit_product; [|exact W]. apply unit_product; [|exact W]. rewrite Rabs_Ropp. now apply unit_product.
Qed.
Lemma wave_period w T x z : w * T = 2 * PI -> x * x + sin (w * (z + T)) = x * x + sin (w * z).
Proof. intros E. f_equal. rewrite Rmult_plus_distr_l, E. rewrite sin_plus, sin_2PI, cos_2PI. ring. Qed.
