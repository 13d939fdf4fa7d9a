(** The order of the differences of diff.py on smooth functions. *)
From Coq Require Import List ZArith QArith Reals Qreals Lia Lra Bool.
From Verif Require Import Prelude PreludeFacts SmoothModel DiffModel DiffSpec DiffProofs DiffSmoothSpec RevAcc WeightsSmooth.
Import ListNotations.
Open Scope R_scope.

(** ** Taylor's theorem *)
Definition tp (a0 a1 a2 a3 a4 u : R) : R := a0 + u * a1 + u * u / 2 * a2 + u * u * u / 6 * a3 + u * u * u * u / 24 * a4.
Lemma lim_quart_scal c s : derivable_pt_lim (fun s => s * s * s * s / 24 * c) s (s * s * s / 6 * c).
Proof.
  apply (derivable_pt_lim_ext (fun s => c / 24 * ((s * s) * (s * s)))); [intros; field|]. replace (s * s * s / 6 * c) with (c / 24 * ((1 * s + s * 1) * (s * s) + (s * s) * (1 * s + s * 1))) by field.
  apply (derivable_pt_lim_scal (fun s => (s * s) * (s * s))). apply (derivable_pt_lim_mult (fun s => s * s) (fun s => s * s)); apply (derivable_pt_lim_mult (fun s => s) (fun s => s)); apply derivable_pt_lim_id.
Qed.
Lemma lim_fifth_scal c s : derivable_pt_lim (fun s => s * s * s * s * s / 120 * c) s (s * s * s * s / 24 * c).
Proof.
  apply (derivable_pt_lim_ext (fun s => s * s * s * s / 24 * (c / 5) * s)); [intros; field|]. replace (s * s * s * s / 24 * c) with (s * s * s / 6 * (c / 5) * s + s * s * s * s / 24 * (c / 5) * 1) by field.
  apply (derivable_pt_lim_mult (fun s => s * s * s * s / 24 * (c / 5)) (fun s => s)); [apply lim_quart_scal|apply derivable_pt_lim_id].
Qed.
Lemma tp_lim a0 a1 a2 a3 a4 u : derivable_pt_lim (tp a0 a1 a2 a3 a4) u (tp a1 a2 a3 a4 0 u).
Proof.
  unfold tp. replace (a1 + u * a2 + u * u / 2 * a3 + u * u * u / 6 * a4 + u * u * u * u / 24 * 0) with (0 + a1 + u * a2 + u * u / 2 * a3 + u * u * u / 6 * a4) by ring.
  apply (derivable_pt_lim_plus (fun u => a0 + u * a1 + u * u / 2 * a2 + u * u * u / 6 * a3) (fun u => u * u * u * u / 24 * a4)); [|apply lim_quart_scal].
  apply (derivable_pt_lim_plus (fun u => a0 + u * a1 + u * u / 2 * a2) (fun u => u * u * u / 6 * a3)); [|apply lim_cube_scal].
  apply (derivable_pt_lim_plus (fun u => a0 + u * a1) (fun u => u * u / 2 * a2)); [|apply lim_sq_scal].
  apply (derivable_pt_lim_plus (fun u => a0) (fun u => u * a1)); [apply derivable_pt_lim_const|apply lim_id_scal].
Qed.
Lemma up g g' a0 a1 a2 a3 a4 F F' c a : a * a = 1 -> (forall t, derivable_pt_lim g t (g' t)) -> g c = a0 -> (forall s, derivable_pt_lim F s (F' s)) -> F 0 = 0 ->
  (forall s, 0 <= s -> Rabs (g' (c + a * s) - tp a1 a2 a3 a4 0 (a * s)) <= F' s) -> forall s, 0 <= s -> Rabs (g (c + a * s) - tp a0 a1 a2 a3 a4 (a * s)) <= F s.
Proof.
  intros Ha D E0 DF F0 B s0 Hs0. assert (A1 : Rabs a <= 1) by (apply Rabs_le; split; nra).
  apply (grows (fun s => g (c + a * s) - tp a0 a1 a2 a3 a4 (a * s)) (fun s => g' (c + a * s) * a - tp a1 a2 a3 a4 0 (a * s) * a) F F' s0 Hs0).
  - intros s _. apply (derivable_pt_lim_minus (fun s => g (c + a * s)) (fun s => tp a0 a1 a2 a3 a4 (a * s))); [now apply turn_lim|].
    assert (X := turn_lim (tp a0 a1 a2 a3 a4) (tp a1 a2 a3 a4 0) 0 a s (tp_lim a0 a1 a2 a3 a4)). rewrite Rplus_0_l in X.
    apply (derivable_pt_lim_ext (fun s => tp a0 a1 a2 a3 a4 (0 + a * s))); [intros t; now rewrite Rplus_0_l|exact X].
  - intros s _. apply DF.
  - intros s [Hs _]. rewrite <- Rmult_minus_distr_r, Rabs_mult. assert (X := B s Hs). assert (Y := Rabs_pos (g' (c + a * s) - tp a1 a2 a3 a4 0 (a * s))). assert (0 <= Rabs a) by apply Rabs_pos. nra.
  - rewrite Rmult_0_r, Rplus_0_r, E0. unfold tp. field.
  - exact F0.
Qed.
Lemma taylor5 M5 f f1 c : fifth M5 f f1 -> exists a2 a3 a4, forall a s, a * a = 1 -> 0 <= s -> Rabs (f (c + a * s) - tp (f c) (f1 c) a2 a3 a4 (a * s)) <= s * s * s * s * s / 120 * M5.
Proof.
  intros (f2 & f3 & f4 & f5 & D1 & D2 & D3 & D4 & D5 & B). exists (f2 c), (f3 c), (f4 c). intros a s Ha Hs. revert s Hs.
  apply (up f f1 (f c) (f1 c) (f2 c) (f3 c) (f4 c) (fun s => s * s * s * s * s / 120 * M5) (fun s => s * s * s * s / 24 * M5) c a Ha D1 eq_refl (lim_fifth_scal M5)); [field|].
  apply (up f1 f2 (f1 c) (f2 c) (f3 c) (f4 c) 0 (fun s => s * s * s * s / 24 * M5) (fun s => s * s * s / 6 * M5) c a Ha D2 eq_refl (lim_quart_scal M5)); [field|].
  apply (up f2 f3 (f2 c) (f3 c) (f4 c) 0 0 (fun s => s * s * s / 6 * M5) (fun s => s * s / 2 * M5) c a Ha D3 eq_refl (lim_cube_scal M5)); [field|].
  apply (up f3 f4 (f3 c) (f4 c) 0 0 0 (fun s => s * s / 2 * M5) (fun s => s * M5) c a Ha D4 eq_refl (lim_sq_scal M5)); [field|].
  apply (up f4 f5 (f4 c) 0 0 0 0 (fun s => s * M5) (fun s => M5) c a Ha D5 eq_refl (lim_id_scal M5)); [ring|].
  intros s _. replace (f5 (c + a * s) - tp 0 0 0 0 0 (a * s)) with (f5 (c + a * s)) by (unfold tp; field). apply B.
Qed.
Lemma two_sides x y e : Rabs (x - y) <= e -> y - e <= x <= y + e.
Proof. intros H. unfold Rabs in H. destruct (Rcase_abs _) in H; lra. Qed.
Lemma from_sides x y e : y - e <= x <= y + e -> Rabs (x - y) <= e.
Proof. intros H. apply Rabs_le. lra. Qed.

(** ** second order *)
Lemma central f f1 M2 M3 c h : third M2 M3 f f1 -> 0 < h -> Rabs ((f (c + h) - f (c - h)) / 2 - h * f1 c) <= M3 * (h * h * h) / 6.
Proof.
  intros (f2 & f3 & D1 & D2 & D3 & _ & B3) Hh.
  assert (X1 := taylor_dir f f1 f2 f3 M3 D1 D2 D3 B3 c 1 h ltac:(ring) ltac:(lra)). assert (X2 := taylor_dir f f1 f2 f3 M3 D1 D2 D3 B3 c (-1) h ltac:(ring) ltac:(lra)). apply two_sides in X1. apply two_sides in X2.
  replace (c + 1 * h) with (c + h) in X1 by ring. replace (c + -1 * h) with (c - h) in X2 by ring. apply from_sides. lra.
Qed.
Lemma slope_change f f1 M2 M3 c d : third M2 M3 f f1 -> Rabs (f1 d - f1 c) <= M2 * Rabs (d - c).
Proof.
  intros (f2 & f3 & D1 & D2 & D3 & B2 & _).
  assert (K : forall c d, c <= d -> Rabs (f1 d - f1 c) <= M2 * Rabs (d - c)).
  { intros c0 d0 H. destruct (Req_dec c0 d0) as [->|N]; [rewrite !Rminus_diag_eq, Rabs_R0 by reflexivity; lra|].
    destruct (MVT_cor2 f1 f2 c0 d0 ltac:(lra)) as (x & E & _); [intros; apply D2|]. rewrite E, Rabs_mult. apply Rmult_le_compat_r; [apply Rabs_pos|apply B2]. }
  destruct (Rle_dec c d) as [H|H]; [now apply K|]. rewrite (Rabs_minus_sym (f1 d)), (Rabs_minus_sym d). apply K. lra.
Qed.
Section Two.
Variables (l : list Q) (f f1 : R -> R) (x0 h delta M2 M3 : R).
Hypothesis S3 : third M2 M3 f f1.
Hypothesis Hh : 0 < h.
Hypothesis V : samples l f x0 h delta.
Notation x i := (x0 + IZR i * h).
Lemma half_difference q u v i : (q == (u - v) / 2)%Q -> Rabs (Q2R u - f (x (i + 1))) <= delta -> Rabs (Q2R v - f (x (i - 1))) <= delta -> Rabs (Q2R q - h * f1 (x i)) <= M3 * (h * h * h) / 6 + delta.
Proof.
  intros E U W. rewrite (Qeq_eqR _ _ E), Q2R_div, Q2R_minus by discriminate. replace (Q2R 2) with 2 by (unfold Q2R; cbn; lra).
  assert (C := two_sides _ _ _ (central f f1 M2 M3 (x i) h S3 Hh)). replace (x i + h) with (x (i + 1)) in C by (rewrite plus_IZR; ring). replace (x i - h) with (x (i - 1)) in C by (rewrite minus_IZR; ring).
  apply two_sides in U. apply two_sides in W. apply from_sides. lra.
Qed.
Lemma c2_smooth junk : (3 <= len l)%Z -> exists out, c2 junk l = Ok out /\ len out = len l /\
  (forall i, (0 < i < len l - 1)%Z -> Rabs (Q2R (at_ out i) - h * f1 (x i)) <= M3 * (h * h * h) / 6 + delta) /\
  (forall i, (i = 0 \/ i = len l - 1)%Z -> Rabs (Q2R (at_ out i) - h * f1 (x i)) <= M2 * (h * h) + M3 * (h * h * h) / 6 + delta).
Proof.
  intros Hn. destruct (c2_spec junk l Hn) as (out & E & L & N). exists out. split; [exact E|]. split; [exact L|]. split.
  - intros i Hi. assert (Ni := N i ltac:(lia)). rewrite (proj2 (Z.eqb_neq i 0)), (proj2 (Z.eqb_neq i (len l - 1))) in Ni by lia.
    apply (half_difference _ _ _ i Ni); apply V; lia.
  - intros i [-> | ->].
    + assert (Ni := N 0%Z ltac:(lia)). cbn [Z.eqb] in Ni. assert (A := two_sides _ _ _ (half_difference _ _ _ 1%Z Ni (V 2%Z ltac:(lia)) (V 0%Z ltac:(lia)))).
      assert (B := slope_change f f1 M2 M3 (x 0) (x 1) S3). replace (x 1 - x 0) with h in B by ring. rewrite (Rabs_pos_eq h) in B by lra. apply two_sides in B. apply from_sides. nra.
    + assert (Ni := N (len l - 1)%Z ltac:(lia)). rewrite (proj2 (Z.eqb_neq (len l - 1) 0)), Z.eqb_refl in Ni by lia.
      assert (V1 := V (len l - 1)%Z ltac:(lia)). assert (V3 := V (len l - 3)%Z ltac:(lia)).
      replace (x (len l - 1)) with (x (len l - 2 + 1)) in V1 by (f_equal; f_equal; f_equal; lia). replace (x (len l - 3)) with (x (len l - 2 - 1)) in V3 by (f_equal; f_equal; f_equal; lia).
      assert (A := two_sides _ _ _ (half_difference _ _ _ (len l - 2)%Z Ni V1 V3)).
      assert (B := slope_change f f1 M2 M3 (x (len l - 1)) (x (len l - 2)) S3). replace (x (len l - 2) - x (len l - 1)) with (- h) in B by (rewrite !minus_IZR; ring).
      rewrite Rabs_Ropp, (Rabs_pos_eq h) in B by lra. apply two_sides in B. apply from_sides. nra.
Qed.
End Two.

(** ** around a period *)
Lemma period_Z (f : R -> R) T k : (forall t, f (t + T) = f t) -> forall t, f (t + IZR k * T) = f t.
Proof.
  intros P. assert (K : forall n t, f (t + IZR (Z.of_nat n) * T) = f t).
  { induction n as [|n IH]; intros t; [f_equal; cbn; ring|]. rewrite Nat2Z.inj_succ, <- Z.add_1_r, plus_IZR. transitivity (f (t + IZR (Z.of_nat n) * T + T)); [f_equal; ring|]. rewrite P. apply IH. }
  intros t. destruct (Z_le_dec 0 k) as [H|H].
  - rewrite <- (Z2Nat.id k H). apply K.
  - rewrite <- (K (Z.to_nat (- k)) (t + IZR k * T)). f_equal. rewrite Z2Nat.id, opp_IZR by lia. ring.
Qed.
Lemma sample_around l f x0 h delta i : samples l f x0 h delta -> (0 < len l)%Z -> (forall t, f (t + IZR (len l) * h) = f t) ->
  Rabs (Q2R (at_ l (i mod len l)) - f (x0 + IZR i * h)) <= delta.
Proof.
  intros V Hn P. assert (B := Z.mod_pos_bound i (len l) Hn). assert (A := V _ B).
  replace (f (x0 + IZR i * h)) with (f (x0 + IZR (i mod len l) * h)); [exact A|].
  rewrite <- (period_Z f (IZR (len l) * h) (i / len l) P (x0 + IZR (i mod len l) * h)). f_equal.
  rewrite (Z.div_mod i (len l)) at 3 by lia. rewrite plus_IZR, mult_IZR. ring.
Qed.
Lemma c2_periodic_smooth l f f1 x0 h delta M2 M3 i : third M2 M3 f f1 -> 0 < h -> samples l f x0 h delta -> (forall t, f (t + IZR (len l) * h) = f t) -> (0 <= i < len l)%Z ->
  Rabs (Q2R (at_ (c2_periodic l) i) - h * f1 (x0 + IZR i * h)) <= M3 * (h * h * h) / 6 + delta.
Proof.
  intros S3 Hh V P Hi. destruct (c2_periodic_ok l) as (_ & _ & N). assert (Hn : (0 < len l)%Z) by lia.
  apply (half_difference f f1 x0 h delta M2 M3 S3 Hh _ _ _ i (N i Hi)); now apply sample_around.
Qed.

(** ** fourth order *)
Section Four.
Variables (f f1 : R -> R) (h delta M5 : R).
Hypothesis S5 : fifth M5 f f1.
Hypothesis Hh : 0 < h.
Lemma middle q a b c d x : (q == (- a + 8 * b - 8 * c + d) / 12)%Q -> Rabs (Q2R a - f (x + 2 * h)) <= delta -> Rabs (Q2R b - f (x + h)) <= delta ->
  Rabs (Q2R c - f (x - h)) <= delta -> Rabs (Q2R d - f (x - 2 * h)) <= delta -> Rabs (Q2R q - h * f1 x) <= M5 * (h * h * h * h * h) / 18 + 3 / 2 * delta.
Proof.
  intros E A B C D. destruct (taylor5 M5 f f1 x S5) as (a2 & a3 & a4 & T).
  assert (T2 := T 1 (2 * h) ltac:(ring) ltac:(lra)). assert (T1 := T 1 h ltac:(ring) ltac:(lra)). assert (U1 := T (-1) h ltac:(ring) ltac:(lra)). assert (U2 := T (-1) (2 * h) ltac:(ring) ltac:(lra)).
  replace (x + 1 * (2 * h)) with (x + 2 * h) in T2 by ring. replace (x + 1 * h) with (x + h) in T1 by ring. replace (x + -1 * h) with (x - h) in U1 by ring. replace (x + -1 * (2 * h)) with (x - 2 * h) in U2 by ring.
  rewrite (Qeq_eqR _ _ E), Q2R_div, Q2R_plus, Q2R_minus, Q2R_plus, !Q2R_mult, Q2R_opp by discriminate. replace (Q2R 8) with 8 by (unfold Q2R; cbn; lra). replace (Q2R 12) with 12 by (unfold Q2R; cbn; lra).
  apply two_sides in A. apply two_sides in B. apply two_sides in C. apply two_sides in D. apply two_sides in T1. apply two_sides in T2. apply two_sides in U1. apply two_sides in U2. unfold tp in *. apply from_sides. lra.
Qed.
(** the four places at the ends; [B] bounds the data *)
Variable (B : R).
Definition slack : R := B / 15000000000000000.
Definition near (q : Q) (t : R) : Prop := Rabs (Q2R q - f t) <= delta /\ Rabs (Q2R q) <= B.
Ltac start E := rewrite E; unfold d20833, d208333, d13333, d83333, d08333.
Lemma one_sided a sg v0 v1 v2 v3 v4 x : sg * sg = 1 -> Rabs (a - 25 / 12) <= 1 / 30000000000000000 ->
  near v0 x -> near v1 (x + sg * h) -> near v2 (x + sg * (2 * h)) -> near v3 (x + sg * (3 * h)) -> near v4 (x + sg * (4 * h)) ->
  Rabs (sg * (- a * Q2R v0 + 4 * Q2R v1 - 3 * Q2R v2 + 13333333333333333 / 10000000000000000 * Q2R v3 - 1 / 4 * Q2R v4) - h * f1 x) <= M5 * (h * h * h * h * h) * 17 / 3 + 32 / 3 * delta + slack.
Proof.
  intros Hs Ha [N0 B0] [N1 _] [N2 _] [N3 B3] [N4 _]. destruct (taylor5 M5 f f1 x S5) as (a2 & a3 & a4 & T).
  assert (T1 := two_sides _ _ _ (T sg h Hs ltac:(lra))). assert (T2 := two_sides _ _ _ (T sg (2 * h) Hs ltac:(lra))). assert (T3 := two_sides _ _ _ (T sg (3 * h) Hs ltac:(lra))). assert (T4 := two_sides _ _ _ (T sg (4 * h) Hs ltac:(lra))). clear T.
  assert (A0 : Rabs ((a - 25 / 12) * Q2R v0) <= B / 30000000000000000).
  { rewrite Rabs_mult. assert (X := Rabs_pos (a - 25 / 12)). assert (Y := Rabs_pos (Q2R v0)). apply Rle_trans with (1 / 30000000000000000 * B); [apply Rmult_le_compat; assumption|lra]. }
  assert (A0' : - (B / 30000000000000000) <= (a - 25 / 12) * Q2R v0 <= B / 30000000000000000) by (unfold Rabs in A0; destruct (Rcase_abs _) in A0; lra).
  assert (A3 : - B <= Q2R v3 <= B) by (unfold Rabs in B3; destruct (Rcase_abs _) in B3; lra).
  set (r0 := (a - 25 / 12) * Q2R v0) in *.
  set (w := - a * Q2R v0 + 4 * Q2R v1 - 3 * Q2R v2 + 13333333333333333 / 10000000000000000 * Q2R v3 - 1 / 4 * Q2R v4).
  assert (W : w = - (25 / 12) * Q2R v0 - r0 + 4 * Q2R v1 - 3 * Q2R v2 + 13333333333333333 / 10000000000000000 * Q2R v3 - 1 / 4 * Q2R v4) by (unfold w, r0; ring). clearbody w r0.
  apply two_sides in N0. apply two_sides in N1. apply two_sides in N2. apply two_sides in N3. apply two_sides in N4.
  assert (G : Rabs (w - sg * (h * f1 x)) <= M5 * (h * h * h * h * h) * 17 / 3 + 32 / 3 * delta + slack).
  { assert (C : sg = 1 \/ sg = -1) by (assert ((sg - 1) * (sg + 1) = 0) as Z0 by (ring_simplify; lra); apply Rmult_integral in Z0; destruct Z0; [left|right]; lra).
    unfold tp, slack in *. apply from_sides. destruct C as [-> | ->]; lra. }
  replace (sg * w - h * f1 x) with (sg * (w - sg * (h * f1 x))) by (transitivity (sg * w - sg * sg * (h * f1 x)); [ring|rewrite Hs; ring]).
  rewrite Rabs_mult. replace (Rabs sg) with 1; [lra|]. assert (Q1 : Rabs sg * Rabs sg = 1) by (rewrite <- Rabs_mult, Hs; apply Rabs_R1). assert (Q2 := Rabs_pos sg). nra.
Qed.
Lemma next_to_end sg v0 v1 v2 v3 v4 x : sg * sg = 1 ->
  near v0 (x + - sg * h) -> near v1 x -> near v2 (x + sg * h) -> near v3 (x + sg * (2 * h)) -> near v4 (x + sg * (3 * h)) ->
  Rabs (sg * (- (1 / 4) * Q2R v0 - 83333333333333333 / 100000000000000000 * Q2R v1 + 3 / 2 * Q2R v2 - 1 / 2 * Q2R v3 + 83333333333333333 / 1000000000000000000 * Q2R v4) - h * f1 x) <= M5 * (h * h * h * h * h) * 19 / 60 + 19 / 6 * delta + slack.
Proof.
  intros Hs [N0 _] [N1 B1] [N2 _] [N3 _] [N4 B4]. destruct (taylor5 M5 f f1 x S5) as (a2 & a3 & a4 & T).
  assert (T0 := two_sides _ _ _ (T (- sg) h ltac:(rewrite Rmult_opp_opp; exact Hs) ltac:(lra))).
  assert (T2 := two_sides _ _ _ (T sg h Hs ltac:(lra))). assert (T3 := two_sides _ _ _ (T sg (2 * h) Hs ltac:(lra))). assert (T4 := two_sides _ _ _ (T sg (3 * h) Hs ltac:(lra))). clear T.
  assert (A1 : - B <= Q2R v1 <= B) by (unfold Rabs in B1; destruct (Rcase_abs _) in B1; lra).
  assert (A4 : - B <= Q2R v4 <= B) by (unfold Rabs in B4; destruct (Rcase_abs _) in B4; lra).
  set (w := - (1 / 4) * Q2R v0 - 83333333333333333 / 100000000000000000 * Q2R v1 + 3 / 2 * Q2R v2 - 1 / 2 * Q2R v3 + 83333333333333333 / 1000000000000000000 * Q2R v4) in *.
  assert (W : w = - (1 / 4) * Q2R v0 - 83333333333333333 / 100000000000000000 * Q2R v1 + 3 / 2 * Q2R v2 - 1 / 2 * Q2R v3 + 83333333333333333 / 1000000000000000000 * Q2R v4) by reflexivity. clearbody w.
  apply two_sides in N0. apply two_sides in N1. apply two_sides in N2. apply two_sides in N3. apply two_sides in N4.
  assert (G : Rabs (w - sg * (h * f1 x)) <= M5 * (h * h * h * h * h) * 19 / 60 + 19 / 6 * delta + slack).
  { assert (C : sg = 1 \/ sg = -1) by (assert ((sg - 1) * (sg + 1) = 0) as Z0 by (ring_simplify; lra); apply Rmult_integral in Z0; destruct Z0; [left|right]; lra).
    unfold tp, slack in *. apply from_sides. destruct C as [-> | ->]; lra. }
  replace (sg * w - h * f1 x) with (sg * (w - sg * (h * f1 x))) by (transitivity (sg * w - sg * sg * (h * f1 x)); [ring|rewrite Hs; ring]).
  rewrite Rabs_mult. replace (Rabs sg) with 1; [lra|]. assert (Q1 : Rabs sg * Rabs sg = 1) by (rewrite <- Rabs_mult, Hs; apply Rabs_R1). assert (Q2 := Rabs_pos sg). nra.
Qed.
End Four.

Lemma eq_Qeq (a b : Q) : a = b -> (a == b)%Q.
Proof. now intros ->. Qed.
Lemma Q2R_num n d : Q2R (n # d) = IZR n / IZR (Zpos d).
Proof. reflexivity. Qed.
Ltac wnum := unfold wsum, c4_first, c4_second, c4_before_last, c4_last, d20833, d208333, d13333, d83333, d08333; cbn [fold_left fst snd];
  rewrite !Q2R_plus, !Q2R_mult, ?Q2R_opp, !Q2R_num.
Lemma wsum_first l b : Q2R (wsum l b c4_first) = 1 * (- (20833333333333333 / 10000000000000000) * Q2R (at_ l (b + 0)) + 4 * Q2R (at_ l (b + 1)) - 3 * Q2R (at_ l (b + 2)) + 13333333333333333 / 10000000000000000 * Q2R (at_ l (b + 3)) - 1 / 4 * Q2R (at_ l (b + 4))).
Proof. wnum. field. Qed.
Lemma wsum_last l b : Q2R (wsum l b c4_last) = -1 * (- (208333333333333333 / 100000000000000000) * Q2R (at_ l (b + 0)) + 4 * Q2R (at_ l (b + -1)) - 3 * Q2R (at_ l (b + -2)) + 13333333333333333 / 10000000000000000 * Q2R (at_ l (b + -3)) - 1 / 4 * Q2R (at_ l (b + -4))).
Proof. wnum. field. Qed.
Lemma wsum_second l b : Q2R (wsum l b c4_second) = 1 * (- (1 / 4) * Q2R (at_ l (b + -1)) - 83333333333333333 / 100000000000000000 * Q2R (at_ l (b + 0)) + 3 / 2 * Q2R (at_ l (b + 1)) - 1 / 2 * Q2R (at_ l (b + 2)) + 83333333333333333 / 1000000000000000000 * Q2R (at_ l (b + 3))).
Proof. wnum. field. Qed.
Lemma wsum_before l b : Q2R (wsum l b c4_before_last) = -1 * (- (1 / 4) * Q2R (at_ l (b + 1)) - 83333333333333333 / 100000000000000000 * Q2R (at_ l (b + 0)) + 3 / 2 * Q2R (at_ l (b + -1)) - 1 / 2 * Q2R (at_ l (b + -2)) + 83333333333333333 / 1000000000000000000 * Q2R (at_ l (b + -3))).
Proof. wnum. field. Qed.

Section C4.
Variables (l : list Q) (f f1 : R -> R) (x0 h delta M5 B : R).
Hypothesis S5 : fifth M5 f f1.
Hypothesis Hh : 0 < h.
Hypothesis V : samples l f x0 h delta.
Hypothesis Hb : forall i, (0 <= i < len l)%Z -> Rabs (Q2R (at_ l i)) <= B.
Notation x i := (x0 + IZR i * h).
Lemma near_at i k u : (0 <= i + k < len l)%Z -> u = IZR k * h -> near f delta B (at_ l (i + k)) (x i + u).
Proof.
  intros Hi ->. split; [|now apply Hb]. replace (x i + IZR k * h) with (x (i + k)) by (rewrite plus_IZR; ring). now apply V.
Qed.
Lemma near_at0 i : (0 <= i < len l)%Z -> near f delta B (at_ l (i + 0)) (x i).
Proof. intros Hi. replace (x i) with (x i + 0) by ring. apply near_at; [lia|ring]. Qed.
Lemma c4_smooth junk : (5 <= len l)%Z -> exists out, c4 junk l = Ok out /\ len out = len l /\
  (forall i, (2 <= i < len l - 2)%Z -> Rabs (Q2R (at_ out i) - h * f1 (x i)) <= M5 * (h * h * h * h * h) / 18 + 3 / 2 * delta) /\
  (forall i, (i = 1 \/ i = len l - 2)%Z -> Rabs (Q2R (at_ out i) - h * f1 (x i)) <= M5 * (h * h * h * h * h) * 19 / 60 + 19 / 6 * delta + B / 15000000000000000) /\
  (forall i, (i = 0 \/ i = len l - 1)%Z -> Rabs (Q2R (at_ out i) - h * f1 (x i)) <= M5 * (h * h * h * h * h) * 17 / 3 + 32 / 3 * delta + B / 15000000000000000).
Proof.
  intros Hn. destruct (c4_spec junk l Hn) as (out & E & L & N). exists out. split; [exact E|]. split; [exact L|]. split; [|split].
  - intros i Hi. assert (Ni := N i ltac:(lia)). rewrite (proj2 (Z.eqb_neq i 0)), (proj2 (Z.eqb_neq i 1)), (proj2 (Z.eqb_neq i (len l - 2))), (proj2 (Z.eqb_neq i (len l - 1))) in Ni by lia.
    assert (A2 := V (i + 2)%Z ltac:(lia)). assert (A1 := V (i + 1)%Z ltac:(lia)). assert (D1 := V (i - 1)%Z ltac:(lia)). assert (D2 := V (i - 2)%Z ltac:(lia)).
    apply (middle f f1 h delta M5 S5 Hh _ _ _ _ _ (x i) (eq_Qeq _ _ Ni)).
    + replace (x i + 2 * h) with (x (i + 2)) by (rewrite plus_IZR; ring). exact A2.
    + replace (x i + h) with (x (i + 1)) by (rewrite plus_IZR; ring). exact A1.
    + replace (x i - h) with (x (i - 1)) by (rewrite minus_IZR; ring). exact D1.
    + replace (x i - 2 * h) with (x (i - 2)) by (rewrite minus_IZR; ring). exact D2.
  - intros i [-> | ->].
    + assert (Ni := N 1%Z ltac:(lia)). cbn [Z.eqb Pos.eqb] in Ni. rewrite Ni, wsum_second.
      apply (next_to_end f f1 h delta M5 S5 Hh B 1); [ring| | | | |].
      * apply near_at; [lia|lra].
      * apply near_at0; lia.
      * apply near_at; [lia|lra].
      * apply near_at; [lia|lra].
      * apply near_at; [lia|lra].
    + assert (Ni := N (len l - 2)%Z ltac:(lia)). rewrite (proj2 (Z.eqb_neq (len l - 2) 0)), (proj2 (Z.eqb_neq (len l - 2) 1)), Z.eqb_refl in Ni by lia. rewrite Ni, wsum_before.
      apply (next_to_end f f1 h delta M5 S5 Hh B (-1)); [ring| | | | |].
      * apply near_at; [lia|lra].
      * apply near_at0; lia.
      * apply near_at; [lia|lra].
      * apply near_at; [lia|lra].
      * apply near_at; [lia|lra].
  - intros i [-> | ->].
    + assert (Ni := N 0%Z ltac:(lia)). cbn [Z.eqb] in Ni. rewrite Ni, wsum_first.
      apply (one_sided f f1 h delta M5 S5 Hh B _ 1); [ring|apply Rabs_le; lra| | | | |].
      * apply near_at0; lia.
      * apply near_at; [lia|lra].
      * apply near_at; [lia|lra].
      * apply near_at; [lia|lra].
      * apply near_at; [lia|lra].
    + assert (Ni := N (len l - 1)%Z ltac:(lia)). rewrite (proj2 (Z.eqb_neq (len l - 1) 0)), (proj2 (Z.eqb_neq (len l - 1) 1)), (proj2 (Z.eqb_neq (len l - 1) (len l - 2))), Z.eqb_refl in Ni by lia. rewrite Ni, wsum_last.
      apply (one_sided f f1 h delta M5 S5 Hh B _ (-1)); [ring|apply Rabs_le; lra| | | | |].
      * apply near_at0; lia.
      * apply near_at; [lia|lra].
      * apply near_at; [lia|lra].
      * apply near_at; [lia|lra].
      * apply near_at; [lia|lra].
Qed.
End C4.
Lemma c4_periodic_smooth l f f1 x0 h delta M5 i : fifth M5 f f1 -> 0 < h -> samples l f x0 h delta -> (forall t, f (t + IZR (len l) * h) = f t) -> (0 <= i < len l)%Z ->
  Rabs (Q2R (at_ (c4_periodic l) i) - h * f1 (x0 + IZR i * h)) <= M5 * (h * h * h * h * h) / 18 + 3 / 2 * delta.
Proof.
  intros S5 Hh V P Hi. destruct (c4_periodic_ok l) as (_ & _ & N). assert (Hn : (0 < len l)%Z) by lia.
  apply (middle f f1 h delta M5 S5 Hh _ _ _ _ _ (x0 + IZR i * h) (N i Hi)).
  - replace (x0 + IZR i * h + 2 * h) with (x0 + IZR (i + 2) * h) by (rewrite plus_IZR; ring). now apply sample_around.
  - replace (x0 + IZR i * h + h) with (x0 + IZR (i + 1) * h) by (rewrite plus_IZR; ring). now apply sample_around.
  - replace (x0 + IZR i * h - h) with (x0 + IZR (i - 1) * h) by (rewrite minus_IZR; ring). now apply sample_around.
  - replace (x0 + IZR i * h - 2 * h) with (x0 + IZR (i - 2) * h) by (rewrite minus_IZR; ring). now apply sample_around.
Qed.

(** ** the sine fits *)
Lemma sine_third : third 1 1 sin cos.
Proof.
  assert (S1 : forall t, Rabs (sin t) <= 1) by (intros t; destruct (SIN_bound t); apply Rabs_le; lra). assert (C1 : forall t, Rabs (cos t) <= 1) by (intros t; destruct (COS_bound t); apply Rabs_le; lra).
  exists (fun t => - sin t), (fun t => - cos t). split; [|split; [|split; [|split]]]; intros t.
  - apply derivable_pt_lim_sin.
  - apply derivable_pt_lim_cos.
  - apply (derivable_pt_lim_opp sin), derivable_pt_lim_sin.
  - rewrite Rabs_Ropp. apply S1.
  - rewrite Rabs_Ropp. apply C1.
Qed.
Lemma sine_fifth : fifth 1 sin cos.
Proof.
  exists (fun t => - sin t), (fun t => - cos t), (fun t => - - sin t), (fun t => - - cos t). split; [|split; [|split; [|split; [|split]]]]; intros t.
  - apply derivable_pt_lim_sin.
  - apply derivable_pt_lim_cos.
  - apply (derivable_pt_lim_opp sin), derivable_pt_lim_sin.
  - apply (derivable_pt_lim_opp cos), derivable_pt_lim_cos.
  - apply (derivable_pt_lim_opp (fun t => - sin t)). apply (derivable_pt_lim_opp sin), derivable_pt_lim_sin.
  - destruct (COS_bound t). apply Rabs_le. lra.
Qed.
Definition four : list Q := [0; 1; 0; - (1)]%Q.
Lemma four_samples : samples four sin 0 (PI / 2) 0 /\ (forall t, sin (t + IZR (len four) * (PI / 2)) = sin t).
Proof.
  split.
  - intros i Hi. change (len four) with 4%Z in Hi. assert (C : (i = 0 \/ i = 1 \/ i = 2 \/ i = 3)%Z) by lia. destruct C as [-> | [-> | [-> | ->]]].
    + replace (0 + 0 * (PI / 2)) with 0 by ring. rewrite sin_0. change (at_ four 0) with 0%Q. replace (Q2R 0%Q) with (0) by (unfold Q2R; cbn; lra). rewrite Rminus_diag_eq, Rabs_R0 by reflexivity. lra.
    + replace (0 + 1 * (PI / 2)) with (PI / 2) by ring. rewrite sin_PI2. change (at_ four 1) with 1%Q. replace (Q2R 1%Q) with (1) by (unfold Q2R; cbn; lra). rewrite Rminus_diag_eq, Rabs_R0 by reflexivity. lra.
    + replace (0 + 2 * (PI / 2)) with PI by field. rewrite sin_PI. change (at_ four 2) with 0%Q. replace (Q2R 0%Q) with (0) by (unfold Q2R; cbn; lra). rewrite Rminus_diag_eq, Rabs_R0 by reflexivity. lra.
    + replace (0 + 3 * (PI / 2)) with (3 * (PI / 2)) by ring. rewrite sin_3PI2. change (at_ four 3) with (- (1))%Q. replace (Q2R (- (1))%Q) with (-1) by (unfold Q2R; cbn; lra). rewrite Rminus_diag_eq, Rabs_R0 by reflexivity. lra.
  - intros t. change (len four) with 4%Z. replace (4 * (PI / 2)) with (2 * PI) by field. rewrite sin_plus, sin_2PI, cos_2PI. ring.
Qed.
Definition six : list Q := [0; 1; 0; - (1); 0; 1]%Q.
Lemma six_samples : (5 <= len six)%Z /\ samples six sin 0 (PI / 2) 0 /\ forall i, (0 <= i < len six)%Z -> Rabs (Q2R (at_ six i)) <= 1.
Proof.
  split; [vm_compute; discriminate|]. destruct four_samples as [V P]. split.
  - intros i Hi. change (len six) with 6%Z in Hi. assert (A := sample_around four sin 0 (PI / 2) 0 i V ltac:(reflexivity) P). change (len four) with 4%Z in A.
    assert (C : (i = 0 \/ i = 1 \/ i = 2 \/ i = 3 \/ i = 4 \/ i = 5)%Z) by lia. destruct C as [-> | [-> | [-> | [-> | [-> | ->]]]]]; exact A.
  - intros i Hi. change (len six) with 6%Z in Hi. assert (C : (i = 0 \/ i = 1 \/ i = 2 \/ i = 3 \/ i = 4 \/ i = 5)%Z) by lia.
    destruct C as [-> | [-> | [-> | [-> | [-> | ->]]]]]; match goal with |- context [at_ six ?i] => let v := eval compute in (at_ six i) in change (at_ six i) with v end; unfold Q2R; cbn [Qnum Qden]; apply Rabs_le; lra.
Qed.

(** ** x^2 at the first point *)
Lemma square_third : third 2 0 (fun t => t * t) (fun t => 2 * t).
Proof.
  exists (fun _ => 2), (fun _ => 0). split; [|split; [|split; [|split]]]; intros t.
  - replace (2 * t) with (1 * t + t * 1) by ring. apply (derivable_pt_lim_mult (fun t => t) (fun t => t)); apply derivable_pt_lim_id.
  - assert (H := derivable_pt_lim_scal id 2 t 1 (derivable_pt_lim_id t)). rewrite Rmult_1_r in H. exact H.
  - apply derivable_pt_lim_const.
  - rewrite Rabs_pos_eq; lra.
  - rewrite Rabs_R0. lra.
Qed.
Lemma c2_ends_first_order K : ~ forall l f f1 x0 h delta M2 M3 junk out i, third M2 M3 f f1 -> 0 < h -> samples l f x0 h delta -> (3 <= len l)%Z ->
  c2 junk l = Ok out -> (0 <= i < len l)%Z -> Rabs (Q2R (at_ out i) - h * f1 (x0 + IZR i * h)) <= K * M3 * (h * h * h) + K * delta.
Proof.
  intros H. assert (V : samples [0; 1; 4]%Q (fun t => t * t) 0 1 0).
  { intros i Hi. change (len [0; 1; 4]%Q) with 3%Z in Hi. assert (C : (i = 0 \/ i = 1 \/ i = 2)%Z) by lia.
    destruct C as [-> | [-> | ->]]; match goal with |- context [at_ ?l ?i] => let v := eval compute in (at_ l i) in change (at_ l i) with v end; unfold Q2R; cbn [Qnum Qden]; apply Rabs_le; lra. }
  destruct (c2 0 [0; 1; 4]%Q) as [out|] eqn:E; [|vm_compute in E; discriminate].
  assert (X := H [0; 1; 4]%Q _ _ 0 1 0 2 0 0%Q out 0%Z square_third ltac:(lra) V ltac:(vm_compute; discriminate) E ltac:(vm_compute; split; [discriminate|reflexivity])).
  assert (O : (at_ out 0 == 2)%Q) by (vm_compute in E; injection E as <-; vm_compute; reflexivity).
  rewrite (Qeq_eqR _ _ O) in X. replace (Q2R 2) with 2 in X by (unfold Q2R; cbn; lra). apply two_sides in X. lra.
Qed.
