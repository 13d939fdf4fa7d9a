(** Proofs about remainders, indices of rectangular grids, the stencil of a grid
    point and the vertices of lines, in double precision. *)
From Coq Require Import List ZArith QArith Qabs Qround Qpower Qreduction Bool Lia Lqa.
From Verif Require Import Prelude PreludeFacts ProgressModel ProgressProofs PolModel RzModel WeightsModel FloatModel FloatRound FloatProofs.
Import ListNotations.
Open Scope Q_scope.

Lemma trunc_nonneg q : 0 <= q -> Qtrunc q = Qfloor q.
Proof. intros H. unfold Qtrunc. apply Qle_bool_iff in H. rewrite H. reflexivity. Qed.
Lemma trunc_neg q : q < 0 -> Qtrunc q = Qceiling q.
Proof. intros H. unfold Qtrunc. destruct (Qle_bool 0 q) eqn:E; [|reflexivity]. apply Qle_bool_iff in E. lra. Qed.
Lemma ceiling_bound q : inject_Z (Qceiling q) - 1 < q <= inject_Z (Qceiling q).
Proof.
  assert (A := Qle_ceiling q). assert (C := Qceiling_lt q). unfold Z.sub in C. rewrite inject_Z_plus in C. change (inject_Z (- (1))) with (- (1)) in C. lra.
Qed.

Section Rounding.
Variable rnd : Q -> Q.
Hypothesis HR : rounding rnd.

(** ** Remainders *)
Lemma fmod_nonneg a b : 0 < b -> 0 <= a -> fmod a b == qrem a b /\ 0 <= fmod a b < b.
Proof.
  intros Hb Ha. assert (Q0 : 0 <= a / b) by (apply Qle_shift_div_l; [exact Hb|lra]).
  unfold fmod, qrem. rewrite (trunc_nonneg _ Q0). split; [reflexivity|].
  assert (B := Qfloor_bound (a / b)). set (k := inject_Z (Qfloor (a / b))) in *. assert (E : (a / b) * b == a) by (field; intros C; lra).
  assert (k * b <= (a / b) * b) by (apply Qmult_le_compat_r; lra). assert ((a / b) * b < (k + 1) * b) by (apply Qmult_lt_compat_r; lra). lra.
Qed.
Lemma fmod_neg a b : 0 < b -> a < 0 -> - b < fmod a b <= 0.
Proof.
  intros Hb Ha. assert (Q0 : a / b < 0) by (apply Qlt_shift_div_r; [exact Hb|lra]).
  unfold fmod. rewrite (trunc_neg _ Q0).
  assert (B := ceiling_bound (a / b)). set (k := inject_Z (Qceiling (a / b))) in *. assert (E : (a / b) * b == a) by (field; intros C; lra).
  assert ((a / b) * b <= k * b) by (apply Qmult_le_compat_r; lra). assert ((k - 1) * b < (a / b) * b) by (apply Qmult_lt_compat_r; lra). lra.
Qed.
Lemma Qlt_bool_spec a b : Bool.reflect (a < b) (Qlt_bool a b).
Proof. destruct (Qlt_bool a b) eqn:E; constructor; [apply Qlt_bool_iff, E|apply Qlt_bool_false_iff in E; lra]. Qed.
Lemma fremainder_nonneg a b : 0 < b -> 0 <= a -> fremainder rnd a b == qrem a b.
Proof.
  intros Hb Ha. destruct (fmod_nonneg a b Hb Ha) as (E & L & U). unfold fremainder. cbv zeta. destruct (Qeq_bool (fmod a b) 0) eqn:Z0.
  - apply Qeq_bool_eq in Z0. rewrite <- E. symmetry. exact Z0.
  - destruct (Qlt_bool_spec b 0) as [C|_]; [lra|]. destruct (Qlt_bool_spec (fmod a b) 0) as [C|_]; [lra|]. exact E.
Qed.
Lemma qrem_neg a b : 0 < b -> a < 0 -> ~ fmod a b == 0 -> qrem a b == fmod a b + b.
Proof.
  intros Hb Ha N. assert (B := fmod_neg a b Hb Ha). assert (Q0 : a / b < 0) by (apply Qlt_shift_div_r; [exact Hb|lra]).
  unfold qrem. unfold fmod in *. rewrite (trunc_neg _ Q0) in *. set (k := Qceiling (a / b)) in *.
  assert (F : Qfloor (a / b) = (k - 1)%Z).
  { apply floor_unique.
    - unfold Z.sub. rewrite inject_Z_plus. change (inject_Z (- (1))) with (- (1)). assert (C := ceiling_bound (a / b)). fold k in C. lra.
    - unfold Z.sub. rewrite inject_Z_plus. change (inject_Z (- (1))) with (- (1)). assert (C := ceiling_bound (a / b)). fold k in C.
      assert (~ a / b == inject_Z k). { intros E. apply N. rewrite <- E. field. intros C2. lra. }
      assert (a / b < inject_Z k) by (apply Qnot_le_lt; intros C2; apply H; lra). lra. }
  rewrite F. unfold Z.sub. rewrite inject_Z_plus. change (inject_Z (- (1))) with (- (1)). ring.
Qed.
Lemma qrem_multiple a b : 0 < b -> fmod a b == 0 -> qrem a b == 0.
Proof.
  intros Hb E. unfold fmod in E. set (k := Qtrunc (a / b)) in *. unfold qrem.
  assert (A : a / b == inject_Z k). { assert (a == b * inject_Z k) by lra. rewrite H. field. intros C. lra. }
  rewrite (Qfloor_comp _ _ A), Qfloor_Z. exact E.
Qed.
Lemma fremainder_range a b : 0 < b -> rnd b == b -> 0 <= fremainder rnd a b <= b.
Proof.
  intros Hb Fb. destruct (Qlt_le_dec a 0) as [N|P].
  - assert (B := fmod_neg a b Hb N). unfold fremainder. cbv zeta. destruct (Qeq_bool (fmod a b) 0) eqn:Z0; [lra|].
    destruct (Qlt_bool_spec b 0) as [C|_]; [lra|]. destruct (Qlt_bool_spec (fmod a b) 0) as [_|C].
    + unfold fadd. cbn [Bool.eqb]. split.
      * assert (X := r_mono _ HR 0 (fmod a b + b) ltac:(lra)). rewrite (rnd_0 _ HR) in X. exact X.
      * assert (X := r_mono _ HR (fmod a b + b) b ltac:(lra)). rewrite Fb in X. exact X.
    + apply Qeq_bool_neq in Z0. exfalso. apply Z0. lra.
  - rewrite (fremainder_nonneg a b Hb P). destruct (fmod_nonneg a b Hb P) as (E & L & U). lra.
Qed.
Lemma fremainder_near a b : 0 < b -> Qabs (fremainder rnd a b - qrem a b) <= ulp_u * b + ulp_eta.
Proof.
  intros Hb. assert (PE := eta_pos). destruct (Qlt_le_dec a 0) as [N|P].
  - assert (B := fmod_neg a b Hb N). unfold fremainder. cbv zeta. destruct (Qeq_bool (fmod a b) 0) eqn:Z0.
    + apply Qeq_bool_eq in Z0. assert (E := qrem_multiple a b Hb Z0). setoid_replace (0 - qrem a b) with 0 by (rewrite E; ring). change (Qabs 0) with 0. unfold ulp_u. lra.
    + apply Qeq_bool_neq in Z0. assert (E := qrem_neg a b Hb N Z0).
      destruct (Qlt_bool_spec b 0) as [C|_]; [lra|]. destruct (Qlt_bool_spec (fmod a b) 0) as [_|C]; [|exfalso; apply Z0; lra].
      cbn [Bool.eqb]. unfold fadd. setoid_replace (rnd (fmod a b + b) - qrem a b) with (rnd (fmod a b + b) - (fmod a b + b)) by (rewrite E; reflexivity).
      apply Qle_trans with (1 := r_err _ HR (fmod a b + b)). assert (Qabs (fmod a b + b) <= b) by (apply Qabs_Qle_condition; lra). unfold ulp_u in *. lra.
  - setoid_replace (fremainder rnd a b - qrem a b) with 0 by (rewrite (fremainder_nonneg a b Hb P); ring). change (Qabs 0) with 0. unfold ulp_u. lra.
Qed.

(** ** Indices of rectangular grids *)
Lemma rect_roundtrip m d i M : pow2 (-900) <= d -> 1 <= M <= inject_Z (2 ^ 45) -> Qabs m <= M * d -> 0 <= i <= M ->
  Qabs (rect_index rnd m d (rect_coordinate rnd m d i) - i) <= 12 * M * ulp_u.
Proof.
  intros Hd [HM1 HM2] Hm [Hi0 Hi1]. assert (Pd := pow2_pos (-900)). change (inject_Z (2 ^ 45)) with (35184372088832 # 1) in HM2.
  assert (ED : ulp_eta <= ulp_u * d).
  { unfold ulp_eta. apply Qle_trans with (pow2 (-53) * pow2 (-900)); [rewrite <- pow2_plus; apply pow2_le; lia|]. rewrite pow2_53. unfold ulp_u in *. lra. }
  assert (E1 : ulp_eta <= ulp_u) by (apply Qle_trans with (1 := eta_small); discriminate).
  unfold rect_index, rect_coordinate, fdiv, fsub, fadd, fmul. apply Qabs_Qle_condition in Hm.
  assert (ID : 0 <= i * d <= M * d) by (split; nra). assert (MD : d <= M * d <= (35184372088832 # 1) * d) by (split; nra).
  set (id := i * d) in *. set (Md := M * d) in *.
  assert (A1 := r_err _ HR id). rewrite (Qabs_pos id) in A1 by lra. apply Qabs_Qle_condition in A1. set (p := rnd id) in *. unfold ulp_u in *.
  assert (A2 := r_err _ HR (m + p)). assert (B2 : Qabs (m + p) <= 2 * Md + d) by (apply Qabs_Qle_condition; split; lra).
  apply Qabs_Qle_condition in A2. set (c := rnd (m + p)) in *. unfold ulp_u in *.
  assert (A3 := r_err _ HR (c - m)). assert (B3 : Qabs (c - m) <= Md + d) by (apply Qabs_Qle_condition; split; lra).
  apply Qabs_Qle_condition in A3. set (s := rnd (c - m)) in *. unfold ulp_u in *.
  assert (A4 : - ((4 * M + 5) * (1 # 9007199254740992)) <= s / d - i <= (4 * M + 5) * (1 # 9007199254740992)).
  { assert (SD : (s / d) * d == s) by (field; intros C; lra).
    assert (X : - ((4 * M + 5) * (1 # 9007199254740992)) * d <= (s / d - i) * d <= (4 * M + 5) * (1 # 9007199254740992) * d).
    { setoid_replace ((s / d - i) * d) with (s - id) by (unfold id; rewrite <- SD at 2; ring).
      setoid_replace ((4 * M + 5) * (1 # 9007199254740992) * d) with ((4 * Md + 5 * d) * (1 # 9007199254740992)) by (unfold Md; ring).
      setoid_replace (- ((4 * M + 5) * (1 # 9007199254740992)) * d) with (- ((4 * Md + 5 * d) * (1 # 9007199254740992))) by (unfold Md; ring).
      lra. }
    destruct X as [X1 X2]. split; apply Qmult_le_r with d; lra. }
  assert (A5 := r_err _ HR (s / d)). assert (B5 : Qabs (s / d) <= M + 1) by (apply Qabs_Qle_condition; split; lra).
  apply Qabs_Qle_condition in A5. unfold ulp_u in *. apply Qabs_Qle_condition. split; lra.
Qed.
(** where the points of a rectangular grid are *)
Lemma rect_coordinate_near L cells c n i : (0 < cells)%Z -> (1 <= n <= 2 ^ 45)%Z -> (0 <= i < n)%Z -> pow2 (-900) <= L / inject_Z cells ->
  Qabs (rect_coordinate rnd (rect_min rnd c (rect_d rnd L cells) n) (rect_d rnd L cells) (inject_Z i)
    - (c + (inject_Z i - (inject_Z n - 1) / 2) * (L / inject_Z cells))) <= 20 * (Qabs c + inject_Z n * (L / inject_Z cells)) * ulp_u.
Proof.
  intros Hc Hn Hi HD. unfold rect_coordinate, rect_min, rect_d, fdiv, fsub, fadd, fmul. set (D := L / inject_Z cells) in *.
  assert (Pd := pow2_pos (-900)).
  assert (ED : ulp_eta <= ulp_u * D).
  { unfold ulp_eta. apply Qle_trans with (pow2 (-53) * pow2 (-900)); [rewrite <- pow2_plus; apply pow2_le; lia|]. rewrite pow2_53. unfold ulp_u in *. lra. }
  assert (D0 : 0 < D) by lra. clear HD Pd. clearbody D.
  assert (N1 : rnd (inject_Z n - 1) == inject_Z (n - 1)).
  { transitivity (rnd (inject_Z (n - 1) * pow2 0)).
    - apply r_comp; [exact HR|]. unfold Z.sub. rewrite inject_Z_plus. unfold pow2. cbn. ring.
    - rewrite (r_repr _ HR) by lia. unfold pow2. cbn. ring. }
  assert (N2 : inject_Z n == inject_Z (n - 1) + 1) by (unfold Z.sub; rewrite inject_Z_plus; cbn; ring).
  assert (I1 : 0 <= inject_Z i <= inject_Z (n - 1)) by (split; [change 0 with (inject_Z 0)|]; rewrite <- Zle_Qle; lia).
  set (N := inject_Z (n - 1)) in *. set (I := inject_Z i) in *.
  assert (A1 := r_err _ HR D). rewrite (Qabs_pos D) in A1 by lra. apply Qabs_Qle_condition in A1. set (d := rnd D) in *. unfold ulp_u in *. set (u := 1 # 9007199254740992) in *.
  assert (U : 0 < u) by reflexivity. assert (U1 : u <= 1 # 1000000) by discriminate.
  assert (EQ : rnd (d * rnd (inject_Z n - 1)) == rnd (d * N)) by (apply (r_comp _ HR); now rewrite N1).
  assert (EQ1 : rnd (rnd (d * rnd (inject_Z n - 1)) / 2) == rnd (rnd (d * N) / 2)) by (apply (r_comp _ HR); now rewrite EQ).
  assert (EQ2 : rnd (c - rnd (rnd (d * rnd (inject_Z n - 1)) / 2)) == rnd (c - rnd (rnd (d * N) / 2))) by (apply (r_comp _ HR); now rewrite EQ1).
  assert (EQ3 : rnd (rnd (c - rnd (rnd (d * rnd (inject_Z n - 1)) / 2)) + rnd (I * d)) == rnd (rnd (c - rnd (rnd (d * N) / 2)) + rnd (I * d))) by (apply (r_comp _ HR); now rewrite EQ2).
  rewrite EQ3, N2. clear EQ EQ1 EQ2 EQ3 N1 N2.
  assert (W : 0 <= N * D) by nra. assert (V : 0 <= I * D <= N * D) by (split; nra).
  assert (B1 : - (2 * u * (N * D)) <= d * N - N * D <= 2 * u * (N * D)).
  { assert (X : - (2 * u * D) * N <= (d - D) * N <= (2 * u * D) * N) by (split; apply Qmult_le_compat_r; lra). lra. }
  assert (B2 : - (2 * u * (I * D)) <= I * d - I * D <= 2 * u * (I * D)).
  { assert (X : - (2 * u * D) * I <= (d - D) * I <= (2 * u * D) * I) by (split; apply Qmult_le_compat_r; lra). lra. }
  setoid_replace (c + (I - (N + 1 - 1) / 2) * D) with (c + I * D - N * D * (1 # 2)) by field.
  setoid_replace ((N + 1) * D) with (N * D + D) by ring.
  set (ND := N * D) in *. set (ID := I * D) in *. set (dN := d * N) in *. set (Id := I * d) in *. set (C := Qabs c).
  assert (HC : - C <= c <= C) by (apply Qabs_Qle_condition; apply Qle_refl).
  unfold u in *. clear u U U1.
  assert (A2 := r_err _ HR dN). assert (K2 : Qabs dN <= (11 # 10) * ND) by (apply Qabs_Qle_condition; split; lra). apply Qabs_Qle_condition in A2. set (q := rnd dN) in *. unfold ulp_u in A2.
  assert (HQ : q / 2 == q * (1 # 2)) by field. assert (A3 := r_err _ HR (q / 2)). assert (K3 : Qabs (q / 2) <= ND + D) by (rewrite HQ; apply Qabs_Qle_condition; split; lra). apply Qabs_Qle_condition in A3. set (q' := rnd (q / 2)) in *. set (qh := q / 2) in *. unfold ulp_u in A3.
  assert (A4 := r_err _ HR (c - q')). assert (K4 : Qabs (c - q') <= C + 2 * ND + 2 * D) by (apply Qabs_Qle_condition; split; lra). apply Qabs_Qle_condition in A4. set (m := rnd (c - q')) in *. unfold ulp_u in A4.
  assert (A5 := r_err _ HR Id). assert (K5 : Qabs Id <= (11 # 10) * ND) by (apply Qabs_Qle_condition; split; lra). apply Qabs_Qle_condition in A5. set (p := rnd Id) in *. unfold ulp_u in A5.
  assert (A6 := r_err _ HR (m + p)). assert (K6 : Qabs (m + p) <= 2 * C + 4 * ND + 4 * D) by (apply Qabs_Qle_condition; split; lra). apply Qabs_Qle_condition in A6. unfold ulp_u in A6.
  apply Qabs_Qle_condition. clearbody ND ID dN Id C q q' m p. split; lra.
Qed.
End Rounding.
