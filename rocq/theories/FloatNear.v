(** b64 is the nearest double; consequences for grids and witnesses. *)
From Coq Require Import List ZArith QArith Qabs Qround Qpower Qreduction Bool Lia Lqa.
From Verif Require Import Prelude PreludeFacts ProgressModel ProgressProofs PolModel RzModel WeightsModel WeightsInput WeightsTop W7xModel W7xSpec W7xInterp FloatModel FloatSpec FloatRound FloatProofs FloatMore FloatLine.
Import ListNotations.
Open Scope Q_scope.

Lemma round_nearest y k : Qabs (inject_Z (ProgressModel.round_even y) - y) <= Qabs (inject_Z k - y).
Proof.
  destruct (Z.eq_dec k (ProgressModel.round_even y)) as [E|N]; [rewrite E; apply Qle_refl|].
  assert (R := ProgressProofs.round_even_near y). set (r := ProgressModel.round_even y) in *.
  assert (D : 1 <= Qabs (inject_Z k - inject_Z r)).
  { unfold Qminus. rewrite <- inject_Z_opp, <- inject_Z_plus. change (Qabs (inject_Z (k + - r))) with (inject_Z (Z.abs (k + - r))). change 1 with (inject_Z 1). rewrite <- Zle_Qle. lia. }
  assert (T := Qabs_triangle (inject_Z k - y) (y - inject_Z r)). rewrite (Qabs_Qminus y (inject_Z r)) in T.
  setoid_replace (inject_Z k - y + (y - inject_Z r)) with (inject_Z k - inject_Z r) in T by ring. lra.
Qed.
Lemma b64_nearest_multiple q k : ~ q == 0 -> Qabs (b64 q - q) <= Qabs (inject_Z k * pow2 (bexp q) - q).
Proof.
  intros N. rewrite (b64_eq q N). assert (P := pow2_pos (bexp q)). set (e := bexp q) in *. assert (R := round_nearest (q / pow2 e) k).
  assert (S0 := scaled q e).
  assert (E : forall j, inject_Z j * pow2 e - q == (inject_Z j - q / pow2 e) * pow2 e) by (intros j; rewrite <- S0 at 1; ring).
  rewrite !E, !Qabs_Qmult. apply Qmult_le_compat_r; [exact R|apply Qabs_nonneg].
Qed.
Lemma b64_double q : double (b64 q).
Proof.
  destruct (Qeq_dec q 0) as [E|N].
  - exists 0%Z, 0%Z. rewrite (b64_zero q E). split; [cbn; lia|]. split; [lia|reflexivity].
  - exists (ProgressModel.round_even (q / pow2 (bexp q))), (bexp q). split; [|split; [unfold bexp; lia|rewrite (b64_eq q N); reflexivity]].
    assert (U := upper q N). assert (P := pow2_pos (bexp q)). apply Qabs_Qle_condition in U. apply Z.abs_le. split.
    + apply round_even_ge, div_ge. rewrite inject_Z_opp. lra.
    + apply round_even_le, div_le. lra.
Qed.
Lemma b64_nearest q x : double x -> Qabs (b64 q - q) <= Qabs (x - q).
Proof.
  intros (m & e & Hm & He & E). fold (pow2 e) in E.
  destruct (Qeq_dec q 0) as [Z0|N].
  - rewrite (b64_zero q Z0). setoid_replace (0 - q) with 0 by (rewrite Z0; ring). apply Qabs_nonneg.
  - destruct (Z.le_gt_cases (bexp q) e) as [L|G].
    + assert (X : x == inject_Z (m * 2 ^ (e - bexp q)) * pow2 (bexp q)).
      { rewrite E, inject_Z_mult, <- pow2_Z by lia. rewrite <- Qmult_assoc, <- pow2_plus. apply Qmult_comp; [reflexivity|]. apply pow2_eq. lia. }
      rewrite X. apply b64_nearest_multiple. exact N.
    + assert (LB := lower q N ltac:(lia)). set (c := inject_Z (2 ^ 52) * pow2 (bexp q)) in *.
      assert (PE := pow2_pos e).
      assert (UB : Qabs x <= c).
      { assert (AX : Qabs x == inject_Z (Z.abs m) * pow2 e) by (rewrite E, Qabs_Qmult, (Qabs_pos (pow2 e)) by lra; reflexivity).
        rewrite AX. apply Qle_trans with (inject_Z (2 ^ 53) * pow2 e); [apply Qmult_le_compat_r; [rewrite <- Zle_Qle; exact Hm|lra]|].
        assert (M := pow2_le (e + 1) (bexp q) ltac:(lia)). rewrite pow2_succ in M. unfold c.
        change (inject_Z (2 ^ 53)) with (9007199254740992 # 1). change (inject_Z (2 ^ 52)) with (4503599627370496 # 1). lra. }
      apply Qabs_Qle_condition in UB.
      destruct (Qlt_le_dec q 0) as [S0|S0].
      * apply Qle_trans with (1 := b64_nearest_multiple q (- 2 ^ 52) N). rewrite inject_Z_opp. setoid_replace (- inject_Z (2 ^ 52) * pow2 (bexp q)) with (- c) by (unfold c; ring).
        rewrite (Qabs_neg q) in LB by lra. rewrite (Qabs_pos (- c - q)), (Qabs_pos (x - q)) by lra. lra.
      * apply Qle_trans with (1 := b64_nearest_multiple q (2 ^ 52) N). fold c.
        rewrite (Qabs_pos q) in LB by lra. rewrite (Qabs_neg (c - q)), (Qabs_neg (x - q)) by lra. lra.
Qed.
Lemma b64_of_double x : double x -> b64 x == x.
Proof. intros (m & e & Hm & He & E). rewrite (b64_comp _ _ E). rewrite E. apply b64_repr; assumption. Qed.

Lemma cube_ok cube : accurate_cube cube -> forall u, Qabs (cube u - u * u * u) <= 2 * ulp_u * Qabs (u * u * u) + ulp_u.
Proof. intros H u. exact (H u). Qed.
Lemma rounded_cube : accurate_cube (fun u => b64 (u * u * u)).
Proof.
  intros u. apply Qle_trans with (1 := b64_err (u * u * u)). assert (A := Qabs_nonneg (u * u * u)). assert (S0 := eta_small).
  assert (X : 1 # 2 ^ 200 <= ulp_u) by discriminate. unfold ulp_u in *. change (2 # 2 ^ 53) with (2 # 9007199254740992). change (1 # 2 ^ 53) with (1 # 9007199254740992). lra.
Qed.
Lemma tau_double : double (2 * np_pi).
Proof. exists 884279719003555%Z, (-47)%Z. split; [cbn; lia|]. split; [lia|]. reflexivity. Qed.

(** ** The table of W7X_vacuum covers every angle *)
Lemma table_covers ny phi : (2 <= ny)%nat -> outside_axis (W7xModel.linspace 0 (2 * np_pi) ny) (fremainder b64 phi (2 * np_pi)) = false.
Proof.
  intros H. assert (R := fremainder_range b64 b64_rounding phi (2 * np_pi) ltac:(reflexivity) (b64_of_double _ tau_double)).
  apply outside_iff; [unfold W7xModel.linspace; rewrite map_length, seq_length; exact H|]. apply linspace_within; [exact H|]. exact R.
Qed.

(** ** Points of rectangular grids *)
Lemma inner_columns m d M nx mxg i : pow2 (-900) <= d -> 1 <= M <= inject_Z (2 ^ 45) -> Qabs m <= M * d -> inject_Z i <= M -> (0 <= mxg < i)%Z -> (i < nx - mxg - 1)%Z ->
  inject_Z mxg < rect_index b64 m d (rect_coordinate b64 m d (inject_Z i)) < inject_Z (nx - mxg - 1).
Proof.
  intros Hd HM Hm Hi H1 H2. assert (I0 : 0 <= inject_Z i) by (change 0 with (inject_Z 0); rewrite <- Zle_Qle; lia).
  assert (A := rect_roundtrip b64 b64_rounding m d (inject_Z i) M Hd HM Hm (conj I0 Hi)). apply Qabs_Qle_condition in A.
  change (inject_Z (2 ^ 45)) with (35184372088832 # 1) in HM.
  assert (B : inject_Z mxg + 1 <= inject_Z i) by (change 1 with (inject_Z 1); rewrite <- inject_Z_plus, <- Zle_Qle; lia).
  assert (C : inject_Z i + 1 <= inject_Z (nx - mxg - 1)) by (change 1 with (inject_Z 1); rewrite <- inject_Z_plus, <- Zle_Qle; lia).
  unfold ulp_u in A. split; lra.
Qed.
Lemma edge_index : own_index 1 0 16 2 2 < 2.
Proof. reflexivity. Qed.
Lemma straight_valid L c nx ny nz mxg : (0 <= mxg)%Z -> (2 * mxg <= nx)%Z -> (0 <= ny)%Z -> (0 <= nz)%Z ->
  valid_maps (straight_maps L c nx ny nz mxg) 1 (fun _ c0 _ => own_index L c nx mxg (fst (fst c0))) (fun _ c0 _ => inject_Z (snd c0)) [1].
Proof.
  intros A B C D. unfold straight_maps. constructor; cbn [m_nx m_ny m_nz m_mxg m_fxts m_fxt m_bxts m_bxt m_fzts m_fzt m_bzts m_bzt m_subw]; try assumption.
  - apply (F3 None _ (fun c0 : Z * Z * Z => own_index L c nx mxg (fst (fst c0)))); reflexivity.
  - apply (F3 None _ (fun c0 : Z * Z * Z => own_index L c nx mxg (fst (fst c0)))); reflexivity.
  - apply (F3 None _ (fun c0 : Z * Z * Z => inject_Z (snd c0))); reflexivity.
  - apply (F3 None _ (fun c0 : Z * Z * Z => inject_Z (snd c0))); reflexivity.
  - apply PWdefault. reflexivity.
  - reflexivity.
  - repeat constructor.
  - reflexivity.
Qed.
Lemma straight_edge jw jc ny nz v d y z : (0 <= y < ny)%Z -> (0 <= z < nz)%Z ->
  calculate_parallel_map_operators jw jc (straight_maps 1 0 16 ny nz 2) = Ok v ->
  (lo_interior_number (wv_dir d v) (2, y, z)%Z < 0)%Z /\ (0 <= lo_boundary_number (wv_dir d v) (2, y, z)%Z)%Z.
Proof.
  intros Hy Hz Hv. assert (V := straight_valid 1 0 16 ny nz 2 ltac:(lia) ltac:(lia) ltac:(lia) ltac:(lia)).
  destruct (legs jw jc _ _ _ _ _ V v Hv d) as (A & B & _).
  assert (HIT : leaves (straight_maps 1 0 16 ny nz 2) (own_index 1 0 16 2 2)) by (left; exact edge_index).
  split.
  - destruct (Z.lt_ge_cases (lo_interior_number (wv_dir d v) (2, y, z)%Z) 0) as [L|G]; [exact L|]. exfalso. apply A in G. destruct G as (_ & s & Hs & I). apply I. exact HIT.
  - apply B. split; [cbn; lia|]. exists 0%nat. split; [lia|exact HIT].
Qed.

(** ** The vertices of a hexagon *)
Definition w_hexagon : list pt := [(1, 0); (1 # 2, 1); (- (1 # 2), 1); (- (1), 0); (- (1 # 2), - (1)); (1 # 2, - (1))].
Lemma hexagon_last : 1 < fst (positionPolygon_fl b64 w_hexagon (vertex_angle b64 w_hexagon 5)) /\ fst (nth 5 w_hexagon (0, 0)) == 1 # 2.
Proof. split; [reflexivity|reflexivity]. Qed.

Lemma vertex_good l k B : let n := Z.of_nat (length l) in let d := b64 (2 * np_pi / inject_Z n) in let theta := vertex_angle b64 l k in
  (k < length l)%nat -> (n <= 2 ^ 40)%Z -> inject_Z (Z.of_nat k) * d <= theta ->
  1 # (2 ^ 100) <= B -> (forall p, In p l -> Qabs (fst p) <= B /\ Qabs (snd p) <= B) ->
  let p := positionPolygon_fl b64 l theta in let v := nth k l (0, 0) in
  Qabs (fst p - fst v) <= 32 * ulp_u * B /\ Qabs (snd p - snd v) <= 32 * ulp_u * B.
Proof.
  cbv zeta. intros Hk Hn G HB Hl.
  assert (N1 : (1 <= Z.of_nat (length l) <= 2 ^ 40)%Z) by lia.
  assert (K1 : (0 <= Z.of_nat k < Z.of_nat (length l))%Z) by lia.
  destruct (good b64 b64_rounding _ N1 (Z.of_nat k) K1 G) as (I & R).
  unfold positionPolygon_fl. cbv zeta. fold (zlen l) in I, R. unfold vertex_angle, linspace0_fl.
  change (fmul b64 (inject_Z (Z.of_nat k)) (fdiv b64 (2 * np_pi) (inject_Z (Z.of_nat (length l))))) with (vth b64 (zlen l) (Z.of_nat k)).
  rewrite I. cbn [fst snd].
  set (p1 := znth l ((Z.of_nat k + 1) mod zlen l)).
  assert (V : znth l (Z.of_nat k) = nth k l (0, 0)) by (unfold znth; rewrite Nat2Z.id; reflexivity). rewrite V.
  assert (P1 : In p1 l).
  { unfold p1, znth, zlen. assert (M := Z.mod_pos_bound (Z.of_nat k + 1) (Z.of_nat (length l)) ltac:(lia)). apply nth_In. lia. }
  assert (P0 : In (nth k l (0, 0)) l) by (apply nth_In; exact Hk).
  destruct (Hl _ P1) as (A1 & A2). destruct (Hl _ P0) as (B1 & B2).
  split; apply mix_near; try exact b64_rounding; try assumption.
Qed.
Lemma vertex_wrong l k : let n := Z.of_nat (length l) in let d := b64 (2 * np_pi / inject_Z n) in let theta := vertex_angle b64 l k in
  (k < length l)%nat -> (n <= 2 ^ 40)%Z -> theta < inject_Z (Z.of_nat k) * d ->
  (polygon_ind b64 n theta = Z.of_nat k \/ polygon_ind b64 n theta = (Z.of_nat k - 1)%Z) /\ (1 - (1 # 1000)) * d <= polygon_rem b64 n theta <= d.
Proof.
  cbv zeta. intros Hk Hn G. exact (wrong b64 b64_rounding (Z.of_nat (length l)) ltac:(lia) (Z.of_nat k) ltac:(lia) G).
Qed.
Lemma wrong_always : exists l k, length l = 6%nat /\ (k < length l)%nat /\ vertex_angle b64 l k < inject_Z (Z.of_nat k) * b64 (2 * np_pi / inject_Z (Z.of_nat (length l))).
Proof. exists w_hexagon, 5%nat. split; [reflexivity|]. split; [cbn; lia|reflexivity]. Qed.
Lemma polygon_vertices_false : ~ forall l k, (3 <= length l)%nat -> (k < length l)%nat ->
  Qabs (fst (positionPolygon_fl b64 l (vertex_angle b64 l k)) - fst (nth k l (0, 0))) <= 1 # 2.
Proof. intros H. assert (A := H w_hexagon 5%nat ltac:(cbn; lia) ltac:(cbn; lia)). apply Qabs_Qle_condition in A. assert (X := hexagon_last). destruct X as (X1 & X2). rewrite X2 in A. lra. Qed.

Lemma straight_leaves_false : ~ forall L c nx ny nz mxg jw jc v d x y z, 0 < L -> (0 <= mxg)%Z -> (2 * mxg < nx)%Z ->
  calculate_parallel_map_operators jw jc (straight_maps L c nx ny nz mxg) = Ok v -> evolving (straight_maps L c nx ny nz mxg) (x, y, z)%Z ->
  (0 <= lo_interior_number (wv_dir d v) (x, y, z))%Z.
Proof.
  intros H.
  destruct (calculate_parallel_map_operators 0 0 (straight_maps 1 0 16 1 4 2)) as [v|] eqn:E.
  - assert (A := H 1 0 16%Z 1%Z 4%Z 2%Z _ _ v Fwd 2%Z 0%Z 0%Z ltac:(reflexivity) ltac:(lia) ltac:(lia) E ltac:(cbn; lia)).
    destruct (straight_edge _ _ 1 4 v Fwd 0 0 ltac:(lia) ltac:(lia) E) as (B & _). lia.
  - destruct (calc_ok 0 0 _ _ _ _ _ (straight_valid 1 0 16 1 4 2 ltac:(lia) ltac:(lia) ltac:(lia) ltac:(lia))) as (cs & fl & bl & _ & Hv & _). congruence.
Qed.
Lemma remainder_false : ~ forall a, fremainder b64 a (2 * np_pi) < 2 * np_pi.
Proof. intros H. assert (A := H (- (1 # 100000000000000000000))). revert A. vm_compute. discriminate. Qed.
