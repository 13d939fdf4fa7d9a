(** A field for the example of C120: sin x + sin (2 pi z) + y in a slab. *)
From Coq Require Import String List ZArith QArith Qabs Reals Qreals Lia Lra.
From Verif Require Import Prelude PreludeFacts GridModel GridSpec GridMetric PolModel FieldModel MapsModel MapsSpec MapsExamples SlabModel SlabSpec SlabProofs RevLipSpec RevAcc PipeSmoothSpec
  WeightsModel WeightsSpec WeightsInput PipeModel PipeSpec PipeProofs PipeSlab PipeTop SmoothRowSpec WeightsSmooth PipeSmooth.
Import ListNotations.
Open Scope R_scope.

Definition ripple (x z y : R) : R := sin x + sin (2 * PI * z) + y.
Lemma sin_smooth : smooth 1 sin cos.
Proof.
  exists (fun t => - sin t), (fun t => - cos t). split; [|split; [|split]].
  - exact derivable_pt_lim_sin.
  - exact derivable_pt_lim_cos.
  - intros t. apply (derivable_pt_lim_opp sin). apply derivable_pt_lim_sin.
  - intros t. rewrite Rabs_Ropp. apply Rabs_le, COS_bound.
Qed.
Lemma smooth_plus_line M f f' b c : smooth M f f' -> smooth M (fun t => f t + (c + b * t)) (fun t => f' t + b).
Proof.
  intros (f2 & f3 & D1 & D2 & D3 & B). exists f2, f3. split; [|split; [|split]]; [| |exact D3|exact B].
  - intros t. apply (derivable_pt_lim_plus f (fun t => c + b * t)); [apply D1|]. enough (H : derivable_pt_lim (fun t => c + b * t) t (0 + b * 1)) by (rewrite Rplus_0_l, Rmult_1_r in H; exact H).
    apply (derivable_pt_lim_plus (fun _ => c) (fun t => b * t)); [apply derivable_pt_lim_const|]. apply (derivable_pt_lim_scal (fun t => t)), derivable_pt_lim_id.
  - intros t. replace (f2 t) with (f2 t + 0) by ring. apply (derivable_pt_lim_plus f' (fun _ => b)); [apply D2|apply derivable_pt_lim_const].
Qed.
Lemma smooth_ext M f g f' g' : (forall t, f t = g t) -> (forall t, f' t = g' t) -> smooth M f f' -> smooth M g g'.
Proof.
  intros E E' (f2 & f3 & D1 & D2 & D3 & B). exists f2, f3. split; [|split; [|split]]; [| |exact D3|exact B].
  - intros t. rewrite <- E'. apply (derivable_pt_lim_ext f); [exact E|apply D1].
  - intros t. apply (derivable_pt_lim_ext f'); [exact E'|apply D2].
Qed.
Lemma smooth_le M M' f f' : M <= M' -> smooth M f f' -> smooth M' f f'.
Proof. intros H (f2 & f3 & D1 & D2 & D3 & B). exists f2, f3. split; [exact D1|]. split; [exact D2|]. split; [exact D3|]. intros t. apply Rle_trans with (1 := B t), H. Qed.
Lemma sin_slope a b : Rabs (sin a - sin b) <= Rabs (a - b).
Proof.
  assert (K : forall a b, a < b -> Rabs (sin b - sin a) <= b - a).
  { clear. intros a b H. destruct (MVT_cor2 sin cos a b H (fun c _ => derivable_pt_lim_sin c)) as (c & E & _). rewrite E, Rabs_mult. rewrite (Rabs_pos_eq (b - a)) by lra.
    assert (C : Rabs (cos c) <= 1) by (apply Rabs_le, COS_bound). assert (X := Rmult_le_compat_r (b - a) _ _ ltac:(lra) C). lra. }
  destruct (Rtotal_order a b) as [H|[->|H]].
  - rewrite Rabs_minus_sym, (Rabs_minus_sym a b), (Rabs_pos_eq (b - a)) by lra. now apply K.
  - rewrite !Rminus_diag_eq by reflexivity. lra.
  - rewrite (Rabs_pos_eq (a - b)) by lra. now apply K.
Qed.
Lemma ripple_smooth y : smooth2 1 (2 * PI * (2 * PI) * (2 * PI)) (fun x z => ripple x z y) /\ slope_below (1 + 2 * PI) (fun x z => ripple x z y).
Proof.
  assert (P := PI_RGT_0). split; [split|].
  - intros z. exists (fun x => cos x + 0). apply (smooth_ext 1 (fun t => sin t + (sin (2 * PI * z) + y + 0 * t)) _ (fun t => cos t + 0) _); [intros t; unfold ripple; ring|reflexivity|]. apply smooth_plus_line, sin_smooth.
  - intros x. exists (fun z => cos (0 + 2 * PI * z) * (2 * PI) + 0). apply (smooth_ext _ (fun t => sin (0 + 2 * PI * t) + (sin x + y + 0 * t)) _ (fun t => cos (0 + 2 * PI * t) * (2 * PI) + 0) _); [intros t; unfold ripple; rewrite Rplus_0_l; ring|reflexivity|].
    rewrite <- (Rmult_1_l (2 * PI * (2 * PI) * (2 * PI))).
    apply (smooth_plus_line _ (fun t => sin (0 + 2 * PI * t)) (fun t => cos (0 + 2 * PI * t) * (2 * PI))). apply (smooth_scaled 1 sin cos 0 (2 * PI)); [lra|exact sin_smooth].
  - intros a b a' b'. unfold ripple. replace (sin a + sin (2 * PI * b) + y - (sin a' + sin (2 * PI * b') + y)) with ((sin a - sin a') + (sin (2 * PI * b) - sin (2 * PI * b'))) by ring.
    apply Rle_trans with (1 := Rabs_triang _ _). assert (X1 := sin_slope a a'). assert (X2 := sin_slope (2 * PI * b) (2 * PI * b')). rewrite <- Rmult_minus_distr_l, Rabs_mult, (Rabs_pos_eq (2 * PI)) in X2 by lra.
    assert (0 <= Rabs (a - a')) by apply Rabs_pos. assert (0 <= Rabs (b - b')) by apply Rabs_pos. assert (0 <= 2 * PI * Rabs (a - a')) by (apply Rmult_le_pos; lra). lra.
Qed.
(** values with three digits *)
Definition ripple_value (c : cell) : Q := let '(i, j, k) := c in (up (1000 * ripple (place_R ex_rect (inject_Z i)) (place_Z ex_rect (inject_Z k)) (IZR j / 10)) # 1000).
Lemma ripple_near i j k : Rabs (Q2R (ripple_value (i, j, k)) - ripple (place_R ex_rect (inject_Z i)) (place_Z ex_rect (inject_Z k)) (IZR j / 10)) <= / 1000.
Proof.
  unfold ripple_value. set (t := ripple _ _ _). destruct (archimed (1000 * t)) as (A & B). unfold Q2R. cbn [Qnum Qden]. apply Rabs_le. lra.
Qed.
Definition slab_line (R0 Z0 y0 y : R) : R * R := (R0, Z0 + (/ 10 + R0) * (y - y0)).
Lemma slab_exact : ends_within 0 slab_line (slab_flow (slab 1 (1 # 10) 0 1)).
Proof.
  intros a b y0 y i k. cbv zeta. unfold slab_flow, slab_line. cbn [fst snd].
  destruct (slab_straight (slab 1 (1 # 10) 0 1) 1 (1 # 10) 0 1 1 y0 (a i k, b i k) y ltac:(discriminate) (proj2 (proj2 ex_slab_facts))) as (T1 & T2). cbn [fst snd] in T1, T2.
  rewrite (Qeq_eqR _ _ T1), (Qeq_eqR _ _ T2). split; [rewrite Rminus_diag_eq by reflexivity; rewrite Rabs_R0; lra|].
  assert (SL : (slope 1 (1 # 10) 0 1 1 (a i k) == (1 # 10) + a i k)%Q) by (unfold slope; field). rewrite Q2R_plus, Q2R_mult, (Qeq_eqR _ _ SL), Q2R_plus, Q2R_minus.
  replace (Q2R (1 # 10)) with (/ 10) by (unfold Q2R; cbn; lra). rewrite Rminus_diag_eq by reflexivity. rewrite Rabs_R0. lra.
Qed.
Lemma ripple_example : exists d m v f, ex_slab_maps 1 = Ok d /\ weights_input d 9 (ny ex_rgrid) 8 (2 * 2) = Ok m /\ calculate_parallel_map_operators 0 0 m = Ok v /\
  (forall c', evolving m c' -> (f (wv_cell_number v c') == ripple_value c')%Q) /\
  Rabs ((Q2R (row_apply (leg_row v Fwd (lo_interior_number (wv_dir Fwd v) (4, 1, 3)%Z)) f) - Q2R (row_apply (leg_row v Bwd (lo_interior_number (wv_dir Bwd v) (4, 1, 3)%Z)) f)) / (2 * / 10) -
        (/ 2 * (1 + 2 * PI * (9 / 140) * cos (2 * PI * (- / 16))) + / 2 * (1 + 2 * PI * (19 / 140) * cos (2 * PI * (- / 16)))))
    <= (3 / 32 * (1 * (/ 7 * / 7 * / 7)) + 15 / 128 * (2 * PI * (2 * PI) * (2 * PI) * (/ 8 * / 8 * / 8)) + 25 / 16 * / 1000 + 5 / 10000000000 * 4) / / 10 + 2 * PI * (2 * PI) * (2 * PI) * (/ 10 * / 10) / 6.
Proof.
  destruct midpoint_rule as [Rl Ce]. destruct ex_slab_facts as (F1 & F2 & F3). pose proof Rl as (R1 & R2 & R3 & R4).
  destruct (rectangular_ok ex_rect 3 (3 # 10) true ltac:(lia) ltac:(reflexivity)) as (g' & E & [W _] & _ & _). rewrite F2 in E.
  assert (W' : well_formed ex_rgrid) by (injection E as ->; exact W). clear E g' W. rename W' into W.
  destruct (all_runs (fun _ => ""%string) rect_R rect_Z (fun r => Z.to_nat (r_nx r)) (fun r => Z.to_nat (r_nz r)) rect_find (slab_trace (slab 1 (1 # 10) 0 1)) nowhere
    (Byfunc (slab 1 (1 # 10) 0 1)) ex_roots ex_fll (fun _ _ _ => 1%Q) true _ _ (slab_follows _) (slab_pointwise _) R1 R2 R3 R4 ex_rgrid W 1%Z 1%Z 2%Z 2%nat
    ltac:(lia) ltac:(lia) ltac:(lia) 9%Z 8%Z ltac:(lia) ltac:(lia) ltac:(lia) 2%nat ex_junk 0%Q 0%Z ltac:(lia)) as (d & m & Ed & Em & [v Ev] & _).
  destruct (input_ok _ _ _ _ _ _ _ _ _ ex_roots _ _ _ _ _ (slab_follows _) (slab_pointwise _) R1 R2 R3 R4 ex_rgrid W 1%Z 1%Z 2%Z 2%nat
    ltac:(lia) ltac:(lia) ltac:(lia) 9%Z 8%Z ltac:(lia) ltac:(lia) ltac:(lia) 2%nat ex_junk d m ltac:(lia) Ed Em)
    as (M1 & M2 & M3 & M4 & X & Zm & xt & zt & _ & I).
  destruct (field_exists 0%Q 0%Z m _ _ _ _ v ripple_value (mi_valid _ _ _ _ _ _ _ I) Ev) as [F HF].
  exists d, m, v, F. split; [exact Ed|]. split; [exact Em|]. split; [exact Ev|]. split; [exact HF|].
  assert (N : forall a, (a < 2)%nat -> a = 0%nat \/ a = 1%nat) by (intros; lia).
  assert (V0 : place_R ex_rect (inject_Z 4 + nth 0 (hs ex_roots 2) 0)%Q = - / 28) by (unfold place_R; rewrite (Qeq_eqR _ (-1 # 28)) by (vm_compute; reflexivity); unfold Q2R; cbn; lra).
  assert (V1 : place_R ex_rect (inject_Z 4 + nth 1 (hs ex_roots 2) 0)%Q = / 28) by (unfold place_R; rewrite (Qeq_eqR _ (1 # 28)) by (vm_compute; reflexivity); unfold Q2R; cbn; lra).
  assert (V2 : place_Z ex_rect (inject_Z 3) = - / 16) by (unfold place_Z; rewrite (Qeq_eqR _ (-1 # 16)) by (vm_compute; reflexivity); unfold Q2R; cbn; lra).
  assert (V3 : place_R ex_rect (inject_Z (1 + 1)) = - 2 / 7) by (unfold place_R; rewrite (Qeq_eqR _ (-2 # 7)) by (vm_compute; reflexivity); unfold Q2R; cbn; lra).
  assert (V4 : place_R ex_rect (inject_Z (9 - 1 - 2)) = 2 / 7) by (unfold place_R; rewrite (Qeq_eqR _ (2 # 7)) by (vm_compute; reflexivity); unfold Q2R; cbn; lra).
  assert (V5 : place_Z ex_rect 0 = - 7 / 16) by (unfold place_Z; rewrite (Qeq_eqR _ (-7 # 16)) by (vm_compute; reflexivity); unfold Q2R; cbn; lra).
  assert (Y0 : Q2R (0 # 30) = 0) by (unfold Q2R; cbn; lra). assert (Y1 : Q2R (3 # 30) = / 10) by (unfold Q2R; cbn; lra). assert (Y2 : Q2R (6 # 30) = 2 / 10) by (unfold Q2R; cbn; lra).
  assert (DR : Q2R (r_dR ex_rect) = / 7) by (rewrite (Qeq_eqR _ (1 # 7)) by (vm_compute; reflexivity); unfold Q2R; cbn; lra).
  assert (DZ : Q2R (r_dZ ex_rect) = / 8) by (rewrite (Qeq_eqR _ (1 # 8)) by (vm_compute; reflexivity); unfold Q2R; cbn; lra).
  assert (PP := PI_RGT_0).
  set (sl a := nth a [9 / 140; 19 / 140] 0).
  assert (D := rect_derivative (fun _ => ""%string) (slab_trace (slab 1 (1 # 10) 0 1)) (Byfunc (slab 1 (1 # 10) 0 1)) ex_roots ex_fll (fun _ _ _ => 1%Q) true _ _ (slab_follows _) (slab_pointwise _) Rl ex_rgrid W 1%Z 2%Z 2%nat
    ltac:(lia) ltac:(lia) 9%Z 8%Z ltac:(lia) ltac:(lia) ltac:(lia) 0 slab_line slab_exact 2%nat ex_junk 0%Q 0%Z d m v 4%Z 1%Z 3%Z ex_rect (0 # 30)%Q (3 # 30)%Q (6 # 30)%Q F ripple_value 4%Q ripple 1
    (2 * PI * (2 * PI) * (2 * PI)) (1 + 2 * PI) (/ 1000) (2 * PI * (2 * PI) * (2 * PI))
    (fun a t => cos (2 * PI * (- / 16 - sl a * / 10) + 2 * PI * sl a * t) * (2 * PI * sl a) + 1)).
  cbv zeta in D. rewrite V2, V3, V4, V5, DR, DZ in D.
  specialize (D ltac:(lia) Ed Em Ev ltac:(reflexivity) ltac:(reflexivity) ltac:(reflexivity) ltac:(reflexivity) ltac:(reflexivity) ltac:(reflexivity) ltac:(reflexivity) ltac:(reflexivity) ltac:(lia) ltac:(cbn; lia) ltac:(lia)).
  assert (H1 : forall a y, (a < Z.to_nat 2)%nat -> In y [(0 # 30)%Q; (6 # 30)%Q] ->
     -2 / 7 + 0 <= fst (slab_line (place_R ex_rect (inject_Z 4 + nth a (hs ex_roots 2) 0)%Q) (- / 16) (Q2R (3 # 30)) (Q2R y)) < 2 / 7 - 0 /\
     -7 / 16 + 0 <= snd (slab_line (place_R ex_rect (inject_Z 4 + nth a (hs ex_roots 2) 0)%Q) (- / 16) (Q2R (3 # 30)) (Q2R y))).
  { intros a y Ha [<-|[<-|[]]]; destruct (N a Ha) as [-> | ->]; unfold slab_line; cbn [fst snd]; rewrite ?V0, ?V1, ?Y0, ?Y1, ?Y2; lra. }
  specialize (D H1 HF). clear H1.
  assert (H2 : forall c', evolving m c' -> (Qabs (ripple_value c') <= 4)%Q).
  { intros [[i j] k] Hc. apply Rle_Qle. rewrite Q2R_abs. assert (Q4 : Q2R 4 = 4) by (unfold Q2R; cbn; lra). rewrite Q4. assert (X1 := ripple_near i j k).
    unfold ripple in X1. set (px := place_R _ _) in X1. set (pz := place_Z _ _) in X1.
    assert (S1 := SIN_bound px). assert (S2 := SIN_bound (2 * PI * pz)). assert (Hj : (0 <= j < 3)%Z) by (destruct Hc as (_ & Hj & _); rewrite M2 in Hj; exact Hj).
    assert (0 <= IZR j) by (apply IZR_le; lia). assert (IZR j <= 3) by (apply IZR_le; lia). apply Rabs_le. unfold Rabs in X1. destruct (Rcase_abs _) in X1; lra. }
  specialize (D H2 ripple_smooth). clear H2.
  assert (H3 : forall x z y, ripple x (z + 8 * / 8) y = ripple x z y).
  { intros x z y. unfold ripple. replace (2 * PI * (z + 8 * / 8)) with (2 * PI * z + 2 * PI) by field. rewrite sin_plus, sin_2PI, cos_2PI. ring. }
  specialize (D H3 ltac:(lra)). clear H3.
  assert (H4 : forall i' k' o y, In (o, y) [(1%Z, (6 # 30)%Q); ((-1)%Z, (0 # 30)%Q)] -> (1 <= i' < 9 - 1)%Z -> (0 <= k' < 8)%Z ->
     Rabs (Q2R (ripple_value (i', (1 + o) mod ny ex_rgrid, k')%Z) - ripple (place_R ex_rect (inject_Z i')) (place_Z ex_rect (inject_Z k')) (Q2R y)) <= / 1000).
  { intros i' k' o y Hy _ _. assert (X1 := ripple_near i' ((1 + o) mod ny ex_rgrid) k'). destruct Hy as [E|[E|[]]]; injection E as <- <-; rewrite ?Y0, ?Y2.
    - change ((1 + 1) mod ny ex_rgrid)%Z with 2%Z in *. exact X1.
    - change ((1 + -1) mod ny ex_rgrid)%Z with 0%Z in *. replace (0 / 10) with 0 in X1 by field. exact X1. }
  specialize (D H4). clear H4.
  assert (H5 : forall a, (a < Z.to_nat 2)%nat ->
     smooth (2 * PI * (2 * PI) * (2 * PI)) (fun t => ripple (fst (slab_line (place_R ex_rect (inject_Z 4 + nth a (hs ex_roots 2) 0)%Q) (- / 16) (Q2R (3 # 30)) t)) (snd (slab_line (place_R ex_rect (inject_Z 4 + nth a (hs ex_roots 2) 0)%Q) (- / 16) (Q2R (3 # 30)) t)) t)
       (fun t => cos (2 * PI * (- / 16 - sl a * / 10) + 2 * PI * sl a * t) * (2 * PI * sl a) + 1)).
  { intros a Ha. set (Ra := place_R ex_rect _). assert (Es : / 10 + Ra = sl a) by (unfold Ra, sl; destruct (N a Ha) as [-> | ->]; cbn [nth]; rewrite ?V0, ?V1; lra).
    assert (Bs : 0 <= sl a <= 1) by (unfold sl; destruct (N a Ha) as [-> | ->]; cbn [nth]; lra).
    apply (smooth_ext _ (fun t => sin (2 * PI * (- / 16 - sl a * / 10) + 2 * PI * sl a * t) + (sin Ra + 1 * t)) _ (fun t => cos (2 * PI * (- / 16 - sl a * / 10) + 2 * PI * sl a * t) * (2 * PI * sl a) + 1)); [|reflexivity|].
    - intros t. unfold ripple, slab_line. cbn [fst snd]. rewrite Es, Y1. replace (2 * PI * (- / 16 + sl a * (t - / 10))) with (2 * PI * (- / 16 - sl a * / 10) + 2 * PI * sl a * t) by ring. ring.
    - apply (smooth_plus_line _ (fun t => sin (2 * PI * (- / 16 - sl a * / 10) + 2 * PI * sl a * t)) (fun t => cos (2 * PI * (- / 16 - sl a * / 10) + 2 * PI * sl a * t) * (2 * PI * sl a))).
      apply (smooth_le (1 * (2 * PI * sl a * (2 * PI * sl a) * (2 * PI * sl a)))); [|apply (smooth_scaled 1 sin cos); [apply Rmult_le_pos; lra|exact sin_smooth]].
      assert (0 <= 2 * PI * sl a <= 2 * PI) by (split; [apply Rmult_le_pos; lra|]; rewrite <- (Rmult_1_r (2 * PI)) at 2; apply Rmult_le_compat_l; lra).
      rewrite Rmult_1_l. apply Rmult_le_compat; try lra; [apply Rmult_le_pos; lra|apply Rmult_le_compat; lra]. }
  specialize (D H5). clear H5. rewrite Y1, Y2 in D. cbn [map seq Z.to_nat Pos.to_nat Pos.iter_op Init.Nat.add total_R fold_right] in D.
  assert (W0 : Q2R (nth 0 (node_weights ex_roots 2) 0%Q) = / 2) by (rewrite (Qeq_eqR _ (1 # 2)) by (vm_compute; reflexivity); unfold Q2R; cbn; lra).
  assert (W1 : Q2R (nth 1 (node_weights ex_roots 2) 0%Q) = / 2) by (rewrite (Qeq_eqR _ (1 # 2)) by (vm_compute; reflexivity); unfold Q2R; cbn; lra).
  change (Pos.to_nat 2) with 2%nat in D. cbn [map seq total_R] in D. rewrite W0, W1 in D. unfold sl in D. cbn [nth] in D.
  replace (2 * PI * (- / 16 - 9 / 140 * / 10) + 2 * PI * (9 / 140) * / 10) with (2 * PI * (- / 16)) in D by ring.
  replace (2 * PI * (- / 16 - 19 / 140 * / 10) + 2 * PI * (19 / 140) * / 10) with (2 * PI * (- / 16)) in D by ring.
  assert (Q4 : Q2R 4 = 4) by (unfold Q2R; cbn; lra). rewrite Q4 in D. replace (2 / 10 - / 10) with (/ 10) in D by field.
  set (c := cos _) in D |- *. set (A := Q2R (row_apply (leg_row v Fwd _) F)) in D |- *. set (B := Q2R (row_apply (leg_row v Bwd _) F)) in D |- *.
  match type of D with Rabs ?x <= ?y => match goal with |- Rabs ?x' <= ?y' => assert (Ex : x = x') by ring; assert (Ey : y = y') by field; rewrite <- Ex, <- Ey; exact D end end.
Qed.
