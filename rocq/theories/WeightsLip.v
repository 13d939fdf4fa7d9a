(** The rows depend continuously on the maps. *)
From Coq Require Import List ZArith QArith Qround Qabs Lia Lqa Bool.
From Verif Require Import Prelude PreludeFacts ProgressProofs WeightsModel WeightsSpec WeightsInput WeightsRows WeightsTop.
Import ListNotations.
Open Scope Q_scope.

Lemma prod_bound a b A B : - A <= a <= A -> - B <= b <= B -> - (A * B) <= a * b <= A * B.
Proof. intros HA HB. split; nra. Qed.

Lemma hermite_lip p0 p1 p2 p3 u v M : 0 <= u <= 1 -> 0 <= v <= 1 ->
  Qabs p0 <= M -> Qabs p1 <= M -> Qabs p2 <= M -> Qabs p3 <= M ->
  Qabs (hermite p0 p1 p2 p3 u - hermite p0 p1 p2 p3 v) <= 4 * M * Qabs (u - v).
Proof.
  intros Hu Hv P0 P1 P2 P3.
  set (q0 := (1 # 2) * (- (u * u + u * v + v * v) + 2 * (u + v) - 1)).
  set (q1 := (1 # 2) * (3 * (u * u + u * v + v * v) - 5 * (u + v))).
  set (q2 := (1 # 2) * (- (3) * (u * u + u * v + v * v) + 4 * (u + v) + 1)).
  set (q3 := (1 # 2) * ((u * u + u * v + v * v) - (u + v))).
  assert (E : hermite p0 p1 p2 p3 u - hermite p0 p1 p2 p3 v == (q0 * p0 + q1 * p1 + q2 * p2 + q3 * p3) * (u - v)).
  { unfold hermite, q0, q1, q2, q3. cbv zeta. field. }
  rewrite E, Qabs_Qmult. apply Qmult_le_compat_r; [|apply Qabs_nonneg].
  set (t := u * u + u * v + v * v). set (s := u + v).
  assert (S0 : 0 <= s <= 2) by (unfold s; lra).
  assert (T1 : (3 # 4) * (s * s) <= t) by (unfold t, s; assert (X := Qsq_nonneg (u - v)); nra).
  assert (T2 : t <= s * s) by (unfold t, s; nra).
  assert (T3 : t <= s * s - s + 1) by (unfold t, s; assert (0 <= (1 - u) * (1 - v)) by (apply Qmult_le_0_compat; lra); nra).
  assert (X1 := Qsq_nonneg (s - 1)). assert (X2 := Qsq_nonneg (s - (10 # 9))). assert (X3 := Qsq_nonneg (s - (8 # 9))). assert (X4 := Qsq_nonneg (s - (4 # 3))). assert (X5 := Qsq_nonneg (s - (2 # 3))).
  assert (SS : 0 <= s * (2 - s)) by (apply Qmult_le_0_compat; lra).
  assert (B0 : - (1 # 2) <= q0 <= 1 # 2) by (unfold q0; fold t s; split; lra).
  assert (B1 : - (3 # 2) <= q1 <= 3 # 2) by (unfold q1; fold t s; split; lra).
  assert (B2 : - (3 # 2) <= q2 <= 3 # 2) by (unfold q2; fold t s; split; lra).
  assert (B3 : - (1 # 2) <= q3 <= 1 # 2) by (unfold q3; fold t s; split; lra).
  apply Qabs_Qle_condition in P0, P1, P2, P3. apply Qabs_Qle_condition.
  assert (C0 := prod_bound _ _ _ _ B0 P0). assert (C1 := prod_bound _ _ _ _ B1 P1). assert (C2 := prod_bound _ _ _ _ B2 P2). assert (C3 := prod_bound _ _ _ _ B3 P3). lra.
Qed.
Lemma hermite_0 p0 p1 p2 p3 u : u == 0 -> hermite p0 p1 p2 p3 u == p1.
Proof. intros E. unfold hermite. cbv zeta. rewrite E. field. Qed.
Lemma hermite_1 p0 p1 p2 p3 u : u == 1 -> hermite p0 p1 p2 p3 u == p2.
Proof. intros E. unfold hermite. cbv zeta. rewrite E. field. Qed.

Section Interp.
Variable F : Z -> Q.
Variable M : Q.
Hypothesis HF : forall i, Qabs (F i) <= M.

Lemma M_pos : 0 <= M.
Proof. apply Qle_trans with (2 := HF 0). apply Qabs_nonneg. Qed.
Lemma interp1_bound x : Qabs (interp1 F x) <= (5 # 4) * M.
Proof. unfold interp1. cbv zeta. assert (B := Qfloor_bound x). apply hermite_bound; try apply HF; lra. Qed.
Lemma interp1_up x : let n := (Qfloor x + 1)%Z in Qabs (interp1 F x - F n) <= 4 * M * (inject_Z n - x).
Proof.
  cbv zeta. unfold interp1. cbv zeta. assert (B := Qfloor_bound x). set (b := Qfloor x) in *.
  assert (E := hermite_1 (F (b - 1)%Z) (F b) (F (b + 1)%Z) (F (b + 2)%Z) 1 (Qeq_refl _)).
  assert (L := hermite_lip (F (b - 1)%Z) (F b) (F (b + 1)%Z) (F (b + 2)%Z) (x - inject_Z b) 1 M ltac:(lra) ltac:(lra) (HF _) (HF _) (HF _) (HF _)).
  rewrite E in L. rewrite (Qabs_neg (x - inject_Z b - 1)) in L by lra. rewrite inject_Z_plus. change (inject_Z 1) with 1.
  setoid_replace (inject_Z b + 1 - x) with (- (x - inject_Z b - 1)) by ring. exact L.
Qed.
Lemma interp1_down x : Qabs (interp1 F x - F (Qfloor x)) <= 4 * M * (x - inject_Z (Qfloor x)).
Proof.
  unfold interp1. cbv zeta. assert (B := Qfloor_bound x). set (b := Qfloor x) in *.
  assert (E := hermite_0 (F (b - 1)%Z) (F b) (F (b + 1)%Z) (F (b + 2)%Z) 0 (Qeq_refl _)).
  assert (L := hermite_lip (F (b - 1)%Z) (F b) (F (b + 1)%Z) (F (b + 2)%Z) (x - inject_Z b) 0 M ltac:(lra) ltac:(lra) (HF _) (HF _) (HF _) (HF _)).
  rewrite E in L. rewrite (Qabs_pos (x - inject_Z b - 0)) in L by lra.
  setoid_replace (x - inject_Z b) with (x - inject_Z b - 0) at 2 by ring. exact L.
Qed.
Lemma interp1_lip_le x y : x <= y -> Qabs (interp1 F x - interp1 F y) <= 4 * M * (y - x).
Proof.
  intros H. assert (MP := M_pos). assert (BX := Qfloor_bound x). assert (BY := Qfloor_bound y). assert (FL := Qfloor_resp_le _ _ H).
  destruct (Qlt_le_dec (y - x) 1) as [D|D].
  - destruct (Z.eq_dec (Qfloor x) (Qfloor y)) as [E|N].
    + unfold interp1. rewrite E in *. cbv zeta. set (b := Qfloor y) in *.
      assert (L := hermite_lip (F (b - 1)%Z) (F b) (F (b + 1)%Z) (F (b + 2)%Z) (x - inject_Z b) (y - inject_Z b) M ltac:(lra) ltac:(lra) (HF _) (HF _) (HF _) (HF _)).
      rewrite (Qabs_neg (x - inject_Z b - (y - inject_Z b))) in L by lra.
      setoid_replace (y - x) with (- (x - inject_Z b - (y - inject_Z b))) by ring. exact L.
    + assert (E : Qfloor y = (Qfloor x + 1)%Z).
      { assert (inject_Z (Qfloor y) < inject_Z (Qfloor x + 2)) by (rewrite inject_Z_plus; change (inject_Z 2) with 2; lra). rewrite <- Zlt_Qlt in H0. lia. }
      assert (A := interp1_up x). assert (B := interp1_down y). cbv zeta in A. rewrite E in B. set (n := (Qfloor x + 1)%Z) in *.
      apply Qabs_Qle_condition in A, B. apply Qabs_Qle_condition. split; lra.
  - assert (A := interp1_bound x). assert (B := interp1_bound y). apply Qabs_Qle_condition in A, B. apply Qabs_Qle_condition. split; nra.
Qed.
Lemma interp1_lip x y : Qabs (interp1 F x - interp1 F y) <= 4 * M * Qabs (x - y).
Proof.
  destruct (Qlt_le_dec x y) as [H|H].
  - rewrite (Qabs_neg (x - y)) by lra. setoid_replace (- (x - y)) with (y - x) by ring. apply interp1_lip_le. lra.
  - rewrite (Qabs_pos (x - y)) by lra. rewrite Qabs_Qminus. apply interp1_lip_le. exact H.
Qed.
End Interp.
Lemma hermite_diff p0 p1 p2 p3 q0 q1 q2 q3 u : hermite p0 p1 p2 p3 u - hermite q0 q1 q2 q3 u == hermite (p0 - q0) (p1 - q1) (p2 - q2) (p3 - q3) u.
Proof. unfold hermite. cbv zeta. field. Qed.
Lemma interp2_lip (F : Z -> Z -> Q) M x z x' z' : (forall i k, Qabs (F i k) <= M) ->
  Qabs (interp2 F x z - interp2 F x' z') <= 5 * M * (Qabs (x - x') + Qabs (z - z')).
Proof.
  intros HF. unfold interp2.
  assert (A := interp1_lip (fun i => interp1 (F i) z) ((5 # 4) * M) (fun i => interp1_bound (F i) M (HF i) z) x x').
  assert (B : Qabs (interp1 (fun i => interp1 (F i) z) x' - interp1 (fun i => interp1 (F i) z') x') <= (5 # 4) * (4 * M * Qabs (z - z'))).
  { unfold interp1 at 1 3. cbv zeta. rewrite hermite_diff. assert (C := Qfloor_bound x'). apply hermite_bound; try lra; apply interp1_lip; apply HF. }
  apply Qabs_Qle_condition in A, B. apply Qabs_Qle_condition.
  assert (NA := Qabs_nonneg (x - x')). assert (NB := Qabs_nonneg (z - z')). split; nra.
Qed.

(** ** Averages *)
Lemma qsum_diff (f g : nat -> Q) (B : nat -> Q) l : (forall s, In s l -> Qabs (f s - g s) <= B s) -> Qabs (qsum (map f l) - qsum (map g l)) <= qsum (map B l).
Proof.
  induction l as [|s l IH]; intros H; cbn [map].
  - unfold qsum. cbn. lra.
  - rewrite !qsum_cons. assert (A := H s (or_introl eq_refl)). assert (C := IH (fun s' I => H s' (or_intror I))).
    apply Qabs_Qle_condition in A, C. apply Qabs_Qle_condition. split; lra.
Qed.
Lemma qsum_scaled (f : nat -> Q) a l : qsum (map (fun s => f s * a) l) == qsum (map f l) * a.
Proof. induction l as [|s l IH]; cbn [map]; [unfold qsum; cbn; ring|]. rewrite !qsum_cons, IH. ring. Qed.

Lemma average_diff m n X w c g h B : Forall (fun q => 0 < q) w -> length w = n -> some_inside m n X c ->
  (forall s, (s < n)%nat -> leavesb m (X c s) = false -> Qabs (g s - h s) <= B) ->
  Qabs (inside_average m n X w c g - inside_average m n X w c h) <= B.
Proof.
  intros HW HL (s0 & Hs0 & I0) HB.
  assert (LB : forall x, leavesb m x = false <-> ~ leaves m x).
  { intros x. unfold leavesb, leaves. rewrite negb_false_iff, andb_true_iff, !Qle_bool_iff. split.
    - intros [A C] [D|D]; lra.
    - intros D. split; apply Qnot_lt_le; intros C; apply D; [left|right]; exact C. }
  assert (WP : forall s, (s < n)%nat -> 0 < nth s w 0).
  { intros s Hs. rewrite Forall_forall in HW. apply HW, nth_In. lia. }
  assert (AP : 0 < inside_area m n X w c).
  { unfold inside_area. assert (G : forall l, (forall s, In s l -> (s < n)%nat) -> 0 <= qsum (map (fun s => if leavesb m (X c s) then 0 else nth s w 0) l)).
    { induction l as [|s l IH]; intros Hl; [unfold qsum; cbn; lra|]. cbn [map]. rewrite qsum_cons. assert (Q1 := IH (fun s' I => Hl s' (or_intror I))). assert (Q2 := WP s (Hl s (or_introl eq_refl))). destruct (leavesb m (X c s)); lra. }
    destruct (in_split s0 (seq 0 n)) as (l1 & l2 & E); [apply in_seq; lia|].
    assert (IN : forall s, In s (l1 ++ s0 :: l2) -> (s < n)%nat) by (intros s; rewrite <- E; rewrite in_seq; lia).
    rewrite E, map_app, qsum_app. cbn [map]. rewrite qsum_cons. apply LB in I0. rewrite I0.
    assert (Q1 := G l1 ltac:(intros s I; apply IN, in_or_app; left; exact I)). assert (Q2 := G l2 ltac:(intros s I; apply IN, in_or_app; right; right; exact I)). assert (Q3 := WP s0 Hs0). lra. }
  unfold inside_average. set (A := inside_area m n X w c) in *.
  setoid_replace (qsum (map (fun s => if leavesb m (X c s) then 0 else nth s w 0 * g s) (seq 0 n)) / A - qsum (map (fun s => if leavesb m (X c s) then 0 else nth s w 0 * h s) (seq 0 n)) / A)
    with ((qsum (map (fun s => if leavesb m (X c s) then 0 else nth s w 0 * g s) (seq 0 n)) - qsum (map (fun s => if leavesb m (X c s) then 0 else nth s w 0 * h s) (seq 0 n))) / A) by (field; intros C; lra).
  unfold Qdiv. rewrite Qabs_Qmult. rewrite (Qabs_pos (/ A)) by (apply Qlt_le_weak, Qinv_lt_0_compat, AP).
  apply Qle_shift_div_r; [exact AP|].
  apply Qle_trans with (qsum (map (fun s => (if leavesb m (X c s) then 0 else nth s w 0) * B) (seq 0 n))).
  - apply qsum_diff. intros s Hs. apply in_seq in Hs. destruct (leavesb m (X c s)) eqn:E.
    + setoid_replace (0 - 0) with 0 by ring. change (Qabs 0) with 0. lra.
    + setoid_replace (nth s w 0 * g s - nth s w 0 * h s) with (nth s w 0 * (g s - h s)) by ring. assert (P := WP s ltac:(lia)). rewrite Qabs_Qmult, (Qabs_pos (nth s w 0)) by lra.
      assert (Q1 := HB s ltac:(lia) E). nra.
  - rewrite qsum_scaled. unfold A, inside_area. lra.
Qed.
Lemma average_same m m' n X X' w c g : (forall s, (s < n)%nat -> leavesb m (X c s) = leavesb m' (X' c s)) ->
  inside_average m n X w c g == inside_average m' n X' w c g.
Proof.
  intros H. unfold inside_average, inside_area.
  rewrite (map_ext_in (fun s => if leavesb m (X c s) then 0 else nth s w 0 * g s) (fun s => if leavesb m' (X' c s) then 0 else nth s w 0 * g s)) by (intros s Hs; apply in_seq in Hs; rewrite H by lia; reflexivity).
  rewrite (map_ext_in (fun s => if leavesb m (X c s) then 0 else nth s w 0) (fun s => if leavesb m' (X' c s) then 0 else nth s w 0)) by (intros s Hs; apply in_seq in Hs; rewrite H by lia; reflexivity).
  reflexivity.
Qed.

Theorem rows_continuous jw jc jw' jc' m m' n X Zm X' Zm' w : valid_maps m n X Zm w -> valid_maps m' n X' Zm' w ->
  (m_nx m' = m_nx m /\ m_ny m' = m_ny m /\ m_nz m' = m_nz m /\ m_mxg m' = m_mxg m) ->
  forall v v', calculate_parallel_map_operators jw jc m = Ok v -> calculate_parallel_map_operators jw' jc' m' = Ok v' ->
  forall d c f f' g M delta, evolving m c -> some_inside m n (X d) c ->
  (forall s, (s < n)%nat -> (leaves m (X d c s) <-> leaves m (X' d c s)) /\
     (~ leaves m (X d c s) -> 0 <= Zm d c s /\ 0 <= Zm' d c s /\ Qabs (X d c s - X' d c s) <= delta /\ Qabs (Zm d c s - Zm' d c s) <= delta)) ->
  (forall c', evolving m c' -> f (wv_cell_number v c') == g c' /\ f' (wv_cell_number v' c') == g c') ->
  (forall c', evolving m c' -> Qabs (g c') <= M) ->
  Qabs (row_apply (leg_row v d (lo_interior_number (wv_dir d v) c)) f - row_apply (leg_row v' d (lo_interior_number (wv_dir d v') c)) f')
    <= (10 * delta + (1 # 1000000000)) * M.
Proof.
  intros V V' (D1 & D2 & D3 & D4) v v' Hv Hv' d c f f' g M delta He Hi Hs Hf HM.
  assert (EV : forall c', evolving m' c' <-> evolving m c') by (intros [[x y] z]; unfold evolving; rewrite D1, D2, D3, D4; reflexivity).
  assert (LV : forall x, leaves m' x <-> leaves m x) by (intros x; unfold leaves; rewrite D1, D4; reflexivity).
  assert (LB : forall mm x, leavesb mm x = false <-> ~ leaves mm x).
  { intros mm x. unfold leavesb, leaves. rewrite negb_false_iff, andb_true_iff, !Qle_bool_iff. split.
    - intros [A C] [D|D]; lra.
    - intros D. split; apply Qnot_lt_le; intros C; apply D; [left|right]; exact C. }
  assert (I' : some_inside m' n (X' d) c).
  { destruct Hi as (s & Hs1 & Hs2). exists s. split; [exact Hs1|]. rewrite LV. intros C. apply Hs2, (Hs s Hs1), C. }
  assert (A := decoded_interp jw jc m n X Zm w V v Hv d c f g M He Hi (fun s H1 H2 => proj1 (proj2 (Hs s H1) H2)) (fun c' H => proj1 (Hf c' H)) HM).
  assert (B := decoded_interp jw' jc' m' n X' Zm' w V' v' Hv' d c f' g M (proj2 (EV c) He) I'
    (fun s H1 H2 => proj1 (proj2 (proj2 (Hs s H1) (fun C => H2 (proj2 (LV _) (proj1 (proj1 (Hs s H1)) C)))))) (fun c' H => proj2 (Hf c' (proj1 (EV c') H))) (fun c' H => HM c' (proj1 (EV c') H))).
  assert (EX : forall i k, extend m' d c g i k = extend m d c g i k).
  { intros i k. unfold extend, next_y. rewrite D1, D2, D3, D4. reflexivity. }
  assert (GB : forall i k, Qabs (extend m d c g i k) <= M).
  { intros i k. unfold extend. apply HM. destruct c as [[x y] z]. cbn in He. unfold evolving.
    assert (0 < m_ny m)%Z by lia. assert (0 < m_nz m)%Z by lia. split; [|split].
    - unfold clampZ. destruct (Z.ltb_spec i (m_mxg m)); [lia|]. destruct (Z.ltb_spec (m_nx m - m_mxg m - 1) i); lia.
    - unfold next_y. destruct d; apply Z.mod_pos_bound; lia.
    - apply Z.mod_pos_bound; lia. }
  assert (C : Qabs (inside_average m n (X d) w c (fun s => interp2 (extend m d c g) (X d c s) (Zm d c s)) - inside_average m n (X d) w c (fun s => interp2 (extend m d c g) (X' d c s) (Zm' d c s))) <= 10 * delta * M).
  { apply average_diff; [exact (vm_pos _ _ _ _ _ V)|exact (vm_len _ _ _ _ _ V)|exact Hi|]. intros s H1 H2. apply LB in H2. destruct (proj2 (Hs s H1) H2) as (_ & _ & Q1 & Q2).
    apply Qle_trans with (1 := interp2_lip _ M _ _ _ _ GB). assert (0 <= M) by (apply Qle_trans with (2 := GB 0%Z 0%Z); apply Qabs_nonneg). nra. }
  assert (D : inside_average m n (X d) w c (fun s => interp2 (extend m d c g) (X' d c s) (Zm' d c s)) == inside_average m' n (X' d) w c (fun s => interp2 (extend m' d c g) (X' d c s) (Zm' d c s))).
  { rewrite (average_same m m' n (X d) (X' d) w c).
    - unfold inside_average. apply Qmult_comp; [|reflexivity].
      assert (G : forall l, qsum (map (fun s => if leavesb m' (X' d c s) then 0 else nth s w 0 * interp2 (extend m d c g) (X' d c s) (Zm' d c s)) l) = qsum (map (fun s => if leavesb m' (X' d c s) then 0 else nth s w 0 * interp2 (extend m' d c g) (X' d c s) (Zm' d c s)) l)).
      { intros l. f_equal. apply map_ext. intros s. unfold interp2, interp1. cbv zeta. rewrite !EX. reflexivity. }
      rewrite G. reflexivity.
    - intros s H1. apply eq_true_iff_eq. rewrite <- !not_false_iff_true, !LB, LV. destruct (Hs s H1) as [Q1 _]. tauto. }
  rewrite D in C. apply Qabs_Qle_condition in A, B, C. apply Qabs_Qle_condition.
  set (r1 := row_apply _ f) in *. set (r2 := row_apply _ f') in *. split; lra.
Qed.
