(** Values of the leg operator rows, and totality of the whole computation. *)
From Coq Require Import List ZArith QArith Qround Qabs Lia Lqa Bool Permutation.
From Verif Require Import Prelude PreludeFacts WeightsModel WeightsSpec WeightsNumbering WeightsOperators WeightsCSR.
Import ListNotations.
Open Scope Q_scope.

(** ** Sub-samples as a sequence *)

Lemma combine_map_map {A B C} (f : A -> B) (g : A -> C) l :
  combine (map f l) (map g l) = map (fun a => (f a, g a)) l.
Proof. induction l; cbn; congruence. Qed.

Lemma list_as_map {A} (l : list A) d : map (fun i => nth i l d) (seq 0 (length l)) = l.
Proof.
  induction l as [|a l IH]; [reflexivity|]. cbn [length seq map]. f_equal.
  rewrite <- seq_shift, map_map. exact IH.
Qed.

Lemma samples_seq xts zts subw nx mxg c :
  fst zts = fst xts -> length subw = fst xts ->
  samples (row4 xts c) (row4 zts c) subw (mask_of xts nx mxg c) =
  map (fun s => (snd xts c s, snd zts c s, nth s subw 0, hits_radial_boundary (snd xts c s) nx mxg))
      (seq 0 (fst xts)).
Proof.
  intros Hz Hw. unfold samples, mask_of, row4. rewrite Hz.
  rewrite <- (list_as_map subw 0) at 1. rewrite Hw, map_map.
  rewrite !combine_map_map. reflexivity.
Qed.

Lemma qsum_select_seq (h : nat -> bool) (w : nat -> Q) l :
  qsum (select (map h l) (map w l)) == qsum (map (fun s => if h s then w s else 0) l).
Proof.
  induction l as [|a l IH]; cbn; [reflexivity|]. destruct (h a); cbn [qsum]; rewrite IH; ring.
Qed.

Lemma select_mask_sum xts nx mxg c subw (neg : bool -> bool) :
  length subw = fst xts ->
  qsum (select (map neg (mask_of xts nx mxg c)) subw) ==
  qsum (map (fun s => if neg (hits_radial_boundary (snd xts c s) nx mxg) then nth s subw 0 else 0) (seq 0 (fst xts))).
Proof.
  intros Hw. unfold mask_of, row4. rewrite !map_map.
  rewrite <- (list_as_map subw 0) at 1. rewrite Hw.
  apply (qsum_select_seq (fun s => neg (hits_radial_boundary (snd xts c s) nx mxg)) (fun s => nth s subw 0)).
Qed.

(** ** Bounds *)

Lemma Qabs_mult_le a b A B : Qabs a <= A -> Qabs b <= B -> Qabs (a * b) <= A * B.
Proof.
  intros Ha Hb. rewrite Qabs_Qmult.
  pose proof (Qabs_nonneg a). pose proof (Qabs_nonneg b). nra.
Qed.

Lemma Qabs_plus4 a b c d A B C D : Qabs a <= A -> Qabs b <= B -> Qabs c <= C -> Qabs d <= D ->
  Qabs (a + b + c + d) <= A + B + C + D.
Proof.
  intros. eapply Qle_trans; [apply Qabs_triangle|]. apply Qplus_le_compat; [|assumption].
  eapply Qle_trans; [apply Qabs_triangle|]. apply Qplus_le_compat; [|assumption].
  eapply Qle_trans; [apply Qabs_triangle|]. apply Qplus_le_compat; assumption.
Qed.

Lemma Qsq_nonneg (a : Q) : 0 <= a * a.
Proof.
  destruct (Qlt_le_dec a 0) as [L|L].
  - setoid_replace (a * a) with ((- a) * (- a)) by ring. apply Qmult_le_0_compat; lra.
  - now apply Qmult_le_0_compat.
Qed.

Lemma hermite_bound p0 p1 p2 p3 u M :
  0 <= u -> u <= 1 -> Qabs p0 <= M -> Qabs p1 <= M -> Qabs p2 <= M -> Qabs p3 <= M ->
  Qabs (hermite p0 p1 p2 p3 u) <= (5#4) * M.
Proof.
  intros U0 U1 P0 P1 P2 P3.
  destruct (catmull_rom_4 u) as (w0 & w1 & w2 & w3 & E & E0 & E1 & E2 & E3).
  rewrite <- (catmull_rom_hermite _ _ _ _ _ _ _ _ _ E).
  assert (M0 : 0 <= M) by (eapply Qle_trans; [apply Qabs_nonneg|exact P0]).
  assert (V0 : 0 <= 1 - u) by lra.
  assert (P2u : 0 <= u * u) by (apply Qmult_le_0_compat; assumption).
  assert (A0 : Qabs w0 <= (1#2) * (u * ((1-u) * (1-u)))).
  { assert (0 <= u * ((1-u) * (1-u))) by (repeat apply Qmult_le_0_compat; assumption).
    assert (E0' : w0 == - ((1#2) * (u * ((1-u) * (1-u))))) by (rewrite E0; ring).
    rewrite E0', Qabs_opp, Qabs_pos by lra. apply Qle_refl. }
  assert (A1 : Qabs w1 <= (1#2) * (3*(u*u*u) - 5*(u*u) + 2)).
  { assert (0 <= (1 - u) * (2 + 2*u - 3*(u*u))) by (apply Qmult_le_0_compat; nra).
    assert (E1' : w1 == (1#2) * ((1 - u) * (2 + 2*u - 3*(u*u)))) by (rewrite E1; ring).
    rewrite Qabs_pos; [rewrite E1; apply Qle_refl|]. rewrite E1'. lra. }
  assert (A2 : Qabs w2 <= (1#2) * (- (3)*(u*u*u) + 4*(u*u) + u)).
  { assert (0 <= u * (1 + 4*u - 3*(u*u))) by (apply Qmult_le_0_compat; nra).
    assert (E2' : w2 == (1#2) * (u * (1 + 4*u - 3*(u*u)))) by (rewrite E2; ring).
    rewrite Qabs_pos; [rewrite E2; apply Qle_refl|]. rewrite E2'. lra. }
  assert (A3 : Qabs w3 <= (1#2) * (u * u * (1-u))).
  { assert (0 <= u * u * (1-u)) by (repeat apply Qmult_le_0_compat; assumption).
    assert (E3' : w3 == - ((1#2) * (u * u * (1-u)))) by (rewrite E3; ring).
    rewrite E3', Qabs_opp, Qabs_pos by lra. apply Qle_refl. }
  eapply Qle_trans; [apply Qabs_plus4; apply Qabs_mult_le; eassumption|].
  assert (u * (1 - u) <= 1#4) by (pose proof (Qsq_nonneg (u - (1#2))); nra).
  setoid_replace ((1#2) * (u * ((1-u) * (1-u))) * M + (1#2) * (3*(u*u*u) - 5*(u*u) + 2) * M
    + (1#2) * (- (3)*(u*u*u) + 4*(u*u) + u) * M + (1#2) * (u * u * (1-u)) * M)
    with ((1 + u * (1 - u)) * M) by ring.
  apply Qmult_le_compat_r; lra.
Qed.

Global Instance hermite_Proper : Proper (Qeq ==> Qeq ==> Qeq ==> Qeq ==> Qeq ==> Qeq) hermite.
Proof. intros a a' Ha b b' Hb c c' Hc d d' Hd u u' Hu. unfold hermite. rewrite Ha, Hb, Hc, Hd, Hu. reflexivity. Qed.

Lemma frac_range x : 0 <= x -> 0 <= x - inject_Z (Qtrunc x) < 1.
Proof.
  intros H. rewrite Qtrunc_nonneg by assumption.
  pose proof (Qfloor_le x). pose proof (Qlt_floor x) as L. rewrite inject_Z_plus in L.
  change (inject_Z 1) with 1 in L. lra.
Qed.

(** ** The interior row of a cell *)

(** Kept weights *)
Lemma keep_exact a : a == 0 \/ tol_drop <= a \/ a <= - tol_drop -> keep a == a.
Proof.
  intros H. unfold keep. destruct (Qlt_bool (Qabs a) tol_drop) eqn:E; [|reflexivity].
  apply Qlt_bool_iff in E. destruct H as [H|[H|H]].
  - now rewrite H.
  - exfalso. rewrite Qabs_pos in E; [lra|]. unfold tol_drop in *. lra.
  - exfalso. rewrite Qabs_neg in E; [lra|]. unfold tol_drop in *. lra.
Qed.

(** Fractions for which no interpolation weight is dropped. *)
Definition clear_frac (u : Q) : Prop := u == 0 \/ (1#10000) <= u <= (9999#10000).

Lemma keep_weights x nx mxg a0 a1 a2 a3 :
  (0 <= mxg)%Z -> hits_radial_boundary x nx mxg = false ->
  clear_frac (x - inject_Z (Qfloor x)) -> wx_of nx mxg x = [a0; a1; a2; a3] ->
  keep a0 == a0 /\ keep a1 == a1 /\ keep a2 == a2 /\ keep a3 == a3.
Proof.
  intros Hm H U E. destruct (no_hit_base _ _ _ H Hm) as [T B].
  apply no_hit_range in H.
  set (u := x - inject_Z (Qfloor x)) in *.
  assert (R : u == 0 \/ (Qfloor x < nx - mxg - 1)%Z).
  { destruct (Z_lt_dec (Qfloor x) (nx - mxg - 1)) as [L|L]; [auto|]. left.
    pose proof (Qfloor_le x). assert (Eq : Qfloor x = (nx - mxg - 1)%Z) by lia.
    unfold u in *. rewrite Eq in *. lra. }
  unfold wx_of in E. rewrite T in E. fold u in E.
  destruct (catmull_rom_4 u) as (w0 & w1 & w2 & w3 & Ew & E0 & E1 & E2 & E3).
  pose proof (catmull_rom_sum u) as S. rewrite Ew in E, S. cbn [qsum] in S.
  destruct (shift_spec w0 w1 w2 w3 (Qfloor x) nx mxg) as (b0 & b1 & b2 & b3 & Eb & HF & _); [rewrite <- S; ring|assumption|].
  rewrite Eb in E. injection E as <- <- <- <-.
  set (xb := Qfloor x) in *.
  pose proof (HF (fun i => if (i =? xb - 1)%Z then 1 else 0)) as F0.
  pose proof (HF (fun i => if (i =? xb)%Z then 1 else 0)) as F1.
  pose proof (HF (fun i => if (i =? xb + 1)%Z then 1 else 0)) as F2.
  pose proof (HF (fun i => if (i =? xb + 2)%Z then 1 else 0)) as F3.
  clear HF Eb. cbn beta in *.
  assert (C : u == 0 \/ ((1#10000) <= u <= (9999#10000) /\ (xb < nx - mxg - 1)%Z)).
  { destruct R as [R|R]; [auto|]. destruct U; auto. }
  assert (D : b0 == (if (xb - 1 <? mxg)%Z then 0 else w0) /\
              b1 == (if (xb - 1 <? mxg)%Z then w0 + w1 else w1) + (if (nx - mxg - 1 <? xb + 1)%Z then w2 + w3 else 0) /\
              b2 == (if (nx - mxg - 1 <? xb + 1)%Z then 0 else if (nx - mxg - 1 <? xb + 2)%Z then w2 + w3 else w2) /\
              b3 == (if (nx - mxg - 1 <? xb + 2)%Z then 0 else w3)).
  { revert F0 F1 F2 F3. unfold clampZ.
    repeat match goal with |- context [Z.ltb ?p ?q] => destruct (Z.ltb_spec p q); try (exfalso; lia) end;
    repeat match goal with |- context [Z.eqb ?p ?q] => destruct (Z.eqb_spec p q); try (exfalso; lia) end;
    intros; repeat split; lra. }
  clear F0 F1 F2 F3. destruct D as (D0 & D1 & D2 & D3).
  destruct C as [C|[C L]].
  - rewrite C in E0, E1, E2, E3.
    assert (w0 == 0) by (rewrite E0; reflexivity). assert (w1 == 1) by (rewrite E1; reflexivity).
    assert (w2 == 0) by (rewrite E2; reflexivity). assert (w3 == 0) by (rewrite E3; reflexivity).
    assert (T1 : tol_drop <= 1) by discriminate.
    repeat split; apply keep_exact;
    repeat match goal with H : context [Z.ltb ?p ?q] |- _ => destruct (Z.ltb p q) end; 
    first [left; lra | right; left; lra].
  - assert (V : (1#10000) <= 1 - u) by lra.
    assert (V1 : 0 <= u) by lra. assert (V2 : 0 <= 1 - u) by lra.
    assert (UV : (1#100000000) * (1 - u) <= u * u * (1 - u)) by (apply Qmult_le_compat_r; nra).
    assert (VV : (1#100000000) * u <= (1-u) * (1-u) * u) by (apply Qmult_le_compat_r; nra).
    unfold tol_drop in *.
    assert (K0 : w0 <= - (1#10000000000)).
    { assert (X0 : w0 == - ((1#2) * ((1-u) * (1-u) * u))) by (rewrite E0; ring). rewrite X0.
      destruct (Qlt_le_dec u (1#2)).
      - assert ((1#4) * u <= (1-u)*(1-u)*u) by (apply Qmult_le_compat_r; nra). lra.
      - lra. }
    assert (K3 : w3 <= - (1#10000000000)).
    { assert (X0 : w3 == - ((1#2) * (u * u * (1-u)))) by (rewrite E3; ring). rewrite X0.
      destruct (Qlt_le_dec u (1#2)).
      - lra.
      - assert ((1#4) * (1-u) <= u*u*(1-u)) by (apply Qmult_le_compat_r; nra). lra. }
    assert (K01 : (1#10000000000) <= w0 + w1).
    { assert (X0 : w0 + w1 == (1#2) * ((1 - u) * (2 + u - 2 * (u*u)))) by (rewrite E0, E1; ring). rewrite X0.
      assert ((1 - u) * 1 <= (1 - u) * (2 + u - 2 * (u*u))) by (apply Qmult_le_l; nra). lra. }
    assert (K1 : (1#10000000000) <= w1) by lra.
    assert (K23 : (1#10000000000) <= w2 + w3).
    { assert (X0 : w2 + w3 == (1#2) * (u * (1 + 3 * u - 2 * (u*u)))) by (rewrite E2, E3; ring). rewrite X0.
      assert (u * 1 <= u * (1 + 3 * u - 2 * (u*u))) by (apply Qmult_le_l; nra). lra. }
    assert (K2 : (1#10000000000) <= w2) by lra.
    repeat split; apply keep_exact; unfold tol_drop;
    repeat match goal with H : context [Z.ltb ?p ?q] |- _ => destruct (Z.ltb_spec p q); try (exfalso; lia) end;
    first [left; lra | right; left; lra | right; right; lra].
Qed.

Section InteriorRow.
  Context (m : maps) (cs : cell_space) (fx bx : arr4) (d : dir) (xts zts : arr4) (subw : list Q) (c : cell).
  Hypothesis D : dims_ok m.
  Hypothesis CS : cs_spec m fx bx cs.
  Hypothesis Hz : fst zts = fst xts.
  Hypothesis Hw : length subw = fst xts.
  Hypothesis Hp : Forall (fun w => 0 < w) subw.
  Hypothesis Ic : interior m c.
  Hypothesis HI : hasI xts (m_nx m) (m_mxg m) c = true.

  Let hit (s : nat) := hits_radial_boundary (snd xts c s) (m_nx m) (m_mxg m).
  Let ss := seq 0 (fst xts).
  Let W := qsum (map (fun s => if hit s then 0 else nth s subw 0) ss).

  Definition colx (i k : Z) : Z :=
    col (m_nx m) (m_ny m) (m_nz m) (cs_cell_number cs) (snd (fst c)) (y_offset d) i k.

  Lemma mask_W : qsum (select (map negb (mask_of xts (m_nx m) (m_mxg m) c)) subw) == W.
  Proof.
    rewrite select_mask_sum by assumption. unfold W, hit, ss. apply qsum_map_ext. intros s _.
    destruct (hits_radial_boundary (snd xts c s) (m_nx m) (m_mxg m)); reflexivity.
  Qed.

  Lemma W_pos : 0 < W.
  Proof.
    rewrite <- mask_W. apply select_pos; [|assumption|].
    - rewrite map_length, mask_of_length. congruence.
    - rewrite existsb_map_negb. exact HI.
  Qed.

  (** weighted average over inside sub-samples *)
  Definition wavg (g : nat -> Q) : Q :=
    qsum (map (fun s => if hit s then 0 else (nth s subw 0 / W) * g s) ss).

  Lemma wavg_ext g h : (forall s, In s ss -> hit s = false -> g s == h s) -> wavg g == wavg h.
  Proof.
    intros H. unfold wavg. apply qsum_map_ext. intros s Hs. destruct (hit s) eqn:E; [reflexivity|].
    rewrite (H s Hs E). reflexivity.
  Qed.

  Lemma subw_pos s : In s ss -> 0 < nth s subw 0.
  Proof.
    intros Hs. unfold ss in Hs. apply in_seq in Hs. rewrite Forall_forall in Hp. apply Hp. apply nth_In. lia.
  Qed.

  Lemma wavg_1 : wavg (fun _ => 1) == 1.
  Proof.
    unfold wavg. transitivity (qsum (map (fun s => (/ W) * (if hit s then 0 else nth s subw 0)) ss)).
    - apply qsum_map_ext. intros s _. destruct (hit s); [ring|]. unfold Qdiv. ring.
    - rewrite qsum_map_scale. fold W. field. pose proof W_pos. lra.
  Qed.

  Lemma wavg_plus g h : wavg (fun s => g s + h s) == wavg g + wavg h.
  Proof.
    unfold wavg. rewrite <- qsum_map_plus. apply qsum_map_ext. intros s _. destruct (hit s); ring.
  Qed.

  Lemma wavg_bound g B : (forall s, In s ss -> hit s = false -> Qabs (g s) <= B) -> Qabs (wavg g) <= B.
  Proof.
    intros H. unfold wavg.
    apply Qle_trans with (qsum (map (fun s => B * (if hit s then 0 else nth s subw 0 / W * 1)) ss)).
    - apply qsum_abs_le. intros s Hs. destruct (hit s) eqn:E.
      + rewrite Qmult_0_r. discriminate.
      + rewrite Qabs_Qmult. specialize (H s Hs E). pose proof (subw_pos s Hs). pose proof W_pos.
        assert (0 < nth s subw 0 / W) by (apply Qlt_shift_div_l; lra).
        rewrite (Qabs_pos (nth s subw 0 / W)) by lra.
        pose proof (Qabs_nonneg (g s)). nra.
    - rewrite qsum_map_scale. fold (wavg (fun _ => 1)). rewrite wavg_1. lra.
  Qed.

  (** exact contribution of sample s including the dropped weights *)
  Definition sample_raw (f : Z -> Q) (s : nat) : Q :=
    row_apply (sample_ks (m_nx m) (m_ny m) (m_nz m) (m_mxg m) (cs_cell_number cs) (snd (fst c)) (y_offset d)
                 1 (snd xts c s, snd zts c s, 1, false)) f.

  Lemma D_mxg : (0 <= m_mxg m)%Z. Proof. exact (proj1 D). Qed.

  Lemma row_value f :
    row_apply (interior_row m cs xts zts subw d c) f == wavg (sample_raw f).
  Proof.
    unfold interior_row. rewrite row_apply_add_all. change (row_apply [] f) with 0. rewrite Qplus_0_l.
    unfold cell_ks. rewrite samples_seq by assumption.
    rewrite row_apply_flat_map, map_map. unfold wavg, ss. apply qsum_map_ext. intros s _.
    fold (hit s). unfold sample_raw. destruct (hit s) eqn:E; [reflexivity|].
    destruct (sample_value (m_nx m) (m_ny m) (m_nz m) (m_mxg m) (cs_cell_number cs) (snd (fst c)) (y_offset d)
                (qsum (select (map negb (mask_of xts (m_nx m) (m_mxg m) c)) subw)) D_mxg (snd xts c s) (snd zts c s)
                (nth s subw 0) f E) as (a0 & a1 & a2 & a3 & Ew & _ & _ & _ & _ & V).
    destruct (sample_value (m_nx m) (m_ny m) (m_nz m) (m_mxg m) (cs_cell_number cs) (snd (fst c)) (y_offset d)
                1 D_mxg (snd xts c s) (snd zts c s) 1 f E) as (b0 & b1 & b2 & b3 & Ew' & _ & _ & _ & _ & V').
    rewrite Ew in Ew'. injection Ew' as <- <- <- <-. rewrite V, V'. rewrite mask_W. unfold Qdiv. change (/ 1) with 1. ring.
  Qed.

  (** Row sum *)
  Lemma row_sum_bound : Qabs (row_apply (interior_row m cs xts zts subw d c) (fun _ => 1) - 1) <= 4 * tol_drop.
  Proof.
    rewrite row_value.
    setoid_replace (wavg (sample_raw (fun _ => 1)) - 1) with (wavg (fun s => sample_raw (fun _ => 1) s - 1)).
    2:{ unfold Qminus. rewrite (wavg_plus (sample_raw (fun _ => 1)) (fun _ => - (1))).
        apply Qplus_comp; [reflexivity|]. 
        transitivity (-1 * wavg (fun _ => 1)); [rewrite wavg_1; reflexivity|].
        unfold wavg. rewrite <- qsum_map_scale. apply qsum_map_ext. intros s _. destruct (hit s); ring. }
    apply wavg_bound. intros s _ E. unfold sample_raw.
    destruct (sample_value (m_nx m) (m_ny m) (m_nz m) (m_mxg m) (cs_cell_number cs) (snd (fst c)) (y_offset d)
                1 D_mxg (snd xts c s) (snd zts c s) 1 (fun _ => 1) E) as (a0 & a1 & a2 & a3 & _ & _ & _ & _ & S & V).
    rewrite V.
    assert (Z1 : forall i z, zval (m_nx m) (m_ny m) (m_nz m) (cs_cell_number cs) (snd (fst c)) (y_offset d) (fun _ => 1) i z == 1).
    { intros. unfold zval, hermite. field. }
    assert (I1 : ideal (m_nx m) (m_ny m) (m_nz m) (m_mxg m) (cs_cell_number cs) (snd (fst c)) (y_offset d) (fun _ => 1)
              (snd xts c s) (snd zts c s) == 1).
    { unfold ideal. rewrite !Z1. unfold hermite. field. }
    rewrite I1, !Z1.
    setoid_replace (1 / 1 * (1 + ((keep a0 - a0) * 1 + (keep a1 - a1) * 1 + (keep a2 - a2) * 1 + (keep a3 - a3) * 1)) - 1)
      with ((keep a0 - a0) + (keep a1 - a1) + (keep a2 - a2) + (keep a3 - a3)) by field.
    setoid_replace (4 * tol_drop) with (tol_drop + tol_drop + tol_drop + tol_drop) by ring.
    apply Qabs_plus4; apply keep_err.
  Qed.

  (** Columns *)
  Lemma row_cols k : In k (map fst (interior_row m cs xts zts subw d c)) ->
    exists s i j, (s < fst xts)%nat /\ hit s = false /\ (-1 <= i <= 2)%Z /\ (-1 <= j <= 2)%Z /\
      (m_mxg m <= Qtrunc (snd xts c s) + i <= m_nx m - m_mxg m - 1)%Z /\
      k = cs_cell_number cs ((Qtrunc (snd xts c s) + i)%Z, ((snd (fst c) + y_offset d) mod m_ny m)%Z,
                             ((Qtrunc (snd zts c s) + j) mod m_nz m)%Z).
  Proof.
    unfold interior_row. rewrite cols_add_all. cbn [map In]. intros [H|[]].
    unfold cell_ks in H. rewrite samples_seq in H by assumption.
    apply in_map_iff in H. destruct H as [[k' v] [Hk Hin]]. cbn in Hk. subst k'.
    apply in_flat_map in Hin. destruct Hin as (sm & Hs & Hin). apply in_map_iff in Hs.
    destruct Hs as (s & <- & Hs). fold (hit s) in Hin.
    destruct (hit s) eqn:E; [cbn in Hin; contradiction|].
    assert (0 < m_ny m)%Z by (destruct c as [[x y] z]; cbn in Ic; lia).
    assert (0 < m_nz m)%Z by (destruct c as [[x y] z]; cbn in Ic; lia).
    apply (in_map fst) in Hin. cbn [fst] in Hin.
    apply sample_cols in Hin; try assumption; [|exact D_mxg].
    destruct Hin as (i & j & Hi & Hj & Hr & Hk).
    exists s, i, j. apply in_seq in Hs. repeat split; try lia; auto.
  Qed.

  Lemma row_NoDup : NoDup (map fst (interior_row m cs xts zts subw d c)).
  Proof. apply NoDup_add_all. constructor. Qed.

  (** Interpolation *)
  Definition F_of (f : Z -> Q) (i k : Z) : Q :=
    f (cs_cell_number cs (clampZ i (m_mxg m) (m_nx m - m_mxg m - 1), ((snd (fst c) + y_offset d) mod m_ny m)%Z, (k mod m_nz m)%Z)).

  Lemma colx_clamp i k :
    colx (clampZ i (m_mxg m) (m_nx m - m_mxg m - 1)) k =
    cs_cell_number cs (clampZ i (m_mxg m) (m_nx m - m_mxg m - 1), ((snd (fst c) + y_offset d) mod m_ny m)%Z, (k mod m_nz m)%Z).
  Proof.
    unfold colx, col.
    destruct c as [[x y] z]. cbn in Ic. destruct D as (D1 & D2 & D3 & D4). cbn [fst snd].
    rewrite !mod_plus_n by lia. do 3 f_equal.
    unfold clip, clampZ.
    repeat match goal with |- context [Z.ltb ?a ?b] => destruct (Z.ltb_spec a b) end; lia.
  Qed.

  Lemma ideal_interp2 f x z : 0 <= x -> 0 <= z ->
    ideal (m_nx m) (m_ny m) (m_nz m) (m_mxg m) (cs_cell_number cs) (snd (fst c)) (y_offset d) f x z
    = interp2 (F_of f) x z.
  Proof.
    intros Hx Hzz. unfold ideal, interp2, interp1, zval. rewrite !(Qtrunc_nonneg x), !(Qtrunc_nonneg z) by assumption.
    fold colx. rewrite !colx_clamp. reflexivity.
  Qed.

  Lemma zval_bound f i z M : 0 <= z ->
    (forall x k, (m_mxg m <= x < m_nx m - m_mxg m)%Z -> (0 <= k < m_nz m)%Z ->
       Qabs (f (cs_cell_number cs (x, ((snd (fst c) + y_offset d) mod m_ny m)%Z, k))) <= M) ->
    (m_mxg m <= i <= m_nx m - m_mxg m - 1)%Z ->
    Qabs (zval (m_nx m) (m_ny m) (m_nz m) (cs_cell_number cs) (snd (fst c)) (y_offset d) f i z) <= (5#4) * M.
  Proof.
    intros Hzz HM Hi.
    assert (G : forall k, Qabs (f (colx i k)) <= M).
    { intros k. replace i with (clampZ i (m_mxg m) (m_nx m - m_mxg m - 1)).
      2:{ unfold clampZ. repeat match goal with |- context [Z.ltb ?a ?b] => destruct (Z.ltb_spec a b) end; lia. }
      rewrite colx_clamp.
      apply HM.
      - unfold clampZ. repeat match goal with |- context [Z.ltb ?a ?b] => destruct (Z.ltb_spec a b) end; lia.
      - apply Z.mod_pos_bound. destruct c as [[? ?] ?]. cbn in Ic. lia. }
    unfold zval. pose proof (frac_range z Hzz). apply hermite_bound; try lra; apply G.
  Qed.

  Lemma row_interp_bound f M :
    (forall s, (s < fst xts)%nat -> hit s = false -> 0 <= snd zts c s) ->
    (forall x k, (m_mxg m <= x < m_nx m - m_mxg m)%Z -> (0 <= k < m_nz m)%Z ->
       Qabs (f (cs_cell_number cs (x, ((snd (fst c) + y_offset d) mod m_ny m)%Z, k))) <= M) ->
    Qabs (row_apply (interior_row m cs xts zts subw d c) f
          - wavg (fun s => interp2 (F_of f) (snd xts c s) (snd zts c s))) <= 5 * tol_drop * M.
  Proof.
    intros HZ HM. rewrite row_value.
    setoid_replace (wavg (sample_raw f) - wavg (fun s => interp2 (F_of f) (snd xts c s) (snd zts c s)))
      with (wavg (fun s => sample_raw f s + -1 * interp2 (F_of f) (snd xts c s) (snd zts c s))).
    2:{ rewrite wavg_plus. apply Qplus_comp; [reflexivity|].
        transitivity (-1 * wavg (fun s => interp2 (F_of f) (snd xts c s) (snd zts c s))); [ring|].
        unfold wavg. rewrite <- qsum_map_scale. apply qsum_map_ext. intros s _. destruct (hit s); ring. }
    apply wavg_bound. intros s Hs E. unfold sample_raw.
    unfold ss in Hs. apply in_seq in Hs. specialize (HZ s ltac:(lia) E).
    destruct (no_hit_base _ _ _ E D_mxg) as [T B].
    assert (Hx : 0 <= snd xts c s).
    { unfold hit in E. apply no_hit_range in E. eapply Qle_trans; [|exact (proj1 E)].
      change 0 with (inject_Z 0). rewrite <- Zle_Qle. exact D_mxg. }
    destruct (sample_value (m_nx m) (m_ny m) (m_nz m) (m_mxg m) (cs_cell_number cs) (snd (fst c)) (y_offset d)
                1 D_mxg (snd xts c s) (snd zts c s) 1 f E) as (a0 & a1 & a2 & a3 & _ & A0 & A2 & A3 & S & V).
    rewrite V, ideal_interp2 by assumption.
    set (I := interp2 _ _ _).
    set (z0 := zval _ _ _ _ _ _ _ (Qtrunc (snd xts c s) - 1) _).
    set (z1 := zval _ _ _ _ _ _ _ (Qtrunc (snd xts c s)) _).
    set (z2 := zval _ _ _ _ _ _ _ (Qtrunc (snd xts c s) + 1) _).
    set (z3 := zval _ _ _ _ _ _ _ (Qtrunc (snd xts c s) + 2) _).
    setoid_replace (1 / 1 * (I + ((keep a0 - a0) * z0 + (keep a1 - a1) * z1 + (keep a2 - a2) * z2 + (keep a3 - a3) * z3)) + -1 * I)
      with ((keep a0 - a0) * z0 + (keep a1 - a1) * z1 + (keep a2 - a2) * z2 + (keep a3 - a3) * z3) by field.
    assert (M0 : 0 <= M).
    { destruct c as [[x y] z]. cbn in Ic. cbn in HM. eapply Qle_trans; [apply Qabs_nonneg|apply (HM x z); lia]. }
    assert (T0 : 0 <= tol_drop * ((5#4) * M)) by (unfold tol_drop; nra).
    setoid_replace (5 * tol_drop * M) with (tol_drop * ((5#4)*M) + tol_drop * ((5#4)*M) + tol_drop * ((5#4)*M) + tol_drop * ((5#4)*M)) by ring.
    assert (K0 : keep 0 - 0 == 0) by reflexivity.
    rewrite T in *.
    apply Qabs_plus4.
    - destruct (Z_lt_dec (Qfloor (snd xts c s) - 1) (m_mxg m)) as [L|L].
      + rewrite (A0 L), K0, Qmult_0_l. exact T0.
      + apply Qabs_mult_le; [apply keep_err|]. apply zval_bound; auto. lia.
    - apply Qabs_mult_le; [apply keep_err|]. apply zval_bound; auto. all: lia.
    - destruct (Z_lt_dec (m_nx m - m_mxg m - 1) (Qfloor (snd xts c s) + 1)) as [L|L].
      + rewrite (A2 L), K0, Qmult_0_l. exact T0.
      + apply Qabs_mult_le; [apply keep_err|]. apply zval_bound; auto. lia.
    - destruct (Z_lt_dec (m_nx m - m_mxg m - 1) (Qfloor (snd xts c s) + 2)) as [L|L].
      + rewrite (A3 L), K0, Qmult_0_l. exact T0.
      + apply Qabs_mult_le; [apply keep_err|]. apply zval_bound; auto. lia.
  Qed.

  (** No weight dropped: equality. *)
  Lemma row_interp_exact f :
    (forall s, (s < fst xts)%nat -> hit s = false ->
       0 <= snd zts c s /\ clear_frac (snd xts c s - inject_Z (Qfloor (snd xts c s)))) ->
    row_apply (interior_row m cs xts zts subw d c) f ==
    wavg (fun s => interp2 (F_of f) (snd xts c s) (snd zts c s)).
  Proof.
    intros HZ. rewrite row_value. apply wavg_ext. intros s Hs E.
    unfold ss in Hs. apply in_seq in Hs. destruct (HZ s ltac:(lia) E) as [Hzz Hc].
    assert (Hx : 0 <= snd xts c s).
    { unfold hit in E. apply no_hit_range in E. eapply Qle_trans; [|exact (proj1 E)].
      change 0 with (inject_Z 0). rewrite <- Zle_Qle. exact D_mxg. }
    unfold sample_raw.
    destruct (sample_value (m_nx m) (m_ny m) (m_nz m) (m_mxg m) (cs_cell_number cs) (snd (fst c)) (y_offset d)
                1 D_mxg (snd xts c s) (snd zts c s) 1 f E) as (a0 & a1 & a2 & a3 & Ew & _ & _ & _ & _ & V).
    destruct (keep_weights _ _ _ _ _ _ _ D_mxg E Hc Ew) as (K0 & K1 & K2 & K3).
    rewrite V, ideal_interp2 by assumption. rewrite K0, K1, K2, K3. unfold Qdiv. change (/ 1) with 1. ring.
  Qed.

  (** Constants in the weighted average. *)
  Lemma wavg_const k : wavg (fun _ => k) == k.
  Proof.
    transitivity (k * wavg (fun _ => 1)); [|rewrite wavg_1; ring].
    unfold wavg. rewrite <- qsum_map_scale. apply qsum_map_ext. intros s _. destruct (hit s); ring.
  Qed.

  (** The average as a quotient of sums. *)
  Lemma wavg_quot g : wavg g ==
    qsum (map (fun s => if hit s then 0 else nth s subw 0 * g s) ss) / W.
  Proof.
    unfold wavg. unfold Qdiv at 2. rewrite Qmult_comm, <- qsum_map_scale. apply qsum_map_ext. intros s _.
    destruct (hit s); [ring|]. unfold Qdiv. ring.
  Qed.
End InteriorRow.

(** Interpolation of linear functions. *)
Lemma hermite_linear p q u : hermite (p - q) p (p + q) (p + 2 * q) u == p + u * q.
Proof. unfold hermite. field. Qed.

Lemma interp1_linear F x a b :
  (forall i, (Qfloor x - 1 <= i <= Qfloor x + 2)%Z -> F i == a + b * inject_Z i) -> interp1 F x == a + b * x.
Proof.
  intros H. unfold interp1. rewrite (H (Qfloor x - 1)%Z), (H (Qfloor x)), (H (Qfloor x + 1)%Z), (H (Qfloor x + 2)%Z) by lia.
  unfold Z.sub. rewrite !inject_Z_plus. change (inject_Z (-(1))) with (-(1)). change (inject_Z 1) with 1. change (inject_Z 2) with 2.
  transitivity (hermite (a + b * inject_Z (Qfloor x) - b) (a + b * inject_Z (Qfloor x)) (a + b * inject_Z (Qfloor x) + b)
                 (a + b * inject_Z (Qfloor x) + 2 * b) (x - inject_Z (Qfloor x))).
  - apply hermite_Proper; try ring.
  - rewrite hermite_linear. ring.
Qed.

Lemma interp2_linear F x z a b g :
  (forall i k, (Qfloor x - 1 <= i <= Qfloor x + 2)%Z -> (Qfloor z - 1 <= k <= Qfloor z + 2)%Z ->
     F i k == a + b * inject_Z i + g * inject_Z k) -> interp2 F x z == a + b * x + g * z.
Proof.
  intros H. unfold interp2. rewrite (interp1_linear _ x (a + g * z) b).
  - ring.
  - intros i Hi. rewrite (interp1_linear _ z (a + b * inject_Z i) g).
    + ring.
    + intros k Hk. now apply H.
Qed.
