From Coq Require Import List ZArith QArith Qfield Qpower Lia Lqa Bool.
From Verif Require Import Prelude PreludeFacts GridModel GridSpec GridProofs GridMetric MetricModel MetricSpec.
Import ListNotations.
Open Scope Q_scope.

(** ** Poloidal metrics *)

Lemma in_cells2 nx nz x z : In (x, z) (cells2 nx nz) <-> (0 <= x < Z.of_nat nx)%Z /\ (0 <= z < Z.of_nat nz)%Z.
Proof.
  unfold cells2. rewrite in_flat_map. split.
  - intros (x' & Hx & H). apply in_map_iff in H as (z' & E & Hz). injection E as -> ->.
    apply in_zrange in Hx, Hz. auto.
  - intros [Hx Hz]. exists x. split; [now apply in_zrange|]. apply in_map_iff. exists z. split; [reflexivity|now apply in_zrange].
Qed.

Lemma all_cells_spec nx nz p : all_cells nx nz p = true <->
  forall x z, (0 <= x < Z.of_nat nx)%Z -> (0 <= z < Z.of_nat nz)%Z -> p x z = true.
Proof.
  unfold all_cells. rewrite forallb_forall. split.
  - intros H x z Hx Hz. apply (H (x, z)). now apply in_cells2.
  - intros H [x z] Hin. apply in_cells2 in Hin as [Hx Hz]. now apply H.
Qed.

Lemma Qlt_bool_iff a b : Qlt_bool a b = true <-> a < b.
Proof.
  unfold Qlt_bool. rewrite negb_true_iff. split; intros H.
  - apply Qnot_le_lt. intros C. apply Qle_bool_iff in C. congruence.
  - destruct (Qle_bool b a) eqn:E; [|reflexivity]. apply Qle_bool_iff in E. lra.
Qed.

Lemma square_pos_iff a : 0 < a * a <-> ~ a == 0.
Proof.
  split.
  - intros H C. rewrite C in H. lra.
  - intros H. destruct (Q_dec a 0) as [[L|L]|E]; [nra|nra|contradiction].
Qed.

Lemma rect_consistent dR dZ x z : consistent_at (rect_metric dR dZ) x z.
Proof. unfold consistent_at, rect_metric; cbn. repeat split; lra. Qed.

Section Struct.
Variables (nx nz : nat) (Rx Zx Rz Zz : Z -> Z -> Q).
Hypothesis Hnx : (0 < nx)%nat.
Hypothesis Hnz : (0 < nz)%nat.

Lemma inj_pos n : (0 < n)%nat -> 0 < inject_Z (Z.of_nat n).
Proof. intros H. change 0 with (inject_Z 0). rewrite <- Zlt_Qlt. lia. Qed.

(** dR^2/nx and so on without the quotient *)
Lemma over_inv a n : (0 < n)%nat -> a / (1 / inject_Z (Z.of_nat n)) == a * inject_Z (Z.of_nat n).
Proof. intros H. apply inj_pos in H. field. lra. Qed.

Definition area x z := Rx x z * Zz x z - Rz x z * Zx x z.

Lemma struct_iff : (exists m, struct_metric nx nz Rx Zx Rz Zz = Ok m) <->
  forall x z, (0 <= x < Z.of_nat nx)%Z -> (0 <= z < Z.of_nat nz)%Z -> ~ area x z == 0.
Proof.
  pose proof (inj_pos nx Hnx) as Px. pose proof (inj_pos nz Hnz) as Pz.
  unfold struct_metric.
  set (a := 1 / inject_Z (Z.of_nat nx)). set (b := 1 / inject_Z (Z.of_nat nz)).
  assert (Ha : 0 < a) by (unfold a; apply Qlt_shift_div_l; lra).
  assert (Hb : 0 < b) by (unfold b; apply Qlt_shift_div_l; lra).
  assert (D : forall x z,
    (Rx x z / a * (Rx x z / a) + Zx x z / a * (Zx x z / a)) * (Rz x z / b * (Rz x z / b) + Zz x z / b * (Zz x z / b)) -
    (Rz x z / b * (Rx x z / a) + Zz x z / b * (Zx x z / a)) * (Rx x z / a * (Rz x z / b) + Zx x z / a * (Zz x z / b))
    == (area x z / (a * b)) * (area x z / (a * b))).
  { intros x z. unfold area. field. lra. }
  assert (N : forall x z, ~ area x z / (a * b) == 0 <-> ~ area x z == 0).
  { intros x z. assert (0 < a * b) by nra. split; intros H0 C; apply H0.
    - rewrite C. field. lra.
    - setoid_replace (area x z) with (area x z / (a * b) * (a * b)) by (field; lra). rewrite C. ring. }
  destruct (all_cells nx nz _) eqn:E1; cbn [negb].
  1: destruct (all_cells nx nz (fun x z => Qlt_bool 0 (Rz x z / b * (Rz x z / b) + Zz x z / b * (Zz x z / b)))) eqn:E2; cbn [negb].
  1: destruct (all_cells nx nz (fun x z => Qlt_bool 0 (_ - _))) eqn:E3; cbn [negb].
  - split; [|eauto]. intros _ x z Hx Hz. rewrite all_cells_spec in E3. specialize (E3 x z Hx Hz).
    apply Qlt_bool_iff in E3. rewrite D in E3. apply square_pos_iff in E3. now apply N.
  - split; [intros [m C]; discriminate|]. intros H. exfalso.
    assert (C : all_cells nx nz (fun x z => Qlt_bool 0 ((Rx x z / a * (Rx x z / a) + Zx x z / a * (Zx x z / a)) * (Rz x z / b * (Rz x z / b) + Zz x z / b * (Zz x z / b)) -
    (Rz x z / b * (Rx x z / a) + Zz x z / b * (Zx x z / a)) * (Rx x z / a * (Rz x z / b) + Zx x z / a * (Zz x z / b)))) = true).
    { apply all_cells_spec. intros x z Hx Hz. apply Qlt_bool_iff. rewrite D. apply square_pos_iff, N. auto. }
    congruence.
  - split; [intros [m C]; discriminate|]. intros H. exfalso.
    assert (C : all_cells nx nz (fun x z => Qlt_bool 0 (Rz x z / b * (Rz x z / b) + Zz x z / b * (Zz x z / b))) = true).
    { apply all_cells_spec. intros x z Hx Hz. apply Qlt_bool_iff. specialize (H x z Hx Hz).
      set (u := Rz x z / b). set (v := Zz x z / b).
      destruct (Qeq_dec u 0) as [Eu|Eu]; [destruct (Qeq_dec v 0) as [Ev|Ev]|].
      - exfalso. apply H. unfold area.
        setoid_replace (Rz x z) with (u * b) by (unfold u; field; lra).
        setoid_replace (Zz x z) with (v * b) by (unfold v; field; lra). rewrite Eu, Ev. ring.
      - apply square_pos_iff in Ev. nra.
      - apply square_pos_iff in Eu. nra. }
    congruence.
  - split; [intros [m C]; discriminate|]. intros H. exfalso.
    assert (C : all_cells nx nz (fun x z => Qlt_bool 0 (Rx x z / a * (Rx x z / a) + Zx x z / a * (Zx x z / a))) = true).
    { apply all_cells_spec. intros x z Hx Hz. apply Qlt_bool_iff. specialize (H x z Hx Hz).
      set (u := Rx x z / a). set (v := Zx x z / a).
      destruct (Qeq_dec u 0) as [Eu|Eu]; [destruct (Qeq_dec v 0) as [Ev|Ev]|].
      - exfalso. apply H. unfold area.
        setoid_replace (Rx x z) with (u * a) by (unfold u; field; lra).
        setoid_replace (Zx x z) with (v * a) by (unfold v; field; lra). rewrite Eu, Ev. ring.
      - apply square_pos_iff in Ev. nra.
      - apply square_pos_iff in Eu. nra. }
    congruence.
Qed.

Lemma struct_ok m : struct_metric nx nz Rx Zx Rz Zz = Ok m ->
  forall x z, (0 <= x < Z.of_nat nx)%Z -> (0 <= z < Z.of_nat nz)%Z ->
  consistent_at m x z /\ p_dx m x z == 1 / inject_Z (Z.of_nat nx) /\ p_dz m x z == 1 / inject_Z (Z.of_nat nz) /\
  p_g_xx m x z * (p_dx m x z * p_dx m x z) == Rx x z * Rx x z + Zx x z * Zx x z /\
  p_g_zz m x z * (p_dz m x z * p_dz m x z) == Rz x z * Rz x z + Zz x z * Zz x z /\
  p_g_xz m x z * (p_dx m x z * p_dz m x z) == Rx x z * Rz x z + Zx x z * Zz x z /\
  (p_g_xx m x z * p_g_zz m x z - p_g_xz m x z * p_g_xz m x z) * (p_dx m x z * p_dz m x z) * (p_dx m x z * p_dz m x z)
  == area x z * area x z.
Proof.
  intros E x z Hx Hz.
  assert (Har : ~ area x z == 0) by (apply struct_iff; eauto).
  pose proof (inj_pos nx Hnx) as Px. pose proof (inj_pos nz Hnz) as Pz.
  revert E. unfold struct_metric.
  set (a := 1 / inject_Z (Z.of_nat nx)). set (b := 1 / inject_Z (Z.of_nat nz)).
  assert (Ha : 0 < a) by (unfold a; apply Qlt_shift_div_l; lra).
  assert (Hb : 0 < b) by (unfold b; apply Qlt_shift_div_l; lra).
  destruct (all_cells nx nz _) eqn:E1; cbn [negb]; [|discriminate].
  destruct (all_cells nx nz (fun x z => Qlt_bool 0 (Rz x z / b * (Rz x z / b) + Zz x z / b * (Zz x z / b)))) eqn:E2; cbn [negb]; [|discriminate].
  destruct (all_cells nx nz (fun x z => Qlt_bool 0 (_ - _))) eqn:E3; cbn [negb]; [|discriminate].
  rewrite all_cells_spec in E1, E2, E3. specialize (E1 x z Hx Hz). specialize (E2 x z Hx Hz). specialize (E3 x z Hx Hz).
  apply Qlt_bool_iff in E1, E2, E3. cbn beta in E1, E2, E3.
  intros E. injection E as <-. unfold consistent_at. cbn.
  set (j00 := Rx x z / a) in *. set (j01 := Zx x z / a) in *. set (j10 := Rz x z / b) in *. set (j11 := Zz x z / b) in *.
  assert (R0 : Rx x z == j00 * a) by (unfold j00; field; lra).
  assert (R1 : Zx x z == j01 * a) by (unfold j01; field; lra).
  assert (R2 : Rz x z == j10 * b) by (unfold j10; field; lra).
  assert (R3 : Zz x z == j11 * b) by (unfold j11; field; lra).
  set (h00 := j00 * j00 + j01 * j01) in *. set (h11 := j10 * j10 + j11 * j11) in *.
  set (h01 := j10 * j00 + j11 * j01) in *. set (h10 := j00 * j10 + j01 * j11) in *.
  assert (Hs : h10 == h01) by (unfold h10, h01; ring).
  set (D := h00 * h11 - h01 * h10) in *.
  assert (HD : D == h00 * h11 - h01 * h01) by (unfold D; rewrite Hs; reflexivity).
  assert (HDn : ~ D == 0) by lra.
  assert (P1 : 0 < h11 / D) by (apply Qlt_shift_div_l; lra).
  assert (P2 : 0 < h00 / D) by (apply Qlt_shift_div_l; lra).
  split; [|split; [reflexivity|split; [reflexivity|]]].
  - split; [|split; [|split; [|split; [|split; [exact E1|split; [exact E2|split; [lra|split; [exact P1|split; [exact P2|]]]]]]]]].
    + setoid_replace (h11 / D * h00 + - h01 / D * h01) with ((h00 * h11 - h01 * h01) / D) by (field; exact HDn).
      rewrite <- HD. field. exact HDn.
    + field. exact HDn.
    + field. exact HDn.
    + setoid_replace (- h01 / D * h01 + h00 / D * h11) with ((h00 * h11 - h01 * h01) / D) by (field; exact HDn).
      rewrite <- HD. field. exact HDn.
    + setoid_replace (h11 / D * (h00 / D) - - h01 / D * (- h01 / D)) with ((h00 * h11 - h01 * h01) / D / D) by (field; exact HDn).
      rewrite <- HD. setoid_replace (D / D / D) with (1 / D) by (field; exact HDn). apply Qlt_shift_div_l; lra.
  - unfold area. rewrite R0, R1, R2, R3. unfold h00, h11, h01. repeat split; ring.
Qed.
End Struct.

(** ** get_metric *)
Section GM.
Context {G : Type}.
Variable pm : G -> pol_metric.
Variable Rfunc : option (G -> Q -> Z -> Z -> Q).
Variable Bmag pressure Byfunc : G -> Q -> Z -> Z -> Q.
Variable sqrt : Q -> Q.
Variable g : grid G.
Hypothesis Wg : well_formed g.
Variable bJ : bool.
Hypothesis HJ : all_status pm g bJ.

Notation get_metric := (get_metric G pm Rfunc Bmag pressure Byfunc sqrt g).
Notation history := (history G pm Rfunc Bmag pressure Byfunc sqrt g).

Lemma per_slice_ok f : exists a, per_slice G g f = Ok a /\
  forall y p q x z, (0 <= y < ny g)%Z -> getPoloidalGrid g (inject_Z y) = Ok (Some p, q) -> a x y z = f p q x z.
Proof.
  unfold per_slice.
  match goal with |- exists a, foldM ?F _ _ = _ /\ _ =>
    destruct (foldM_inv (fun pre (a : arr3) => forall y p q x z, In y pre -> getPoloidalGrid g (inject_Z y) = Ok (Some p, q) ->
       a x y z = f p q x z) F (zrange 0 (ny g)) zeros3) as (a & E & H) end.
  - intros ? ? ? ? ? [].
  - intros pre y post a El I1.
    assert (Hy : (0 <= y < ny g)%Z). { apply in_zrange. rewrite El. apply in_app_iff. right. now left. }
    destruct (lookup_slice g y Wg Hy) as (p & q & _ & E). rewrite E. cbn [bind fst snd].
    eexists; split; [reflexivity|]. intros y' p' q' x z Hin E'. destruct (Z.eq_dec y' y) as [->|N].
    + rewrite E in E'. injection E' as <- <-. apply put_eq.
    + rewrite put_neq by assumption. apply in_app_iff in Hin. destruct Hin as [Hin|[<-|[]]]; [eauto|congruence].
  - exists a. split; [exact E|]. intros y p q x z Hy. apply H. now apply in_zrange.
Qed.

Lemma scale_ok f a0 : exists a, scale_slices G g f a0 = Ok a /\
  forall y p q x z, (0 <= y < ny g)%Z -> getPoloidalGrid g (inject_Z y) = Ok (Some p, q) -> a x y z = a0 x y z * f p q x z.
Proof.
  unfold scale_slices.
  match goal with |- exists a, foldM ?F _ _ = _ /\ _ =>
    destruct (foldM_inv (fun pre (a : arr3) => (forall y p q x z, In y pre -> getPoloidalGrid g (inject_Z y) = Ok (Some p, q) ->
       a x y z = a0 x y z * f p q x z) /\ forall y x z, ~ In y pre -> a x y z = a0 x y z) F (zrange 0 (ny g)) a0) as (a & E & H & _) end.
  - split; [intros ? ? ? ? ? []|auto].
  - intros pre y post a El [I1 I2].
    assert (Hy : (0 <= y < ny g)%Z). { apply in_zrange. rewrite El. apply in_app_iff. right. now left. }
    assert (Hn : ~ In y pre).
    { pose proof (NoDup_zrange 0 (ny g)) as NZ. rewrite El in NZ. apply NoDup_remove_2 in NZ.
      intros C. apply NZ, in_app_iff. now left. }
    destruct (lookup_slice g y Wg Hy) as (p & q & _ & E). rewrite E. cbn [bind fst snd].
    eexists; split; [reflexivity|]. split.
    + intros y' p' q' x z Hin E'. destruct (Z.eq_dec y' y) as [->|N].
      * rewrite E in E'. injection E' as <- <-. rewrite put_eq, I2 by assumption. reflexivity.
      * rewrite put_neq by assumption. apply in_app_iff in Hin. destruct Hin as [Hin|[<-|[]]]; [eauto|congruence].
    + intros y' x z Hin. destruct (Z.eq_dec y' y) as [->|N].
      * exfalso. apply Hin, in_app_iff. right. now left.
      * rewrite put_neq by assumption. apply I2. intros C. apply Hin, in_app_iff. now left.
  - exists a. split; [exact E|]. intros y p q x z Hy. apply H. now apply in_zrange.
Qed.

Lemma grid_metric_total : exists m, grid_metric pm g = Ok m.
Proof. destruct (metric_gathers pm g bJ Wg HJ) as (m & E & _). eauto. Qed.

(** g_yy after [k + 1] calls since the last reset *)
Definition expected (k : nat) (p : G) (q : Q) (x z : Z) : Q :=
  match Rfunc with
  | None => par Bmag Byfunc p q x z ^ (Z.of_nat (S k))
  | Some R => R p q x z * R p q x z * par Bmag Byfunc p q x z
  end.
Definition expected_inv (k : nat) (p : G) (q : Q) (x z : Z) : Q :=
  match Rfunc with
  | None => rap Bmag Byfunc p q x z ^ (Z.of_nat (S k))
  | Some R => 1 / (R p q x z * R p q x z) * rap Bmag Byfunc p q x z
  end.

Lemma get_metric_step cache k :
  match cache with
  | None => k = O
  | Some m => exists k', k = S k' /\ metric_is pm Bmag pressure g (expected k') (expected_inv k') m
  end ->
  exists m BJg, get_metric cache = Ok (m, BJg) /\
    metric_is pm Bmag pressure g (expected k) (expected_inv k) m.
Proof.
  intros Hc. unfold MetricModel.get_metric.
  (* the metric found by Grid.metric *)
  assert (Hm : exists m0 gm, match cache with Some m => Ok m | None =>
            let* m := grid_metric pm g in Ok {| md := m; md_field := None |} end = Ok m0 /\ grid_metric pm g = Ok gm /\
     m_dx (md m0) = m_dx gm /\ m_dy (md m0) = m_dy gm /\ m_dz (md m0) = m_dz gm /\
     m_gxx (md m0) = m_gxx gm /\ m_g_xx (md m0) = m_g_xx gm /\ m_gxz (md m0) = m_gxz gm /\
     m_g_xz (md m0) = m_g_xz gm /\ m_gzz (md m0) = m_gzz gm /\ m_g_zz (md m0) = m_g_zz gm /\ m_J (md m0) = m_J gm /\
     (Rfunc = None -> forall y p q x z, (0 <= y < ny g)%Z -> getPoloidalGrid g (inject_Z y) = Ok (Some p, q) ->
        m_g_yy (md m0) x y z == par Bmag Byfunc p q x z ^ Z.of_nat k /\
        m_gyy (md m0) x y z == rap Bmag Byfunc p q x z ^ Z.of_nat k)).
  { destruct cache as [m|].
    - destruct Hc as (k' & -> & gm & B & P & E & _ & E1 & E2 & E3 & E4 & E5 & E6 & E7 & E8 & E9 & E10 & V).
      exists m, gm. do 12 (split; [first [assumption|reflexivity]|]).
      intros HR y p q x z Hy Ep. destruct (V y p q x z Hy Ep) as (_ & _ & V1 & V2).
      unfold expected, expected_inv in V1, V2. rewrite HR in V1, V2. auto.
    - subst k. destruct grid_metric_total as [gm E]. rewrite E. cbn [bind].
      eexists _, gm. do 12 (split; [reflexivity|]). intros HR y p q x z _ _.
      cbn [md Z.of_nat].
      unfold grid_metric in E. destruct (foldM _ _ _) as [s|]; [|discriminate]. cbn [bind] in E.
      destruct (metric_dy g) as [dy|]; [|discriminate]. cbn [bind] in E. injection E as <-. cbn. split; reflexivity. }
  destruct Hm as (m0 & gm & -> & Egm & E1 & E2 & E3 & E4 & E5 & E6 & E7 & E8 & E9 & E10 & V0). cbn [bind].
  destruct (per_slice_ok Bmag) as (B & EB & VB). destruct (per_slice_ok pressure) as (P & EP & VP).
  set (fB := fun (p : G) (y : Q) (x z : Z) => Bmag p y x z / Byfunc p y x z * (Bmag p y x z / Byfunc p y x z)).
  set (fI := fun (p : G) (y : Q) (x z : Z) => Byfunc p y x z / Bmag p y x z * (Byfunc p y x z / Bmag p y x z)).
  assert (Hpar : forall p q x z, fB p q x z == par Bmag Byfunc p q x z).
  { intros. unfold fB, par. cbn. reflexivity. }
  assert (Hrap : forall p q x z, fI p q x z == rap Bmag Byfunc p q x z).
  { intros. unfold fI, rap. cbn. reflexivity. }
  destruct Rfunc as [R|] eqn:ER.
  - destruct (per_slice_ok R) as (Rm & ERm & VR). rewrite ERm. cbn [bind]. rewrite EB, EP. cbn [bind set_yy m_g_yy m_gyy].
    destruct (scale_ok fB (fun x y z => Rm x y z * Rm x y z)) as (a & Ea & Va). rewrite Ea. cbn [bind].
    destruct (scale_ok fI (fun x y z => 1 / (Rm x y z * Rm x y z))) as (b & Eb & Vb). rewrite Eb. cbn [bind].
    eexists _, _. split; [reflexivity|]. exists gm, B, P. cbn.
    do 12 (split; [first [assumption|reflexivity]|]).
    intros y p q x z Hy Ep. split; [eapply VB; eauto|split; [eapply VP; eauto|]].
    rewrite (Va y p q x z Hy Ep), (Vb y p q x z Hy Ep), (VR y p q x z Hy Ep).
    unfold expected, expected_inv. rewrite ER. now rewrite Hpar, Hrap.
  - cbn [bind]. rewrite EB, EP. cbn [bind].
    destruct (scale_ok fB (m_g_yy (md m0))) as (a & Ea & Va). rewrite Ea. cbn [bind].
    destruct (scale_ok fI (m_gyy (md m0))) as (b & Eb & Vb). rewrite Eb. cbn [bind].
    eexists _, _. split; [reflexivity|]. exists gm, B, P. cbn.
    do 12 (split; [first [assumption|reflexivity]|]).
    intros y p q x z Hy Ep. split; [eapply VB; eauto|split; [eapply VP; eauto|]].
    rewrite (Va y p q x z Hy Ep), (Vb y p q x z Hy Ep).
    destruct (V0 eq_refl y p q x z Hy Ep) as [V1 V2]. rewrite V1, V2.
    unfold expected, expected_inv. rewrite ER. rewrite Hpar, Hrap.
    rewrite Nat2Z.inj_succ. unfold Z.succ. 
    assert (S : forall u n, u ^ (Z.of_nat n + 1) == u ^ Z.of_nat n * u).
    { intros u n. destruct n; [cbn; ring|].
      replace (Z.of_nat (S n) + 1)%Z with (Z.pos (Pos.of_succ_nat n + 1)) by lia.
      cbn [Z.of_nat]. unfold Qpower. now rewrite Qpower_plus_positive. }
    now rewrite !S.
Qed.

Lemma history_gen ops cache k :
  match cache with
  | None => k = O
  | Some m => exists k', k = S k' /\ metric_is pm Bmag pressure g (expected k') (expected_inv k') m
  end ->
  exists l, history ops cache = Ok l /\
    Forall2 (fun m k => metric_is pm Bmag pressure g (expected k) (expected_inv k) m) l (gets_since ops k).
Proof.
  revert cache k. induction ops as [|[|] ops IH]; intros cache k Hc; cbn [MetricModel.history gets_since].
  - exists []. split; [reflexivity|constructor].
  - destruct (get_metric_step cache k Hc) as (m & BJg & E & M). rewrite E. cbn [bind fst].
    destruct (IH (Some m) (S k)) as (l & El & F). { exists k. split; [reflexivity|exact M]. }
    rewrite El. cbn [bind]. exists (m :: l). split; [reflexivity|]. constructor; assumption.
  - now apply (IH None 0%nat).
Qed.

Lemma history_ok ops : exists l, history ops None = Ok l /\
  Forall2 (fun m k => metric_is pm Bmag pressure g (expected k) (expected_inv k) m) l (gets_since ops 0).
Proof. now apply (history_gen ops None 0). Qed.
End GM.

(** ** The forms used by the property theorems *)
Section Forms.
Context {G : Type}.
Variable pm : G -> pol_metric.
Variable Bmag pressure Byfunc : G -> Q -> Z -> Z -> Q.
Variable sqrt : Q -> Q.
Variable g : grid G.

Lemma cylindrical R bJ : well_formed g -> all_status pm g bJ -> forall ops,
  exists l, history G pm (Some R) Bmag pressure Byfunc sqrt g ops None = Ok l /\
    Forall (metric_is pm Bmag pressure g
      (fun p q x z => R p q x z * R p q x z * par Bmag Byfunc p q x z)
      (fun p q x z => 1 / (R p q x z * R p q x z) * rap Bmag Byfunc p q x z)) l.
Proof.
  intros W HJ ops. destruct (history_ok pm (Some R) Bmag pressure Byfunc sqrt g W bJ HJ ops) as (l & E & F).
  exists l. split; [exact E|]. clear E. induction F; constructor; assumption.
Qed.

Lemma cartesian bJ : well_formed g -> all_status pm g bJ -> forall ops,
  exists l, history G pm None Bmag pressure Byfunc sqrt g ops None = Ok l /\
    Forall2 (fun m k => metric_is pm Bmag pressure g
      (fun p q x z => par Bmag Byfunc p q x z ^ Z.of_nat (S k))
      (fun p q x z => rap Bmag Byfunc p q x z ^ Z.of_nat (S k)) m) l (gets_since ops 0).
Proof. intros W HJ ops. exact (history_ok pm None Bmag pressure Byfunc sqrt g W bJ HJ ops). Qed.
End Forms.
