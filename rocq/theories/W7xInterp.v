(** The interpolation in W7X_vacuum, its constructor, and the services. *)
From Coq Require Import String List ZArith QArith Qabs Qround Lia Lqa Bool Setoid.
From Verif Require Import Prelude PreludeFacts NamingModel FieldModel PolModel W7xModel W7xSpec W7xNames W7xHist.
Import ListNotations.
Open Scope Q_scope.

(** ** One axis *)
Lemma cell_lt l x : (2 <= length l)%nat -> (S (cell l x) < length l)%nat.
Proof.
  induction l as [|a l IH]; [cbn; lia|]. destruct l as [|b [|c t]]; [cbn; lia|cbn; lia|]. intros _.
  change (cell (a :: b :: c :: t) x) with (if Qle_bool b x then S (cell (b :: c :: t) x) else 0%nat).
  destruct (Qle_bool b x); [|cbn; lia]. specialize (IH ltac:(cbn; lia)). cbn [length] in *. lia.
Qed.
Lemma cell_spec l x : (2 <= length l)%nat -> nth 0 l 0 <= x -> nth (cell l x) l 0 <= x /\ (x < nth (S (cell l x)) l 0 \/ S (cell l x) = (length l - 1)%nat).
Proof.
  induction l as [|a l IH]; [cbn; lia|]. destruct l as [|b [|c t]]; [cbn; lia| |].
  - intros _ H. cbn [cell nth] in *. split; [exact H|]. right. reflexivity.
  - intros _ H. change (cell (a :: b :: c :: t) x) with (if Qle_bool b x then S (cell (b :: c :: t) x) else 0%nat).
    destruct (Qle_bool b x) eqn:E.
    + apply Qle_bool_iff in E. destruct (IH ltac:(cbn; lia) E) as [A B]. split; [exact A|]. destruct B as [B|B]; [now left|].
      right. cbn [length] in *. lia.
    + split; [exact H|]. left. change (x < b). apply Qnot_le_lt. intros C. apply Qle_bool_iff in C. congruence.
Qed.
Lemma increasing_step l : increasing l = true -> forall i, (S i < length l)%nat -> nth i l 0 < nth (S i) l 0.
Proof.
  induction l as [|a l IH]; [cbn; lia|]. destruct l as [|b t]; [cbn; lia|]. intros H. apply andb_true_iff in H. destruct H as [H1 H2].
  intros [|i] Hi; [now apply Qlt_bool_iff in H1|]. apply (IH H2 i). cbn [length] in *. lia.
Qed.
Lemma increasing_lt l : increasing l = true -> forall i j, (i < j)%nat -> (j < length l)%nat -> nth i l 0 < nth j l 0.
Proof.
  intros H i j L. induction L as [|j L IH]; intros Hj; [now apply increasing_step|].
  eapply Qlt_trans; [apply IH; lia|]. now apply increasing_step.
Qed.
Lemma last_nth l a : last (a :: l) a = nth (length (a :: l) - 1) (a :: l) 0.
Proof.
  revert a. induction l as [|b l IH]; intros a; [reflexivity|].
  change (last (a :: b :: l) a) with (last (b :: l) a).
  replace (nth (length (a :: b :: l) - 1) (a :: b :: l) 0) with (nth (length (b :: l) - 1) (b :: l) 0).
  - rewrite <- IH. clear. revert a b. induction l as [|c l IH]; intros a b; [reflexivity|]. change (last (c :: l) a = last (c :: l) b). now rewrite (IH a c), (IH b c).
  - cbn [length]. replace (S (S (length l)) - 1)%nat with (S (S (length l) - 1))%nat by lia. reflexivity.
Qed.
Lemma outside_iff l x : (2 <= length l)%nat -> (outside_axis l x = false <-> within_axis l x).
Proof.
  destruct l as [|a l]; [cbn; lia|]. intros _. unfold outside_axis, within_axis. rewrite last_nth. cbn [nth].
  rewrite orb_false_iff, !Qlt_bool_false_iff. tauto.
Qed.

Section Axis.
Variable l : list Q.
Hypothesis Hl : (2 <= length l)%nat.
Hypothesis Hi : increasing l = true.

Lemma width x : 0 < nth (S (cell l x)) l 0 - nth (cell l x) l 0.
Proof. pose proof (increasing_step l Hi (cell l x) (cell_lt l x Hl)). lra. Qed.
Lemma cell_upper x : within_axis l x -> x <= nth (S (cell l x)) l 0.
Proof. intros [A B]. destruct (cell_spec l x Hl A) as [_ [C|C]]; [lra|]. now rewrite C. Qed.
Lemma fraction_range x : within_axis l x -> 0 <= fraction l x /\ fraction l x <= 1.
Proof.
  intros W. pose proof (width x) as P. pose proof (cell_upper x W) as U. destruct W as [A B]. destruct (cell_spec l x Hl A) as [C _].
  unfold fraction. split.
  - apply Qle_shift_div_l; [exact P|]. lra.
  - apply Qle_shift_div_r; [exact P|]. lra.
Qed.
Lemma mix_affine x c d g0 g1 : g0 == c + d * nth (cell l x) l 0 -> g1 == c + d * nth (S (cell l x)) l 0 -> mix (fraction l x) g0 g1 == c + d * x.
Proof.
  intros E0 E1. unfold mix, fraction. rewrite E0, E1. clear E0 E1. pose proof (width x) as P. field. intros C. rewrite C in P. now apply Qlt_irrefl in P.
Qed.
Lemma mix_node x i (g : nat -> Q) : (i < length l)%nat -> x == nth i l 0 -> mix (fraction l x) (g (cell l x)) (g (S (cell l x))) == g i.
Proof.
  intros H E. assert (A : nth 0 l 0 <= x).
  { rewrite E. destruct i as [|i]; [apply Qle_refl|]. apply Qlt_le_weak, increasing_lt; [exact Hi|lia|exact H]. }
  destruct (cell_spec l x Hl A) as [C D]. pose proof (cell_lt l x Hl) as L. pose proof (width x) as P.
  assert (K : (i = cell l x \/ i = S (cell l x))%nat).
  { assert (B1 : (cell l x <= i)%nat).
    { destruct (Nat.le_gt_cases (cell l x) i) as [G|G]; [exact G|]. exfalso. pose proof (increasing_lt l Hi i (cell l x) G ltac:(lia)). lra. }
    assert (B2 : (i <= S (cell l x))%nat).
    { destruct (Nat.le_gt_cases i (S (cell l x))) as [G|G]; [exact G|]. exfalso. destruct D as [D|D].
      - pose proof (increasing_lt l Hi (S (cell l x)) i G H). lra.
      - lia. }
    lia. }
  unfold mix, fraction. clear A C D L H. revert K E P. generalize (cell l x). intros c K E P.
  set (p := nth c l 0) in *. set (q := nth (S c) l 0) in *. destruct K as [-> | ->]; [fold p in E|fold q in E]; rewrite E; field; intros Y; rewrite Y in P; now apply Qlt_irrefl in P.
Qed.
Lemma mix_bounds x lo hi a b : within_axis l x -> lo <= a <= hi -> lo <= b <= hi -> lo <= mix (fraction l x) a b <= hi.
Proof. intros W [A1 A2] [B1 B2]. destruct (fraction_range x W) as [F0 F1]. unfold mix. set (t := fraction l x) in *. split; nra. Qed.
Lemma node_within x i : (i < length l)%nat -> x == nth i l 0 -> within_axis l x.
Proof.
  intros H E. unfold within_axis. rewrite E. split.
  - destruct i as [|i]; [apply Qle_refl|]. apply Qlt_le_weak, increasing_lt; [exact Hi|lia|exact H].
  - destruct (Nat.eq_dec i (length l - 1)) as [->|N]; [apply Qle_refl|]. apply Qlt_le_weak, increasing_lt; [exact Hi|lia|lia].
Qed.
End Axis.

Lemma cell_compat l x y : x == y -> cell l x = cell l y.
Proof.
  intros E. induction l as [|a l IH]; [reflexivity|]. destruct l as [|b [|c t]]; [reflexivity..|].
  change (cell (a :: b :: c :: t) x) with (if Qle_bool b x then S (cell (b :: c :: t) x) else 0%nat).
  change (cell (a :: b :: c :: t) y) with (if Qle_bool b y then S (cell (b :: c :: t) y) else 0%nat).
  now rewrite IH, E.
Qed.
Lemma outside_compat l x y : x == y -> outside_axis l x = outside_axis l y.
Proof. intros E. unfold outside_axis. destruct l as [|a l]; [reflexivity|]. unfold Qlt_bool. now rewrite E. Qed.
Lemma fraction_compat l x y : x == y -> fraction l x == fraction l y.
Proof. intros E. unfold fraction. rewrite (cell_compat l x y E), E. reflexivity. Qed.
Lemma mix_compat t t' a a' b b' : t == t' -> a == a' -> b == b' -> mix t a b == mix t' a' b'.
Proof. intros E1 E2 E3. unfold mix. rewrite E1, E2, E3. reflexivity. Qed.
Lemma interpolate_compat m v fill r r' phi phi' z z' : r == r' -> phi == phi' -> z == z' -> interpolate m v fill r phi z == interpolate m v fill r' phi' z'.
Proof.
  intros Er Ep Ez. unfold interpolate. rewrite (outside_compat _ r r' Er), (outside_compat _ phi phi' Ep), (outside_compat _ z z' Ez).
  destruct (_ || _ || _); [reflexivity|]. cbv zeta. rewrite (cell_compat _ r r' Er), (cell_compat _ phi phi' Ep), (cell_compat _ z z' Ez).
  repeat apply mix_compat; auto using fraction_compat, Qeq_refl.
Qed.

(** ** Three axes *)
Section Box.
Variable m : mesh.
Hypothesis Hm : proper m.

Lemma inside r phi z v fill : within_box m r phi z -> interpolate m v fill r phi z =
  mix (fraction (ax_r m) r)
    (mix (fraction (ax_phi m) phi) (mix (fraction (ax_z m) z) (v (cell (ax_r m) r) (cell (ax_phi m) phi) (cell (ax_z m) z)) (v (cell (ax_r m) r) (cell (ax_phi m) phi) (S (cell (ax_z m) z))))
       (mix (fraction (ax_z m) z) (v (cell (ax_r m) r) (S (cell (ax_phi m) phi)) (cell (ax_z m) z)) (v (cell (ax_r m) r) (S (cell (ax_phi m) phi)) (S (cell (ax_z m) z)))))
    (mix (fraction (ax_phi m) phi) (mix (fraction (ax_z m) z) (v (S (cell (ax_r m) r)) (cell (ax_phi m) phi) (cell (ax_z m) z)) (v (S (cell (ax_r m) r)) (cell (ax_phi m) phi) (S (cell (ax_z m) z))))
       (mix (fraction (ax_z m) z) (v (S (cell (ax_r m) r)) (S (cell (ax_phi m) phi)) (cell (ax_z m) z)) (v (S (cell (ax_r m) r)) (S (cell (ax_phi m) phi)) (S (cell (ax_z m) z))))).
Proof.
  destruct Hm as (L1 & L2 & L3 & _). intros (W1 & W2 & W3). unfold interpolate.
  rewrite (proj2 (outside_iff _ r L1) W1), (proj2 (outside_iff _ phi L2) W2), (proj2 (outside_iff _ z L3) W3). reflexivity.
Qed.
Lemma interpolate_outside r phi z v fill : ~ within_box m r phi z -> interpolate m v fill r phi z = fill.
Proof.
  destruct Hm as (L1 & L2 & L3 & _). intros H. unfold interpolate.
  destruct (outside_axis (ax_r m) r) eqn:E1; [reflexivity|]. destruct (outside_axis (ax_phi m) phi) eqn:E2; [reflexivity|].
  destruct (outside_axis (ax_z m) z) eqn:E3; [reflexivity|]. exfalso. apply H.
  split; [now apply outside_iff|]. split; now apply outside_iff.
Qed.
Lemma interpolate_node v fill i j k r phi z : (i < length (ax_r m))%nat -> (j < length (ax_phi m))%nat -> (k < length (ax_z m))%nat ->
  r == nth i (ax_r m) 0 -> phi == nth j (ax_phi m) 0 -> z == nth k (ax_z m) 0 -> interpolate m v fill r phi z == v i j k.
Proof.
  destruct Hm as (L1 & L2 & L3 & I1 & I2 & I3). intros Hi Hj Hk Er Ep Ez. rewrite inside.
  2:{ split; [|split]; eapply node_within; eassumption. }
  rewrite (mix_node (ax_r m) L1 I1 r i (fun i => mix (fraction (ax_phi m) phi)
      (mix (fraction (ax_z m) z) (v i (cell (ax_phi m) phi) (cell (ax_z m) z)) (v i (cell (ax_phi m) phi) (S (cell (ax_z m) z))))
      (mix (fraction (ax_z m) z) (v i (S (cell (ax_phi m) phi)) (cell (ax_z m) z)) (v i (S (cell (ax_phi m) phi)) (S (cell (ax_z m) z))))) Hi Er).
  rewrite (mix_node (ax_phi m) L2 I2 phi j (fun j => mix (fraction (ax_z m) z) (v i j (cell (ax_z m) z)) (v i j (S (cell (ax_z m) z)))) Hj Ep).
  exact (mix_node (ax_z m) L3 I3 z k (fun k => v i j k) Hk Ez).
Qed.
Lemma interpolate_bounds v fill lo hi r phi z : within_box m r phi z ->
  (forall i j k, (i < length (ax_r m))%nat -> (j < length (ax_phi m))%nat -> (k < length (ax_z m))%nat -> lo <= v i j k <= hi) ->
  lo <= interpolate m v fill r phi z <= hi.
Proof.
  destruct Hm as (L1 & L2 & L3 & I1 & I2 & I3). intros W H. rewrite inside by exact W. destruct W as (W1 & W2 & W3).
  pose proof (cell_lt _ r L1). pose proof (cell_lt _ phi L2). pose proof (cell_lt _ z L3).
  repeat (first [apply (mix_bounds _ L1 I1 r); [exact W1| |] | apply (mix_bounds _ L2 I2 phi); [exact W2| |] | apply (mix_bounds _ L3 I3 z); [exact W3| |]]);
    apply H; lia.
Qed.
Lemma interpolate_multi_affine v fill f r phi z : multi_affine f -> within_box m r phi z ->
  (forall i j k, (i < length (ax_r m))%nat -> (j < length (ax_phi m))%nat -> (k < length (ax_z m))%nat ->
     v i j k == f (nth i (ax_r m) 0) (nth j (ax_phi m) 0) (nth k (ax_z m) 0)) ->
  interpolate m v fill r phi z == f r phi z.
Proof.
  destruct Hm as (L1 & L2 & L3 & I1 & I2 & I3). intros (c0 & c1 & c2 & c3 & c4 & c5 & c6 & c7 & F) W H. rewrite inside by exact W.
  pose proof (cell_lt _ r L1). pose proof (cell_lt _ phi L2). pose proof (cell_lt _ z L3).
  set (i := cell (ax_r m) r) in *. set (j := cell (ax_phi m) phi) in *. set (k := cell (ax_z m) z) in *.
  assert (Az : forall i j, (i < length (ax_r m))%nat -> (j < length (ax_phi m))%nat ->
     mix (fraction (ax_z m) z) (v i j k) (v i j (S k)) == f (nth i (ax_r m) 0) (nth j (ax_phi m) 0) z).
  { intros i' j' Hi' Hj'. set (a := nth i' (ax_r m) 0). set (b := nth j' (ax_phi m) 0).
    rewrite (mix_affine (ax_z m) L3 I3 z (c0 + c1 * a + c2 * b + c4 * (a * b)) (c3 + c5 * a + c6 * b + c7 * (a * b))).
    - rewrite F. ring.
    - rewrite H by (fold k; lia). rewrite F. fold k a b. ring.
    - rewrite H by (fold k; lia). rewrite F. fold k a b. ring. }
  assert (Ap : forall i, (i < length (ax_r m))%nat ->
     mix (fraction (ax_phi m) phi) (mix (fraction (ax_z m) z) (v i j k) (v i j (S k))) (mix (fraction (ax_z m) z) (v i (S j) k) (v i (S j) (S k)))
     == f (nth i (ax_r m) 0) phi z).
  { intros i' Hi'. set (a := nth i' (ax_r m) 0).
    rewrite (mix_affine (ax_phi m) L2 I2 phi (c0 + c1 * a + c3 * z + c5 * (a * z)) (c2 + c4 * a + c6 * z + c7 * (a * z))).
    - rewrite F. ring.
    - rewrite Az by (try exact Hi'; lia). rewrite F. fold j a. ring.
    - rewrite Az by (try exact Hi'; lia). rewrite F. fold j a. ring. }
  rewrite (mix_affine (ax_r m) L1 I1 r (c0 + c2 * phi + c3 * z + c6 * (phi * z)) (c1 + c4 * phi + c5 * z + c7 * (phi * z))).
  - rewrite F. ring.
  - rewrite Ap by lia. rewrite F. fold i. ring.
  - rewrite Ap by lia. rewrite F. fold i. ring.
Qed.
End Box.

(** ** Remainders *)
Lemma qrem_period phi t n : ~ t == 0 -> qrem (phi + inject_Z n * t) t == qrem phi t.
Proof.
  intros Ht. unfold qrem. assert (E : (phi + inject_Z n * t) / t == phi / t + inject_Z n) by (field; exact Ht).
  assert (F : Qfloor ((phi + inject_Z n * t) / t) = (Qfloor (phi / t) + n)%Z) by (rewrite (Qfloor_comp _ _ E); apply Qfloor_plus_Z).
  rewrite F, inject_Z_plus. ring.
Qed.
Lemma qrem_id phi t : 0 < t -> 0 <= phi -> phi < t -> qrem phi t == phi.
Proof.
  intros Ht H0 H1. unfold qrem. assert (Qfloor (phi / t) = 0%Z) as ->; [|change (inject_Z 0) with 0; ring].
  assert (A : 0 <= phi / t) by (apply Qle_shift_div_l; lra). assert (B : phi / t < 1) by (apply Qlt_shift_div_r; lra).
  assert (C : (0 <= Qfloor (phi / t))%Z) by (apply Qfloor_resp_le in A; exact A).
  pose proof (Qfloor_le (phi / t)) as D. assert (E : inject_Z (Qfloor (phi / t)) < inject_Z 1) by (change (inject_Z 1) with 1; lra).
  rewrite <- Zlt_Qlt in E. lia.
Qed.

(** ** The constructor *)
Lemma linspace_nth a b n i : (i < n)%nat -> (2 <= n)%nat -> nth i (linspace a b n) 0 == a + inject_Z (Z.of_nat i) * ((b - a) / inject_Z (Z.of_nat (n - 1))).
Proof.
  intros H Hn. unfold linspace. set (f := (fun i => if (i =? 0)%nat then a else if (S i =? n)%nat then b
                else a + inject_Z (Z.of_nat i) * ((b - a) / inject_Z (Z.of_nat (n - 1))))). rewrite (nth_indep _ 0 (f 0%nat)) by (rewrite map_length, seq_length; exact H).
  rewrite map_nth, seq_nth by exact H. cbn [Nat.add]. unfold f. destruct i as [|i]; [change (0 =? 0)%nat with true|change (S i =? 0)%nat with false]; cbv iota.
  - change (inject_Z (Z.of_nat 0)) with 0. ring.
  - destruct (Nat.eqb_spec (S (S i)) n) as [<-|]; [|reflexivity]. replace (S (S i) - 1)%nat with (S i) by lia. field.
    intros C. assert (C2 : Z.of_nat (S i) = 0%Z) by (apply inject_Z_injective; exact C). lia.
Qed.
Lemma linspace_first a b n : (1 <= n)%nat -> nth 0 (linspace a b n) 0 = a.
Proof. destruct n; [lia|reflexivity]. Qed.
Lemma linspace_last a b n : (2 <= n)%nat -> nth (n - 1) (linspace a b n) 0 = b.
Proof.
  intros H. unfold linspace. set (f := (fun i => if (i =? 0)%nat then a else if (S i =? n)%nat then b
                else a + inject_Z (Z.of_nat i) * ((b - a) / inject_Z (Z.of_nat (n - 1))))). rewrite (nth_indep _ 0 (f 0%nat)) by (rewrite map_length, seq_length; lia).
  rewrite map_nth, seq_nth by lia. cbn [Nat.add]. unfold f. destruct n as [|[|n]]; [lia|lia|].
  replace (S (S n) - 1)%nat with (S n) by lia. change (S n =? 0)%nat with false. cbv iota. now rewrite Nat.eqb_refl.
Qed.
Lemma increasing_of_steps l : (forall i, (S i < length l)%nat -> nth i l 0 < nth (S i) l 0) -> increasing l = true.
Proof.
  induction l as [|a l IH]; [reflexivity|]. destruct l as [|b t]; [reflexivity|]. intros H.
  change (Qlt_bool a b && increasing (b :: t) = true). rewrite (proj2 (Qlt_bool_iff a b)) by (apply (H 0%nat); cbn; lia).
  apply IH. intros i Hi. apply (H (S i)). cbn [length] in *. lia.
Qed.
Lemma linspace_increasing a b n : a < b -> increasing (linspace a b n) = true.
Proof.
  intros H. apply increasing_of_steps. rewrite linspace_length. intros i Hi. rewrite !linspace_nth by lia.
  assert (P : 0 < (b - a) / inject_Z (Z.of_nat (n - 1))).
  { apply Qlt_shift_div_l; [|lra]. change 0 with (inject_Z 0). rewrite <- Zlt_Qlt. lia. }
  set (h := (b - a) / _) in *. rewrite Nat2Z.inj_succ. unfold Z.succ. rewrite inject_Z_plus. change (inject_Z 1) with 1.
  setoid_replace (a + (inject_Z (Z.of_nat i) + 1) * h) with (a + inject_Z (Z.of_nat i) * h + h) by ring. lra.
Qed.
Lemma linspace_not_increasing a b n : b <= a -> (2 <= n)%nat -> increasing (linspace a b n) = false.
Proof.
  intros H Hn. destruct (increasing (linspace a b n)) eqn:E; [|reflexivity]. exfalso.
  pose proof (increasing_lt _ E 0 (n - 1) ltac:(lia) ltac:(rewrite linspace_length; lia)) as L.
  rewrite linspace_first, linspace_last in L by lia. lra.
Qed.
Lemma linspace_within a b n x : (2 <= n)%nat -> (within_axis (linspace a b n) x <-> a <= x /\ x <= b).
Proof. intros H. unfold within_axis. rewrite linspace_length, linspace_first, linspace_last by lia. tauto. Qed.

(** ** The field functions *)
Section Functions.
Variable twopi : Q.
Hypothesis Htwopi : 0 < twopi.
Variable w : w7x.
Hypothesis Hw : proper (w_mesh w).

Lemma functions_at x z phi : 0 <= phi -> phi < twopi -> w_Bx twopi w x z phi == interpolate (w_mesh w) (fun i j k => Br_of (w_B w i j k)) 0 x phi z
  /\ w_By twopi w x z phi == interpolate (w_mesh w) (fun i j k => Bphi_of (w_B w i j k)) 1 x phi z
  /\ w_Bz twopi w x z phi == interpolate (w_mesh w) (fun i j k => Bz_of (w_B w i j k)) 0 x phi z.
Proof.
  intros H0 H1. unfold w_Bx, w_By, w_Bz, Br_of, Bphi_of, Bz_of. split; [|split]; apply interpolate_compat; try apply Qeq_refl; now apply qrem_id.
Qed.

Lemma functions_node i j k phi : (i < length (ax_r (w_mesh w)))%nat -> (j < length (ax_phi (w_mesh w)))%nat -> (k < length (ax_z (w_mesh w)))%nat ->
  0 <= nth j (ax_phi (w_mesh w)) 0 -> nth j (ax_phi (w_mesh w)) 0 < twopi -> (exists n, phi == nth j (ax_phi (w_mesh w)) 0 + inject_Z n * twopi) ->
  w_Bx twopi w (nth i (ax_r (w_mesh w)) 0) (nth k (ax_z (w_mesh w)) 0) phi == Br_of (w_B w i j k)
  /\ w_By twopi w (nth i (ax_r (w_mesh w)) 0) (nth k (ax_z (w_mesh w)) 0) phi == Bphi_of (w_B w i j k)
  /\ w_Bz twopi w (nth i (ax_r (w_mesh w)) 0) (nth k (ax_z (w_mesh w)) 0) phi == Bz_of (w_B w i j k).
Proof.
  intros Hi Hj Hk H0 H1 (n & En). assert (E : qrem phi twopi == nth j (ax_phi (w_mesh w)) 0).
  { transitivity (qrem (nth j (ax_phi (w_mesh w)) 0 + inject_Z n * twopi) twopi).
    - unfold qrem. rewrite (Qfloor_comp (phi / twopi) ((nth j (ax_phi (w_mesh w)) 0 + inject_Z n * twopi) / twopi)) by (now rewrite En). now rewrite En.
    - rewrite qrem_period by lra. now apply qrem_id. }
  unfold w_Bx, w_By, w_Bz. split; [|split].
  - exact (interpolate_node _ Hw _ 0 i j k _ _ _ Hi Hj Hk (Qeq_refl _) E (Qeq_refl _)).
  - exact (interpolate_node _ Hw _ 1 i j k _ _ _ Hi Hj Hk (Qeq_refl _) E (Qeq_refl _)).
  - exact (interpolate_node _ Hw _ 0 i j k _ _ _ Hi Hj Hk (Qeq_refl _) E (Qeq_refl _)).
Qed.

Lemma functions_affine fr fp fz x z phi : 0 <= phi -> phi < twopi -> within_box (w_mesh w) x phi z -> multi_affine fr -> multi_affine fp -> multi_affine fz ->
  (forall i j k, (i < length (ax_r (w_mesh w)))%nat -> (j < length (ax_phi (w_mesh w)))%nat -> (k < length (ax_z (w_mesh w)))%nat ->
     let at_ (f : Q -> Q -> Q -> Q) := f (nth i (ax_r (w_mesh w)) 0) (nth j (ax_phi (w_mesh w)) 0) (nth k (ax_z (w_mesh w)) 0) in
     Br_of (w_B w i j k) == at_ fr /\ Bphi_of (w_B w i j k) == at_ fp /\ Bz_of (w_B w i j k) == at_ fz) ->
  w_Bx twopi w x z phi == fr x phi z /\ w_By twopi w x z phi == fp x phi z /\ w_Bz twopi w x z phi == fz x phi z.
Proof.
  intros H0 H1 W Mr Mp Mz H. destruct (functions_at x z phi H0 H1) as (-> & -> & ->).
  split; [|split].
  - apply (interpolate_multi_affine _ Hw _ _ fr _ _ _ Mr W). intros i j k Hi Hj Hk. apply (H i j k Hi Hj Hk).
  - apply (interpolate_multi_affine _ Hw _ _ fp _ _ _ Mp W). intros i j k Hi Hj Hk. apply (H i j k Hi Hj Hk).
  - apply (interpolate_multi_affine _ Hw _ _ fz _ _ _ Mz W). intros i j k Hi Hj Hk. apply (H i j k Hi Hj Hk).
Qed.

Lemma functions_bounds (part : Q * Q * Q -> Q) lo hi x z phi : part = Br_of \/ part = Bphi_of \/ part = Bz_of ->
  0 <= phi -> phi < twopi -> within_box (w_mesh w) x phi z ->
  (forall i j k, (i < length (ax_r (w_mesh w)))%nat -> (j < length (ax_phi (w_mesh w)))%nat -> (k < length (ax_z (w_mesh w)))%nat -> lo <= part (w_B w i j k) <= hi) ->
  (part = Br_of -> lo <= w_Bx twopi w x z phi <= hi) /\ (part = Bphi_of -> lo <= w_By twopi w x z phi <= hi) /\ (part = Bz_of -> lo <= w_Bz twopi w x z phi <= hi).
Proof.
  intros _ H0 H1 W H. destruct (functions_at x z phi H0 H1) as (E1 & E2 & E3).
  split; [|split]; intros ->; [rewrite E1|rewrite E2|rewrite E3]; now apply (interpolate_bounds _ Hw).
Qed.

Lemma functions_outside x z phi : 0 <= phi -> phi < twopi -> ~ within_box (w_mesh w) x phi z ->
  w_Bx twopi w x z phi == 0 /\ w_By twopi w x z phi == 1 /\ w_Bz twopi w x z phi == 0.
Proof.
  intros H0 H1 W. destruct (functions_at x z phi H0 H1) as (-> & -> & ->). rewrite !(interpolate_outside _ Hw) by exact W.
  split; [|split]; reflexivity.
Qed.
Lemma functions_period x z phi n : w_Bx twopi w x z (phi + inject_Z n * twopi) == w_Bx twopi w x z phi
  /\ w_By twopi w x z (phi + inject_Z n * twopi) == w_By twopi w x z phi /\ w_Bz twopi w x z (phi + inject_Z n * twopi) == w_Bz twopi w x z phi.
Proof. unfold w_Bx, w_By, w_Bz. split; [|split]; apply interpolate_compat; try apply Qeq_refl; apply qrem_period; lra. Qed.
End Functions.

Section Build.
Variables (service : configuration -> mesh -> res samples) (extender : string -> mesh -> res samples).
Local Notation w7x_vacuum := (w7x_vacuum service extender).

Lemma axis_of l a b n : range l a b -> axis l n = Ok (linspace a b n).
Proof. intros (m & -> & ->). reflexivity. Qed.

Lemma built st nx ny nz xr zr x0 x1 z0 z1 phimax c plasma wout v st' p st'' :
  range xr x0 x1 -> range zr z0 z1 ->
  let m := {| ax_r := linspace x0 x1 nx; ax_phi := linspace 0 phimax ny; ax_z := linspace z0 z1 nz |} in
  field_values service st c m = (Ok v, st') ->
  (if plasma : bool then plasma_field extender st' m wout = (Ok p, st'') else p = (fun _ _ _ => (0, 0, 0)) /\ st'' = st') ->
  x0 < x1 -> z0 < z1 -> 0 < phimax ->
  exists w, w7x_vacuum st nx ny nz xr zr phimax c plasma wout = (Ok w, st'') /\ w_mesh w = m /\
    forall i j k, Br_of (w_B w i j k) == Br_of (v i j k) + Br_of (p i j k) /\ Bphi_of (w_B w i j k) == Bphi_of (v i j k) + Bphi_of (p i j k)
      /\ Bz_of (w_B w i j k) == Bz_of (v i j k) + Bz_of (p i j k).
Proof.
  intros Hx Hz m F P Lx Lz Lp. unfold W7xModel.w7x_vacuum. rewrite (axis_of _ _ _ _ Hx), (axis_of _ _ _ _ Hz). cbn [bind]. fold m. rewrite F.
  assert (E : (if plasma then plasma_field extender st' m wout else (Ok (fun _ _ _ => (0, 0, 0)), st')) = (Ok p, st'')).
  { destruct plasma; [exact P|]. destruct P as [-> ->]. reflexivity. }
  rewrite E. unfold m at 1 2 3. cbn [ax_r ax_phi ax_z]. rewrite !linspace_increasing by assumption. cbn [andb].
  eexists. split; [reflexivity|]. split; [reflexivity|]. intros i j k. cbn [w_B]. unfold plus3, Br_of, Bphi_of, Bz_of. cbn [fst snd].
  split; [|split]; reflexivity.
Qed.

Lemma not_increasing st nx ny nz xr zr x0 x1 z0 z1 phimax c plasma wout : range xr x0 x1 -> range zr z0 z1 ->
  (2 <= nx)%nat -> (2 <= ny)%nat -> (2 <= nz)%nat -> x1 <= x0 \/ z1 <= z0 \/ phimax <= 0 ->
  exists e, fst (w7x_vacuum st nx ny nz xr zr phimax c plasma wout) = Err e /\
    ((forall m, (exists d, service c m = Ok d)) -> (forall u m, exists d, extender u m = Ok d) -> e = ValueError).
Proof.
  intros Hx Hz Nx Ny Nz H. unfold W7xModel.w7x_vacuum. rewrite (axis_of _ _ _ _ Hx), (axis_of _ _ _ _ Hz). cbn [bind].
  set (m := {| ax_r := _ |}).
  assert (Ends : forall a b n, (2 <= n)%nat -> exists e, ends (linspace a b n) = Ok e).
  { intros a b n Hn. pose proof (linspace_length a b n) as L. destruct (linspace a b n); [cbn in L; lia|]. cbn. eauto. }
  assert (La : exists l, label m = Ok l).
  { unfold label, m. cbn [ax_r ax_phi ax_z]. destruct (Ends x0 x1 nx Nx) as [[? ?] ->], (Ends 0 phimax ny Ny) as [[? ?] ->], (Ends z0 z1 nz Nz) as [[? ?] ->].
    cbn [bind]. eauto. }
  destruct La as [l La].
  destruct (field_values service st c m) as [[v|e] st1] eqn:EF.
  2:{ exists e. split; [reflexivity|]. intros Hs _. exfalso. revert EF. unfold field_values, fname_old, fname. rewrite La. cbn [bind].
      destruct (st _); [discriminate|]. destruct (st _); [discriminate|]. destruct (Hs m) as [d ->]. discriminate. }
  destruct (if plasma then _ else _) as [[p|e] st2] eqn:EP.
  2:{ exists e. split; [reflexivity|]. intros _ Hs. exfalso. revert EP. destruct plasma; [|discriminate].
      unfold plasma_field, fname_plasma. rewrite La. cbn [bind]. destruct (st1 _); [discriminate|]. destruct (Hs vmecURL m) as [d ->]. discriminate. }
  assert (E : increasing (ax_r m) && increasing (ax_phi m) && increasing (ax_z m) = false).
  { unfold m. cbn [ax_r ax_phi ax_z]. destruct H as [H|[H|H]]; rewrite (linspace_not_increasing _ _ _ H) by assumption; now rewrite ?andb_false_r. }
  rewrite E. cbn. eauto.
Qed.

Lemma wout_ignored st nx ny nz xr zr phimax c plasma wout wout' :
  w7x_vacuum st nx ny nz xr zr phimax c plasma wout = w7x_vacuum st nx ny nz xr zr phimax c plasma wout'.
Proof. reflexivity. Qed.
Lemma plasma_spec st m wout : (exists n, fname_plasma m = Ok n /\ (forall d, st n = Some d -> plasma_field extender st m wout = (Ok d, st)) /\
    (st n = None -> fst (plasma_field extender st m wout) = extender vmecURL m /\
       (forall d, extender vmecURL m = Ok d -> snd (plasma_field extender st m wout) n = Some d /\ forall n', n' <> n -> snd (plasma_field extender st m wout) n' = st n')))
  \/ (plasma_field extender st m wout = (Err IndexError, st) /\ (ax_r m = [] \/ ax_phi m = [] \/ ax_z m = [])).
Proof.
  unfold plasma_field. destruct (fname_plasma m) as [n|e] eqn:E.
  - left. exists n. split; [reflexivity|]. split.
    + intros d ->. reflexivity.
    + intros ->. destruct (extender vmecURL m) as [d|e]; cbn [fst snd]; (split; [reflexivity|]); [|discriminate].
      intros d' [= <-]. unfold save. rewrite String.eqb_refl. split; [reflexivity|]. intros n' Hn. now rewrite (proj2 (String.eqb_neq n' n) Hn).
  - right. unfold fname_plasma, label, ends in E. destruct (ax_r m); [injection E as <-; auto|]. destruct (ax_phi m); [injection E as <-; auto|].
    destruct (ax_z m); [injection E as <-; auto|discriminate].
Qed.
End Build.

Lemma vmec_never answer nx ny nz xr zr pr : xr <> [] -> zr <> [] -> pr <> [] -> w7x_vmec answer nx ny nz xr zr pr = Err OtherError.
Proof.
  intros H1 H2 H3. unfold w7x_vmec, axis, ends. destruct xr; [congruence|]. destruct zr; [congruence|]. destruct pr; [congruence|]. reflexivity.
Qed.
