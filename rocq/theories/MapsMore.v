(** Sub-samples, chunk independence and the integral windows. *)
From Coq Require Import String Ascii List ZArith QArith Qabs Qround Lia Lqa Bool Setoid Morphisms.
From Verif Require Import Prelude PreludeFacts NamingModel NamingSpec NamingProofs GridModel GridSpec GridProofs
  MapsModel MapsSpec MapsTrace MapsJ MapsTop.
Import ListNotations.
Open Scope string_scope.
Open Scope Q_scope.

Lemma outer_length {A B C} (f : A -> B -> C) l1 l2 : length (outer f l1 l2) = (length l1 * length l2)%nat.
Proof. unfold outer. induction l1; cbn; [reflexivity|]. now rewrite app_length, map_length, IHl1. Qed.

Lemma nth_error_outer {A B C} (f : A -> B -> C) l1 l2 a b u v : nth_error l1 a = Some u -> nth_error l2 b = Some v ->
  nth_error (outer f l1 l2) (a * length l2 + b) = Some (f u v).
Proof.
  unfold outer. revert a. induction l1 as [|h t IH]; intros a Ha Hb; [destruct a; discriminate|].
  assert (b < length l2)%nat by (apply nth_error_Some; congruence).
  destruct a as [|a]; cbn [nth_error] in Ha; cbn [flat_map].
  - injection Ha as ->. cbn [Nat.mul Nat.add]. rewrite nth_error_app1 by (rewrite map_length; lia).
    now rewrite nth_error_map, Hb.
  - rewrite nth_error_app2; rewrite map_length; [|nia].
    replace (S a * length l2 + b - length l2)%nat with (a * length l2 + b)%nat by nia. now apply IH.
Qed.

Lemma qsum_outer l1 l2 : qsum (outer Qmult l1 l2) == qsum l1 * qsum l2.
Proof.
  unfold outer. induction l1 as [|h t IH]; cbn [flat_map qsum]; [ring|].
  rewrite qsum_app, IH. setoid_replace (qsum (map (Qmult h) l2)) with (h * qsum l2); [ring|].
  clear. induction l2; cbn [map qsum]; [ring|rewrite IHl2; ring].
Qed.

Lemma qsum_half l : qsum (map (fun w => w * (1#2)) l) == qsum l * (1#2).
Proof. induction l; cbn [map qsum]; [ring|rewrite IHl; ring]. Qed.

Lemma weights_sum roots spd : (1 < spd)%Z -> qsum (snd (roots (Z.to_nat spd))) == 2 ->
  qsum (subcell_weights roots spd) == 1.
Proof.
  intros H E. unfold subcell_weights. apply Z.ltb_lt in H. rewrite H, qsum_outer, qsum_half, E. reflexivity.
Qed.

Lemma weights_nth roots spd a b u v : (1 < spd)%Z -> length (snd (roots (Z.to_nat spd))) = Z.to_nat spd ->
  nth_error (snd (roots (Z.to_nat spd))) a = Some u -> nth_error (snd (roots (Z.to_nat spd))) b = Some v ->
  nth_error (subcell_weights roots spd) (a * Z.to_nat spd + b) = Some (u * (1#2) * (v * (1#2))).
Proof.
  intros H L Ha Hb. unfold subcell_weights. apply Z.ltb_lt in H. rewrite H.
  rewrite <- L at 3. rewrite <- (map_length (fun w => w * (1#2)) (snd _)).
  apply nth_error_outer; rewrite nth_error_map, ?Ha, ?Hb; reflexivity.
Qed.

(** On a grid whose Z does not vary along x (any rectangular grid) every
    sub-sample starts at the Z of the cell centre. *)
Lemma bilinear_at_node nx nz (a : arr2) x q : (0 <= x < Z.of_nat nz)%Z ->
  (forall i i' z, a i z = a i' z) -> bilinear nx nz a q (inject_Z x) == a 0%Z x.
Proof.
  intros Hx Ha. unfold bilinear. rewrite Qfloor_Z.
  unfold clipZ. replace (Z.max (-1) (Z.min (Z.of_nat nz - 1) x)) with x by lia.
  rewrite (Z.mod_small x) by lia.
  set (i := Z.max 0 _). rewrite (Ha i 0%Z x), (Ha (i + 1)%Z 0%Z x), (Ha (i + 1)%Z i (_ mod _)%Z).
  set (w := a i ((x + 1) mod Z.of_nat nz)%Z). ring.
Qed.

(** The interpolation, cell by cell: the outermost cells in x serve all positions beyond them, the cells -1 and
    nz-1 in z span the seam. *)
Lemma clip_cell lo hi i s : (lo <= i <= hi)%Z -> 0 <= s \/ i = lo -> s <= 1 \/ i = hi ->
  clipZ lo hi (Qfloor (inject_Z i + s)) = i \/
  (clipZ lo hi (Qfloor (inject_Z i + s)) = (i + 1)%Z /\ s == 1).
Proof.
  intros Hi H0 H1. unfold clipZ.
  pose proof (Qfloor_le (inject_Z i + s)) as F1. pose proof (Qlt_floor (inject_Z i + s)) as F2.
  set (f := Qfloor (inject_Z i + s)) in *.
  assert (C : (f < i \/ f = i \/ f = i + 1 \/ i + 1 < f)%Z) by lia.
  destruct C as [C|[C|[C|C]]].
  - destruct H0 as [H0| ->].
    + exfalso. assert (f + 1 <= i)%Z as C' by lia. rewrite Zle_Qle in C'. Lqa.lra.
    + left. lia.
  - left. lia.
  - destruct H1 as [H1| ->].
    + assert (s == 1). { rewrite C, inject_Z_plus in F1. change (inject_Z 1) with 1 in F1. Lqa.lra. }
      destruct (Z.eq_dec i hi) as [->|N]; [left|right; split; [|assumption]]; lia.
    + left. lia.
  - destruct H1 as [H1| ->].
    + exfalso. assert (i + 2 <= f)%Z as C' by lia. rewrite Zle_Qle, inject_Z_plus in C'. change (inject_Z 2) with 2 in C'. Lqa.lra.
    + left. lia.
Qed.

Lemma bilinear_cell nx nz (a : arr2) i k s t :
  (0 <= i <= Z.of_nat nx - 2)%Z -> (-1 <= k <= Z.of_nat nz - 1)%Z ->
  0 <= s \/ i = 0%Z -> s <= 1 \/ i = (Z.of_nat nx - 2)%Z ->
  0 <= t \/ k = (-1)%Z -> t <= 1 \/ k = (Z.of_nat nz - 1)%Z ->
  let w z := (z mod Z.of_nat nz)%Z in
  bilinear nx nz a (inject_Z i + s) (inject_Z k + t) ==
  (1 - t) * ((1 - s) * a i (w k) + s * a (i + 1)%Z (w k)) +
  t * ((1 - s) * a i (w (k + 1)%Z) + s * a (i + 1)%Z (w (k + 1)%Z)).
Proof.
  intros Hi Hk S0 S1 T0 T1 w. unfold bilinear. cbv zeta. subst w. cbv beta.
  destruct (clip_cell 0 (Z.of_nat nx - 2) i s Hi S0 S1) as [-> |[-> Es]];
  destruct (clip_cell (-1) (Z.of_nat nz - 1) k t Hk T0 T1) as [-> |[-> Et]].
  - ring.
  - rewrite inject_Z_plus. change (inject_Z 1) with 1. rewrite Et. ring.
  - rewrite inject_Z_plus. change (inject_Z 1) with 1. rewrite Es. ring.
  - rewrite !inject_Z_plus. change (inject_Z 1) with 1. rewrite Es, Et. ring.
Qed.

(** ** Windows *)

Lemma injZ_neq0 n : n <> 0%Z -> ~ inject_Z n == 0.
Proof. unfold Qeq. cbn. lia. Qed.

Lemma nth_skipn_add {A} k i (l : list A) d : nth i (skipn k l) d = nth (k + i) l d.
Proof. revert l. induction k; intros [|a l]; cbn; auto. destruct i; reflexivity. Qed.

Lemma all_y_length r ym y yp : length (all_y r ym y yp) = (4 * r + 1)%nat.
Proof. unfold all_y. rewrite app_length, rev_length, skipn_length, !linspace_length. lia. Qed.

Lemma nth_linspace a b n i : (i <= n)%nat ->
  nth i (linspace a b n) 0 = a + inject_Z (Z.of_nat i) * ((b - a) / inject_Z (Z.of_nat n)).
Proof.
  intros H. unfold linspace.
  rewrite (nth_indep _ 0 ((fun i => a + inject_Z (Z.of_nat i) * ((b - a) / inject_Z (Z.of_nat n))) 0%nat))
    by (rewrite map_length, seq_length; lia).
  rewrite (map_nth (fun i => a + inject_Z (Z.of_nat i) * ((b - a) / inject_Z (Z.of_nat n)))).
  now rewrite seq_nth by lia.
Qed.

Lemma all_y_below r ym y yp i : (i <= 2 * r)%nat ->
  nth i (all_y r ym y yp) 0 = y + inject_Z (Z.of_nat (2 * r - i)) * ((ym - y) / inject_Z (Z.of_nat (2 * r))).
Proof.
  intros H. unfold all_y. rewrite app_nth1 by (rewrite rev_length, linspace_length; lia).
  rewrite rev_nth by (rewrite linspace_length; lia). rewrite linspace_length.
  replace (2 * r + 1 - S i)%nat with (2 * r - i)%nat by lia. apply nth_linspace. lia.
Qed.

Lemma all_y_above r ym y yp i : (2 * r <= i <= 4 * r)%nat ->
  nth i (all_y r ym y yp) 0 == y + inject_Z (Z.of_nat (i - 2 * r)) * ((yp - y) / inject_Z (Z.of_nat (2 * r))).
Proof.
  intros H. destruct (Nat.eq_dec i (2 * r)) as [->|N].
  - rewrite all_y_below, Nat.sub_diag by lia. cbn [Z.of_nat]. ring.
  - unfold all_y. rewrite app_nth2 by (rewrite rev_length, linspace_length; lia).
    rewrite rev_length, linspace_length, nth_skipn_add.
    replace (1 + (i - (2 * r + 1)))%nat with (i - 2 * r)%nat by lia. rewrite nth_linspace by lia. reflexivity.
Qed.

Lemma window_ends r k ym y yp : (1 <= r)%nat -> (k < 3)%nat ->
  let w := consecutive (r * k) (2 * r + 1) (all_y r ym y yp) in
  length w = (2 * r + 1)%nat /\
  nth 0 w 0 == match k with 0%nat => ym | 1%nat => (y + ym) / 2 | _ => y end /\
  nth (2 * r) w 0 == match k with 0%nat => y | 1%nat => (y + yp) / 2 | _ => yp end.
Proof.
  intros Hr Hk w.
  assert (Hl : length (all_y r ym y yp) = (4 * r + 1)%nat) by apply all_y_length.
  assert (Hq : ~ inject_Z (Z.of_nat (2 * r)) == 0).
  { apply injZ_neq0. lia. }
  assert (H2 : inject_Z (Z.of_nat (2 * r)) == 2 * inject_Z (Z.of_nat r)).
  { rewrite Nat2Z.inj_mul, inject_Z_mult. reflexivity. }
  assert (Hq' : ~ inject_Z (Z.of_nat r) == 0).
  { intros C. apply Hq. rewrite H2, C. reflexivity. }
  split; [apply consecutive_length; nia|]. unfold w. rewrite !nth_consecutive by lia.
  destruct k as [|[|[|k]]]; [| | |lia].
  - rewrite Nat.mul_0_r. rewrite all_y_below, (all_y_below r ym y yp (0 + 2 * r)) by lia. split.
    + replace (2 * r - (0 + 0))%nat with (2 * r)%nat by lia. now field.
    + replace (2 * r - (0 + 2 * r))%nat with 0%nat by lia. cbn [Z.of_nat]. ring.
  - rewrite Nat.mul_1_r, all_y_below, all_y_above by lia. split.
    + replace (2 * r - (r + 0))%nat with r by lia. rewrite H2. now field.
    + replace (r + 2 * r - 2 * r)%nat with r by lia. rewrite H2. now field.
  - rewrite (all_y_below r ym y yp (r * 2 + 0)), all_y_above by lia. split.
    + replace (2 * r - (r * 2 + 0))%nat with 0%nat by lia. cbn [Z.of_nat]. ring.
    + replace (r * 2 + 2 * r - 2 * r)%nat with (2 * r)%nat by lia. now field.
Qed.

(** Neighbouring points of the window are one step apart. *)
Lemma all_y_step r ym y yp i : (1 <= r)%nat -> (i < 4 * r)%nat ->
  nth (S i) (all_y r ym y yp) 0 - nth i (all_y r ym y yp) 0 ==
  (if Nat.ltb i (2 * r) then y - ym else yp - y) / inject_Z (2 * Z.of_nat r).
Proof.
  intros Hr Hi.
  assert (E : inject_Z (Z.of_nat (2 * r)) = inject_Z (2 * Z.of_nat r)) by (f_equal; lia).
  assert (Hq : ~ inject_Z (2 * Z.of_nat r) == 0).
  { apply injZ_neq0. lia. }
  destruct (Nat.ltb_spec i (2 * r)) as [H|H].
  - rewrite !all_y_below by lia. rewrite E.
    replace (Z.of_nat (2 * r - i)) with (Z.of_nat (2 * r - S i) + 1)%Z by lia.
    rewrite inject_Z_plus. change (inject_Z 1) with 1. now field.
  - rewrite !all_y_above by lia. rewrite E.
    replace (Z.of_nat (S i - 2 * r)) with (Z.of_nat (i - 2 * r) + 1)%Z by lia.
    rewrite inject_Z_plus. change (inject_Z 1) with 1. now field.
Qed.

(** ** Uniform field *)
Lemma trapezoid_const f c n : (forall i, (i <= n + 1)%nat -> f i == c) ->
  qsum (map (fun i => if (Nat.eqb i 0 || Nat.eqb i (n + 1))%bool then (1#2) * f i else f i) (seq 0 (n + 1 + 1)))
  == inject_Z (Z.of_nat (n + 1)) * c.
Proof.
  intros H.
  assert (Es : seq 0 (n + 1 + 1) = 0%nat :: (seq 1 n ++ [(n + 1)%nat])%list).
  { replace (n + 1 + 1)%nat with (S (n + 1)) by lia. cbn [seq]. rewrite seq_app. cbn [seq].
    now replace (1 + n)%nat with (n + 1)%nat by lia. }
  rewrite Es. cbn [map qsum]. rewrite map_app, qsum_app. cbn [map qsum].
  rewrite (Nat.eqb_refl (n + 1)), orb_true_r. change (Nat.eqb 0 0) with true. cbn [orb].
  rewrite (H 0%nat), (H (n + 1)%nat) by lia.
  rewrite (qsum_map_ext _ (fun _ => c)).
  - assert (S : forall m k, qsum (map (fun _ : nat => c) (seq k m)) == inject_Z (Z.of_nat m) * c).
    { induction m; intros k; cbn [seq map qsum]; [cbn; ring|].
      rewrite IHm, Nat2Z.inj_succ. unfold Z.succ. rewrite inject_Z_plus. change (inject_Z 1) with 1. ring. }
    rewrite S. rewrite Nat2Z.inj_add, inject_Z_plus. change (inject_Z (Z.of_nat 1)) with 1. ring.
  - intros i Hi. apply in_seq in Hi.
    replace (Nat.eqb i 0) with false by (symmetry; apply Nat.eqb_neq; lia).
    replace (Nat.eqb i (n + 1)) with false by (symmetry; apply Nat.eqb_neq; lia).
    cbn [orb]. apply H. lia.
Qed.

Section Uniform.
Context {G : Type}.
Variable pR pZ : G -> arr2.
Variable t1 : Q -> Q -> list Q -> list (Q * Q).
Variable Byfunc : Q -> Q -> Q -> Q.
Variable Jperp : G -> Z -> Z -> Q.
Variable r : nat.
Hypothesis Hr : (1 <= r)%nat.
Hypothesis Hlen : forall a b ys, length (t1 a b ys) = length ys.

Lemma all_points_length pol x z ym y yp : length (all_points pR pZ t1 r pol x z ym y yp) = (4 * r + 1)%nat.
Proof. unfold all_points. rewrite app_length, rev_length, skipn_length, !Hlen, !linspace_length. lia. Qed.

Lemma B_along_nth pol x z ym y yp i : (i <= 2 * r)%nat ->
  nth i (B_along pR pZ t1 Byfunc r pol x z ym y yp) 0 =
  let p := nth (r + i) (all_points pR pZ t1 r pol x z ym y yp) (0, 0) in
  Byfunc (fst p) (snd p) (nth (r + i) (all_y r ym y yp) 0).
Proof.
  intros Hi. unfold B_along. set (fb := fun t : Q * Q * Q => Byfunc (fst (fst t)) (snd (fst t)) (snd t)).
  rewrite (nth_indep _ 0 (fb ((0, 0), 0))).
  2:{ rewrite map_length, combine_length, !consecutive_length; rewrite ?all_points_length, ?all_y_length; lia. }
  rewrite map_nth, combine_nth. unfold fb.
  2:{ rewrite !consecutive_length; rewrite ?all_points_length, ?all_y_length; lia. }
  cbn [fst snd]. rewrite !nth_consecutive by lia. reflexivity.
Qed.

(** Jacobian along a line with constant By and R. *)
Lemma uniform_J pol x z ym y yp B0 R0 : ~ B0 == 0 ->
  (forall a b c, Byfunc a b c == B0) ->
  (forall i, (i <= 4 * r)%nat -> fst (nth i (all_points pR pZ t1 r pol x z ym y yp) (0, 0)) == R0) ->
  J_spec pR pZ t1 Byfunc Jperp r pol x z ym y yp == Jperp pol x z * R0.
Proof.
  intros HB Hby HR. unfold J_spec. cbn zeta.
  set (f := fun i => Jperp pol x z * nth r (B_along pR pZ t1 Byfunc r pol x z ym y yp) 0
      / nth i (B_along pR pZ t1 Byfunc r pol x z ym y yp) 0
      * nth i (map fst (consecutive r (2 * r + 1) (all_points pR pZ t1 r pol x z ym y yp))) 0).
  assert (Hf : forall i, (i <= 2 * r)%nat -> f i == Jperp pol x z * R0).
  { intros i Hi. unfold f. rewrite !B_along_nth by lia. cbn zeta. rewrite !Hby.
    rewrite (nth_indep _ 0 (fst (0, 0))) by (rewrite map_length, consecutive_length; rewrite ?all_points_length; lia).
    rewrite map_nth, nth_consecutive by lia. rewrite HR by lia. now field. }
  assert (Hq : ~ inject_Z (2 * Z.of_nat r) == 0).
  { apply injZ_neq0. lia. }
  pose proof (trapezoid_const f (Jperp pol x z * R0) (2 * r - 1)) as T.
  replace (2 * r - 1 + 1)%nat with (2 * r)%nat in T by lia.
  unfold f in T. fold f in T. unfold f. rewrite T.
  - replace (Z.of_nat (2 * r)) with (2 * Z.of_nat r)%Z by lia. now field.
  - exact Hf.
Qed.
End Uniform.

(** ** Sub-samples of make_maps *)
Section Sub.
Variable repr : Q -> string.
Context {G : Type}.
Variable pR pZ : G -> arr2.
Variable pnx pnz : G -> nat.
Variable findIndex : G -> arr2 -> arr2 -> arr2 * arr2.
Variable trace : arr2 -> arr2 -> list Q -> list (arr2 * arr2).
Variable outside : arr2 -> Q -> arr2 -> Z -> Z -> bool.
Variable Byfunc : Q -> Q -> Q -> Q.
Variable roots_jacobi : nat -> list Q * list Q.
Variable fll : list (Q * Q) -> list Q -> Q.
Variable Jperp : G -> Z -> Z -> Q.
Variable is_slab : bool.
Variable flow : arr2 -> arr2 -> Q -> Q -> arr2 * arr2.
Variable t1 : Q -> Q -> list Q -> list (Q * Q).
Hypothesis Hflow : follows trace flow.
Hypothesis Ht : pointwise trace t1.
Hypothesis Hroots : forall n, length (fst (roots_jacobi n)) = n.
Variable g : grid G.
Hypothesis Wg : well_formed g.
Variables (nslice mxg spd : Z) (refine n_chunks : nat) (junk : jstate).
Hypothesis Hns : (0 <= nslice)%Z.
Hypothesis Hspd : (1 <= spd)%Z.
Hypothesis Hacc : weights_accepted roots_jacobi spd = true.
Hypothesis Href : (1 <= refine)%nat.
Hypothesis Hch : n_chunks <> 0%nat.
Notation run := (make_maps repr G pR pZ pnx pnz findIndex trace outside Byfunc roots_jacobi fll Jperp is_slab g
                    nslice mxg spd refine n_chunks junk).
Notation nm := (nm repr).
Notation arr := (arr repr).
Notation nodes := (fst (roots_jacobi (Z.to_nat spd))).
Notation sub_at st := (sub_entries_at repr findIndex flow outside nodes g st).

Lemma sub_gen d d' dir j : (dir = 1 \/ dir = -1)%Z -> (1 <= nslice)%Z -> (0 <= j < ny g)%Z ->
  step_entry repr pR pZ pnx pnz findIndex outside roots_jacobi flow g spd (dir_offsets nslice dir) d' j ->
  (forall f, In f fields6 -> d (nm f (OInt (nslice * dir))) = d' (nm f (OInt (nslice * dir)))) ->
  (forall f, In f fields6 -> exists a, d (nm f (OInt (nslice * dir))) = Some (VArr a)) ->
  sub_at (if (spd =? 1)%Z then own_start pR pZ else actual_start pR pZ pnx pnz) d (OInt (nslice * dir)) j.
Proof.
  intros Hd Hn Hj (pol & yj & pys & E1 & L & E2 & E3 & E4) Eq Pr. cbn zeta in E3, E4.
  pose proof (last_dir_offset nslice refine n_chunks Href Hch dir Hn) as El.
  set (os := dir_offsets nslice dir) in *.
  destruct (E2 _ _ El) as (p & y & Epl & Ey).
  specialize (E4 _ _ _ El Epl).
  assert (Ep' : nth_error pys (length pys - 1) = Some (p, y)) by now rewrite L.
  rewrite (last_snd refine n_chunks Href Hch pys yj p y Ep') in E4.
  assert (Uo : used_offset (OInt (nslice * dir))) by (cbn; destruct Hd as [-> | ->]; lia).
  assert (A : forall f, In f fields6 -> d (nm f (OInt (nslice * dir))) = Some (VArr (arr d' f (OInt (nslice * dir))))).
  { intros f Hf. destruct (Pr f Hf) as [a Ea]. unfold MapsTrace.arr. rewrite <- Eq, Ea by assumption. reflexivity. }
  exists pol, yj, p, y, (arr d' "xt_primes" (OInt (nslice * dir))), (arr d' "zt_primes" (OInt (nslice * dir))).
  split; [exact E1|split; [exact Ey|]].
  split; [eexists; split; [now apply nm_ok|apply A; cbn; auto 10]|].
  split; [eexists; split; [now apply nm_ok|apply A; cbn; auto 10]|].
  intros a b u v Ha Hb. cbn zeta. intros x z.
  unfold sub_entry, nsamples in E4. rewrite Hroots.
  assert (La : (a < Z.to_nat spd)%nat) by (rewrite <- (Hroots (Z.to_nat spd)); apply nth_error_Some; congruence).
  assert (Lb : (b < Z.to_nat spd)%nat) by (rewrite <- (Hroots (Z.to_nat spd)); apply nth_error_Some; congruence).
  destruct (Z.eqb_spec spd 1) as [->|N].
  - cbn [Z.mul] in E4. change (Z.to_nat 1) with 1%nat in *.
    replace (Z.of_nat (a * 1 + b)) with 0%Z by lia.
    cbn [own_start fst snd].
    change (1 * 1 =? 1)%Z with true in E4. cbv iota in E4. destruct (E4 x z) as [V1 V2]. rewrite V1, V2.
    unfold xind, zind, mask_out, const2. destruct p; auto.
  - replace (spd * spd =? 1)%Z with false in E4 by (symmetry; apply Z.eqb_neq; nia).
    destruct p as [p'|]; [|apply E4].
    destruct E4 as (offs & Eo & E4). unfold subcell_offsets in Eo.
    replace (1 <? spd)%Z with true in Eo by (symmetry; apply Z.ltb_lt; lia). injection Eo as <-.
    specialize (E4 (Z.of_nat (a * Z.to_nat spd + b)) (u * (1#2)) (v * (1#2)) ltac:(nia)).
    rewrite Nat2Z.id in E4.
    destruct (E4 ltac:(rewrite <- (Hroots (Z.to_nat spd)) at 3;
       rewrite <- (map_length (fun w => w * (1#2)) (fst _));
       apply nth_error_outer; rewrite nth_error_map, ?Ha, ?Hb; reflexivity) x z) as [V1 V2].
    rewrite V1, V2. cbn [xind zind]. unfold mask_out. auto.
Qed.

Lemma subsamples dir j d : run = Ok d -> (dir = 1 \/ dir = -1)%Z -> (1 <= nslice)%Z -> (0 <= j < ny g)%Z ->
  sub_at (if (spd =? 1)%Z then own_start pR pZ else actual_start pR pZ pnx pnz) d (OInt (nslice * dir)) j.
Proof.
  intros Hrun Hd Hn Hj.
  destruct (make_maps_ok repr pR pZ pnx pnz findIndex trace outside Byfunc roots_jacobi fll Jperp is_slab flow t1
    Hflow Ht Hroots g Wg nslice mxg spd refine n_chunks junk Hns Hspd Hacc Href Hch) as (d1 & p0 & y0 & E & _ & R).
  unfold MapsTop.run in E. rewrite Hrun in E. injection E as <-. destruct Hd as [-> | ->].
  - destruct (r_f _ _ _ _ _ _ _ _ _ _ _ _ _ _ _ _ _ _ _ _ _ R j Hj) as (d' & S & Eq).
    apply (sub_gen d d' 1 j); auto.
    + intros f Hf. rewrite Z.mul_1_r. apply Eq; [assumption|lia].
    + intros f Hf. apply (r_present _ _ _ _ _ _ _ _ _ _ _ _ _ _ _ _ _ _ _ _ _ R); auto; lia.
  - destruct (r_b _ _ _ _ _ _ _ _ _ _ _ _ _ _ _ _ _ _ _ _ _ R j Hj) as (d' & S & Eq).
    apply (sub_gen d d' (-1) j); auto.
    + intros f Hf. replace (nslice * -1)%Z with (- nslice)%Z by lia. apply Eq; [assumption|lia].
    + intros f Hf. apply (r_present _ _ _ _ _ _ _ _ _ _ _ _ _ _ _ _ _ _ _ _ _ R); auto; lia.
Qed.

(** Every other slice keeps the zeros it was created with. *)
Lemma inner_slices_zero f o d : run = Ok d -> In f ["xt_primes"; "zt_primes"] -> o <> 0%Z -> (Z.abs o < nslice)%Z ->
  stored repr d f (OInt o) zeros.
Proof.
  intros Hrun Hf Ho Ha.
  destruct (make_maps_ok repr pR pZ pnx pnz findIndex trace outside Byfunc roots_jacobi fll Jperp is_slab flow t1
    Hflow Ht Hroots g Wg nslice mxg spd refine n_chunks junk Hns Hspd Hacc Href Hch) as (d1 & p0 & y0 & E & _ & R).
  unfold MapsTop.run in E. rewrite Hrun in E. injection E as <-.
  exists (nm f (OInt o)). split; [now apply nm_ok|].
  now apply (r_zero _ _ _ _ _ _ _ _ _ _ _ _ _ _ _ _ _ _ _ _ _ R).
Qed.

Lemma weights_stored d : run = Ok d -> d "subcell_weights" = Some (VList (subcell_weights roots_jacobi spd)).
Proof.
  intros Hrun.
  destruct (make_maps_ok repr pR pZ pnx pnz findIndex trace outside Byfunc roots_jacobi fll Jperp is_slab flow t1
    Hflow Ht Hroots g Wg nslice mxg spd refine n_chunks junk Hns Hspd Hacc Href Hch) as (d1 & p0 & y0 & E & _ & R).
  unfold MapsTop.run in E. rewrite Hrun in E. injection E as <-.
  exact (r_weights _ _ _ _ _ _ _ _ _ _ _ _ _ _ _ _ _ _ _ _ _ R).
Qed.

Lemma entries d : run = Ok d ->
  (exists aR aZ, d "R" = Some (VArr aR) /\ d "Z" = Some (VArr aZ) /\
    forall j p y x z s, (0 <= j < ny g)%Z -> getPoloidalGrid g (inject_Z j) = Ok (Some p, y) ->
      aR x j z s = pR p x z /\ aZ x j z s = pZ p x z) /\
  d "MXG" = Some (VInt mxg) /\ d "MYG" = Some (VInt nslice).
Proof.
  intros Hrun.
  destruct (make_maps_ok repr pR pZ pnx pnz findIndex trace outside Byfunc roots_jacobi fll Jperp is_slab flow t1
    Hflow Ht Hroots g Wg nslice mxg spd refine n_chunks junk Hns Hspd Hacc Href Hch) as (d1 & p0 & y0 & E & _ & R).
  unfold MapsTop.run in E. rewrite Hrun in E. injection E as <-.
  split; [exact (r_RZ _ _ _ _ _ _ _ _ _ _ _ _ _ _ _ _ _ _ _ _ _ R)|exact (r_ints _ _ _ _ _ _ _ _ _ _ _ _ _ _ _ _ _ _ _ _ _ R)].
Qed.

Lemma total : exists d, run = Ok d.
Proof.
  destruct (make_maps_ok repr pR pZ pnx pnz findIndex trace outside Byfunc roots_jacobi fll Jperp is_slab flow t1
    Hflow Ht Hroots g Wg nslice mxg spd refine n_chunks junk Hns Hspd Hacc Href Hch) as (d1 & p0 & y0 & E & _).
  now exists d1.
Qed.

(** Closed form of the integral arrays. *)
Lemma integrals d p0 y0 : run = Ok d -> getPoloidalGrid g 0 = Ok (Some p0, y0) ->
  exists aJ aL0 aL1 aL2 aB0 aB1 aB2,
    (is_slab = false -> d "J" = Some (VArr aJ) /\ d "Ly_cell_ylow" = Some (VArr aL0) /\
       d "Ly" = Some (VArr aL1) /\ d "Ly_cell_yhigh" = Some (VArr aL2)) /\
    d "By_cell_ylow" = Some (VArr aB0) /\ d "By" = Some (VArr aB1) /\ d "By_cell_yhigh" = Some (VArr aB2) /\
    forall j, (0 <= j < ny g)%Z -> exists pol y pm ym pp yp,
      getPoloidalGrid g (inject_Z j) = Ok (Some pol, y) /\
      getPoloidalGrid g (inject_Z j + inject_Z (-1)) = Ok (pm, ym) /\
      getPoloidalGrid g (inject_Z j + inject_Z 1) = Ok (pp, yp) /\
      forall x z s, (0 <= x < Z.of_nat (pnx p0))%Z ->
        aJ x j z s == J_spec pR pZ t1 Byfunc Jperp refine pol x z ym y yp /\
        aL0 x j z s = length_spec pR pZ t1 fll refine 0 pol x z ym y yp /\
        aL1 x j z s = length_spec pR pZ t1 fll refine 1 pol x z ym y yp /\
        aL2 x j z s = length_spec pR pZ t1 fll refine 2 pol x z ym y yp /\
        aB0 x j z s = B_spec pR pZ t1 Byfunc refine 0 pol x z ym y yp /\
        aB1 x j z s = B_spec pR pZ t1 Byfunc refine 1 pol x z ym y yp /\
        aB2 x j z s = B_spec pR pZ t1 Byfunc refine 2 pol x z ym y yp.
Proof.
  intros Hrun E0.
  destruct (make_maps_ok repr pR pZ pnx pnz findIndex trace outside Byfunc roots_jacobi fll Jperp is_slab flow t1
    Hflow Ht Hroots g Wg nslice mxg spd refine n_chunks junk Hns Hspd Hacc Href Hch) as (d1 & p1 & y1 & E & E1 & R).
  unfold MapsTop.run in E. rewrite Hrun in E. injection E as <-. rewrite E0 in E1. injection E1 as <- <-.
  destruct (r_J _ _ _ _ _ _ _ _ _ _ _ _ _ _ _ _ _ _ _ _ _ R) as (st & HJ & H1 & H2 & H3 & H4).
  exists (s_J st), (s_sg st 0%nat), (s_sg st 1%nat), (s_sg st 2%nat), (s_B st 0%nat), (s_B st 1%nat), (s_B st 2%nat).
  split; [exact H1|split; [exact H2|split; [exact H3|split; [exact H4|]]]].
  intros j Hj. destruct (HJ j Hj) as (pol & y & pm & ym & pp & yp & A1 & A2 & A3 & C).
  exists pol, y, pm, ym, pp, yp. split; [exact A1|split; [exact A2|split; [exact A3|]]].
  intros x z s Hx. destruct (C (Z.to_nat x) ltac:(lia) z s) as (V1 & V2 & V3).
  rewrite Z2Nat.id in V1, V2, V3 by lia.
  split; [exact V1|]. repeat split; solve [apply V2; lia | apply V3; lia].
Qed.
End Sub.
