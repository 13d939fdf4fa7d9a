(** What gen_newr puts in the place of a run. *)
From Coq Require Import List ZArith QArith Qfield Lia Lqa Bool.
From Verif Require Import Prelude PreludeFacts SmoothModel SmoothSpec SmoothProofs.
Import ListNotations.
Open Scope Z_scope.

Lemma getz_wrap l i : - len l <= i < len l -> getz l i = Ok (wrap l i).
Proof. intros H. unfold getz. destruct (Z.leb_spec (- len l) i); [|lia]. destruct (Z.ltb_spec i (len l)); [|lia]. reflexivity. Qed.

Lemma put_run_full l start n v : - len l <= start -> 0 <= n <= len l -> start + n <= len l -> len v = n ->
  exists l', put_run l start n v = Ok l' /\ length l' = length l /\
    (forall k, 0 <= k < n -> wrap l' (start + k) = nth (Z.to_nat k) v 0%Q) /\
    (forall j, 0 <= j < len l -> (forall k, 0 <= k < n -> j <> (start + k) mod len l) -> nth (Z.to_nat j) l' 0%Q = nth (Z.to_nat j) l 0%Q).
Proof.
  intros Hs Hn He Hv. unfold put_run. destruct (Z.ltb_spec start 0) as [C|C].
  - destruct (rollup_ok l start n v Hn Hv) as (l' & H1 & H2 & H3 & H4). exists l'. repeat split; try assumption. intros k Hk. unfold wrap, len. rewrite H2. apply H3. exact Hk.
  - rewrite assign_full by lia. eexists. split; [reflexivity|]. 
    split; [apply spliced_length; lia|]. split.
    + intros k Hk. unfold wrap. set (w := (firstn _ _ ++ _)%list). assert (Lw : len w = len l) by (unfold len, w; f_equal; apply spliced_length; lia).
      rewrite Lw. rewrite Z.mod_small by lia. unfold w. rewrite (spliced_nth l v start n) by lia.
      destruct (Z.leb_spec start (start + k)); [|lia]. destruct (Z.ltb_spec (start + k) (start + n)); [|lia]. cbn [andb]. f_equal. f_equal. lia.
    + intros j Hj Hw. rewrite spliced_nth by lia. destruct (Z.leb_spec start j) as [A|A]; [|reflexivity]. destruct (Z.ltb_spec j (start + n)) as [B|B]; [|reflexivity].
      exfalso. apply (Hw (j - start)); [lia|]. rewrite Z.mod_small; lia.
Qed.

Lemma unit_points_nth n k : (k < n)%nat -> (nth k (unit_points n) 0 == inject_Z (Z.of_nat k) / inject_Z (Z.of_nat n - 1))%Q.
Proof.
  intros H. unfold unit_points. destruct n as [|[|n]]; [lia| |].
  - assert (k = 0%nat) as -> by lia. reflexivity.
  - rewrite (nth_indep _ 0%Q ((fun i => inject_Z (Z.of_nat i) / inject_Z (Z.of_nat (S (S n) - 1)))%Q 0%nat)) by (rewrite map_length, seq_length; exact H).
    rewrite (map_nth (fun i => inject_Z (Z.of_nat i) / inject_Z (Z.of_nat (S (S n) - 1)))%Q). rewrite seq_nth by exact H.
    replace (Z.of_nat (S (S n) - 1)) with (Z.of_nat (S (S n)) - 1) by lia. reflexivity.
Qed.
Lemma cubic_curve a c s : (cubic a c s == a + fst (fst c) * s + snd (fst c) * s ^ 2 / 2 + snd c * s ^ 3 / 3)%Q.
Proof. destruct c as [[c1 c2] c3]. cbn [cubic fst snd]. field. Qed.
Lemma hd_nth {A} (d : A) l : hd d l = nth 0 l d.
Proof. now destruct l. Qed.
Lemma last_nth {A} (d : A) l : last l d = nth (length l - 1) l d.
Proof. induction l as [|a [|b l] IH]; [reflexivity|reflexivity|]. change (last (a :: b :: l) d) with (last (b :: l) d). rewrite IH. cbn [length Nat.sub nth]. rewrite Nat.sub_0_r. reflexivity. Qed.

Lemma sumsq x y : (0 <= x * x + y * y)%Q.
Proof. nra. Qed.

Section R.
Variable fit : list Q -> list Q -> list Z -> option ((Q * Q * Q) * (Q * Q * Q)).

Lemma run_replaced r z bounds newr newz failed a b c : length z = length r -> length newr = length r -> length newz = length r ->
  a < b -> bounds <= b - a -> 2 * (b - a) < len r -> 1 - len r <= a -> b < len r -> fit r z (zrange a b) = Some c ->
  exists newr' newz' f, smooth_run fit r z bounds (newr, newz, failed) (zrange a b) = Ok (newr', newz', f) /\ length newr' = length r /\ length newz' = length r /\
    (forall k, 0 <= k < b - a -> let p := curve (wrap r a, wrap z a) c (inject_Z k / inject_Z (b - a - 1)%Z)%Q in
       (wrap newr' (a + k)%Z == fst p)%Q /\ (wrap newz' (a + k)%Z == snd p)%Q) /\
    untouched newr newr' (zrange a b) /\ untouched newz newz' (zrange a b) /\
    (let d1 := dist2 (wrap newr' a, wrap newz' a) (wrap newr (a - 1), wrap newz (a - 1)) in
     let d2 := dist2 (wrap newr' (b - 1), wrap newz' (b - 1)) (wrap newr b, wrap newz b) in
     f = false <-> failed = false /\ (d2 < 9 * d1)%Q /\ (d1 < 9 * d2)%Q).
Proof.
  intros Lz Lr' Lz' Hab Hb Hs Ha He Hf. unfold SmoothModel.smooth_run.
  assert (Ln : len (zrange a b) = b - a) by (unfold len; rewrite zrange_length; lia). rewrite Ln.
  destruct (Z.leb_spec bounds (b - a)); [|lia]. cbn [negb].
  destruct (Z.leb_spec (len r) (2 * (b - a))) as [|_]; [lia|].
  assert (Ez : len z = len r) by (unfold len; now rewrite Lz).
  assert (Er' : len newr = len r) by (unfold len; now rewrite Lr').
  assert (Ez' : len newz = len r) by (unfold len; now rewrite Lz').
  rewrite (last_zrange a b) by exact Hab. assert (Em : forall (A : Type) (x : A) (f : Z -> A), match zrange a b with [] => x | s :: _ => f s end = f a) by (intros; rewrite (zrange_cons a b) by exact Hab; reflexivity). rewrite Em. clear Em.
  rewrite (getz_wrap r a), (getz_wrap r (a - 1)), (getz_wrap z a), (getz_wrap z (a - 1)) by lia. cbn [bind]. cbv zeta.
  destruct (Z.ltb_spec (b - 1) (len r - 1)); [|lia].
  rewrite (getz_wrap r (b - 1)), (getz_wrap r (b - 1 + 1)), (getz_wrap z (b - 1)), (getz_wrap z (b - 1 + 1)) by lia. cbn [bind].
  rewrite Hf. destruct c as [cr cz].
  rewrite (getz_wrap newr (a - 1)), (getz_wrap newz (a - 1)), (getz_wrap newr (a + (b - a))), (getz_wrap newz (a + (b - a))) by lia. cbn [bind].
  replace (a + (b - a)) with b by lia.
  assert (Lzr : length (zrange a b) = Z.to_nat (b - a)) by (now rewrite zrange_length). rewrite Lzr.
  set (X := map (cubic (wrap r a) cr) _). set (Y := map (cubic (wrap z a) cz) _).
  assert (LX : length X = Z.to_nat (b - a)) by (unfold X; now rewrite map_length, unit_points_length).
  assert (LY : length Y = Z.to_nat (b - a)) by (unfold Y; now rewrite map_length, unit_points_length).
  destruct (put_run_full newr a (b - a) X ltac:(lia) ltac:(lia) ltac:(lia) ltac:(unfold len; lia)) as (newr' & -> & P1 & P2 & P3).
  destruct (put_run_full newz a (b - a) Y ltac:(lia) ltac:(lia) ltac:(lia) ltac:(unfold len; lia)) as (newz' & -> & Q1 & Q2 & Q3). cbn [bind].
  eexists newr', newz', _. split; [reflexivity|]. split; [congruence|]. split; [congruence|].
  assert (G : forall w c n k, (k < n)%nat -> (nth k (map (cubic w c) (unit_points n)) 0 == w + fst (fst c) * (inject_Z (Z.of_nat k) / inject_Z (Z.of_nat n - 1)) +
     snd (fst c) * (inject_Z (Z.of_nat k) / inject_Z (Z.of_nat n - 1)) ^ 2 / 2 + snd c * (inject_Z (Z.of_nat k) / inject_Z (Z.of_nat n - 1)) ^ 3 / 3)%Q).
  { intros w c n k Hk. rewrite (nth_indep _ 0%Q (cubic w c 0)) by (rewrite map_length, unit_points_length; exact Hk). rewrite map_nth. rewrite cubic_curve.
    rewrite unit_points_nth by exact Hk. reflexivity. }
  split; [|split; [|split]].
  - intros k Hk. split.
    + rewrite P2 by exact Hk. unfold X. rewrite G by lia. unfold curve. destruct cr as [[c1 c2] c3]. cbn [fst snd]. rewrite Z2Nat.id by lia. rewrite Z2Nat.id by lia. reflexivity.
    + rewrite Q2 by exact Hk. unfold Y. rewrite G by lia. unfold curve. destruct cz as [[c1 c2] c3]. cbn [fst snd]. rewrite Z2Nat.id by lia. rewrite Z2Nat.id by lia. reflexivity.
  - intros j Hj Hw. apply P3; try lia. intros k Hk; apply Hw; apply in_zrange; lia.
  - intros j Hj Hw. apply Q3; try lia. intros k Hk; apply Hw; apply in_zrange; lia.
  - cbv zeta.
    assert (A1 : wrap newr' a = hd 0%Q X) by (replace a with (a + 0) by lia; rewrite P2 by lia; rewrite hd_nth; reflexivity).
    assert (A2 : wrap newz' a = hd 0%Q Y) by (replace a with (a + 0) by lia; rewrite Q2 by lia; rewrite hd_nth; reflexivity).
    assert (B1 : wrap newr' (b - 1) = last X 0%Q) by (replace (b - 1) with (a + (b - a - 1)) by lia; rewrite P2 by lia; rewrite last_nth, LX; f_equal; lia).
    assert (B2 : wrap newz' (b - 1) = last Y 0%Q) by (replace (b - 1) with (a + (b - a - 1)) by lia; rewrite Q2 by lia; rewrite last_nth, LY; f_equal; lia).
    rewrite A1, A2, B1, B2. unfold dist2. cbn [fst snd].
    set (d2 := (_ * _ + _ * _)%Q). set (d1 := (_ * _ + _ * _)%Q).
    assert (N : (0 <= d2)%Q) by apply sumsq.
    rewrite orb_false_iff, negb_false_iff, !andb_true_iff, negb_true_iff, !Qlt_bool_iff.
    assert (Q0 : Qeq_bool d2 0 = false <-> (0 < d2)%Q).
    { destruct (Qeq_bool d2 0) eqn:E0; split; intros K; try discriminate; try reflexivity.
      - apply Qeq_bool_iff in E0. rewrite E0 in K. discriminate.
      - apply Qeq_bool_neq in E0. apply Qle_lteq in N. destruct N as [N|N]; [exact N|]. symmetry in N. contradiction. }
    rewrite Q0. split.
    + intros (F & (P & C1) & C2). split; [exact F|].
      assert (E : (d1 == d1 / d2 * d2)%Q) by (field; intros K; rewrite K in P; discriminate).
      split; rewrite E; nra.
    + intros (F & C1 & C2). assert (P : (0 < d2)%Q) by lra. split; [exact F|]. split; [split; [exact P|]|].
      * apply Qlt_shift_div_l; [exact P|lra].
      * apply Qlt_shift_div_r; [exact P|lra].
Qed.
Lemma run_not_fitted r z bounds newr newz failed a b : length z = length r -> length newr = length r -> length newz = length r ->
  a < b -> bounds <= b - a -> 2 * (b - a) < len r -> 1 - len r <= a -> b < len r -> fit r z (zrange a b) = None ->
  smooth_run fit r z bounds (newr, newz, failed) (zrange a b) = Ok (newr, newz, true).
Proof.
  intros Lz Lr' Lz' Hab Hb Hs Ha He Hf. unfold SmoothModel.smooth_run.
  assert (Ln : len (zrange a b) = b - a) by (unfold len; rewrite zrange_length; lia). rewrite Ln.
  destruct (Z.leb_spec bounds (b - a)); [|lia]. cbn [negb].
  destruct (Z.leb_spec (len r) (2 * (b - a))) as [|_]; [lia|].
  assert (Ez : len z = len r) by (unfold len; now rewrite Lz).
  rewrite (last_zrange a b) by exact Hab. assert (Em : forall (A : Type) (x : A) (f : Z -> A), match zrange a b with [] => x | s :: _ => f s end = f a) by (intros; rewrite (zrange_cons a b) by exact Hab; reflexivity). rewrite Em. clear Em.
  rewrite (getz_wrap r a), (getz_wrap r (a - 1)), (getz_wrap z a), (getz_wrap z (a - 1)) by lia. cbn [bind]. cbv zeta.
  destruct (Z.ltb_spec (b - 1) (len r - 1)); [|lia].
  rewrite (getz_wrap r (b - 1)), (getz_wrap r (b - 1 + 1)), (getz_wrap z (b - 1)), (getz_wrap z (b - 1 + 1)) by lia. cbn [bind].
  now rewrite Hf.
Qed.
End R.

Lemma smooth_default sqrt fit fuel r z cutoff bounds :
  smooth sqrt fit fuel r z cutoff bounds None = smooth_loop sqrt fit fuel cutoff bounds bounds bounds r z /\
  smooth sqrt fit fuel r z cutoff bounds (Some 0) = smooth_loop sqrt fit fuel cutoff bounds bounds bounds r z /\
  (forall b, b <> 0 -> smooth sqrt fit fuel r z cutoff bounds (Some b) = smooth_loop sqrt fit fuel cutoff b bounds bounds r z).
Proof. split; [reflexivity|]. split; [reflexivity|]. intros b H. unfold smooth. destruct (Z.eqb_spec b 0); [contradiction|reflexivity]. Qed.

(** Which points count as corners. *)
Lemma sharp_value sqrt r z cutoff b i r1 z1 r2 z2 r3 z3 :
  getz r i = Ok r1 -> getz z i = Ok z1 -> getz r (i - b) = Ok r2 -> getz z (i - b) = Ok z2 -> getz r (i - b * 2) = Ok r3 -> getz z (i - b * 2) = Ok z3 ->
  sharp sqrt r z cutoff b i = Ok (let den := (sqrt ((z1 - z2) * (z1 - z2) + (r1 - r2) * (r1 - r2)) * sqrt ((z1 - z3) * (z1 - z3) + (r1 - r3) * (r1 - r3)))%Q in
    if Qeq_bool den 0 then false else Qlt_bool (((z1 - z2) * (z1 - z3) + (r1 - r2) * (r1 - r3)) / den)%Q cutoff).
Proof. intros H1 H2 H3 H4 H5 H6. unfold sharp. rewrite H1, H2, H3, H4, H5, H6. reflexivity. Qed.

Lemma sq_zero s q : is_sqrt s q -> (s == 0 <-> q == 0)%Q.
Proof. intros [H1 H2]. split; intros H. { rewrite <- H2, H. reflexivity. } rewrite H in H2. apply Qmult_integral in H2. tauto. Qed.

Lemma sharp_isosceles sqrt r z cutoff b i r1 z1 r2 z2 r3 z3 :
  getz r i = Ok r1 -> getz z i = Ok z1 -> getz r (i - b) = Ok r2 -> getz z (i - b) = Ok z2 -> getz r (i - b * 2) = Ok r3 -> getz z (i - b * 2) = Ok z3 ->
  (forall a b, In (a, b) [((z1 - z2)%Q, (r1 - r2)%Q); ((z1 - z3)%Q, (r1 - r3)%Q)] -> is_sqrt (sqrt (a * a + b * b)%Q) (a * a + b * b)%Q) ->
  (0 < dist2 (r1, z1) (r2, z2) -> dist2 (r1, z1) (r2, z2) == dist2 (r2, z2) (r3, z3) ->
   let turn := ((r1 - r2) * (r2 - r3) + (z1 - z2) * (z2 - z3)) / dist2 (r1, z1) (r2, z2) in
   sharp sqrt r z cutoff b i = Ok (Qlt_bool 0 cutoff && Qlt_bool (-(1)) turn && Qlt_bool turn (2 * (cutoff * cutoff) - 1)))%Q.
Proof.
  intros H1 H2 H3 H4 H5 H6 Sq L0 LL turn. rewrite (sharp_value sqrt r z cutoff b i r1 z1 r2 z2 r3 z3 H1 H2 H3 H4 H5 H6). f_equal. cbv zeta.
  pose proof (Sq _ _ (or_introl eq_refl)) as Sa. pose proof (Sq _ _ (or_intror (or_introl eq_refl))) as Sb.
  cbv beta in Sa, Sb. set (sa := sqrt ((z1 - z2) * (z1 - z2) + _)%Q) in *. set (sb := sqrt ((z1 - z3) * (z1 - z3) + _)%Q) in *. clearbody sa sb. clear Sq H1 H2 H3 H4 H5 H6.
  unfold dist2 in L0, LL, turn. cbn [fst snd] in L0, LL, turn.
  set (L := ((r1 - r2) * (r1 - r2) + (z1 - z2) * (z1 - z2))%Q) in *.
  set (D := ((r1 - r2) * (r2 - r3) + (z1 - z2) * (z2 - z3))%Q) in *.
  assert (EL : ((z1 - z2) * (z1 - z2) + (r1 - r2) * (r1 - r2) == L)%Q) by (unfold L; ring).
  assert (EP : ((z1 - z2) * (z1 - z3) + (r1 - r2) * (r1 - r3) == L + D)%Q) by (unfold L, D; ring).
  assert (EB : ((z1 - z3) * (z1 - z3) + (r1 - r3) * (r1 - r3) == 2 * (L + D))%Q).
  { transitivity (L + 2 * D + ((r2 - r3) * (r2 - r3) + (z2 - z3) * (z2 - z3)))%Q; [unfold L, D; ring|]. rewrite <- LL. ring. }
  assert (Hpos : (0 <= L + D)%Q).
  { pose proof (sumsq (z1 - z3) (r1 - r3)) as K. rewrite EB in K. lra. }
  clearbody D. clear LL. clearbody L. destruct Sa as [Pa Sa], Sb as [Pb Sb]. rewrite EL in Sa. rewrite EB in Sb.
  assert (Ha : (0 < sa)%Q). { apply Qle_lteq in Pa. destruct Pa as [|K]; [assumption|]. rewrite <- K in Sa. exfalso. lra. }
  assert (Et : (turn * L == D)%Q) by (unfold turn; field; intros K; rewrite K in L0; discriminate). clearbody turn.
  set (P := ((z1 - z2) * (z1 - z3) + (r1 - r2) * (r1 - r3))%Q) in *. clearbody P. clear EL EB.
  destruct (Qeq_bool (sa * sb) 0) eqn:E0.
  - apply Qeq_bool_iff in E0. apply Qmult_integral in E0. destruct E0 as [E0|E0]; [rewrite E0 in Ha; discriminate|].
    rewrite E0 in Sb. assert (D == - L)%Q by lra. destruct (Qlt_bool (-(1)) turn) eqn:E1; [|now rewrite andb_false_r].
    apply Qlt_bool_iff in E1. exfalso. nra.
  - apply Qeq_bool_neq in E0. assert (Hb : (0 < sb)%Q). { apply Qle_lteq in Pb. destruct Pb as [|K]; [assumption|]. exfalso. apply E0. rewrite <- K. ring. }
    assert (Hld : (0 < L + D)%Q) by nra.
    assert (Hden : (0 < sa * sb)%Q) by nra.
    assert (E1 : Qlt_bool (-(1)) turn = true) by (apply Qlt_bool_iff; nra). rewrite E1, andb_true_r.
    apply eq_true_iff_eq. rewrite andb_true_iff, !Qlt_bool_iff.
    assert (Sd : ((sa * sb) * (sa * sb) == L * (2 * (L + D)))%Q) by (setoid_replace ((sa * sb) * (sa * sb))%Q with ((sa * sa) * (sb * sb))%Q by ring; rewrite Sa, Sb; ring).
    set (d := (sa * sb)%Q) in *. clearbody d. clear Sa Sb Pa Pb Ha Hb sa sb E0 E1.
    split.
    + intros K. assert (K' : (P < cutoff * d)%Q).
      { assert (M : (P == P / d * d)%Q) by (field; intros F; rewrite F in Hden; discriminate). rewrite M. apply Qmult_lt_compat_r; assumption. }
      rewrite EP in K'. assert (C : (0 < cutoff)%Q) by nra. split; [exact C|].
      assert (N : ((L + D) * (L + D) < cutoff * cutoff * (L * (2 * (L + D))))%Q) by (rewrite <- Sd; nra).
      assert (N' : (L + D < cutoff * cutoff * (L * 2))%Q) by nra. rewrite <- Et in N'. nra.
    + intros [C K]. apply Qlt_shift_div_r; [exact Hden|]. rewrite EP.
      assert (N' : (L + D < cutoff * cutoff * (L * 2))%Q) by (rewrite <- Et; nra).
      assert (N : ((L + D) * (L + D) < (cutoff * d) * (cutoff * d))%Q). { setoid_replace ((cutoff * d) * (cutoff * d))%Q with (cutoff * cutoff * (d * d))%Q by ring. rewrite Sd. nra. }
      assert (0 < cutoff * d)%Q by nra. nra.
Qed.
Lemma sharp_hairpin sqrt r z cutoff b i r1 z1 r2 z2 r3 z3 :
  getz r i = Ok r1 -> getz z i = Ok z1 -> getz r (i - b) = Ok r2 -> getz z (i - b) = Ok z2 -> getz r (i - b * 2) = Ok r3 -> getz z (i - b * 2) = Ok z3 ->
  (forall a b, In (a, b) [((z1 - z2)%Q, (r1 - r2)%Q); ((z1 - z3)%Q, (r1 - r3)%Q)] -> is_sqrt (sqrt (a * a + b * b)%Q) (a * a + b * b)%Q) ->
  (r3 == r1 -> z3 == z1 -> sharp sqrt r z cutoff b i = Ok false)%Q.
Proof.
  intros H1 H2 H3 H4 H5 H6 Sq E1 E2. rewrite (sharp_value sqrt r z cutoff b i r1 z1 r2 z2 r3 z3 H1 H2 H3 H4 H5 H6). f_equal. cbv zeta.
  pose proof (Sq _ _ (or_intror (or_introl eq_refl))) as Sb. cbv beta in Sb.
  match goal with |- (if Qeq_bool (?x * ?y) 0 then _ else _) = _ => assert (K : Qeq_bool (x * y) 0 = true) end.
  { apply Qeq_bool_iff. rewrite (proj2 (sq_zero _ _ Sb)); [ring|]. rewrite E1, E2. ring. }
  now rewrite K.
Qed.
Lemma outliers_are sqrt r z cutoff b o : find_outliers sqrt r z cutoff b = Ok o ->
  forall x, In x o <-> exists item, 0 <= item < len z /\ x = item - b /\ sharp sqrt r z cutoff b item = Ok true.
Proof.
  unfold find_outliers. assert (K : forall l acc o, foldM (fun acc item => let* s := sharp sqrt r z cutoff b item in Ok (if s then acc ++ [item - b] else acc)) l acc = Ok o ->
    forall x, In x o <-> In x acc \/ exists item, In item l /\ x = item - b /\ sharp sqrt r z cutoff b item = Ok true).
  { induction l as [|i l IH]; cbn [foldM]; intros acc o' H x.
    - injection H as <-. split; [tauto|]. intros [|(i & [] & _)]; assumption.
    - destruct (sharp sqrt r z cutoff b i) as [s|] eqn:E; [|discriminate]. cbn [bind] in H. rewrite (IH _ _ H x). destruct s.
      + rewrite in_app_iff. cbn [In]. split.
        * intros [[H1|[<-|[]]]|(j & Hj & F)]; [tauto| |]; right; [exists i|exists j]; intuition.
        * intros [H1|(j & [<-|Hj] & -> & F)]; [tauto| |]; [tauto|]. right. exists j. tauto.
      + split.
        * intros [H1|(j & Hj & F)]; [tauto|]. right. exists j. intuition.
        * intros [H1|(j & [<-|Hj] & Ex & F)]; [tauto| |]; [congruence|]. right. exists j. tauto. }
  intros H x. rewrite (K _ _ _ H x). cbn [In]. split.
  - intros [[]|(i & Hi & F)]. exists i. rewrite in_zrange in Hi. tauto.
  - intros (i & Hi & F). right. exists i. rewrite in_zrange. tauto.
Qed.
Lemma all_outliers_are sqrt r z cutoff bf o : all_outliers sqrt r z cutoff bf = Ok o ->
  forall x, In x o <-> exists b item, 1 <= b <= bf /\ 0 <= item < len z /\ x = item - b /\ sharp sqrt r z cutoff b item = Ok true.
Proof.
  unfold all_outliers. assert (K : forall l acc o, foldM (fun acc b => let* o := find_outliers sqrt r z cutoff b in Ok (acc ++ o)) l acc = Ok o ->
    forall x, In x o <-> In x acc \/ exists b item, In b l /\ 0 <= item < len z /\ x = item - b /\ sharp sqrt r z cutoff b item = Ok true).
  { induction l as [|i l IH]; cbn [foldM]; intros acc o' H x.
    - injection H as <-. split; [tauto|]. intros [|(i & j & [] & _)]; assumption.
    - destruct (find_outliers sqrt r z cutoff i) as [s|] eqn:E; [|discriminate]. cbn [bind] in H. rewrite (IH _ _ H x). rewrite in_app_iff, (outliers_are _ _ _ _ _ _ E x). cbn [In]. split.
      + intros [[H1|(j & F)]|(b & j & Hb & F)]; [tauto| |]; right; [exists i, j|exists b, j]; tauto.
      + intros [H1|(b & j & [<-|Hb] & F)]; [tauto| |]; [left; right; exists j; tauto|]. right. exists b, j. tauto. }
  intros H x. rewrite (K _ _ _ H x). cbn [In]. split.
  - intros [[]|(b & i & Hb & F)]. exists b, i. rewrite in_zrange in Hb. split; [lia|tauto].
  - intros (b & i & Hb & F). right. exists b, i. rewrite in_zrange. split; [lia|tauto].
Qed.
