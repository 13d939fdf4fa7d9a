(** closestPoint, line_from_points_poly and equallySpaced. *)
From Coq Require Import List ZArith QArith Qround Qfield Lia Lqa Bool Permutation Qminmax.
From Verif Require Import Prelude PreludeFacts PolModel PolSpec PolProofs RzModel RzSpec RzProofs RzGreedy.
Import ListNotations.
Open Scope Q_scope.

Lemma qrem_range a b : 0 < b -> 0 <= qrem a b < b.
Proof.
  intros H. unfold qrem. pose proof (Qfloor_le (a / b)) as H1. pose proof (Qlt_floor (a / b)) as H2.
  rewrite inject_Z_plus in H2. set (f := inject_Z (Qfloor (a / b))) in *.
  assert (E : b * (a / b) == a) by (field; lra).
  assert (A : b * f <= b * (a / b)) by (apply Qmult_le_l; assumption).
  assert (B : b * (a / b) < b * (f + inject_Z 1)) by (apply Qmult_lt_l; assumption).
  change (inject_Z 1) with 1 in B. lra.
Qed.
Lemma qrem_comp a a' b b' : a == a' -> b == b' -> qrem a b == qrem a' b'.
Proof. intros H1 H2. unfold qrem. rewrite (Qfloor_comp (a / b) (a' / b')) by (now rewrite H1, H2). now rewrite H1, H2. Qed.

Lemma Ok_inj {A} (a b : A) : Ok a = Ok b -> a = b.
Proof. intros H. now injection H. Qed.

Section P.
Variable pi : Q.
Hypothesis Hpi : 0 < pi.

Lemma closest_range l p niter sub : 0 <= closestPoint pi l p niter sub < 2 * pi.
Proof. unfold closestPoint. apply qrem_range. lra. Qed.

Lemma ind_range i theta : (0 < i)%nat -> 0 <= theta < 2 * pi ->
  let ind := Qfloor (inject_Z (Z.of_nat i) * theta / (2 * pi)) in (0 <= ind < Z.of_nat i)%Z.
Proof.
  intros Hi [H0 H1] ind. set (I := inject_Z (Z.of_nat i)).
  assert (P : 0 < I) by (unfold I; change 0 with (inject_Z 0); rewrite <- Zlt_Qlt; lia).
  assert (A : 0 <= I * theta / (2 * pi)) by (apply Qle_shift_div_l; [lra|]; assert (0 <= I * theta) by (apply Qmult_le_0_compat; lra); lra).
  assert (B : I * theta / (2 * pi) < I) by (apply Qlt_shift_div_r; [lra|]; apply Qmult_lt_l; assumption).
  unfold ind. fold I. pose proof (Qfloor_le (I * theta / (2 * pi))) as F1. pose proof (Qlt_floor (I * theta / (2 * pi))) as F2.
  set (f := Qfloor (I * theta / (2 * pi))) in *. split.
  - assert (inject_Z 0 < inject_Z (f + 1)) by (change (inject_Z 0) with 0; lra). rewrite <- Zlt_Qlt in H. lia.
  - assert (H : inject_Z f < inject_Z (Z.of_nat i)) by (fold I; lra). now rewrite <- Zlt_Qlt in H.
Qed.

(** *** insertion *)
Lemma set_nth_app {A} (a b : list A) (x v : A) : set_nth (length a) v (a ++ x :: b) = a ++ v :: b.
Proof. induction a as [|c a IH]; [reflexivity|]. cbn. now rewrite IH. Qed.
Lemma firstn_S_nth {A} (l : list A) k d : (k < length l)%nat -> firstn (S k) l = firstn k l ++ [nth k l d].
Proof. revert k. induction l as [|a l IH]; intros k H; [cbn in H; lia|]. destruct k; [reflexivity|]. cbn in *. rewrite (IH k) by lia. reflexivity. Qed.
Lemma skipn_nth {A} (l : list A) k d : (k < length l)%nat -> skipn k l = nth k l d :: skipn (S k) l.
Proof. revert k. induction l as [|a l IH]; intros k H; [cbn in H; lia|]. destruct k; [reflexivity|]. cbn in *. apply IH. lia. Qed.
Lemma skipn_firstn_mid {A} (l : list A) a b : firstn (b - a) (skipn a l) = skipn a (firstn b l).
Proof. revert a b. induction l as [|c l IH]; intros a b; [now rewrite !skipn_nil, !firstn_nil, skipn_nil|]. destruct a, b; cbn; try reflexivity; apply IH. Qed.

Lemma insert_eq l i ind p : (i < length l)%nat -> (ind < i)%nat ->
  insert_point l i ind p = firstn (S ind) l ++ p :: skipn (S ind) (firstn i l) ++ skipn (S i) l.
Proof.
  intros Hi Hd. unfold insert_point. replace (ind + 1)%nat with (S ind) by lia. replace (ind + 2)%nat with (S (S ind)) by lia. replace (i + 1)%nat with (S i) by lia.
  assert (L : length (firstn (S ind) l) = S ind) by (rewrite firstn_length; lia).
  destruct (Nat.eqb_spec ind (i - 1)) as [E|E].
  - replace i with (S ind) by lia. rewrite skipn_all2 by (rewrite L; lia). cbn [app].
    rewrite <- (firstn_skipn (S ind) l) at 1. rewrite (skipn_nth l (S ind) pt0) by lia. rewrite <- L at 1. apply set_nth_app.
  - rewrite (firstn_S_nth l (S ind) pt0) by lia. rewrite <- app_assoc. cbn [app]. rewrite <- L at 1. rewrite set_nth_app.
    now rewrite skipn_firstn_mid.
Qed.

Definition pinv (orig vals : list pt) (i : nat) : Prop :=
  Permutation (firstn i orig) (firstn i vals) /\ skipn i vals = skipn i orig /\ length vals = length orig.

Lemma firstn_le_app {A} (a b : list A) n : n = length a -> firstn n (a ++ b) = a.
Proof. intros ->. rewrite firstn_app, Nat.sub_diag, firstn_all, firstn_O. apply app_nil_r. Qed.
Lemma skipn_le_app {A} (a b : list A) n : n = length a -> skipn n (a ++ b) = b.
Proof. intros ->. now rewrite skipn_app, Nat.sub_diag, skipn_all, skipn_O. Qed.

Lemma insert_inv orig vals i ind : (i < length orig)%nat -> (ind < i)%nat -> pinv orig vals i ->
  pinv orig (insert_point vals i ind (nth i orig pt0)) (S i).
Proof.
  intros Hi Hd (P & S' & L). rewrite insert_eq by lia. set (p := nth i orig pt0).
  assert (E : firstn (S ind) vals ++ p :: skipn (S ind) (firstn i vals) ++ skipn (S i) vals =
              (firstn (S ind) vals ++ p :: skipn (S ind) (firstn i vals)) ++ skipn (S i) vals) by (now rewrite <- app_assoc).
  assert (F : firstn (S ind) vals = firstn (S ind) (firstn i vals)) by (rewrite firstn_firstn; f_equal; lia).
  assert (Lh : S i = length (firstn (S ind) vals ++ p :: skipn (S ind) (firstn i vals))).
  { rewrite app_length. cbn [length]. rewrite skipn_length, !firstn_length. lia. }
  rewrite E. repeat split.
  - rewrite firstn_le_app by exact Lh. rewrite (firstn_S_nth orig i pt0) by exact Hi. fold p.
    rewrite F. apply (Permutation_trans (Permutation_app_comm _ _)). cbn [app].
    apply (Permutation_trans (l' := p :: firstn i vals)); [now apply perm_skip|].
    rewrite <- (firstn_skipn (S ind) (firstn i vals)) at 1. apply Permutation_middle.
  - rewrite skipn_le_app by exact Lh. replace (S i) with (i + 1)%nat by lia.
    assert (K : forall A (l : list A), skipn (i + 1) l = skipn 1 (skipn i l)).
    { intros A l. clear. revert i. induction l as [|a l IH]; intros i; [now rewrite !skipn_nil|]. destruct i; [reflexivity|]. cbn [plus]. rewrite !skipn_cons. apply IH. }
    now rewrite !K, S'.
  - rewrite app_length, <- Lh, skipn_length. lia.
Qed.

Lemma poly_step_ok k orig vals i v : (0 < i < length orig)%nat -> pinv orig vals i -> poly_step pi orig k vals i = Ok v -> pinv orig v (S i).
Proof.
  intros Hi I. unfold poly_step. destruct (rz_init _ _ _ _) as [line|e] eqn:E; [|discriminate]. cbn [bind]. intros H. apply Ok_inj in H. subst v.
  apply insert_inv; [lia| |exact I].
  pose proof (ind_range i _ ltac:(lia) (closest_range line (nth i orig pt0) 3 20)) as R. cbv zeta in R. lia.
Qed.
Lemma poly_fold k orig : forall m i vals v, (0 < i)%nat -> (i + m <= length orig)%nat -> pinv orig vals i ->
  foldM (poly_step pi orig k) (seq i m) vals = Ok v -> pinv orig v (i + m).
Proof.
  induction m as [|m IH]; intros i vals v Hi Hm I; cbn [seq foldM].
  - intros [= <-]. now rewrite Nat.add_0_r.
  - destruct (poly_step pi orig k vals i) as [v1|e] eqn:E; [|discriminate]. cbn [bind]. intros H.
    replace (i + S m)%nat with (S i + m)%nat by lia. apply (IH (S i) v1); [lia|lia| |exact H].
    apply (poly_step_ok k orig vals i v1); [lia|exact I|exact E].
Qed.
Lemma pinv_start orig i : pinv orig orig i.
Proof. repeat split; reflexivity. Qed.

Lemma poly_result k r z l : line_from_points_poly pi k r z = Ok l ->
  length r = length z /\ (3 <= length r)%nat /\ Permutation (combine r z) l /\ 0 < area2 l.
Proof.
  unfold line_from_points_poly. destruct (Nat.ltb_spec (length r) 3) as [|H3]; [discriminate|].
  destruct (Nat.eqb_spec (length z) (length r)) as [Hz|]; [|discriminate]. cbn [negb]. cbv zeta.
  assert (L : length (combine r z) = length r) by (rewrite combine_length; lia).
  destruct (foldM _ _ _) as [vals|e] eqn:E; [|discriminate]. cbn [bind]. intros H.
  apply (poly_fold k (combine r z) (length (combine r z) - 3) 3 (combine r z) vals) in E; [|lia|lia|apply pinv_start].
  replace (3 + (length (combine r z) - 3))%nat with (length (combine r z)) in E by lia.
  destruct E as (P & _ & Lv). rewrite !firstn_all2 in P by lia.
  apply rz_init_ok in H. destruct H as [[Ho Ha] _]. repeat split; try lia; try exact Ha.
  apply (Permutation_trans P). destruct Ho as [->| ->]; [reflexivity|apply Permutation_rev].
Qed.

Lemma rz_init_errors k (l : list pt) e : rz_init true k (map fst l) (map snd l) = Err e -> e = AssertionError /\ area2 l == 0 \/ e = TypeError /\ (length l < k)%nat.
Proof.
  intros H. destruct (rz_init_pts k l) as [H0 H1]. destruct (Qeq_dec (area2 l) 0) as [E|N].
  - rewrite (H0 E) in H. injection H as <-. now left.
  - destruct (H1 N) as (m & _ & Em). rewrite Em in H. destruct (k <? length l + 1)%nat eqn:Ek; [discriminate|]. apply Nat.ltb_ge in Ek. injection H as <-. right. split; [reflexivity|lia].
Qed.

(** one insertion: directly after vertex [ind] of the points in their current order *)
Lemma poly_step_place k orig vals i v : (0 < i < length orig)%nat -> length vals = length orig -> 0 < area2 (firstn i vals) ->
  poly_step pi orig k vals i = Ok v ->
  let theta := closestPoint pi (firstn i vals) (nth i orig pt0) 3 20 in
  let ind := Qfloor (theta / (2 * pi / inject_Z (Z.of_nat i))) in
  (0 <= ind < Z.of_nat i)%Z /\
  firstn (S i) v = firstn (S (Z.to_nat ind)) (firstn i vals) ++ nth i orig pt0 :: skipn (S (Z.to_nat ind)) (firstn i vals).
Proof.
  intros Hi L A. unfold poly_step. destruct (rz_init _ _ _ _) as [line|e] eqn:E; [|discriminate]. cbn [bind]. intros H. apply Ok_inj in H. subst v.
  apply rz_init_ok in E. destruct E as [[Eo Ea] _].
  assert (El : line = firstn i vals).
  { destruct Eo as [->| ->]; [reflexivity|]. rewrite area2_rev in Ea. lra. }
  subst line. set (theta := closestPoint pi (firstn i vals) (nth i orig pt0) 3 20) in *.
  set (ind := Qfloor (theta / (2 * pi / inject_Z (Z.of_nat i)))).
  assert (Ei : ind = Qfloor (inject_Z (Z.of_nat i) * theta / (2 * pi))).
  { unfold ind. apply Qfloor_comp. field. split; [lra|]. apply injz_neq0. lia. }
  rewrite <- Ei. pose proof (ind_range i theta ltac:(lia) (closest_range _ _ 3 20)) as R. cbv zeta in R. rewrite <- Ei in R.
  split; [exact R|]. rewrite insert_eq by lia.
  assert (F : firstn (S (Z.to_nat ind)) vals = firstn (S (Z.to_nat ind)) (firstn i vals)) by (rewrite firstn_firstn; f_equal; lia).
  rewrite F. set (p := nth i orig pt0). set (h := firstn i vals).
  replace (firstn (S (Z.to_nat ind)) h ++ p :: skipn (S (Z.to_nat ind)) h ++ skipn (S i) vals)
    with ((firstn (S (Z.to_nat ind)) h ++ p :: skipn (S (Z.to_nat ind)) h) ++ skipn (S i) vals) by (now rewrite <- app_assoc).
  apply firstn_le_app. rewrite app_length. cbn [length]. rewrite skipn_length, firstn_length. unfold h. rewrite firstn_length. lia.
Qed.

(** *** closestPoint, when the search stays at non-negative angles *)
Section Closest.
Variable l : list pt.
Hypothesis Hl : (2 <= length l)%nat.
Variable target : pt.
Let n := zlen l.
Let dth := 2 * pi / inject_Z n.
Let Hne : l <> []. Proof. intros ->. cbn in Hl. lia. Qed.

Lemma position_comp a b : a == b -> qeq2 (positionPolygon pi l a) (positionPolygon pi l b).
Proof.
  intros H. unfold positionPolygon. rewrite (Qtrunc_comp (a / (2 * pi / inject_Z (zlen l))) (b / (2 * pi / inject_Z (zlen l)))) by (now rewrite H).
  pose proof (qrem_comp a b (2 * pi / inject_Z (zlen l)) _ H (Qeq_refl _)) as E. unfold qeq2. cbn [fst snd]. rewrite E. split; reflexivity.
Qed.
Lemma d2_comp p q p' : qeq2 p q -> d2 p p' == d2 q p'.
Proof. intros [H1 H2]. unfold d2. now rewrite H1, H2. Qed.
Definition cost (t : Q) : Q := d2 (positionPolygon pi l t) target.
Lemma cost_comp a b : a == b -> cost a == cost b.
Proof. intros H. apply d2_comp, position_comp, H. Qed.

(** shifting a non-negative angle by whole turns *)
Lemma position_shift t k : 0 <= t -> (0 <= k)%Z -> qeq2 (positionPolygon pi l (t + inject_Z k * (2 * pi))) (positionPolygon pi l t).
Proof.
  intros Ht Hk. assert (Hd := dth_pos pi Hpi l Hne). fold n in Hd. fold dth in Hd.
  assert (T : 2 * pi == inject_Z n * dth).
  { unfold dth. field. intro C. pose proof (nq_pos pi l Hne) as P. fold n in P. lra. }
  assert (K : 0 <= inject_Z k) by (change 0 with (inject_Z 0); now rewrite <- Zle_Qle).
  assert (H0 : 0 <= t + inject_Z k * (2 * pi)) by (assert (0 <= inject_Z k * (2 * pi)) by (apply Qmult_le_0_compat; lra); lra).
  pose proof (polygon_nonneg pi Hpi l Hne _ H0) as A. pose proof (polygon_nonneg pi Hpi l Hne _ Ht) as B. cbv zeta in A, B. fold n in A, B. fold dth in A, B.
  assert (E : Qfloor ((t + inject_Z k * (2 * pi)) / dth) = (Qfloor (t / dth) + k * n)%Z).
  { rewrite <- Qfloor_plus_Z. apply Qfloor_comp. rewrite T, inject_Z_mult. field. lra. }
  rewrite E in A. destruct A as [A1 A2], B as [B1 B2]. unfold qeq2. rewrite A1, A2, B1, B2. unfold along. cbn [fst snd].
  replace (Qfloor (t / dth) + k * n + 1)%Z with (Qfloor (t / dth) + 1 + k * n)%Z by ring.
  rewrite !Z_mod_plus_full. rewrite inject_Z_plus, inject_Z_mult, T. split; ring.
Qed.

(** the refinement: never worse, moves by at most dtheta, divides dtheta *)
Lemma refine_step s t d : (2 <= s)%nat -> Nat.even s = true -> 0 < d ->
  let st := refine pi l target s (t, d) in
  cost (fst st) <= cost t /\ t - d <= fst st <= t + d /\ snd st == 2 * d / inject_Z (Z.of_nat s).
Proof.
  intros Hs He Hd. unfold refine. set (th := linspace_open (t - d) (t + d) s).
  set (f := fun t0 => d2 (positionPolygon pi l t0) target). set (c := map f th). cbn [fst snd].
  assert (Lt : length th = s) by apply linspace_open_length.
  assert (Lc : length c = s) by (unfold c; now rewrite map_length).
  destruct (argmin_spec c ltac:(intro C; rewrite C in Lc; cbn in Lc; lia)) as [A1 A2]. rewrite Lc in A1, A2.
  assert (Nc : forall j, (j < s)%nat -> nth j c 0 = cost (nth j th 0)).
  { intros j Hj. unfold c. rewrite (nth_indep _ 0 (f 0)) by (rewrite map_length; lia). rewrite map_nth. reflexivity. }
  assert (Nt : forall j, (j < s)%nat -> nth j th 0 = t - d + inject_Z (Z.of_nat j) * ((t + d - (t - d)) / inject_Z (Z.of_nat s))).
  { intros j Hj. now apply linspace_open_nth. }
  assert (Sp : 0 < inject_Z (Z.of_nat s)) by (change 0 with (inject_Z 0); rewrite <- Zlt_Qlt; lia).
  repeat split.
  - rewrite (cost_comp _ _ (Qred_correct _)). rewrite <- Nc by exact A1.
    apply Nat.even_spec in He. destruct He as [h Hh]. specialize (A2 h ltac:(lia)). rewrite (Nc h) in A2 by lia.
    assert (E : nth h th 0 == t).
    { rewrite Nt by lia. rewrite Hh. rewrite Nat2Z.inj_mul, inject_Z_mult. change (inject_Z (Z.of_nat 2)) with 2.
      field. apply injz_neq0. lia. }
    rewrite (cost_comp _ _ E) in A2. exact A2.
  - rewrite Qred_correct, (Nt _ A1).
    assert (0 <= inject_Z (Z.of_nat (argmin c)) * ((t + d - (t - d)) / inject_Z (Z.of_nat s))).
    { apply Qmult_le_0_compat; [apply injz_nonneg|]. apply Qle_shift_div_l; [exact Sp|]. lra. }
    lra.
  - rewrite Qred_correct, (Nt _ A1).
    assert (Hj : inject_Z (Z.of_nat (argmin c)) <= inject_Z (Z.of_nat s)) by (rewrite <- Zle_Qle; lia).
    assert (W : 0 <= (t + d - (t - d)) / inject_Z (Z.of_nat s)) by (apply Qle_shift_div_l; [exact Sp|]; lra).
    assert (U : inject_Z (Z.of_nat (argmin c)) * ((t + d - (t - d)) / inject_Z (Z.of_nat s)) <= inject_Z (Z.of_nat s) * ((t + d - (t - d)) / inject_Z (Z.of_nat s)))
      by (apply Qmult_le_compat_r; assumption).
    assert (V : inject_Z (Z.of_nat s) * ((t + d - (t - d)) / inject_Z (Z.of_nat s)) == 2 * d) by (field; lra).
    lra.
  - rewrite Qred_correct, !Nt by lia. change (inject_Z (Z.of_nat 1)) with 1. change (inject_Z (Z.of_nat 0)) with 0. field. lra.
Qed.

Lemma refine_iter s : (4 <= s)%nat -> Nat.even s = true -> forall m t d, 0 < d ->
  let st := iterate m (refine pi l target s) (t, d) in
  cost (fst st) <= cost t /\ t - 2 * d <= fst st.
Proof.
  intros Hs He. induction m as [|m IH]; intros t d Hd; cbn [iterate fst].
  - split; lra.
  - destruct (refine pi l target s (t, d)) as [t' d'] eqn:E.
    pose proof (refine_step s t d ltac:(lia) He Hd) as R. cbv zeta in R. rewrite E in R. cbn [fst snd] in R. destruct R as (R1 & R2 & R3).
    assert (Sp : 4 <= inject_Z (Z.of_nat s)) by (change 4 with (inject_Z 4); rewrite <- Zle_Qle; lia).
    assert (D1 : 0 < d') by (rewrite R3; apply Qlt_shift_div_l; lra).
    assert (D2 : 2 * d' <= d).
    { assert (X : d' * inject_Z (Z.of_nat s) == 2 * d) by (rewrite R3; field; lra).
      assert (d' * 4 <= d' * inject_Z (Z.of_nat s)) by (apply Qmult_le_l; [exact D1|exact Sp]). lra. }
    pose proof (IH t' d' D1) as I. cbv zeta in I. destruct I as [I1 I2]. split; lra.
Qed.

Lemma closest_no_worse niter s : (4 <= s)%nat -> Nat.even s = true ->
  (forall j, (j < 2)%nat -> exists q, In q l /\ dist2 q target < dist2 (nth j l pt0) target) ->
  forall q, In q l -> dist2 (positionPolygon pi l (closestPoint pi l target niter s)) target <= dist2 q target.
Proof.
  intros Hs He Hnear q Hq. unfold closestPoint.
  set (theta := linspace_open 0 (2 * pi) (length l)). set (c := map (fun p => d2 p target) l).
  assert (Lc : length c = length l) by (unfold c; now rewrite map_length).
  destruct (argmin_spec c ltac:(intro C; rewrite C in Lc; cbn in Lc; lia)) as [A1 A2]. rewrite Lc in A1, A2.
  assert (Nc : forall j, (j < length l)%nat -> nth j c 0 = dist2 (nth j l pt0) target).
  { intros j Hj. unfold c. rewrite (nth_indep _ 0 (d2 pt0 target)) by (rewrite map_length; lia). rewrite (map_nth (fun p => d2 p target)). reflexivity. }
  set (i0 := argmin c) in *.
  assert (Best : forall q, In q l -> dist2 (nth i0 l pt0) target <= dist2 q target).
  { intros x Hx. destruct (In_nth _ _ pt0 Hx) as (j & Hj & <-). specialize (A2 j Hj). rewrite !Nc in A2 by assumption. exact A2. }
  assert (Hi2 : (2 <= i0)%nat).
  { destruct (Nat.lt_ge_cases i0 2) as [C|C]; [|exact C]. destruct (Hnear i0 C) as (x & Hx & Lx). specialize (Best x Hx). lra. }
  assert (Np : 0 < inject_Z n) by (exact (nq_pos pi l Hne)).
  assert (Hd : 0 < dth) by (apply dth_pos; [exact Hpi|exact Hne]).
  assert (Nt : forall j, (j < length l)%nat -> nth j theta 0 == inject_Z (Z.of_nat j) * dth).
  { intros j Hj. unfold theta. rewrite linspace_open_nth by exact Hj. unfold dth, n, zlen. field. intro C. unfold n, zlen in Np. lra. }
  set (t0 := nth i0 theta 0). set (d0 := nth 1 theta 0 - nth 0 theta 0).
  assert (E0 : d0 == dth) by (unfold d0; rewrite !Nt by lia; change (inject_Z (Z.of_nat 1)) with 1; change (inject_Z (Z.of_nat 0)) with 0; ring).
  assert (T0 : 2 * dth <= t0).
  { unfold t0. rewrite Nt by exact A1. apply Qmult_le_compat_r; [|lra]. change 2 with (inject_Z 2). rewrite <- Zle_Qle. lia. }
  pose proof (refine_iter s Hs He niter t0 d0 ltac:(lra)) as R. cbv zeta in R. destruct R as [R1 R2].
  set (tf := fst (iterate niter (refine pi l target s) (t0, d0))) in *.
  assert (F0 : 0 <= tf) by lra.
  pose proof (qrem_range tf (2 * pi) ltac:(lra)) as [Q0 Q1].
  assert (Sh : cost (qrem tf (2 * pi)) == cost tf).
  { set (k := Qfloor (tf / (2 * pi))).
    assert (K0 : (0 <= k)%Z).
    { unfold k. change 0%Z with (Qfloor 0). apply Qfloor_resp_le. apply Qle_shift_div_l; lra. }
    rewrite (cost_comp tf (qrem tf (2 * pi) + inject_Z k * (2 * pi))) by (unfold qrem; fold k; ring).
    symmetry. apply d2_comp. now apply position_shift. }
  apply Qle_trans with (dist2 (nth i0 l pt0) target); [|now apply Best].
  change (cost (qrem tf (2 * pi)) <= dist2 (nth i0 l pt0) target). rewrite Sh.
  apply Qle_trans with (cost t0); [exact R1|].
  assert (Ev : cost t0 == dist2 (nth i0 l pt0) target); [|rewrite Ev; lra].
  rewrite (cost_comp t0 (inject_Z (Z.of_nat i0) * dth)) by (unfold t0; now apply Nt).
  assert (V := polygon_vertex pi Hpi l Hne (Z.of_nat i0) ltac:(lia)). fold n in V. fold dth in V.
  unfold cost. rewrite (d2_comp _ _ target V). unfold znth. rewrite Z.mod_small by (unfold n, zlen; lia). rewrite Nat2Z.id. reflexivity.
Qed.
End Closest.

(** *** equallySpaced *)
Lemma searchsorted_le xs v : (searchsorted xs v <= length xs)%nat.
Proof. induction xs as [|x xs IH]; cbn; [lia|]. destruct (Qlt_bool x v); cbn; lia. Qed.
Lemma searchsorted_below xs v i : (i < searchsorted xs v)%nat -> nth i xs 0 < v.
Proof.
  revert i. induction xs as [|x xs IH]; intros i H; cbn in H; [lia|]. destruct (Qlt_bool x v) eqn:E; [|cbn in H; lia].
  apply Qlt_bool_iff in E. destruct i as [|i]; [exact E|]. apply IH. lia.
Qed.
Lemma searchsorted_at xs v : (searchsorted xs v < length xs)%nat -> v <= nth (searchsorted xs v) xs 0.
Proof.
  induction xs as [|x xs IH]; intros H; cbn in *; [lia|]. destruct (Qlt_bool x v) eqn:E; [apply IH; lia|].
  apply Qlt_bool_false_iff in E. exact E.
Qed.
Lemma increasing_nth l : increasing l -> forall i, (S i < length l)%nat -> nth i l 0 < nth (S i) l 0.
Proof.
  induction l as [|a l IH]; intros H i Hi; [cbn in Hi; lia|]. destruct l as [|b l]; [cbn in Hi; lia|]. destruct H as [H1 H2].
  destruct i as [|i]; [exact H1|]. cbn [nth]. apply (IH H2). cbn [length] in *. lia.
Qed.
Lemma last_nth (l : list Q) d : last l d = nth (length l - 1) l d.
Proof.
  induction l as [|a l IH]; [reflexivity|]. destruct l as [|b l]; [reflexivity|].
  change (last (a :: b :: l) d) with (last (b :: l) d). rewrite IH. cbn [length]. replace (S (S (length l)) - 1)%nat with (S (S (length l) - 1)) by lia. reflexivity.
Qed.

Lemma interp1d_bracket xs ys v : increasing xs -> (2 <= length xs)%nat -> nth 0 xs 0 <= v <= last xs 0 ->
  exists lo t, (S lo < length xs)%nat /\ 0 <= t <= 1 /\
    v == nth lo xs 0 + t * (nth (S lo) xs 0 - nth lo xs 0) /\
    interp1d xs ys v == nth lo ys 0 + t * (nth (S lo) ys 0 - nth lo ys 0).
Proof.
  intros Hx HL [Hv0 Hv1]. unfold interp1d. set (ss := searchsorted xs v).
  assert (Hss : (ss <= length xs - 1)%nat).
  { pose proof (searchsorted_le xs v) as K. fold ss in K. destruct (Nat.eq_dec ss (length xs)) as [E|]; [|lia].
    exfalso. pose proof (searchsorted_below xs v (length xs - 1) ltac:(fold ss; lia)) as C. rewrite last_nth in Hv1. lra. }
  pose proof (searchsorted_at xs v ltac:(fold ss; lia)) as Hat. fold ss in Hat.
  set (hi := Nat.min (Nat.max ss 1) (length xs - 1)). set (lo := (hi - 1)%nat).
  assert (Hhi : hi = Nat.max ss 1) by (unfold hi; lia).
  assert (Hs : S lo = hi) by (unfold lo; lia).
  pose proof (increasing_nth xs Hx lo ltac:(lia)) as Hinc.
  assert (B : nth lo xs 0 <= v <= nth (S lo) xs 0).
  { destruct (Nat.eq_dec ss 0) as [E|E].
    - assert (lo = 0%nat) by lia. rewrite H. split; [exact Hv0|]. rewrite E in Hat. rewrite H in Hinc. lra.
    - assert (lo = (ss - 1)%nat) by lia. split; [|rewrite Hs; replace hi with ss by lia; exact Hat].
      pose proof (searchsorted_below xs v lo ltac:(fold ss; lia)). lra. }
  exists lo, ((v - nth lo xs 0) / (nth (S lo) xs 0 - nth lo xs 0)).
  split; [lia|]. split; [|split].
  - split; [apply Qle_shift_div_l; lra|apply Qle_shift_div_r; lra].
  - field. lra.
  - rewrite <- Hs. field. lra.
Qed.

Lemma equal_thetas_ok dist m : increasing dist -> (2 <= length dist)%nat -> forall j, (j < m)%nat ->
  let s := nth 0 dist 0 + inject_Z (Z.of_nat j) * ((last dist 0 - nth 0 dist 0) / inject_Z (Z.of_nat m)) in
  let dth := 2 * pi / inject_Z (Z.of_nat (length dist - 1)) in
  exists lo t, (S lo < length dist)%nat /\ 0 <= t <= 1 /\
    s == nth lo dist 0 + t * (nth (S lo) dist 0 - nth lo dist 0) /\
    nth j (equal_thetas pi dist m) 0 == (inject_Z (Z.of_nat lo) + t) * dth.
Proof.
  intros Hx HL j Hj s dth. unfold equal_thetas.
  set (ys := linspace_open 0 (2 * pi) (length dist - 1) ++ [2 * pi]).
  set (g := interp1d dist ys).
  rewrite (nth_indep _ 0 (g 0)) by (rewrite map_length, linspace_open_length; exact Hj). rewrite map_nth.
  rewrite linspace_open_nth by exact Hj. fold s.
  assert (Mono : nondecreasing dist).
  { clear -Hx. induction dist as [|a d IH]; [exact I|]. destruct d as [|b d]; [exact I|]. destruct Hx as [H1 H2]. split; [lra|auto]. }
  assert (Hle : nth 0 dist 0 <= last dist 0).
  { rewrite last_nth. apply (proj1 (nondecreasing_nth dist 0) Mono). lia. }
  assert (Mp : 0 < inject_Z (Z.of_nat m)) by (change 0 with (inject_Z 0); rewrite <- Zlt_Qlt; lia).
  assert (Hs : nth 0 dist 0 <= s <= last dist 0).
  { unfold s. set (w := (last dist 0 - nth 0 dist 0) / inject_Z (Z.of_nat m)).
    assert (W : 0 <= w) by (apply Qle_shift_div_l; lra).
    assert (A : 0 <= inject_Z (Z.of_nat j) * w) by (apply Qmult_le_0_compat; [apply injz_nonneg|exact W]).
    assert (B : inject_Z (Z.of_nat j) * w <= inject_Z (Z.of_nat m) * w) by (apply Qmult_le_compat_r; [rewrite <- Zle_Qle; lia|exact W]).
    assert (C : inject_Z (Z.of_nat m) * w == last dist 0 - nth 0 dist 0) by (unfold w; field; lra). lra. }
  destruct (interp1d_bracket dist ys s Hx HL Hs) as (lo & t & H1 & H2 & H3 & H4).
  exists lo, t. repeat split; try assumption; try apply H2. unfold g. rewrite H4.
  assert (Np : ~ inject_Z (Z.of_nat (length dist - 1)) == 0) by (apply injz_neq0; lia).
  assert (Ny : forall i, (i < length dist)%nat -> nth i ys 0 == inject_Z (Z.of_nat i) * dth).
  { intros i Hi. unfold ys. destruct (Nat.eq_dec i (length dist - 1)) as [E|E].
    - rewrite app_nth2 by (rewrite linspace_open_length; lia). rewrite linspace_open_length, E, Nat.sub_diag. cbn [nth]. unfold dth. field. exact Np.
    - rewrite app_nth1 by (rewrite linspace_open_length; lia). rewrite linspace_open_nth by lia. unfold dth. field. exact Np. }
  rewrite !Ny by lia. rewrite Nat2Z.inj_succ. unfold Z.succ. rewrite inject_Z_plus. change (inject_Z 1) with 1. ring.
Qed.
End P.
