(** Proofs about ShapeModel.v: the fit of SpectralLine *)
From Coq Require Import List Reals Lia Lra ZArith.
From Verif Require Import Prelude PreludeFacts FieldReal CoilProofs ShapeModel ShapeProofs SpectralProofs ShapeSpec.
Import ListNotations.
Open Scope R_scope.

Lemma total_Sum n f : total n f = Sum n f.
Proof. induction n as [|n IH]; [reflexivity|]. rewrite Sum_S. cbn [total]. rewrite IH. reflexivity. Qed.
Lemma err_loop (g : R -> R) args (H : forall t, fft args t = Ok (g t)) : forall l out,
  foldM (fun out (p : R * R) => let* v := fft args (fst p) in Ok (out ++ [v - snd p])) l out = Ok (out ++ map (fun p => g (fst p) - snd p) l).
Proof.
  induction l as [|p l IH]; intros out; cbn [foldM map]; [rewrite app_nil_r; reflexivity|].
  rewrite H. cbn [bind]. rewrite IH, <- app_assoc. reflexivity.
Qed.
Lemma combine_nth_map {A B C} (f : nat -> A) (g : A * B -> C) d : forall (l : list B) i0,
  map g (combine (map f (seq i0 (length l))) l) = map (fun k => g (f (i0 + k)%nat, nth k l d)) (seq 0 (length l)).
Proof.
  induction l as [|x l IH]; intros i0; [reflexivity|]. cbn [length seq map combine]. rewrite Nat.add_0_r. f_equal.
  rewrite IH, <- seq_shift, map_map. apply map_ext. intros k. rewrite Nat.add_succ_r. reflexivity.
Qed.
Definition resid (args data : list R) (k : nat) : R := curve args (node (length data) k) - nth k data 0.
Lemma err_ok args data freq num : length args = (2 * num + 1)%nat ->
  err args data freq = Ok (map (resid args data) (seq 0 (length data))).
Proof.
  intros H. unfold err. rewrite (err_loop (curve args)) by (intros t; apply (fft_curve args num); exact H).
  cbn [app]. f_equal. unfold own_freq. rewrite (combine_nth_map _ _ 0). reflexivity.
Qed.
Lemma sumsq_map f n : forall i0, sumsq (map f (seq i0 n)) = rsum (map (fun k => f k * f k) (seq i0 n)).
Proof.
  induction n as [|n IH]; intros i0; [reflexivity|]. unfold sumsq, rsum in *. cbn [seq map fold_right]. rewrite IH. reflexivity.
Qed.

Section Fit.
Variables (data : list R) (num : nat).
Hypothesis Hn : (2 * num < length data)%nat.
Let n := length data.
Let m := (2 * num + 1)%nat.
Lemma weight_pos j : 0 < weight n j.
Proof. assert (0 < INR n) by (apply lt_0_INR; unfold n; lia). destruct j; cbn [weight]; lra. Qed.
Definition coef (j : nat) : R := Sum n (fun k => nth k data 0 * basis j (node n k)) / weight n j.
Definition best : list R := map coef (seq 0 m).
Lemma best_length : length best = m.
Proof. unfold best. rewrite map_length, seq_length. reflexivity. Qed.
Lemma best_nth j : (j < m)%nat -> nth j best 0 = coef j.
Proof.
  intros H. unfold best. rewrite (nth_indep _ 0 (coef 0)) by (rewrite map_length, seq_length; exact H).
  rewrite map_nth, seq_nth by exact H. reflexivity.
Qed.
(** the sum over the nodes of a curve times a basis function *)
Lemma curve_coef args j : length args = m -> (j < m)%nat ->
  Sum n (fun k => curve args (node n k) * basis j (node n k)) = nth j args 0 * weight n j.
Proof.
  intros Ha Hj. unfold curve. rewrite Ha.
  rewrite (Sum_ext n _ (fun k => Sum m (fun i => nth i args 0 * (basis i (node n k) * basis j (node n k))))).
  2:{ intros k _. rewrite Rmult_comm, <- rsum_scale. apply Sum_ext. intros i _. ring. }
  rewrite (Sum_swap n m (fun k i => nth i args 0 * (basis i (node n k) * basis j (node n k)))).
  rewrite (Sum_ext m _ (fun i => nth i args 0 * (if Nat.eq_dec i j then weight n i else 0))).
  2:{ intros i Hi. rewrite rsum_scale. f_equal. apply (orthogonal n num); assumption. }
  rewrite (Sum_single m _ j Hj).
  - destruct (Nat.eq_dec j j); [reflexivity|contradiction].
  - intros k _ Hk. destruct (Nat.eq_dec k j); [contradiction|]. ring.
Qed.
Lemma best_orth j : (j < m)%nat -> Sum n (fun k => resid best data k * basis j (node n k)) = 0.
Proof.
  intros Hj. unfold resid. fold n.
  rewrite (Sum_ext n _ (fun k => curve best (node n k) * basis j (node n k) + - (1) * (nth k data 0 * basis j (node n k)))) by (intros; ring).
  rewrite (rsum_plus (fun k => curve best (node n k) * basis j (node n k)) (fun k => - (1) * (nth k data 0 * basis j (node n k)))).
  rewrite rsum_scale, curve_coef, best_nth by (try exact best_length; exact Hj).
  unfold coef. pose proof (weight_pos j). field. lra.
Qed.
Definition gap (args : list R) (j : nat) : R := nth j args 0 - nth j best 0.
Lemma curve_gap args t : length args = m -> curve args t - curve best t = Sum m (fun j => gap args j * basis j t).
Proof.
  intros H. unfold curve. rewrite H, best_length.
  rewrite (Sum_ext m (fun j => gap args j * basis j t) (fun j => nth j args 0 * basis j t + - (1) * (nth j best 0 * basis j t))) by (intros; unfold gap; ring).
  rewrite (rsum_plus (fun j => nth j args 0 * basis j t) (fun j => - (1) * (nth j best 0 * basis j t))), rsum_scale. ring.
Qed.
Lemma cost args : length args = m ->
  Sum n (fun k => resid args data k * resid args data k) =
  Sum n (fun k => resid best data k * resid best data k) + Sum m (fun j => weight n j * (gap args j * gap args j)).
Proof.
  intros H. pose proof (curve_gap args) as HG.
  rewrite (Sum_ext n _ (fun k => resid best data k * resid best data k +
      (Sum m (fun j => 2 * gap args j * (resid best data k * basis j (node n k))) +
       Sum m (fun j => gap args j * ((curve args (node n k) - curve best (node n k)) * basis j (node n k)))))).
  2:{ intros k _.
      assert (E : forall c, Sum m (fun j => gap args j * (c * basis j (node n k))) = c * (curve args (node n k) - curve best (node n k))).
      { intros c. rewrite HG by exact H. rewrite <- rsum_scale. apply Sum_ext. intros; ring. }
      rewrite E. rewrite (Sum_ext m _ (fun j => 2 * (gap args j * (resid best data k * basis j (node n k))))) by (intros; ring).
      rewrite rsum_scale, E. unfold resid. fold n. ring. }
  rewrite (rsum_plus (fun k => resid best data k * resid best data k)). f_equal.
  rewrite (rsum_plus (fun k => Sum m (fun j => 2 * gap args j * (resid best data k * basis j (node n k))))).
  rewrite (Sum_swap n m (fun k j => 2 * gap args j * (resid best data k * basis j (node n k)))).
  rewrite (Sum_swap n m (fun k j => gap args j * ((curve args (node n k) - curve best (node n k)) * basis j (node n k)))).
  rewrite (rsum_zero (fun j => Sum n (fun k => 2 * gap args j * (resid best data k * basis j (node n k))))).
  2:{ intros j Hj. apply in_seq in Hj. rewrite rsum_scale, best_orth by lia. ring. }
  rewrite Rplus_0_l. apply Sum_ext. intros j Hj. rewrite rsum_scale.
  rewrite (Sum_ext n _ (fun k => curve args (node n k) * basis j (node n k) + - (1) * (curve best (node n k) * basis j (node n k)))) by (intros; ring).
  rewrite (rsum_plus (fun k => curve args (node n k) * basis j (node n k)) (fun k => - (1) * (curve best (node n k) * basis j (node n k)))).
  rewrite rsum_scale, !curve_coef by (try exact best_length; assumption). unfold gap. ring.
Qed.
Lemma least_best args freq : least (fun a => err a data freq) m args -> args = best.
Proof.
  intros [Ha [v [Ev Hmin]]]. rewrite (err_ok args data freq num Ha) in Ev. injection Ev as <-.
  specialize (Hmin best _ best_length (err_ok best data freq num best_length)).
  rewrite !sumsq_map in Hmin. fold n in Hmin. rewrite (cost args Ha) in Hmin.
  assert (Z : forall j, (j < m)%nat -> weight n j * (gap args j * gap args j) = 0).
  { apply Sum_zero_each; [|lra]. intros j _. pose proof (weight_pos j). nra. }
  apply (nth_ext args best 0 0); [rewrite best_length; exact Ha|]. intros j Hj. rewrite Ha in Hj.
  specialize (Z j Hj). pose proof (weight_pos j). assert (gap args j * gap args j = 0) by nra.
  unfold gap in *. nra.
Qed.
Lemma best_least freq : least (fun a => err a data freq) m best.
Proof.
  split; [exact best_length|]. eexists. split; [apply (err_ok best data freq num best_length)|].
  intros x v Hx Ev. rewrite (err_ok x data freq num Hx) in Ev. injection Ev as <-. rewrite !sumsq_map. fold n.
  rewrite (cost x Hx). enough (0 <= Sum m (fun j => weight n j * (gap x j * gap x j))) by lra.
  apply Sum_nonneg. intros j _. pose proof (weight_pos j). nra.
Qed.
End Fit.

(** the coefficients *)
Lemma least_coefs data num freq args : (2 * num < length data)%nat -> least (fun a => err a data freq) (2 * num + 1) args ->
  let n := length data in let t k := - PI + INR k * (2 * PI / INR n) in
  nth 0 args 0 = total n (fun k => nth k data 0) / INR n /\
  forall i, (1 <= i <= num)%nat ->
    nth (2 * i - 1) args 0 = 2 / INR n * total n (fun k => nth k data 0 * sin (INR i * t k)) /\
    nth (2 * i) args 0 = 2 / INR n * total n (fun k => nth k data 0 * cos (INR i * t k)).
Proof.
  intros Hn Hl n t. pose proof (least_best data num Hn args freq Hl) as ->.
  assert (HN : INR n <> 0) by (apply not_0_INR; unfold n; lia).
  split.
  - rewrite (best_nth data num) by lia. unfold coef. cbn [weight basis]. rewrite total_Sum. fold n. f_equal. apply Sum_ext. intros; ring.
  - intros i Hi. rewrite !total_Sum. rewrite !(best_nth data num) by lia. unfold coef. fold n.
    replace (2 * i)%nat with (S (2 * (i - 1) + 1)) by lia. replace (S (2 * (i - 1) + 1) - 1)%nat with (S (2 * (i - 1))) by lia.
    cbn [weight basis].
    replace (Nat.even (2 * (i - 1))) with true by (rewrite Nat.even_mul; reflexivity).
    replace (Nat.even (2 * (i - 1) + 1)) with false by (rewrite Nat.even_add, Nat.even_mul; reflexivity).
    replace (Nat.div2 (2 * (i - 1))) with (i - 1)%nat by (rewrite Nat.div2_double; reflexivity).
    replace (Nat.div2 (2 * (i - 1) + 1)) with (i - 1)%nat by (rewrite Nat.add_1_r, Nat.div2_succ_double; reflexivity).
    replace (S (i - 1)) with i by lia. unfold node, t. split; field; exact HN.
Qed.

(** curves that the fit can represent *)
Fixpoint flat (i0 : nat) (l : list (R * R)) : list R :=
  match l with [] => [] | (s, c) :: l' => (-1) ^ i0 * s :: (-1) ^ i0 * c :: flat (S i0) l' end.
Lemma flat_length l : forall i0, length (flat i0 l) = (2 * length l)%nat.
Proof. induction l as [|[s c] l IH]; intros i0; [reflexivity|]. cbn [flat length]. rewrite IH. lia. Qed.
Lemma half_turn i t : sin (INR i * (t + PI)) = (-1) ^ i * sin (INR i * t) /\ cos (INR i * (t + PI)) = (-1) ^ i * cos (INR i * t).
Proof.
  induction i as [|i [IHs IHc]]; [cbn [INR pow]; rewrite !Rmult_0_l, sin_0, cos_0; split; ring|].
  rewrite S_INR. replace ((INR i + 1) * (t + PI)) with (INR i * (t + PI) + (t + PI)) by ring. replace ((INR i + 1) * t) with (INR i * t + t) by ring.
  rewrite !sin_plus, !cos_plus, IHs, IHc, sin_PI, cos_PI, sin_plus, sin_PI, cos_PI. cbn [pow]. split; ring.
Qed.
Lemma flat_loop l : forall i0 out t, fft_loop i0 (flat (S i0) l) t out = out + trig_from (S i0) l (t + PI).
Proof.
  induction l as [|[s c] l IH]; intros i0 out t; [cbn; ring|]. cbn [flat fft_loop trig_from]. rewrite IH.
  destruct (half_turn (S i0) t) as [-> ->]. replace (i0 + 1)%nat with (S i0) by lia. ring.
Qed.
Lemma flat_curve a0 l t : fft (a0 :: flat 1 l) t = Ok (trig a0 l (t + PI)).
Proof. cbn [fft]. rewrite (flat_loop l 0). reflexivity. Qed.

Lemma least_recovers data num freq args a0 l : (2 * num < length data)%nat -> least (fun a => err a data freq) (2 * num + 1) args ->
  length l = num -> (forall k, (k < length data)%nat -> nth k data 0 = trig a0 l (INR k * (2 * PI / INR (length data)))) ->
  forall t, fft args t = Ok (trig a0 l (t + PI)).
Proof.
  intros Hn Hl Hnum Hd t. pose proof (least_best data num Hn args freq Hl) as ->.
  rewrite <- flat_curve. f_equal. symmetry. apply (least_best data num Hn _ freq).
  assert (L : length (a0 :: flat 1 l) = (2 * num + 1)%nat) by (cbn [length]; rewrite flat_length; lia).
  split; [exact L|]. eexists. split; [apply (err_ok _ data freq num L)|]. intros x v Hx Ev.
  rewrite sumsq_map. rewrite (rsum_zero (fun k => resid (a0 :: flat 1 l) data k * resid (a0 :: flat 1 l) data k)).
  - clear. induction v as [|y v IH]; unfold sumsq in *; cbn [fold_right]; [lra|]. pose proof (Rle_0_sqr y) as Q. unfold Rsqr in Q. lra.
  - intros k Hk. apply in_seq in Hk. unfold resid. rewrite Hd by lia.
    pose proof (flat_curve a0 l (node (length data) k)) as E. rewrite (fft_curve _ num _ L) in E. injection E as E.
    rewrite E. unfold node. replace (- PI + INR k * (2 * PI / INR (length data)) + PI) with (INR k * (2 * PI / INR (length data))) by ring. ring.
Qed.

(** a vanishing residual *)
Lemma zero_nodes args data freq num v : length args = (2 * num + 1)%nat -> err args data freq = Ok v -> Forall (fun x => x = 0) v ->
  forall k, (k < length data)%nat -> fft args (- PI + INR k * (2 * PI / INR (length data))) = Ok (nth k data 0).
Proof.
  intros Ha Ev Hz k Hk. rewrite (err_ok args data freq num Ha) in Ev. injection Ev as <-.
  rewrite (fft_curve args num) by exact Ha. f_equal.
  rewrite Forall_forall in Hz. specialize (Hz (resid args data k)). unfold resid, node in Hz. apply Rminus_diag_uniq, Hz.
  apply in_map_iff. exists k. split; [reflexivity|]. apply in_seq. lia.
Qed.
Lemma zero_half args data freq num v : length args = (2 * num + 1)%nat -> err args data freq = Ok v -> Forall (fun x => x = 0) v ->
  forall h, (0 < h)%nat -> length data = (2 * h)%nat -> fft args 0 = Ok (nth h data 0).
Proof.
  intros Ha Ev Hz h Hh Hl. rewrite <- (zero_nodes args data freq num v Ha Ev Hz h) by lia. f_equal.
  rewrite Hl, mult_INR. cbn [INR]. field. apply not_0_INR. lia.
Qed.

(** equallySpaced *)
Lemma collect_ok (h : R -> res R) (g : R -> R) (H : forall t, h t = Ok (g t)) : forall l out,
  foldM (fun out t => let* v := h t in Ok (out ++ [v])) l out = Ok (out ++ map g l).
Proof.
  induction l as [|p l IH]; intros out; cbn [foldM map]; [rewrite app_nil_r; reflexivity|].
  rewrite H. cbn [bind]. rewrite IH, <- app_assoc. reflexivity.
Qed.
Lemma fft_total args t : args <> [] -> exists v, fft args t = Ok v.
Proof. destruct args; [contradiction|]. intros _. eexists. reflexivity. Qed.
Definition value (args : list R) (t : R) : R := match fft args t with Ok v => v | Err _ => 0 end.
Lemma fft_value args t : args <> [] -> fft args t = Ok (value args t).
Proof. intros H. unfold value. destruct (fft_total args t H) as [v ->]. reflexivity. Qed.
Lemma fft_loop_period args : forall i0 t out, fft_loop i0 args (t + 2 * PI) out = fft_loop i0 args t out.
Proof.
  assert (E : forall args, (forall i0 t out, fft_loop i0 args (t + 2 * PI) out = fft_loop i0 args t out) /\
    forall a i0 t out, fft_loop i0 (a :: args) (t + 2 * PI) out = fft_loop i0 (a :: args) t out).
  { clear. induction args as [|c args [IH1 IH2]]; [split; reflexivity|]. split; [exact (IH2 c)|].
    intros a i0 t out. cbn [fft_loop]. rewrite IH1.
    replace (INR (i0 + 1) * (t + 2 * PI)) with (INR (i0 + 1) * t + 2 * INR (i0 + 1) * PI) by ring.
    rewrite sin_period, cos_period. reflexivity. }
  exact (proj1 (E args)).
Qed.
Lemma value_period args t : value args (t + 2 * PI) = value args t.
Proof. unfold value. destruct args; [reflexivity|]. cbn [fft]. rewrite fft_loop_period. reflexivity. Qed.
Lemma closed_ends n : (2 <= n)%nat -> nth 0 (closed_freq n) 0 = 0 /\ last (closed_freq n) 0 = 2 * PI.
Proof.
  intros H. unfold closed_freq. destruct n as [|[|n]]; [lia|lia|]. cbn [Nat.eqb]. split.
  - cbn [seq map nth]. cbn [INR]. ring.
  - rewrite seq_S, map_app. cbn [map]. rewrite last_last. cbn [Nat.add].
    replace (S (S n) - 1)%nat with (S n) by lia. field. apply not_0_INR. lia.
Qed.
Lemma even_ok s num n : fst s <> [] -> snd s <> [] ->
  even_points s num n = Ok (map (value (fst s)) (closed_freq (if Nat.eqb num 0 then n else num)), map (value (snd s)) (closed_freq (if Nat.eqb num 0 then n else num))).
Proof.
  intros H1 H2. unfold even_points, Rvalue, Zvalue.
  rewrite (collect_ok (fft (fst s)) (value (fst s))) by (intros; apply fft_value; exact H1). cbn [bind app].
  rewrite (collect_ok (fft (snd s)) (value (snd s))) by (intros; apply fft_value; exact H2). reflexivity.
Qed.
Lemma last_map {A B} (f : A -> B) l d : l <> [] -> last (map f l) (f d) = f (last l d).
Proof. intros H. destruct (exists_last H) as [l' [x ->]]. rewrite map_app. cbn [map]. rewrite !last_last. reflexivity. Qed.
Lemma last_indep {A} (l : list A) d d' : l <> [] -> last l d = last l d'.
Proof. intros H. destruct (exists_last H) as [l' [x ->]]. rewrite !last_last. reflexivity. Qed.
Lemma even_repeats s num n r z : (2 <= (if Nat.eqb num 0 then n else num))%nat -> even_points s num n = Ok (r, z) ->
  last r 0 = nth 0 r 0 /\ last z 0 = nth 0 z 0.
Proof.
  intros Hm E.
  assert (Ne : closed_freq (if Nat.eqb num 0 then n else num) <> []).
  { unfold closed_freq. destruct (if Nat.eqb num 0 then n else num); [lia|]. discriminate. }
  assert (H1 : fst s <> []). { intros H. unfold even_points, Rvalue in E. rewrite H in E. destruct (closed_freq _); [contradiction|discriminate]. }
  assert (H2 : snd s <> []).
  { intros H. unfold even_points, Rvalue, Zvalue in E. rewrite (collect_ok (fft (fst s)) (value (fst s))) in E by (intros; apply fft_value; exact H1).
    cbn [bind] in E. rewrite H in E. destruct (closed_freq _); [contradiction|discriminate]. }
  rewrite even_ok in E by assumption.
  assert (Er : r = map (value (fst s)) (closed_freq (if Nat.eqb num 0 then n else num))) by congruence.
  assert (Ez : z = map (value (snd s)) (closed_freq (if Nat.eqb num 0 then n else num))) by congruence.
  remember (if Nat.eqb num 0 then n else num) as m. destruct (closed_ends m Hm) as [C0 C1].
  assert (G : forall a, last (map (value a) (closed_freq m)) 0 = nth 0 (map (value a) (closed_freq m)) 0).
  { intros a. rewrite (last_indep _ 0 (value a 0)) by (destruct (closed_freq m); [contradiction|discriminate]).
    rewrite last_map, C1 by exact Ne. rewrite (nth_indep _ 0 (value a 0)) by (rewrite map_length; destruct (closed_freq m); [contradiction|cbn; lia]).
    rewrite map_nth, C0. rewrite <- (value_period a 0). f_equal. ring. }
  rewrite Er, Ez. split; apply G.
Qed.
Lemma even_on_curve s num n r z : (2 <= (if Nat.eqb num 0 then n else num))%nat -> even_points s num n = Ok (r, z) ->
  let m := if Nat.eqb num 0 then n else num in length r = m /\ length z = m /\
  forall k, (k < m)%nat -> Rvalue s (2 * PI * INR k / INR (m - 1)) = Ok (nth k r 0) /\ Zvalue s (2 * PI * INR k / INR (m - 1)) = Ok (nth k z 0).
Proof.
  intros Hm E m.
  assert (Ne : closed_freq m <> []).
  { unfold closed_freq. fold m in Hm. destruct m; [lia|]. discriminate. }
  assert (H1 : fst s <> []). { intros H. unfold even_points, Rvalue in E. rewrite H in E. fold m in E. destruct (closed_freq _); [contradiction|discriminate]. }
  assert (H2 : snd s <> []).
  { intros H. unfold even_points, Rvalue, Zvalue in E. rewrite (collect_ok (fft (fst s)) (value (fst s))) in E by (intros; apply fft_value; exact H1).
    cbn [bind] in E. rewrite H in E. fold m in E. destruct (closed_freq _); [contradiction|discriminate]. }
  rewrite even_ok in E by assumption. fold m in E, Hm.
  assert (Er : r = map (value (fst s)) (closed_freq m)) by congruence.
  assert (Ez : z = map (value (snd s)) (closed_freq m)) by congruence.
  assert (Lc : length (closed_freq m) = m) by (unfold closed_freq; rewrite map_length, seq_length; reflexivity).
  split; [rewrite Er, map_length; exact Lc|]. split; [rewrite Ez, map_length; exact Lc|].
  intros k Hk.
  assert (Nk : nth k (closed_freq m) 0 = 2 * PI * INR k / INR (m - 1)).
  { unfold closed_freq. destruct (Nat.eqb_spec m 1); [lia|].
    rewrite (nth_indep _ 0 ((fun k => INR k * (2 * PI / INR (m - 1))) 0%nat)) by (rewrite map_length, seq_length; exact Hk).
    rewrite (map_nth (fun k => INR k * (2 * PI / INR (m - 1)))), seq_nth by exact Hk. cbn [Nat.add]. unfold Rdiv. ring. }
  assert (G : forall a, a <> [] -> fft a (2 * PI * INR k / INR (m - 1)) = Ok (nth k (map (value a) (closed_freq m)) 0)).
  { intros a Ha. rewrite (nth_indep _ 0 (value a 0)) by (rewrite map_length, Lc; exact Hk). rewrite map_nth, Nk. apply fft_value, Ha. }
  unfold Rvalue, Zvalue. rewrite Er, Ez. split; apply G; assumption.
Qed.

Lemma rz_either r z l : rz_init r z = Ok l -> l = combine r z \/ l = rev (combine r z).
Proof.
  unfold rz_init. destruct (negb _); [discriminate|]. destruct (Req_EM_T _ 0); [discriminate|].
  set (l' := if Rlt_dec 0 (orient_sum (combine r z)) then rev (combine r z) else combine r z).
  assert (E : l' = combine r z \/ l' = rev (combine r z)) by (unfold l'; destruct (Rlt_dec 0 _); tauto). clearbody l'.
  destruct (Rlt_dec _ 0); [|discriminate]. destruct l' as [|x t]; [discriminate|]. destruct (3 <? _)%nat; [|discriminate]. intros H. apply ok_inj in H. subst l. exact E.
Qed.
Lemma spaced_line s num n l : (2 <= (if Nat.eqb num 0 then n else num))%nat -> equally_spaced s num n = Ok l ->
  let m := if Nat.eqb num 0 then n else num in length l = m /\
  ((forall k, (k < m)%nat -> Rvalue s (2 * PI * INR k / INR (m - 1)) = Ok (fst (nth k l (0, 0))) /\ Zvalue s (2 * PI * INR k / INR (m - 1)) = Ok (snd (nth k l (0, 0)))) \/
   (forall k, (k < m)%nat -> Rvalue s (2 * PI * INR k / INR (m - 1)) = Ok (fst (nth (m - 1 - k) l (0, 0))) /\ Zvalue s (2 * PI * INR k / INR (m - 1)) = Ok (snd (nth (m - 1 - k) l (0, 0))))).
Proof.
  intros Hm E0. cbv zeta. revert E0. unfold equally_spaced. destruct (even_points s num n) as [[r z]|e] eqn:E; [|discriminate]. cbn [bind fst snd]. intros H.
  destruct (even_on_curve s num n r z Hm E) as (Lr & Lz & V). cbv zeta. set (m := if Nat.eqb num 0 then n else num) in *.
  assert (N : forall k, (k < m)%nat -> nth k (combine r z) (0, 0) = (nth k r 0, nth k z 0)) by (intros k Hk; apply combine_nth; congruence).
  assert (Lc : length (combine r z) = m) by (rewrite combine_length, Lr, Lz; apply Nat.min_id).
  destruct (rz_either _ _ _ H) as [->| ->].
  - split; [exact Lc|]. left. intros k Hk. rewrite N by exact Hk. exact (V k Hk).
  - split; [rewrite rev_length; exact Lc|]. right. intros k Hk. rewrite rev_nth by (rewrite Lc; lia). rewrite Lc.
    replace (m - S (m - 1 - k))%nat with k by lia. rewrite N by exact Hk. exact (V k Hk).
Qed.

(** a solver for these residuals *)
Lemma Sum_all0 n f : (forall j, (j < n)%nat -> f j = 0) -> Sum n f = 0.
Proof. intros H. rewrite (Sum_ext n f (fun _ => 0 * 0)) by (intros j Hj; rewrite (H j Hj); ring). rewrite (rsum_scale 0 (fun _ => 0)). ring. Qed.
Lemma solver_exists num : exists ls, forall data freq, (2 * num < length data)%nat -> minimises ls (2 * num + 1) (fun args => err args data freq).
Proof.
  exists (fun e x0 => match e x0 with Ok v => best (map Ropp v) num | Err _ => [] end). intros data freq H. unfold minimises.
  rewrite (err_ok _ data freq num) by apply repeat_length.
  replace (map Ropp (map (resid (repeat 0 (2 * num + 1)) data) (seq 0 (length data)))) with data; [exact (best_least data num H freq)|].
  rewrite map_map. symmetry. apply (nth_ext _ _ 0 0); [now rewrite map_length, seq_length|]. intros k Hk. rewrite map_length, seq_length in Hk.
  rewrite (nth_indep _ 0 (- resid (repeat 0 (2 * num + 1)) data 0)) by (now rewrite map_length, seq_length).
  rewrite (map_nth (fun k => - resid (repeat 0 (2 * num + 1)) data k)), seq_nth by exact Hk. unfold resid, curve.
  rewrite Sum_all0; [cbn [Nat.add]; ring|]. intros j _. rewrite nth_repeat. ring.
Qed.
