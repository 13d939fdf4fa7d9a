(** C29: y positions of the parallel slices. *)
From Coq Require Import List ZArith QArith Qabs Lqa Lia Bool.
From Verif Require Import Prelude PreludeFacts GridModel GridSpec WriterModel WriterSpec.
Import ListNotations.
Open Scope Q_scope.

Lemma nth_map_seq {A} (h : nat -> A) (d : A) n i : (i < n)%nat -> nth i (map h (seq 0 n)) d = h i.
Proof.
  intros H. rewrite (nth_indep _ d (h 0%nat)) by (now rewrite map_length, seq_length).
  rewrite map_nth, seq_nth by exact H. reflexivity.
Qed.

Section P.
Variable y : list Q.
Variable L : Q.
Let n := Z.of_nat (length y).
Hypothesis Hn : (0 < n)%Z.
Hypothesis Hinc : increasing y.
Hypothesis Hwin : last y 0 - hd 0 y < L.

Definition yv (i : Z) : Q := nth (Z.to_nat (i mod n)) y 0 + inject_Z (i / n) * L.

Lemma inc_lt i j : (i < j)%nat -> (j < length y)%nat -> nth i y 0 < nth j y 0.
Proof.
  intros H Hj. induction j as [|j IH]; [lia|].
  destruct (Nat.eq_dec i j) as [->|]; [now apply Hinc|].
  eapply Qlt_trans; [apply IH; lia|apply Hinc; lia].
Qed.
Lemma last_nth : last y 0 = nth (length y - 1) y 0.
Proof.
  clear. induction y as [|a [|b t] IH]; [reflexivity|reflexivity|].
  change (last (a :: b :: t) 0) with (last (b :: t) 0). rewrite IH. cbn [length]. 
  replace (S (S (length t)) - 1)%nat with (S (S (length t) - 1))%nat by lia. reflexivity.
Qed.
Lemma hd_nth : hd 0 y = nth 0 y 0.
Proof. clear. destruct y; reflexivity. Qed.
Lemma window i j : (i < length y)%nat -> (j < length y)%nat -> nth j y 0 - nth i y 0 < L.
Proof.
  intros Hi Hj. rewrite last_nth, hd_nth in Hwin.
  assert (H1 : nth j y 0 <= nth (length y - 1) y 0).
  { destruct (Nat.eq_dec j (length y - 1)) as [->|]; [lra|]. apply Qlt_le_weak, inc_lt; lia. }
  assert (H2 : nth 0 y 0 <= nth i y 0).
  { destruct (Nat.eq_dec 0 i) as [<-|]; [lra|]. apply Qlt_le_weak, inc_lt; lia. }
  lra.
Qed.
Lemma L_pos : 0 < L.
Proof. pose proof (window 0 0). unfold n in Hn. assert ((0 < length y)%nat) by lia. specialize (H H0 H0). lra. Qed.

(** Successive positions of the periodic extension increase by less than the period. *)
Lemma yv_step i : yv i < yv (i + 1) /\ ((1 < n)%Z -> yv (i + 1) - yv i < L).
Proof.
  unfold yv. pose proof (Z.mod_pos_bound i n Hn) as B. pose proof (Z.div_mod i n ltac:(lia)) as E.
  destruct (Z.eq_dec (i mod n) (n - 1)) as [W|W].
  - assert (M : ((i + 1) mod n = 0)%Z). { symmetry. apply (Z.mod_unique _ _ (i / n + 1)%Z); lia. }
    assert (D : ((i + 1) / n = i / n + 1)%Z). { symmetry. apply (Z.div_unique _ _ _ 0%Z); lia. }
    rewrite M, D, W, inject_Z_plus. change (inject_Z 1) with 1.
    assert (B0 : (Z.to_nat 0 < length y)%nat) by (unfold n in Hn; lia).
    assert (B1 : (Z.to_nat (n - 1) < length y)%nat) by (unfold n in *; lia).
    pose proof (window _ _ B0 B1) as Hw. pose proof L_pos.
    split; [ring_simplify; lra|].
    intros Hn1. pose proof (inc_lt 0 (Z.to_nat (n - 1)) ltac:(lia) B1) as Hl. change (Z.to_nat 0) with 0%nat in *. ring_simplify. lra.
  - assert (M : ((i + 1) mod n = i mod n + 1)%Z). { symmetry. apply (Z.mod_unique _ _ (i / n)%Z); lia. }
    assert (D : ((i + 1) / n = i / n)%Z). { symmetry. apply (Z.div_unique _ _ _ (i mod n + 1)%Z); lia. }
    rewrite M, D.
    assert (B0 : (Z.to_nat (i mod n) < length y)%nat) by (unfold n in *; lia).
    assert (B1 : (Z.to_nat (i mod n + 1) < length y)%nat) by (unfold n in *; lia).
    pose proof (window _ _ B0 B1) as Hw. pose proof (inc_lt (Z.to_nat (i mod n)) (Z.to_nat (i mod n + 1)) ltac:(lia) B1) as Hl.
    split; [lra|]. intros _. lra.
Qed.

Variable o : Z.
(** The promised position number [i] *)
Definition target (i : Z) : Q := yv (i + o) - inject_Z (o / n) * L.

Definition wraps (i : Z) : Z := ((i + o) / n - o / n)%Z.
Lemma wraps_range i : (0 <= i < n)%Z -> wraps i = 0%Z \/ wraps i = 1%Z.
Proof.
  intros H. unfold wraps. pose proof (Z.mod_pos_bound o n Hn). pose proof (Z.div_mod o n ltac:(lia)).
  assert (o / n <= (i + o) / n)%Z by (apply Z.div_le_mono; lia).
  assert ((i + o) / n <= o / n + 1)%Z.
  { apply Z.lt_succ_r. apply Z.div_lt_upper_bound; [lia|]. nia. }
  lia.
Qed.
Definition raw (i : nat) : Q := nth (Z.to_nat ((Z.of_nat i + o) mod n)) y 0.
Lemma raw_target i : raw i == target (Z.of_nat i) - inject_Z (wraps (Z.of_nat i)) * L.
Proof. unfold raw, target, yv, wraps. unfold Z.sub. rewrite inject_Z_plus, inject_Z_opp. ring. Qed.

Lemma unwrap_target m : 0 < m -> forall k i prev, (0 < i)%nat -> (Z.of_nat (i + k) <= n)%Z -> prev == target (Z.of_nat i - 1) ->
  length (unwrap m L prev (map raw (seq i k))) = k /\
  forall j, (j < k)%nat -> nth j (unwrap m L prev (map raw (seq i k))) 0 == target (Z.of_nat (i + j)).
Proof.
  intros Hm. induction k as [|k IH]; intros i prev Hi Hk Hp; [cbn; split; [reflexivity|lia]|].
  cbn [seq map unwrap].
  assert (St : target (Z.of_nat i - 1) < target (Z.of_nat i) /\ target (Z.of_nat i) - target (Z.of_nat i - 1) < L).
  { destruct (yv_step (Z.of_nat i - 1 + o)) as [Y1 Y2]. unfold target.
    replace (Z.of_nat i + o)%Z with (Z.of_nat i - 1 + o + 1)%Z by lia. specialize (Y2 ltac:(lia)). lra. }
  assert (Y : (if Qlt_bool (m * (raw i - prev)) 0 then raw i + qsign m * L else raw i) == target (Z.of_nat i)).
  { pose proof (raw_target i) as R. assert (Hs : qsign m = 1) by (unfold qsign; now rewrite (proj2 (Qlt_bool_iff 0 m) Hm)).
    destruct (wraps_range (Z.of_nat i)) as [W|W]; [lia| |]; rewrite W in R; cbn [inject_Z] in R.
    - change (0 # 1) with 0 in R. destruct (Qlt_bool (m * (raw i - prev)) 0) eqn:E; [|rewrite R; ring].
      apply Qlt_bool_iff in E. exfalso.
      assert (0 <= m * (raw i - prev)) by (apply Qmult_le_0_compat; [lra|rewrite R, Hp; destruct St; ring_simplify; lra]). lra.
    - change (1 # 1) with 1 in R. destruct (Qlt_bool (m * (raw i - prev)) 0) eqn:E; [rewrite Hs, R; ring|].
      apply Qlt_bool_false_iff in E. exfalso.
      assert (0 < m * (prev - raw i)) by (apply Qmult_lt_0_compat; [exact Hm|rewrite R, Hp; destruct St; ring_simplify; lra]).
      assert (m * (prev - raw i) == - (m * (raw i - prev))) by ring. lra. }
  set (y' := if Qlt_bool (m * (raw i - prev)) 0 then raw i + qsign m * L else raw i) in *.
  destruct (IH (S i) y') as [I1 I2]; [lia|lia|rewrite Y; replace (Z.of_nat (S i) - 1)%Z with (Z.of_nat i) by lia; reflexivity|].
  split; [cbn [length]; now rewrite I1|]. intros [|j] Hj; cbn [nth].
  - rewrite Nat.add_0_r. exact Y.
  - replace (i + S j)%nat with (S i + j)%nat by lia. apply I2. lia.
Qed.

Lemma roll_eq : roll y o = map raw (seq 0 (length y)).
Proof. reflexivity. Qed.

Lemma mean_pos : (1 < n)%Z -> 0 < mean_diff y.
Proof.
  intros H. unfold mean_diff. rewrite last_nth, hd_nth. apply Qlt_shift_div_l.
  - change 0 with (inject_Z 0). rewrite <- Zlt_Qlt. unfold n in H. lia.
  - pose proof (inc_lt 0 (length y - 1)) as Hl. unfold n in *. specialize (Hl ltac:(lia) ltac:(lia)). lra.
Qed.

(** All entries of the list of positions, before the final assertion. *)
Lemma positions : let p' := match roll y o with [] => [] | a :: t => a :: unwrap (mean_diff y) L a t end in
  length p' = length y /\ forall i, (i < length y)%nat -> nth i p' 0 == target (Z.of_nat i).
Proof.
  rewrite roll_eq. assert (Ex : exists k, length y = S k) by (unfold n in Hn; exists (length y - 1)%nat; lia).
  destruct Ex as [k E]. rewrite E. cbn [seq map]. cbv zeta.
  assert (R0 : raw 0 == target 0).
  { rewrite (raw_target 0). unfold wraps. cbn [Z.of_nat Z.add]. replace (o / n - o / n)%Z with 0%Z by lia. change (inject_Z 0) with 0. ring. }
  destruct k as [|k].
  - cbn. split; [reflexivity|]. intros [|i] Hi; [exact R0|lia].
  - destruct (unwrap_target (mean_diff y) (mean_pos ltac:(unfold n; lia)) (S k) 1 (raw 0)) as [U1 U2];
      [lia|unfold n; lia|exact R0|].
    split; [cbn [length]; now rewrite U1|]. intros [|i] Hi; cbn [nth]; [exact R0|].
    replace (S i) with (1 + i)%nat by lia. apply U2. lia.
Qed.

Lemma par_ok l : par_ycoords y L true o = Ok l ->
  length l = length y /\ (forall i, (i < length y)%nat -> nth i l 0 == target (Z.of_nat i)) /\ increasing l.
Proof.
  unfold par_ycoords. destruct (_ && _)%bool; [discriminate|].
  pose proof positions as [P1 P2]. set (p' := match roll y o with [] => [] | a :: t => a :: unwrap (mean_diff y) L a t end) in *.
  destruct (_ && _)%bool; [discriminate|]. intros E. injection E as <-.
  split; [exact P1|split; [exact P2|]]. intros i Hi. rewrite P1 in Hi. rewrite !P2 by lia.
  unfold target. destruct (yv_step (Z.of_nat i + o)) as [Y _].
  replace (Z.of_nat (S i) + o)%Z with (Z.of_nat i + o + 1)%Z by lia. lra.
Qed.

(** Evenly spaced coordinates pass both assertions. *)
Lemma isclose_same a b : a == b -> isclose a b = true.
Proof.
  intros H. unfold isclose. apply Qle_bool_iff. rewrite H. setoid_replace (b - b) with 0 by ring.
  pose proof (Qabs_nonneg b). change (Qabs 0) with 0. lra.
Qed.

Hypothesis Hu : exists y0, forall i, (i < length y)%nat -> nth i y 0 == y0 + inject_Z (Z.of_nat i) * (L / inject_Z n).

Lemma n_neq : ~ inject_Z n == 0.
Proof. intros C. change 0 with (inject_Z 0) in C. rewrite inject_Z_injective in C. lia. Qed.

Lemma target_uniform : exists c, forall j, target j == c + inject_Z j * (L / inject_Z n).
Proof.
  destruct Hu as [y0 H]. exists (y0 + inject_Z o * (L / inject_Z n) - inject_Z (o / n) * L). intros j.
  unfold target, yv. pose proof (Z.mod_pos_bound (j + o) n Hn) as B.
  rewrite H by (unfold n in *; lia). rewrite Z2Nat.id by lia.
  assert (E : inject_Z (j + o) == inject_Z n * inject_Z ((j + o) / n) + inject_Z ((j + o) mod n)).
  { rewrite <- inject_Z_mult, <- inject_Z_plus, <- Z.div_mod by lia. reflexivity. }
  rewrite inject_Z_plus in E.
  setoid_replace (inject_Z ((j + o) mod n)) with (inject_Z j + inject_Z o - inject_Z n * inject_Z ((j + o) / n)) by (rewrite E; ring).
  field. exact n_neq.
Qed.

Lemma uniform_accepted : exists l, par_ycoords y L true o = Ok l.
Proof.
  unfold par_ycoords. destruct (Nat.ltb_spec 1 (length y)) as [H1|H1]; cbn [andb]; [|eauto].
  assert (Hn1 : ~ inject_Z (n - 1) == 0).
  { intros C. change 0 with (inject_Z 0) in C. rewrite inject_Z_injective in C. unfold n in C. lia. }
  assert (M : mean_diff y == L / inject_Z n).
  { unfold mean_diff. fold n. rewrite last_nth, hd_nth. destruct Hu as [y0 H]. rewrite !H by lia.
    replace (Z.of_nat (length y - 1)) with (n - 1)%Z by (unfold n; lia). change (inject_Z (Z.of_nat 0)) with 0.
    field. split; [exact n_neq|exact Hn1]. }
  rewrite isclose_same by (fold n; rewrite M; field; exact n_neq). cbn [negb].
  pose proof positions as [P1 P2]. set (p' := match roll y o with [] => [] | a :: t => a :: unwrap (mean_diff y) L a t end) in *.
  rewrite isclose_same; [cbn; eauto|]. rewrite M.
  assert (Ep : mean_diff p' == L / inject_Z n); [|exact Ep].
  unfold mean_diff. rewrite P1. fold n.
  assert (Lp : last p' 0 = nth (length p' - 1) p' 0).
  { clear. induction p' as [|a [|b t] IH]; [reflexivity|reflexivity|].
    change (last (a :: b :: t) 0) with (last (b :: t) 0). rewrite IH. cbn [length].
    replace (S (S (length t)) - 1)%nat with (S (S (length t) - 1))%nat by lia. reflexivity. }
  assert (Hp : hd 0 p' = nth 0 p' 0) by (destruct p'; reflexivity).
  rewrite Lp, Hp, P1, !P2 by lia. destruct target_uniform as [c Hc]. rewrite !Hc.
  replace (Z.of_nat (length y - 1)) with (n - 1)%Z by (unfold n; lia). change (inject_Z (Z.of_nat 0)) with 0.
  field. split; [exact n_neq|exact Hn1].
Qed.
End P.

(** dy of a grid with increasing coordinates is positive. *)
Lemma dy_positive {G} (g : grid G) dy : increasing (ycoords g) -> 0 < Ly g -> metric_dy g = Ok dy ->
  forall i, (i < length (ycoords g))%nat -> 0 < nth i dy 0.
Proof.
  intros Hi HL E i Hl. unfold metric_dy in E.
  set (ys := ycoords g) in *. set (n := length ys) in *.
  destruct (Nat.eqb_spec n 1) as [E1|E1].
  { injection E as <-. destruct i; [exact HL|lia]. }
  assert (Es : firstn (2 * n - n) (skipn n (map (fun y => y - Ly g) ys ++ ys ++ map (fun y => y + Ly g) ys)) = ys).
  { rewrite skipn_app, map_length. fold n. rewrite Nat.sub_diag. rewrite skipn_all2 by (now rewrite map_length). cbn [skipn app].
    replace (2 * n - n)%nat with n by lia. rewrite firstn_app. fold n. rewrite Nat.sub_diag. cbn [firstn]. rewrite app_nil_r. apply firstn_all. }
  rewrite Es in E. unfold gradient in E. fold n in E. destruct (Nat.ltb_spec n 2) as [Hlt|Hge]; [discriminate|].
  injection E as <-. rewrite nth_map_seq by exact Hl.
  assert (St : forall j, (S j < n)%nat -> 0 < nth (S j) ys 0 - nth j ys 0) by (intros j Hj; specialize (Hi j Hj); lra).
  destruct (Nat.eqb_spec i 0) as [->|N0]; [apply (St 0%nat); lia|].
  destruct (Nat.eqb_spec i (n - 1)) as [->|N1].
  - replace (n - 1)%nat with (S (n - 2)) at 1 by lia. apply St. lia.
  - pose proof (St i ltac:(lia)) as A. pose proof (St (i - 1)%nat ltac:(lia)) as B.
    replace (S (i - 1)) with i in B by lia. replace (i + 1)%nat with (S i) by lia. apply Qlt_shift_div_l; lra.
Qed.

Lemma admissible_increasing {G} (g : grid G) : admissible g -> increasing (ycoords g).
Proof.
  intros (_ & _ & H) i Hi.
  destruct (nth_error (ycoords g) i) as [a|] eqn:Ea; [|apply nth_error_None in Ea; lia].
  destruct (nth_error (ycoords g) (S i)) as [b|] eqn:Eb; [|apply nth_error_None in Eb; lia].
  rewrite (nth_error_nth _ _ 0 Ea), (nth_error_nth _ _ 0 Eb). eapply H; eauto.
Qed.

Lemma admissible_window {G} (g : grid G) : admissible g -> last (ycoords g) 0 - hd 0 (ycoords g) < Ly g.
Proof.
  intros (W & B & _). destruct W as [_ W]. rewrite last_nth, hd_nth.
  destruct (nth_error (ycoords g) 0) as [a|] eqn:Ea; [|apply nth_error_None in Ea; lia].
  destruct (nth_error (ycoords g) (length (ycoords g) - 1)) as [b|] eqn:Eb; [|apply nth_error_None in Eb; lia].
  rewrite (nth_error_nth _ _ 0 Ea), (nth_error_nth _ _ 0 Eb). pose proof (B _ _ Ea). pose proof (B _ _ Eb). lra.
Qed.

(** Together, for a periodic grid. *)
Lemma par_periodic {G} (g : grid G) o l : admissible g ->
  par_ycoords (ycoords g) (Ly g) true o = Ok l ->
  length l = length (ycoords g) /\
  (forall i, (i < length l)%nat -> nth i l 0 == periodic_y g (Z.of_nat i + o) - inject_Z (o / ny g) * Ly g) /\
  increasing l /\
  (forall (H : Type) (h : grid H) dy, ycoords h = l -> Ly h = Ly g -> metric_dy h = Ok dy ->
     forall i, (i < length l)%nat -> 0 < nth i dy 0).
Proof.
  intros A E. pose proof A as ((_ & W) & B & _).
  destruct (par_ok (ycoords g) (Ly g) ltac:(lia) (admissible_increasing g A) (admissible_window g A) o l E) as (P1 & P2 & P3).
  split; [exact P1|split; [|split; [exact P3|]]].
  - intros i Hi. rewrite P2 by lia. reflexivity.
  - intros H h dy Eh EL Ed i Hi. subst l. eapply dy_positive; [exact P3| |exact Ed|exact Hi].
    rewrite EL. destruct (nth_error (ycoords g) 0) as [a|] eqn:Ea; [|apply nth_error_None in Ea; lia].
    pose proof (B _ _ Ea). lra.
Qed.

Lemma par_uniform {G} (g : grid G) o : admissible g -> uniform g -> exists l, par_ycoords (ycoords g) (Ly g) true o = Ok l.
Proof.
  intros A [(_ & W) U]. apply uniform_accepted; [lia|now apply admissible_increasing|now apply admissible_window|exact U].
Qed.
