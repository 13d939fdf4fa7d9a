(** Proofs about trace_poincare. *)
From Coq Require Import String List ZArith QArith Qfield Lia Lqa Bool Permutation.
From Verif Require Import Prelude PreludeFacts TracerModel TracerSpec TracerProofs.
Import ListNotations.
Open Scope Q_scope.

(** ** y_slices *)
Lemma qinsert_perm a l : Permutation (qinsert a l) (a :: l).
Proof. induction l as [|b l IH]; cbn; [reflexivity|]. destruct (Qle_bool a b); [reflexivity|]. rewrite IH. apply perm_swap. Qed.
Lemma qsort_perm l : Permutation (qsort l) l.
Proof. induction l as [|a l IH]; cbn; [constructor|]. rewrite qinsert_perm. now constructor. Qed.
Lemma nondec_cons a l : nondecreasing (a :: l) <-> nondecreasing l /\ forall b, hd_error l = Some b -> a <= b.
Proof. destruct l as [|b l]; cbn; split; try tauto; [intros _; split; [exact I|discriminate]| |]; intros [H1 H2]; split; auto. intros c [= <-]; exact H1. Qed.
Lemma qinsert_nondec a l : nondecreasing l -> nondecreasing (qinsert a l).
Proof.
  induction l as [|b l IH]; intros H; [exact I|]. cbn [qinsert]. destruct (Qle_bool a b) eqn:E.
  - apply Qle_bool_iff in E. now split.
  - assert (B : b <= a) by (apply Qlt_le_weak; apply Qle_bool_false_iff; exact E).
    apply nondec_cons in H. destruct H as [H1 H2]. apply nondec_cons. split; [now apply IH|].
    intros c Hc. destruct l as [|d l]; cbn in Hc; [injection Hc as <-; exact B|]. destruct (Qle_bool a d); cbn in Hc; injection Hc as <-; [exact B|]. now apply H2.
Qed.
Lemma qsort_nondec l : nondecreasing (qsort l).
Proof. induction l as [|a l IH]; [exact I|]. now apply qinsert_nondec. Qed.
Lemma nondec_nth l : nondecreasing l -> forall i, (S i < length l)%nat -> nth i l 0 <= nth (S i) l 0.
Proof.
  induction l as [|a l IH]; intros H i Hi; [cbn in Hi; lia|]. apply nondec_cons in H. destruct H as [H1 H2].
  destruct i as [|i]; [|cbn; apply IH; [exact H1|cbn in Hi; lia]]. destruct l as [|b l]; [cbn in Hi; lia|]. cbn. now apply H2.
Qed.
Lemma nth_nondec l : (forall i, (S i < length l)%nat -> nth i l 0 <= nth (S i) l 0) -> nondecreasing l.
Proof.
  induction l as [|a l IH]; intros H; [exact I|]. apply nondec_cons. split; [apply IH; intros i Hi; apply (H (S i)); cbn; lia|].
  intros b Hb. destruct l as [|c l]; [discriminate|]. injection Hb as ->. apply (H 0%nat). cbn. lia.
Qed.

Lemma injn_nonneg n : 0 <= inject_Z (Z.of_nat n).
Proof. change 0 with (inject_Z 0). rewrite <- Zle_Qle. lia. Qed.
Lemma injn_pos n : (0 < n)%nat -> 0 < inject_Z (Z.of_nat n).
Proof. intros H. change 0 with (inject_Z 0). rewrite <- Zlt_Qlt. lia. Qed.

Lemma choose_given yperiod nplot l s : choose_slices yperiod nplot (Some l) = Ok s ->
  s = qsort l /\ l <> [] /\ forall y, In y s -> 0 <= y <= yperiod.
Proof.
  unfold choose_slices. destruct l as [|a l]; [discriminate|]. cbn [orb]. destruct (forallb _ (a :: l)) eqn:F; cbn [negb]; [|discriminate].
  intros [= <-]. split; [reflexivity|]. split; [discriminate|]. intros y Hy. rewrite forallb_forall in F.
  assert (In y (a :: l)) as Hy' by (apply (Permutation_in y (qsort_perm (a :: l))); exact Hy).
  apply F in Hy'. apply andb_true_iff in Hy'. destruct Hy' as [A B]. split; now apply Qle_bool_iff.
Qed.
Lemma even_nth yperiod n k : (k < n)%nat -> nth k (even_slices yperiod n) 0 == inject_Z (Z.of_nat k) * yperiod / inject_Z (Z.of_nat n).
Proof.
  intros H. unfold even_slices. rewrite (nth_map' _ (seq 0 n) k 0 0%nat) by (rewrite seq_length; exact H). rewrite seq_nth by exact H. cbn [Nat.add].
  pose proof (injn_pos n ltac:(lia)). field. lra.
Qed.
Lemma even_range yperiod n y : 0 <= yperiod -> In y (even_slices yperiod n) -> 0 <= y <= yperiod.
Proof.
  intros Hp Hy. apply in_map_iff in Hy. destruct Hy as (i & <- & Hi). apply in_seq in Hi.
  pose proof (injn_nonneg i) as P1. pose proof (injn_pos n ltac:(lia)) as P2.
  assert (P3 : inject_Z (Z.of_nat i) <= inject_Z (Z.of_nat n)) by (rewrite <- Zle_Qle; lia).
  set (a := inject_Z (Z.of_nat i)) in *. set (b := inject_Z (Z.of_nat n)) in *.
  assert (H0 : 0 <= yperiod / b) by (apply Qle_shift_div_l; [exact P2|lra]).
  split; [nra|]. setoid_replace yperiod with (b * (yperiod / b)) at 2 by (field; lra). nra.
Qed.

(** ** y_values *)
Lemma revolve_spec yperiod slices revs : (1 <= revs)%nat ->
  length (revolve yperiod slices revs) = (revs * length slices)%nat /\
  forall n k, (n < revs)%nat -> (k < length slices)%nat ->
    nth (n * length slices + k) (revolve yperiod slices revs) 0 == inject_Z (Z.of_nat n) * yperiod + nth k slices 0.
Proof.
  intros Hr. unfold revolve. set (np := length slices).
  set (step := fun acc n => _).
  assert (K : forall m, let acc := fold_left step (seq 1 m) slices in
    length acc = ((m + 1) * np)%nat /\ firstn np acc = slices /\
    forall n k, (n < m + 1)%nat -> (k < np)%nat -> nth (n * np + k) acc 0 == inject_Z (Z.of_nat n) * yperiod + nth k slices 0).
  { induction m as [|m IH]; cbv zeta in *.
    - cbn [seq fold_left]. split; [unfold np; lia|]. split; [apply firstn_all|]. intros n k Hn Hk. assert (n = 0)%nat as -> by lia. cbn [Nat.mul Nat.add]. change (inject_Z (Z.of_nat 0)) with 0. lra.
    - rewrite seq_S, fold_left_app. cbn [fold_left]. set (acc := fold_left step (seq 1 m) slices) in *. destruct IH as (I1 & I2 & I3).
      assert (I2' : firstn (length slices) acc = slices) by exact I2.
      assert (Es : step acc (1 + m)%nat = acc ++ map (fun y => inject_Z (Z.of_nat (1 + m)) * yperiod + y) slices) by (unfold step; now rewrite I2).
      rewrite Es. split; [rewrite app_length, map_length, I1; unfold np; lia|]. split.
      + rewrite firstn_app. rewrite I2. replace (np - length acc)%nat with 0%nat by nia. cbn. apply app_nil_r.
      + intros n k Hn Hk. destruct (Nat.lt_ge_cases n (m + 1)) as [C|C].
        * rewrite app_nth1 by nia. now apply I3.
        * assert (n = m + 1)%nat as -> by lia. rewrite app_nth2 by nia. replace ((m + 1) * np + k - length acc)%nat with k by nia.
          rewrite (nth_map' _ slices k 0 0) by exact Hk. replace (1 + m)%nat with (m + 1)%nat by lia. reflexivity. }
  specialize (K (revs - 1)%nat). cbv zeta in K. replace (revs - 1 + 1)%nat with revs in K by lia. destruct K as (K1 & _ & K3). split; assumption.
Qed.

(** ** y_values_over *)
Lemma over_at_eq ys nover j : (1 <= nover)%nat -> let q := (j / nover)%nat in
  over_at ys nover j == nth q ys 0 + inject_Z (Z.of_nat (j mod nover)) / inject_Z (Z.of_nat nover) * (nth (q + 1) ys 0 - nth q ys 0).
Proof.
  intros Hn q. unfold over_at. fold q. pose proof (Nat.mod_upper_bound j nover ltac:(lia)) as B. pose proof (injn_pos nover ltac:(lia)) as P.
  destruct (Nat.eqb_spec (j mod nover) 0) as [E|E].
  - rewrite E. change (inject_Z (Z.of_nat 0)) with 0. field. lra.
  - rewrite Nat2Z.inj_sub by lia. unfold Zminus. rewrite inject_Z_plus, inject_Z_opp. field. lra.
Qed.
Lemma over_at_multiple ys nover q : (1 <= nover)%nat -> over_at ys nover (q * nover) = nth q ys 0.
Proof. intros H. unfold over_at. rewrite Nat.mod_mul, Nat.div_mul by lia. reflexivity. Qed.
Lemma oversample_length ys nover : length (oversample ys nover) = (length ys * nover - (nover - 1))%nat.
Proof. unfold oversample. now rewrite map_length, seq_length. Qed.
Lemma oversample_nth ys nover j : (j < length ys * nover - (nover - 1))%nat -> nth j (oversample ys nover) 0 = over_at ys nover j.
Proof. intros H. unfold oversample. rewrite (nth_map' _ (seq 0 _) j 0 0%nat) by (rewrite seq_length; exact H). now rewrite seq_nth by exact H. Qed.
Lemma oversample_nondec ys nover : (1 <= nover)%nat -> nondecreasing ys -> nondecreasing (oversample ys nover).
Proof.
  intros Hn H. apply nth_nondec. intros j Hj. rewrite oversample_length in Hj. rewrite !oversample_nth by lia. rewrite !over_at_eq by exact Hn.
  pose proof (Nat.div_mod j nover ltac:(lia)) as D. pose proof (Nat.mod_upper_bound j nover ltac:(lia)) as B. pose proof (injn_pos nover ltac:(lia)) as P.
  set (q := (j / nover)%nat) in *. set (i := (j mod nover)%nat) in *.
  assert (Hq : (S q < length ys)%nat) by nia. pose proof (nondec_nth ys H q Hq) as M. replace (q + 1)%nat with (S q) by lia.
  destruct (Nat.lt_ge_cases (i + 1) nover) as [C|C].
  - assert (E1 : (S j / nover = q)%nat) by (symmetry; apply (Nat.div_unique (S j) nover q (i + 1)); lia).
    assert (E2 : (S j mod nover = i + 1)%nat) by (symmetry; apply (Nat.mod_unique (S j) nover q (i + 1)); lia).
    rewrite E1, E2. replace (q + 1)%nat with (S q) by lia. set (a := nth q ys 0) in *. set (b := nth (S q) ys 0) in *.
    rewrite Nat2Z.inj_add, inject_Z_plus. change (inject_Z (Z.of_nat 1)) with 1. set (n := inject_Z (Z.of_nat nover)) in *.
    setoid_replace ((inject_Z (Z.of_nat i) + 1) / n) with (inject_Z (Z.of_nat i) / n + / n) by (field; lra).
    assert (0 < / n) by (apply Qinv_lt_0_compat; exact P). nra.
  - assert (E1 : (S j / nover = S q)%nat) by (symmetry; apply (Nat.div_unique (S j) nover (S q) 0); lia).
    assert (E2 : (S j mod nover = 0)%nat) by (symmetry; apply (Nat.mod_unique (S j) nover (S q) 0); lia).
    rewrite E1, E2. replace (S q + 1)%nat with (S (S q)) by lia. change (inject_Z (Z.of_nat 0)) with 0. set (a := nth q ys 0) in *. set (b := nth (S q) ys 0) in *. set (n := inject_Z (Z.of_nat nover)) in *.
    assert (Hi : inject_Z (Z.of_nat i) <= n) by (unfold n; rewrite <- Zle_Qle; lia).
    assert (inject_Z (Z.of_nat i) / n <= 1) by (apply Qle_shift_div_r; [exact P|lra]).
    setoid_replace (0 / n) with 0 by (field; lra). nra.
Qed.
Lemma revolve_nondec yperiod slices revs : (1 <= revs)%nat -> nondecreasing slices -> (forall y, In y slices -> 0 <= y <= yperiod) -> nondecreasing (revolve yperiod slices revs).
Proof.
  intros Hr Hs Hy. destruct (revolve_spec yperiod slices revs Hr) as [L N]. set (np := length slices) in *. apply nth_nondec. intros i Hi. rewrite L in Hi.
  assert (Hnp : np <> 0%nat) by nia.
  pose proof (Nat.div_mod i np Hnp) as D. pose proof (Nat.mod_upper_bound i np Hnp) as B. set (n := (i / np)%nat) in *. set (k := (i mod np)%nat) in *.
  assert (Hn : (n < revs)%nat) by nia. replace i with (n * np + k)%nat by lia. rewrite (N n k Hn B).
  destruct (Nat.lt_ge_cases (k + 1) np) as [C|C].
  - replace (S (n * np + k)) with (n * np + (k + 1))%nat by lia. rewrite (N n (k + 1)%nat Hn C).
    pose proof (nondec_nth slices Hs k ltac:(fold np; lia)). replace (k + 1)%nat with (S k) by lia. lra.
  - assert (Hn1 : (n + 1 < revs)%nat) by nia. replace (S (n * np + k)) with ((n + 1) * np + 0)%nat by nia. rewrite (N (n + 1)%nat 0%nat Hn1 ltac:(lia)).
    pose proof (Hy (nth k slices 0) ltac:(apply nth_In; fold np; lia)). pose proof (Hy (nth 0 slices 0) ltac:(apply nth_In; fold np; lia)).
    rewrite Nat2Z.inj_add, inject_Z_plus. change (inject_Z (Z.of_nat 1)) with 1. lra.
Qed.

(** ** sampling *)
Lemma filter_multiples n q : (1 <= n)%nat -> filter (fun j => (j mod n =? 0)%nat) (seq (q * n + 1) n) = [((q + 1) * n)%nat].
Proof.
  intros Hn. assert (Es : seq (q * n + 1) n = seq (q * n + 1) (n - 1) ++ seq (q * n + 1 + (n - 1)) 1) by (rewrite <- seq_app; f_equal; lia). rewrite Es, filter_app.
  assert (E : forall m, (m <= n - 1)%nat -> filter (fun j => (j mod n =? 0)%nat) (seq (q * n + 1) m) = []).
  { induction m as [|m IH]; intros Hm; [reflexivity|]. rewrite seq_S, filter_app, IH by lia. cbn [filter app].
    replace (q * n + 1 + m)%nat with (1 + m + q * n)%nat by lia. rewrite Nat.mod_add, Nat.mod_small by lia. reflexivity. }
  rewrite E by lia. cbn [app seq filter]. replace (q * n + 1 + (n - 1))%nat with ((q + 1) * n)%nat by nia. now rewrite Nat.mod_mul by lia.
Qed.
Lemma multiples n m : (1 <= n)%nat -> filter (fun j => (j mod n =? 0)%nat) (seq 0 (m * n + 1)) = map (fun q => (q * n)%nat) (seq 0 (m + 1)).
Proof.
  intros Hn. induction m as [|m IH].
  - cbn. now rewrite Nat.mod_0_l by lia.
  - replace (S m * n + 1)%nat with (m * n + 1 + n)%nat by lia. rewrite seq_app, filter_app, IH. cbn [Nat.add]. rewrite filter_multiples by exact Hn.
    rewrite (seq_S (m + 1) 0), map_app. reflexivity.
Qed.
Lemma every_spec {A} n m (l : list A) d : (1 <= n)%nat -> length l = (m * n + 1)%nat -> every n l = map (fun q => nth (q * n) l d) (seq 0 (m + 1)).
Proof.
  intros Hn L. unfold every.
  assert (E : forall l s, map snd (filter (fun p : nat * A => (fst p mod n =? 0)%nat) (combine (seq s (length l)) l)) =
              map (fun j => nth (j - s) l d) (filter (fun j => (j mod n =? 0)%nat) (seq s (length l)))).
  { clear. induction l as [|a l IH]; intros s; [reflexivity|]. cbn [length seq combine filter fst].
    assert (T : map (fun j => nth (j - s) (a :: l) d) (filter (fun j => (j mod n =? 0)%nat) (seq (S s) (length l))) =
                map (fun j => nth (j - S s) l d) (filter (fun j => (j mod n =? 0)%nat) (seq (S s) (length l)))).
    { apply map_ext_in. intros j Hj. apply filter_In in Hj. destruct Hj as [Hj _]. apply in_seq in Hj. replace (j - s)%nat with (S (j - S s)) by lia. reflexivity. }
    destruct (s mod n =? 0)%nat; cbn [map]; rewrite T, IH; [|reflexivity]. now rewrite Nat.sub_diag. }
  rewrite E, L, multiples by exact Hn. rewrite map_map. apply map_ext. intros q. now rewrite Nat.sub_0_r.
Qed.
Lemma blocks_spec a ny w : shape a = ny :: w -> length (data a) = (ny * nsize w)%nat ->
  length (blocks a) = ny /\ (forall r, In r (blocks a) -> length r = nsize w) /\
  forall k j, (k < ny)%nat -> (j < nsize w)%nat -> nth j (nth k (blocks a) []) 0 = nth (k * nsize w + j) (data a) 0.
Proof.
  intros S L. unfold blocks. rewrite S. cbn [tl hd]. split; [now rewrite map_length, seq_length|]. split.
  - intros r Hr. apply in_map_iff in Hr. destruct Hr as (k & <- & Hk). apply in_seq in Hk. rewrite firstn_length, skipn_length, L. nia.
  - intros k j Hk Hj. rewrite (nth_map' _ (seq 0 ny) k [] 0%nat) by (rewrite seq_length; exact Hk). rewrite seq_nth by exact Hk. cbn [Nat.add].
    set (w' := nsize w) in *. rewrite <- (firstn_skipn (k * w') (data a)) at 2. rewrite app_nth2 by (rewrite firstn_length; lia). rewrite firstn_length, Nat.min_l by nia.
    replace (k * w' + j - k * w')%nat with j by lia. rewrite <- (firstn_skipn w' (skipn (k * w') (data a))) at 2. rewrite app_nth1; [reflexivity|].
    rewrite firstn_length, skipn_length, L. nia.
Qed.

Section P.
Variable odeint : list Q -> list Q -> list (list Q).
Variable limit : nat.

Lemma poincare_ok flow x z yperiod nplot y_slices revs nover slices sh fx fz :
  (0 < limit)%nat -> pointwise odeint flow -> wf x -> wf z -> starts x z sh fx fz ->
  choose_slices yperiod nplot y_slices = Ok slices -> (1 <= revs)%Z -> (1 <= nover)%Z -> (2 <= Z.to_nat revs * length slices)%nat ->
  exists r, trace_poincare odeint limit x z yperiod nplot y_slices revs nover = Ok (r, slices) /\
    shape r = Z.to_nat revs :: length slices :: sh ++ [2%nat] /\ wf r /\
    forall n k, (n < Z.to_nat revs)%nat -> (k < length slices)%nat ->
      exists y, y == nth k slices 0 + inject_Z (Z.of_nat n) * yperiod /\ forall idx c, valid sh idx -> (c < 2)%nat ->
        get r (n :: k :: idx ++ [c]) = component c (flow (fx idx, fz idx) (nth 0 slices 0) y).
Proof.
  intros Hl P Wx Wz Hs Hc Hr Hn H2. unfold trace_poincare. rewrite Hc. cbn [bind].
  set (np := length slices) in *. set (rv := Z.to_nat revs) in *. set (no := Z.to_nat nover).
  assert (Hno : (1 <= no)%nat) by (unfold no; lia). assert (Hrv : (1 <= rv)%nat) by (unfold rv; lia).
  destruct (Z.ltb_spec revs 1); [lia|]. destruct (Z.ltb_spec nover 1); [lia|]. assert (Hnp : np <> 0%nat) by nia. rewrite (proj2 (Nat.eqb_neq np 0) Hnp). cbn [orb].
  destruct (revolve_spec yperiod slices rv Hrv) as [RL RN]. fold np in RL, RN. set (ys := revolve yperiod slices rv) in *.
  assert (OL : length (oversample ys no) = ((rv * np - 1) * no + 1)%nat) by (rewrite oversample_length, RL; nia).
  destruct (follow_pointwise odeint limit flow x z (oversample ys no) sh fx fz Hl P ltac:(nia) Wx Wz Hs) as (r0 & F & S0 & W0 & G0).
  rewrite F. cbn [bind]. rewrite S0. cbn [tl].
  assert (Ld : length (data r0) = (length (oversample ys no) * nsize (sh ++ [2%nat]))%nat) by (unfold wf, size in W0; rewrite W0, S0; reflexivity).
  destruct (blocks_spec r0 _ _ S0 Ld) as (B1 & B2 & B3).
  rewrite (every_spec no (rv * np - 1) (blocks r0) []) by (try exact Hno; rewrite B1; exact OL).
  replace (rv * np - 1 + 1)%nat with (rv * np)%nat by nia.
  set (rows := map _ _). set (w := nsize (sh ++ [2%nat])) in *.
  assert (RW : forall a, In a rows -> length a = w).
  { intros a Ha. apply in_map_iff in Ha. destruct Ha as (q & <- & Hq). apply in_seq in Hq. apply B2. apply nth_In. rewrite B1, OL. nia. }
  assert (RWL : length rows = (rv * np)%nat) by (unfold rows; now rewrite map_length, seq_length).
  assert (SZ : nsize (rv :: np :: sh ++ [2%nat]) = length (concat rows)) by (rewrite (concat_rows_length rows w RW), RWL; cbn [nsize]; fold w; lia).
  unfold reshape. rewrite SZ, Nat.eqb_refl. cbn [bind]. eexists. split; [reflexivity|]. split; [reflexivity|].
  split; [unfold wf, size; cbn [shape data]; now rewrite SZ|].
  intros n k Hn' Hk. exists (nth (n * np + k) ys 0). split; [rewrite (RN n k Hn' Hk); lra|]. intros idx c Hi Hc'.
  assert (Hq : (n * np + k < rv * np)%nat) by nia.
  assert (Hq2 : ((n * np + k) * no < length (oversample ys no))%nat) by (rewrite OL; nia).
  specialize (G0 ((n * np + k) * no)%nat idx c Hq2 Hi Hc'). rewrite oversample_nth in G0 by (rewrite <- oversample_length; exact Hq2). rewrite over_at_multiple in G0 by exact Hno.
  assert (HD : hd 0 (oversample ys no) = nth 0 slices 0).
  { assert (hd 0 (oversample ys no) = nth (0 * no) (oversample ys no) 0) as -> by (destruct (oversample ys no); reflexivity).
    rewrite oversample_nth by (rewrite <- oversample_length; lia). rewrite over_at_multiple by exact Hno. unfold ys, revolve.
    clear - Hnp. assert (K : forall l acc, (0 < length acc)%nat -> nth 0 (fold_left (fun acc n => acc ++ map (fun y => inject_Z (Z.of_nat n) * yperiod + y) (firstn (length slices) acc)) l acc) 0 = nth 0 acc 0).
    { induction l as [|a l IH]; intros acc Ha; [reflexivity|]. cbn [fold_left]. rewrite IH by (rewrite app_length; lia). now rewrite app_nth1 by lia. }
    apply K. fold np. lia. }
  rewrite HD in G0. rewrite <- G0. unfold get. rewrite S0. cbn [shape data].
  change (n :: k :: idx ++ [c]) with ([n; k] ++ (idx ++ [c])). change (rv :: np :: sh ++ [2%nat]) with ([rv; np] ++ (sh ++ [2%nat])).
  rewrite offset_app by (repeat constructor; assumption). fold w.
  assert (Ho : (offset (sh ++ [2%nat]) (idx ++ [c]) < w)%nat). { apply offset_lt. unfold valid. apply Forall2_app; [exact Hi|]. constructor; [exact Hc'|constructor]. }
  assert (E2 : offset [rv; np] [n; k] = (n * np + k)%nat) by (cbn; lia). rewrite E2.
  rewrite (nth_concat_rows rows w) by (try exact RW; lia). unfold rows. rewrite (nth_map' _ (seq 0 (rv * np)) (n * np + k) [] 0%nat) by (rewrite seq_length; exact Hq).
  rewrite seq_nth by exact Hq. cbn [Nat.add]. rewrite B3 by (try exact Ho; lia). reflexivity.
Qed.
Lemma poincare_single x z yperiod nplot y_slices revs nover slices : choose_slices yperiod nplot y_slices = Ok slices ->
  (Z.to_nat revs * length slices < 2)%nat -> trace_poincare odeint limit x z yperiod nplot y_slices revs nover = Err ValueError.
Proof.
  intros Hc H2. unfold trace_poincare. rewrite Hc. cbn [bind].
  destruct (Z.ltb_spec revs 1); [reflexivity|]. destruct (Z.ltb_spec nover 1); [reflexivity|]. cbn [orb].
  destruct (Nat.eqb_spec (length slices) 0); [reflexivity|].
  assert (Z.to_nat revs = 1 /\ length slices = 1)%nat as [E1 E2] by nia. rewrite E1.
  unfold follow. rewrite oversample_length. unfold revolve. cbn [Nat.sub seq fold_left]. rewrite E2.
  destruct (Nat.ltb_spec (1 * Z.to_nat nover - (Z.to_nat nover - 1)) 2); [reflexivity|lia].
Qed.
Lemma poincare_none x z yperiod revs nover : trace_poincare odeint limit x z yperiod None None revs nover = Err ValueError.
Proof. reflexivity. Qed.
End P.

Lemma even_chosen yperiod n : choose_slices yperiod (Some (Z.of_nat n)) None = Ok (even_slices yperiod n).
Proof. unfold choose_slices. destruct (Z.ltb_spec (Z.of_nat n) 0); [lia|]. now rewrite Nat2Z.id. Qed.
Lemma even_length yperiod n : length (even_slices yperiod n) = n.
Proof. unfold even_slices. now rewrite map_length, seq_length. Qed.
