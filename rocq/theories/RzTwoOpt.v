(** line_from_points_two_opt. *)
From Coq Require Import List ZArith QArith Qfield Lia Lqa Bool Permutation.
From Verif Require Import Prelude PreludeFacts PolSpec RzModel RzSpec RzProofs.
Import ListNotations.
Open Scope Q_scope.

Lemma skipn_add {A} a b (l : list A) : skipn (a + b) l = skipn b (skipn a l).
Proof. revert l. induction a as [|a IH]; intros l; [reflexivity|]. destruct l as [|x l]; cbn; [now destruct b|apply IH]. Qed.

(** ** folds whose steps keep the state or lower its cost *)
Section Descend.
Context {S A : Type}.
Variable cost : S -> Q.
Variable step : S -> A -> S.
Hypothesis step_ok : forall s a, step s a = s \/ cost (step s a) < cost s.
Lemma descend_le l s : cost (fold_left step l s) <= cost s.
Proof.
  revert s. induction l as [|a l IH]; intros s; cbn [fold_left]; [lra|].
  destruct (step_ok s a) as [E|H]; [rewrite E; apply IH|]. specialize (IH (step s a)). lra.
Qed.
Lemma descend_or l s : fold_left step l s = s /\ (forall a, In a l -> step s a = s) \/ cost (fold_left step l s) < cost s.
Proof.
  revert s. induction l as [|a l IH]; intros s; cbn [fold_left]; [left; split; [reflexivity|intros ? []]|].
  destruct (step_ok s a) as [E|H].
  - rewrite E. destruct (IH s) as [[I1 I2]|I]; [|now right]. left. split; [exact I1|]. intros b [<-|Hb]; auto.
  - right. pose proof (descend_le l (step s a)). lra.
Qed.
End Descend.

Section T.
Variable norm : nat -> nat -> Q.
Notation pd := (path_distance norm).

Lemma path_distance_closed r : pd r == closed_sum (fun a b => norm b a) r.
Proof. unfold path_distance. rewrite (cyc_back (fun ab : nat * nat => norm (fst ab) (snd ab))). reflexivity. Qed.

Lemma swap_perm r i k : (i <= k + 1)%nat -> Permutation r (two_opt_swap r i k).
Proof.
  intros H. unfold two_opt_swap. rewrite <- Permutation_rev.
  replace (k + 1)%nat with (i + (k + 1 - i))%nat at 2 by lia. rewrite skipn_add, !firstn_skipn. reflexivity.
Qed.
Lemma swap_head r i k d : (1 <= i)%nat -> r <> [] -> nth 0 (two_opt_swap r i k) d = nth 0 r d.
Proof. intros H Hr. destruct r as [|a r]; [contradiction|]. destruct i; [lia|]. reflexivity. Qed.

Definition swaps (n : nat) (st : list nat * Q) (i : nat) : list nat * Q := fold_left (try_swap norm i) (seq (i + 1) (n - (i + 1))) st.

Lemma try_step i (st : list nat * Q) k : try_swap norm i st k = st \/ snd (try_swap norm i st k) < snd st.
Proof. unfold try_swap. destruct (Qlt_bool _ _) eqn:E; [right|now left]. apply Qlt_bool_iff in E. exact E. Qed.
Lemma swaps_step n st i : swaps n st i = st \/ snd (swaps n st i) < snd st.
Proof. destruct (descend_or snd (try_swap norm i) (try_step i) (seq (i + 1) (n - (i + 1))) st) as [[E _]|E]; [now left|now right]. Qed.

Definition pass (n : nat) (st : list nat * Q) : list nat * Q := fold_left (swaps n) (seq 1 (n - 3)) st.

Definition factor (best best' : Q) : option Q := if Qeq_bool best 0 then None else Some (1 - best' / best).
Lemma opt_pass_eq n st b : opt_pass norm n (st, b) =
  (pass n st, match seq 1 (n - 3) with [] => b | _ => factor (snd st) (snd (pass n st)) end).
Proof.
  unfold opt_pass, pass. destruct st as [route best]. cbn [fst snd].
  set (F := fun (s : list nat * Q * option Q) i => _).
  assert (K : forall l s b, fold_left F l (s, b) = (fold_left (swaps n) l s, match l with [] => b | _ => factor best (snd (fold_left (swaps n) l s)) end)).
  { induction l as [|i l IH]; intros s b'; [reflexivity|]. cbn [fold_left].
    assert (E : F (s, b') i = (swaps n s i, factor best (snd (swaps n s i)))).
    { unfold F. cbn [fst]. fold (swaps n s i). destruct (swaps n s i) as [r' b'']. reflexivity. }
    rewrite E, IH. destruct l; reflexivity. }
  apply K.
Qed.

(** the invariant *)
Definition inv (n : nat) (st : list nat * Q) : Prop :=
  Permutation (seq 0 n) (fst st) /\ snd st = pd (fst st) /\ (forall d, (0 < n)%nat -> nth 0 (fst st) d = 0%nat).
Lemma inv_try n i st k : (1 <= i)%nat -> (i <= k)%nat -> inv n st -> inv n (try_swap norm i st k).
Proof.
  intros Hi Hk (P & D & Hd). unfold try_swap. destruct (Qlt_bool _ _); [|repeat split; assumption]. cbn [fst snd].
  split; [|split; [reflexivity|]].
  - rewrite P. apply swap_perm. lia.
  - intros d Hn. etransitivity; [apply swap_head; [exact Hi|]|now apply Hd]. intro C. rewrite C in P. apply Permutation_length in P. rewrite seq_length in P. cbn in P. lia.
Qed.
Lemma inv_swaps n i st : (1 <= i)%nat -> inv n st -> inv n (swaps n st i).
Proof.
  intros Hi. unfold swaps. assert (K : forall l s, (forall k, In k l -> (i <= k)%nat) -> inv n s -> inv n (fold_left (try_swap norm i) l s)).
  { induction l as [|k l IH]; intros s Hl Hs; [exact Hs|]. cbn. apply IH; [intros; apply Hl; now right|].
    apply inv_try; [exact Hi| |exact Hs]. apply Hl. now left. }
  apply K. intros k Hk. apply in_seq in Hk. lia.
Qed.
Lemma inv_pass n st : inv n st -> inv n (pass n st).
Proof.
  unfold pass. assert (K : forall l s, (forall k, In k l -> (1 <= k)%nat) -> inv n s -> inv n (fold_left (swaps n) l s)).
  { induction l as [|k l IH]; intros s Hl Hs; [exact Hs|]. cbn. apply IH; [intros; apply Hl; now right|].
    apply inv_swaps; [|exact Hs]. apply Hl. now left. }
  apply K. intros k Hk. apply in_seq in Hk. lia.
Qed.
Lemma pass_le n st : snd (pass n st) <= snd st.
Proof. apply (descend_le snd (swaps n) (swaps_step n)). Qed.

Lemma loop_result fuel n thr : forall st b route, inv n st -> two_opt_loop norm fuel n thr (st, b) = Some route ->
  Permutation (seq 0 n) route /\ pd route <= snd st /\ (forall d, (0 < n)%nat -> nth 0 route d = 0%nat).
Proof.
  induction fuel as [|fuel IH]; intros st b route I; [discriminate|]. cbn [two_opt_loop snd fst].
  destruct (match b with None => false | Some f => Qlt_bool thr f end).
  - rewrite opt_pass_eq. intros H. destruct (IH _ _ _ (inv_pass n st I) H) as (H1 & H2 & H3).
    pose proof (pass_le n st). repeat split; try assumption. lra.
  - intros [= <-]. destruct I as (I1 & I2 & I3). repeat split; try assumption. rewrite I2. lra.
Qed.
Lemma inv_start n : inv n (seq 0 n, pd (seq 0 n)).
Proof. repeat split; try reflexivity. intros d Hn. cbn. destruct n; [lia|reflexivity]. Qed.

Lemma two_opt_result fuel n thr route : two_opt norm fuel n thr = Some route ->
  Permutation (seq 0 n) route /\ pd route <= pd (seq 0 n) /\ (forall d, (0 < n)%nat -> nth 0 route d = 0%nat).
Proof. intros H. exact (loop_result fuel n thr _ _ route (inv_start n) H). Qed.

(** ** no improvement left *)
Lemma pass_fixed n st : inv n st -> ~ snd (pass n st) < snd st ->
  forall i k, (1 <= i < n - 2)%nat -> (i < k < n)%nat -> pd (fst st) <= pd (two_opt_swap (fst st) i k).
Proof.
  intros I H i k Hi Hk. unfold pass in H.
  destruct (descend_or snd (swaps n) (swaps_step n) (seq 1 (n - 3)) st) as [[_ E]|E]; [|contradiction].
  specialize (E i ltac:(apply in_seq; lia)). unfold swaps in E.
  destruct (descend_or snd (try_swap norm i) (try_step i) (seq (i + 1) (n - (i + 1))) st) as [[_ E']|E'].
  - specialize (E' k ltac:(apply in_seq; lia)). unfold try_swap in E'. destruct (Qlt_bool _ _) eqn:Eb.
    + apply Qlt_bool_iff in Eb. exfalso. apply (f_equal snd) in E'. cbn [snd] in E'. rewrite E' in Eb. lra.
    + apply Qlt_bool_false_iff in Eb. destruct I as (_ & <- & _). exact Eb.
  - rewrite E in E'. lra.
Qed.

Section Nonneg.
Hypothesis norm_nonneg : forall a b, 0 <= norm a b.
Lemma pd_nonneg r : 0 <= pd r.
Proof. unfold path_distance. apply qsum_nonneg. intros q Hq. apply in_map_iff in Hq. destruct Hq as (ab & <- & _). apply norm_nonneg. Qed.

Lemma factor_pos best best' thr f : 0 <= thr -> 0 <= best -> factor best best' = Some f -> thr < f -> best' < best.
Proof.
  intros Ht Hb. unfold factor. destruct (Qeq_bool best 0) eqn:E; [discriminate|]. intros [= <-] H.
  assert (P : 0 < best). { destruct (Qlt_le_dec 0 best); [assumption|]. exfalso. apply Qeq_bool_neq in E. apply E. lra. }
  destruct (Qlt_le_dec best' best) as [L|L]; [exact L|]. exfalso.
  assert (1 <= best' / best) by (apply Qle_shift_div_l; lra). lra.
Qed.

(** exit with threshold 0 after at least one pass: 2-optimal *)
Lemma loop_optimal fuel n thr : thr == 0 -> (4 <= n)%nat -> forall st b route, inv n st ->
  (forall f, b = Some f -> 0 < f) -> b <> None ->
  two_opt_loop norm fuel n thr (st, b) = Some route ->
  forall i k, (1 <= i < n - 2)%nat -> (i < k < n)%nat -> pd route <= pd (two_opt_swap route i k).
Proof.
  intros Ht Hn. induction fuel as [|fuel IH]; intros st b route I Hb Nb; [discriminate|]. cbn [two_opt_loop snd fst].
  destruct b as [f|]; [|contradiction]. assert (Hf := Hb f eq_refl).
  assert (E : Qlt_bool thr f = true) by (apply Qlt_bool_iff; lra). rewrite E, opt_pass_eq.
  assert (S3 : exists a t, seq 1 (n - 3) = a :: t) by (destruct (n - 3)%nat eqn:E3; [lia|]; cbn; eauto). destruct S3 as (a & t & ->).
  assert (Inv := inv_pass n st I).
  destruct (factor (snd st) (snd (pass n st))) as [g|] eqn:Ef.
  - destruct (Qlt_le_dec 0 g) as [Hg|Hg].
    + intros H. apply (IH (pass n st) (Some g) route Inv); [intros ? [= <-]; exact Hg|discriminate|exact H].
    + destruct fuel as [|fuel]; [discriminate|]. cbn [two_opt_loop snd fst].
      assert (E2 : Qlt_bool thr g = false) by (apply Qlt_bool_false_iff; lra). rewrite E2. intros [= <-].
      (* no improvement in the pass: the route did not change *)
      assert (B0 : 0 <= snd st) by (destruct I as (_ & -> & _); apply pd_nonneg).
      assert (NL : ~ snd (pass n st) < snd st).
      { intros L. unfold factor in Ef. destruct (Qeq_bool (snd st) 0) eqn:Eq; [discriminate|]. injection Ef as Eg.
        assert (P : 0 < snd st). { destruct (Qlt_le_dec 0 (snd st)); [assumption|]. exfalso. apply Qeq_bool_neq in Eq. apply Eq. lra. }
        assert (snd (pass n st) / snd st < 1) by (apply Qlt_shift_div_r; lra). rewrite <- Eg in Hg. lra. }
      assert (Es : pass n st = st).
      { unfold pass in NL |- *. destruct (descend_or snd (swaps n) (swaps_step n) (seq 1 (n - 3)) st) as [[E' _]|E']; [exact E'|contradiction]. }
      rewrite Es. now apply pass_fixed.
  - (* zero length: nothing can be shorter *)
    destruct fuel as [|fuel]; [discriminate|]. cbn [two_opt_loop snd fst]. intros [= <-].
    intros i k _ _. unfold factor in Ef. destruct (Qeq_bool (snd st) 0) eqn:Eq; [|discriminate]. apply Qeq_bool_iff in Eq.
    destruct Inv as (_ & Ep & _). pose proof (pass_le n st). rewrite Ep in H. pose proof (pd_nonneg (two_opt_swap (fst (pass n st)) i k)). lra.
Qed.
Lemma two_opt_optimal fuel n route : (4 <= n)%nat -> two_opt norm fuel n 0 = Some route ->
  forall i k, (1 <= i < n - 2)%nat -> (i < k < n)%nat -> pd route <= pd (two_opt_swap route i k).
Proof.
  intros Hn H. apply (loop_optimal fuel n 0 (Qeq_refl 0) Hn _ (Some 1) route (inv_start n)); [intros f [= <-]; reflexivity|discriminate|exact H].
Qed.

(** ** termination *)
Fixpoint words (n : nat) (l : list nat) : list (list nat) :=
  match n with O => [[]] | S n => flat_map (fun w => map (fun a => a :: w) l) (words n l) end.
Lemma words_in n l w : length w = n -> (forall a, In a w -> In a l) -> In w (words n l).
Proof.
  revert w. induction n as [|n IH]; intros w Hw Ha; destruct w as [|a w]; try discriminate; [now left|].
  cbn. apply in_flat_map. exists w. split; [apply IH; [cbn in Hw; lia|intros; apply Ha; now right]|].
  apply in_map_iff. exists a. split; [reflexivity|]. apply Ha. now left.
Qed.
Definition below (n : nat) (q : Q) : nat := length (filter (fun w => Qlt_bool (pd w) q) (words n (seq 0 n))).
Lemma filter_length_le {A} (f g : A -> bool) l : (forall a, In a l -> f a = true -> g a = true) -> (length (filter f l) <= length (filter g l))%nat.
Proof.
  induction l as [|a l IH]; intros H; [cbn; lia|]. cbn. specialize (IH ltac:(intros; apply H; [now right|assumption])).
  pose proof (H a (or_introl eq_refl)). destruct (f a), (g a); cbn; try lia; specialize (H0 eq_refl); discriminate.
Qed.
Lemma filter_length_lt {A} (f g : A -> bool) l x : (forall a, In a l -> f a = true -> g a = true) -> In x l -> f x = false -> g x = true ->
  (length (filter f l) < length (filter g l))%nat.
Proof.
  induction l as [|a l IH]; intros H Hx Fx Gx; [destruct Hx|]. cbn. destruct Hx as [->|Hx].
  - rewrite Fx, Gx. cbn. pose proof (filter_length_le f g l ltac:(intros; apply H; [now right|assumption])). lia.
  - specialize (IH ltac:(intros; apply H; [now right|assumption]) Hx Fx Gx). pose proof (H a (or_introl eq_refl)).
    destruct (f a), (g a); cbn; try lia; specialize (H0 eq_refl); discriminate.
Qed.
Lemma below_lt n st q : inv n st -> snd st < q -> (below n (snd st) < below n q)%nat.
Proof.
  intros (P & D & _) H. unfold below. apply filter_length_lt with (x := fst st).
  - intros w _ Hw. apply Qlt_bool_iff in Hw. apply Qlt_bool_iff. lra.
  - apply words_in; [rewrite <- (Permutation_length P); apply seq_length|].
    intros a Ha. exact (Permutation_in _ (Permutation_sym P) Ha).
  - apply Qlt_bool_false_iff. rewrite D. lra.
  - apply Qlt_bool_iff. rewrite <- D. exact H.
Qed.
Lemma loop_terminates n thr : (4 <= n)%nat -> 0 <= thr -> forall fuel st b, inv n st -> (below n (snd st) < fuel)%nat ->
  two_opt_loop norm (S fuel) n thr (st, b) <> None.
Proof.
  intros Hn Ht. induction fuel as [|fuel IH]; intros st b I Hf; [lia|].
  cbn [two_opt_loop snd fst]. destruct (match b with None => false | Some f => Qlt_bool thr f end); [|discriminate].
  rewrite opt_pass_eq.
  assert (S3 : exists a t, seq 1 (n - 3) = a :: t) by (destruct (n - 3)%nat eqn:E3; [lia|]; cbn; eauto). destruct S3 as (a & t & ->).
  assert (Inv := inv_pass n st I).
  assert (B0 : 0 <= snd st) by (destruct I as (_ & -> & _); apply pd_nonneg).
  destruct (factor (snd st) (snd (pass n st))) as [g|] eqn:Ef.
  - destruct (Qlt_bool thr g) eqn:Eg.
    + apply Qlt_bool_iff in Eg. pose proof (factor_pos _ _ thr g Ht B0 Ef Eg) as L.
      change (two_opt_loop norm (S fuel) n thr (pass n st, Some g) <> None).
      apply IH; [exact Inv|]. pose proof (below_lt n _ _ Inv L). lia.
    + cbn [two_opt_loop snd fst]. rewrite ?Eg. discriminate.
  - cbn [two_opt_loop snd fst]. discriminate.
Qed.
Lemma two_opt_terminates n thr : (4 <= n)%nat -> 0 <= thr -> exists fuel route, two_opt norm fuel n thr = Some route.
Proof.
  intros Hn Ht. set (st := (seq 0 n, pd (seq 0 n))). exists (S (S (below n (snd st)))).
  pose proof (loop_terminates n thr Hn Ht (S (below n (snd st))) st (Some 1) (inv_start n) ltac:(lia)) as H.
  unfold two_opt. fold st. destruct (two_opt_loop _ _ _ _ _) as [r|]; [now exists r|contradiction].
Qed.
End Nonneg.

(** three points: nothing to swap, the loop never ends *)
Lemma two_opt_small n thr fuel : (n <= 3)%nat -> thr < 1 -> two_opt norm fuel n thr = None.
Proof.
  intros Hn Ht. unfold two_opt. generalize (seq 0 n, pd (seq 0 n)) as st. induction fuel as [|fuel IH]; intros st; [reflexivity|].
  cbn [two_opt_loop snd fst]. assert (E : Qlt_bool thr 1 = true) by (apply Qlt_bool_iff; exact Ht). rewrite E, opt_pass_eq.
  replace (n - 3)%nat with 0%nat by lia. cbn [seq]. apply IH.
Qed.
(** negative thresholds: never ends either *)
Lemma two_opt_negative n thr fuel : (4 <= n)%nat -> thr < 0 -> (forall r, Permutation (seq 0 n) r -> 0 < pd r) -> two_opt norm fuel n thr = None.
Proof.
  intros Hn Ht Hp. unfold two_opt.
  assert (K : forall fuel st f, inv n st -> thr < f -> two_opt_loop norm fuel n thr (st, Some f) = None).
  { clear fuel. induction fuel as [|fuel IH]; intros st f I Hf; [reflexivity|].
    cbn [two_opt_loop snd fst]. assert (E : Qlt_bool thr f = true) by (apply Qlt_bool_iff; exact Hf). rewrite E, opt_pass_eq.
    assert (S3 : exists a t, seq 1 (n - 3) = a :: t) by (destruct (n - 3)%nat eqn:E3; [lia|]; cbn; eauto). destruct S3 as (a & t & ->).
    assert (P : 0 < snd st) by (destruct I as (I1 & -> & _); now apply Hp).
    unfold factor. destruct (Qeq_bool (snd st) 0) eqn:Eq; [apply Qeq_bool_iff in Eq; lra|].
    apply IH; [now apply inv_pass|]. pose proof (pass_le n st) as L.
    assert (snd (pass n st) / snd st <= 1) by (apply Qle_shift_div_r; lra). lra. }
  apply K; [apply inv_start|lra].
Qed.
End T.
