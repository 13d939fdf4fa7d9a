(** Lemmas about [Prelude]. *)
From Coq Require Import List ZArith QArith Qround Qabs Lia Lqa Bool Permutation.
From Verif Require Import Prelude.
Import ListNotations.

(** ** zrange *)

Lemma in_zrange lo hi z : In z (zrange lo hi) <-> (lo <= z < hi)%Z.
Proof.
  unfold zrange. rewrite in_map_iff. split.
  - intros [i [<- Hi]]. apply in_seq in Hi. lia.
  - intros H. exists (Z.to_nat (z - lo)). split; [lia|]. apply in_seq. lia.
Qed.

Lemma zrange_length lo hi : length (zrange lo hi) = Z.to_nat (hi - lo).
Proof. unfold zrange. now rewrite map_length, seq_length. Qed.

Lemma NoDup_zrange lo hi : NoDup (zrange lo hi).
Proof.
  unfold zrange. apply FinFun.Injective_map_NoDup; [|apply seq_NoDup].
  intros a b H. lia.
Qed.

Lemma zrange_nil lo hi : (hi <= lo)%Z -> zrange lo hi = [].
Proof. intros H. unfold zrange. replace (Z.to_nat (hi - lo)) with 0%nat by lia. reflexivity. Qed.

Lemma zrange_cons lo hi : (lo < hi)%Z -> zrange lo hi = lo :: zrange (lo + 1) hi.
Proof.
  intros H. unfold zrange.
  replace (Z.to_nat (hi - lo)) with (S (Z.to_nat (hi - (lo + 1)))) by lia.
  cbn [seq map]. f_equal; [lia|].
  rewrite <- seq_shift, map_map. apply map_ext. intros. lia.
Qed.

Lemma zrange_snoc lo hi : (lo <= hi)%Z -> zrange lo (hi + 1) = zrange lo hi ++ [hi].
Proof.
  intros H. unfold zrange.
  replace (Z.to_nat (hi + 1 - lo)) with (Z.to_nat (hi - lo) + 1)%nat by lia.
  rewrite seq_app, map_app. cbn. do 2 f_equal. lia.
Qed.

Lemma nth_zrange lo hi i d : (i < Z.to_nat (hi - lo))%nat -> nth i (zrange lo hi) d = (lo + Z.of_nat i)%Z.
Proof.
  intros H. unfold zrange.
  rewrite nth_indep with (d' := (lo + Z.of_nat 0)%Z) by (rewrite map_length, seq_length; lia).
  rewrite (map_nth (fun i => (lo + Z.of_nat i)%Z)). rewrite seq_nth by lia. reflexivity.
Qed.

Lemma nth_error_zrange lo hi i : (i < Z.to_nat (hi - lo))%nat -> nth_error (zrange lo hi) i = Some (lo + Z.of_nat i)%Z.
Proof.
  intros H. rewrite nth_error_nth' with (d := 0%Z) by (rewrite zrange_length; lia).
  f_equal. now apply nth_zrange.
Qed.

(** ** set_nth *)

Lemma set_nth_length {A} n (v : A) l : length (set_nth n v l) = length l.
Proof. revert n. induction l; destruct n; cbn; auto. Qed.

Lemma nth_set_nth_eq {A} n (v : A) l d : (n < length l)%nat -> nth n (set_nth n v l) d = v.
Proof. revert n. induction l; destruct n; cbn; intros; try lia; auto. apply IHl. lia. Qed.

Lemma nth_set_nth_neq {A} n m (v : A) l d : n <> m -> nth n (set_nth m v l) d = nth n l d.
Proof.
  revert n m. induction l as [|a l IH]; intros [|n] [|m] H; cbn; try congruence; auto.
Qed.

Lemma nth_error_set_nth_eq {A} n (v : A) l : (n < length l)%nat -> nth_error (set_nth n v l) n = Some v.
Proof. revert n. induction l; destruct n; cbn; intros; try lia; auto. apply IHl. lia. Qed.

Lemma nth_error_set_nth_neq {A} n m (v : A) l : n <> m -> nth_error (set_nth m v l) n = nth_error l n.
Proof.
  revert n m. induction l as [|a l IH]; intros [|n] [|m] H; cbn; try congruence; auto.
Qed.

(** ** foldM *)

Lemma foldM_app {A S} (f : S -> A -> res S) l1 l2 s :
  foldM f (l1 ++ l2) s = (let* s' := foldM f l1 s in foldM f l2 s').
Proof. revert s. induction l1 as [|a l1 IH]; intros s; cbn; [reflexivity|]. destruct (f s a); cbn; auto. Qed.

Lemma foldM_ext {A S} (f g : S -> A -> res S) l s :
  (forall s a, In a l -> f s a = g s a) -> foldM f l s = foldM g l s.
Proof.
  revert s. induction l as [|a l IH]; intros s H; cbn; [reflexivity|].
  rewrite H by (left; reflexivity). destruct (g s a); cbn; auto. apply IH. intros; apply H; right; auto.
Qed.

(** A fold whose body never raises on an invariant. *)
Lemma foldM_inv {A S} (P : list A -> S -> Prop) (f : S -> A -> res S) l s0 :
  P [] s0 ->
  (forall pre a post s, l = pre ++ a :: post -> P pre s -> exists s', f s a = Ok s' /\ P (pre ++ [a]) s') ->
  exists s', foldM f l s0 = Ok s' /\ P l s'.
Proof.
  intros H0 Hstep.
  assert (G : forall post pre s, l = pre ++ post -> P pre s -> exists s', foldM f post s = Ok s' /\ P l s').
  { induction post as [|a post IH]; intros pre s El Hp.
    - rewrite app_nil_r in El. subst. exists s. now split.
    - destruct (Hstep pre a post s El Hp) as [s' [E Hp']].
      cbn. rewrite E. cbn. apply (IH (pre ++ [a])); [now rewrite <- app_assoc|exact Hp']. }
  exact (G l [] s0 eq_refl H0).
Qed.

Lemma fold_left_inv {A S} (P : list A -> S -> Prop) (f : S -> A -> S) l s0 :
  P [] s0 ->
  (forall pre a post s, l = pre ++ a :: post -> P pre s -> P (pre ++ [a]) (f s a)) ->
  P l (fold_left f l s0).
Proof.
  intros H0 Hstep.
  assert (G : forall post pre s, l = pre ++ post -> P pre s -> P l (fold_left f post s)).
  { induction post as [|a post IH]; intros pre s El Hp.
    - rewrite app_nil_r in El. now subst.
    - cbn. apply (IH (pre ++ [a])); [now rewrite <- app_assoc|eauto]. }
  exact (G l [] s0 eq_refl H0).
Qed.

(** ** NoDup *)

Lemma NoDup_app {A} (l1 l2 : list A) :
  NoDup l1 -> NoDup l2 -> (forall a, In a l1 -> In a l2 -> False) -> NoDup (l1 ++ l2).
Proof.
  induction l1 as [|a l1 IH]; cbn; intros H1 H2 H; [assumption|].
  inversion H1; subst. constructor.
  - rewrite in_app_iff. intros [?|?]; eauto.
  - apply IH; auto. intros; eapply H; eauto.
Qed.

Lemma NoDup_app_inv {A} (l1 l2 : list A) :
  NoDup (l1 ++ l2) -> NoDup l1 /\ NoDup l2 /\ (forall a, In a l1 -> In a l2 -> False).
Proof.
  induction l1 as [|a l1 IH]; cbn; intros H.
  - repeat split; auto. constructor.
  - inversion H; subst. destruct (IH H3) as (A1 & A2 & A3). repeat split; auto.
    + constructor; auto. intro; apply H2; apply in_app_iff; auto.
    + intros b [->|Hb] Hb2; [apply H2; apply in_app_iff; auto|eauto].
Qed.

Lemma NoDup_flat_map {A B} (f : A -> list B) l :
  NoDup l -> (forall a, In a l -> NoDup (f a)) ->
  (forall a a' b, In a l -> In a' l -> In b (f a) -> In b (f a') -> a = a') ->
  NoDup (flat_map f l).
Proof.
  induction l as [|a l IH]; cbn; intros Hl Hf Hd; [constructor|].
  inversion Hl; subst. apply NoDup_app.
  - apply Hf. auto.
  - apply IH; eauto.
  - intros b Hb Hb'. apply in_flat_map in Hb'. destruct Hb' as [a' [Ha' Hb']].
    assert (a = a') by (eapply Hd; eauto). subst. contradiction.
Qed.

(** ** Rational sums *)

Lemma qsum_app l1 l2 : qsum (l1 ++ l2) == qsum l1 + qsum l2.
Proof. induction l1 as [|a l1 IH]; cbn; [ring|]. rewrite IH. ring. Qed.

Lemma qsum_cons a l : qsum (a :: l) = a + qsum l.
Proof. reflexivity. Qed.

Lemma qsum_map_ext {A} (f g : A -> Q) l :
  (forall a, In a l -> f a == g a) -> qsum (map f l) == qsum (map g l).
Proof.
  induction l as [|a l IH]; cbn; intros H; [reflexivity|].
  rewrite (H a) by (left; reflexivity). rewrite IH by (intros; apply H; now right). reflexivity.
Qed.

Lemma qsum_map_plus {A} (f g : A -> Q) l :
  qsum (map (fun a => f a + g a) l) == qsum (map f l) + qsum (map g l).
Proof. induction l as [|a l IH]; cbn; [ring|]. rewrite IH. ring. Qed.

Lemma qsum_map_scale {A} (c : Q) (f : A -> Q) l :
  qsum (map (fun a => c * f a) l) == c * qsum (map f l).
Proof. induction l as [|a l IH]; cbn; [ring|]. rewrite IH. ring. Qed.

Lemma qsum_nonneg l : (forall q, In q l -> 0 <= q) -> 0 <= qsum l.
Proof.
  induction l as [|a l IH]; cbn; intros H; [lra|].
  specialize (H a (or_introl eq_refl)) as Ha.
  assert (0 <= qsum l) by (apply IH; intros; apply H; now right). lra.
Qed.

Lemma qsum_pos l : l <> [] -> (forall q, In q l -> 0 < q) -> 0 < qsum l.
Proof.
  destruct l as [|a l]; [congruence|]. cbn. intros _ H.
  assert (0 < a) by (apply H; now left).
  assert (0 <= qsum l) by (apply qsum_nonneg; intros; apply Qlt_le_weak, H; now right). lra.
Qed.

Lemma qsum_repeat0 n : qsum (repeat 0 n) == 0.
Proof. induction n; cbn; [reflexivity|]. rewrite IHn. reflexivity. Qed.

Global Instance qsum_Proper : Proper (Forall2 Qeq ==> Qeq) qsum.
Proof. intros l1 l2 H. induction H; cbn; [reflexivity|]. now rewrite H, IHForall2. Qed.

Lemma qsum_abs_le {A} (f g : A -> Q) l :
  (forall a, In a l -> Qabs (f a) <= g a) -> Qabs (qsum (map f l)) <= qsum (map g l).
Proof.
  induction l as [|a l IH]; cbn; intros H; [discriminate|].
  eapply Qle_trans; [apply Qabs_triangle|].
  apply Qplus_le_compat; [apply H; now left|apply IH; intros; apply H; now right].
Qed.

(** ** Booleans and rationals *)

Lemma Qlt_bool_iff a b : Qlt_bool a b = true <-> a < b.
Proof.
  unfold Qlt_bool. rewrite negb_true_iff. split; intros H.
  - apply Qnot_le_lt. intro C. apply Qle_bool_iff in C. congruence.
  - apply not_true_iff_false. intro C. apply Qle_bool_iff in C. lra.
Qed.

Lemma Qlt_bool_false_iff a b : Qlt_bool a b = false <-> b <= a.
Proof.
  unfold Qlt_bool. rewrite negb_false_iff. apply Qle_bool_iff.
Qed.

Lemma Qle_bool_false_iff a b : Qle_bool a b = false <-> b < a.
Proof.
  rewrite <- (Qlt_bool_iff b a). unfold Qlt_bool. now rewrite negb_true_iff.
Qed.

Lemma Qfloor_spec q z : Qfloor q = z <-> inject_Z z <= q < inject_Z (z + 1).
Proof.
  split.
  - intros <-. split; [apply Qfloor_le|apply Qlt_floor].
  - intros [H1 H2].
    assert (A : (z <= Qfloor q)%Z).
    { rewrite <- (Qfloor_Z z). now apply Qfloor_resp_le. }
    assert (B : (Qfloor q < z + 1)%Z).
    { assert (inject_Z (Qfloor q) < inject_Z (z + 1)) by (eapply Qle_lt_trans; [apply Qfloor_le|exact H2]).
      now rewrite <- Zlt_Qlt in H. }
    lia.
Qed.

Lemma Qtrunc_nonneg q : 0 <= q -> Qtrunc q = Qfloor q.
Proof. intros H. unfold Qtrunc. apply Qle_bool_iff in H. now rewrite H. Qed.

Lemma Qtrunc_neg q : q < 0 -> Qtrunc q = Qceiling q.
Proof. intros H. unfold Qtrunc. apply Qle_bool_false_iff in H. now rewrite H. Qed.

Lemma Qtrunc_frac_bound q : -1 < q - inject_Z (Qtrunc q) < 1.
Proof.
  destruct (Qlt_le_dec q 0) as [H|H].
  - rewrite Qtrunc_neg by assumption.
    pose proof (Qle_ceiling q). pose proof (Qceiling_lt q) as L.
    rewrite inject_Z_plus in L || (unfold Z.sub in L; rewrite inject_Z_plus in L).
    change (inject_Z (-(1))) with (-1) in L. lra.
  - rewrite Qtrunc_nonneg by assumption.
    pose proof (Qfloor_le q). pose proof (Qlt_floor q) as L.
    rewrite inject_Z_plus in L. change (inject_Z 1) with 1 in L. lra.
Qed.

(** ** select *)

Lemma select_length_le {A} m (l : list A) : (length (select m l) <= length l)%nat.
Proof. revert l. induction m as [|[] m IH]; intros [|a l]; cbn; try lia; specialize (IH l); lia. Qed.

Lemma in_select {A} m (l : list A) a : In a (select m l) -> In a l.
Proof. revert l. induction m as [|[] m IH]; intros [|b l]; cbn; intuition eauto. Qed.

Lemma qsum_select_split m l : length m = length l ->
  qsum (select m l) + qsum (select (map negb m) l) == qsum l.
Proof.
  revert l. induction m as [|b m IH]; intros [|q l] E; cbn in *; try discriminate; [ring|].
  assert (E' : length m = length l) by congruence. specialize (IH l E').
  destruct b; cbn; rewrite <- IH; ring.
Qed.

Lemma nth_error_lt {A} (l : list A) i a : nth_error l i = Some a -> (i < length l)%nat.
Proof. intros H. apply nth_error_Some. congruence. Qed.

Lemma Qfloor_plus_Z z k : Qfloor (z + inject_Z k) = (Qfloor z + k)%Z.
Proof.
  apply Qfloor_spec. pose proof (Qfloor_le z). pose proof (Qlt_floor z) as H1.
  rewrite !inject_Z_plus in *. change (inject_Z 1) with 1 in *. lra.
Qed.

Lemma Qtrunc_comp a b : a == b -> Qtrunc a = Qtrunc b.
Proof.
  intros H. unfold Qtrunc.
  replace (Qle_bool 0 a) with (Qle_bool 0 b).
  - destruct (Qle_bool 0 b); [now apply Qfloor_comp|now apply Qceiling_comp].
  - apply eq_true_iff_eq. rewrite !Qle_bool_iff. now rewrite H.
Qed.

Global Instance Qlt_bool_Proper : Proper (Qeq ==> Qeq ==> eq) Qlt_bool.
Proof. intros a b H c d K. unfold Qlt_bool. now rewrite H, K. Qed.

Lemma Qtrunc_Z z : Qtrunc (inject_Z z) = z.
Proof.
  unfold Qtrunc. destruct (Qle_bool 0 (inject_Z z)); [apply Qfloor_Z|apply Qceiling_Z].
Qed.

Lemma Qlt_bool_Z a b : Qlt_bool (inject_Z a) (inject_Z b) = (a <? b)%Z.
Proof.
  destruct (Z.ltb_spec a b) as [H|H].
  - apply Qlt_bool_iff. now rewrite <- Zlt_Qlt.
  - apply Qlt_bool_false_iff. now rewrite <- Zle_Qle.
Qed.

Lemma Qle_bool_Z a b : Qle_bool (inject_Z a) (inject_Z b) = (a <=? b)%Z.
Proof.
  destruct (Z.leb_spec a b) as [H|H].
  - apply Qle_bool_iff. now rewrite <- Zle_Qle.
  - apply Qle_bool_false_iff. now rewrite <- Zlt_Qlt.
Qed.

Lemma Qfloor_div i n : (0 < n)%Z -> Qfloor (inject_Z i / inject_Z n) = (i / n)%Z.
Proof.
  intros Hn. apply Qfloor_spec.
  assert (Hq : 0 < inject_Z n) by (change 0 with (inject_Z 0); now rewrite <- Zlt_Qlt).
  pose proof (Z_div_mod_eq_full i n) as E. pose proof (Z.mod_pos_bound i n Hn) as B.
  split.
  - apply Qle_shift_div_l; [assumption|]. rewrite <- inject_Z_mult, <- Zle_Qle. nia.
  - apply Qlt_shift_div_r; [assumption|]. rewrite <- inject_Z_mult, <- Zlt_Qlt. nia.
Qed.
