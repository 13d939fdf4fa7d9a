(** CSR export: [to_csr] stores exactly the assembled rows. *)
From Coq Require Import List ZArith QArith Lia Bool.
From Verif Require Import Prelude PreludeFacts WeightsModel WeightsSpec.
Import ListNotations.
Open Scope Z_scope.

Definition lens (b : builder) : list Z := map (fun r => Z.of_nat (length r)) b.
Definition ptr (b : builder) : list Z := 0 :: cumsum_from 0 (lens b).

Lemma cumsum_from_app s l1 l2 :
  cumsum_from s (l1 ++ l2) = cumsum_from s l1 ++ cumsum_from (s + fold_right Z.add 0 l1) l2.
Proof.
  revert s. induction l1 as [|a l IH]; intros s; cbn.
  - now rewrite Z.add_0_r.
  - rewrite IH. do 2 f_equal. f_equal. lia.
Qed.

Lemma cumsum_from_length s l : length (cumsum_from s l) = length l.
Proof. revert s. induction l; cbn; auto. Qed.

Definition total (b : builder) : nat := length (concat b).

Lemma lens_sum b : fold_right Z.add 0 (lens b) = Z.of_nat (total b).
Proof.
  unfold total. induction b as [|r b IH]; cbn; [reflexivity|].
  rewrite app_length. unfold lens in IH. rewrite IH. lia.
Qed.

Lemma nth_ptr pre post : nth (length pre) (ptr (pre ++ post)) 0 = Z.of_nat (total pre).
Proof.
  unfold ptr, lens. rewrite map_app, cumsum_from_app. fold (lens pre) (lens post). rewrite lens_sum. cbn [Z.add].
  destruct pre as [|r pre] using rev_ind; [reflexivity|]. clear IHpre.
  rewrite app_length. cbn [length]. rewrite Nat.add_1_r. cbn [nth].
  unfold lens at 1. rewrite map_app, cumsum_from_app. fold (lens pre). rewrite lens_sum. cbn [map cumsum_from].
  rewrite app_nth1 by (rewrite app_length, cumsum_from_length; unfold lens; rewrite map_length; cbn; lia).
  rewrite app_nth2 by (rewrite cumsum_from_length; unfold lens; rewrite map_length; lia).
  rewrite cumsum_from_length. unfold lens. rewrite map_length, Nat.sub_diag. cbn.
  unfold total. rewrite concat_app, app_length. cbn. rewrite app_nil_r. lia.
Qed.

Lemma ptr_length b : length (ptr b) = S (length b).
Proof. unfold ptr. cbn. rewrite cumsum_from_length. unfold lens. now rewrite map_length. Qed.

Lemma last_nth {A} (l : list A) d : last l d = nth (length l - 1) l d.
Proof.
  induction l as [|a l IH]; [reflexivity|]. destruct l as [|b l]; [reflexivity|].
  change (last (a :: b :: l) d) with (last (b :: l) d). rewrite IH. cbn [length].
  replace (S (S (length l)) - 1)%nat with (S (S (length l) - 1)) by lia. reflexivity.
Qed.

Lemma last_ptr b : last (ptr b) 0 = Z.of_nat (total b).
Proof.
  rewrite last_nth, ptr_length. replace (S (length b) - 1)%nat with (length b) by lia.
  rewrite <- (app_nil_r b) at 2. apply nth_ptr.
Qed.

Lemma nth_ptr_firstn b i : (i <= length b)%nat -> nth i (ptr b) 0 = Z.of_nat (total (firstn i b)).
Proof.
  intros H. rewrite <- (firstn_skipn i b) at 1.
  replace i with (length (firstn i b)) at 1 by (apply firstn_length_le; assumption).
  apply nth_ptr.
Qed.

Lemma ptr_monotone b i : (i < length b)%nat -> nth i (ptr b) 0 <= nth (S i) (ptr b) 0.
Proof.
  intros H. rewrite !nth_ptr_firstn by lia.
  assert (E : exists t, firstn (S i) b = firstn i b ++ t).
  { clear. revert i. induction b as [|r b IH]; intros i.
    - exists []. now rewrite !firstn_nil.
    - destruct i as [|i]; [exists [r]; reflexivity|]. destruct (IH i) as [t Ht]. exists t. cbn in *. now rewrite Ht. }
  destruct E as [t ->]. unfold total. rewrite concat_app, app_length. lia.
Qed.

(** Writing *)

Lemma set_nth_app2 {A} (pre l : list A) n v k : k = (length pre + n)%nat ->
  set_nth k v (pre ++ l) = pre ++ set_nth n v l.
Proof. intros ->. induction pre as [|a pre IH]; cbn; [reflexivity|]. now rewrite IH. Qed.

Definition write_entries (start : Z) (entries : list entry) (st : list Z * list Q) :=
  fold_left (fun '(columns, weights) '(i, (col, weight)) =>
               let k := Z.to_nat (start + Z.of_nat i) in
               (set_nth k col columns, set_nth k weight weights))
            (enumerate entries) st.

Lemma write_entries_gen start j (entries : list entry) (jc : Z) (jw : Q) (preC : list Z) (preW : list Q) n :
  0 <= start ->
  length preC = (Z.to_nat start + j)%nat -> length preW = (Z.to_nat start + j)%nat ->
  (length entries <= n)%nat ->
  fold_left (fun '(columns, weights) '(i, (col, weight)) =>
               let k := Z.to_nat (start + Z.of_nat i) in
               (set_nth k col columns, set_nth k weight weights))
            (combine (seq j (length entries)) entries) (preC ++ repeat jc n, preW ++ repeat jw n) =
  (preC ++ map fst entries ++ repeat jc (n - length entries),
   preW ++ map snd entries ++ repeat jw (n - length entries)).
Proof.
  intros Hs. revert j preC preW n.
  induction entries as [|[c w] es IH]; intros j preC preW n HC HW Hn.
  - cbn. now rewrite Nat.sub_0_r.
  - cbn [length] in Hn. destruct n as [|n]; [lia|].
    cbn [length seq combine fold_left repeat map fst snd].
    rewrite (set_nth_app2 preC _ 0) by lia. rewrite (set_nth_app2 preW _ 0) by lia. cbn [set_nth].
    change (preC ++ c :: repeat jc n) with (preC ++ [c] ++ repeat jc n).
    change (preW ++ w :: repeat jw n) with (preW ++ [w] ++ repeat jw n).
    rewrite !app_assoc, IH by (rewrite ?app_length; cbn; lia).
    cbn [Nat.sub]. rewrite <- !app_assoc. reflexivity.
Qed.

Lemma to_csr_concat jw jc b :
  to_csr jw jc b = {| csr_weights := map snd (concat b); csr_columns := map fst (concat b); csr_rows := ptr b |}.
Proof.
  unfold to_csr. fold (lens b). fold (ptr b). rewrite last_ptr, Nat2Z.id.
  assert (G : forall post pre, b = pre ++ post ->
     fold_left (fun st '(row, entries) => write_entries (nth row (ptr b) 0) entries st)
               (combine (seq (length pre) (length post)) post)
               (map fst (concat pre) ++ repeat jc (total post), map snd (concat pre) ++ repeat jw (total post)) =
     (map fst (concat b), map snd (concat b))).
  { induction post as [|r post IH]; intros pre E.
    - cbn. rewrite !app_nil_r. rewrite app_nil_r in E. now subst.
    - cbn [length seq combine fold_left].
      rewrite E at 1. rewrite nth_ptr.
      unfold write_entries at 2. unfold enumerate.
      assert (Hc : length (map fst (concat pre)) = (Z.to_nat (Z.of_nat (total pre)) + 0)%nat)
        by (rewrite map_length, Nat2Z.id, Nat.add_0_r; reflexivity).
      assert (Hw : length (map snd (concat pre)) = (Z.to_nat (Z.of_nat (total pre)) + 0)%nat)
        by (rewrite map_length, Nat2Z.id, Nat.add_0_r; reflexivity).
      rewrite write_entries_gen; [|lia|assumption|assumption|unfold total; cbn; rewrite app_length; lia].
      replace (total (r :: post) - length r)%nat with (total post)
        by (unfold total; cbn; rewrite app_length; lia).
      specialize (IH (pre ++ [r])).
      rewrite concat_app, !map_app, app_length in IH. cbn [length concat map] in IH.
      rewrite !app_nil_r in IH. rewrite <- !app_assoc in IH. rewrite Nat.add_1_r in IH.
      apply IH. rewrite E. reflexivity. }
  specialize (G b [] eq_refl). cbn [length concat map app] in G.
  match goal with |- context [fold_left ?f ?l ?s] =>
    replace (fold_left f l s) with (map fst (concat b), map snd (concat b)) by (symmetry; exact G) end.
  reflexivity.
Qed.

Lemma firstn_skipn_concat (b : builder) i r :
  nth_error b i = Some r ->
  forall A (f : entry -> A),
  firstn (total (firstn (S i) b) - total (firstn i b)) (skipn (total (firstn i b)) (map f (concat b))) = map f r.
Proof.
  intros H A f. apply nth_error_split in H. destruct H as (l1 & l2 & -> & <-).
  assert (E1 : firstn (length l1) (l1 ++ r :: l2) = l1)
    by (rewrite firstn_app, firstn_all, Nat.sub_diag; apply app_nil_r).
  assert (E2 : firstn (S (length l1)) (l1 ++ r :: l2) = l1 ++ [r]).
  { rewrite firstn_app. rewrite firstn_all2 by lia.
    replace (S (length l1) - length l1)%nat with 1%nat by lia. reflexivity. }
  rewrite E1, E2.
  unfold total. rewrite !concat_app, !app_length. cbn. rewrite app_nil_r.
  rewrite !map_app. rewrite skipn_app, skipn_all2 by (rewrite map_length; lia).
  rewrite map_length, Nat.sub_diag. cbn [skipn app].
  rewrite firstn_app. rewrite firstn_all2 by (rewrite map_length; lia).
  rewrite map_length. replace (length (concat l1) + length r - length (concat l1) - length r)%nat with 0%nat by lia.
  cbn. apply app_nil_r.
Qed.

Lemma combine_map_fst_snd {A B} (l : list (A * B)) : combine (map fst l) (map snd l) = l.
Proof. induction l as [|[a b] l IH]; cbn; congruence. Qed.

Lemma csr_decode jw jc b i r : nth_error b i = Some r ->
  csr_row (csr_weights (to_csr jw jc b)) (csr_columns (to_csr jw jc b)) (csr_rows (to_csr jw jc b)) i = r.
Proof.
  intros H. rewrite to_csr_concat. cbn [csr_weights csr_columns csr_rows]. unfold csr_row.
  pose proof (nth_error_lt _ _ _ H). rewrite !nth_ptr_firstn by lia. rewrite !Nat2Z.id.
  rewrite !(firstn_skipn_concat b i r H). apply combine_map_fst_snd.
Qed.
