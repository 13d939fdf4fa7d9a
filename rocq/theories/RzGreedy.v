(** line_from_points. *)
From Coq Require Import List ZArith QArith Lia Lqa Bool Permutation.
From Verif Require Import Prelude PreludeFacts PolSpec RzModel RzSpec RzProofs.
Import ListNotations.
Open Scope Q_scope.

Lemma skipn_next {A} i : forall (all : list A) v l, skipn i all = v :: l -> skipn (S i) all = l.
Proof. induction i as [|i IH]; intros [|a all] v l H; cbn in *; try discriminate; [congruence|]. now apply (IH all v). Qed.

Lemma argmin_from_spec l : forall best bv i (all : list Q), (best < i)%nat -> nth best all 0 = bv -> skipn i all = l ->
  (forall j, (j < i)%nat -> bv <= nth j all 0) -> (i <= length all)%nat ->
  (argmin_from best bv i l < length all)%nat /\ (forall j, (j < length all)%nat -> nth (argmin_from best bv i l) all 0 <= nth j all 0).
Proof.
  induction l as [|v l IH]; intros best bv i all Hb Hn Hs Hm Hi.
  - cbn. assert (length all <= i)%nat.
    { apply (f_equal (@length Q)) in Hs. rewrite skipn_length in Hs. cbn in Hs. lia. }
    split; [lia|]. intros j Hj. rewrite Hn. apply Hm. lia.
  - assert (Li : (i < length all)%nat).
    { apply (f_equal (@length Q)) in Hs. rewrite skipn_length in Hs. cbn in Hs. lia. }
    assert (Nv : nth i all 0 = v).
    { rewrite <- (firstn_skipn i all) at 1. rewrite Hs, app_nth2 by (rewrite firstn_length; lia). rewrite firstn_length. replace (i - Nat.min i (length all))%nat with 0%nat by lia. reflexivity. }
    assert (Hs' : skipn (S i) all = l).
    { now apply (skipn_next i all v). }
    cbn [argmin_from]. destruct (Qlt_bool v bv) eqn:E.
    + apply Qlt_bool_iff in E. apply IH; try assumption; try lia. intros j Hj. destruct (Nat.eq_dec j i) as [->|N]; [rewrite Nv; lra|].
      specialize (Hm j ltac:(lia)). lra.
    + apply Qlt_bool_false_iff in E. apply IH; try assumption; try lia. intros j Hj. destruct (Nat.eq_dec j i) as [->|N]; [rewrite Nv; lra|].
      apply Hm. lia.
Qed.
Lemma argmin_spec l : l <> [] -> (argmin l < length l)%nat /\ forall j, (j < length l)%nat -> nth (argmin l) l 0 <= nth j l 0.
Proof.
  destruct l as [|v l]; [contradiction|]. intros _. unfold argmin. apply argmin_from_spec; try reflexivity; cbn; try lia.
  intros j Hj. replace j with 0%nat by lia. lra.
Qed.

Lemma remove_nth_perm {A} i (l : list A) d : (i < length l)%nat -> Permutation l (nth i l d :: remove_nth i l).
Proof.
  revert i. induction l as [|a l IH]; intros i H; [cbn in H; lia|]. destruct i as [|i]; [reflexivity|].
  cbn [nth]. unfold remove_nth. cbn [firstn skipn app]. cbn in H. rewrite (IH i) at 1 by lia. apply perm_swap.
Qed.

Lemma greedy_ok fuel : forall cur rem tl, greedy fuel cur rem = Ok tl -> Permutation rem tl /\ nearest_order (cur :: tl).
Proof.
  induction fuel as [|fuel IH]; intros cur rem tl; cbn [greedy]; destruct rem as [|p [|q rem]]; try discriminate;
    try (intros [= <-]; split; [reflexivity|]; cbn; split; [|exact I]; intros x [<-|[]]; lra).
  set (all := p :: q :: rem). set (i := argmin (map (d2 cur) all)). set (x := nth i all pt0).
  destruct (greedy fuel x (remove_nth i all)) as [tl'|] eqn:E; [|discriminate]. cbn [bind]. intros [= <-].
  destruct (IH _ _ _ E) as [IP IN].
  destruct (argmin_spec (map (d2 cur) all) ltac:(discriminate)) as [A1 A2]. fold i in A1, A2. rewrite map_length in A1, A2.
  assert (P : Permutation all (x :: tl')) by (rewrite (remove_nth_perm i all pt0 A1); now apply perm_skip).
  split; [exact P|]. cbn [nearest_order]. split; [|exact IN]. intros y Hy.
  apply (Permutation_in _ (Permutation_sym P)) in Hy. destruct (In_nth _ _ pt0 Hy) as (j & Hj & <-).
  specialize (A2 j Hj). rewrite !(nth_indep (map (d2 cur) all) 0 (d2 cur pt0)) in A2 by (rewrite map_length; assumption).
  rewrite !map_nth in A2. exact A2.
Qed.
Lemma greedy_runs fuel : forall cur rem, rem <> [] -> (length rem <= fuel)%nat -> exists tl, greedy fuel cur rem = Ok tl.
Proof.
  induction fuel as [|fuel IH]; intros cur rem Hr Hf; destruct rem as [|p [|q rem]]; try contradiction; cbn [length] in *; try lia; cbn [greedy]; try (eexists; reflexivity).
  set (all := p :: q :: rem). set (i := argmin (map (d2 cur) all)).
  destruct (argmin_spec (map (d2 cur) all) ltac:(discriminate)) as [A1 _]. fold i in A1. rewrite map_length in A1.
  assert (L : length (remove_nth i all) = S (length rem)).
  { pose proof (Permutation_length (remove_nth_perm i all pt0 A1)) as L. cbn [length] in L. unfold all in L at 1. cbn [length] in L. lia. }
  destruct (IH (nth i all pt0) (remove_nth i all)) as [tl E].
  - intro C. rewrite C in L. discriminate.
  - lia.
  - rewrite E. eexists. reflexivity.
Qed.

Lemma roll_perm {A} k (l : list A) : Permutation l (roll k l).
Proof. unfold roll. rewrite Permutation_app_comm. now rewrite firstn_skipn. Qed.

(** start of the path *)
Definition start_point (l : list pt) (s : nat) : pt := nth ((length l - s) mod length l) l pt0.
Lemma roll_hd (l : list pt) s : (s < length l)%nat -> exists t, roll s l = start_point l s :: t.
Proof.
  intros H. unfold roll, start_point. destruct s as [|s].
  - rewrite Nat.sub_0_r, Nat.mod_same, skipn_all, firstn_all by lia. destruct l as [|p l]; [cbn in H; lia|]. now exists l.
  - rewrite Nat.mod_small by lia. set (m := (length l - S s)%nat). assert (Hm : (m < length l)%nat) by (unfold m; lia).
    pose proof (firstn_skipn m l) as E.
    destruct (skipn m l) as [|p t] eqn:Es.
    + apply (f_equal (@length pt)) in Es. rewrite skipn_length in Es. cbn in Es. lia.
    + exists (t ++ firstn m l). cbn [app]. f_equal. rewrite <- E at 1. rewrite app_nth2 by (rewrite firstn_length; lia).
      rewrite firstn_length. replace (m - Nat.min m (length l))%nat with 0%nat by lia. reflexivity.
Qed.

Lemma greedy_from_ok l s g : greedy_from l s = Ok g -> (s < length l)%nat ->
  Permutation l g /\ nearest_order g /\ exists t, g = start_point l s :: t.
Proof.
  unfold greedy_from. intros H Hs. destruct (roll_hd l s Hs) as [t Et]. rewrite Et in H.
  destruct (greedy (length t) (start_point l s) t) as [tl|] eqn:E; [|discriminate]. injection H as <-.
  destruct (greedy_ok _ _ _ _ E) as [P N]. split; [|split; [exact N|now exists tl]].
  apply (Permutation_trans (roll_perm s l)). rewrite Et. now apply perm_skip.
Qed.
Lemma greedy_from_runs l s : (s < length l)%nat -> (2 <= length l)%nat -> exists g, greedy_from l s = Ok g.
Proof.
  intros Hs H2. unfold greedy_from. destruct (roll_hd l s Hs) as [t Et]. rewrite Et.
  pose proof (roll_length s l) as L. rewrite Et in L. cbn [length] in L.
  destruct (greedy_runs (length t) (start_point l s) t) as [tl E]; [intro C; rewrite C in L; cbn in L; lia|lia|]. rewrite E. eexists. reflexivity.
Qed.

(** every point of the line starts one of the paths *)
Lemma start_all (l : list pt) i : (i < length l)%nat -> exists s, (s < length l)%nat /\ start_point l s = nth i l pt0.
Proof.
  intros H. exists ((length l - i) mod length l)%nat. split; [apply Nat.mod_upper_bound; lia|].
  unfold start_point. f_equal. destruct i as [|i].
  - rewrite Nat.sub_0_r, Nat.mod_same, Nat.sub_0_r, Nat.mod_same by lia. reflexivity.
  - rewrite (Nat.mod_small (length l - S i)) by lia. rewrite Nat.mod_small by lia. lia.
Qed.

Section L.
Variable total : list pt -> Q.
Variable k : nat.

Definition greedy_line (l : list pt) (s : nat) (line : list pt) : Prop :=
  exists g, Permutation l g /\ nearest_order g /\ (exists t, g = start_point l s :: t) /\ oriented g line.

Definition lfp_body (l : list pt) := fun (best : option (list pt * Q)) start =>
        let* g := greedy_from l start in
        let* new := rz_init true k (map fst g) (map snd g) in
        let nd := total new in
        match best with
        | None => Ok (Some (new, nd))
        | Some (bl, bd) => if Qlt_bool nd bd then Ok (Some (new, nd)) else Ok best
        end.

Lemma lfp_fold l done best : foldM (lfp_body l) (seq 0 done) None = Ok best -> (done <= length l)%nat ->
  match best with
  | None => done = 0%nat
  | Some (bl, bd) => bd = total bl /\ (exists s, (s < done)%nat /\ greedy_line l s bl) /\
      forall s, (s < done)%nat -> exists line, greedy_line l s line /\ bd <= total line
  end.
Proof.
  revert best. induction done as [|done IH]; intros best; [intros [= <-] _; reflexivity|].
  rewrite seq_S, foldM_app. cbn [plus]. intros H Hd.
  destruct (foldM (lfp_body l) (seq 0 done) None) as [b|] eqn:E; [|discriminate]. cbn [bind foldM] in H.
  specialize (IH b eq_refl ltac:(lia)). unfold lfp_body at 1 in H.
  destruct (greedy_from l done) as [g|] eqn:Eg; [|discriminate]. cbn [bind] in H.
  destruct (greedy_from_ok l done g Eg ltac:(lia)) as (P & N & St).
  destruct (rz_init true k (map fst g) (map snd g)) as [new|] eqn:En; [|discriminate]. cbn [bind] in H.
  apply rz_init_ok in En. destruct En as [Or _].
  assert (GL : greedy_line l done new) by (exists g; auto).
  destruct b as [[bl bd]|].
  - destruct IH as (I1 & (s0 & Hs0 & I2) & I3). destruct (Qlt_bool (total new) bd) eqn:Eb.
    + apply Qlt_bool_iff in Eb. injection H as <-. split; [reflexivity|]. split; [exists done; split; [lia|exact GL]|].
      intros s Hs. destruct (Nat.eq_dec s done) as [->|Ne]; [exists new; split; [exact GL|lra]|].
      destruct (I3 s ltac:(lia)) as (line & L1 & L2). exists line. split; [exact L1|lra].
    + apply Qlt_bool_false_iff in Eb. injection H as <-. split; [exact I1|]. split; [exists s0; split; [lia|exact I2]|].
      intros s Hs. destruct (Nat.eq_dec s done) as [->|Ne]; [exists new; split; [exact GL|lra]|]. apply I3. lia.
  - injection H as <-. split; [reflexivity|]. split; [exists done; split; [lia|exact GL]|].
    intros s Hs. assert (s = done) by lia. subst s. exists new. split; [exact GL|lra].
Qed.

Lemma lfp_result r z l : line_from_points total k false r z = Ok (Some l) ->
  let pts := combine r z in
  length z = length r /\ Permutation pts l /\ 0 < area2 l /\
  (exists i, (i < length pts)%nat /\ exists g t, g = nth i pts pt0 :: t /\ Permutation pts g /\ nearest_order g /\ oriented g l) /\
  (forall i, (i < length pts)%nat -> exists g t line, g = nth i pts pt0 :: t /\ Permutation pts g /\ nearest_order g /\
     oriented g line /\ total l <= total line).
Proof.
  unfold line_from_points. destruct (Nat.eqb_spec (length z) (length r)) as [E|]; [|discriminate]. cbn [negb].
  fold (lfp_body (combine r z)). set (pts := combine r z).
  destruct (foldM (lfp_body pts) (seq 0 (length pts)) None) as [best|] eqn:Ef; [|discriminate]. cbn [bind].
  apply (lfp_fold pts) in Ef; [|apply Nat.le_refl]. destruct best as [[bl bd]|]; [|discriminate]. intros [= <-].
  destruct Ef as (B1 & (s & Hs & g & P & N & (t & Et) & Or) & B3). cbv zeta.
  split; [exact E|]. split; [|split; [|split]].
  - destruct Or as [[-> | ->] _]; [exact P|]. rewrite P. apply Permutation_rev.
  - apply Or.
  - exists ((length pts - s) mod length pts)%nat. split; [apply Nat.mod_upper_bound; lia|]. exists g, t. auto.
  - intros i Hi. destruct (start_all pts i Hi) as (s' & Hs' & Es). destruct (B3 s' Hs') as (line & (g' & P' & N' & (t' & Et') & Or') & Ht).
    exists g', t', line. split; [rewrite Et', Es; reflexivity|]. repeat (split; [assumption|]). rewrite <- B1. exact Ht.
Qed.

(** when it fails *)
Lemma lfp_errors r z e : line_from_points total k false r z = Err e ->
  (e = AssertionError /\ (length z <> length r \/
     exists g, Permutation (combine r z) g /\ nearest_order g /\ area2 g == 0)) \/
  (e = IndexError /\ length (combine r z) = 1%nat) \/
  (e = TypeError /\ (length (combine r z) < k)%nat).
Proof.
  unfold line_from_points. destruct (Nat.eqb_spec (length z) (length r)) as [E|N]; [|intros [= <-]; left; split; [reflexivity|now left]]. cbn [negb].
  fold (lfp_body (combine r z)). set (pts := combine r z).
  destruct (foldM (lfp_body pts) (seq 0 (length pts)) None) as [best|e'] eqn:Ef; [discriminate|]. cbn [bind]. intros [= <-].
  assert (K : forall m best e, (m <= length pts)%nat -> foldM (lfp_body pts) (seq (length pts - m) m) best = Err e ->
    (e = AssertionError /\ exists g, Permutation pts g /\ nearest_order g /\ area2 g == 0) \/
    (e = IndexError /\ length pts = 1%nat) \/ (e = TypeError /\ (length pts < k)%nat)).
  { clear e' Ef. induction m as [|m IH]; intros best e Hm; [discriminate|]. cbn [seq foldM].
    replace (S (length pts - S m)) with (length pts - m)%nat by lia.
    set (s := (length pts - S m)%nat). assert (Hs : (s < length pts)%nat) by (unfold s; lia).
    unfold lfp_body at 1. destruct (greedy_from pts s) as [g|eg] eqn:Eg.
    2:{ cbn [bind]. intros [= <-]. destruct (Nat.le_gt_cases 2 (length pts)) as [H2|H2].
        - destruct (greedy_from_runs pts s Hs H2) as [g' Eg']. congruence.
        - right. left. assert (L1 : length pts = 1%nat) by lia. split; [|exact L1]. assert (s = 0%nat) by lia.
          destruct pts as [|p [|q pts']]; cbn [length] in *; try lia. rewrite H in Eg. cbn in Eg. congruence. }
    cbn [bind]. destruct (greedy_from_ok _ _ _ Eg Hs) as (P & N & _).
    destruct (rz_init_pts k g) as [R0 R1]. destruct (Qeq_dec (area2 g) 0) as [Ea|Na].
    - rewrite (R0 Ea). cbn [bind]. intros [= <-]. left. split; [reflexivity|]. exists g. auto.
    - destruct (R1 Na) as (l' & _ & Er). rewrite Er. pose proof (Permutation_length P) as LG.
      destruct (Nat.ltb_spec k (length g + 1)).
      + cbn [bind]. destruct best as [[bl bd]|]; [destruct (Qlt_bool _ _)|]; cbn [bind]; apply IH; lia.
      + cbn [bind]. intros [= <-]. right. right. split; [reflexivity|unfold pts in *; lia]. }
  specialize (K (length pts) None e' (le_n _)). rewrite Nat.sub_diag in K. destruct (K Ef) as [[K1 K2]|[K1|K1]]; auto.
Qed.
End L.
