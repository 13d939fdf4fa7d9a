(** Proofs about diff.py. *)
From Coq Require Import List ZArith QArith Qabs Lia Lqa Bool Permutation.
From Verif Require Import Prelude PreludeFacts SmoothModel SmoothProofs DiffModel DiffSpec.
Import ListNotations.
Open Scope Z_scope.


Lemma getz_at l i : 0 <= i < len l -> getz l i = Ok (at_ l i).
Proof. intros H. unfold getz. replace ((- len l <=? i) && (i <? len l))%bool with true by (symmetry; apply andb_true_iff; rewrite Z.leb_le, Z.ltb_lt; lia). rewrite Z.mod_small by lia. reflexivity. Qed.
Lemma getz_neg l i : - len l <= i < 0 -> getz l i = Ok (at_ l (i + len l)).
Proof.
  intros H. unfold getz. replace ((- len l <=? i) && (i <? len l))%bool with true by (symmetry; apply andb_true_iff; rewrite Z.leb_le, Z.ltb_lt; lia).
  replace (i mod len l) with (i + len l); [reflexivity|]. rewrite <- (Z_mod_plus_full i 1 (len l)), Z.mod_small by lia. ring.
Qed.
Lemma getz_out l i : i < - len l \/ len l <= i -> getz l i = Err IndexError.
Proof. intros H. unfold getz. replace ((- len l <=? i) && (i <? len l))%bool with false by (symmetry; apply andb_false_iff; rewrite Z.leb_gt, Z.ltb_ge; lia). reflexivity. Qed.
Lemma set_nth_len (l : list Q) k v : len (set_nth k v l) = len l.
Proof. unfold len. rewrite set_nth_length. reflexivity. Qed.
Lemma setz_at l i v : - len l <= i < len l -> exists l', setz l i v = Ok l' /\ len l' = len l /\
  forall j, 0 <= j < len l -> at_ l' j = if j =? (if i <? 0 then i + len l else i) then v else at_ l j.
Proof.
  intros H. unfold setz. replace ((- len l <=? i) && (i <? len l))%bool with true by (symmetry; apply andb_true_iff; rewrite Z.leb_le, Z.ltb_lt; lia).
  eexists. split; [reflexivity|]. split; [apply set_nth_len|]. intros j Hj. unfold at_.
  assert (E : i mod len l = if i <? 0 then i + len l else i).
  { destruct (Z.ltb_spec i 0); [rewrite <- (Z_mod_plus_full i 1 (len l))|]; rewrite Z.mod_small by lia; lia. }
  rewrite E. set (k := if i <? 0 then i + len l else i) in *. assert (Hk : 0 <= k < len l) by (unfold k; destruct (Z.ltb_spec i 0); lia). clearbody k. clear E.
  destruct (Z.eqb_spec j k) as [->|N].
  - apply nth_set_nth_eq. unfold len in Hk. lia.
  - apply nth_set_nth_neq. lia.
Qed.
Lemma slice_len l a b : 0 <= lo_of (len l) a -> lo_of (len l) a <= len l -> hi_of (len l) b <= len l -> len (slice_of l a b) = Z.max 0 (hi_of (len l) b - lo_of (len l) a).
Proof. intros H0 H1 H2. unfold slice_of. cbv zeta. unfold len in *. rewrite firstn_length, skipn_length. lia. Qed.
Lemma firstn_nth {A} (l : list A) n i d : (i < n)%nat -> nth i (firstn n l) d = nth i l d.
Proof. revert n i. induction l as [|a l IH]; intros [|n] [|i] H; cbn; try reflexivity; try lia. apply IH. lia. Qed.
Lemma skipn_nth {A} (l : list A) n i d : nth i (skipn n l) d = nth (n + i) l d.
Proof. revert n. induction l as [|a l IH]; intros [|n]; cbn; try reflexivity; [destruct i; reflexivity|apply IH]. Qed.
Lemma slice_at l a b j : 0 <= lo_of (len l) a -> 0 <= j < hi_of (len l) b - lo_of (len l) a -> at_ (slice_of l a b) j = at_ l (lo_of (len l) a + j).
Proof. intros H0 H. unfold slice_of, at_. cbv zeta. rewrite firstn_nth by lia. rewrite skipn_nth. f_equal. lia. Qed.
Lemma set_slice_at l a b v : let lo := lo_of (len l) a in let hi := Z.max lo (hi_of (len l) b) in
  0 <= lo -> hi <= len l -> len v = hi - lo -> exists l', set_slice l a b v = Ok l' /\ len l' = len l /\
  forall j, 0 <= j < len l -> at_ l' j = if (lo <=? j) && (j <? hi) then at_ v (j - lo) else at_ l j.
Proof.
  intros lo hi H0 Hh Hv. unfold set_slice. fold lo. fold hi. rewrite (proj2 (Z.eqb_eq _ _) Hv). eexists. split; [reflexivity|].
  assert (L : (length (firstn (Z.to_nat lo) l) = Z.to_nat lo)%nat) by (rewrite firstn_length; unfold len in *; lia).
  split.
  - unfold len in *. rewrite !app_length, L, skipn_length. lia.
  - intros j Hj. unfold at_. destruct (Z.leb_spec lo j) as [A|A].
    + rewrite app_nth2 by lia. rewrite L. destruct (Z.ltb_spec j hi) as [B|B]; cbn [andb].
      * rewrite app_nth1 by (unfold len in *; lia). f_equal. lia.
      * rewrite app_nth2 by (unfold len in *; lia). rewrite skipn_nth. f_equal. unfold len in *. lia.
    + cbn [andb]. rewrite app_nth1 by lia. apply firstn_nth. lia.
Qed.
Lemma zip_with_at op a b : len a = len b -> exists c, zip_with op a b = Ok c /\ len c = len a /\ forall j, 0 <= j < len a -> at_ c j = op (at_ a j) (at_ b j).
Proof.
  intros H. unfold zip_with. rewrite (proj2 (Z.eqb_eq _ _) H). eexists. split; [reflexivity|]. split.
  - unfold len in *. rewrite map_length, combine_length. lia.
  - intros j Hj. unfold at_, len in *. set (g := fun p : Q * Q => op (fst p) (snd p)).
    rewrite (nth_indep _ 0%Q (g (0%Q, 0%Q))) by (rewrite map_length, combine_length; lia). rewrite map_nth, combine_nth by lia. reflexivity.
Qed.
Lemma empty_len junk f : len (empty_like junk f) = len f.
Proof. unfold empty_like, len. rewrite repeat_length. reflexivity. Qed.

Ltac zb := repeat match goal with
  | |- context [(?a <=? ?b)%Z] => destruct (Z.leb_spec a b); try lia
  | |- context [(?a <? ?b)%Z] => destruct (Z.ltb_spec a b); try lia
  | |- context [(?a =? ?b)%Z] => destruct (Z.eqb_spec a b); try lia
  end; cbn [andb].

Lemma c2_spec junk f : 3 <= len f -> exists out, c2 junk f = Ok out /\ len out = len f /\
  forall i, 0 <= i < len f -> (at_ out i == (if i =? 0 then at_ f 2 - at_ f 0 else if i =? len f - 1 then at_ f (len f - 1) - at_ f (len f - 3) else at_ f (i + 1) - at_ f (i - 1)) / 2)%Q.
Proof.
  intros Hn. unfold c2. set (n := len f) in *.
  assert (C1 : clip n 1 = 1) by (unfold clip; zb). assert (C2 : clip n 2 = 2) by (unfold clip; zb).
  assert (Cm1 : clip n (-1) = n - 1) by (unfold clip; zb). assert (Cm2 : clip n (-2) = n - 2) by (unfold clip; zb).
  assert (Le : len (empty_like junk f) = n) by apply empty_len.
  assert (Ls : len (slice_of f (Some 2) None) = n - 2). { rewrite slice_len; fold n; cbn [lo_of hi_of]; rewrite ?C2; lia. }
  assert (Ls' : len (slice_of f None (Some (-2))) = n - 2). { rewrite slice_len; fold n; cbn [lo_of hi_of]; rewrite ?Cm2; lia. }
  destruct (set_slice_at (empty_like junk f) (Some 1) (Some (-1)) (slice_of f (Some 2) None)) as (o1 & E1 & L1 & N1);
    [rewrite Le; cbn [lo_of hi_of]; rewrite ?C1, ?Cm1; lia ..|]. rewrite E1. cbn [bind]. rewrite Le in *. cbn [lo_of hi_of] in N1. rewrite C1, Cm1 in N1.
  assert (Lo : len (slice_of o1 (Some 1) (Some (-1))) = n - 2). { rewrite slice_len; rewrite L1; cbn [lo_of hi_of]; rewrite ?C1, ?Cm1; lia. }
  destruct (zip_with_at Qminus (slice_of o1 (Some 1) (Some (-1))) (slice_of f None (Some (-2)))) as (d & Ed & Ld & Nd); [lia|]. rewrite Ed. cbn [bind].
  destruct (set_slice_at o1 (Some 1) (Some (-1)) d) as (o2 & E2 & L2 & N2);
    [rewrite L1; cbn [lo_of hi_of]; rewrite ?C1, ?Cm1; lia ..|]. rewrite E2. cbn [bind]. rewrite L1 in *. cbn [lo_of hi_of] in N2. rewrite C1, Cm1 in N2.
  rewrite (getz_at f 2) by (fold n; lia). cbn [bind].
  destruct (setz_at o2 0 (at_ f 2)) as (o3 & E3 & L3 & N3); [lia|]. rewrite E3. cbn [bind]. rewrite (getz_at o3 0), (getz_at f 0) by (fold n; lia). cbn [bind].
  destruct (setz_at o3 0 (at_ o3 0 - at_ f 0)%Q) as (o4 & E4 & L4 & N4); [lia|]. rewrite E4. cbn [bind].
  rewrite (getz_neg f (-1)) by (fold n; lia). cbn [bind]. destruct (setz_at o4 (-1) (at_ f (-1 + len f))) as (o5 & E5 & L5 & N5); [lia|]. rewrite E5. cbn [bind].
  rewrite (getz_neg o5 (-1)), (getz_neg f (-3)) by (fold n; lia). cbn [bind].
  destruct (setz_at o5 (-1) (at_ o5 (-1 + len o5) - at_ f (-3 + len f))%Q) as (o6 & E6 & L6 & N6); [lia|]. rewrite E6. cbn [bind].
  exists (map (fun v => (v / 2)%Q) o6). split; [reflexivity|]. split; [unfold len in *; rewrite map_length; lia|].
  intros i Hi. assert (Lf : len o6 = n) by lia.
  assert (Em : at_ (map (fun v => (v / 2)%Q) o6) i = (at_ o6 i / 2)%Q).
  { unfold at_. set (g := fun v => (v / 2)%Q). rewrite (nth_indep _ 0%Q (g 0%Q)) by (rewrite map_length; unfold len in Lf; lia). rewrite map_nth. reflexivity. }
  rewrite Em. apply Qdiv_comp; [|reflexivity]. fold n in N5, N6 |- *. cbn [Z.ltb Z.compare] in N3, N4, N5, N6.
  rewrite N6 by lia. replace (-1 + len o5) with (n - 1) in * by lia. replace (-1 + n) with (n - 1) in * by lia. replace (-3 + n) with (n - 3) in * by lia.
  rewrite L5 in *. rewrite L4 in *. rewrite L3 in *. rewrite L2 in *.
  destruct (Z.eqb_spec i (-1 + n)) as [->|Ni].
  - rewrite N5 by lia. zb. replace (-1 + n) with (n - 1) by lia. reflexivity.
  - rewrite (N5 i) by lia. zb.
    + rewrite N4 by lia. zb. rewrite N3 by lia. zb. subst i. reflexivity.
    + rewrite N4 by lia. zb. rewrite N3 by lia. zb. rewrite N2 by lia. zb. rewrite Nd by lia.
      rewrite slice_at by (rewrite L1; cbn [lo_of hi_of]; rewrite ?C1, ?Cm1; lia). rewrite slice_at by (fold n; cbn [lo_of hi_of]; rewrite ?Cm2; lia).
      rewrite L1. fold n. cbn [lo_of]. rewrite C1. rewrite N1 by lia. zb.
      rewrite slice_at by (fold n; cbn [lo_of hi_of]; rewrite ?C2; lia). fold n. cbn [lo_of]. rewrite C2.
      replace (2 + (1 + (i - 1) - 1)) with (i + 1) by lia. replace (0 + (i - 1)) with (i - 1) by lia. reflexivity.
Qed.

Lemma c2_short junk f : len f < 3 -> c2 junk f = Err IndexError.
Proof. destruct f as [|a [|b [|c f]]]; intros H; [reflexivity..|]. unfold len in H. cbn [length] in H. lia. Qed.
Lemma c4_short junk f : len f < 5 -> c4 junk f = Err IndexError.
Proof. destruct f as [|a [|b [|c [|d [|e f]]]]]; intros H; [reflexivity..|]. unfold len in H. cbn [length] in H. lia. Qed.

Definition wsum (f : list Q) (base : Z) (terms : list (Q * Z)) : Q := fold_left (fun acc ct => (acc + fst ct * at_ f (base + snd ct))%Q) terms 0%Q.
Lemma stencil_pos f base terms : (forall c t, In (c, t) terms -> 0 <= base + t < len f) -> stencil f base terms = Ok (wsum f base terms).
Proof.
  unfold stencil, wsum. generalize 0%Q. induction terms as [|[c t] l IH]; intros acc H; [reflexivity|]. cbn [foldM fst snd fold_left]. unfold fi_at at 1.
  rewrite getz_at by (apply (H c t); left; reflexivity). cbn [bind]. apply IH. intros c' t' H'. apply (H c' t'). right. exact H'.
Qed.
Lemma stencil_neg f base terms : (forall c t, In (c, t) terms -> - len f <= base + t < 0) -> stencil f base terms = Ok (wsum f (base + len f) terms).
Proof.
  unfold stencil, wsum. generalize 0%Q. induction terms as [|[c t] l IH]; intros acc H; [reflexivity|]. cbn [foldM fst snd fold_left]. unfold fi_at at 1.
  rewrite getz_neg by (apply (H c t); left; reflexivity). cbn [bind]. replace (base + t + len f) with (base + len f + t) by lia. apply IH. intros c' t' H'. apply (H c' t'). right. exact H'.
Qed.

Lemma c4_spec junk f : 5 <= len f -> exists out, c4 junk f = Ok out /\ len out = len f /\
  forall i, 0 <= i < len f -> at_ out i =
    (if i =? 0 then wsum f 0 c4_first else if i =? 1 then wsum f 1 c4_second
     else if i =? len f - 2 then wsum f (len f - 2) c4_before_last else if i =? len f - 1 then wsum f (len f - 1) c4_last
     else (- at_ f (i + 2) + 8 * at_ f (i + 1) - 8 * at_ f (i - 1) + at_ f (i - 2)) / 12)%Q.
Proof.
  intros Hn. unfold c4. set (n := len f) in *.
  assert (F2 : fi_slice f 2 = slice_of f (Some 4) None) by reflexivity. assert (F1 : fi_slice f 1 = slice_of f (Some 3) (Some (-1))) by reflexivity.
  assert (Fm1 : fi_slice f (-1) = slice_of f (Some 1) (Some (-3))) by reflexivity. assert (Fm2 : fi_slice f (-2) = slice_of f (Some 0) (Some (-4))) by reflexivity.
  assert (Ca : forall k, 0 <= k < 5 -> clip n k = k) by (intros k Hk; unfold clip; zb). assert (Cb : forall k, 0 < k < 5 -> clip n (- k) = n - k) by (intros k Hk; unfold clip; zb).
  assert (C4 := Ca 4 ltac:(lia)). assert (C3 := Ca 3 ltac:(lia)). assert (C1 := Ca 1 ltac:(lia)). assert (C0 := Ca 0 ltac:(lia)). assert (C2 := Ca 2 ltac:(lia)).
  assert (D1 := Cb 1 ltac:(lia)). assert (D2 := Cb 2 ltac:(lia)). assert (D3 := Cb 3 ltac:(lia)). assert (D4 := Cb 4 ltac:(lia)). cbn [Z.opp] in D1, D2, D3, D4.
  assert (L2 : len (fi_slice f 2) = n - 4) by (rewrite F2, slice_len; fold n; cbn [lo_of hi_of]; rewrite ?C4; lia).
  assert (L1 : len (fi_slice f 1) = n - 4) by (rewrite F1, slice_len; fold n; cbn [lo_of hi_of]; rewrite ?C3, ?D1; lia).
  assert (Lm1 : len (fi_slice f (-1)) = n - 4) by (rewrite Fm1, slice_len; fold n; cbn [lo_of hi_of]; rewrite ?C1, ?D3; lia).
  assert (Lm2 : len (fi_slice f (-2)) = n - 4) by (rewrite Fm2, slice_len; fold n; cbn [lo_of hi_of]; rewrite ?C0, ?D4; lia).
  unfold combine4. rewrite L2, L1, Lm1, Lm2, Z.eqb_refl. cbn [andb bind].
  set (mid := map _ (seq 0 (length (fi_slice f 2)))).
  assert (Lmid : len mid = n - 4) by (unfold mid, len in *; rewrite map_length, seq_length; exact L2).
  assert (Nmid : forall j, 0 <= j < n - 4 -> at_ mid j = ((- at_ f (j + 4) + 8 * at_ f (j + 3) - 8 * at_ f (j + 1) + at_ f j) / 12)%Q).
  { intros j Hj. unfold at_ at 1, mid. set (g := fun k : nat => _). rewrite (nth_indep _ 0%Q (g 0%nat)) by (unfold len in L2; rewrite map_length, seq_length; lia).
    rewrite map_nth, seq_nth by (unfold len in L2; lia). unfold g. cbn [Nat.add].
    assert (S2 : at_ (fi_slice f 2) j = at_ f (4 + j)). { rewrite F2, slice_at; fold n; cbn [lo_of hi_of]; rewrite C4; [reflexivity|lia|lia]. }
    assert (S1 : at_ (fi_slice f 1) j = at_ f (3 + j)). { rewrite F1, slice_at; fold n; cbn [lo_of hi_of]; rewrite C3, ?D1; [reflexivity|lia|lia]. }
    assert (Sm1 : at_ (fi_slice f (-1)) j = at_ f (1 + j)). { rewrite Fm1, slice_at; fold n; cbn [lo_of hi_of]; rewrite C1, ?D3; [reflexivity|lia|lia]. }
    assert (Sm2 : at_ (fi_slice f (-2)) j = at_ f (0 + j)). { rewrite Fm2, slice_at; fold n; cbn [lo_of hi_of]; rewrite C0, ?D4; [reflexivity|lia|lia]. }
    unfold at_ in S2, S1, Sm1, Sm2. rewrite S2, S1, Sm1, Sm2. replace (4 + j) with (j + 4) by lia. replace (3 + j) with (j + 3) by lia. replace (1 + j) with (j + 1) by lia. reflexivity. }
  clearbody mid.
  assert (Le : len (empty_like junk f) = n) by apply empty_len.
  destruct (set_slice_at (empty_like junk f) (Some 2) (Some (-2)) mid) as (o1 & E1 & Lo1 & N1); [rewrite Le; cbn [lo_of hi_of]; rewrite ?C2, ?D2; lia ..|].
  rewrite Le in *. cbn [lo_of hi_of] in N1. rewrite C2, D2 in N1. rewrite E1. cbn [bind].
  rewrite (stencil_pos f 0 c4_first). 2:{ intros c t H. fold n. cbn in H. repeat (destruct H as [[= <- <-]|H]; [lia|]). destruct H. } cbn [bind].
  destruct (setz_at o1 0 (wsum f 0 c4_first)) as (o2 & E2 & Lo2 & N2); [lia|]. rewrite E2. cbn [bind].
  rewrite (stencil_pos f 1 c4_second). 2:{ intros c t H. fold n. cbn in H. repeat (destruct H as [[= <- <-]|H]; [lia|]). destruct H. } cbn [bind].
  destruct (setz_at o2 1 (wsum f 1 c4_second)) as (o3 & E3 & Lo3 & N3); [lia|]. rewrite E3. cbn [bind].
  rewrite (stencil_neg f (-2) c4_before_last). 2:{ intros c t H. fold n. cbn in H. repeat (destruct H as [[= <- <-]|H]; [lia|]). destruct H. } cbn [bind].
  destruct (setz_at o3 (-2) (wsum f (-2 + len f) c4_before_last)) as (o4 & E4 & Lo4 & N4); [lia|]. rewrite E4. cbn [bind].
  rewrite (stencil_neg f (-1) c4_last). 2:{ intros c t H. fold n. cbn in H. repeat (destruct H as [[= <- <-]|H]; [lia|]). destruct H. } cbn [bind].
  destruct (setz_at o4 (-1) (wsum f (-1 + len f) c4_last)) as (o5 & E5 & Lo5 & N5); [lia|]. rewrite E5.
  exists o5. split; [reflexivity|]. split; [lia|]. intros i Hi. cbn [Z.ltb Z.compare] in N2, N3, N4, N5. rewrite N5, Lo4 by lia.
  fold n. replace (-2 + n) with (n - 2) in * by lia. replace (-1 + n) with (n - 1) in * by lia. rewrite Lo3, Lo2, Lo1 in *.
  fold n in N4. replace (-2 + n) with (n - 2) in * by lia. replace (-1 + n) with (n - 1) in * by lia.
  destruct (Z.eqb_spec i (n - 1)) as [->|A1]; [zb; reflexivity|]. rewrite N4 by lia. replace (-2 + n) with (n - 2) by lia.
  destruct (Z.eqb_spec i (n - 2)) as [->|A2]; [zb; reflexivity|]. rewrite N3 by lia.
  destruct (Z.eqb_spec i 1) as [->|A3]; [zb; reflexivity|]. rewrite N2 by lia.
  destruct (Z.eqb_spec i 0) as [->|A4]; [zb; reflexivity|]. rewrite N1 by lia. zb. rewrite Nmid by lia.
  replace (i - 2 + 4) with (i + 2) by lia. replace (i - 2 + 3) with (i + 1) by lia. replace (i - 2 + 1) with (i - 1) by lia. reflexivity.
Qed.

(** ** Polynomial data *)
Open Scope Q_scope.
Ltac injs := unfold Z.sub; rewrite !inject_Z_plus; rewrite ?inject_Z_opp;
  change (inject_Z 1) with 1; change (inject_Z 2) with 2; change (inject_Z 3) with 3; change (inject_Z 4) with 4; change (inject_Z 5) with 5;
  change (inject_Z (-1)) with (-(1)); change (inject_Z (-2)) with (-(2)); change (inject_Z (-3)) with (-(3)); change (inject_Z (-4)) with (-(4)).
Lemma c2_quadratic junk f a b c : (3 <= len f)%Z -> (forall i, (0 <= i < len f)%Z -> at_ f i == quad a b c i) ->
  exists out, c2 junk f = Ok out /\ len out = len f /\
    (forall i, (0 < i < len f - 1)%Z -> at_ out i == b + 2 * c * inject_Z i) /\
    at_ out 0 == b + 2 * c * 1 /\ at_ out (len f - 1) == b + 2 * c * inject_Z (len f - 2).
Proof.
  intros Hn Hf. destruct (c2_spec junk f Hn) as (out & E & L & N). exists out. split; [exact E|]. split; [exact L|]. split; [|split].
  - intros i Hi. rewrite N by lia. destruct (Z.eqb_spec i 0); [lia|]. destruct (Z.eqb_spec i (len f - 1)); [lia|].
    rewrite !Hf by lia. unfold quad. injs. field.
  - rewrite N by lia. cbn [Z.eqb]. rewrite !Hf by lia. unfold quad. change (inject_Z 2) with 2. change (inject_Z 0) with 0. field.
  - rewrite N by lia. destruct (Z.eqb_spec (len f - 1) 0); [lia|]. rewrite Z.eqb_refl. rewrite !Hf by lia. unfold quad. injs. field.
Qed.


Lemma at_wsum f base terms : wsum f base terms == qsum (map (fun ct => fst ct * at_ f (base + snd ct)) terms).
Proof.
  unfold wsum. assert (G : forall acc, fold_left (fun acc ct => acc + fst ct * at_ f (base + snd ct)) terms acc == acc + qsum (map (fun ct => fst ct * at_ f (base + snd ct)) terms)).
  { induction terms as [|t l IH]; intros acc; cbn [fold_left map qsum]; [ring|]. rewrite IH. ring. }
  rewrite G. ring.
Qed.
Lemma c4_end f base a b c d e terms : (forall ct, In ct terms -> at_ f (base + snd ct) == quartic a b c d e (base + snd ct)) ->
  wsum f base terms == qsum (map (fun ct => fst ct * quartic a b c d e (base + snd ct)) terms).
Proof. intros H. rewrite at_wsum. apply qsum_map_ext. intros ct Hc. rewrite (H ct Hc). reflexivity. Qed.

(** the rounding of the decimal coefficients *)
Definition r3 : Q := 1 # 30000000000000000.
Lemma Qabs_bound x y : - y <= x -> x <= y -> Qabs x <= y.
Proof. intros. apply Qabs_Qle_condition. lra. Qed.
Lemma abs_le x : - Qabs x <= x <= Qabs x.
Proof. apply Qabs_Qle_condition. lra. Qed.

Lemma c4_quartic junk f a b c d e : (5 <= len f)%Z -> (forall i, (0 <= i < len f)%Z -> at_ f i == quartic a b c d e i) ->
  exists out, c4 junk f = Ok out /\ len out = len f /\
    (forall i, (2 <= i < len f - 2)%Z -> at_ out i == quartic' b c d e i) /\
    Qabs (at_ out 0 - quartic' b c d e 0) <= r3 * (Qabs (at_ f 0) + Qabs (at_ f 3)) /\
    Qabs (at_ out 1 - quartic' b c d e 1) <= r3 * (Qabs (at_ f 1) + Qabs (at_ f 4)) /\
    Qabs (at_ out (len f - 2) - quartic' b c d e (len f - 2)) <= r3 * (Qabs (at_ f (len f - 2)) + Qabs (at_ f (len f - 5))) /\
    Qabs (at_ out (len f - 1) - quartic' b c d e (len f - 1)) <= r3 * (Qabs (at_ f (len f - 1)) + Qabs (at_ f (len f - 4))).
Proof.
  intros Hn Hf. destruct (c4_spec junk f Hn) as (out & E & L & N). exists out. split; [exact E|]. split; [exact L|]. split.
  { intros i Hi. rewrite N by lia. destruct (Z.eqb_spec i 0); [lia|]. destruct (Z.eqb_spec i 1); [lia|]. destruct (Z.eqb_spec i (len f - 2)); [lia|]. destruct (Z.eqb_spec i (len f - 1)); [lia|].
    rewrite !Hf by lia. unfold quartic, quartic'. cbv zeta. injs. field. }
  assert (B : forall u v x y x' y' k, - (1 # 3) <= u <= 1 # 3 -> - (1 # 3) <= v <= 1 # 3 -> x == x' -> y == y' -> k == (1 # 10000000000000000) * (u * x' + v * y') -> Qabs k <= r3 * (Qabs x + Qabs y)).
  { intros u v x y x' y' k Hu Hv Ex Ey ->. rewrite <- Ex, <- Ey. assert (A := abs_le x). assert (A' := abs_le y). assert (P := Qabs_nonneg x). assert (P' := Qabs_nonneg y).
    set (X := Qabs x) in *. set (Y := Qabs y) in *. clearbody X Y.
    assert (G : forall u x X, - (1 # 3) <= u <= 1 # 3 -> - X <= x <= X -> - ((1 # 3) * X) <= u * x <= (1 # 3) * X) by (clear; intros; split; nra).
    assert (G1 := G u x X Hu A). assert (G2 := G v y Y Hv A'). unfold r3. apply Qabs_bound; lra. }
  split; [|split; [|split]].
  - rewrite N by lia. cbn [Z.eqb]. rewrite (c4_end f 0 a b c d e). 2:{ intros ct Hc. apply Hf. cbn in Hc. repeat (destruct Hc as [<-|Hc]; [cbn [snd]; lia|]). destruct Hc. }
    apply (B (1 # 3) (- (1 # 3)) _ _ (quartic a b c d e 0) (quartic a b c d e 3)); try lra; try (apply Hf; lia).
    unfold c4_first, quartic, quartic'. cbn [map qsum fst snd]. unfold d20833, d13333. cbv zeta. injs. change (inject_Z 0) with 0. field.
  - rewrite N by lia. cbn [Z.eqb Pos.eqb]. rewrite (c4_end f 1 a b c d e). 2:{ intros ct Hc. apply Hf. cbn in Hc. repeat (destruct Hc as [<-|Hc]; [cbn [snd]; lia|]). destruct Hc. }
    apply (B (1 # 30) (- (1 # 300)) _ _ (quartic a b c d e 1) (quartic a b c d e 4)); try lra; try (apply Hf; lia).
    unfold c4_second, quartic, quartic'. cbn [map qsum fst snd]. unfold d83333, d08333. cbv zeta. injs. change (inject_Z 0) with 0. field.
  - rewrite N by lia. destruct (Z.eqb_spec (len f - 2) 0); [lia|]. destruct (Z.eqb_spec (len f - 2) 1); [lia|]. rewrite Z.eqb_refl.
    rewrite (c4_end f _ a b c d e). 2:{ intros ct Hc. apply Hf. cbn in Hc. repeat (destruct Hc as [<-|Hc]; [cbn [snd]; lia|]). destruct Hc. }
    apply (B (- (1 # 30)) (1 # 300) _ _ (quartic a b c d e (len f - 2)) (quartic a b c d e (len f - 5))); try lra; try (apply Hf; lia).
    unfold c4_before_last, quartic, quartic'. cbn [map qsum fst snd]. unfold d83333, d08333. cbv zeta. injs. generalize (inject_Z (len f)). intros X. field.
  - rewrite N by lia. destruct (Z.eqb_spec (len f - 1) 0); [lia|]. destruct (Z.eqb_spec (len f - 1) 1); [lia|]. destruct (Z.eqb_spec (len f - 1) (len f - 2)); [lia|]. rewrite Z.eqb_refl.
    rewrite (c4_end f _ a b c d e). 2:{ intros ct Hc. apply Hf. cbn in Hc. repeat (destruct Hc as [<-|Hc]; [cbn [snd]; lia|]). destruct Hc. }
    apply (B (- (1 # 30)) (1 # 3) _ _ (quartic a b c d e (len f - 1)) (quartic a b c d e (len f - 4))); try lra; try (apply Hf; lia).
    unfold c4_last, quartic, quartic'. cbn [map qsum fst snd]. unfold d208333, d13333. cbv zeta. injs. generalize (inject_Z (len f)). intros X. field.
Qed.

(** ** Periodic data *)
Lemma rollz_at k l i : (0 <= i < len l)%Z -> at_ (rollz k l) i = at_ l ((i - k) mod len l).
Proof. intros H. unfold at_. apply rollz_nth. exact H. Qed.
Lemma rollz_split k l : exists m, rollz k l = skipn m l ++ firstn m l.
Proof.
  destruct (Z.eq_dec (len l) 0) as [E|N].
  - assert (l = []) by (destruct l; [reflexivity|unfold len in E; cbn [length] in E; lia]). subst l. exists 0%nat. reflexivity.
  - assert (P : (0 < len l)%Z) by (unfold len in *; lia). set (m := ((- k) mod len l)%Z). assert (Hm := Z.mod_pos_bound (- k) (len l) P). fold m in Hm.
    exists (Z.to_nat m). apply nth_ext with (d := 0) (d' := 0).
    + rewrite rollz_length, app_length, skipn_length, firstn_length. unfold len in *. lia.
    + intros j Hj. rewrite rollz_length in Hj. assert (R := rollz_nth k l (Z.of_nat j)). rewrite Nat2Z.id in R. rewrite R by (unfold len; lia). clear R.
      assert (Em : ((Z.of_nat j - k) mod len l = (Z.of_nat j + m) mod len l)%Z) by (unfold m; rewrite Z.add_mod_idemp_r by lia; f_equal; lia). rewrite Em.
      destruct (Nat.lt_ge_cases j (length l - Z.to_nat m)) as [A|A].
      * rewrite app_nth1 by (rewrite skipn_length; lia). rewrite skipn_nth. rewrite Z.mod_small by (unfold len; lia). f_equal. lia.
      * rewrite app_nth2 by (rewrite skipn_length; lia). rewrite skipn_length, firstn_nth by (unfold len in *; lia).
        replace (Z.of_nat j + m)%Z with (Z.of_nat j + m - len l + 1 * len l)%Z by lia. rewrite Z_mod_plus_full, Z.mod_small by (unfold len in *; lia). f_equal. unfold len in *. lia.
Qed.
Lemma qsum_rollz k l : qsum (rollz k l) == qsum l.
Proof. destruct (rollz_split k l) as [m ->]. rewrite qsum_app. rewrite <- (firstn_skipn m l) at 3. rewrite qsum_app. ring. Qed.
Lemma qsum_diff a : forall b, length a = length b -> qsum (map (fun p => (fst p - snd p) / 2) (combine a b)) == (qsum a - qsum b) / 2.
Proof.
  induction a as [|x a IH]; intros [|y b] H; cbn [length] in H; try discriminate; cbn [combine map qsum fst snd]; [reflexivity|].
  rewrite IH by lia. field.
Qed.
Lemma c2_periodic_ok f : len (c2_periodic f) = len f /\ qsum (c2_periodic f) == 0 /\
  forall i, (0 <= i < len f)%Z -> at_ (c2_periodic f) i == (at_ f ((i + 1) mod len f) - at_ f ((i - 1) mod len f)) / 2.
Proof.
  assert (L : len (c2_periodic f) = len f) by (unfold c2_periodic, len; rewrite map_length, combine_length, !rollz_length; lia).
  split; [exact L|]. split.
  - unfold c2_periodic. rewrite qsum_diff by (rewrite !rollz_length; reflexivity). rewrite !qsum_rollz. field.
  - intros i Hi. unfold c2_periodic. unfold at_ at 1. set (g := fun p : Q * Q => _). rewrite (nth_indep _ 0 (g (0, 0))) by (rewrite map_length, combine_length, !rollz_length; unfold len in Hi; lia).
    rewrite map_nth, combine_nth by (rewrite !rollz_length; reflexivity). unfold g. cbn [fst snd].
    assert (A := rollz_at (-1) f i Hi). assert (B := rollz_at 1 f i Hi). unfold at_ in A, B. rewrite A, B. replace (i - -1)%Z with (i + 1)%Z by lia. reflexivity.
Qed.
Lemma qsum_nth l : qsum (map (fun k => nth k l 0) (seq 0 (length l))) == qsum l.
Proof.
  induction l as [|a l IH]; [reflexivity|]. cbn [length seq map nth qsum]. rewrite <- seq_shift, map_map. rewrite IH. reflexivity.
Qed.
Lemma c4_periodic_ok f : len (c4_periodic f) = len f /\ qsum (c4_periodic f) == 0 /\
  forall i, (0 <= i < len f)%Z -> at_ (c4_periodic f) i ==
    (- at_ f ((i + 2) mod len f) + 8 * at_ f ((i + 1) mod len f) - 8 * at_ f ((i - 1) mod len f) + at_ f ((i - 2) mod len f)) / 12.
Proof.
  assert (L : len (c4_periodic f) = len f) by (unfold c4_periodic, len; rewrite map_length, seq_length; lia).
  split; [exact L|]. split.
  - unfold c4_periodic.
    assert (G : forall l a b c d, qsum (map (fun k : nat => (- a k + 8 * b k - 8 * c k + d k) / 12) l) == (- qsum (map a l) + 8 * qsum (map b l) - 8 * qsum (map c l) + qsum (map d l)) / 12).
    { induction l as [|x l IH]; intros a b c d; cbn [map qsum]; [field|]. rewrite IH. field. }
    rewrite (G (seq 0 (length f)) (fun k => nth k (rollz (- 2) f) 0) (fun k => nth k (rollz (- 1) f) 0) (fun k => nth k (rollz (- -1) f) 0) (fun k => nth k (rollz (- -2) f) 0)).
    assert (S : forall k, qsum (map (fun j => nth j (rollz k f) 0) (seq 0 (length f))) == qsum f).
    { intros k. rewrite <- (rollz_length k f). rewrite qsum_nth. apply qsum_rollz. }
    rewrite !S. field.
  - intros i Hi. unfold c4_periodic. unfold at_ at 1. set (g := fun k : nat => _). rewrite (nth_indep _ 0 (g 0%nat)) by (rewrite map_length, seq_length; unfold len in Hi; lia).
    rewrite map_nth, seq_nth by (unfold len in Hi; lia). unfold g. cbn [Nat.add].
    assert (A := fun k => rollz_at k f i Hi). unfold at_ in A. rewrite !A.
    replace (i - - (2))%Z with (i + 2)%Z by lia. replace (i - - (1))%Z with (i + 1)%Z by lia. replace (i - - (-1))%Z with (i - 1)%Z by lia. replace (i - - (-2))%Z with (i - 2)%Z by lia. reflexivity.
Qed.

(** ** Examples *)
Lemma c2_ends_wrong : ~ forall junk f out a b c, (3 <= len f)%Z -> (forall i, (0 <= i < len f)%Z -> at_ f i == quad a b c i) ->
  c2 junk f = Ok out -> forall i, (0 <= i < len f)%Z -> at_ out i == b + 2 * c * inject_Z i.
Proof.
  intros H. destruct (c2_quadratic 0 [0; 1; 4] 0 0 1) as (out & E & _ & _ & E0 & _).
  - unfold len. cbn. lia.
  - unfold len. cbn [length Z.of_nat]. intros i Hi. assert (C : (i = 0 \/ i = 1 \/ i = 2)%Z) by lia. destruct C as [->|[->| ->]]; vm_compute; reflexivity.
  - assert (X := H 0 [0; 1; 4] out 0 0 1). assert (Y : at_ out 0 == 0 + 2 * 1 * inject_Z 0).
    { apply X; [unfold len; cbn; lia| |exact E|unfold len; cbn; lia].
      unfold len. cbn [length Z.of_nat]. intros i Hi. assert (C : (i = 0 \/ i = 1 \/ i = 2)%Z) by lia. destruct C as [->|[->| ->]]; vm_compute; reflexivity. }
    rewrite E0 in Y. vm_compute in Y. discriminate.
Qed.
Definition w_quart : list Q := map (quartic 1 0 (- (2)) 0 1) [0; 1; 2; 3; 4; 5]%Z.
Lemma w_quart_ok : (5 <= len w_quart)%Z /\ (forall i, (0 <= i < len w_quart)%Z -> at_ w_quart i == quartic 1 0 (- (2)) 0 1 i) /\
  exists out, c4 77 w_quart = Ok out /\ at_ out 3 == quartic' 0 (- (2)) 0 1 3.
Proof.
  assert (A : (5 <= len w_quart)%Z) by (unfold len; cbn; lia).
  assert (B : forall i, (0 <= i < len w_quart)%Z -> at_ w_quart i == quartic 1 0 (- (2)) 0 1 i).
  { unfold len. cbn [length Z.of_nat w_quart map]. intros i Hi. assert (C : (i = 0 \/ i = 1 \/ i = 2 \/ i = 3 \/ i = 4 \/ i = 5)%Z) by lia.
    destruct C as [->|[->|[->|[->|[->| ->]]]]]; vm_compute; reflexivity. }
  split; [exact A|]. split; [exact B|]. destruct (c4_quartic 77 w_quart _ _ _ _ _ A B) as (out & E & _ & I & _). exists out. split; [exact E|]. apply I. unfold len. cbn. lia.
Qed.

Lemma c4_inexact : ~ forall junk f a b c d e, (5 <= len f)%Z -> (forall i, (0 <= i < len f)%Z -> at_ f i == quartic a b c d e i) ->
  exists out, c4 junk f = Ok out /\ at_ out 1 == quartic' b c d e 1.
Proof.
  intros H. destruct (H 0 [1; 1; 1; 1; 1] 1 0 0 0 0) as (out & E & K).
  - vm_compute. discriminate.
  - change (len [1; 1; 1; 1; 1]) with 5%Z. intros i Hi. assert (C : (i = 0 \/ i = 1 \/ i = 2 \/ i = 3 \/ i = 4)%Z) by lia.
    destruct C as [->|[->|[->|[->| ->]]]]; vm_compute; reflexivity.
  - vm_compute in E. injection E as <-. vm_compute in K. discriminate.
Qed.
