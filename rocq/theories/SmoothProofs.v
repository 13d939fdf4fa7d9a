(** Proofs about smooth.py. *)
From Coq Require Import List ZArith QArith Lia Lqa Bool Sorted.
From Verif Require Import Prelude PreludeFacts SmoothModel SmoothSpec.
Import ListNotations.
Open Scope Z_scope.

(** ** sorted(list(set(...))) *)
Lemma in_insert x l y : In y (insert_sorted x l) <-> y = x \/ In y l.
Proof.
  induction l as [|a l IH]; cbn; [intuition|].
  destruct (Z.ltb_spec x a); [cbn; intuition|]. destruct (Z.eqb_spec x a) as [->|]; [cbn; intuition|]. cbn. rewrite IH. intuition.
Qed.
Lemma incr_cons a l : strictly_increasing (a :: l) <-> strictly_increasing l /\ forall x, In x l -> a < x.
Proof.
  revert a. induction l as [|b l IH]; intros a; [cbn; intuition|].
  change (strictly_increasing (a :: b :: l)) with (a < b /\ strictly_increasing (b :: l)). split.
  - intros [H1 H2]. split; [exact H2|]. intros x [<-|Hx]; [exact H1|]. apply IH in H2. destruct H2 as [_ H2]. specialize (H2 x Hx). lia.
  - intros [H1 H2]. split; [apply H2; now left|exact H1].
Qed.
Lemma insert_incr x l : strictly_increasing l -> strictly_increasing (insert_sorted x l).
Proof.
  induction l as [|a l IH]; intros H; [exact I|]. cbn [insert_sorted].
  destruct (Z.ltb_spec x a) as [L|L]; [now split|]. destruct (Z.eqb_spec x a) as [->|N]; [exact H|].
  apply incr_cons in H. destruct H as [H1 H2]. apply incr_cons. split; [auto|]. intros y Hy. apply in_insert in Hy. destruct Hy as [->|Hy]; [lia|auto].
Qed.
Lemma sorted_set_incr l : strictly_increasing (sorted_set l).
Proof. induction l as [|a l IH]; [exact I|]. now apply insert_incr. Qed.
Lemma in_sorted_set l x : In x (sorted_set l) <-> In x l.
Proof. induction l as [|a l IH]; cbn; [reflexivity|]. rewrite in_insert, IH. intuition. Qed.

(** ** splitting *)
Fixpoint runs_from (cur : list Z) (lst : Z) (rest : list Z) : list (list Z) :=
  match rest with
  | [] => [cur]
  | v :: t => if (lst + 1 =? v)%Z then runs_from (cur ++ [v]) v t else cur :: runs_from [v] v t
  end.
Lemma split_fold todel : forall rest done cur out index lst,
  todel = done ++ cur ++ rest -> (index + 1 = length done + length cur)%nat -> (1 <= length cur)%nat ->
  let '(out', first', _) := fold_left (split_step todel) (combine (seq index (length rest)) rest) (out, length done, lst) in
  out' ++ [skipn first' todel] = out ++ runs_from cur lst rest.
Proof.
  induction rest as [|v rest IH]; intros done cur out index lst E Hi Hc.
  - cbn. rewrite E, app_nil_r. rewrite skipn_app, skipn_all, Nat.sub_diag. reflexivity.
  - cbn [length seq combine fold_left split_step runs_from].
    destruct (Z.eqb_spec (lst + 1) v) as [Ev|Ev].
    + apply (IH done (cur ++ [v]) out (S index) v).
      * rewrite E, <- app_assoc. reflexivity.
      * rewrite app_length. cbn. lia.
      * rewrite app_length. cbn. lia.
    + assert (Ec : firstn (index + 1 - length done) (skipn (length done) todel) = cur).
      { rewrite E, skipn_app, skipn_all, Nat.sub_diag. cbn [app skipn]. replace (index + 1 - length done)%nat with (length cur) by lia.
        rewrite firstn_app, firstn_all, Nat.sub_diag. cbn. apply app_nil_r. }
      rewrite Ec. specialize (IH (done ++ cur) [v] (out ++ [cur]) (S index) v).
      rewrite app_length in IH. replace (index + 1)%nat with (length done + length cur)%nat by lia.
      specialize (IH ltac:(rewrite E, <- app_assoc; reflexivity) ltac:(cbn; lia) ltac:(cbn; lia)).
      destruct (fold_left _ _ _) as [[o f] l]. rewrite IH, <- app_assoc. reflexivity.
Qed.
Lemma split_runs_eq x t : split_runs (x :: t) = Ok (runs_from [x] x t).
Proof.
  unfold split_runs. pose proof (split_fold (x :: t) t [] [x] [] 0%nat x eq_refl eq_refl ltac:(cbn; lia)) as H. cbn [length] in H.
  destruct (fold_left _ _ _) as [[o f] l]. now rewrite H.
Qed.
Lemma last_zrange a b d : a < b -> last (zrange a b) d = b - 1.
Proof. intros H. replace b with (b - 1 + 1) at 1 by lia. rewrite zrange_snoc by lia. apply last_last. Qed.
Lemma runs_from_ok : forall rest a lst, a <= lst -> strictly_increasing (lst :: rest) ->
  let R := runs_from (zrange a (lst + 1)) lst rest in
  concat R = zrange a (lst + 1) ++ rest /\ Forall consecutive R /\ gaps R /\ hd 0 (hd [] R) = a /\ R <> [].
Proof.
  induction rest as [|v rest IH]; intros a lst Ha Hi.
  - cbn. rewrite !app_nil_r. repeat split; try discriminate; [repeat constructor; exists a, (lst + 1); split; [lia|reflexivity]|]. rewrite zrange_cons by lia. reflexivity.
  - cbn [runs_from]. destruct Hi as [Hlv Hi]. destruct (Z.eqb_spec (lst + 1) v) as [Ev|Ev].
    + subst v. rewrite <- zrange_snoc by lia. destruct (IH a (lst + 1) ltac:(lia) Hi) as (H1 & H2 & H3 & H4 & H5).
      repeat split; try assumption. rewrite H1. rewrite zrange_snoc by lia. rewrite <- app_assoc. reflexivity.
    + assert (Ez : [v] = zrange v (v + 1)) by (rewrite zrange_cons by lia; rewrite zrange_nil by lia; reflexivity). rewrite Ez.
      destruct (IH v v ltac:(lia) Hi) as (H1 & H2 & H3 & H4 & H5). set (R := runs_from _ v rest) in *.
      repeat split.
      * cbn [concat]. rewrite H1, <- Ez. reflexivity.
      * constructor; [exists a, (lst + 1); split; [lia|reflexivity]|exact H2].
      * destruct R as [|r1 R]; [contradiction|]. cbn [gaps]. split; [|exact H3]. cbn in H4. rewrite last_zrange by lia. rewrite H4. lia.
      * cbn. rewrite zrange_cons by lia. reflexivity.
      * discriminate.
Qed.

Lemma in_todel bounds n outliers x :
  In x (sorted_set (flat_map (fun dup => filter (fun x => (x <? n)) (zrange (dup - bounds) (dup + bounds + 1))) outliers)) <->
  x < n /\ exists d, In d outliers /\ d - bounds <= x <= d + bounds.
Proof.
  rewrite in_sorted_set, in_flat_map. split.
  - intros (d & Hd & Hx). apply filter_In in Hx. destruct Hx as [Hx Hn]. apply in_zrange in Hx. apply Z.ltb_lt in Hn. split; [exact Hn|]. exists d. split; [exact Hd|lia].
  - intros (Hn & d & Hd & Hx). exists d. split; [exact Hd|]. apply filter_In. split; [apply in_zrange; lia|now apply Z.ltb_lt].
Qed.

Lemma generate_ok bounds outliers n runs : outliers <> [] -> generate_points bounds outliers n = Ok runs ->
  strictly_increasing (concat runs) /\ Forall consecutive runs /\ gaps runs /\
  (forall x, In x (concat runs) <-> x < n /\ exists d, In d outliers /\ d - bounds <= x <= d + bounds).
Proof.
  intros Ho H. unfold generate_points in H. destruct outliers as [|o os]; [contradiction|].
  set (T := sorted_set _) in H. assert (HT : strictly_increasing T) by apply sorted_set_incr.
  assert (HI : forall x, In x T <-> x < n /\ exists d, In d (o :: os) /\ d - bounds <= x <= d + bounds) by (intros; apply in_todel).
  destruct T as [|t0 T]; [discriminate|]. rewrite split_runs_eq in H. injection H as <-.
  assert (Ez : [t0] = zrange t0 (t0 + 1)) by (rewrite zrange_cons by lia; rewrite zrange_nil by lia; reflexivity).
  destruct (runs_from_ok T t0 t0 ltac:(lia) HT) as (H1 & H2 & H3 & _). rewrite <- Ez in H1, H2, H3. cbn [app] in H1. rewrite H1.
  split; [exact HT|]. split; [exact H2|]. split; [exact H3|exact HI].
Qed.
Lemma generate_total bounds outliers n : (exists d, In d outliers /\ d - bounds < n /\ 0 <= bounds) \/ outliers = [] ->
  exists runs, generate_points bounds outliers n = Ok runs.
Proof.
  intros [(d & Hd & Hn & Hb)| ->]; [|now exists []]. unfold generate_points. destruct outliers as [|o os]; [destruct Hd|].
  set (T := sorted_set _). assert (HI : In (d - bounds) T) by (apply in_todel; split; [lia|]; exists d; split; [exact Hd|lia]).
  destruct T as [|t0 T]; [destruct HI|]. rewrite split_runs_eq. eauto.
Qed.
Lemma generate_error bounds outliers n e : generate_points bounds outliers n = Err e -> e = IndexError.
Proof. unfold generate_points. destruct outliers; [discriminate|]. destruct (sorted_set _); [now intros [= <-]|]. rewrite split_runs_eq. discriminate. Qed.

(** ** rollup *)
Lemma rollz_length k l : length (rollz k l) = length l.
Proof. unfold rollz. now rewrite map_length, seq_length. Qed.
Lemma rollz_nth k l i : 0 <= i < len l -> nth (Z.to_nat i) (rollz k l) 0%Q = nth (Z.to_nat ((i - k) mod len l)) l 0%Q.
Proof.
  intros H. unfold rollz. set (f := fun i0 : nat => _). rewrite (nth_indep _ 0%Q (f 0%nat)) by (rewrite map_length, seq_length; unfold len in H; lia).
  rewrite map_nth, seq_nth by (unfold len in H; lia). unfold f. rewrite Nat.add_0_l, Z2Nat.id by lia. reflexivity.
Qed.
Lemma assign_full l a n v : 0 <= a -> 0 <= n -> a + n <= len l -> len v = n ->
  assign l a n v = Ok (firstn (Z.to_nat a) l ++ v ++ skipn (Z.to_nat (a + n)) l).
Proof.
  intros Ha Hn Hl Hv. unfold assign. replace (Z.max 0 (Z.min (a + n) (len l) - a)) with n by lia.
  rewrite Hv, Z.eqb_refl. reflexivity.
Qed.
Lemma spliced_length (l v : list Q) a n : 0 <= a -> 0 <= n -> a + n <= len l -> len v = n ->
  length (firstn (Z.to_nat a) l ++ v ++ skipn (Z.to_nat (a + n)) l) = length l.
Proof. intros. unfold len in *. rewrite !app_length, firstn_length, skipn_length. lia. Qed.
Lemma spliced_nth (l v : list Q) a n i : 0 <= a -> 0 <= n -> a + n <= len l -> len v = n -> 0 <= i < len l ->
  nth (Z.to_nat i) (firstn (Z.to_nat a) l ++ v ++ skipn (Z.to_nat (a + n)) l) 0%Q =
  if (a <=? i) && (i <? a + n) then nth (Z.to_nat (i - a)) v 0%Q else nth (Z.to_nat i) l 0%Q.
Proof.
  intros Ha Hn Hl Hv Hi. unfold len in *.
  assert (Lf : length (firstn (Z.to_nat a) l) = Z.to_nat a) by (rewrite firstn_length; lia).
  destruct (Z.leb_spec a i) as [A|A]; cbn [andb].
  - rewrite app_nth2 by lia. rewrite Lf. destruct (Z.ltb_spec i (a + n)) as [B|B].
    + rewrite app_nth1 by lia. f_equal. lia.
    + rewrite app_nth2 by lia. replace l with (firstn (Z.to_nat (a + n)) l ++ skipn (Z.to_nat (a + n)) l) at 2 by apply firstn_skipn.
      rewrite app_nth2 by (rewrite firstn_length; lia). f_equal. rewrite firstn_length. lia.
  - rewrite app_nth1 by lia. replace l with (firstn (Z.to_nat a) l ++ skipn (Z.to_nat a) l) at 2 by apply firstn_skipn.
    now rewrite app_nth1 by lia.
Qed.

(** the cyclic window *)
Lemma rollup_ok l start n v : 0 <= n <= len l -> len v = n ->
  exists l', rollup l start n v = Ok l' /\ length l' = length l /\
    (forall k, 0 <= k < n -> nth (Z.to_nat ((start + k) mod len l)) l' 0%Q = nth (Z.to_nat k) v 0%Q) /\
    (forall j, 0 <= j < len l -> (forall k, 0 <= k < n -> j <> (start + k) mod len l) -> nth (Z.to_nat j) l' 0%Q = nth (Z.to_nat j) l 0%Q).
Proof.
  intros Hn Hv. unfold rollup. set (l1 := rollz (- start) l).
  assert (L1 : length l1 = length l) by apply rollz_length.
  assert (E1 : len l1 = len l) by (unfold len; now rewrite L1).
  rewrite (assign_full l1 0 n v) by lia. cbn [bind].
  set (l2 := firstn (Z.to_nat 0) l1 ++ v ++ skipn (Z.to_nat (0 + n)) l1).
  assert (L2 : length l2 = length l) by (unfold l2; rewrite spliced_length; lia).
  assert (E2 : len l2 = len l) by (unfold len; now rewrite L2).
  assert (N2 : forall i, 0 <= i < len l -> nth (Z.to_nat i) l2 0%Q = if i <? n then nth (Z.to_nat i) v 0%Q else nth (Z.to_nat i) l1 0%Q).
  { intros i Hi. unfold l2. rewrite spliced_nth by lia. rewrite Z.sub_0_r, Z.add_0_l. destruct (Z.leb_spec 0 i); [reflexivity|lia]. }
  exists (rollz start l2). split; [reflexivity|]. split; [rewrite rollz_length; exact L2|].
  assert (G : forall j, 0 <= j < len l -> nth (Z.to_nat j) (rollz start l2) 0%Q =
              if (j - start) mod len l <? n then nth (Z.to_nat ((j - start) mod len l)) v 0%Q else nth (Z.to_nat j) l 0%Q).
  { intros j Hj. rewrite rollz_nth by lia. rewrite E2. pose proof (Z.mod_pos_bound (j - start) (len l) ltac:(lia)) as B. rewrite N2 by exact B.
    destruct (_ <? n); [reflexivity|]. unfold l1. rewrite rollz_nth by exact B. f_equal. f_equal.
    rewrite Z.sub_opp_r, Zplus_mod_idemp_l. replace (j - start + start) with j by lia. apply Z.mod_small. exact Hj. }
  split.
  - intros k Hk. rewrite G by (apply Z.mod_pos_bound; lia). rewrite Zminus_mod_idemp_l. replace (start + k - start) with k by lia.
    rewrite Z.mod_small by lia. destruct (Z.ltb_spec k n); [reflexivity|lia].
  - intros j Hj Hw. rewrite G by exact Hj. pose proof (Z.mod_pos_bound (j - start) (len l) ltac:(lia)) as B.
    destruct (Z.ltb_spec ((j - start) mod len l) n) as [C|C]; [|reflexivity]. exfalso. apply (Hw ((j - start) mod len l)); [lia|].
    rewrite Zplus_mod_idemp_r. replace (start + (j - start)) with j by lia. symmetry. now apply Z.mod_small.
Qed.

(** ** gen_newr *)
Lemma getz_ok l i : - len l <= i < len l -> exists q, getz l i = Ok q.
Proof.
  intros H. unfold getz. destruct (Z.leb_spec (- len l) i); [|lia]. destruct (Z.ltb_spec i (len l)); [|lia]. cbn. eauto.
Qed.
Lemma unit_points_length n : length (unit_points n) = n.
Proof. unfold unit_points. destruct n as [|[|n]]; try reflexivity. now rewrite map_length, seq_length. Qed.

Section G.
Variable sqrt : Q -> Q.
Variable fit : list Q -> list Q -> list Z -> option ((Q * Q * Q) * (Q * Q * Q)).
Notation smooth_run := (smooth_run fit). Notation gen_newr := (gen_newr fit).

Lemma put_run_ok l start n v : - len l <= start -> 0 <= n <= len l -> start + n <= len l -> len v = n ->
  exists l', put_run l start n v = Ok l' /\ length l' = length l /\
    (forall j, 0 <= j < len l -> (forall k, 0 <= k < n -> j <> (start + k) mod len l) -> nth (Z.to_nat j) l' 0%Q = nth (Z.to_nat j) l 0%Q).
Proof.
  intros Hs Hn He Hv. unfold put_run. destruct (Z.ltb_spec start 0) as [C|C].
  - destruct (rollup_ok l start n v Hn Hv) as (l' & H1 & H2 & _ & H4). eauto.
  - rewrite assign_full by lia. eexists. split; [reflexivity|]. split; [apply spliced_length; lia|].
    intros j Hj Hw. rewrite spliced_nth by lia. destruct (Z.leb_spec start j) as [A|A]; [|reflexivity]. destruct (Z.ltb_spec j (start + n)) as [B|B]; [|reflexivity].
    exfalso. apply (Hw (j - start)); [lia|]. rewrite Z.mod_small; lia.
Qed.

(** one run, safe if it neither starts too early nor ends at the last point *)
Lemma smooth_run_ok r z bounds newr newz failed a b : length z = length r -> length newr = length r -> length newz = length r ->
  a < b -> bounds <= b - a -> 1 - len r <= a -> b < len r ->
  (exists newr' newz' f, smooth_run r z bounds (newr, newz, failed) (zrange a b) = Ok (newr', newz', f) /\
     length newr' = length r /\ length newz' = length r /\ untouched newr newr' (zrange a b) /\ untouched newz newz' (zrange a b)) \/
  smooth_run r z bounds (newr, newz, failed) (zrange a b) = Err ValueError.
Proof.
  intros Lz Lr' Lz' Hab Hb Ha He. unfold SmoothModel.smooth_run.
  assert (Ln : len (zrange a b) = b - a) by (unfold len; rewrite zrange_length; lia). rewrite Ln.
  destruct (Z.leb_spec bounds (b - a)); [|lia]. cbn [negb].
  destruct (Z.leb_spec (len r) (2 * (b - a))) as [|Hs]; [now right|]. left.
  assert (Ez : len z = len r) by (unfold len; now rewrite Lz).
  assert (Er' : len newr = len r) by (unfold len; now rewrite Lr').
  assert (Ez' : len newz = len r) by (unfold len; now rewrite Lz').
  rewrite (last_zrange a b) by exact Hab. assert (Em : forall (A : Type) (x : A) (f : Z -> A), match zrange a b with [] => x | s :: _ => f s end = f a) by (intros; rewrite (zrange_cons a b) by exact Hab; reflexivity). rewrite Em. clear Em.
  destruct (getz_ok r a ltac:(lia)) as [r0 ->]. destruct (getz_ok r (a - 1) ltac:(lia)) as [rm ->].
  destruct (getz_ok z a ltac:(lia)) as [z0 ->]. destruct (getz_ok z (a - 1) ltac:(lia)) as [zm ->]. cbn [bind]. cbv zeta.
  destruct (Z.ltb_spec (b - 1) (len r - 1)); [|lia].
  destruct (getz_ok r (b - 1) ltac:(lia)) as [re ->]. destruct (getz_ok r (b - 1 + 1) ltac:(lia)) as [rs ->].
  destruct (getz_ok z (b - 1) ltac:(lia)) as [ze ->]. destruct (getz_ok z (b - 1 + 1) ltac:(lia)) as [zs ->]. cbn [bind].
  destruct (fit r z (zrange a b)) as [[cr cz]|].
  2:{ exists newr, newz, true. repeat split; try assumption; intros j Hj _; reflexivity. }
  destruct (getz_ok newr (a - 1) ltac:(lia)) as [nr ->]. destruct (getz_ok newz (a - 1) ltac:(lia)) as [nz ->].
  destruct (getz_ok newr (a + (b - a)) ltac:(lia)) as [er ->]. destruct (getz_ok newz (a + (b - a)) ltac:(lia)) as [ez ->]. cbn [bind].
  set (X := map (cubic r0 cr) _). set (Y := map (cubic z0 cz) _).
  assert (LX : len X = b - a) by (unfold len, X; rewrite map_length, unit_points_length, zrange_length; lia).
  assert (LY : len Y = b - a) by (unfold len, Y; rewrite map_length, unit_points_length, zrange_length; lia).
  destruct (put_run_ok newr a (b - a) X ltac:(lia) ltac:(lia) ltac:(lia) LX) as (newr' & -> & P1 & P2).
  destruct (put_run_ok newz a (b - a) Y ltac:(lia) ltac:(lia) ltac:(lia) LY) as (newz' & -> & P3 & P4). cbn [bind].
  eexists newr', newz', _. split; [reflexivity|]. split; [congruence|]. split; [congruence|].
  split; intros j Hj Hw; [apply P2|apply P4]; try lia; intros k Hk; apply Hw; apply in_zrange; lia.
Qed.

Lemma gen_newr_ok r z bounds runs : length z = length r ->
  Forall (fun l => exists a b, l = zrange a b /\ a < b /\ bounds <= b - a /\ (2 * (b - a) < len r -> 1 - len r <= a) /\ b < len r) runs ->
  (exists newr newz f, gen_newr r z runs bounds = Ok (newr, newz, f) /\ length newr = length r /\ length newz = length r /\
     untouched r newr (concat runs) /\ untouched z newz (concat runs)) \/
  gen_newr r z runs bounds = Err ValueError.
Proof.
  intros Lz. unfold SmoothModel.gen_newr.
  assert (K : forall runs newr newz f0, length newr = length r -> length newz = length r ->
    Forall (fun l => exists a b, l = zrange a b /\ a < b /\ bounds <= b - a /\ (2 * (b - a) < len r -> 1 - len r <= a) /\ b < len r) runs ->
    (exists newr' newz' f, foldM (smooth_run r z bounds) runs (newr, newz, f0) = Ok (newr', newz', f) /\ length newr' = length r /\ length newz' = length r /\
       untouched newr newr' (concat runs) /\ untouched newz newz' (concat runs)) \/
    foldM (smooth_run r z bounds) runs (newr, newz, f0) = Err ValueError).
  { clear runs. induction runs as [|l runs IH]; intros newr newz f0 L1 L2 HF.
    - left. exists newr, newz, f0. repeat split; try assumption; intros j _ _; reflexivity.
    - inversion HF as [|? ? (a & b & -> & H1 & H2 & H3 & H4) HF']; subst. cbn [foldM].
      destruct (Z.lt_ge_cases (2 * (b - a)) (len r)) as [S|S].
      2:{ right. unfold SmoothModel.smooth_run. assert (Ln : len (zrange a b) = b - a) by (unfold len; rewrite zrange_length; lia). rewrite Ln.
          destruct (Z.leb_spec bounds (b - a)); [|lia]. cbn [negb]. destruct (Z.leb_spec (len r) (2 * (b - a))); [reflexivity|lia]. }
      destruct (smooth_run_ok r z bounds newr newz f0 a b Lz L1 L2 H1 H2 (H3 S) H4) as [(nr & nz & f & -> & P1 & P2 & P3 & P4)| ->]; [|now right].
      cbn [bind]. destruct (IH nr nz f P1 P2 HF') as [(nr' & nz' & f' & -> & Q1 & Q2 & Q3 & Q4)| ->]; [|now right].
      left. exists nr', nz', f'. repeat split; try assumption; intros j Hj Hw.
      + assert (E : len nr = len newr) by (unfold len; congruence).
        rewrite Q3; [apply P3; [exact Hj|]; intros x Hx; apply Hw; cbn; apply in_or_app; now left|lia|].
        intros x Hx. rewrite E. apply Hw. cbn. apply in_or_app. now right.
      + assert (E : len nz = len newz) by (unfold len; congruence).
        rewrite Q4; [apply P4; [exact Hj|]; intros x Hx; apply Hw; cbn; apply in_or_app; now left|lia|].
        intros x Hx. rewrite E. apply Hw. cbn. apply in_or_app. now right. }
  intros HF. apply K; [reflexivity|exact Lz|exact HF].
Qed.

(** ** the outliers *)
Lemma sharp_ok r z cutoff b item : length z = length r -> 0 <= b -> 2 * b <= len r -> 0 <= item < len r -> exists s, sharp sqrt r z cutoff b item = Ok s.
Proof.
  intros Lz Hb H2 Hi. assert (Ez : len z = len r) by (unfold len; now rewrite Lz). unfold sharp.
  destruct (getz_ok z item ltac:(lia)) as [? ->]. destruct (getz_ok r item ltac:(lia)) as [? ->].
  destruct (getz_ok z (item - b) ltac:(lia)) as [? ->]. destruct (getz_ok r (item - b) ltac:(lia)) as [? ->].
  destruct (getz_ok z (item - b * 2) ltac:(lia)) as [? ->]. destruct (getz_ok r (item - b * 2) ltac:(lia)) as [? ->]. cbn [bind]. eauto.
Qed.
Lemma find_outliers_in r z cutoff b o : find_outliers sqrt r z cutoff b = Ok o -> forall d, In d o -> - b <= d < len z - b.
Proof.
  unfold find_outliers. assert (K : forall l acc o, (forall i, In i l -> 0 <= i < len z) -> (forall d, In d acc -> - b <= d < len z - b) ->
    foldM (fun acc item => let* s := sharp sqrt r z cutoff b item in Ok (if s then acc ++ [item - b] else acc)) l acc = Ok o -> forall d, In d o -> - b <= d < len z - b).
  { induction l as [|i l IH]; intros acc o' Hl Ha; cbn [foldM]; [intros [= <-]; exact Ha|].
    destruct (sharp sqrt r z cutoff b i) as [s|]; [|discriminate]. cbn [bind]. apply IH; [intros; apply Hl; now right|].
    intros d Hd. destruct s; [|now apply Ha]. apply in_app_or in Hd. destruct Hd as [Hd|[<-|[]]]; [now apply Ha|]. specialize (Hl i (or_introl eq_refl)). lia. }
  apply K; [|intros ? []]. intros i Hi. now apply in_zrange in Hi.
Qed.
Lemma find_outliers_ok r z cutoff b : length z = length r -> 0 <= b -> 2 * b <= len r -> exists o, find_outliers sqrt r z cutoff b = Ok o.
Proof.
  intros Lz Hb H2. unfold find_outliers. assert (Ez : len z = len r) by (unfold len; now rewrite Lz).
  assert (K : forall l acc, (forall i, In i l -> 0 <= i < len r) -> exists o,
    foldM (fun acc item => let* s := sharp sqrt r z cutoff b item in Ok (if s then acc ++ [item - b] else acc)) l acc = Ok o).
  { induction l as [|i l IH]; intros acc Hl; cbn [foldM]; [eauto|].
    destruct (sharp_ok r z cutoff b i Lz Hb H2 (Hl i (or_introl eq_refl))) as [s ->]. cbn [bind]. apply IH. intros; apply Hl; now right. }
  apply K. intros i Hi. apply in_zrange in Hi. lia.
Qed.
Lemma all_outliers_in r z cutoff bf o : all_outliers sqrt r z cutoff bf = Ok o -> forall d, In d o -> - bf <= d < len z - 1.
Proof.
  unfold all_outliers. assert (K : forall l acc o, (forall i, In i l -> 1 <= i <= bf) -> (forall d, In d acc -> - bf <= d < len z - 1) ->
    foldM (fun acc b => let* o := find_outliers sqrt r z cutoff b in Ok (acc ++ o)) l acc = Ok o -> forall d, In d o -> - bf <= d < len z - 1).
  { induction l as [|i l IH]; intros acc o' Hl Ha; cbn [foldM]; [intros [= <-]; exact Ha|].
    destruct (find_outliers sqrt r z cutoff i) as [s|] eqn:E; [|discriminate]. cbn [bind]. apply IH; [intros; apply Hl; now right|].
    intros d Hd. apply in_app_or in Hd. destruct Hd as [Hd|Hd]; [now apply Ha|]. pose proof (find_outliers_in r z cutoff i s E d Hd). specialize (Hl i (or_introl eq_refl)). lia. }
  apply K; [|intros ? []]. intros i Hi. apply in_zrange in Hi. lia.
Qed.
Lemma all_outliers_ok r z cutoff bf : length z = length r -> 2 * bf <= len r -> exists o, all_outliers sqrt r z cutoff bf = Ok o.
Proof.
  intros Lz H2. unfold all_outliers.
  assert (K : forall l acc, (forall i, In i l -> 1 <= i <= bf) -> exists o,
    foldM (fun acc b => let* o := find_outliers sqrt r z cutoff b in Ok (acc ++ o)) l acc = Ok o).
  { induction l as [|i l IH]; intros acc Hl; cbn [foldM]; [eauto|]. pose proof (Hl i (or_introl eq_refl)).
    destruct (find_outliers_ok r z cutoff i Lz ltac:(lia) ltac:(lia)) as [s ->]. cbn [bind]. apply IH. intros; apply Hl; now right. }
  apply K. intros i Hi. apply in_zrange in Hi. lia.
Qed.

(** ** one turn of the loop *)
Lemma gaps_disjoint runs : strictly_increasing (concat runs) -> Forall consecutive runs -> gaps runs ->
  forall l, In l runs -> forall a b, l = zrange a b -> a < b -> ~ In (a - 1) (concat runs) /\ ~ In b (concat runs).
Proof.
  induction runs as [|l0 runs IH]; intros HI HC HG l Hl a b El Hab; [destruct Hl|].
  pose proof (Forall_inv HC) as (a0 & b0 & H0 & E0). pose proof (Forall_inv_tail HC) as HC'. subst l0. cbn [concat] in *.
  assert (I2 : strictly_increasing (concat runs)).
  { clear -HI. revert HI. induction (zrange a0 b0) as [|x t IHt]; intros H; [exact H|]. apply IHt. apply incr_cons in H. apply H. }
  assert (Lt : forall x, In x (concat runs) -> b0 < x).
  { destruct runs as [|lz runs]; [intros ? []|]. destruct HG as [G1 _]. pose proof (Forall_inv HC') as (a1 & b1 & Hq1 & Eq1). subst lz.
    rewrite last_zrange in G1 by lia. rewrite (zrange_cons a1 b1) in G1 by lia. cbn [hd] in G1.
    intros x Hx. assert (a1 <= x); [|lia]. cbn [concat] in *. rewrite (zrange_cons a1 b1) in I2, Hx by lia. cbn [app] in I2, Hx. destruct Hx as [<-|Hx]; [lia|].
    apply incr_cons in I2. destruct I2 as [_ I2]. specialize (I2 x Hx). lia. }
  destruct Hl as [Hl|Hl].
  - rewrite El in Hl. assert (a = a0 /\ b = b0) as [-> ->].
    { pose proof (f_equal (fun l => hd 0 l) Hl) as E1. pose proof (f_equal (fun l => last l 0) Hl) as E2. cbn beta in *.
      rewrite !last_zrange in E2 by lia. rewrite (zrange_cons a0 b0), (zrange_cons a b) in E1 by lia. cbn in E1. lia. }
    split; intros C; apply in_app_or in C; destruct C as [C|C]; try (apply in_zrange in C; lia); specialize (Lt _ C); lia.
  - assert (G' : gaps runs) by (destruct runs; [exact I|apply HG]).
    destruct (IH I2 HC' G' l Hl a b El Hab) as [N1 N2].
    assert (Ha : b0 < a). { apply Lt. apply in_concat. exists l. split; [exact Hl|]. rewrite El. apply in_zrange. lia. }
    split; intros C; apply in_app_or in C; destruct C as [C|C]; try contradiction; apply in_zrange in C; lia.
Qed.

Lemma turn_ok r z cutoff bounds bf outliers runs : length z = length r -> 0 <= bounds -> 2 * bf <= len r ->
  all_outliers sqrt r z cutoff bf = Ok outliers -> generate_points bounds outliers (len r) = Ok runs -> ~ In (len r - 1) (concat runs) ->
  (exists newr newz f, gen_newr r z runs bounds = Ok (newr, newz, f) /\ length newr = length r /\ length newz = length r /\
     untouched r newr (concat runs) /\ untouched z newz (concat runs)) \/
  gen_newr r z runs bounds = Err ValueError.
Proof.
  intros Lz Hb H2 Ho Hg Hend. assert (Ez : len z = len r) by (unfold len; now rewrite Lz).
  destruct (list_eq_dec Z.eq_dec outliers []) as [E0|N0].
  { subst outliers. injection Hg as <-. left. exists r, z, false. repeat split; try assumption; intros j _ _; reflexivity. }
  destruct (generate_ok bounds outliers (len r) runs N0 Hg) as (HI & HC & HG & HM).
  apply gen_newr_ok; [exact Lz|]. apply Forall_forall. intros l Hl.
  rewrite Forall_forall in HC. destruct (HC l Hl) as (a & b & Hab & El). exists a, b. split; [exact El|]. split; [exact Hab|].
  destruct (gaps_disjoint runs HI ltac:(now apply Forall_forall) HG l Hl a b El Hab) as [Na Nb].
  assert (In_l : forall x, a <= x < b -> In x (concat runs)) by (intros x Hx; apply in_concat; exists l; split; [exact Hl|]; rewrite El; apply in_zrange; lia).
  assert (Hbl : b <= len r). { pose proof (In_l (b - 1) ltac:(lia)) as C. apply HM in C. lia. }
  assert (Hbl' : b < len r). { assert (b <> len r); [|lia]. intros C. apply Hend. apply In_l. lia. }
  (* the run starts at an outlier minus the bound and reaches the outlier plus the bound *)
  pose proof (In_l a ltac:(lia)) as Ca. apply HM in Ca. destruct Ca as (Ha & d & Hd & Hda).
  pose proof (all_outliers_in r z cutoff bf outliers Ho d Hd) as Rd. rewrite Ez in Rd.
  assert (Ea : a = d - bounds).
  { destruct (Z.eq_dec a (d - bounds)) as [|N]; [assumption|]. exfalso. apply Na. apply HM. split; [lia|]. exists d. split; [exact Hd|lia]. }
  assert (Eb : d + bounds < b).
  { destruct (Z.lt_ge_cases (d + bounds) b) as [|C]; [assumption|]. exfalso. apply Nb. apply HM. split; [lia|]. exists d. split; [exact Hd|lia]. }
  split; [lia|]. split; [|exact Hbl']. intros Hs. lia.
Qed.

Lemma turn_runs r z cutoff bounds bf outliers : length z = length r -> 0 <= bounds -> 2 * bf <= len r ->
  all_outliers sqrt r z cutoff bf = Ok outliers -> exists runs, generate_points bounds outliers (len r) = Ok runs.
Proof.
  intros Lz Hb H2 Ho. apply generate_total. destruct outliers as [|d o]; [now right|]. left. exists d. split; [now left|].
  pose proof (all_outliers_in r z cutoff bf _ Ho d (or_introl eq_refl)) as R. assert (Ez : len z = len r) by (unfold len; now rewrite Lz). lia.
Qed.

(** ** termination *)
Lemma smooth_terminates cutoff bf b0 : forall fuel b r z, (Z.to_nat (b0 * 5 + 1 - b) < fuel)%nat -> smooth_loop sqrt fit fuel cutoff bf b0 b r z <> None.
Proof.
  induction fuel as [|fuel IH]; intros b r z Hf; [lia|]. cbn [smooth_loop].
  destruct (let* outliers := _ in _) as [[[a c] fail]|e]; [|discriminate]. destruct fail; [|discriminate]. cbn [negb].
  destruct (Z.ltb_spec (b0 * 5) (b + 1)); [discriminate|]. apply IH. lia.
Qed.
Lemma smooth_unchanged fuel cutoff bf b0 b r z : all_outliers sqrt r z cutoff bf = Ok [] -> smooth_loop sqrt fit (S fuel) cutoff bf b0 b r z = Some (Ok (r, z)).
Proof. intros H. cbn [smooth_loop]. rewrite H. reflexivity. Qed.
(** ** runs that reach the last point *)
Lemma smooth_run_end r z bounds newr newz failed a : length z = length r -> length newr = length r -> length newz = length r ->
  a < len r -> bounds <= len r - a -> fit r z (zrange a (len r)) <> None ->
  smooth_run r z bounds (newr, newz, failed) (zrange a (len r)) = Err (if len r <=? 2 * (len r - a) then ValueError else IndexError).
Proof.
  intros Lz Lr' Lz' Hab Hb Hf. unfold SmoothModel.smooth_run.
  assert (Ln : len (zrange a (len r)) = len r - a) by (unfold len at 1; rewrite zrange_length; lia). rewrite Ln.
  destruct (Z.leb_spec bounds (len r - a)); [|lia]. cbn [negb].
  destruct (Z.leb_spec (len r) (2 * (len r - a))) as [|Hs]; [reflexivity|].
  assert (Ez : len z = len r) by (unfold len; now rewrite Lz).
  assert (Er' : len newr = len r) by (unfold len; now rewrite Lr').
  assert (Ez' : len newz = len r) by (unfold len; now rewrite Lz').
  rewrite (last_zrange a (len r)) by exact Hab.
  assert (Em : forall (A : Type) (x : A) (f : Z -> A), match zrange a (len r) with [] => x | s :: _ => f s end = f a) by (intros; rewrite (zrange_cons a (len r)) by exact Hab; reflexivity). rewrite Em. clear Em.
  destruct (getz_ok r a ltac:(lia)) as [r0 ->]. destruct (getz_ok r (a - 1) ltac:(lia)) as [rm ->].
  destruct (getz_ok z a ltac:(lia)) as [z0 ->]. destruct (getz_ok z (a - 1) ltac:(lia)) as [zm ->]. cbn [bind]. cbv zeta.
  destruct (Z.ltb_spec (len r - 1) (len r - 1)); [lia|].
  destruct (getz_ok r (len r - 1) ltac:(lia)) as [re ->]. destruct (getz_ok r 0 ltac:(lia)) as [rs ->].
  destruct (getz_ok z (len r - 1) ltac:(lia)) as [ze ->]. destruct (getz_ok z 0 ltac:(lia)) as [zs ->]. cbn [bind].
  destruct (fit r z (zrange a (len r))) as [[cr cz]|]; [|contradiction].
  destruct (getz_ok newr (a - 1) ltac:(lia)) as [nr ->]. destruct (getz_ok newz (a - 1) ltac:(lia)) as [nz ->]. cbn [bind].
  unfold getz. destruct (Z.ltb_spec (a + (len r - a)) (len newr)); [lia|]. now rewrite andb_false_r.
Qed.
Lemma smooth_run_end_none r z bounds newr newz failed a : length z = length r ->
  a < len r -> bounds <= len r - a -> fit r z (zrange a (len r)) = None ->
  smooth_run r z bounds (newr, newz, failed) (zrange a (len r)) = if len r <=? 2 * (len r - a) then Err ValueError else Ok (newr, newz, true).
Proof.
  intros Lz Hab Hb Hf. unfold SmoothModel.smooth_run.
  assert (Ln : len (zrange a (len r)) = len r - a) by (unfold len at 1; rewrite zrange_length; lia). rewrite Ln.
  destruct (Z.leb_spec bounds (len r - a)); [|lia]. cbn [negb].
  destruct (Z.leb_spec (len r) (2 * (len r - a))) as [|Hs]; [reflexivity|].
  assert (Ez : len z = len r) by (unfold len; now rewrite Lz).
  rewrite (last_zrange a (len r)) by exact Hab.
  assert (Em : forall (A : Type) (x : A) (f : Z -> A), match zrange a (len r) with [] => x | s :: _ => f s end = f a) by (intros; rewrite (zrange_cons a (len r)) by exact Hab; reflexivity). rewrite Em. clear Em.
  destruct (getz_ok r a ltac:(lia)) as [r0 ->]. destruct (getz_ok r (a - 1) ltac:(lia)) as [rm ->].
  destruct (getz_ok z a ltac:(lia)) as [z0 ->]. destruct (getz_ok z (a - 1) ltac:(lia)) as [zm ->]. cbn [bind]. cbv zeta.
  destruct (Z.ltb_spec (len r - 1) (len r - 1)); [lia|].
  destruct (getz_ok r (len r - 1) ltac:(lia)) as [re ->]. destruct (getz_ok r 0 ltac:(lia)) as [rs ->].
  destruct (getz_ok z (len r - 1) ltac:(lia)) as [ze ->]. destruct (getz_ok z 0 ltac:(lia)) as [zs ->]. cbn [bind].
  now rewrite Hf.
Qed.

Definition good_run (N bounds : Z) (l : list Z) : Prop :=
  exists a b, l = zrange a b /\ a < b /\ bounds <= b - a /\ (2 * (b - a) < N -> 1 - N <= a) /\ b <= N.
(** every outcome of gen_newr on generated runs *)
Lemma gen_newr_any r z bounds runs : length z = length r -> Forall (good_run (len r) bounds) runs ->
  match gen_newr r z runs bounds with
  | Ok (newr, newz, _) => length newr = length r /\ length newz = length r /\ untouched r newr (concat runs) /\ untouched z newz (concat runs) /\
                          (forall l, In l runs -> In (len r - 1) l -> fit r z l = None)
  | Err e => e = ValueError \/ e = IndexError /\ In (len r - 1) (concat runs)
  end.
Proof.
  intros Lz. unfold SmoothModel.gen_newr.
  assert (K : forall runs newr newz f0, length newr = length r -> length newz = length r -> Forall (good_run (len r) bounds) runs ->
    match foldM (smooth_run r z bounds) runs (newr, newz, f0) with
    | Ok (newr', newz', _) => length newr' = length r /\ length newz' = length r /\ untouched newr newr' (concat runs) /\ untouched newz newz' (concat runs) /\
                          (forall l, In l runs -> In (len r - 1) l -> fit r z l = None)
    | Err e => e = ValueError \/ e = IndexError /\ In (len r - 1) (concat runs)
    end).
  { clear runs. induction runs as [|l runs IH]; intros newr newz f0 L1 L2 HF.
    - cbn. repeat split; try assumption; try (intros j _ _; reflexivity). intros l [].
    - pose proof (Forall_inv HF) as (a & b & -> & H1 & H2 & H3 & H4). pose proof (Forall_inv_tail HF) as HF'. cbn [foldM].
      destruct (Z.lt_ge_cases (2 * (b - a)) (len r)) as [S|S].
      2:{ assert (Ev : smooth_run r z bounds (newr, newz, f0) (zrange a b) = Err ValueError).
          { unfold SmoothModel.smooth_run. assert (Ln : len (zrange a b) = b - a) by (unfold len; rewrite zrange_length; lia). rewrite Ln.
            destruct (Z.leb_spec bounds (b - a)); [|lia]. cbn [negb]. destruct (Z.leb_spec (len r) (2 * (b - a))); [reflexivity|lia]. }
          rewrite Ev. cbn. now left. }
      assert (St : (exists nr nz f, smooth_run r z bounds (newr, newz, f0) (zrange a b) = Ok (nr, nz, f) /\ length nr = length r /\ length nz = length r /\
                untouched newr nr (zrange a b) /\ untouched newz nz (zrange a b) /\ (In (len r - 1) (zrange a b) -> fit r z (zrange a b) = None)) \/
              smooth_run r z bounds (newr, newz, f0) (zrange a b) = Err ValueError \/
              (smooth_run r z bounds (newr, newz, f0) (zrange a b) = Err IndexError /\ In (len r - 1) (zrange a b))).
      { destruct (Z.eq_dec b (len r)) as [Eb|Nb].
        - subst b. destruct (fit r z (zrange a (len r))) as [c|] eqn:Ef.
          + right. rewrite smooth_run_end; try assumption; [|now rewrite Ef]. destruct (Z.leb_spec (len r) (2 * (len r - a))); [now left|].
            right. split; [reflexivity|]. apply in_zrange. lia.
          + rewrite smooth_run_end_none by assumption. destruct (Z.leb_spec (len r) (2 * (len r - a))); [right; now left|].
            left. exists newr, newz, true. repeat split; try assumption; intros j _ _; reflexivity.
        - destruct (smooth_run_ok r z bounds newr newz f0 a b Lz L1 L2 H1 H2 (H3 S) ltac:(lia)) as [(nr & nz & f & -> & P1 & P2 & P3 & P4)| ->]; [|right; now left].
          left. exists nr, nz, f. repeat split; try assumption. intros Hin. apply in_zrange in Hin. lia. }
      destruct St as [(nr & nz & f & -> & P1 & P2 & P3 & P4 & P5)|[-> |[-> Hin]]]; [|cbn; now left|cbn; right; split; [reflexivity|apply in_or_app; now left]].
      cbn [bind]. specialize (IH nr nz f P1 P2 HF'). destruct (foldM _ runs _) as [[[nr' nz'] f']|e].
      2:{ destruct IH as [->|[-> Hin]]; [now left|]. right. split; [reflexivity|]. cbn. apply in_or_app. now right. }
      destruct IH as (Q1 & Q2 & Q3 & Q4 & Q5). split; [exact Q1|]. split; [exact Q2|]. split; [|split].
      + intros j Hj Hw. assert (E : len nr = len newr) by (unfold len; congruence).
        rewrite Q3; [apply P3; [exact Hj|]; intros x Hx; apply Hw; cbn; apply in_or_app; now left|lia|].
        intros x Hx. rewrite E. apply Hw. cbn. apply in_or_app. now right.
      + intros j Hj Hw. assert (E : len nz = len newz) by (unfold len; congruence).
        rewrite Q4; [apply P4; [exact Hj|]; intros x Hx; apply Hw; cbn; apply in_or_app; now left|lia|].
        intros x Hx. rewrite E. apply Hw. cbn. apply in_or_app. now right.
      + intros l [<-|Hl] Hin; [now apply P5|now apply Q5]. }
  intros HF. apply K; [reflexivity|exact Lz|exact HF].
Qed.

Lemma turn_good r z cutoff bounds bf outliers runs : length z = length r -> 0 <= bounds -> 2 * bf <= len r ->
  all_outliers sqrt r z cutoff bf = Ok outliers -> generate_points bounds outliers (len r) = Ok runs -> Forall (good_run (len r) bounds) runs.
Proof.
  intros Lz Hb H2 Ho Hg. assert (Ez : len z = len r) by (unfold len; now rewrite Lz).
  destruct (list_eq_dec Z.eq_dec outliers []) as [E0|N0]; [subst outliers; injection Hg as <-; constructor|].
  destruct (generate_ok bounds outliers (len r) runs N0 Hg) as (HI & HC & HG & HM).
  apply Forall_forall. intros l Hl.
  rewrite Forall_forall in HC. destruct (HC l Hl) as (a & b & Hab & El). exists a, b. split; [exact El|]. split; [exact Hab|].
  destruct (gaps_disjoint runs HI ltac:(now apply Forall_forall) HG l Hl a b El Hab) as [Na Nb].
  assert (In_l : forall x, a <= x < b -> In x (concat runs)) by (intros x Hx; apply in_concat; exists l; split; [exact Hl|]; rewrite El; apply in_zrange; lia).
  assert (Hbl : b <= len r). { pose proof (In_l (b - 1) ltac:(lia)) as C. apply HM in C. lia. }
  pose proof (In_l a ltac:(lia)) as Ca. apply HM in Ca. destruct Ca as (Ha & d & Hd & Hda).
  pose proof (all_outliers_in r z cutoff bf outliers Ho d Hd) as Rd. rewrite Ez in Rd.
  assert (Ea : a = d - bounds).
  { destruct (Z.eq_dec a (d - bounds)) as [|N]; [assumption|]. exfalso. apply Na. apply HM. split; [lia|]. exists d. split; [exact Hd|lia]. }
  assert (Eb : d + bounds < b \/ b = len r).
  { destruct (Z.lt_ge_cases (d + bounds) b) as [|C]; [now left|]. right. destruct (Z.eq_dec b (len r)) as [|N]; [assumption|].
    exfalso. apply Nb. apply HM. split; [lia|]. exists d. split; [exact Hd|lia]. }
  split; [|split; [|exact Hbl]]; destruct Eb as [Eb|Eb]; try lia.
Qed.

(** the whole loop *)
Lemma smooth_outcome cutoff bf b0 : 0 <= b0 -> forall fuel b r z res, length z = length r -> 2 * bf <= len r -> 0 <= b ->
  smooth_loop sqrt fit fuel cutoff bf b0 b r z = Some res ->
  match res with
  | Ok (a, c) => length a = length r /\ length c = length r
  | Err e => In e [IndexError; ValueError; NameError]
  end.
Proof.
  intros Hb0. induction fuel as [|fuel IH]; intros b r z res Lz H2 Hb H; [discriminate|]. cbn [smooth_loop] in H.
  destruct (all_outliers_ok r z cutoff bf Lz H2) as [o Ho]. rewrite Ho in H. cbn [bind] in H.
  destruct (turn_runs r z cutoff b bf o Lz Hb H2 Ho) as [runs Hr]. rewrite Hr in H. cbn [bind] in H.
  pose proof (gen_newr_any r z b runs Lz (turn_good r z cutoff b bf o runs Lz Hb H2 Ho Hr)) as G.
  destruct (gen_newr r z runs b) as [[[a c] f]|e].
  - destruct G as (G1 & G2 & _). destruct f; cbn [negb] in H; [|injection H as <-; now split].
    destruct (b0 * 5 <? b + 1); [injection H as <-; cbn; tauto|].
    assert (E : len a = len r) by (unfold len; congruence).
    specialize (IH (b + 1) a c res ltac:(congruence) ltac:(lia) ltac:(lia) H). destruct res as [[a' c']|e]; [|exact IH]. now rewrite G1 in IH.
  - injection H as <-. destruct G as [-> |[-> _]]; cbn; tauto.
Qed.
(** fits that never converge *)
Lemma smooth_never cutoff bf b0 r z : 0 <= b0 -> length z = length r -> 2 * bf <= len r -> (forall l, fit r z l = None) ->
  (exists o, all_outliers sqrt r z cutoff bf = Ok o /\ o <> []) ->
  forall fuel b, 0 <= b -> (Z.to_nat (b0 * 5 + 1 - b) < fuel)%nat ->
  smooth_loop sqrt fit fuel cutoff bf b0 b r z = Some (Err NameError) \/ smooth_loop sqrt fit fuel cutoff bf b0 b r z = Some (Err ValueError).
Proof.
  intros Hb0 Lz H2 Hf (o & Ho & No). induction fuel as [|fuel IH]; intros b Hb Hfu; [lia|]. cbn [smooth_loop].
  rewrite Ho. cbn [bind]. destruct (turn_runs r z cutoff b bf o Lz Hb H2 Ho) as [runs Hr]. rewrite Hr. cbn [bind].
  pose proof (turn_good r z cutoff b bf o runs Lz Hb H2 Ho Hr) as HG.
  assert (Hne : runs <> []).
  { intros ->. destruct (generate_ok b o (len r) [] No Hr) as (_ & _ & _ & HM). destruct o as [|d o]; [contradiction|].
    pose proof (all_outliers_in r z cutoff bf _ Ho d (or_introl eq_refl)) as R. assert (Ez : len z = len r) by (unfold len; now rewrite Lz).
    destruct (HM (d - b)) as [_ M]. apply M. split; [lia|]. exists d. split; [now left|lia]. }
  assert (G : gen_newr r z runs b = Err ValueError \/ gen_newr r z runs b = Ok (r, z, true)).
  { unfold SmoothModel.gen_newr. assert (K : forall runs f0, Forall (good_run (len r) b) runs -> foldM (smooth_run r z b) runs (r, z, f0) = Err ValueError \/
      foldM (smooth_run r z b) runs (r, z, f0) = Ok (r, z, match runs with [] => f0 | _ => true end)).
    { clear - Lz Hf. induction runs as [|l runs IH]; intros f0 HF; [now right|].
      pose proof (Forall_inv HF) as (a & c & -> & H1 & H2 & H3 & H4). pose proof (Forall_inv_tail HF) as HF'. cbn [foldM].
      assert (S : smooth_run r z b (r, z, f0) (zrange a c) = Err ValueError \/ smooth_run r z b (r, z, f0) (zrange a c) = Ok (r, z, true)).
      { destruct (Z.eq_dec c (len r)) as [->|Nc].
        - rewrite smooth_run_end_none by auto. destruct (_ <=? _); auto.
        - destruct (Z.lt_ge_cases (2 * (c - a)) (len r)) as [Sh|Sh].
          + destruct (smooth_run_ok r z b r z f0 a c Lz eq_refl Lz H1 H2 (H3 Sh) ltac:(lia)) as [(nr & nz & f & E & _)|E]; [right|now left].
            rewrite E. revert E. unfold SmoothModel.smooth_run. rewrite Hf. destruct (negb _); [discriminate|]. destruct (_ <=? _); [discriminate|].
            destruct (zrange a c) as [|s t]; [discriminate|].
            repeat match goal with |- context [bind (getz ?l ?i) _] => destruct (getz l i); [cbn [bind]|discriminate] end. now intros [= <- <- <-].
          + left. unfold SmoothModel.smooth_run. assert (Ln : len (zrange a c) = c - a) by (unfold len; rewrite zrange_length; lia). rewrite Ln.
            destruct (Z.leb_spec b (c - a)); [|lia]. cbn [negb]. destruct (Z.leb_spec (len r) (2 * (c - a))); [reflexivity|lia]. }
      destruct S as [-> | ->]; [now left|]. cbn [bind]. destruct (IH true HF') as [-> | ->]; [now left|right]. now destruct runs. }
    destruct (K runs false HG) as [->| ->]; [now left|right]. now destruct runs. }
  destruct G as [-> | ->]; [now right|]. cbn [negb]. destruct (Z.ltb_spec (b0 * 5) (b + 1)); [now left|]. apply IH; lia.
Qed.
Lemma find_outliers_short r z cutoff b : length z = length r -> r <> [] -> len r < 2 * b -> find_outliers sqrt r z cutoff b = Err IndexError.
Proof.
  intros Lz Hr Hb. assert (Ez : len z = len r) by (unfold len; now rewrite Lz).
  assert (0 < len r) by (destruct r; [contradiction|unfold len; cbn [length]; lia]).
  unfold find_outliers. rewrite zrange_cons by lia. cbn [foldM]. unfold sharp.
  destruct (getz_ok z 0 ltac:(lia)) as [? ->]. destruct (getz_ok r 0 ltac:(lia)) as [? ->]. cbn [bind].
  assert (N : forall i l, i < - len l -> getz l i = Err IndexError).
  { intros i l Hi. unfold getz. destruct (Z.leb_spec (- len l) i); [lia|reflexivity]. }
  rewrite (N (0 - b * 2) z) by lia.
  destruct (getz z (0 - b)) as [?|e] eqn:E1; [|unfold getz in E1; destruct (_ && _); [discriminate|now injection E1 as <-]]. cbn [bind].
  destruct (getz r (0 - b)) as [?|e] eqn:E2; [|unfold getz in E2; destruct (_ && _); [discriminate|now injection E2 as <-]]. reflexivity.
Qed.
End G.

(** ** the angle that is tested *)
(** the cosine of the angle between the steps from [item] back to [item - b] and to
    [item - 2 b]: points on a straight line are no corner, a reversal is one *)
Lemma Qlt_bool_comp a a' c : (a == a')%Q -> Qlt_bool a c = Qlt_bool a' c.
Proof.
  intros E. destruct (Qlt_bool a c) eqn:A, (Qlt_bool a' c) eqn:B; try reflexivity.
  - apply Qlt_bool_iff in A. apply Qlt_bool_false_iff in B. lra.
  - apply Qlt_bool_false_iff in A. apply Qlt_bool_iff in B. lra.
Qed.
Lemma sharp_collinear sqrt r z cutoff b i r1 z1 r2 z2 r3 z3 k :
  getz r i = Ok r1 -> getz z i = Ok z1 -> getz r (i - b) = Ok r2 -> getz z (i - b) = Ok z2 -> getz r (i - b * 2) = Ok r3 -> getz z (i - b * 2) = Ok z3 ->
  (r1 - r2 == k * (r1 - r3) -> z1 - z2 == k * (z1 - z3) -> (forall a b, In (a, b) [(z1 - z2, r1 - r2); (z1 - z3, r1 - r3)] -> is_sqrt (sqrt (a * a + b * b)) (a * a + b * b)) ->
   ~ (r1 - r3) * (r1 - r3) + (z1 - z3) * (z1 - z3) == 0 ->
   (0 < k -> sharp sqrt r z cutoff b i = Ok (Qlt_bool 1 cutoff)) /\ (k < 0 -> sharp sqrt r z cutoff b i = Ok (Qlt_bool (-(1)) cutoff)))%Q.
Proof.
  intros E1 E2 E3 E4 E5 E6 Hr Hz Hs Hn. unfold sharp. rewrite E1, E2, E3, E4, E5, E6. cbn [bind]. cbv zeta.
  set (ar := (r1 - r2)%Q) in *. set (az := (z1 - z2)%Q) in *. set (br := (r1 - r3)%Q) in *. set (bz := (z1 - z3)%Q) in *. clearbody ar az br bz. clear E1 E2 E3 E4 E5 E6.
  destruct (Hs az ar) as [A1 A2]; [left; reflexivity|]. destruct (Hs bz br) as [B1 B2]; [right; left; reflexivity|].
  set (sa := sqrt (az * az + ar * ar)%Q) in *. set (sb := sqrt (bz * bz + br * br)%Q) in *. clearbody sa sb.
  assert (A3 : (sa * sa == k * k * (bz * bz + br * br))%Q) by (rewrite A2, Hr, Hz; ring).
  assert (P : (az * bz + ar * br == k * (bz * bz + br * br))%Q) by (rewrite Hr, Hz; ring).
  set (N := (bz * bz + br * br)%Q) in *. assert (HN : (0 < N)%Q). { assert (0 <= N)%Q by (unfold N; nra). destruct (Qlt_le_dec 0 N); [assumption|]. exfalso. apply Hn. unfold N in *. lra. }
  set (p := (az * bz + ar * br)%Q) in *. assert (D : (sa * sb * (sa * sb) == p * p)%Q) by (rewrite P; setoid_replace (sa * sb * (sa * sb))%Q with ((sa * sa) * (sb * sb))%Q by ring; rewrite A3, B2; ring).
  assert (Hd : (0 <= sa * sb)%Q) by nra. set (d := (sa * sb)%Q) in *. clearbody d p. clear A1 A2 A3 B1 B2. clearbody N.
  assert (F : ((d - p) * (d + p) == 0)%Q) by (ring_simplify; lra). apply Qmult_integral in F.
  split; intros Hk.
  - assert (Hp : (0 < p)%Q) by (rewrite P; nra). assert (E : (d == p)%Q) by (destruct F; lra).
    destruct (Qeq_bool d 0) eqn:Ed; [apply Qeq_bool_iff in Ed; lra|]. f_equal. apply Qlt_bool_comp. rewrite E. field. lra.
  - assert (Hp : (p < 0)%Q) by (rewrite P; nra). assert (E : (d == - p)%Q) by (destruct F; lra).
    destruct (Qeq_bool d 0) eqn:Ed; [apply Qeq_bool_iff in Ed; lra|]. f_equal. apply Qlt_bool_comp. rewrite E. field. lra.
Qed.
