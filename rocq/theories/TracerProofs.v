(** Proofs about FieldTracer and trace_poincare. *)
From Coq Require Import String List ZArith QArith Qfield Lia Lqa Bool Permutation.
From Verif Require Import Prelude PreludeFacts TracerModel TracerSpec.
Import ListNotations.
Open Scope Q_scope.

(** ** lists *)
Lemma nth_map' {A B} (f : A -> B) l k d d' : (k < length l)%nat -> nth k (map f l) d = f (nth k l d').
Proof. intros H. rewrite (nth_indep _ d (f d')) by (rewrite map_length; exact H). apply map_nth. Qed.
Lemma flat_points_app a b : flat_points (a ++ b) = flat_points a ++ flat_points b.
Proof. apply flat_map_app. Qed.
Lemma flat_points_length ps : length (flat_points ps) = (2 * length ps)%nat.
Proof. induction ps as [|[a b] ps IH]; [reflexivity|]. unfold flat_points in *. cbn. rewrite IH. lia. Qed.
Lemma flat_points_nth ps p c d : (p < length ps)%nat -> (c < 2)%nat -> nth (2 * p + c) (flat_points ps) d = component c (nth p ps (0, 0)).
Proof.
  revert p. induction ps as [|[a b] ps IH]; intros p Hp Hc; [cbn in Hp; lia|].
  destruct p as [|p].
  - destruct c as [|[|c]]; [reflexivity|reflexivity|lia].
  - replace (2 * S p + c)%nat with (S (S (2 * p + c))) by lia. unfold flat_points. cbn [flat_map app nth]. apply IH; [cbn in Hp; lia|exact Hc].
Qed.
Lemma interleave_eq xs zs : interleave xs zs = flat_points (combine xs zs).
Proof. reflexivity. Qed.

Lemma split_list_length {A} sizes (l : list A) : length (split_list sizes l) = length sizes.
Proof. revert l. induction sizes as [|s t IH]; intros l; cbn; [reflexivity|]. now rewrite IH. Qed.
Lemma firstn_combine {A B} n (a : list A) (b : list B) : firstn n (combine a b) = combine (firstn n a) (firstn n b).
Proof. revert a b. induction n as [|n IH]; intros [|x a] [|y b]; cbn; try reflexivity. now rewrite IH. Qed.
Lemma skipn_combine {A B} n (a : list A) (b : list B) : length a = length b -> skipn n (combine a b) = combine (skipn n a) (skipn n b).
Proof. revert a b. induction n as [|n IH]; intros [|x a] [|y b] H; cbn; try reflexivity; try discriminate. apply IH. now injection H. Qed.
Lemma split_combine {A B} sizes (a : list A) (b : list B) : length a = length b ->
  map (fun c => combine (fst c) (snd c)) (combine (split_list sizes a) (split_list sizes b)) = split_list sizes (combine a b).
Proof.
  revert a b. induction sizes as [|s t IH]; intros a b H; [reflexivity|]. cbn [split_list combine map fst snd].
  rewrite firstn_combine, skipn_combine, IH by (try exact H; rewrite !skipn_length; lia). reflexivity.
Qed.
Fixpoint nsum (l : list nat) : nat := match l with [] => 0%nat | a :: t => (a + nsum t)%nat end.
Lemma nsum_repeat a n : nsum (repeat a n) = (n * a)%nat.
Proof. induction n; cbn in *; lia. Qed.
Lemma nsum_app a b : nsum (a ++ b) = (nsum a + nsum b)%nat.
Proof. induction a; cbn in *; lia. Qed.
Lemma split_sizes_sum n k : k <> 0%nat -> nsum (split_sizes n k) = n.
Proof.
  intros H. unfold split_sizes. rewrite nsum_app, !nsum_repeat.
  pose proof (Nat.div_mod n k H). pose proof (Nat.mod_upper_bound n k H). nia.
Qed.
Lemma split_list_concat {A} sizes (l : list A) : nsum sizes = length l -> concat (split_list sizes l) = l.
Proof.
  revert l. induction sizes as [|s t IH]; intros l H; cbn in *.
  - destruct l; [reflexivity|discriminate].
  - rewrite IH by (rewrite skipn_length; lia). apply firstn_skipn.
Qed.
Lemma array_split_concat {A} (l : list A) k : k <> 0%nat -> concat (array_split l k) = l.
Proof. intros H. apply split_list_concat. now apply split_sizes_sum. Qed.
Lemma split_list_sizes {A} sizes (l : list A) : nsum sizes = length l -> map (@length A) (split_list sizes l) = sizes.
Proof.
  revert l. induction sizes as [|s t IH]; intros l H; [reflexivity|]. cbn in *.
  rewrite IH by (rewrite skipn_length; lia). rewrite firstn_length. f_equal. lia.
Qed.
Lemma split_sizes_bound n limit s : (0 < limit <= n)%nat -> In s (split_sizes n (n / limit)) -> (limit <= s < 2 * limit)%nat.
Proof.
  intros Hl Hs. set (k := (n / limit)%nat) in *. assert (Hk : (1 <= k)%nat) by (apply Nat.div_le_lower_bound; lia).
  pose proof (Nat.div_mod n limit ltac:(lia)) as D1. pose proof (Nat.mod_upper_bound n limit ltac:(lia)) as B1. fold k in D1.
  pose proof (Nat.div_mod n k ltac:(lia)) as D2. pose proof (Nat.mod_upper_bound n k ltac:(lia)) as B2.
  assert (L1 : (limit <= n / k)%nat) by (apply Nat.div_le_lower_bound; nia).
  assert (L2 : (n / k < 2 * limit)%nat) by (apply Nat.div_lt_upper_bound; nia).
  unfold split_sizes in Hs. apply in_app_or in Hs. destruct Hs as [Hs|Hs].
  - pose proof (repeat_spec _ _ _ Hs) as ->. split; [lia|].
    assert (n mod k <> 0)%nat by (intros E; rewrite E in Hs; destruct Hs).
    destruct (Nat.lt_ge_cases (n / k + 1) (2 * limit)) as [|C]; [assumption|exfalso].
    assert (k * (2 * limit - 1) <= k * (n / k))%nat by (apply Nat.mul_le_mono_l; lia).
    assert (limit - 1 <= k * (limit - 1))%nat by nia. nia.
  - apply repeat_spec in Hs. subst s. lia.
Qed.

Lemma concat_axis1_map {A C} (ys : list A) (F : C -> A -> list Q) cs :
  concat_axis1 (length ys) (map (fun c => map (F c) ys) cs) = map (fun y => flat_map (fun c => F c y) cs) ys.
Proof.
  unfold concat_axis1. assert (E : forall ys', map (fun y => flat_map (fun c => F c y) cs) ys' =
    map (fun k => flat_map (fun c => nth k (map (F c) ys') []) cs) (seq 0 (length ys'))).
  { induction ys' as [|y ys' IH]; [reflexivity|]. cbn [map length seq]. f_equal. rewrite IH, <- seq_shift, map_map. reflexivity. }
  rewrite E. clear E. apply map_ext. intros k. induction cs as [|c cs IH]; [reflexivity|]. cbn. now rewrite IH.
Qed.

Lemma flat_chunks (g : Q * Q -> Q * Q) (cs : list (list (Q * Q))) : flat_map (fun c => flat_points (map g c)) cs = flat_points (map g (concat cs)).
Proof. induction cs as [|c cs IH]; [reflexivity|]. cbn. now rewrite IH, map_app, flat_points_app. Qed.

(** ** rows of the result *)
Section T.
Variable odeint : list Q -> list Q -> list (list Q).
Variable limit : nat.
Notation trace_rows := (trace_rows odeint limit). Notation follow := (follow odeint limit).

Definition chunking (n : nat) (pts : list (Q * Q)) (cs : list (list (Q * Q))) : Prop :=
  concat cs = pts /\ ((length pts < n)%nat /\ cs = [pts] \/ (n <= length pts)%nat /\ forall c, In c cs -> (n <= length c < 2 * n)%nat).
Lemma trace_rows_chunks xs zs ys : (0 < limit)%nat -> length xs = length zs -> rectangular odeint ->
  exists cs, chunking limit (combine xs zs) cs /\ trace_rows xs zs ys = concat_axis1 (length ys) (map (fun c => odeint (flat_points c) ys) cs).
Proof.
  intros Hl L R. assert (Lc : length (combine xs zs) = length xs) by (rewrite combine_length; lia). unfold TracerModel.trace_rows.
  destruct (Nat.ltb_spec (length xs) limit) as [Hs|Hs].
  - exists [combine xs zs]. split; [split; [cbn; apply app_nil_r|left; split; [lia|reflexivity]]|].
    cbn [map]. unfold concat_axis1. cbn [flat_map]. rewrite interleave_eq. destruct (R (flat_points (combine xs zs)) ys) as [RL _]. rewrite <- RL.
    set (M := odeint _ ys). clear. induction M as [|r M IH]; [reflexivity|]. cbn [length seq map nth]. rewrite app_nil_r. f_equal.
    rewrite <- seq_shift, map_map. rewrite IH at 1. reflexivity.
  - set (k := (length xs / limit)%nat). assert (Hk : k <> 0%nat). { assert (1 <= k)%nat; [|lia]. apply Nat.div_le_lower_bound; lia. }
    exists (array_split (combine xs zs) k). split; [split|].
    + now apply array_split_concat.
    + right. split; [lia|]. intros c Hc. unfold array_split in Hc.
      assert (In (length c) (map (@length _) (split_list (split_sizes (length (combine xs zs)) k) (combine xs zs)))) as H by now apply in_map.
      rewrite split_list_sizes in H by (now apply split_sizes_sum). rewrite Lc in H. apply (split_sizes_bound (length xs) limit); [lia|exact H].
    + f_equal. unfold array_split. rewrite Lc, <- L. rewrite <- (split_combine _ xs zs L), map_map. apply map_ext. intros [a b]. reflexivity.
Qed.
Lemma trace_rows_pointwise flow xs zs ys : (0 < limit)%nat -> length xs = length zs -> pointwise odeint flow ->
  trace_rows xs zs ys = map (fun y => flat_points (map (fun p => flow p (hd 0 ys) y) (combine xs zs))) ys.
Proof.
  intros Hl L P. assert (Lc : length (combine xs zs) = length xs) by (rewrite combine_length; lia). unfold TracerModel.trace_rows.
  destruct (Nat.ltb_spec (length xs) limit) as [Hs|Hs]; [apply P|].
  set (k := (length xs / limit)%nat). assert (Hk : k <> 0%nat). { assert (1 <= k)%nat; [|lia]. apply Nat.div_le_lower_bound; lia. }
  assert (E : map (fun c => odeint (interleave (fst c) (snd c)) ys) (combine (array_split xs k) (array_split zs k)) =
              map (fun c => map (fun y => flat_points (map (fun p => flow p (hd 0 ys) y) c)) ys) (array_split (combine xs zs) k)).
  { unfold array_split. rewrite Lc, <- L. rewrite <- (split_combine _ xs zs L), map_map. apply map_ext. intros [a b]. apply P. }
  rewrite E, (concat_axis1_map ys (fun c y => flat_points (map (fun p => flow p (hd 0 ys) y) c))).
  apply map_ext. intros y. rewrite flat_chunks. now rewrite array_split_concat.
Qed.

(** ** indices *)
Lemma nsize_app a b : nsize (a ++ b) = (nsize a * nsize b)%nat.
Proof. induction a as [|x a IH]; cbn in *; [lia|]. rewrite IH. lia. Qed.
Lemma offset_app sh s2 idx i2 : valid sh idx -> offset (sh ++ s2) (idx ++ i2) = (offset sh idx * nsize s2 + offset s2 i2)%nat.
Proof. intros H. induction H as [|i d idx sh Hi H IH]; cbn; [lia|]. rewrite IH, nsize_app. lia. Qed.
Lemma offset_lt sh idx : valid sh idx -> (offset sh idx < nsize sh)%nat.
Proof. intros H. induction H as [|i d idx sh Hi H IH]; cbn; [lia|]. nia. Qed.
Lemma offset_result ny sh k idx c : valid sh idx -> offset (ny :: sh ++ [2%nat]) (k :: idx ++ [c]) = (k * (2 * nsize sh) + (2 * offset sh idx + c))%nat.
Proof. intros H. cbn [offset]. rewrite offset_app by exact H. rewrite nsize_app. cbn. lia. Qed.
Lemma offset_zeros sh : offset sh (repeat 0%nat (length sh)) = 0%nat.
Proof. induction sh as [|d sh IH]; [reflexivity|]. cbn. now rewrite IH. Qed.

Lemma nth_concat_rows (rows : list (list Q)) w k j d : (forall r, In r rows -> length r = w) -> (k < length rows)%nat -> (j < w)%nat ->
  nth (k * w + j) (concat rows) d = nth j (nth k rows []) d.
Proof.
  revert k. induction rows as [|r rows IH]; intros k Hw Hk Hj; [cbn in Hk; lia|].
  assert (Hr : length r = w) by (apply Hw; now left). destruct k as [|k]; cbn [concat nth].
  - rewrite app_nth1 by lia. reflexivity.
  - rewrite app_nth2 by nia. replace (S k * w + j - length r)%nat with (k * w + j)%nat by nia. apply IH; [intros; apply Hw; now right|cbn in Hk; lia|exact Hj].
Qed.
Lemma concat_rows_length (rows : list (list Q)) w : (forall r, In r rows -> length r = w) -> length (concat rows) = (length rows * w)%nat.
Proof. induction rows as [|r rows IH]; intros H; [reflexivity|]. cbn. rewrite app_length, IH by (intros; apply H; now right). rewrite (H r) by now left. lia. Qed.

(** ** start points *)
Lemma list_eq_eqb a b : shape_eqb a b = true <-> a = b.
Proof. unfold shape_eqb. destruct (list_eq_dec Nat.eq_dec a b); split; intros; congruence. Qed.
Lemma list_neq_eqb a b : shape_eqb a b = false <-> a <> b.
Proof. unfold shape_eqb. destruct (list_eq_dec Nat.eq_dec a b); split; intros; congruence. Qed.
Lemma starts_match x z sh fx fz : wf x -> wf z -> starts x z sh fx fz ->
  exists x' z', match_shapes x z = Ok (x', z') /\ shape x' = sh /\ shape z' = sh /\ length (data x') = nsize sh /\ length (data z') = nsize sh /\
    forall idx, valid sh idx -> nth (offset sh idx) (combine (data x') (data z')) (0, 0) = (fx idx, fz idx).
Proof.
  intros Wx Wz H.
  assert (N : forall (a b : list Q) i, length a = length b -> nth i (combine a b) (0, 0) = (nth i a 0, nth i b 0)) by (intros; now apply combine_nth).
  assert (R : forall (a : Q) n i, (i < n)%nat -> nth i (repeat a n) 0 = a).
  { intros a n. induction n as [|n IH]; intros [|i] Hi; cbn; try lia; [reflexivity|apply IH; lia]. }
  destruct H as [E|E S L|E S1 S L]; unfold match_shapes.
  - rewrite (proj2 (list_eq_eqb (shape x) (shape z)) E). exists x, z. unfold wf, size in *. repeat split; try congruence.
    intros idx Hi. rewrite N by congruence. unfold get. now rewrite <- E.
  - rewrite (proj2 (list_neq_eqb (shape x) (shape z)) E). rewrite (proj2 (Nat.eqb_eq (size x) 1) S). exists (broadcast1 x (shape z)), z. unfold broadcast1. cbn [shape data].
    replace (length (shape x) - length (shape z))%nat with 0%nat by lia. cbn [repeat app]. rewrite repeat_length. unfold wf, size in *. repeat split; try congruence.
    intros idx Hi. rewrite N by (rewrite repeat_length; congruence). rewrite R by now apply offset_lt. unfold get. rewrite offset_zeros. rewrite S in Wx. f_equal.
    destruct (data x); [discriminate|reflexivity].
  - rewrite (proj2 (list_neq_eqb (shape x) (shape z)) E). rewrite (proj2 (Nat.eqb_neq (size x) 1) S1), (proj2 (Nat.eqb_eq (size z) 1) S).
    exists x, (broadcast1 z (shape x)). unfold broadcast1. cbn [shape data].
    replace (length (shape z) - length (shape x))%nat with 0%nat by lia. cbn [repeat app]. rewrite repeat_length. unfold wf, size in *. repeat split; try congruence.
    intros idx Hi. rewrite N by (rewrite repeat_length; congruence). rewrite R by now apply offset_lt. unfold get. rewrite offset_zeros. rewrite S in Wz. f_equal.
    destruct (data z); [discriminate|reflexivity].
Qed.

Lemma follow_pointwise flow x z ys sh fx fz : (0 < limit)%nat -> pointwise odeint flow -> (2 <= length ys)%nat -> wf x -> wf z -> starts x z sh fx fz ->
  exists r, follow x z ys = Ok r /\ shape r = length ys :: sh ++ [2%nat] /\ wf r /\
    forall k idx c, (k < length ys)%nat -> valid sh idx -> (c < 2)%nat ->
      get r (k :: idx ++ [c]) = component c (flow (fx idx, fz idx) (hd 0 ys) (nth k ys 0)).
Proof.
  intros Hl P Hy Wx Wz H. destruct (starts_match x z sh fx fz Wx Wz H) as (x' & z' & E & Sx & Sz & Lx & Lz & N).
  unfold TracerModel.follow. destruct (Nat.ltb_spec (length ys) 2); [lia|]. rewrite E. cbn [bind]. rewrite Sx, Sz.
  replace ((length sh =? 1)%nat && negb (length sh =? 1)%nat)%bool with false by (destruct (length sh =? 1)%nat; reflexivity).
  rewrite (trace_rows_pointwise flow) by (try assumption; congruence).
  set (pts := combine (data x') (data z')) in *. set (rows := map _ ys).
  assert (Lp : length pts = nsize sh) by (unfold pts; rewrite combine_length; lia).
  assert (Lr : length rows = length ys) by (unfold rows; apply map_length).
  assert (W : forall r, In r rows -> length r = (2 * nsize sh)%nat).
  { intros r Hr. apply in_map_iff in Hr. destruct Hr as (y & <- & _). rewrite flat_points_length, map_length. lia. }
  unfold reshape. assert (Sz2 : nsize (length ys :: sh ++ [2%nat]) = length (concat rows)).
  { rewrite (concat_rows_length rows (2 * nsize sh) W), Lr. cbn [nsize]. rewrite nsize_app. cbn. lia. }
  rewrite Sz2, Nat.eqb_refl. eexists. split; [reflexivity|]. split; [reflexivity|]. split; [unfold wf, size; cbn [shape data]; now rewrite Sz2|].
  intros k idx c Hk Hi Hc. unfold get. cbn [shape data]. rewrite offset_result by exact Hi.
  pose proof (offset_lt sh idx Hi) as Ho.
  rewrite (nth_concat_rows rows) by (try exact W; lia).
  unfold rows. rewrite (nth_map' _ ys k [] 0) by exact Hk. rewrite flat_points_nth by (try exact Hc; rewrite map_length; lia).
  rewrite (nth_map' _ pts (offset sh idx) (0, 0) (0, 0)) by lia. unfold pts. rewrite N by exact Hi. reflexivity.
Qed.
Lemma follow_chunked x z ys sh fx fz : (0 < limit)%nat -> rectangular odeint -> (2 <= length ys)%nat -> wf x -> wf z -> starts x z sh fx fz ->
  exists r cs, follow x z ys = Ok r /\ shape r = length ys :: sh ++ [2%nat] /\ wf r /\ (exists pts, chunking limit pts cs /\ length pts = nsize sh /\
      (forall idx, valid sh idx -> nth (offset sh idx) pts (0, 0) = (fx idx, fz idx))) /\
    data r = concat (concat_axis1 (length ys) (map (fun c => odeint (flat_points c) ys) cs)).
Proof.
  intros Hl P Hy Wx Wz H. destruct (starts_match x z sh fx fz Wx Wz H) as (x' & z' & E & Sx & Sz & Lx & Lz & N).
  unfold TracerModel.follow. destruct (Nat.ltb_spec (length ys) 2); [lia|]. rewrite E. cbn [bind]. rewrite Sx, Sz.
  replace ((length sh =? 1)%nat && negb (length sh =? 1)%nat)%bool with false by (destruct (length sh =? 1)%nat; reflexivity).
  destruct (trace_rows_chunks (data x') (data z') ys Hl ltac:(congruence) P) as (cs & C & ER). rewrite ER.
  set (rows := concat_axis1 _ _).
  assert (Lp : length (combine (data x') (data z')) = nsize sh) by (rewrite combine_length; lia).
  assert (Lr : length rows = length ys) by (unfold rows, concat_axis1; now rewrite map_length, seq_length).
  assert (W : forall r, In r rows -> length r = (2 * nsize sh)%nat).
  { intros r Hr. unfold rows, concat_axis1 in Hr. apply in_map_iff in Hr. destruct Hr as (k & <- & Hk). apply in_seq in Hk.
    rewrite <- Lp. destruct C as [<- _]. clear -P Hk. induction cs as [|c cs IH]; [reflexivity|]. cbn [map flat_map concat]. rewrite !app_length, IH.
    destruct (P (flat_points c) ys) as [P1 P2]. rewrite (P2 (nth k (odeint (flat_points c) ys) [])) by (apply nth_In; lia). rewrite flat_points_length. lia. }
  unfold reshape. assert (Sz2 : nsize (length ys :: sh ++ [2%nat]) = length (concat rows)).
  { rewrite (concat_rows_length rows (2 * nsize sh) W), Lr. cbn [nsize]. rewrite nsize_app. cbn. lia. }
  rewrite Sz2, Nat.eqb_refl. eexists. exists cs. split; [reflexivity|]. split; [reflexivity|]. split; [unfold wf, size; cbn [shape data]; now rewrite Sz2|].
  split; [|reflexivity]. exists (combine (data x') (data z')). split; [exact C|]. split; [exact Lp|exact N].
Qed.
(** the other inputs *)
Lemma follow_errors x z ys : rectangular odeint -> (0 < limit)%nat -> wf x -> wf z -> (2 <= length ys)%nat ->
  shape x <> shape z -> size x <> 1%nat -> size z <> 1%nat -> follow x z ys = Err ValueError.
Proof.
  intros _ _ _ _ Hy N1 N2 N3. unfold TracerModel.follow. destruct (Nat.ltb_spec (length ys) 2); [lia|]. unfold match_shapes.
  rewrite (proj2 (list_neq_eqb (shape x) (shape z)) N1). rewrite (proj2 (Nat.eqb_neq (size x) 1) N2), (proj2 (Nat.eqb_neq (size z) 1) N3). reflexivity.
Qed.
End T.
