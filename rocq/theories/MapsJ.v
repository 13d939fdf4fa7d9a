(** The loop of make_maps that computes J, Ly and By. *)
From Coq Require Import String Ascii List ZArith QArith Qabs Qround Lia Lqa Bool.
From Verif Require Import Prelude PreludeFacts NamingModel GridModel GridSpec GridProofs MapsModel MapsSpec MapsTrace.
Import ListNotations.
Open Scope Q_scope.

(** ** array_split *)

Lemma concat_cut lo sizes : concat (cut lo sizes) = seq lo (fold_right Nat.add 0%nat sizes).
Proof.
  revert lo. induction sizes as [|s t IH]; intros lo; cbn; [reflexivity|].
  rewrite IH. now rewrite <- seq_app.
Qed.

Lemma sum_repeat a n : fold_right Nat.add 0%nat (repeat a n) = (n * a)%nat.
Proof. induction n; cbn; lia. Qed.

Lemma sum_app l1 l2 : fold_right Nat.add 0%nat (l1 ++ l2) = (fold_right Nat.add 0 l1 + fold_right Nat.add 0 l2)%nat.
Proof. induction l1; cbn; lia. Qed.

Lemma section_sizes_sum nx n : n <> 0%nat -> fold_right Nat.add 0%nat (section_sizes nx n) = nx.
Proof.
  intros H. unfold section_sizes. rewrite sum_app, !sum_repeat.
  pose proof (Nat.div_mod nx n H). pose proof (Nat.mod_upper_bound nx n H). nia.
Qed.

Lemma array_split_partition nx n chunks : array_split nx n = Ok chunks -> concat chunks = seq 0 nx.
Proof.
  unfold array_split. destruct (Nat.eqb_spec n 0); [discriminate|]. intros [= <-].
  rewrite concat_cut, section_sizes_sum by assumption. reflexivity.
Qed.

Lemma index_of_spec x l i : index_of x l = Some i -> nth_error l i = Some x.
Proof.
  revert i. induction l as [|a l IH]; cbn; intros i H; [discriminate|].
  destruct (Nat.eqb_spec a x) as [->|].
  - injection H as <-. reflexivity.
  - destruct (index_of x l); cbn in H; [|discriminate]. injection H as <-. cbn. now apply IH.
Qed.

Lemma index_of_in x l : In x l -> exists i, index_of x l = Some i.
Proof.
  induction l as [|a l IH]; cbn; intros H; [destruct H|].
  destruct (Nat.eqb_spec a x) as [->|N]; [eauto|].
  destruct H as [H|H]; [congruence|]. destruct (IH H) as [i ->]. cbn. eauto.
Qed.

Lemma take_chunk_at chunk x i a z : index_of x chunk = Some i -> take_chunk chunk a (Z.of_nat i) z = a (Z.of_nat x) z.
Proof.
  intros H. apply index_of_spec in H. unfold take_chunk. rewrite Nat2Z.id.
  now rewrite (nth_error_nth _ _ _ H).
Qed.

(** ** lists of points *)

Lemma line_app a b i z : line (a ++ b) i z = (line a i z ++ line b i z)%list.
Proof. apply map_app. Qed.
Lemma line_rev a i z : line (rev a) i z = rev (line a i z).
Proof. apply map_rev. Qed.
Lemma skipn_map {A B} (f : A -> B) n l : skipn n (map f l) = map f (skipn n l).
Proof. revert l. induction n; intros [|a l]; cbn; auto. Qed.
Lemma line_skipn n a i z : line (skipn n a) i z = skipn n (line a i z).
Proof. unfold line. now rewrite skipn_map. Qed.
Lemma line_firstn n a i z : line (firstn n a) i z = firstn n (line a i z).
Proof. unfold line. now rewrite firstn_map. Qed.
Lemma line_length a i z : length (line a i z) = length a.
Proof. apply map_length. Qed.

Lemma linspace_length a b n : length (linspace a b n) = (n + 1)%nat.
Proof. unfold linspace. now rewrite map_length, seq_length. Qed.

Lemma pyslice_window {A} (l : list A) r k : length l = (4 * r + 1)%nat -> (k < 3)%nat -> (1 <= r)%nat ->
  window r k l = consecutive (r * k) (2 * r + 1) l.
Proof.
  intros L K R. unfold window, pyslice, consecutive. rewrite L.
  destruct (Nat.ltb_spec k 2) as [K2|K2].
  - replace (- (Z.of_nat r * (2 - Z.of_nat k)) <? 0)%Z with true by (symmetry; apply Z.ltb_lt; nia).
    f_equal. nia.
  - assert (k = 2%nat) by lia. subst k. f_equal. lia.
Qed.

Lemma pyslice_mid {A} (l : list A) r : length l = (4 * r + 1)%nat -> (1 <= r)%nat ->
  pyslice r (Some (- Z.of_nat r)%Z) l = consecutive r (2 * r + 1) l.
Proof.
  intros L R. unfold pyslice, consecutive. rewrite L.
  replace (- Z.of_nat r <? 0)%Z with true by (symmetry; apply Z.ltb_lt; lia).
  f_equal. lia.
Qed.

Lemma consecutive_length {A} lo n (l : list A) : (lo + n <= length l)%nat -> length (consecutive lo n l) = n.
Proof. intros H. unfold consecutive. rewrite firstn_length, skipn_length. lia. Qed.

Lemma line_consecutive lo n a i z : line (consecutive lo n a) i z = consecutive lo n (line a i z).
Proof. unfold consecutive. now rewrite line_firstn, line_skipn. Qed.

Lemma nth_consecutive {A} lo n (l : list A) i d : (i < n)%nat -> nth i (consecutive lo n l) d = nth (lo + i) l d.
Proof.
  intros H. unfold consecutive. 
  assert (F : forall (m : list A) n i, (i < n)%nat -> nth i (firstn n m) d = nth i m d).
  { induction m as [|a m IH]; intros [|n'] [|i'] Hi; cbn; try lia; auto. apply IH. lia. }
  rewrite F by assumption.
  clear. revert l. induction lo as [|lo IH]; intros [|a l]; cbn; auto. now destruct i.
Qed.

(** Trapezoid weights *)
Lemma nth_trapezoid n i : (2 <= n)%nat -> (i < n)%nat ->
  nth i (trapezoid_factors n) 0 = if (Nat.eqb i 0 || Nat.eqb i (n - 1))%bool then 1#2 else 1.
Proof.
  intros N I. unfold trapezoid_factors.
  destruct (Nat.eqb_spec i (n - 1)) as [->|H1].
  - rewrite orb_true_r. apply nth_set_nth_eq. rewrite set_nth_length, repeat_length. lia.
  - rewrite nth_set_nth_neq by assumption. destruct (Nat.eqb_spec i 0) as [->|H0]; cbn [orb].
    + apply nth_set_nth_eq. rewrite repeat_length. lia.
    + rewrite nth_set_nth_neq by assumption. 
      rewrite nth_indep with (d' := 1) by (rewrite repeat_length; lia). apply nth_repeat.
Qed.

Lemma combine_as_map {A B} (l1 : list A) (l2 : list B) n d1 d2 : length l1 = n -> length l2 = n ->
  combine l1 l2 = map (fun i => (nth i l1 d1, nth i l2 d2)) (seq 0 n).
Proof.
  intros L1 L2. revert l2 n L1 L2. induction l1 as [|a l1 IH]; intros [|b l2] n L1 L2; cbn in *; subst n; try discriminate; [reflexivity|].
  cbn. f_equal. rewrite (IH l2 (length l1)) by lia. now rewrite <- seq_shift, map_map.
Qed.

Section J.
Context {G : Type}.
Variable pR pZ : G -> arr2.
Variable trace : arr2 -> arr2 -> list Q -> list (arr2 * arr2).
Variable Byfunc : Q -> Q -> Q -> Q.
Variable fll : list (Q * Q) -> list Q -> Q.
Variable Jperp : G -> Z -> Z -> Q.
Variable t1 : Q -> Q -> list Q -> list (Q * Q).
Hypothesis Ht : pointwise trace t1.
Variable g : grid G.
Hypothesis Wg : well_formed g.
Variable r : nat.
Hypothesis Hr : (1 <= r)%nat.

Notation chunk_lines := (chunk_lines G pR pZ trace g).
Notation J_chunk := (J_chunk G pR pZ trace Byfunc fll Jperp g).

(** What a cell of the result arrays should hold. *)
Definition cell_ok (pol : G) (ym y yp : Q) (st : jstate) (x : nat) (j : Z) : Prop :=
  forall z s,
    s_J st (Z.of_nat x) j z s == J_spec pR pZ t1 Byfunc Jperp r pol (Z.of_nat x) z ym y yp /\
    (forall k, (k < 3)%nat -> s_sg st k (Z.of_nat x) j z s = length_spec pR pZ t1 fll r k pol (Z.of_nat x) z ym y yp) /\
    (forall k, (k < 3)%nat -> s_B st k (Z.of_nat x) j z s = B_spec pR pZ t1 Byfunc r k pol (Z.of_nat x) z ym y yp).

Lemma trace_length a b ys : length (trace a b ys) = length ys.
Proof. destruct Ht as [H1 H2]. rewrite <- (line_length _ 0 0), H1. apply H2. Qed.

Lemma set_chunk_in chunk j v a x i z s : index_of x chunk = Some i ->
  set_chunk chunk j v a (Z.of_nat x) j z s = v (Z.of_nat i) z.
Proof.
  intros H. unfold set_chunk. rewrite Z.eqb_refl, Nat2Z.id, H.
  replace (0 <=? Z.of_nat x)%Z with true by (symmetry; apply Z.leb_le; lia). reflexivity.
Qed.

Lemma set_chunk_out chunk j v a x z s : ~ In x chunk ->
  set_chunk chunk j v a (Z.of_nat x) j z s = a (Z.of_nat x) j z s.
Proof.
  intros H. unfold set_chunk. rewrite Nat2Z.id.
  destruct (index_of x chunk) as [i|] eqn:E.
  - apply index_of_spec in E. apply nth_error_In in E. contradiction.
  - destruct (_ && _)%bool; reflexivity.
Qed.

Lemma set_chunk_y chunk j v a x y z s : y <> j -> set_chunk chunk j v a x y z s = a x y z s.
Proof. intros H. unfold set_chunk. apply Z.eqb_neq in H. now rewrite H. Qed.

Lemma B_mid {A} (Bs : list A) : length Bs = (2 * r + 1)%nat -> (length Bs / 2 = r)%nat.
Proof. intros ->. replace (2 * r + 1)%nat with (1 + r * 2)%nat by lia. rewrite Nat.div_add by lia. reflexivity. Qed.

Lemma line_J_spec Jp Bs Rs : length Bs = (2 * r + 1)%nat -> length Rs = (2 * r + 1)%nat ->
  line_J Jp Bs Rs (trapezoid_factors (2 * r + 1)) ==
  (qsum (map (fun i => if (Nat.eqb i 0 || Nat.eqb i (2 * r))%bool then (1#2) * (Jp * nth r Bs 0 / nth i Bs 0 * nth i Rs 0)
                       else Jp * nth r Bs 0 / nth i Bs 0 * nth i Rs 0) (seq 0 (2 * r + 1)))) / inject_Z (2 * Z.of_nat r).
Proof.
  intros LB LR. unfold line_J. rewrite B_mid by assumption. rewrite LB.
  replace (Z.of_nat (2 * r + 1) - 1)%Z with (2 * Z.of_nat r)%Z by lia.
  assert (LF : length (trapezoid_factors (2 * r + 1)) = (2 * r + 1)%nat).
  { unfold trapezoid_factors. now rewrite !set_nth_length, repeat_length. }
  rewrite (combine_as_map Bs (trapezoid_factors (2 * r + 1)) (2 * r + 1) 0 0) by assumption.
  rewrite (combine_as_map _ Rs (2 * r + 1) (0, 0) 0) by (auto; now rewrite map_length, seq_length).
  rewrite map_map. unfold Qdiv at 1 3. apply Qmult_comp; [|reflexivity].
  apply qsum_map_ext. intros i Hi. apply in_seq in Hi. cbn [fst snd].
  rewrite nth_indep with (d' := (nth 0 Bs 0, nth 0 (trapezoid_factors (2 * r + 1)) 0)) by (rewrite map_length, seq_length; lia).
  rewrite (map_nth (fun i => (nth i Bs 0, nth i (trapezoid_factors (2 * r + 1)) 0))), seq_nth by lia. cbn [fst snd Nat.add].
  rewrite nth_trapezoid by lia. replace (2 * r + 1 - 1)%nat with (2 * r)%nat by lia.
  destruct (_ || _)%bool; ring.
Qed.

Lemma nth_error_of_nth {A} (l : list A) i d : (i < length l)%nat -> nth_error l i = Some (nth i l d).
Proof. apply nth_error_nth'. Qed.

Lemma J_chunk_ok pol ym y yp pm pp j st chunk :
  getPoloidalGrid g (inject_Z j + inject_Z (-1)) = Ok (pm, ym) ->
  getPoloidalGrid g (inject_Z j + inject_Z 1) = Ok (pp, yp) ->
  exists st', J_chunk r pol y j st chunk = Ok st' /\
    (forall x, In x chunk -> cell_ok pol ym y yp st' x j) /\
    (forall x z s, ~ In x chunk -> s_J st' (Z.of_nat x) j z s = s_J st (Z.of_nat x) j z s /\
        forall k, (k < 3)%nat -> s_sg st' k (Z.of_nat x) j z s = s_sg st k (Z.of_nat x) j z s /\
                  s_B st' k (Z.of_nat x) j z s = s_B st k (Z.of_nat x) j z s) /\
    (forall x y' z s, y' <> j -> s_J st' x y' z s = s_J st x y' z s /\
        forall k, (k < 3)%nat -> s_sg st' k x y' z s = s_sg st k x y' z s /\ s_B st' k x y' z s = s_B st k x y' z s).
Proof.
  intros Em Ep. unfold MapsModel.J_chunk, MapsModel.chunk_lines. rewrite Em. cbn [bind snd]. rewrite Ep. cbn [bind fst snd].
  set (tm := trace (take_chunk chunk (pR pol)) (take_chunk chunk (pZ pol)) (linspace y ym (2 * r))).
  set (tp := trace (take_chunk chunk (pR pol)) (take_chunk chunk (pZ pol)) (linspace y yp (2 * r))).
  set (coords := (rev tm ++ skipn 1 tp)%list).
  change (rev (linspace y ym (2 * r)) ++ skipn 1 (linspace y yp (2 * r)))%list with (all_y r ym y yp).
  assert (Lc : length coords = (4 * r + 1)%nat).
  { unfold coords. rewrite app_length, rev_length, skipn_length. unfold tm, tp.
    rewrite !trace_length, !linspace_length. lia. }
  assert (Ly : length (all_y r ym y yp) = (4 * r + 1)%nat).
  { unfold all_y. rewrite app_length, rev_length, skipn_length, !linspace_length. lia. }
  rewrite !(pyslice_mid _ r) by assumption.
  set (mc := consecutive r (2 * r + 1) coords). set (my := consecutive r (2 * r + 1) (all_y r ym y yp)).
  assert (Lmc : length mc = (2 * r + 1)%nat) by (apply consecutive_length; lia).
  assert (Lmy : length my = (2 * r + 1)%nat) by (apply consecutive_length; lia).
  set (Bs := map (fun cy i z => Byfunc (fst (fst cy) i z) (snd (fst cy) i z) (snd cy)) (combine mc my)).
  assert (LB : length Bs = (2 * r + 1)%nat) by (unfold Bs; rewrite map_length, combine_length; lia).
  set (zz := fun _ _ : Z => 0).
  rewrite (nth_error_of_nth Bs 0 zz) by lia.
  rewrite (nth_error_of_nth Bs r zz) by lia.
  rewrite (nth_error_of_nth Bs (length Bs - 1) zz) by lia.
  rewrite Lmy, Nat.eqb_refl. eexists; split; [reflexivity|].
  cbn [fold_left seq s_J s_sg s_B].
  assert (Pts : forall x i z, index_of x chunk = Some i ->
     line coords (Z.of_nat i) z = all_points pR pZ t1 r pol (Z.of_nat x) z ym y yp).
  { intros x i z E. unfold coords, all_points. rewrite line_app, line_rev, line_skipn. unfold tm, tp.
    destruct Ht as [H1 _]. rewrite !H1, !(take_chunk_at _ x) by assumption. reflexivity. }
  assert (BB : forall x i z, index_of x chunk = Some i ->
     map (fun b : arr2 => b (Z.of_nat i) z) Bs = B_along pR pZ t1 Byfunc r pol (Z.of_nat x) z ym y yp).
  { intros x i z E. unfold Bs, B_along. rewrite map_map. rewrite <- (Pts x i z E), <- line_consecutive.
    fold mc my. generalize mc my. clear. intros mc my. unfold line. revert my. induction mc as [|c l IH]; intros [|w l']; cbn; try reflexivity. f_equal. apply IH. }
  split; [|split].
  - intros x Hx z s. destruct (index_of_in _ _ Hx) as [i Ei]. cbn [s_J s_sg s_B]. split; [|split].
    + rewrite (set_chunk_in chunk j _ _ x i) by assumption.
      rewrite (take_chunk_at _ x) by assumption. rewrite (BB x i z Ei).
      replace (map (fun c : arr2 * arr2 => fst c (Z.of_nat i) z) mc)
        with (map fst (consecutive r (2 * r + 1) (all_points pR pZ t1 r pol (Z.of_nat x) z ym y yp))).
      2:{ rewrite <- (Pts x i z Ei), <- line_consecutive. fold mc. unfold line. now rewrite map_map. }
      rewrite line_J_spec; [reflexivity| |].
      * rewrite <- (BB x i z Ei), map_length. assumption.
      * rewrite map_length. rewrite <- (Pts x i z Ei), <- line_consecutive, line_length. assumption.
    + intros k Hk. unfold length_spec.
      assert (V : forall k', (k' < 3)%nat -> fll (line (window r k' coords) (Z.of_nat i) z) (window r k' (all_y r ym y yp)) =
         fll (consecutive (r * k') (2 * r + 1) (all_points pR pZ t1 r pol (Z.of_nat x) z ym y yp)) (consecutive (r * k') (2 * r + 1) (all_y r ym y yp))).
      { intros k' Hk'. rewrite !(pyslice_window _ r k') by assumption. rewrite line_consecutive, (Pts x i z Ei). reflexivity. }
      destruct k as [|[|[|k]]]; [| | |lia]; unfold upd; cbn [Nat.eqb]; rewrite (set_chunk_in chunk j _ _ x i) by assumption; now apply V.
    + assert (NB : forall k', (k' < 2 * r + 1)%nat -> nth k' Bs zz (Z.of_nat i) z = nth k' (B_along pR pZ t1 Byfunc r pol (Z.of_nat x) z ym y yp) 0).
      { intros k' Hk'. rewrite <- (BB x i z Ei).
        change 0 with ((fun b : arr2 => b (Z.of_nat i) z) zz). now rewrite map_nth. }
      intros k Hk. unfold B_spec.
      destruct k as [|[|[|k]]]; [| | |lia]; unfold upd; cbn [Nat.eqb]; rewrite (set_chunk_in chunk j _ _ x i) by assumption.
      * rewrite NB by lia. now rewrite Nat.mul_0_r.
      * rewrite NB by lia. now rewrite Nat.mul_1_r.
      * rewrite LB, NB by lia. f_equal. lia.
  - intros x z s Hx. split; [now apply set_chunk_out|].
    intros k Hk. destruct k as [|[|[|k]]]; [| | |lia]; unfold upd; cbn [Nat.eqb]; rewrite !set_chunk_out by assumption; auto.
  - intros x y' z s Hy. split; [now apply set_chunk_y|].
    intros k Hk. destruct k as [|[|[|k]]]; [| | |lia]; unfold upd; cbn [Nat.eqb]; rewrite !set_chunk_y by assumption; auto.
Qed.

(** All cells of slice [j]. *)
Definition slice_ok_J (st : jstate) (nx : nat) (j : Z) : Prop :=
  exists pol y pm ym pp yp,
    getPoloidalGrid g (inject_Z j) = Ok (Some pol, y) /\
    getPoloidalGrid g (inject_Z j + inject_Z (-1)) = Ok (pm, ym) /\
    getPoloidalGrid g (inject_Z j + inject_Z 1) = Ok (pp, yp) /\
    forall x, (x < nx)%nat -> cell_ok pol ym y yp st x j.

Lemma cell_ok_ext pol ym y yp st st' x j :
  (forall z s, s_J st' (Z.of_nat x) j z s = s_J st (Z.of_nat x) j z s /\
     forall k, (k < 3)%nat -> s_sg st' k (Z.of_nat x) j z s = s_sg st k (Z.of_nat x) j z s /\
               s_B st' k (Z.of_nat x) j z s = s_B st k (Z.of_nat x) j z s) ->
  cell_ok pol ym y yp st x j -> cell_ok pol ym y yp st' x j.
Proof.
  intros E H z s. destruct (E z s) as [E1 E2]. destruct (H z s) as (H1 & H2 & H3).
  split; [now rewrite E1|split; intros k Hk; destruct (E2 k Hk) as [Ea Eb]; rewrite ?Ea, ?Eb; auto].
Qed.

Lemma J_slice nx n j st : n <> 0%nat -> (0 <= j < ny g)%Z ->
  exists st', (let* chunks := array_split nx n in
      let* py := getPoloidalGrid g (inject_Z j) in
      match fst py with
      | None => Err TypeError
      | Some pol => foldM (J_chunk r pol (snd py) j) chunks st
      end) = Ok st' /\ slice_ok_J st' nx j /\
    (forall x y' z s, y' <> j -> s_J st' x y' z s = s_J st x y' z s /\
        forall k, (k < 3)%nat -> s_sg st' k x y' z s = s_sg st k x y' z s /\ s_B st' k x y' z s = s_B st k x y' z s).
Proof.
  intros Hn Hj. destruct (array_split nx n) as [chunks|] eqn:Ec.
  2:{ unfold array_split in Ec. destruct (Nat.eqb_spec n 0); [contradiction|discriminate]. }
  cbn [bind]. destruct (getPoloidalGrid_slice g Wg j Hj) as (pol & y & Epol).
  rewrite Epol. cbn [bind fst snd].
  destruct (getPoloidalGrid_total g Wg (inject_Z j + inject_Z (-1))) as (pm & ym & Em).
  destruct (getPoloidalGrid_total g Wg (inject_Z j + inject_Z 1)) as (pp & yp & Ep).
  apply array_split_partition in Ec.
  destruct (foldM_inv (fun pre st' => (forall x, In x (concat pre) -> cell_ok pol ym y yp st' x j) /\
     (forall x y' z s, y' <> j -> s_J st' x y' z s = s_J st x y' z s /\
        forall k, (k < 3)%nat -> s_sg st' k x y' z s = s_sg st k x y' z s /\ s_B st' k x y' z s = s_B st k x y' z s))
     (J_chunk r pol y j) chunks st) as (st' & E & H1 & H2).
  - split; [intros ? []|auto].
  - intros pre c post st1 El (I1 & I2).
    destruct (J_chunk_ok pol ym y yp pm pp j st1 c Em Ep) as (st2 & E2 & A1 & A2 & A3).
    exists st2. split; [exact E2|]. split.
    + intros x Hx. rewrite concat_app in Hx. cbn [concat] in Hx. rewrite app_nil_r in Hx.
      destruct (in_dec Nat.eq_dec x c) as [Hc|Hc]; [now apply A1|].
      apply in_app_iff in Hx. destruct Hx as [Hx|Hx]; [|contradiction].
      apply (cell_ok_ext _ _ _ _ st1); [|now apply I1]. intros z s. now apply A2.
    + intros x y' z s Hy. destruct (A3 x y' z s Hy) as [B1 B2]. destruct (I2 x y' z s Hy) as [C1 C2].
      split; [congruence|]. intros k Hk. destruct (B2 k Hk) as [-> ->]. now apply C2.
  - exists st'. split; [exact E|]. split; [|exact H2].
    exists pol, y, pm, ym, pp, yp. split; [assumption|split; [assumption|split; [assumption|]]].
    intros x Hx. apply H1. rewrite Ec. apply in_seq. lia.
Qed.

Lemma J_loop_ok nx n junk : n <> 0%nat ->
  exists st, J_loop G pR pZ trace Byfunc fll Jperp g r n nx junk = Ok st /\
    forall j, (0 <= j < ny g)%Z -> slice_ok_J st nx j.
Proof.
  intros Hn. unfold J_loop.
  match goal with |- exists st, foldM ?f _ _ = _ /\ _ =>
    destruct (foldM_inv (fun pre st => forall j, In j pre -> slice_ok_J st nx j) f (zrange 0 (ny g)) junk) as (st & E & H) end.
  - intros j [].
  - intros pre j post st El I1.
    assert (Hj : (0 <= j < ny g)%Z).
    { apply in_zrange. rewrite El. apply in_app_iff. right. now left. }
    destruct (J_slice nx n j st Hn Hj) as (st' & E & A1 & A2).
    exists st'. split; [exact E|]. intros j' Hj'. apply in_app_iff in Hj'. destruct Hj' as [Hj'|[<-|[]]]; [|exact A1].
    destruct (Z.eq_dec j' j) as [->|N]; [exact A1|].
    destruct (I1 j' Hj') as (pol & y & pm & ym & pp & yp & E1 & E2 & E3 & C).
    exists pol, y, pm, ym, pp, yp. split; [assumption|split; [assumption|split; [assumption|]]].
    intros x Hx. apply (cell_ok_ext _ _ _ _ st); [|now apply C]. intros z s. now apply A2.
  - exists st. split; [exact E|]. intros j Hj. apply H. now apply in_zrange.
Qed.
End J.
