(** Proofs about boundary.py. *)
From Coq Require Import List ZArith QArith Qabs Lia Lqa Bool.
From Verif Require Import Prelude PreludeFacts BoundaryModel BoundarySpec.
Import ListNotations.
Open Scope Q_scope.

(** ** Rectangles *)
Lemma rect_outside_ok r x z : rect_outside r x z = true <-> ~ (xmin r <= x <= xmax r /\ zmin r <= z <= zmax r).
Proof.
  unfold rect_outside. rewrite !orb_true_iff, !Qlt_bool_iff. split.
  - intros H ?. lra.
  - intros H. destruct (Qlt_le_dec x (xmin r)); [tauto|]. destruct (Qlt_le_dec (xmax r) x); [tauto|].
    destruct (Qlt_le_dec z (zmin r)); [tauto|]. destruct (Qlt_le_dec (zmax r) z); [tauto|]. exfalso. apply H. lra.
Qed.

Lemma no_outside_ok xs : length (no_outside xs) = length xs /\ forall b, In b (no_outside xs) -> b = false.
Proof. unfold no_outside. split; [apply map_length|]. intros b H. apply in_map_iff in H as (? & <- & _). reflexivity. Qed.
Lemma rect_array_ok r xs zs i x z : nth_error xs i = Some x -> nth_error zs i = Some z ->
  exists b, nth_error (rect_outside_array r xs zs) i = Some b /\ (b = true <-> ~ (xmin r <= x <= xmax r /\ zmin r <= z <= zmax r)).
Proof.
  intros Hx Hz. exists (rect_outside r x z). split; [|apply rect_outside_ok]. unfold rect_outside_array.
  assert (E : nth_error (combine xs zs) i = Some (x, z)).
  { clear r. revert zs i Hx Hz. induction xs as [|a xs IH]; intros [|c zs] [|i] Hx Hz; cbn [nth_error combine] in *; try discriminate; [congruence|apply IH; assumption]. }
  exact (map_nth_error (fun p => rect_outside r (fst p) (snd p)) i _ E).
Qed.

(** ** Upward rays *)
(** the vertical ray from p upwards crosses the segment *)
Definition crosses (p : pt) (ab : pt * pt) : bool :=
  let '(a, b) := ab in
  (Qlt_bool (fst a) (fst p) && Qlt_bool (fst p) (fst b) && Qlt_bool (orient a b p) 0) ||
  (Qlt_bool (fst b) (fst p) && Qlt_bool (fst p) (fst a) && Qlt_bool 0 (orient a b p)).
Fixpoint xors (l : list bool) : bool := match l with [] => false | b :: t => xorb b (xors t) end.

Lemma crosses_iff p a b : crosses p (a, b) = true <->
  (fst a < fst p /\ fst p < fst b /\ orient a b p < 0) \/ (fst b < fst p /\ fst p < fst a /\ 0 < orient a b p).
Proof. unfold crosses. rewrite orb_true_iff, !andb_true_iff, !Qlt_bool_iff. tauto. Qed.
Lemma orient_swap a b p : orient b a p == - orient a b p.
Proof. unfold orient. ring. Qed.
Lemma bool_iff a b : (a = true <-> b = true) -> a = b.
Proof. destruct a, b; intuition congruence. Qed.
Lemma crosses_sym p a b : crosses p (a, b) = crosses p (b, a).
Proof.
  apply bool_iff. rewrite !crosses_iff. pose proof (orient_swap a b p). split; intros [(?&?&?)|(?&?&?)]; [right|left|right|left]; repeat split; lra.
Qed.
Lemma in_triangle_iff a b c p : in_triangle a b c p = true <->
  (0 < orient a b p /\ 0 < orient b c p /\ 0 < orient c a p) \/ (orient a b p < 0 /\ orient b c p < 0 /\ orient c a p < 0).
Proof. unfold in_triangle. rewrite orb_true_iff, !andb_true_iff, !Qlt_bool_iff. tauto. Qed.

(** the segment does not contain p, for p on no vertical through its ends *)
Definition off (p : pt) (ab : pt * pt) : Prop :=
  (fst (fst ab) < fst p < fst (snd ab) \/ fst (snd ab) < fst p < fst (fst ab)) -> ~ orient (fst ab) (snd ab) p == 0.
Lemma off_segment p a b : ~ on_segment a b p -> off p (a, b).
Proof.
  intros H Hx E. cbn [fst snd] in *. apply H. unfold orient in E.
  assert (Hd : ~ fst b - fst a == 0) by lra.
  exists ((fst p - fst a) / (fst b - fst a)). split; [|split].
  - destruct Hx.
    + split; [apply Qle_shift_div_l|apply Qle_shift_div_r]; lra.
    + setoid_replace ((fst p - fst a) / (fst b - fst a)) with ((fst a - fst p) / (fst a - fst b)) by (field; lra).
      split; [apply Qle_shift_div_l|apply Qle_shift_div_r]; lra.
  - field. assumption.
  - assert (X : (fst b - fst a) * (snd p - snd a) == (snd b - snd a) * (fst p - fst a)) by lra.
    setoid_replace ((fst p - fst a) / (fst b - fst a) * (snd b - snd a)) with ((fst b - fst a) * (snd p - snd a) / (fst b - fst a)) by (rewrite X; field; assumption).
    field. assumption.
Qed.
Lemma off_swap p a b : off p (a, b) -> off p (b, a).
Proof. unfold off. cbn [fst snd]. intros H Hx E. apply H; [tauto|]. rewrite (orient_swap b a p), E. reflexivity. Qed.

Lemma pos_mul a b : 0 < a -> 0 < b -> 0 < a * b.
Proof. intros. nra. Qed.

(** the ray from p crosses an odd number of the sides of a triangle exactly if p is inside *)
Lemma triangle_parity a b c p : ~ fst a == fst p -> ~ fst b == fst p -> ~ fst c == fst p ->
  off p (a, b) -> off p (b, c) -> off p (c, a) ->
  xorb (crosses p (a, b)) (xorb (crosses p (b, c)) (crosses p (c, a))) = in_triangle a b c p.
Proof.
  intros Ha Hb Hc Oab Obc Oca.
  assert (I : orient a b p * (fst c - fst p) + orient b c p * (fst a - fst p) + orient c a p * (fst b - fst p) == 0) by (unfold orient; ring).
  unfold off in *. cbn [fst snd] in *.
  unfold crosses, in_triangle.
  set (A := orient a b p) in *. set (B := orient b c p) in *. set (C := orient c a p) in *.
  assert (T : forall u v, Qlt_bool u v = true /\ u < v \/ Qlt_bool u v = false /\ v <= u).
  { intros u v. destruct (Qlt_bool u v) eqn:E; [left; apply Qlt_bool_iff in E|right; apply Qlt_bool_false_iff in E]; tauto. }
  set (u := fst a) in *. set (v := fst b) in *. set (w := fst c) in *. set (x := fst p) in *. clearbody A B C u v w x.
  destruct (T u x) as [[E1 H1]|[E1 H1]], (T x u) as [[E2 H2]|[E2 H2]]; rewrite ?E1, ?E2; try (exfalso; lra);
  destruct (T v x) as [[E3 H3]|[E3 H3]], (T x v) as [[E4 H4]|[E4 H4]]; rewrite ?E3, ?E4; try (exfalso; lra);
  destruct (T w x) as [[E5 H5]|[E5 H5]], (T x w) as [[E6 H6]|[E6 H6]]; rewrite ?E5, ?E6; try (exfalso; lra);
  destruct (T A 0) as [[F1 G1]|[F1 G1]], (T 0 A) as [[F2 G2]|[F2 G2]]; rewrite ?F1, ?F2; try (exfalso; lra);
  destruct (T B 0) as [[F3 G3]|[F3 G3]], (T 0 B) as [[F4 G4]|[F4 G4]]; rewrite ?F3, ?F4; try (exfalso; lra);
  destruct (T C 0) as [[F5 G5]|[F5 G5]], (T 0 C) as [[F6 G6]|[F6 G6]]; rewrite ?F5, ?F6; try (exfalso; lra);
  cbn [andb orb xorb]; try reflexivity; exfalso.
  all: try (apply Oab; lra). all: try (apply Obc; lra). all: try (apply Oca; lra).
  all: clear T Oab Obc Oca; nra.
Qed.

(** ** Polygons: from sides to triangles *)
Definition hits (p : pt) (l : list (pt * pt)) : bool := xors (map (crosses p) l).
Lemma xors_odd {A} (f : A -> bool) l : xors (map f l) = Nat.odd (length (filter f l)).
Proof.
  induction l as [|a l IH]; [reflexivity|]. cbn [map xors filter]. rewrite IH. destruct (f a); [|destruct (Nat.odd _); reflexivity].
  cbn [length]. rewrite Nat.odd_succ, <- Nat.negb_odd. reflexivity.
Qed.
Definition tri_hits (p v : pt) (ab : pt * pt) : bool :=
  xorb (crosses p (v, fst ab)) (xorb (crosses p (fst ab, snd ab)) (crosses p (snd ab, v))).
Lemma chain_fan p v l : forall a, hits p (chain a l v) = xorb (crosses p (a, v)) (xors (map (tri_hits p v) (combine (a :: l) l))).
Proof.
  induction l as [|b l IH]; intros a; [reflexivity|].
  change (hits p (chain a (b :: l) v)) with (xorb (crosses p (a, b)) (hits p (chain b l v))). rewrite IH.
  change (combine (a :: b :: l) (b :: l)) with ((a, b) :: combine (b :: l) l). cbn [map xors]. unfold tri_hits at 2. cbn [fst snd].
  rewrite (crosses_sym p v a). destruct (crosses p (a, v)), (crosses p (a, b)), (crosses p (b, v)), (xors _); reflexivity.
Qed.
Lemma sides_fan p v t : hits p (sides (v :: t)) = xors (map (tri_hits p v) (fan (v :: t))).
Proof.
  destruct t as [|a t].
  - cbn [sides chain fan combine map xors]. unfold hits. cbn [map xors]. rewrite xorb_false_r. apply not_true_is_false. rewrite crosses_iff. lra.
  - change (hits p (sides (v :: a :: t))) with (xorb (crosses p (v, a)) (hits p (chain a t v))). rewrite chain_fan.
    change (fan (v :: a :: t)) with (combine (a :: t) t). rewrite (crosses_sym p v a). destruct (crosses p (a, v)), (xors _); reflexivity.
Qed.

Definition generic_x (vs : list pt) (p : pt) : Prop := forall v, In v vs -> ~ fst v == fst p.
Lemma in_fan_chain t : forall a b v a0, In (a, b) (combine (a0 :: t) t) -> In a (a0 :: t) /\ In b t /\ In (a, b) (chain a0 t v).
Proof.
  induction t as [|c t IH]; intros a b v a0 H; [destruct H|].
  change (combine (a0 :: c :: t) (c :: t)) with ((a0, c) :: combine (c :: t) t) in H. destruct H as [[= <- <-]|H].
  - split; [left; reflexivity|]. split; [left; reflexivity|left; reflexivity].
  - destruct (IH a b v c H) as (H1 & H2 & H3). split; [right; exact H1|]. split; [right; exact H2|right; exact H3].
Qed.
Lemma in_fan v t a b : In (a, b) (fan (v :: t)) -> In a t /\ In b t /\ In (a, b) (sides (v :: t)).
Proof.
  destruct t as [|c t]; [intros []|]. intros H. change (fan (v :: c :: t)) with (combine (c :: t) t) in H.
  destruct (in_fan_chain t a b v c H) as (H1 & H2 & H3). split; [exact H1|]. split; [right; exact H2|right; exact H3].
Qed.
Lemma map_ext_In {A B} (f g : A -> B) l : (forall x, In x l -> f x = g x) -> map f l = map g l.
Proof. intros H. apply map_ext_in. exact H. Qed.
Lemma hits_even_odd vs p : generic_x vs p -> (forall ab, In ab (sides vs ++ spokes vs) -> off p ab) -> hits p (sides vs) = even_odd vs p.
Proof.
  destruct vs as [|v t]; [reflexivity|]. intros Hx Ho. rewrite sides_fan. unfold even_odd. rewrite <- xors_odd. f_equal.
  apply map_ext_In. intros [a b] H. unfold tri_hits. cbn [fst snd]. destruct (in_fan v t a b H) as (Ha & Hb & Hs).
  apply triangle_parity.
  - apply Hx. left. reflexivity.
  - apply Hx. right. exact Ha.
  - apply Hx. right. exact Hb.
  - apply Ho, in_or_app. right. cbn [spokes]. apply in_map. exact Ha.
  - apply Ho, in_or_app. left. exact Hs.
  - apply off_swap, Ho, in_or_app. right. cbn [spokes]. apply in_map. exact Hb.
Qed.

(** ** The loop of the program counts these crossings *)
Lemma amax_ge l m : amax l = Ok m -> forall v, In v l -> v <= m.
Proof.
  destruct l as [|a t]; [discriminate|]. cbn [amax]. intros [= E].
  assert (G : forall t a v, (v = a \/ In v t) -> v <= fold_left (fun m v => if Qlt_bool m v then v else m) t a).
  { clear. induction t as [|b t IH]; intros a v H; cbn [fold_left].
    - destruct H as [->|[]]. lra.
    - destruct (Qlt_bool a b) eqn:E.
      + apply Qlt_bool_iff in E. destruct H as [->|[->|H]]; [|apply IH; left; reflexivity|apply IH; right; exact H].
        apply Qle_trans with b; [lra|apply IH; left; reflexivity].
      + apply Qlt_bool_false_iff in E. destruct H as [->|[->|H]]; [apply IH; left; reflexivity| |apply IH; right; exact H].
        apply Qle_trans with a; [lra|apply IH; left; reflexivity]. }
  intros v Hv. rewrite <- E. apply G. destruct Hv as [->|Hv]; [left; reflexivity|right; exact Hv].
Qed.

Definition steep_ok (ab : pt * pt) : Prop := fst (fst ab) == fst (snd ab) \/ 1 # 1000000 <= Qabs (fst (snd ab) - fst (fst ab)).
Lemma segment_crosses zo a b p : snd a < zo -> snd b < zo -> ~ fst a == fst p -> ~ fst b == fst p -> steep_ok (a, b) -> off p (a, b) ->
  match segment_intersect zo (fst p) (snd p) (fst a) (snd a) (fst b) (snd b) with None => false | Some h => h end = crosses p (a, b).
Proof.
  intros Za Zb Ha Hb Hs Ho. unfold segment_intersect. unfold steep_ok in Hs. cbn [fst snd] in Hs.
  destruct (Qlt_bool (Qabs (fst b - fst a)) (1 # 1000000)) eqn:E.
  - apply Qlt_bool_iff in E. destruct Hs as [Hs|Hs]; [|lra]. symmetry. apply not_true_is_false. rewrite crosses_iff. lra.
  - apply Qlt_bool_false_iff in E. assert (Hd : ~ fst b - fst a == 0). { intros X. rewrite X in E. apply (Qle_not_lt _ _ E). reflexivity. }
    apply bool_iff. rewrite crosses_iff, !andb_true_iff, !Qle_bool_iff.
    set (t := (fst p - fst a) / (fst b - fst a)) in *.
    assert (Ht : fst p == fst a + t * (fst b - fst a)) by (unfold t; field; exact Hd).
    assert (Eo : orient a b p == (fst b - fst a) * (snd p - (snd a + t * (snd b - snd a)))) by (unfold orient; rewrite Ht; ring).
    unfold off in Ho. cbn [fst snd] in Ho.
    set (h := snd a + t * (snd b - snd a)) in *.
    assert (Eh : snd a - snd p + t * (snd b - snd a) == h - snd p) by (unfold h; ring).
    assert (Hh : 0 <= t <= 1 -> h < zo). { intros [T0 T1]. unfold h. assert (0 <= (zo - snd a) * (1 - t)) by nra. assert (0 <= (zo - snd b) * t) by nra. assert (0 < (zo - snd a) * (1 - t) + (zo - snd b) * t) by nra. lra. }
    unfold in_unit. rewrite Eh.
    assert (Hb' : (0 <= t <= 1) <-> (fst a < fst p < fst b \/ fst b < fst p < fst a)).
    { split.
      - intros [T0 T1]. destruct (Qlt_le_dec (fst a) (fst b)); [left|right]; split; apply Qnot_le_lt; intros X.
        + apply Ha. assert (0 <= t * (fst b - fst a)) by nra. lra.
        + apply Hb. assert (0 <= (1 - t) * (fst b - fst a)) by nra. lra.
        + apply Hb. assert (0 <= (1 - t) * (fst a - fst b)) by nra. lra.
        + apply Ha. assert (0 <= t * (fst a - fst b)) by nra. lra.
      - intros [X|X]; unfold t.
        + split; [apply Qle_shift_div_l|apply Qle_shift_div_r]; lra.
        + setoid_replace ((fst p - fst a) / (fst b - fst a)) with ((fst a - fst p) / (fst a - fst b)) by (field; lra).
          split; [apply Qle_shift_div_l|apply Qle_shift_div_r]; lra. }
    clearbody t h. split.
    + intros [[T0 T1] H]. specialize (Hh (conj T0 T1)). assert (Hx := proj1 Hb' (conj T0 T1)).
      destruct (Qeq_bool (zo - snd p) 0) eqn:Ez; [discriminate|]. apply Qeq_bool_neq in Ez. rewrite andb_true_iff, !Qle_bool_iff in H. destruct H as [H0 H1].
      set (q := (h - snd p) / (zo - snd p)) in *. assert (Eq : h - snd p == q * (zo - snd p)) by (unfold q; field; exact Ez). clearbody q.
      assert (Hz : snd p < zo). { apply Qnot_le_lt. intros X. assert (0 <= (1 - q) * (snd p - zo)) by nra. lra. }
      assert (Hle : snd p <= h) by nra. specialize (Ho Hx). rewrite Eo in Ho.
      assert (Hlt : snd p < h). { destruct (Qlt_le_dec (snd p) h); [assumption|]. exfalso. apply Ho. setoid_replace h with (snd p) by lra. ring. }
      rewrite Eo. destruct Hx as [Hx|Hx]; [left|right]; repeat split; try lra; nra.
    + rewrite Eo. intros H. assert (Hx : fst a < fst p < fst b \/ fst b < fst p < fst a) by (destruct H as [(?&?&?)|(?&?&?)]; [left|right]; split; assumption).
      assert (T := proj2 Hb' Hx). specialize (Hh T). split; [exact T|].
      assert (Hz : snd p < h). { apply Qnot_le_lt. intros X. destruct H as [(?&?&?)|(?&?&?)]; nra. }
      destruct (Qeq_bool (zo - snd p) 0) eqn:Ez; [apply Qeq_bool_iff in Ez; lra|].
      rewrite andb_true_iff, !Qle_bool_iff. split; [apply Qle_shift_div_l|apply Qle_shift_div_r]; lra.
Qed.
