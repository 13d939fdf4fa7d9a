(** PolygonBoundaryXZ.outside at every position, also below the vertices. *)
From Coq Require Import List ZArith QArith Qabs Lia Lqa Bool.
From Verif Require Import Prelude PreludeFacts BoundaryModel BoundarySpec BoundaryProofs BoundaryLoop BoundaryConvex.
Import ListNotations.
Open Scope Q_scope.

Definition wide (ab : pt * pt) : bool := Qle_bool (1 # 1000000) (Qabs (fst (snd ab) - fst (fst ab))).
Lemma above_iff p v : above p v = true <-> fst v == fst p /\ snd p < snd v.
Proof. unfold above. rewrite andb_true_iff, Qeq_bool_iff, Qlt_bool_iff. tauto. Qed.
Lemma at_or_above_iff p a b : at_or_above p (a, b) = true <->
  (fst a < fst b /\ fst a <= fst p /\ fst p <= fst b /\ orient a b p <= 0) \/ (fst b < fst a /\ fst b <= fst p /\ fst p <= fst a /\ 0 <= orient a b p).
Proof. unfold at_or_above. rewrite orb_true_iff, !andb_true_iff, !Qlt_bool_iff, !Qle_bool_iff. tauto. Qed.
Lemma ends_above_iff p a b : ends_above p (a, b) = true <->
  (fst a < fst b /\ fst b == fst p /\ snd p < snd b) \/ (fst b < fst a /\ fst a == fst p /\ snd p < snd a).
Proof. unfold ends_above. rewrite orb_true_iff, !andb_true_iff, !Qlt_bool_iff, !above_iff. tauto. Qed.

Lemma convex_lt t u v w : 0 <= t -> t <= 1 -> u < w -> v < w -> u + t * (v - u) < w.
Proof. intros T1 T2 U V. destruct (Qlt_le_dec 0 t) as [T|T]. { assert (0 < t * (w - v)) by nra. assert (0 <= (1 - t) * (w - u)) by nra. nra. } assert (E : t == 0) by lra. rewrite E. lra. Qed.
Lemma segment_any zo a b p : snd a < zo -> snd b < zo ->
  match segment_intersect zo (fst p) (snd p) (fst a) (snd a) (fst b) (snd b) with None => false | Some h => h end = wide (a, b) && at_or_above p (a, b).
Proof.
  intros Za Zb. unfold segment_intersect, wide. cbn [fst snd].
  destruct (Qlt_bool (Qabs (fst b - fst a)) (1 # 1000000)) eqn:E.
  - apply Qlt_bool_iff in E. assert (F : Qle_bool (1 # 1000000) (Qabs (fst b - fst a)) = false).
    { apply not_true_iff_false. rewrite Qle_bool_iff. lra. } rewrite F. reflexivity.
  - apply Qlt_bool_false_iff in E. assert (F : Qle_bool (1 # 1000000) (Qabs (fst b - fst a)) = true) by (apply Qle_bool_iff; exact E). rewrite F, andb_true_l.
    assert (Hd : ~ fst b - fst a == 0). { intros Z0. rewrite Z0 in E. cbn in E. lra. }
    apply bool_iff. rewrite at_or_above_iff, !andb_true_iff, !Qle_bool_iff.
    set (d := fst b - fst a) in *. set (t := (fst p - fst a) / d). assert (Et : t * d == fst p - fst a) by (unfold t; field; exact Hd).
    assert (Eo : orient a b p == d * (snd p - (snd a + t * (snd b - snd a)))) by (unfold orient; fold d; rewrite <- Et; ring).
    set (h := snd a + t * (snd b - snd a)) in *.
    assert (Eh : snd a - snd p + t * (snd b - snd a) == h - snd p) by (unfold h; ring).
    assert (Ht : (0 <= t /\ t <= 1) <-> (0 < d /\ fst a <= fst p /\ fst p <= fst b) \/ (d < 0 /\ fst b <= fst p /\ fst p <= fst a)).
    { assert (Eb : fst b == fst a + d) by (unfold d; ring). clearbody d. clear Eo E F. clearbody t. clear h Eh.
      destruct (Qlt_le_dec 0 d) as [D|D].
      - split; [intros [T1 T2]; left; split; [exact D|]; split; nra|]. intros [(_ & A & B)|(X & _)]; [|lra]. split; nra.
      - assert (D' : d < 0) by (destruct (Qlt_le_dec d 0); [assumption|exfalso; apply Hd; lra]).
        split; [intros [T1 T2]; right; split; [exact D'|]; split; nra|]. intros [(X & _)|(_ & A & B)]; [lra|]. split; nra. }
    assert (Hh : 0 <= t <= 1 -> h < zo) by (intros [T1 T2]; apply (convex_lt t (snd a) (snd b) zo); assumption).
    assert (Hu : 0 <= t <= 1 -> (in_unit (snd a - snd p + t * (snd b - snd a)) (zo - snd p) = true <-> snd p <= h)).
    { intros T. specialize (Hh T). unfold in_unit. destruct (Qeq_bool (zo - snd p) 0) eqn:Z0.
      - apply Qeq_bool_iff in Z0. split; [discriminate|]. intros; lra.
      - apply Qeq_bool_neq in Z0. rewrite andb_true_iff, !Qle_bool_iff, Eh. 
        set (q := (h - snd p) / (zo - snd p)). assert (Eq : q * (zo - snd p) == h - snd p) by (unfold q; field; exact Z0). clearbody q.
        destruct (Qlt_le_dec (snd p) zo) as [L|L].
        + split; [intros [Q1 Q2]; nra|]. intros P. split; nra.
        + assert (L' : zo < snd p) by (destruct (Qlt_le_dec zo (snd p)); [assumption|exfalso; apply Z0; lra]). split; [intros [Q1 Q2]; nra|]. intros P; lra. }
    change (snd a - snd p + (fst p - fst a) / d * (snd b - snd a)) with (snd a - snd p + t * (snd b - snd a)) in *.
    assert (Ed : (fst a < fst b <-> 0 < d) /\ (fst b < fst a <-> d < 0)) by (unfold d; split; split; intros; lra). destruct Ed as [-> ->].
    rewrite Eo. clearbody t h. clear Et Eh E F Eo.
    split.
    + intros [T U]. rewrite (Hu T) in U. destruct (proj1 Ht T) as [(D & A & B)|(D & A & B)]; [left|right]; (split; [exact D|]; split; [exact A|]; split; [exact B|nra]).
    + intros [(D & A & B & O)|(D & A & B & O)].
      * assert (T : 0 <= t <= 1) by (apply Ht; tauto). split; [exact T|]. apply (Hu T). nra.
      * assert (T : 0 <= t <= 1) by (apply Ht; tauto). split; [exact T|]. apply (Hu T). nra.
Qed.

Lemma outside_any vs P p : polygon_init (map fst vs) (map snd vs) = Ok P ->
  polygon_outside P (fst p) (snd p) = Ok (negb (xors (map (fun ab => wide ab && at_or_above p ab) (sides vs)))).
Proof.
  unfold polygon_init. destruct (amax (map snd vs)) as [m|] eqn:Em; [|discriminate]. intros [= <-].
  assert (Hm : forall v, In v vs -> snd v < m + 1). { intros v Hv. assert (snd v <= m) by (apply (amax_ge _ _ Em), in_map, Hv). lra. }
  unfold polygon_outside. cbn [xarr zarr zout]. rewrite map_length. cbv zeta. set (f := fun ab => wide ab && at_or_above p ab).
  assert (G : forall l o, (forall i, In i l -> i < length vs)%nat ->
    foldM (fun outside i => let* xp_0 := get (map fst vs) i in let* zp_0 := get (map snd vs) i in
      let* xp_1 := get (map fst vs) ((i + 1) mod length vs) in let* zp_1 := get (map snd vs) ((i + 1) mod length vs) in
      match segment_intersect (m + 1) (fst p) (snd p) xp_0 zp_0 xp_1 zp_1 with
      | None => Ok outside | Some intersect => Ok (xorb outside intersect) end) l o =
    Ok (xorb o (xors (map f (map (fun i => nth i (sides vs) ((0, 0), (0, 0))) l))))).
  { induction l as [|i l IH]; intros o Hl.
    - cbn. rewrite xorb_false_r. reflexivity.
    - assert (Hi := Hl i (or_introl eq_refl)).
      destruct (nth_error vs i) as [a|] eqn:Ea; [|apply nth_error_None in Ea; lia].
      destruct (nth_error vs ((i + 1) mod length vs)) as [b|] eqn:Eb; [|apply nth_error_None in Eb; assert (X := Nat.mod_upper_bound (i + 1) (length vs)); lia].
      assert (En := sides_nth vs i a b Ea Eb).
      cbn [foldM]. rewrite (get_map fst vs _ _ Ea), (get_map snd vs _ _ Ea), (get_map fst vs _ _ Eb), (get_map snd vs _ _ Eb). cbn [bind].
      assert (Hc := segment_any (m + 1) a b p (Hm _ (nth_error_In _ _ Ea)) (Hm _ (nth_error_In _ _ Eb))). change (wide (a, b) && at_or_above p (a, b)) with (f (a, b)) in Hc.
      assert (Ec : match segment_intersect (m + 1) (fst p) (snd p) (fst a) (snd a) (fst b) (snd b) with
                   | None => Ok o | Some intersect => Ok (xorb o intersect) end = Ok (xorb o (f (a, b)))).
      { destruct (segment_intersect _ _ _ _ _ _ _); rewrite <- Hc; [reflexivity|]. rewrite xorb_false_r. reflexivity. }
      rewrite Ec. cbn [bind]. rewrite IH by (intros j Hj; apply Hl; right; exact Hj).
      cbn [map]. rewrite (nth_error_nth _ _ _ En). cbn [xors]. rewrite xorb_assoc. reflexivity. }
  rewrite G by (intros i Hi; apply in_seq in Hi; lia).
  replace (map (fun i => nth i (sides vs) (0, 0, (0, 0))) (seq 0 (length vs))) with (sides vs); [destruct (xors _); reflexivity|].
  apply nth_ext with (d := ((0, 0), (0, 0))) (d' := ((0, 0), (0, 0))).
  - rewrite map_length, seq_length. apply sides_length.
  - intros i Hi. rewrite sides_length in Hi. rewrite (nth_indep (map _ _) _ ((fun i => nth i (sides vs) (0, 0, (0, 0))) 0%nat)) by (rewrite map_length, seq_length; lia).
    rewrite (map_nth (fun i => nth i (sides vs) (0, 0, (0, 0)))), seq_nth by lia. reflexivity.
Qed.

(** ** A step to the right *)
Definition right_of (e : Q) (p : pt) : pt := (fst p + e, snd p).
Lemma orient_right a b e p : orient a b (right_of e p) == orient a b p + (- (snd b - snd a)) * e.
Proof. unfold orient, right_of. cbn [fst snd]. ring. Qed.
Lemma xors_xor {A} (f g h : A -> bool) l : (forall x, In x l -> f x = xorb (g x) (h x)) -> xors (map f l) = xorb (xors (map g l)) (xors (map h l)).
Proof.
  induction l as [|a l IH]; intros H; [reflexivity|]. cbn [map xors]. rewrite (H a (or_introl eq_refl)), IH by (intros; apply H; now right).
  destruct (g a), (h a), (xors (map g l)), (xors (map h l)); reflexivity.
Qed.
Lemma not_on a b p : ~ on_segment a b p -> (fst a < fst b /\ fst a <= fst p <= fst b \/ fst b < fst a /\ fst b <= fst p <= fst a) -> ~ orient a b p == 0.
Proof.
  intros H Hx E. apply H. unfold orient in E. assert (Hd : ~ fst b - fst a == 0) by lra.
  set (t := (fst p - fst a) / (fst b - fst a)). assert (Et : t * (fst b - fst a) == fst p - fst a) by (unfold t; field; exact Hd). clearbody t.
  exists t. split; [|split].
  - destruct Hx as [[X [A B]]|[X [A B]]]; split; nra.
  - rewrite Et. ring.
  - assert (K : (fst b - fst a) * (snd p - (snd a + t * (snd b - snd a))) == 0) by (transitivity ((fst b - fst a) * (snd p - snd a) - (snd b - snd a) * (t * (fst b - fst a))); [ring|rewrite Et; exact E]).
    apply Qmult_integral in K. destruct K; [contradiction|lra].
Qed.

Lemma side_ends_of vs a b : In (a, b) (sides vs) -> In a vs /\ In b vs.
Proof. destruct vs as [|v t]; [intros []|]. cbn [sides]. intros H. apply in_chain_ends in H as [[->|Ha] [->|Hb]]; cbn; tauto. Qed.

Section Step.
Variables (vs : list pt) (p : pt).
Hypothesis Ho : forall a b, In (a, b) (sides vs) -> ~ on_segment a b p.
Hypothesis Hst : forall a b, In (a, b) (sides vs) -> fst a == fst b \/ 1 # 1000000 <= Qabs (fst b - fst a).

Definition near (e : Q) : Prop := 0 < e /\
  (forall v, In v vs -> (0 < fst v - fst p -> 0 < fst v - fst p - e) /\ (fst v - fst p <= 0 -> fst v - fst p - e < 0)) /\
  (forall a b, In (a, b) (sides vs) -> (0 < orient a b p -> 0 < orient a b (right_of e p)) /\ (orient a b p < 0 -> orient a b (right_of e p) < 0)).
Lemma near_exists : exists e0, 0 < e0 /\ forall e, 0 < e < e0 -> near e.
Proof.
  destruct (small_eps (map (fun v => (fst v - fst p, - (1))) vs ++ map (fun ab => (orient (fst ab) (snd ab) p, - (snd (snd ab) - snd (fst ab)))) (sides vs))) as (e0 & He0 & H).
  exists e0. split; [exact He0|]. intros e He. split; [lra|]. split.
  - intros v Hv. destruct (H e ltac:(lra) (fst v - fst p) (- (1))) as [A B].
    + apply in_or_app. left. apply in_map_iff. exists v. split; [reflexivity|exact Hv].
    + split; intros K; [specialize (A K)|]; lra.
  - intros a b Hab. destruct (H e ltac:(lra) (orient a b p) (- (snd b - snd a))) as [A B].
    + apply in_or_app. right. apply in_map_iff. exists (a, b). split; [reflexivity|exact Hab].
    + rewrite orient_right. split; assumption.
Qed.
Lemma near_x e v : near e -> In v vs -> ~ fst v == fst (right_of e p).
Proof.
  intros (E & N & _) Hv K. cbn [right_of fst] in K. destruct (N v Hv) as [A B].
  destruct (Qlt_le_dec 0 (fst v - fst p)) as [X|X]; [specialize (A X)|specialize (B X)]; lra.
Qed.
Lemma near_left e v : near e -> In v vs -> (fst v < fst p + e <-> fst v <= fst p) /\ (fst p + e < fst v <-> fst p < fst v).
Proof.
  intros (E & N & _) Hv. destruct (N v Hv) as [A B].
  destruct (Qlt_le_dec 0 (fst v - fst p)) as [X|X]; [specialize (A X)|specialize (B X)]; split; split; intros; lra.
Qed.
Lemma near_off e a b : near e -> In (a, b) (sides vs) -> ~ on_segment a b (right_of e p).
Proof.
  intros N H (t & T & E1 & E2). destruct (side_ends_of vs a b H) as [Ha Hb]. destruct (near_left e a N Ha) as [La Ra]. destruct (near_left e b N Hb) as [Lb Rb].
  pose proof (near_x e a N Ha) as Xa. pose proof (near_x e b N Hb) as Xb. cbn [right_of fst snd] in *.
  assert (O : orient a b (right_of e p) == 0) by (unfold orient, right_of; cbn [fst snd]; rewrite E1, E2; ring).
  assert (C : fst a < fst b /\ fst a < fst p + e < fst b \/ fst b < fst a /\ fst b < fst p + e < fst a).
  { destruct (Qlt_le_dec (fst a) (fst b)) as [D|D]; [left|right].
    - split; [exact D|]. assert (fst a <= fst p + e) by (rewrite E1; nra). assert (fst p + e <= fst b) by (rewrite E1; nra). lra.
    - assert (fst b <= fst p + e) by (rewrite E1; nra). assert (fst p + e <= fst a) by (rewrite E1; nra). lra. }
  assert (C' : fst a < fst b /\ fst a <= fst p <= fst b \/ fst b < fst a /\ fst b <= fst p <= fst a).
  { destruct C as [(D & A & B)|(D & A & B)]; [left|right]; (split; [exact D|]); [apply La in A; apply Rb in B|apply Lb in A; apply Ra in B]; lra. }
  pose proof (not_on a b p (Ho a b H) C') as NZ. destruct N as (_ & _ & N). destruct (N a b H) as [S1 S2].
  destruct (Qlt_le_dec 0 (orient a b p)) as [X|X]; [specialize (S1 X); lra|]. destruct (Qlt_le_dec (orient a b p) 0) as [Y|Y]; [specialize (S2 Y); lra|]. apply NZ. lra.
Qed.
Lemma wide_iff a b : In (a, b) (sides vs) -> wide (a, b) = true <-> ~ fst a == fst b.
Proof.
  intros H. unfold wide. cbn [fst snd]. rewrite Qle_bool_iff. destruct (Hst a b H) as [E|E]; [|split; [|tauto]].
  - split; [|tauto]. intros K _. assert (Z0 : fst b - fst a == 0) by lra. rewrite Z0 in K. cbn in K. lra.
  - intros _ Z0. assert (Z1 : fst b - fst a == 0) by lra. rewrite Z1 in E. cbn in E. lra.
Qed.
Lemma near_counted e ab : near e -> In ab (sides vs) ->
  wide ab && at_or_above p ab = xorb (wide ab && at_or_above (right_of e p) ab) (ends_above p ab).
Proof.
  intros N H. destruct ab as [a b]. destruct (side_ends_of vs a b H) as [Ha Hb]. destruct (near_left e a N Ha) as [La Ra]. destruct (near_left e b N Hb) as [Lb Rb].
  pose proof (near_x e a N Ha) as Xa. pose proof (near_x e b N Hb) as Xb.
  pose proof (not_on a b p (Ho a b H)) as NZ. destruct N as (_ & _ & N). destruct (N a b H) as [S1 S2].
  pose proof (wide_iff a b H) as W. cbn [right_of fst snd] in Xa, Xb.
  assert (K1 : wide (a, b) && at_or_above p (a, b) = true <-> at_or_above p (a, b) = true).
  { rewrite andb_true_iff, W, at_or_above_iff. intuition lra. }
  assert (K2 : wide (a, b) && at_or_above (right_of e p) (a, b) = true <-> at_or_above (right_of e p) (a, b) = true).
  { rewrite andb_true_iff, W, at_or_above_iff. cbn [right_of fst]. intuition lra. }
  rewrite (bool_iff _ _ K1), (bool_iff _ _ K2). clear K1 K2 W.
  assert (Oa : fst a == fst p -> orient a b p == (fst b - fst a) * (snd p - snd a)) by (intros E; unfold orient; rewrite E; ring).
  assert (Ob : fst b == fst p -> orient a b p == (fst b - fst a) * (snd p - snd b)) by (intros E; unfold orient; rewrite <- E; ring).
  destruct (Qlt_le_dec (fst a) (fst b)) as [D|D]; [|destruct (Qlt_le_dec (fst b) (fst a)) as [D'|D']].
  - destruct (Qlt_le_dec (fst p) (fst b)) as [B|B]; [|destruct (Qlt_le_dec (fst b) (fst p)) as [B'|B']].
    + (* left of b *) assert (Z0 : ends_above p (a, b) = false) by (apply not_true_iff_false; rewrite ends_above_iff; lra). rewrite Z0, xorb_false_r.
      apply bool_iff. rewrite !at_or_above_iff. cbn [right_of fst]. apply Rb in B. split.
      * intros [(_ & A1 & A2 & O)|(? & _)]; [|lra]. left. split; [exact D|]. split; [lra|]. split; [lra|]. apply Qlt_le_weak, S2. assert (~ orient a b p == 0) by (apply NZ; lra). lra.
      * intros [(_ & A1 & A2 & O)|(? & _)]; [|lra]. left. assert (A3 : fst a <= fst p) by (apply La; lra). split; [exact D|]. split; [exact A3|]. split; [lra|].
        destruct (Qlt_le_dec 0 (orient a b p)) as [X|X]; [specialize (S1 X); lra|exact X].
    + (* right of b *) assert (Z0 : ends_above p (a, b) = false) by (apply not_true_iff_false; rewrite ends_above_iff; lra). rewrite Z0, xorb_false_r.
      apply bool_iff. rewrite !at_or_above_iff. cbn [right_of fst]. destruct Lb as [_ Lb]. specialize (Lb ltac:(lra)). lra.
    + assert (E : fst b == fst p) by lra. specialize (Ob E).
      assert (Z0 : at_or_above (right_of e p) (a, b) = false) by (apply not_true_iff_false; rewrite at_or_above_iff; cbn [right_of fst]; destruct Lb as [_ Lb]; specialize (Lb ltac:(lra)); lra).
      rewrite Z0, xorb_false_l. apply bool_iff. rewrite at_or_above_iff, ends_above_iff. split.
      * intros [(_ & A1 & A2 & O)|(? & _)]; [|lra]. left. split; [exact D|]. split; [exact E|]. assert (~ orient a b p == 0) by (apply NZ; lra). nra.
      * intros [(_ & _ & A)|(? & _)]; [|lra]. left. split; [exact D|]. split; [lra|]. split; [lra|]. nra.
  - destruct (Qlt_le_dec (fst p) (fst a)) as [B|B]; [|destruct (Qlt_le_dec (fst a) (fst p)) as [B'|B']].
    + assert (Z0 : ends_above p (a, b) = false) by (apply not_true_iff_false; rewrite ends_above_iff; lra). rewrite Z0, xorb_false_r.
      apply bool_iff. rewrite !at_or_above_iff. cbn [right_of fst]. apply Ra in B. split.
      * intros [(? & _)|(_ & A1 & A2 & O)]; [lra|]. right. split; [exact D'|]. split; [lra|]. split; [lra|]. apply Qlt_le_weak, S1. assert (~ orient a b p == 0) by (apply NZ; lra). lra.
      * intros [(? & _)|(_ & A1 & A2 & O)]; [lra|]. right. assert (A3 : fst b <= fst p) by (apply Lb; lra). split; [exact D'|]. split; [exact A3|]. split; [lra|].
        destruct (Qlt_le_dec (orient a b p) 0) as [X|X]; [specialize (S2 X); lra|exact X].
    + assert (Z0 : ends_above p (a, b) = false) by (apply not_true_iff_false; rewrite ends_above_iff; lra). rewrite Z0, xorb_false_r.
      apply bool_iff. rewrite !at_or_above_iff. cbn [right_of fst]. destruct La as [_ La]. specialize (La ltac:(lra)). lra.
    + assert (E : fst a == fst p) by lra. specialize (Oa E).
      assert (Z0 : at_or_above (right_of e p) (a, b) = false) by (apply not_true_iff_false; rewrite at_or_above_iff; cbn [right_of fst]; destruct La as [_ La]; specialize (La ltac:(lra)); lra).
      rewrite Z0, xorb_false_l. apply bool_iff. rewrite at_or_above_iff, ends_above_iff. split.
      * intros [(? & _)|(_ & A1 & A2 & O)]; [lra|]. right. split; [exact D'|]. split; [exact E|]. assert (~ orient a b p == 0) by (apply NZ; lra). nra.
      * intros [(? & _)|(_ & _ & A)]; [lra|]. right. split; [exact D'|]. split; [lra|]. split; [lra|]. nra.
  - assert (Z0 : ends_above p (a, b) = false) by (apply not_true_iff_false; rewrite ends_above_iff; lra). rewrite Z0, xorb_false_r.
    apply bool_iff. rewrite !at_or_above_iff. lra.
Qed.

Lemma near_outside P e o : near e -> polygon_init (map fst vs) (map snd vs) = Ok P -> polygon_outside P (fst p + e) (snd p) = Ok o ->
  polygon_outside P (fst p) (snd p) = Ok (xorb o (Nat.odd (count (ends_above p) (sides vs)))).
Proof.
  intros N HP. change (fst p + e) with (fst (right_of e p)). change (snd p) with (snd (right_of e p)) at 1.
  rewrite (outside_any vs P (right_of e p) HP), (outside_any vs P p HP). intros [= <-].
  rewrite (xors_xor _ _ _ (sides vs) (fun ab => near_counted e ab N)). unfold count. rewrite <- xors_odd.
  f_equal. destruct (xors _), (xors _); reflexivity.
Qed.
End Step.

(** ** Convex polygons *)
Lemma convex_nth s : forall vs i j k a b c, convex s vs -> (i < j < k)%nat -> nth_error vs i = Some a -> nth_error vs j = Some b -> nth_error vs k = Some c -> 0 < s * orient a b c.
Proof.
  assert (F : forall (R : pt -> pt -> Prop) l j k b c, ForallOrdPairs R l -> (j < k)%nat -> nth_error l j = Some b -> nth_error l k = Some c -> R b c).
  { induction l as [|x l IH]; intros j k b c H Hjk Hb Hc; [destruct j; discriminate|]. inversion H as [|? ? H1 H2]; subst.
    destruct k as [|k]; [lia|]. destruct j as [|j]; cbn in Hb, Hc.
    - injection Hb as ->. rewrite Forall_forall in H1. apply H1. eapply nth_error_In; exact Hc.
    - apply (IH j k); try assumption. lia. }
  induction vs as [|v t IH]; intros i j k a b c Hcv Hi Ha Hb Hc; [destruct i; discriminate|]. destruct Hcv as [H1 H2].
  destruct j as [|j]; [lia|]. destruct k as [|k]; [lia|]. destruct i as [|i]; cbn in Ha, Hb, Hc.
  - injection Ha as ->. exact (F _ t j k b c H1 ltac:(lia) Hb Hc).
  - apply (IH i j k); try assumption. lia.
Qed.
Lemma side_index vs a b : In (a, b) (sides vs) -> exists i, (i < length vs)%nat /\ nth_error vs i = Some a /\ nth_error vs ((i + 1) mod length vs) = Some b.
Proof.
  intros H. apply In_nth_error in H as (i & H). assert (L : (i < length (sides vs))%nat) by (apply nth_error_Some; congruence). rewrite sides_length in L.
  destruct (nth_error vs i) as [a'|] eqn:Ea; [|apply nth_error_None in Ea; lia].
  destruct (nth_error vs ((i + 1) mod length vs)) as [b'|] eqn:Eb; [|apply nth_error_None in Eb; assert (X := Nat.mod_upper_bound (i + 1) (length vs)); lia].
  rewrite (sides_nth vs i a' b' Ea Eb) in H. injection H as <- <-. exists i. auto.
Qed.
Lemma orient_cyc a b c : orient b c a == orient a b c.
Proof. unfold orient. ring. Qed.
Lemma orient_same a b : orient a b a == 0 /\ orient a b b == 0.
Proof. unfold orient. split; ring. Qed.
(** a side and any vertex that is not one of its ends *)
Lemma side_vertex s vs i a b k v : convex s vs -> (i < length vs)%nat -> nth_error vs i = Some a -> nth_error vs ((i + 1) mod length vs) = Some b ->
  nth_error vs k = Some v -> k <> i -> k <> ((i + 1) mod length vs)%nat -> 0 < s * orient a b v.
Proof.
  intros Hc Hi Ha Hb Hv N1 N2. assert (Lk : (k < length vs)%nat) by (apply nth_error_Some; congruence).
  destruct (Nat.eq_dec (i + 1) (length vs)) as [E|E].
  - rewrite E, Nat.mod_same in Hb, N2 by lia. rewrite <- (orient_cyc a b v). apply (convex_nth s vs 0 k i b v a); try assumption. lia.
  - rewrite Nat.mod_small in Hb, N2 by lia. destruct (Nat.lt_ge_cases k i) as [L|L].
    + rewrite (orient_cyc v a b). apply (convex_nth s vs k i (i + 1) v a b); try assumption. lia.
    + apply (convex_nth s vs i (i + 1) k a b v); try assumption. lia.
Qed.

Section Conv.
Variable s : Q.
Hypothesis Hs : ~ s == 0.
Variables (vs : list pt) (p : pt).
Hypothesis Hc : convex s vs.
Hypothesis Hin : convex_interior s vs p.

Lemma above_leaves i a b : (i < length vs)%nat -> nth_error vs i = Some a -> nth_error vs ((i + 1) mod length vs) = Some b ->
  above p a = true -> s * (fst b - fst a) < 0.
Proof.
  intros Hi Ha Hb H. apply above_iff in H as [H1 H2]. pose proof (sides_nth vs i a b Ha Hb) as Hn. apply nth_error_In in Hn.
  pose proof (Hin a b Hn) as K. assert (E : orient a b p == (fst b - fst a) * (snd p - snd a)) by (unfold orient; rewrite H1; ring). rewrite E in K. nra.
Qed.
Lemma above_arrives i a b : (i < length vs)%nat -> nth_error vs i = Some a -> nth_error vs ((i + 1) mod length vs) = Some b ->
  above p b = true -> s * (fst b - fst a) < 0.
Proof.
  intros Hi Ha Hb H. apply above_iff in H as [H1 H2]. pose proof (sides_nth vs i a b Ha Hb) as Hn. apply nth_error_In in Hn.
  pose proof (Hin a b Hn) as K. assert (E : orient a b p == (fst b - fst a) * (snd p - snd b)) by (unfold orient; rewrite <- H1; ring). rewrite E in K. nra.
Qed.
Lemma lower i j v w : i <> j -> nth_error vs i = Some v -> nth_error vs j = Some w -> above p v = true -> above p w = true -> snd w < snd v.
Proof.
  intros N Hi Hj A B. assert (Li : (i < length vs)%nat) by (apply nth_error_Some; congruence).
  destruct (nth_error vs ((i + 1) mod length vs)) as [b|] eqn:Eb; [|apply nth_error_None in Eb; assert (X := Nat.mod_upper_bound (i + 1) (length vs)); lia].
  pose proof (above_leaves i v b Li Hi Eb A) as K. apply above_iff in A as [A1 A2]. apply above_iff in B as [B1 B2].
  destruct (Nat.eq_dec j ((i + 1) mod length vs)) as [->|M].
  - rewrite Eb in Hj. injection Hj as ->. exfalso. assert (E : fst w - fst v == 0) by lra. rewrite E in K. lra.
  - pose proof (side_vertex s vs i v b j w Hc Li Hi Eb Hj (not_eq_sym N) M) as F.
    assert (E : orient v b w == (fst b - fst v) * (snd w - snd v)) by (unfold orient; rewrite B1, <- A1; ring). rewrite E in F. nra.
Qed.
Lemma above_once i j v w : nth_error vs i = Some v -> nth_error vs j = Some w -> above p v = true -> above p w = true -> i = j.
Proof.
  intros Hi Hj A B. destruct (Nat.eq_dec i j) as [|N]; [assumption|]. exfalso.
  pose proof (lower i j v w N Hi Hj A B). pose proof (lower j i w v (not_eq_sym N) Hj Hi B A). lra.
Qed.
End Conv.

Lemma count_once {A} (f : A -> bool) l : (forall i j v w, nth_error l i = Some v -> nth_error l j = Some w -> f v = true -> f w = true -> i = j) ->
  Nat.odd (count f l) = existsb f l.
Proof.
  induction l as [|a l IH]; intros H; [reflexivity|]. unfold count in *. cbn [filter existsb]. destruct (f a) eqn:E.
  - assert (Z0 : filter f l = []).
    { destruct (filter f l) as [|x r] eqn:F; [reflexivity|]. assert (K : In x (filter f l)) by (rewrite F; left; reflexivity).
      apply filter_In in K as [K1 K2]. apply In_nth_error in K1 as (j & K1). specialize (H 0%nat (S j) a x eq_refl K1 E K2). discriminate. }
    rewrite Z0. reflexivity.
  - cbn [orb]. apply IH. intros i j v w H1 H2 H3 H4. specialize (H (S i) (S j) v w H1 H2 H3 H4). congruence.
Qed.
Lemma sides_starts vs : map fst (sides vs) = vs.
Proof.
  destruct vs as [|v t]; [reflexivity|]. cbn [sides]. assert (G : forall t a e, map fst (chain a t e) = a :: t) by (clear; induction t as [|b t IH]; intros a e; cbn [chain map fst]; [reflexivity|now rewrite IH]). apply G.
Qed.
Lemma sides_ends v t : map snd (sides (v :: t)) = t ++ [v].
Proof. cbn [sides]. revert v. assert (G : forall t a e, map snd (chain a t e) = t ++ [e]) by (clear; induction t as [|b t IH]; intros a e; cbn [chain map snd app]; [reflexivity|now rewrite IH]). intros. apply G. Qed.
Lemma count_map {A B} (f : B -> bool) (g : A -> B) l : count f (map g l) = count (fun x => f (g x)) l.
Proof. unfold count. induction l as [|a l IH]; [reflexivity|]. cbn [map filter]. destruct (f (g a)); cbn [length]; now rewrite IH. Qed.
Lemma count_ext {A} (f g : A -> bool) l : (forall x, In x l -> f x = g x) -> count f l = count g l.
Proof. intros H. unfold count. f_equal. now apply filter_ext_in. Qed.
Lemma count_ends (f : pt -> bool) vs : count f (map snd (sides vs)) = count f vs.
Proof.
  destruct vs as [|v t]; [reflexivity|]. rewrite sides_ends. unfold count. rewrite filter_app, app_length. cbn [filter]. destruct (f v); cbn [length]; lia.
Qed.

Lemma ends_interior s vs p : ~ s == 0 -> convex s vs -> convex_interior s vs p ->
  Nat.odd (count (ends_above p) (sides vs)) = existsb (above p) vs.
Proof.
  intros Hs Hc Hin. rewrite <- (count_once (above p) vs) by (intros i j v w; exact (above_once s vs p Hc Hin i j v w)). f_equal.
  destruct (Qlt_le_dec 0 s) as [P|P].
  - rewrite <- (sides_starts vs) at 2. rewrite count_map. apply count_ext. intros [a b] H. cbn [fst].
    destruct (side_index vs a b H) as (i & Li & Ea & Eb). apply bool_iff. rewrite ends_above_iff. split.
    + intros [(D & E & F)|(D & E & F)]; [|apply above_iff; tauto]. exfalso. assert (A : above p b = true) by (apply above_iff; tauto).
      pose proof (above_arrives s vs p Hin i a b Li Ea Eb A). nra.
    + intros A. pose proof (above_leaves s vs p Hin i a b Li Ea Eb A). apply above_iff in A. right. split; [nra|tauto].
  - assert (P' : s < 0) by (destruct (Qlt_le_dec s 0); [assumption|exfalso; apply Hs; lra]).
    rewrite <- (count_ends (above p) vs). rewrite count_map. apply count_ext. intros [a b] H. cbn [snd].
    destruct (side_index vs a b H) as (i & Li & Ea & Eb). apply bool_iff. rewrite ends_above_iff. split.
    + intros [(D & E & F)|(D & E & F)]; [apply above_iff; tauto|]. exfalso. assert (A : above p a = true) by (apply above_iff; tauto).
      pose proof (above_leaves s vs p Hin i a b Li Ea Eb A). nra.
    + intros A. pose proof (above_arrives s vs p Hin i a b Li Ea Eb A). apply above_iff in A. left. split; [nra|tauto].
Qed.

Lemma interior_off s vs p a b : convex_interior s vs p -> In (a, b) (sides vs) -> ~ on_segment a b p.
Proof.
  intros H Hab (t & _ & E1 & E2). specialize (H a b Hab). assert (E : orient a b p == 0) by (unfold orient; rewrite E1, E2; ring). rewrite E in H. lra.
Qed.
Lemma interior_answer s vs P p : ~ s == 0 -> convex s vs -> polygon_init (map fst vs) (map snd vs) = Ok P ->
  (forall a b, In (a, b) (sides vs) -> fst a == fst b \/ 1 # 1000000 <= Qabs (fst b - fst a)) -> convex_interior s vs p ->
  exists o, polygon_outside P (fst p) (snd p) = Ok o /\ (o = true <-> exists v, In v vs /\ fst v == fst p /\ snd p < snd v).
Proof.
  intros Hs Hc HP Hst Hin. pose proof (fun a b => interior_off s vs p a b Hin) as Ho.
  destruct (near_exists vs p) as (e0 & He0 & Hn). assert (N : near vs p ((1 # 2) * e0)) by (apply Hn; lra). set (e := (1 # 2) * e0) in *.
  destruct (polygon_convex s vs P (right_of e p) Hs Hc HP) as (o & E & I); [intros v; exact (near_x vs p e v N)|intros a b; exact (near_off vs p Ho e a b N)|exact Hst|].
  assert (Hin' : convex_interior s vs (right_of e p)).
  { intros a b Hab. specialize (Hin a b Hab). destruct N as (_ & _ & N). destruct (N a b Hab) as [S1 S2]. destruct (Qlt_le_dec 0 s) as [P1|P1].
    - assert (0 < orient a b p) by nra. specialize (S1 H). nra.
    - assert (P2 : s < 0) by (destruct (Qlt_le_dec s 0); [assumption|exfalso; apply Hs; lra]). assert (orient a b p < 0) by nra. specialize (S2 H). nra. }
  assert (Of : o = false) by (destruct o; [exfalso; apply (proj1 I eq_refl); exact Hin'|reflexivity]). subst o.
  eexists. split; [exact (near_outside vs p Ho Hst P e false N HP E)|]. rewrite xorb_false_l, (ends_interior s vs p Hs Hc Hin), existsb_exists.
  split; intros (v & Hv & K); exists v; rewrite above_iff in *; tauto.
Qed.
Lemma exterior_answer s vs P p : ~ s == 0 -> convex s vs -> polygon_init (map fst vs) (map snd vs) = Ok P ->
  (forall a b, In (a, b) (sides vs) -> ~ on_segment a b p) ->
  (forall a b, In (a, b) (sides vs) -> fst a == fst b \/ 1 # 1000000 <= Qabs (fst b - fst a)) -> (exists a b, In (a, b) (sides vs) /\ s * orient a b p < 0) ->
  polygon_outside P (fst p) (snd p) = Ok (Nat.even (count (ends_above p) (sides vs))).
Proof.
  intros Hs Hc HP Ho Hst (a & b & Hab & Hneg).
  destruct (near_exists vs p) as (e0 & He0 & Hn). assert (N : near vs p ((1 # 2) * e0)) by (apply Hn; lra). set (e := (1 # 2) * e0) in *.
  destruct (polygon_convex s vs P (right_of e p) Hs Hc HP) as (o & E & I); [intros v; exact (near_x vs p e v N)|intros c d; exact (near_off vs p Ho e c d N)|exact Hst|].
  assert (Hout : ~ convex_interior s vs (right_of e p)).
  { intros K. specialize (K a b Hab). pose proof N as (_ & _ & M). destruct (M a b Hab) as [S1 S2]. destruct (Qlt_le_dec 0 s) as [P1|P1].
    - assert (orient a b p < 0) by nra. specialize (S2 H). nra.
    - assert (P2 : s < 0) by (destruct (Qlt_le_dec s 0); [assumption|exfalso; apply Hs; lra]). assert (0 < orient a b p) by nra. specialize (S1 H). nra. }
  assert (Of : o = true) by tauto. subst o. rewrite (near_outside vs p Ho Hst P e true N HP E). f_equal. rewrite xorb_true_l, Nat.negb_odd. reflexivity.
Qed.
Lemma every_position vs P p : polygon_init (map fst vs) (map snd vs) = Ok P ->
  polygon_outside P (fst p) (snd p) = Ok (Nat.even (count (fun ab => Qle_bool (1 # 1000000) (Qabs (fst (snd ab) - fst (fst ab))) && at_or_above p ab) (sides vs))).
Proof. intros HP. rewrite (outside_any vs P p HP), xors_odd, Nat.negb_odd. reflexivity. Qed.
Lemma step_right vs P p : polygon_init (map fst vs) (map snd vs) = Ok P ->
  (forall a b, In (a, b) (sides vs) -> ~ on_segment a b p) ->
  (forall a b, In (a, b) (sides vs) -> fst a == fst b \/ 1 # 1000000 <= Qabs (fst b - fst a)) ->
  exists e0, 0 < e0 /\ forall e, 0 < e < e0 -> exists o, polygon_outside P (fst p + e) (snd p) = Ok o /\
    polygon_outside P (fst p) (snd p) = Ok (xorb o (Nat.odd (count (ends_above p) (sides vs)))).
Proof.
  intros HP Ho Hst. destruct (near_exists vs p) as (e0 & He0 & Hn). exists e0. split; [exact He0|]. intros e He.
  eexists. split; [|exact (near_outside vs p Ho Hst P e _ (Hn e He) HP (every_position vs P (fst p + e, snd p) HP))]. exact (every_position vs P (fst p + e, snd p) HP).
Qed.
