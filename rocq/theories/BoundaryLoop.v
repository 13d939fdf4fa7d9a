(** The loop of PolygonBoundaryXZ.outside, and convex polygons. *)
From Coq Require Import List ZArith QArith Qabs Lia Lqa Bool.
From Verif Require Import Prelude PreludeFacts BoundaryModel BoundarySpec BoundaryProofs.
Import ListNotations.
Open Scope Q_scope.

Lemma chain_combine e l : forall a, chain a l e = combine (a :: l) (l ++ [e]).
Proof. induction l as [|b l IH]; intros a; [reflexivity|]. cbn [chain app]. rewrite IH. reflexivity. Qed.
Lemma nth_error_combine {A B} (l1 : list A) : forall (l2 : list B) i a b, nth_error l1 i = Some a -> nth_error l2 i = Some b -> nth_error (combine l1 l2) i = Some (a, b).
Proof.
  induction l1 as [|x l1 IH]; intros [|y l2] [|i] a b; cbn [nth_error combine]; try discriminate.
  - intros [= ->] [= ->]. reflexivity.
  - apply IH.
Qed.
Lemma sides_length vs : length (sides vs) = length vs.
Proof. destruct vs as [|v t]; [reflexivity|]. cbn [sides]. rewrite chain_combine, combine_length, app_length. cbn [length]. lia. Qed.
Lemma sides_nth vs i a b : nth_error vs i = Some a -> nth_error vs ((i + 1) mod length vs) = Some b -> nth_error (sides vs) i = Some (a, b).
Proof.
  intros Ha Hb. destruct vs as [|v t]; [destruct i; discriminate|]. cbn [sides]. rewrite chain_combine. apply nth_error_combine; [exact Ha|].
  assert (Hi := nth_error_lt _ _ _ Ha). cbn [length] in Hi. destruct (Nat.eq_dec i (length t)) as [->|N].
  - replace (length t + 1)%nat with (length (v :: t)) in Hb by (cbn [length]; lia). rewrite Nat.mod_same in Hb by (cbn [length]; lia). injection Hb as <-.
    rewrite nth_error_app2, Nat.sub_diag by lia. reflexivity.
  - rewrite Nat.mod_small in Hb by (cbn [length]; lia). rewrite Nat.add_1_r in Hb. cbn [nth_error] in Hb. rewrite nth_error_app1 by lia. exact Hb.
Qed.
Lemma get_map {A} (f : A -> Q) l i a : nth_error l i = Some a -> get (map f l) i = Ok (f a).
Proof. intros H. unfold get. rewrite (map_nth_error f i l H). reflexivity. Qed.

Lemma polygon_init_ok vs : vs <> [] -> exists P, polygon_init (map fst vs) (map snd vs) = Ok P.
Proof. destruct vs as [|v t]; [congruence|]. intros _. eexists. reflexivity. Qed.
Lemma polygon_defined vs p : vs <> [] -> exists P o, polygon_init (map fst vs) (map snd vs) = Ok P /\ polygon_outside P (fst p) (snd p) = Ok o.
Proof.
  intros Hne. destruct (polygon_init_ok vs Hne) as [P HP]. exists P. unfold polygon_init in HP. destruct (amax (map snd vs)) as [m|] eqn:Em; [|discriminate].
  injection HP as <-. unfold polygon_outside. cbn [xarr zarr zout]. rewrite map_length. cbv zeta.
  assert (G : forall l o, (forall i, In i l -> i < length vs)%nat -> exists o',
    foldM (fun outside i => let* xp_0 := get (map fst vs) i in let* zp_0 := get (map snd vs) i in
      let* xp_1 := get (map fst vs) ((i + 1) mod length vs) in let* zp_1 := get (map snd vs) ((i + 1) mod length vs) in
      match segment_intersect (m + 1) (fst p) (snd p) xp_0 zp_0 xp_1 zp_1 with
      | None => Ok outside | Some intersect => Ok (xorb outside intersect) end) l o = Ok o').
  { induction l as [|i l IH]; intros o Hl; [eexists; reflexivity|].
    assert (Hi := Hl i (or_introl eq_refl)).
    destruct (nth_error vs i) as [a|] eqn:Ea; [|apply nth_error_None in Ea; lia].
    destruct (nth_error vs ((i + 1) mod length vs)) as [b|] eqn:Eb; [|apply nth_error_None in Eb; assert (X := Nat.mod_upper_bound (i + 1) (length vs)); lia].
    cbn [foldM]. rewrite (get_map fst vs _ _ Ea), (get_map snd vs _ _ Ea), (get_map fst vs _ _ Eb), (get_map snd vs _ _ Eb). cbn [bind].
    assert (Hl' : forall j, In j l -> (j < length vs)%nat) by (intros j Hj; apply Hl; right; exact Hj).
    destruct (segment_intersect _ _ _ _ _ _ _); cbn [bind]; apply IH; exact Hl'. }
  destruct (G (seq 0 (length vs)) true) as [o Ho]; [intros i Hi; apply in_seq in Hi; lia|]. exists o. split; [unfold polygon_init; rewrite Em; reflexivity|exact Ho].
Qed.
Lemma polygon_outside_hits vs P p : polygon_init (map fst vs) (map snd vs) = Ok P -> generic_x vs p ->
  (forall ab, In ab (sides vs) -> off p ab) -> (forall ab, In ab (sides vs) -> steep_ok ab) ->
  polygon_outside P (fst p) (snd p) = Ok (negb (hits p (sides vs))).
Proof.
  unfold polygon_init. destruct (amax (map snd vs)) as [m|] eqn:Em; [|discriminate]. intros [= <-] Hx Ho Hs.
  assert (Hm : forall v, In v vs -> snd v < m + 1). { intros v Hv. assert (snd v <= m) by (apply (amax_ge _ _ Em), in_map, Hv). lra. }
  unfold polygon_outside. cbn [xarr zarr zout]. rewrite map_length. cbv zeta.
  assert (G : forall l o, (forall i, In i l -> i < length vs)%nat ->
    foldM (fun outside i => let* xp_0 := get (map fst vs) i in let* zp_0 := get (map snd vs) i in
      let* xp_1 := get (map fst vs) ((i + 1) mod length vs) in let* zp_1 := get (map snd vs) ((i + 1) mod length vs) in
      match segment_intersect (m + 1) (fst p) (snd p) xp_0 zp_0 xp_1 zp_1 with
      | None => Ok outside | Some intersect => Ok (xorb outside intersect) end) l o =
    Ok (xorb o (hits p (map (fun i => nth i (sides vs) ((0, 0), (0, 0))) l)))).
  { induction l as [|i l IH]; intros o Hl.
    - cbn. rewrite xorb_false_r. reflexivity.
    - assert (Hi := Hl i (or_introl eq_refl)).
      destruct (nth_error vs i) as [a|] eqn:Ea; [|apply nth_error_None in Ea; lia].
      destruct (nth_error vs ((i + 1) mod length vs)) as [b|] eqn:Eb; [|apply nth_error_None in Eb; assert (X := Nat.mod_upper_bound (i + 1) (length vs)); lia].
      assert (En := sides_nth vs i a b Ea Eb). assert (Hin : In (a, b) (sides vs)) by (eapply nth_error_In; exact En).
      cbn [foldM]. rewrite (get_map fst vs _ _ Ea), (get_map snd vs _ _ Ea), (get_map fst vs _ _ Eb), (get_map snd vs _ _ Eb). cbn [bind].
      assert (Hc := segment_crosses (m + 1) a b p (Hm _ (nth_error_In _ _ Ea)) (Hm _ (nth_error_In _ _ Eb)) (Hx _ (nth_error_In _ _ Ea)) (Hx _ (nth_error_In _ _ Eb)) (Hs _ Hin) (Ho _ Hin)).
      assert (Ec : match segment_intersect (m + 1) (fst p) (snd p) (fst a) (snd a) (fst b) (snd b) with
                   | None => Ok o | Some intersect => Ok (xorb o intersect) end = Ok (xorb o (crosses p (a, b)))).
      { destruct (segment_intersect _ _ _ _ _ _ _); rewrite <- Hc; [reflexivity|]. rewrite xorb_false_r. reflexivity. }
      rewrite Ec. cbn [bind]. rewrite IH by (intros j Hj; apply Hl; right; exact Hj).
      cbn [map]. rewrite (nth_error_nth _ _ _ En). unfold hits. cbn [map xors]. rewrite xorb_assoc. reflexivity. }
  rewrite G by (intros i Hi; apply in_seq in Hi; lia).
  replace (map (fun i => nth i (sides vs) (0, 0, (0, 0))) (seq 0 (length vs))) with (sides vs); [destruct (hits p (sides vs)); reflexivity|].
  apply nth_ext with (d := ((0, 0), (0, 0))) (d' := ((0, 0), (0, 0))).
  - rewrite map_length, seq_length. apply sides_length.
  - intros i Hi. rewrite sides_length in Hi. rewrite (nth_indep (map _ _) _ ((fun i => nth i (sides vs) (0, 0, (0, 0))) 0%nat)) by (rewrite map_length, seq_length; lia).
    rewrite (map_nth (fun i => nth i (sides vs) (0, 0, (0, 0)))), seq_nth by lia. reflexivity.
Qed.

Lemma polygon_even_odd vs P p : polygon_init (map fst vs) (map snd vs) = Ok P ->
  (forall v, In v vs -> ~ fst v == fst p) ->
  (forall a b, In (a, b) (sides vs ++ spokes vs) -> ~ on_segment a b p) ->
  (forall a b, In (a, b) (sides vs) -> fst a == fst b \/ 1 # 1000000 <= Qabs (fst b - fst a)) ->
  polygon_outside P (fst p) (snd p) = Ok (negb (even_odd vs p)).
Proof.
  intros HP Hx Ho Hs. assert (Ho' : forall ab, In ab (sides vs ++ spokes vs) -> off p ab) by (intros [a b] H; apply off_segment, Ho, H).
  rewrite (polygon_outside_hits vs P p HP Hx).
  - rewrite (hits_even_odd vs p Hx Ho'). reflexivity.
  - intros ab H. apply Ho', in_or_app. left. exact H.
  - intros [a b] H. apply Hs, H.
Qed.

(** ** Convex polygons *)
Section Convex.
Variable s : Q.
Hypothesis Hs : ~ s == 0.
Definition so (a b p : pt) : Q := s * orient a b p.
Lemma so_area a b c p : so a b c == so a b p + so b c p + so c a p.
Proof. unfold so, orient. ring. Qed.
Lemma so_weights a b v0 v1 v2 p : so a b p * so v0 v1 v2 == so v1 v2 p * so a b v0 + so v2 v0 p * so a b v1 + so v0 v1 p * so a b v2.
Proof. unfold so, orient. ring. Qed.
Lemma so_cyc a b c : so b c a == so a b c.
Proof. unfold so, orient. ring. Qed.
Lemma so_swap a b p : so b a p == - so a b p.
Proof. unfold so, orient. ring. Qed.
Lemma so_same a b : so a b a == 0 /\ so a b b == 0.
Proof. unfold so, orient. split; ring. Qed.

(** a point of a triangle that is to the left of a line is to the left of it *)
Lemma so_inside a b v0 v1 v2 p : 0 < so v0 v1 p -> 0 < so v1 v2 p -> 0 < so v2 v0 p ->
  0 <= so a b v0 -> 0 <= so a b v1 -> 0 <= so a b v2 -> 0 < so a b v0 + so a b v1 + so a b v2 -> 0 < so a b p.
Proof.
  intros H0 H1 H2 A0 A1 A2 Hp. assert (A := so_area v0 v1 v2 p). assert (W := so_weights a b v0 v1 v2 p).
  set (w0 := so v1 v2 p) in *. set (w1 := so v2 v0 p) in *. set (w2 := so v0 v1 p) in *.
  set (c0 := so a b v0) in *. set (c1 := so a b v1) in *. set (c2 := so a b v2) in *. set (D := so v0 v1 v2) in *. set (X := so a b p) in *.
  clearbody w0 w1 w2 c0 c1 c2 D X.
  assert (R : 0 < w0 * c0 + w1 * c1 + w2 * c2).
  { assert (0 <= w0 * c0) by nra. assert (0 <= w1 * c1) by nra. assert (0 <= w2 * c2) by nra.
    destruct (Qlt_le_dec 0 c0); [assert (0 < w0 * c0) by nra; lra|]. destruct (Qlt_le_dec 0 c1); [assert (0 < w1 * c1) by nra; lra|].
    assert (0 < w2 * c2) by nra. lra. }
  assert (0 < D) by lra. assert (0 < X * D) by lra. apply Qnot_le_lt. intros ?. nra.
Qed.
Lemma in_triangle_so a b c p : 0 < so a b c -> in_triangle a b c p = true <-> 0 < so a b p /\ 0 < so b c p /\ 0 < so c a p.
Proof.
  intros Hp. rewrite in_triangle_iff. assert (A := so_area a b c p). unfold so in *.
  set (x := orient a b p) in *. set (y := orient b c p) in *. set (z := orient c a p) in *. set (d := orient a b c) in *. clearbody x y z d.
  destruct (Qlt_le_dec 0 s) as [P|N].
  - split.
    + intros [(X&Y&Z)|(X&Y&Z)]; [repeat split; nra|exfalso; nra].
    + intros (X&Y&Z). left. repeat split; apply Qnot_le_lt; intros ?; nra.
  - assert (N' : s < 0) by (destruct (Qlt_le_dec s 0); [assumption|exfalso; apply Hs; lra]). split.
    + intros [(X&Y&Z)|(X&Y&Z)]; [exfalso; nra|repeat split; nra].
    + intros (X&Y&Z). right. repeat split; apply Qnot_le_lt; intros ?; nra.
Qed.

Definition interiorb (vs : list pt) (p : pt) : bool := forallb (fun ab => Qlt_bool 0 (so (fst ab) (snd ab) p)) (sides vs).
Lemma interiorb_iff vs p : interiorb vs p = true <-> convex_interior s vs p.
Proof.
  unfold interiorb, convex_interior. rewrite forallb_forall. split.
  - intros H a b Hab. apply (H (a, b)) in Hab. apply Qlt_bool_iff in Hab. exact Hab.
  - intros H [a b] Hab. apply Qlt_bool_iff. apply H, Hab.
Qed.

Lemma in_chain_ends l e : forall v a b, In (a, b) (chain v l e) -> (a = v \/ In a l) /\ (b = e \/ In b l).
Proof.
  induction l as [|c l IH]; intros v a b H; cbn [chain] in H.
  - destruct H as [[= <- <-]|[]]. tauto.
  - destruct H as [[= <- <-]|H]; [cbn; tauto|]. apply IH in H. cbn. intuition.
Qed.
Lemma ordpairs_in {A} (R : A -> A -> Prop) l : ForallOrdPairs R l -> forall x l', l = x :: l' -> Forall (R x) l' /\ ForallOrdPairs R l'.
Proof. intros H x l' ->. inversion H; subst. tauto. Qed.

Lemma comb_R {A} (R : A -> A -> Prop) l : forall r a b, ForallOrdPairs R (r :: l) -> In (a, b) (combine (r :: l) l) -> R a b.
Proof.
  induction l as [|c l IH]; intros r a b Ho H; [destruct H|].
  change (combine (r :: c :: l) (c :: l)) with ((r, c) :: combine (c :: l) l) in H.
  destruct (ordpairs_in _ _ Ho r (c :: l) eq_refl) as [Hr Hcl]. destruct H as [[= <- <-]|H]; [exact (Forall_inv Hr)|exact (IH c a b Hcl H)].
Qed.
Lemma chain_cases l e : forall r a b, In (a, b) (chain r l e) -> In (a, b) (combine (r :: l) l) \/ (b = e /\ In a (r :: l)).
Proof.
  induction l as [|c l IH]; intros r a b H; cbn [chain] in H.
  - destruct H as [[= <- <-]|[]]. right. split; [reflexivity|left; reflexivity].
  - change (combine (r :: c :: l) (c :: l)) with ((r, c) :: combine (c :: l) l). destruct H as [H|H]; [left; left; exact H|].
    apply IH in H as [H|[-> H]]; [left; right; exact H|right; split; [reflexivity|right; exact H]].
Qed.

Lemma convex_chain v0 r1 r2 l a b : convex s (v0 :: r1 :: r2 :: l) -> In (a, b) (chain r2 l v0) ->
  0 < so a b r1 /\ 0 <= so a b v0 /\ 0 <= so a b r2.
Proof.
  cbn [convex]. intros (H0 & H1 & H2 & _) H.
  destruct (ordpairs_in _ _ H0 _ _ eq_refl) as [H01 H0r]. destruct (ordpairs_in _ _ H0r _ _ eq_refl) as [H02 _].
  destruct (chain_cases _ _ _ _ _ H) as [Hc|[-> Ha]].
  - split; [|split].
    + rewrite <- so_cyc, <- so_cyc. change (0 < s * orient r1 a b). exact (comb_R _ _ _ _ _ H1 Hc).
    + apply Qlt_le_weak. rewrite <- so_cyc, <- so_cyc. change (0 < s * orient v0 a b). exact (comb_R _ _ _ _ _ H0r Hc).
    + destruct l as [|c l]; [destruct Hc|]. change (combine (r2 :: c :: l) (c :: l)) with ((r2, c) :: combine (c :: l) l) in Hc.
      destruct Hc as [[= <- <-]|Hc]; [rewrite (proj1 (so_same _ _)); lra|].
      apply Qlt_le_weak. rewrite <- so_cyc, <- so_cyc. change (0 < s * orient r2 a b). exact (comb_R _ _ _ _ _ H2 Hc).
  - split; [|split].
    + rewrite <- so_cyc. change (0 < s * orient v0 r1 a). rewrite Forall_forall in H01. apply H01, Ha.
    + rewrite (proj2 (so_same _ _)). lra.
    + destruct Ha as [<-|Ha]; [rewrite (proj1 (so_same _ _)); lra|]. apply Qlt_le_weak. rewrite <- so_cyc. change (0 < s * orient v0 r2 a).
      rewrite Forall_forall in H02. apply H02, Ha.
Qed.

Lemma convex_drop v0 r1 t : convex s (v0 :: r1 :: t) -> convex s (v0 :: t).
Proof. cbn [convex]. intros (H0 & _ & H). destruct (ordpairs_in _ _ H0 _ _ eq_refl) as [_ H0r]. split; assumption. Qed.

Lemma xors_exists {A} (f : A -> bool) l : xors (map f l) = true -> exists x, In x l /\ f x = true.
Proof.
  induction l as [|a l IH]; cbn [map xors]; [discriminate|]. destruct (f a) eqn:E; intros H; [exists a; cbn; tauto|].
  rewrite xorb_false_l in H. destruct (IH H) as (x & Hx & Ex). exists x. cbn. tauto.
Qed.

Lemma convex_fan v0 p : forall t, convex s (v0 :: t) -> (forall v, In v t -> ~ so v0 v p == 0) ->
  interiorb (v0 :: t) p = xors (map (fun ab => in_triangle v0 (fst ab) (snd ab) p) (fan (v0 :: t))).
Proof.
  induction t as [|r1 t IH]; intros Hc Hg.
  - apply not_true_is_false. intros H. apply interiorb_iff in H. specialize (H v0 v0 (or_introl eq_refl)). unfold orient in H. nra.
  - destruct t as [|r2 l].
    + apply not_true_is_false. intros H. apply interiorb_iff in H. assert (A := H v0 r1 (or_introl eq_refl)). assert (B := H r1 v0 (or_intror (or_introl eq_refl))).
      rewrite orient_swap in B. lra.
    + change (fan (v0 :: r1 :: r2 :: l)) with ((r1, r2) :: fan (v0 :: r2 :: l)). cbn [map xors fst snd].
      assert (IH' := IH (convex_drop _ _ _ Hc) (fun v Hv => Hg v (or_intror Hv))). clear IH. rewrite <- IH'.
      assert (Hch := fun a b H => convex_chain v0 r1 r2 l a b Hc H).
      assert (Hfull := Hc). cbn [convex] in Hc. destruct Hc as (H0 & H1 & _).
      destruct (ordpairs_in _ _ H0 _ _ eq_refl) as [H01 H0r]. destruct (ordpairs_in _ _ H0r _ _ eq_refl) as [H02 _].
      destruct (ordpairs_in _ _ H1 _ _ eq_refl) as [H12 _].
      assert (T0 : 0 < so v0 r1 r2) by (exact (Forall_inv H01)). assert (HT := in_triangle_so v0 r1 r2 p T0).
      assert (Hn := Hg r2 (or_intror (or_introl eq_refl))).
      destruct (Qlt_le_dec 0 (so v0 r2 p)) as [P|N].
      * assert (ET : in_triangle v0 r1 r2 p = false). { apply not_true_is_false. rewrite HT. rewrite (so_swap v0 r2 p). lra. }
        rewrite ET, xorb_false_l. apply bool_iff. split; intros H.
        -- apply interiorb_iff in H. apply interiorb_iff. intros a b [[= <- <-]|Hab]; [exact P|]. apply H. right. right. exact Hab.
        -- assert (E := H). rewrite IH' in E. apply xors_exists in E as ([x y] & Hxy & E). cbn [fst snd] in E.
           destruct (in_fan v0 (r2 :: l) x y Hxy) as (Hx & Hy & _). change (fan (v0 :: r2 :: l)) with (combine (r2 :: l) l) in Hxy.
           assert (Hv : 0 < so v0 x y) by (exact (comb_R _ _ _ _ _ H0r Hxy)). apply (in_triangle_so v0 x y p Hv) in E as (E1 & E2 & E3).
           apply interiorb_iff in H. apply interiorb_iff. intros a b [[= <- <-]|[[= <- <-]|Hab]].
           ++ change (0 < so v0 r1 p). apply (so_inside v0 r1 v0 x y p E1 E2 E3).
              ** rewrite (proj1 (so_same _ _)). lra.
              ** apply Qlt_le_weak. rewrite Forall_forall in H01. apply H01, Hx.
              ** apply Qlt_le_weak. rewrite Forall_forall in H01. apply H01, Hy.
              ** rewrite (proj1 (so_same _ _)). rewrite Forall_forall in H01. assert (A := H01 x Hx). assert (B := H01 y Hy). unfold so. lra.
           ++ change (0 < so r1 r2 p). apply (so_inside r1 r2 v0 x y p E1 E2 E3).
              ** apply Qlt_le_weak. rewrite so_cyc. exact T0.
              ** destruct Hx as [<-|Hx]; [rewrite (proj2 (so_same _ _)); lra|]. apply Qlt_le_weak. rewrite Forall_forall in H12. apply H12, Hx.
              ** destruct Hy as [<-|Hy]; [rewrite (proj2 (so_same _ _)); lra|]. apply Qlt_le_weak. rewrite Forall_forall in H12. apply H12, Hy.
              ** assert (A : 0 < so r1 r2 v0) by (rewrite so_cyc; exact T0).
                 assert (B : forall q, In q (r2 :: l) -> 0 <= so r1 r2 q). { intros q [<-|Hq]; [rewrite (proj2 (so_same _ _)); lra|]. apply Qlt_le_weak. rewrite Forall_forall in H12. apply H12, Hq. }
                 assert (B1 := B x Hx). assert (B2 := B y Hy). lra.
           ++ apply H. right. exact Hab.
      * assert (N' : so v0 r2 p < 0) by (destruct (Qlt_le_dec (so v0 r2 p) 0); [assumption|exfalso; apply Hn; lra]).
        assert (ES : interiorb (v0 :: r2 :: l) p = false). { apply not_true_is_false. intros H. apply interiorb_iff in H. specialize (H v0 r2 (or_introl eq_refl)). unfold so in N'. lra. }
        rewrite ES, xorb_false_r. apply bool_iff. split; intros H.
        -- apply interiorb_iff in H. apply HT. split; [apply H; left; reflexivity|]. split; [apply H; right; left; reflexivity|]. rewrite so_swap. lra.
        -- apply HT in H as (E1 & E2 & E3). apply interiorb_iff. intros a b [[= <- <-]|[[= <- <-]|Hab]]; [exact E1|exact E2|].
           destruct (Hch a b Hab) as (A1 & A2 & A3). change (0 < so a b p). apply (so_inside a b v0 r1 r2 p E1 E2 E3); [exact A2|lra|exact A3|lra].
Qed.
End Convex.
