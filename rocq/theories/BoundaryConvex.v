(** PolygonBoundaryXZ.outside on convex polygons: a point on one of the diagonals is
    moved a little up or down, which changes neither side of the equation. *)
From Coq Require Import List ZArith QArith Qabs Qminmax Lia Lqa Bool.
From Verif Require Import Prelude PreludeFacts BoundaryModel BoundarySpec BoundaryProofs BoundaryLoop.
Import ListNotations.
Open Scope Q_scope.

Lemma small_eps (L : list (Q * Q)) : exists e0, 0 < e0 /\ forall e, - e0 < e < e0 -> forall c d, In (c, d) L ->
  (0 < c -> 0 < c + d * e) /\ (c < 0 -> c + d * e < 0).
Proof.
  induction L as [|[c d] L (e0 & He0 & IH)]; [exists 1; split; [lra|]; intros e _ c d []|].
  destruct (Qeq_dec c 0) as [Z|N].
  - exists e0. split; [exact He0|]. intros e He c' d' [[= <- <-]|H]; [lra|exact (IH e He c' d' H)].
  - assert (Hc : 0 < Qabs c). { destruct (Qlt_le_dec 0 c); [rewrite Qabs_pos; lra|]. rewrite Qabs_neg by lra. destruct (Qlt_le_dec c 0); [lra|exfalso; apply N; lra]. }
    assert (Hd := Qabs_nonneg d). set (f := Qabs c / (Qabs d + 1)). assert (Ef : f * (Qabs d + 1) == Qabs c) by (unfold f; field; lra).
    assert (Hf : 0 < f) by (unfold f; apply Qlt_shift_div_l; lra). clearbody f.
    exists (Qmin e0 f). split; [apply Q.min_glb_lt; assumption|]. intros e He.
    assert (M1 := Q.le_min_l e0 f). assert (M2 := Q.le_min_r e0 f). intros c' d' [[= <- <-]|H]; [|apply IH; [lra|exact H]].
    assert (B : - Qabs c < d * e < Qabs c).
    { assert (He' : - f < e < f) by lra. clear He M1 M2 IH. revert Ef Hd. apply (Qabs_case d (fun q => f * (q + 1) == Qabs c -> 0 <= q -> _)); intros Hs E _; split; nra. }
    split; intros Hs; [rewrite Qabs_pos in B by lra|rewrite Qabs_neg in B by lra]; lra.
Qed.

Definition lift (e : Q) (p : pt) : pt := (fst p, snd p + e).
Lemma orient_lift a b e p : orient a b (lift e p) == orient a b p + (fst b - fst a) * e.
Proof. unfold orient, lift. cbn [fst snd]. ring. Qed.

Section Convex.
Variable s : Q.
Hypothesis Hs : ~ s == 0.
Variables (vs : list pt) (p : pt).
Hypothesis Hx : generic_x vs p.
Hypothesis Ho : forall ab, In ab (sides vs) -> off p ab.
Hypothesis Hc : convex s vs.

Definition all_pairs : list (Q * Q) := map (fun ab => (orient (fst ab) (snd ab) p, fst (snd ab) - fst (fst ab))) (list_prod vs vs).
Definition fine (e : Q) : Prop := ~ e == 0 /\ forall a b, In a vs -> In b vs ->
  (0 < orient a b p -> 0 < orient a b (lift e p)) /\ (orient a b p < 0 -> orient a b (lift e p) < 0).
Lemma fine_exists : exists e, 0 < e /\ fine e /\ fine (- e).
Proof.
  destruct (small_eps all_pairs) as (e0 & He0 & H). exists (e0 / 2). assert (E : e0 / 2 == (1 # 2) * e0) by field.
  split; [rewrite E; lra|].
  assert (G : forall e, ~ e == 0 -> - e0 < e < e0 -> fine e).
  { intros e N He. split; [exact N|]. intros a b Ha Hb. rewrite !orient_lift. apply H; [exact He|].
    unfold all_pairs. apply in_map_iff. exists (a, b). split; [reflexivity|]. apply in_prod; assumption. }
  split; apply G; rewrite E; lra.
Qed.
Lemma side_in a b : In (a, b) (sides vs) -> In a vs /\ In b vs.
Proof. destruct vs as [|v t]; [intros []|]. cbn [sides]. intros H. apply in_chain_ends in H as [[->|Ha] [->|Hb]]; cbn; tauto. Qed.
Lemma fine_sign e a b : fine e -> In a vs -> In b vs -> ~ orient a b p == 0 ->
  (0 < orient a b (lift e p) <-> 0 < orient a b p) /\ (orient a b (lift e p) < 0 <-> orient a b p < 0).
Proof. intros [_ F] Ha Hb N. destruct (F a b Ha Hb) as [P M]. destruct (Qlt_le_dec 0 (orient a b p)) as [X|X]; [specialize (P X)|assert (Y : orient a b p < 0) by (destruct (Qlt_le_dec (orient a b p) 0); [assumption|exfalso; apply N; lra]); specialize (M Y)]; split; split; intros; lra. Qed.

Lemma fine_crosses e ab : fine e -> In ab (sides vs) -> crosses (lift e p) ab = crosses p ab.
Proof.
  intros F H. destruct ab as [a b]. destruct (side_in a b H) as [Ha Hb]. apply bool_iff. rewrite !crosses_iff. cbn [lift fst].
  assert (O := Ho _ H). unfold off in O. cbn [fst snd] in O.
  split; (intros [(A&B&C)|(A&B&C)]; [left|right]); (split; [exact A|]; split; [exact B|]); destruct (fine_sign e a b F Ha Hb) as [S1 S2]; try tauto; apply O; tauto.
Qed.
Lemma fine_off e ab : fine e -> In ab (sides vs) -> off (lift e p) ab.
Proof.
  intros F H. destruct ab as [a b]. destruct (side_in a b H) as [Ha Hb]. intros Hb' E. cbn [lift fst snd] in *. assert (O := Ho _ H Hb'). cbn [fst snd] in O.
  destruct (fine_sign e a b F Ha Hb O) as [S1 S2]. destruct (Qlt_le_dec 0 (orient a b p)) as [X|X]; [apply S1 in X; lra|].
  assert (Y : orient a b p < 0) by (destruct (Qlt_le_dec (orient a b p) 0); [assumption|exfalso; apply O; lra]). apply S2 in Y. lra.
Qed.
Lemma fine_spoke e v0 r1 r2 l v : vs = v0 :: r1 :: r2 :: l -> fine e -> In v (r1 :: r2 :: l) -> ~ orient v0 v (lift e p) == 0.
Proof.
  intros Ev F Hv E. assert (H0 : In v0 vs) by (rewrite Ev; left; reflexivity). assert (Hv' : In v vs) by (rewrite Ev; right; exact Hv).
  assert (Hn : ~ (fst v == fst v0 /\ snd v == snd v0)).
  { intros [E1 E2]. rewrite Ev in Hc. cbn [convex] in Hc. destruct Hc as [C0 _]. destruct (ordpairs_in _ _ C0 _ _ eq_refl) as [C1 _]. rewrite Forall_forall in C1.
    destruct Hv as [<-|Hv].
    - specialize (C1 r2 (or_introl eq_refl)). unfold orient in C1. rewrite E1, E2 in C1. nra.
    - specialize (C1 v Hv). unfold orient in C1. rewrite E1, E2 in C1. nra. }
  destruct (Qeq_dec (orient v0 v p) 0) as [Z|N].
  - rewrite orient_lift, Z in E. assert (D : fst v - fst v0 == 0). { destruct F as [Ne _]. destruct (Qmult_integral (fst v - fst v0) e); [lra|assumption|contradiction]. }
    apply Hn. assert (E1 : fst v == fst v0) by lra. split; [exact E1|]. unfold orient in Z. rewrite D in Z.
    assert (M : (snd v - snd v0) * (fst p - fst v0) == 0) by lra. apply Qmult_integral in M as [M|M]; [lra|]. exfalso. apply (Hx v0 H0). lra.
  - destruct (fine_sign e v0 v F H0 Hv' N) as [S1 S2]. destruct (Qlt_le_dec 0 (orient v0 v p)) as [X|X]; [apply S1 in X; lra|].
    assert (Y : orient v0 v p < 0) by (destruct (Qlt_le_dec (orient v0 v p) 0); [assumption|exfalso; apply N; lra]). apply S2 in Y. lra.
Qed.
Lemma fine_hits e v0 r1 r2 l : vs = v0 :: r1 :: r2 :: l -> fine e -> hits p (sides vs) = interiorb s vs (lift e p).
Proof.
  intros Ev F. assert (E1 : hits p (sides vs) = hits (lift e p) (sides vs)).
  { unfold hits. f_equal. apply map_ext_In. intros ab H. symmetry. apply fine_crosses; assumption. }
  rewrite E1, hits_even_odd.
  - assert (Sp := fun v => fine_spoke e v0 r1 r2 l v Ev F). rewrite Ev in *. rewrite (convex_fan s Hs v0 (lift e p) (r1 :: r2 :: l) Hc).
    + unfold even_odd. symmetry. apply xors_odd.
    + intros v Hv X. unfold so in X. apply Qmult_integral in X as [X|X]; [contradiction|]. exact (Sp v Hv X).
  - intros v Hv. exact (Hx v Hv).
  - intros ab H. apply in_app_or in H as [H|H]; [apply fine_off; assumption|].
    assert (Sp := fun v => fine_spoke e v0 r1 r2 l v Ev F). rewrite Ev in H. cbn [spokes] in H. apply in_map_iff in H as (v & <- & Hv). intros _. exact (Sp v Hv).
Qed.
Lemma convex_hits : vs <> [] -> (hits p (sides vs) = true <-> convex_interior s vs p).
Proof.
  intros Hne.
  destruct (Nat.le_gt_cases (length vs) 2) as [Hl|Hl].
  - (* no sides, or one there and back *)
    clear Ho Hc Hx. revert Hl Hne. clear. destruct vs as [|v0 [|r1 [|r2 l]]]; intros Hl Hne; [congruence| | |cbn [length] in Hl; lia].
    + rewrite sides_fan. split; [discriminate|]. intros H. specialize (H v0 v0 (or_introl eq_refl)). unfold orient in H. nra.
    + rewrite sides_fan. split; [discriminate|]. intros H. assert (A := H v0 r1 (or_introl eq_refl)). assert (B := H r1 v0 (or_intror (or_introl eq_refl))).
      rewrite orient_swap in B. nra.
  - assert (Ev : exists v0 r1 r2 l, vs = v0 :: r1 :: r2 :: l). { clear -Hl. destruct vs as [|v0 [|r1 [|r2 l]]]; cbn [length] in Hl; try lia. eauto 6. }
    destruct Ev as (v0 & r1 & r2 & l & Ev). destruct fine_exists as (e & He & F1 & F2).
    split.
    + intros H. intros a b Hab. destruct (side_in a b Hab) as [Ha Hb].
      assert (I1 := H). rewrite (fine_hits e v0 r1 r2 l Ev F1) in I1. rewrite (fine_hits (- e) v0 r1 r2 l Ev F2) in H.
      apply interiorb_iff in I1. apply interiorb_iff in H. specialize (I1 a b Hab). specialize (H a b Hab). rewrite orient_lift in I1, H.
      set (o := orient a b p) in *. set (d := fst b - fst a) in *. clearbody o d. assert (0 < s * o + s * o); [|lra].
      setoid_replace (s * o + s * o) with (s * (o + d * e) + s * (o + d * - e)) by ring. lra.
    + intros H. rewrite (fine_hits e v0 r1 r2 l Ev F1). apply interiorb_iff. intros a b Hab. destruct (side_in a b Hab) as [Ha Hb].
      specialize (H a b Hab). assert (N : ~ orient a b p == 0) by (intros X; rewrite X in H; nra).
      destruct (fine_sign e a b F1 Ha Hb N) as [S1 S2]. destruct (Qlt_le_dec 0 s) as [P|P].
      * assert (X : 0 < orient a b p) by (apply Qnot_le_lt; intros ?; nra). apply S1 in X. nra.
      * assert (X : orient a b p < 0) by (apply Qnot_le_lt; intros ?; nra). apply S2 in X. assert (s < 0) by (destruct (Qlt_le_dec s 0); [assumption|exfalso; apply Hs; lra]). nra.
Qed.
End Convex.

Lemma polygon_convex s vs P p : ~ s == 0 -> convex s vs -> polygon_init (map fst vs) (map snd vs) = Ok P ->
  (forall v, In v vs -> ~ fst v == fst p) ->
  (forall a b, In (a, b) (sides vs) -> ~ on_segment a b p) ->
  (forall a b, In (a, b) (sides vs) -> fst a == fst b \/ 1 # 1000000 <= Qabs (fst b - fst a)) ->
  exists o, polygon_outside P (fst p) (snd p) = Ok o /\ (o = true <-> ~ convex_interior s vs p).
Proof.
  intros Hs Hc HP Hx Ho Hst. assert (Ho' : forall ab, In ab (sides vs) -> off p ab) by (intros [a b] H; apply off_segment, Ho, H).
  exists (negb (hits p (sides vs))). split.
  - apply polygon_outside_hits; [exact HP|exact Hx|exact Ho'|]. intros [a b] H. exact (Hst a b H).
  - assert (Hne : vs <> []) by (intros ->; discriminate HP). rewrite <- (convex_hits s Hs vs p Hx Ho' Hc Hne). destruct (hits p (sides vs)); cbn; split; congruence.
Qed.
