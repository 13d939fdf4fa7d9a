(** Cell volumes as polygon areas, and the operator on rectangular grids. *)
From Coq Require Import List ZArith QArith Bool Lia Lqa String.
From Verif Require Import Prelude PreludeFacts PolModel DagpModel DagpSpec DagpProofs DagpLinear DagpThms.
Import ListNotations.
Open Scope Q_scope.

(** ** Polygons *)

Definition around_sum (h : Q * Q -> Q * Q -> Q) (b : nat -> Q * Q) : Q :=
  qsum (map (fun m => h (b m) (b ((m + 1) mod 44)%nat)) (seq 0 44)).

Section Polygon.
Variable p : pol.
Hypothesis He : extensional (p_coord p).

Lemma block_sum (F : nat -> Q) :
  qsum (map F (seq 0 44)) ==
  qsum (map F (seq 0 11)) + qsum (map (fun m => F (11 + m)%nat) (seq 0 11))
  + qsum (map (fun m => F (22 + m)%nat) (seq 0 11)) + qsum (map (fun m => F (33 + m)%nat) (seq 0 11)).
Proof.
  change (seq 0 44) with (seq 0 11 ++ seq 11 11 ++ seq 22 11 ++ seq 33 11).
  rewrite !map_app, !qsum_app.
  rewrite (qsum_seq_shift F 11 11), (qsum_seq_shift F 11 22), (qsum_seq_shift F 11 33). ring.
Qed.

Ltac pt := split; apply He; unfold eleventh; cbn -[Qplus Qminus Qmult Qdiv Qeq]; try reflexivity; field.
Ltac eleven m Hm := do 11 (destruct m as [|m]; [pt|]); exfalso; lia.

Lemma volume_around s i k :
  cell_volume s p i k == - around_sum (hV s) (boundary_point p i k).
Proof.
  rewrite (volume_sides _ He). unfold around_sum. rewrite block_sum. unfold line.
  assert (P1 : forall m, (m < 11)%nat ->
    same_point (boundary_point p i k m) (top p i k m) /\
    same_point (boundary_point p i k ((m + 1) mod 44)) (top p i k (S m))).
  { intros m Hm. eleven m Hm. }
  assert (P2 : forall m, (m < 11)%nat ->
    same_point (boundary_point p i k (11 + m)) (right p i k m) /\
    same_point (boundary_point p i k ((11 + m + 1) mod 44)) (right p i k (S m))).
  { intros m Hm. eleven m Hm. }
  assert (P3 : forall m, (m < 11)%nat ->
    same_point (boundary_point p i k (22 + m)) (bottom p i k m) /\
    same_point (boundary_point p i k ((22 + m + 1) mod 44)) (bottom p i k (S m))).
  { intros m Hm. eleven m Hm. }
  assert (P4 : forall m, (m < 11)%nat ->
    same_point (boundary_point p i k (33 + m)) (left_ p i k m) /\
    same_point (boundary_point p i k ((33 + m + 1) mod 44)) (left_ p i k (S m))).
  { intros m Hm. eleven m Hm. }
  rewrite (qsum_seq_ext (fun m => hV s (boundary_point p i k m) _)
             (fun m => hV s (top p i k m) (top p i k (S m)))).
  2:{ intros m Hm. destruct (P1 m Hm). now apply hV_respects. }
  rewrite (qsum_seq_ext (fun m => hV s (boundary_point p i k (11 + m)) _)
             (fun m => hV s (right p i k m) (right p i k (S m)))).
  2:{ intros m Hm. destruct (P2 m Hm). now apply hV_respects. }
  rewrite (qsum_seq_ext (fun m => hV s (boundary_point p i k (22 + m)) _)
             (fun m => hV s (bottom p i k m) (bottom p i k (S m)))).
  2:{ intros m Hm. destruct (P3 m Hm). now apply hV_respects. }
  rewrite (qsum_seq_ext (fun m => hV s (boundary_point p i k (33 + m)) _)
             (fun m => hV s (left_ p i k m) (left_ p i k (S m)))).
  2:{ intros m Hm. destruct (P4 m Hm). now apply hV_respects. }
  reflexivity.
Qed.
End Polygon.

Lemma cyclic_zero (u : nat -> Q) :
  qsum (map (fun m => u m - u ((m + 1) mod 44)%nat) (seq 0 44)) == 0.
Proof.
  rewrite (qsum_seq_S _ 43 0). rewrite (qsum_seq_ext _ (fun m => u m - u (S m))).
  - rewrite qsum_telescope. change ((0 + 43 + 1) mod 44)%nat with 0%nat. rewrite Nat.add_0_l. ring.
  - intros m Hm. rewrite Nat.mod_small by lia. replace (m + 1)%nat with (S m) by lia. reflexivity.
Qed.

(** The sum of [turn] about any point is the sum of [hV] doubled. *)
Lemma around_turn c b : around_sum (turn c) b == 2 * around_sum (hV true) b.
Proof.
  unfold around_sum.
  transitivity (qsum (map (fun m => 2 * hV true (b m) (b ((m + 1) mod 44)%nat)) (seq 0 44))
    + qsum (map (fun m => ((fst (b m) - fst c) * (snd (b m) - snd c) + fst c * snd (b m) * 2 )
       - ((fst (b ((m + 1) mod 44)%nat) - fst c) * (snd (b ((m + 1) mod 44)%nat) - snd c)
          + fst c * snd (b ((m + 1) mod 44)%nat) * 2)) (seq 0 44))).
  - rewrite <- qsum_map_plus. apply qsum_map_ext. intros m _. unfold turn, hV. field.
  - rewrite (cyclic_zero (fun m => (fst (b m) - fst c) * (snd (b m) - snd c) + fst c * snd (b m) * 2)).
    rewrite qsum_map_scale. ring.
Qed.

Lemma shoelace_sum b n s first : (0 < n)%nat ->
  shoelace first (map b (seq s n)) ==
  qsum (map (fun m => fst (b m) * snd (b (S m)) - fst (b (S m)) * snd (b m)) (seq s (n - 1)))
  + (fst (b (s + n - 1)%nat) * snd first - fst first * snd (b (s + n - 1)%nat)).
Proof.
  revert s. induction n as [|n IH]; intros s Hn; [lia|].
  destruct n as [|n].
  - cbn [seq map shoelace Nat.sub qsum]. replace (s + 1 - 1)%nat with s by lia. ring.
  - replace (S (S n) - 1)%nat with (S n) by lia.
    replace (s + S (S n) - 1)%nat with (S s + S n - 1)%nat by lia.
    change (seq s (S (S n))) with (s :: seq (S s) (S n)).
    change (seq s (S n)) with (s :: seq (S s) n).
    specialize (IH (S s)). replace (S n - 1)%nat with n in IH by lia.
    cbn [map qsum]. 
    change (shoelace first (b s :: map b (seq (S s) (S n)))) with
      ((fst (b s) * snd (b (S s)) - fst (b (S s)) * snd (b s)) + shoelace first (map b (seq (S s) (S n)))).
    rewrite IH by lia. ring.
Qed.

Lemma shoelace_around b : polygon_area2 (map b (seq 0 44)) == 2 * around_sum (hV true) b.
Proof.
  rewrite <- (around_turn (0, 0)).
  change (polygon_area2 (map b (seq 0 44))) with (shoelace (b 0%nat) (map b (seq 0 44))).
  rewrite shoelace_sum by lia. unfold around_sum. rewrite (qsum_seq_S _ 43 0).
  change (44 - 1)%nat with 43%nat. change (0 + 44 - 1)%nat with 43%nat.
  change ((0 + 43 + 1) mod 44)%nat with 0%nat. rewrite Nat.add_0_l.
  rewrite (qsum_seq_ext (fun m => turn (0, 0) (b m) _)
     (fun m => fst (b m) * snd (b (S m)) - fst (b (S m)) * snd (b m))).
  - unfold turn. cbn [fst snd]. ring.
  - intros m Hm. rewrite Nat.mod_small by lia. replace (m + 1)%nat with (S m) by lia.
    unfold turn. cbn [fst snd]. ring.
Qed.

Lemma volume_polygon p i k : extensional (p_coord p) ->
  cell_volume true p i k == - polygon_area2 (cell_polygon p i k) / 2.
Proof.
  intros He. rewrite (volume_around p He). unfold cell_polygon. rewrite shoelace_around. field.
Qed.

Lemma qsum_neg (l : list Q) : (forall q, In q l -> q <= 0) -> (exists q, In q l /\ q < 0) -> qsum l < 0.
Proof.
  induction l as [|a l IH]; intros H [q [Hq Hn]]; [destruct Hq|].
  cbn [qsum]. assert (Ha := H a (or_introl eq_refl)).
  assert (Hl : qsum l <= 0).
  { clear -H. induction l as [|b l IH]; cbn [qsum]; [lra|].
    assert (Hb := H b (or_intror (or_introl eq_refl))).
    assert (qsum l <= 0); [|lra]. apply IH. intros q [Hq|Hq]; apply H; [left|right; right]; assumption. }
  destruct Hq as [->|Hq]; [lra|].
  assert (qsum l < 0); [|lra]. apply IH; [intros x Hx; apply H; now right|]. exists q. now split.
Qed.

Lemma volume_positive p i k : extensional (p_coord p) -> right_handed p i k -> 0 < cell_volume true p i k.
Proof.
  intros He (c & H & m & Hm & Hneg). rewrite (volume_around p He).
  assert (E := around_turn c (boundary_point p i k)).
  assert (around_sum (turn c) (boundary_point p i k) < 0); [|lra].
  apply qsum_neg.
  - intros q Hq. apply in_map_iff in Hq. destruct Hq as (m' & <- & Hm'). apply in_seq in Hm'. apply H. lia.
  - eexists. split; [apply in_map_iff; exists m; split; [reflexivity|apply in_seq; lia]|exact Hneg].
Qed.

(** ** Rectangular grids *)

Lemma of_rect_coord r Lz x z : p_coord (of_rect r Lz) x z = (r_Rmin r + x * r_dR r, r_Zmin r + z * r_dZ r).
Proof. reflexivity. Qed.
Lemma of_rect_ext r Lz : extensional (p_coord (of_rect r Lz)).
Proof.
  intros x x' z z' Hx Hz. rewrite !of_rect_coord. split; cbn [fst snd]; rewrite ?Hx, ?Hz; reflexivity.
Qed.

Lemma line_const h g c : (forall m, (m < 11)%nat -> h (g m) (g (S m)) == c) -> line h g == 11 * c.
Proof.
  intros H. unfold line. rewrite (qsum_seq_ext _ (fun _ => c)) by exact H. cbn [seq map qsum]. ring.
Qed.

Lemma eleventh_S m : eleventh (S m) == eleventh m + (1#11).
Proof. unfold eleventh. rewrite Nat2Z.inj_succ. unfold Z.succ. rewrite inject_Z_plus. field. Qed.

Lemma rect_volume s r Lz i k :
  cell_volume s (of_rect r Lz) i k ==
  r_dR r * r_dZ r * (if s then 1 else r_Rmin r + inject_Z i * r_dR r).
Proof.
  rewrite (volume_faces _ (of_rect_ext r Lz)).
  assert (Z0 : forall g, (forall m, snd (g m) == snd (g (S m))) -> line (hV s) g == 0).
  { intros g Hg. rewrite (line_const _ _ 0); [ring|]. intros m _. unfold hV. cbv zeta. destruct s; rewrite (Hg m); field. }
  rewrite (Z0 (fz (of_rect r Lz) (i - 1) k)) by (intros; reflexivity).
  rewrite (Z0 (fzdown (of_rect r Lz) (i - 1) k)) by (intros; reflexivity).
  assert (X0 : forall i', line (hV s) (fx (of_rect r Lz) i' k) ==
     (if s then 1 else (r_Rmin r + (inject_Z i' + (1#2)) * r_dR r) / 2)
       * (r_Rmin r + (inject_Z i' + (1#2)) * r_dR r) * r_dZ r).
  { intros i'. rewrite (line_const _ _
      ((if s then 1 else (r_Rmin r + (inject_Z i' + (1#2)) * r_dR r) / 2)
       * (r_Rmin r + (inject_Z i' + (1#2)) * r_dR r) * r_dZ r / 11)).
    - field.
    - intros m _. unfold hV, fx. rewrite !of_rect_coord. cbn [fst snd]. assert (E := eleventh_S m).
      destruct s; rewrite E; field. }
  rewrite !X0. assert (E := inj_pred i). destruct s; rewrite !E; field.
Qed.
