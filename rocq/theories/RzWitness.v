(** Concrete lines for the statements about rzline.py. *)
From Coq Require Import List ZArith QArith Qround Qfield Lia Lqa Bool Permutation.
From Verif Require Import Prelude PreludeFacts PolModel PolSpec RzModel RzSpec RzProofs RzGreedy RzTwoOpt RzPoly.
Import ListNotations.
Open Scope Q_scope.

Definition w_square : list (Q * Q) := [(0, 0); (1, 0); (1, 1); (0, 1)].
Definition w_triangle : list (Q * Q) := [(0, 0); (4, 0); (0, 4)].
Definition w_slanted : list (Q * Q) := [(0, 0); (3, 0); (4, 1); (1, 1)].

Lemma np_pi_pos : 0 < np_pi.
Proof. reflexivity. Qed.

(** half way between two vertices *)
Lemma square_half : qeq2 (positionPolygon np_pi w_square (np_pi / 4)) (np_pi / 4, 0).
Proof. split; vm_compute; reflexivity. Qed.
Lemma square_negative : qeq2 (positionPolygon np_pi w_square (- (np_pi / 4))) (np_pi / 4, 0).
Proof. split; vm_compute; reflexivity. Qed.
(** beyond the next vertex *)
Lemma square_beyond : 1 < fst (positionPolygon np_pi w_square (3 / 2)).
Proof. vm_compute. reflexivity. Qed.
Lemma square_turn : qeq2 (positionPolygon np_pi w_square (2 * np_pi - np_pi / 4)) (0, 1 - np_pi / 4).
Proof. split; vm_compute; reflexivity. Qed.

(** the greedy order of a parallelogram from its first corner *)
Lemma slanted_rejected total : line_from_points total 3 false (map fst w_slanted) (map snd w_slanted) = Err AssertionError.
Proof. vm_compute. reflexivity. Qed.
Lemma slanted_area : area2 w_slanted == 6.
Proof. vm_compute. reflexivity. Qed.
Lemma one_point total : line_from_points total 3 false [1] [2] = Err IndexError.
Proof. vm_compute. reflexivity. Qed.
Lemma no_points total : line_from_points total 3 false [] [] = Ok None.
Proof. reflexivity. Qed.

(** a point on the first edge of a triangle ends up between the third and the first corner *)
Lemma triangle_insert : line_from_points_poly np_pi 3 [0; 4; 0; 2] [0; 0; 4; 0] = Ok [(0, 0); (4, 0); (0, 4); (2, 0)].
Proof. vm_compute. reflexivity. Qed.
Lemma triangle_closest : (2 <= 3)%nat /\ 4 < dist2 (positionPolygon np_pi w_triangle (closestPoint np_pi w_triangle (2, 0) 3 20)) (2, 0).
Proof. split; [lia|]. vm_compute. reflexivity. Qed.

(** ** a route with something to improve: a square walked crosswise *)
Definition w_corners : list (Q * Q) := [(0, 0); (1, 1); (1, 0); (0, 1)].
(** the norm, to the accuracy needed here *)
Definition w_norm (a b : nat) : Q :=
  let q := dist2 (nth a w_corners (0, 0)) (nth b w_corners (0, 0)) in
  if Qeq_bool q 0 then 0 else if Qeq_bool q 1 then 1 else 141421356 # 100000000.
Lemma w_norm_nonneg a b : 0 <= w_norm a b.
Proof. unfold w_norm. cbv zeta. destruct (Qeq_bool _ 0); [lra|]. destruct (Qeq_bool _ 1); lra. Qed.
Lemma corners_two_opt : two_opt w_norm 5 4 (1 # 1000) = Some [0; 2; 1; 3]%nat.
Proof. vm_compute. reflexivity. Qed.
Lemma corners_two_opt0 : two_opt w_norm 5 4 0 = Some [0; 2; 1; 3]%nat.
Proof. vm_compute. reflexivity. Qed.

(** ** the statements *)
Lemma rz_init_lengths a k r z : length z <> length r -> rz_init a k r z = Err AssertionError.
Proof. intros H. unfold rz_init. destruct (Nat.eqb_spec (length z) (length r)); [contradiction|reflexivity]. Qed.
Lemma rz_init_false k r z l : rz_init false k r z = Ok l -> l = combine r z.
Proof.
  unfold rz_init. destruct (length z =? length r)%nat; [|discriminate]. cbn [negb bind]. destruct (combine r z); [discriminate|].
  destruct (k <? _)%nat; [|discriminate]. now intros [= <-].
Qed.

Lemma fraction_wrong : ~ forall l theta, (3 <= length l)%nat -> 0 <= theta ->
  let n := Z.of_nat (length l) in let dtheta := 2 * np_pi / inject_Z n in let i := Qfloor (theta / dtheta) in
  qeq2 (positionPolygon np_pi l theta) (along (znth l (i mod n)) (znth l ((i + 1) mod n)) ((theta - inject_Z i * dtheta) / dtheta)).
Proof.
  intros H. specialize (H w_square (np_pi / 4) ltac:(cbn; lia) ltac:(vm_compute; discriminate)). cbv zeta in H. destruct H as [H _].
  revert H. vm_compute. discriminate.
Qed.
Lemma segment_wrong : ~ forall l theta, (3 <= length l)%nat -> 0 <= theta ->
  let n := Z.of_nat (length l) in let i := Qfloor (theta / (2 * np_pi / inject_Z n)) in
  exists t, 0 <= t <= 1 /\ qeq2 (positionPolygon np_pi l theta) (along (znth l (i mod n)) (znth l ((i + 1) mod n)) t).
Proof.
  intros H. specialize (H w_square (3 / 2) ltac:(cbn; lia) ltac:(vm_compute; discriminate)). cbv zeta in H. destruct H as (t & Ht & [H _]).
  pose proof square_beyond as B. rewrite H in B. revert B. 
  set (i := Qfloor _). assert (E : i = 0%Z) by (vm_compute; reflexivity). rewrite E. unfold along. cbn [fst].
  change (fst (znth w_square (0 mod Z.of_nat (length w_square)))) with 0. change (fst (znth w_square ((0 + 1) mod Z.of_nat (length w_square)))) with 1. intros B. lra.
Qed.
Lemma negative_wrong : ~ forall l theta, (3 <= length l)%nat -> qeq2 (positionPolygon np_pi l theta) (positionPolygon np_pi l (theta + 2 * np_pi)).
Proof.
  intros H. specialize (H w_square (- (np_pi / 4)) ltac:(cbn; lia)). destruct H as [H _]. revert H. vm_compute. discriminate.
Qed.
Lemma convex_rejected total : ~ forall r z, length z = length r -> (4 <= length r)%nat -> 0 < area2 (combine r z) ->
  exists l, line_from_points total 3 false r z = Ok (Some l).
Proof.
  intros H. destruct (H (map fst w_slanted) (map snd w_slanted) eq_refl ltac:(cbn; lia) ltac:(vm_compute; reflexivity)) as [l E].
  rewrite slanted_rejected in E. discriminate.
Qed.
Lemma two_opt_ok norm fuel n threshold route : two_opt norm fuel n threshold = Some route ->
  Permutation (seq 0 n) route /\ (forall d, (0 < n)%nat -> nth 0 route d = 0%nat) /\
  closed_sum (fun a b => norm b a) route <= closed_sum (fun a b => norm b a) (seq 0 n).
Proof.
  intros H. destruct (two_opt_result norm fuel n threshold route H) as (H1 & H2 & H3). rewrite !path_distance_closed in H2. auto.
Qed.
Lemma two_opt_stretch norm fuel n route : (forall a b, 0 <= norm a b) -> (4 <= n)%nat -> two_opt norm fuel n 0 = Some route ->
  forall a b c, route = a ++ b ++ c -> (1 <= length a < n - 2)%nat -> (2 <= length b)%nat ->
  closed_sum (fun a b => norm b a) route <= closed_sum (fun a b => norm b a) (a ++ rev b ++ c).
Proof.
  intros Hn H4 H a b c E Ha Hb. destruct (two_opt_result norm fuel n 0 route H) as (P & _ & _).
  apply Permutation_length in P. rewrite seq_length, E, !app_length in P.
  pose proof (two_opt_optimal norm Hn fuel n route H4 H (length a) (length a + length b - 1) Ha ltac:(lia)) as K.
  rewrite !path_distance_closed in K.
  assert (S' : two_opt_swap route (length a) (length a + length b - 1) = a ++ rev b ++ c).
  { unfold two_opt_swap. replace (length a + length b - 1 + 1)%nat with (length a + length b)%nat by lia.
    rewrite E. replace (length a + length b - length a)%nat with (length b) by lia.
    rewrite (firstn_le_app a (b ++ c)), (skipn_le_app a (b ++ c)), (firstn_le_app b c) by reflexivity.
    rewrite skipn_add, (skipn_le_app a (b ++ c)), (skipn_le_app b c) by reflexivity. reflexivity. }
  rewrite S' in K. exact K.
Qed.
Lemma ones_positive : forall r, Permutation (seq 0 4) r -> 0 < path_distance (fun _ _ => 1) r.
Proof.
  intros r P. apply Permutation_length in P. cbn in P. destruct r as [|a [|b [|c [|d [|]]]]]; try discriminate. vm_compute. reflexivity.
Qed.
Lemma triangle_wrong_side : exists a b c m, 0 < area2 [a; b; c] /\ qeq2 m (along a b (1 # 2)) /\
  line_from_points_poly np_pi 3 (map fst [a; b; c; m]) (map snd [a; b; c; m]) = Ok [a; b; c; m].
Proof. exists (0, 0), (4, 0), (0, 4), (2, 0). split; [vm_compute; reflexivity|]. split; [split; vm_compute; reflexivity|]. exact triangle_insert. Qed.
Lemma square_near : forall j, (j < 2)%nat -> exists q, In q w_square /\ dist2 q (9 # 10, 1) < dist2 (nth j w_square (0, 0)) (9 # 10, 1).
Proof. intros j Hj. exists (1, 1). split; [cbn; tauto|]. destruct j as [|[|j]]; [vm_compute; reflexivity|vm_compute; reflexivity|lia]. Qed.
Lemma closest_wrong : ~ forall l target q, (3 <= length l)%nat -> In q l ->
  dist2 (positionPolygon np_pi l (closestPoint np_pi l target 3 20)) target <= dist2 q target.
Proof.
  intros H. pose proof (H w_triangle (2, 0) (0, 0) ltac:(cbn; lia) ltac:(now left)) as K. pose proof (proj2 triangle_closest) as C.
  assert (E : dist2 (0, 0) (2, 0) == 4) by (vm_compute; reflexivity). rewrite E in K. exact (Qlt_irrefl 4 (Qlt_le_trans _ _ _ C K)).
Qed.
