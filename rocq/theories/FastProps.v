(** Property C85. *)
From Coq Require Import List Reals Lra Permutation Sorted.
From Verif Require Import Prelude FastModel FastSpec FastStar FastConvex FastAll FastWitness.
Import ListNotations.
Open Scope R_scope.

(** C85: the corners of a convex polygon, in any order, give the polygon again,
    anticlockwise and with some corner as the start, *)
Theorem C85_convex argsort n P pts : sorts argsort -> (3 <= n)%nat -> convex n P -> Permutation pts (map P (seq 0 n)) ->
  exists l, fast argsort pts = Ok l /\ rotation (map P (seq 0 n)) l.
Proof. intros Hs Hn Hc Hp. exact (fast_star argsort n P pts Hs Hn (convex_around n P Hn Hc) Hp). Qed.
Print Assumptions C85_convex.
(** and so do those of any polygon around the mean of its corners. *)
Theorem C85_around argsort n P pts : sorts argsort -> (3 <= n)%nat -> around n (centre n P) P -> Permutation pts (map P (seq 0 n)) ->
  exists l, fast argsort pts = Ok l /\ rotation (map P (seq 0 n)) l.
Proof. exact (fast_star argsort n P pts). Qed.
Print Assumptions C85_around.
(** Whatever the points, a line has each of them once, in the order in which they are
    seen from their mean, anticlockwise from straight below. *)
Theorem C85_order argsort pts l : sorts argsort -> fast argsort pts = Ok l ->
  Permutation l pts /\ seen (length pts) (centre (length pts) (fun k => nth k pts (0, 0))) (fun k => nth k l (0, 0)).
Proof. intros Hs H. exact (any_seen argsort Hs pts l H). Qed.
Print Assumptions C85_order.
(** There is a line exactly if the points are not on a straight line. *)
Theorem C85_defined argsort pts : sorts argsort -> (exists a b c, In a pts /\ In b pts /\ In c pts /\ orient a b c <> 0) ->
  exists l, fast argsort pts = Ok l.
Proof. intros Hs H. exact (ex_intro _ _ (fast_round argsort Hs pts H)). Qed.
Print Assumptions C85_defined.
Theorem C85_straight argsort pts : sorts argsort -> (forall a b c, In a pts -> In b pts -> In c pts -> orient a b c = 0) ->
  fast argsort pts = Err AssertionError.
Proof. intros Hs H. exact (fast_flat argsort Hs pts H). Qed.
Print Assumptions C85_straight.
Example C85_case : sorts isort /\ convex 4 square /\ Permutation shuffled (map square (seq 0 4)) /\
  (exists l, fast isort shuffled = Ok l /\ rotation [(3, -1); (5, -1); (5, 1); (3, 1)] l) /\
  (exists a b c, In a shuffled /\ In b shuffled /\ In c shuffled /\ orient a b c <> 0) /\
  fast isort [(1, 1); (2, 2); (4, 4); (5, 5)] = Err AssertionError.
Proof.
  split; [exact isort_sorts|]. split; [exact square_convex|]. split; [exact shuffled_perm|]. split; [|split; [exact shuffled_line|]].
  - exact (C85_convex isort 4 square shuffled isort_sorts (le_S _ _ (le_n _)) square_convex shuffled_perm).
  - exact (C85_straight isort flat_points isort_sorts flat_points_line).
Qed.
