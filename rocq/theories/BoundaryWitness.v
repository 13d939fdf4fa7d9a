(** Concrete polygons for the statements about boundary.py. *)
From Coq Require Import List ZArith QArith Qabs Lia Lqa Bool.
From Verif Require Import Prelude PreludeFacts BoundaryModel BoundarySpec BoundaryProofs BoundaryConvex.
Import ListNotations.
Open Scope Q_scope.

(** a regular-looking hexagon, anticlockwise, *)
Definition w_hex : list pt := [(4, 0); (3, 2); (1, 2); (0, 0); (1, -2); (3, -2)].
(** an L-shaped polygon, clockwise, *)
Definition w_ell : list pt := [(0, 0); (0, 3); (1, 3); (1, 1); (3, 1); (3, 0)].
(** a diamond, a triangle and a narrow rectangle *)
Definition w_diamond : list pt := [(1, 0); (0, 1); (-1, 0); (0, -1)].
Definition w_tri : list pt := [(-1, 0); (1, 0); (0, 1)].
Definition w_narrow : list pt := [(0, 0); (1 # 10000000, 0); (1 # 10000000, 1); (0, 1)].
Definition w_poly (vs : list pt) : polygon_boundary :=
  match polygon_init (map fst vs) (map snd vs) with Ok P => P | Err _ => mkPoly 0 [] [] end.

Ltac fop := repeat (first [apply FOP_nil | apply FOP_cons; [repeat constructor|]]).
Lemma w_convex : convex 1 w_hex /\ convex 1 w_diamond /\ convex 1 w_tri /\ convex 1 w_narrow.
Proof. repeat split; fop. Qed.

Lemma no_segment a b p : ~ orient a b p == 0 -> ~ on_segment a b p.
Proof. intros H (t & _ & E1 & E2). apply H. unfold orient. rewrite E1, E2. ring. Qed.
Lemma w_hex_ok : polygon_init (map fst w_hex) (map snd w_hex) = Ok (w_poly w_hex) /\
  (forall v, In v w_hex -> ~ fst v == 2) /\
  (forall a b, In (a, b) (sides w_hex) -> ~ on_segment a b (2, 1)) /\
  (forall a b, In (a, b) (sides w_hex) -> fst a == fst b \/ 1 # 1000000 <= Qabs (fst b - fst a)) /\
  polygon_outside (w_poly w_hex) 2 1 = Ok false /\ polygon_outside (w_poly w_hex) 2 3 = Ok true.
Proof.
  split; [reflexivity|]. split; [|split; [|split; [|split; vm_compute; reflexivity]]].
  - intros v Hv. cbn in Hv. repeat (destruct Hv as [<-|Hv]; [cbn; lra|]). destruct Hv.
  - intros a b H. cbn in H. repeat (destruct H as [[= <- <-]|H]; [apply no_segment; vm_compute; discriminate|]). destruct H.
  - intros a b H. cbn in H. repeat (destruct H as [[= <- <-]|H]; [right; vm_compute; discriminate|]). destruct H.
Qed.
Lemma w_ell_ok : polygon_init (map fst w_ell) (map snd w_ell) = Ok (w_poly w_ell) /\
  (forall v, In v w_ell -> ~ fst v == 1 # 2) /\
  (forall a b, In (a, b) (sides w_ell ++ spokes w_ell) -> ~ on_segment a b (1 # 2, 2)) /\
  (forall a b, In (a, b) (sides w_ell) -> fst a == fst b \/ 1 # 1000000 <= Qabs (fst b - fst a)) /\
  polygon_outside (w_poly w_ell) (1 # 2) 2 = Ok false /\ even_odd w_ell (1 # 2, 2) = true /\
  polygon_outside (w_poly w_ell) 2 2 = Ok true /\ even_odd w_ell (2, 2) = false.
Proof.
  split; [reflexivity|]. split; [|split; [|split; [|repeat split; vm_compute; reflexivity]]].
  - intros v Hv. cbn in Hv. repeat (destruct Hv as [<-|Hv]; [cbn; lra|]). destruct Hv.
  - intros a b H. cbn in H. repeat (destruct H as [[= <- <-]|H]; [apply no_segment; vm_compute; discriminate|]). destruct H.
  - intros a b H. cbn in H. repeat (destruct H as [[= <- <-]|H]; [first [left; reflexivity|right; vm_compute; discriminate]|]). destruct H.
Qed.

(** the centre of the diamond is inside it and reported outside *)
Lemma w_diamond_centre : convex_interior 1 w_diamond (0, 0) /\ polygon_outside (w_poly w_diamond) 0 0 = Ok true.
Proof.
  split; [|vm_compute; reflexivity]. intros a b H. cbn in H. repeat (destruct H as [[= <- <-]|H]; [vm_compute; reflexivity|]). destruct H.
Qed.
(** the middle of the narrow rectangle likewise, *)
Lemma w_narrow_centre : convex_interior 1 w_narrow (1 # 20000000, 1 # 2) /\ polygon_outside (w_poly w_narrow) (1 # 20000000) (1 # 2) = Ok true.
Proof.
  split; [|vm_compute; reflexivity]. intros a b H. cbn in H. repeat (destruct H as [[= <- <-]|H]; [vm_compute; reflexivity|]). destruct H.
Qed.
(** and every point straight below the triangle's tip is reported inside *)
Lemma w_tri_below z : z < 0 -> ~ convex_interior 1 w_tri (0, z) /\ polygon_outside (w_poly w_tri) 0 z = Ok false.
Proof.
  intros Hz. split.
  - intros H. specialize (H (-1, 0) (1, 0) (or_introl eq_refl)). unfold orient in H. cbn [fst snd] in H. lra.
  - assert (G : forall xp_0 zp_0 xp_1 zp_1, 1 # 1000000 <= Qabs (xp_1 - xp_0) -> 0 <= (0 - xp_0) / (xp_1 - xp_0) <= 1 -> 0 <= zp_0 <= 1 -> 0 <= zp_1 <= 1 ->
      segment_intersect 2 0 z xp_0 zp_0 xp_1 zp_1 = Some true).
    { intros x0 z0 x1 z1 Hd Hb Z0 Z1. unfold segment_intersect. destruct (Qlt_bool _ _) eqn:E; [apply Qlt_bool_iff in E; lra|]. f_equal. cbv zeta.
      set (b := (0 - x0) / (x1 - x0)) in *. clearbody b. unfold in_unit. rewrite !andb_true_iff, !Qle_bool_iff. split; [exact Hb|].
      destruct (Qeq_bool (2 - z) 0) eqn:Ez; [apply Qeq_bool_iff in Ez; lra|]. rewrite andb_true_iff, !Qle_bool_iff.
      assert (Hh : 0 <= z0 + b * (z1 - z0) <= 1) by (split; nra).
      split; [apply Qle_shift_div_l|apply Qle_shift_div_r]; lra. }
    assert (E : w_poly w_tri = mkPoly 2 [-1; 1; 0] [0; 0; 1]) by reflexivity. rewrite E. unfold polygon_outside.
    cbn [foldM get nth_error bind Nat.modulo Nat.divmod Nat.add fst snd zout xarr zarr length seq Nat.sub].
    rewrite !G by (try (vm_compute; discriminate); try (split; vm_compute; discriminate)). reflexivity.
Qed.
Lemma diamond_wrong : polygon_outside (w_poly w_diamond) 0 0 <> Ok false.
Proof. rewrite (proj2 w_diamond_centre). discriminate. Qed.
Lemma w_diamond_all : polygon_init (map fst w_diamond) (map snd w_diamond) = Ok (w_poly w_diamond) /\
  (forall a b, In (a, b) (sides w_diamond) -> fst a == fst b \/ 1 # 1000000 <= Qabs (fst b - fst a)) /\
  convex 1 w_diamond /\ convex_interior 1 w_diamond (0, 0) /\ existsb (above (0, 0)) w_diamond = true /\ polygon_outside (w_poly w_diamond) 0 0 = Ok true /\
  convex_interior 1 w_diamond (1 # 2, 0) /\ existsb (above (1 # 2, 0)) w_diamond = false /\ polygon_outside (w_poly w_diamond) (1 # 2) 0 = Ok false /\
  1 * orient (-1, 0) (0, -1) (0, -2) < 0 /\ count (ends_above (0, -2)) (sides w_diamond) = 2%nat /\ polygon_outside (w_poly w_diamond) 0 (-2) = Ok true.
Proof.
  split; [reflexivity|]. split.
  { intros a b H. cbn in H. repeat (destruct H as [[= <- <-]|H]; [right; vm_compute; discriminate|]). destruct H. }
  split; [exact (proj1 (proj2 w_convex))|]. split; [exact (proj1 w_diamond_centre)|]. split; [reflexivity|]. split; [exact (proj2 w_diamond_centre)|]. split.
  { intros a b H. cbn in H. repeat (destruct H as [[= <- <-]|H]; [vm_compute; reflexivity|]). destruct H. }
  repeat split; vm_compute; reflexivity.
Qed.
