(** Concrete geometries: a diamond-shaped structured grid and a thin cell. *)
From Coq Require Import List ZArith QArith Qround Bool Lia Lqa.
From Verif Require Import Prelude PreludeFacts PolModel DagpModel DagpSpec DagpProofs DagpLinear DagpThms
  DagpVolume DagpRect.
Import ListNotations.
Open Scope Q_scope.

(** ** Nested diamonds around (10, 0), four points each *)

Definition mod4 (z : Q) : Q := z - 4 * inject_Z (Qfloor (z / 4)).
(** A triangular wave: 1 at 0, 0 at 1, -1 at 2, 0 at 3. *)
Definition tri (z : Q) : Q := let u := mod4 z in if Qle_bool u 2 then 1 - u else u - 3.
Definition diamond_coord (x z : Q) : Q * Q := (10 + (x + 2) * tri z, (x + 2) * tri (z - 1)).
Definition diamond : pol :=
  {| p_nx := 4; p_nz := 4; p_coord := diamond_coord;
     p_R := fun i k => fst (diamond_coord (inject_Z i) (inject_Z k));
     p_Z := fun i k => snd (diamond_coord (inject_Z i) (inject_Z k));
     p_Lz := None |}.

Lemma tri_ext z z' : z == z' -> tri z == tri z'.
Proof.
  intros E. unfold tri, mod4. assert (F : Qfloor (z / 4) = Qfloor (z' / 4)) by (apply Qfloor_comp; rewrite E; reflexivity).
  rewrite F. cbv zeta.
  assert (U : z - 4 * inject_Z (Qfloor (z' / 4)) == z' - 4 * inject_Z (Qfloor (z' / 4))) by (rewrite E; reflexivity).
  destruct (Qle_bool (z - _) 2) eqn:A, (Qle_bool (z' - _) 2) eqn:B;
    rewrite ?Qle_bool_iff, ?Qle_bool_false_iff in *; lra.
Qed.
Lemma tri_period z : tri (z + 4) == tri z.
Proof.
  unfold tri, mod4.
  assert (F : Qfloor ((z + 4) / 4) = (Qfloor (z / 4) + 1)%Z).
  { rewrite <- Qfloor_plus_Z. apply Qfloor_comp. change (inject_Z 1) with 1. field. }
  rewrite F. cbv zeta.
  assert (U : z + 4 - 4 * inject_Z (Qfloor (z / 4) + 1) == z - 4 * inject_Z (Qfloor (z / 4))).
  { rewrite inject_Z_plus. change (inject_Z 1) with 1. ring. }
  destruct (Qle_bool (z + 4 - _) 2) eqn:A, (Qle_bool (z - _) 2) eqn:B;
    rewrite ?Qle_bool_iff, ?Qle_bool_false_iff in *; lra.
Qed.

Lemma diamond_ext : extensional (p_coord diamond).
Proof.
  intros x x' z z' Hx Hz. cbn [p_coord diamond]. unfold diamond_coord.
  assert (E1 := tri_ext z z' Hz). assert (E2 : tri (z - 1) == tri (z' - 1)) by (apply tri_ext; lra).
  split; cbn [fst snd]; rewrite Hx; [rewrite E1|rewrite E2]; reflexivity.
Qed.
Lemma diamond_closes : closes diamond.
Proof.
  intros x z. cbn [p_coord diamond p_nz]. unfold diamond_coord. change (inject_Z 4) with 4.
  assert (E : tri (z + 4 - 1) == tri (z - 1)).
  { rewrite <- (tri_period (z - 1)). apply tri_ext. ring. }
  split; cbn [fst snd]; [rewrite tri_period|rewrite E]; reflexivity.
Qed.

Definition same_pointb (a b : Q * Q) : bool := Qeq_bool (fst a) (fst b) && Qeq_bool (snd a) (snd b).
Lemma same_pointb_true a b : same_point a b -> same_pointb a b = true.
Proof.
  intros [H1 H2]. unfold same_pointb. apply andb_true_iff.
  split; apply Qeq_bool_iff; assumption.
Qed.

Definition faces_check (p : pol) : bool :=
  forallb (fun i => forallb (fun k => forallb (fun m =>
    negb (same_pointb (p_coord p (inject_Z i + (1#2)) (inject_Z k - (1#2) + eleventh m))
                 (p_coord p (inject_Z i + (1#2)) (inject_Z k - (1#2) + eleventh (S m))))
    && negb (same_pointb (p_coord p (inject_Z i + (1#2) + eleventh m) (inject_Z k + (1#2)))
                     (p_coord p (inject_Z i + (1#2) + eleventh (S m)) (inject_Z k + (1#2)))))
    (seq 0 11)) (zrange 0 (p_nz p))) (zrange 0 (p_nx p - 1)).
Lemma faces_check_ok p : faces_check p = true -> faces_proper p.
Proof.
  unfold faces_check. intros H i k m Hi Hk Hm. rewrite forallb_forall in H.
  specialize (H i (proj2 (in_zrange _ _ _) Hi)). cbv beta in H. rewrite forallb_forall in H.
  specialize (H k (proj2 (in_zrange _ _ _) Hk)). cbv beta in H. rewrite forallb_forall in H.
  specialize (H m). rewrite in_seq in H. specialize (H ltac:(lia)). cbv beta in H.
  apply andb_true_iff in H. destruct H as [A B].
  split; [intros E|intros _ E]; apply same_pointb_true in E; rewrite E in *; discriminate.
Qed.
Lemma diamond_faces : faces_proper diamond.
Proof. apply faces_check_ok. vm_compute. reflexivity. Qed.

(** Stand-in for the square root with the two properties that are used. *)
Definition root0 (q : Q) : Q := 1.
Lemma root0_like : root_like root0.
Proof. split; [reflexivity|intros a H; reflexivity]. Qed.

Lemma diamond_doit s : is_ok (doit root0 (fun _ _ _ => 0) [diamond; diamond] s) = true.
Proof. destruct s; vm_compute; reflexivity. Qed.

(** Computations with reduced fractions. *)
Definition red_point (a : Q * Q) : Q * Q := (Qred (fst a), Qred (snd a)).
Lemma red_point_same a : same_point a (red_point a).
Proof. split; cbn [fst snd red_point]; symmetry; apply Qred_correct. Qed.
Definition clockwise_check (p : pol) (i k : Z) (c : Q * Q) : bool :=
  forallb (fun m => Qlt_bool (turn c (red_point (boundary_point p i k m))
                                     (red_point (boundary_point p i k ((m + 1) mod 44)))) 0) (seq 0 44).
Lemma turn_same c a a' b b' : same_point a a' -> same_point b b' -> turn c a b == turn c a' b'.
Proof. intros [A1 A2] [B1 B2]. unfold turn. rewrite A1, A2, B1, B2. reflexivity. Qed.
Lemma clockwise_ok p i k c : clockwise_check p i k c = true -> right_handed p i k.
Proof.
  unfold clockwise_check. intros H. rewrite forallb_forall in H. exists c.
  assert (T : forall m, (m < 44)%nat ->
    turn c (boundary_point p i k m) (boundary_point p i k ((m + 1) mod 44)) < 0).
  { intros m Hm. rewrite (turn_same c _ _ _ _ (red_point_same _) (red_point_same _)).
    apply Qlt_bool_iff, H, in_seq. lia. }
  split; [intros m Hm; apply Qlt_le_weak, T, Hm|]. exists 0%nat. split; [lia|]. apply T. lia.
Qed.
Fixpoint red_sum (l : list Q) (acc : Q) : Q :=
  match l with [] => acc | a :: l' => red_sum l' (Qred (acc + a)) end.
Lemma red_sum_eq l acc : red_sum l acc == acc + qsum l.
Proof.
  revert acc. induction l as [|a l IH]; intros acc; cbn [red_sum qsum]; [ring|].
  rewrite IH, Qred_correct. ring.
Qed.
Definition red_volume (s : bool) (p : pol) (i k : Z) : Q :=
  - red_sum (map (fun m => hV s (red_point (boundary_point p i k m))
                                (red_point (boundary_point p i k ((m + 1) mod 44)))) (seq 0 44)) 0.
Lemma red_volume_eq s p i k : extensional (p_coord p) -> cell_volume s p i k == red_volume s p i k.
Proof.
  intros He. rewrite (volume_around p He). unfold red_volume, around_sum. rewrite red_sum_eq.
  rewrite (qsum_map_ext (fun m => hV s (boundary_point p i k m) (boundary_point p i k ((m + 1) mod 44)))
    (fun m => hV s (red_point (boundary_point p i k m)) (red_point (boundary_point p i k ((m + 1) mod 44))))).
  - ring.
  - intros m _. apply hV_respects; apply red_point_same.
Qed.
Lemma diamond_right_handed : right_handed diamond 1 0.
Proof. apply (clockwise_ok _ _ _ (13, 0)). vm_compute. reflexivity. Qed.

(** ** A rectangular grid *)
Definition small_rect : rect :=
  {| r_nx := 5; r_nz := 4; r_dR := 2; r_dZ := 3; r_Rmin := 6; r_Zmin := -9 # 2 |}.
Lemma small_rect_rectangular : exists r, rectangular 5 4 12 r /\ r_dR r == 2 /\ r_dZ r == 3.
Proof.
  eexists. split; [exists 2, 10, 0, 2%Z; split; [discriminate|reflexivity]|].
  split; reflexivity.
Qed.

(** ** A thin cell *)
(** Corners (1, 0), (2, -1) and two points close to the line between them;
    straight sides. *)
Definition thin_coord (x z : Q) : Q * Q :=
  let u := x - (1#2) in let v := z + (1#2) in
  let A := (1, 0) in let B := (2, -1) in
  let C := ((5#3) - (1#100000), - (2#3) - (1#100000)) in
  let D := ((4#3) - (1#100000), - (1#3) - (1#100000)) in
  let mix f := v * ((1 - u) * f A + u * f B) + (1 - v) * ((1 - u) * f D + u * f C) in
  (mix (@fst Q Q), mix (@snd Q Q)).
Definition thin : pol :=
  {| p_nx := 4; p_nz := 4; p_coord := thin_coord;
     p_R := fun i k => fst (thin_coord (inject_Z i) (inject_Z k));
     p_Z := fun i k => snd (thin_coord (inject_Z i) (inject_Z k));
     p_Lz := None |}.
Lemma thin_ext : extensional (p_coord thin).
Proof.
  intros x x' z z' Hx Hz. cbn [p_coord thin]. unfold thin_coord. cbv zeta. cbn [fst snd].
  split; cbn [fst snd]; rewrite Hx, Hz; reflexivity.
Qed.
Definition thin_check (c : Q * Q) : bool :=
  clockwise_check thin 1 0 c
  && forallb (fun m => Qle_bool 1 (fst (red_point (boundary_point thin 1 0 m)))) (seq 0 44)
  && Qlt_bool (red_volume false thin 1 0) 0.
Lemma thin_check_ok c : thin_check c = true ->
  extensional (p_coord thin) /\ right_handed thin 1 0 /\
  (forall m, (m < 44)%nat -> 1 <= fst (boundary_point thin 1 0 m)) /\
  cell_volume false thin 1 0 < 0.
Proof.
  unfold thin_check. intros H. apply andb_true_iff in H. destruct H as [H H3].
  apply andb_true_iff in H. destruct H as [H1 H2].
  split; [exact thin_ext|]. split; [exact (clockwise_ok _ _ _ _ H1)|]. split.
  - intros m Hm. rewrite forallb_forall in H2. rewrite (proj1 (red_point_same _)).
    apply Qle_bool_iff, H2, in_seq. lia.
  - rewrite (red_volume_eq _ _ _ _ thin_ext). apply Qlt_bool_iff. exact H3.
Qed.
Lemma thin_true : thin_check ((3#2) - (1#200000), - (1#2) - (1#200000)) = true.
Proof. vm_compute. reflexivity. Qed.
Definition thin_witness := thin_check_ok _ thin_true.
