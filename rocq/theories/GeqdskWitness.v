(** Witnesses for the statements about GEQDSK. *)
From Coq Require Import List ZArith QArith Qabs Bool Lia Lqa.
From Verif Require Import Prelude PreludeFacts BoundaryModel BoundarySpec BoundaryProofs BoundaryWitness W7xModel GeqdskModel GeqdskSpec GeqdskProofs.
Import ListNotations.
Open Scope Q_scope.

(** Splines that only know their nodes *)
Fixpoint find_from (x : Q) (l : list Q) (k : nat) : option nat :=
  match l with [] => None | a :: t => if Qeq_bool x a then Some k else find_from x t (S k) end.
Definition own_index (xs : list Q) (i : nat) : bool :=
  match find_from (nth i xs 0) xs 0 with Some k => (k =? i)%nat | None => false end.
Definition w_rect (xs ys : list Q) (a : array2 (option Q)) : res spline2 :=
  if (length xs =? len0 a)%nat && (length ys =? len1 a)%nat && (4 <=? len0 a)%nat && (4 <=? len1 a)%nat &&
     forallb (own_index xs) (seq 0 (length xs)) && forallb (own_index ys) (seq 0 (length ys))
  then Ok {| ev := fun x y => match find_from x xs 0, find_from y ys 0 with Some i, Some j => cell a i j | _, _ => Some 0 end;
             ev_dx := fun _ _ => Some 1; ev_dy := fun _ _ => Some 1 |}
  else Err ValueError.
Definition w_profile (xs vs : list Q) (t : Q) : Q :=
  if Qle_bool t (nth 0 xs 0) then nth 0 vs 0 else if Qle_bool (last xs 0) t then last vs 0
  else match find_from t xs 0 with Some k => nth k vs 0 | None => 0 end.
Definition w_line (xs vs : list Q) (ext : nat) : res (Q -> Q) :=
  if (length xs =? length vs)%nat && (4 <=? length xs)%nat && Qlt_bool (nth 0 xs 0) (last xs 0) &&
     forallb (fun k => Qeq_bool (w_profile xs vs (nth k xs 0)) (nth k vs 0)) (seq 0 (length xs))
  then Ok (w_profile xs vs) else Err ValueError.

Lemma own_index_ok xs i : forallb (own_index xs) (seq 0 (length xs)) = true -> (i < length xs)%nat -> find_from (nth i xs 0) xs 0 = Some i.
Proof.
  intros H Hi. rewrite forallb_forall in H. specialize (H i ltac:(apply in_seq; lia)). unfold own_index in H.
  destruct (find_from _ _ _) as [k|]; [|discriminate]. apply Nat.eqb_eq in H. now subst.
Qed.
Lemma same_refl a : same a a. Proof. destruct a; cbn; [reflexivity|exact I]. Qed.
Lemma w_rect_good : through_mesh w_rect.
Proof.
  intros xs ys a s E. unfold w_rect in E.
  destruct ((length xs =? len0 a)%nat) eqn:E1; cbn [andb] in E; [|discriminate]. destruct ((length ys =? len1 a)%nat) eqn:E2; cbn [andb] in E; [|discriminate].
  destruct ((4 <=? len0 a)%nat) eqn:E3; cbn [andb] in E; [|discriminate]. destruct ((4 <=? len1 a)%nat) eqn:E4; cbn [andb] in E; [|discriminate].
  destruct (forallb (own_index xs) _) eqn:E5; cbn [andb] in E; [|discriminate]. destruct (forallb (own_index ys) _) eqn:E6; cbn [andb] in E; [|discriminate].
  apply Nat.eqb_eq in E1, E2. apply Nat.leb_le in E3, E4. injection E as <-. repeat split; auto.
  intros i j Hi Hj. cbn [ev]. rewrite (own_index_ok xs i E5) by lia. rewrite (own_index_ok ys j E6) by lia. apply same_refl.
Qed.
Lemma find_proper s t l k : s == t -> find_from s l k = find_from t l k.
Proof. intros H. revert k. induction l as [|a l IH]; [reflexivity|]. intros k. cbn [find_from]. rewrite H. now rewrite IH. Qed.
Lemma profile_proper xs vs s t : s == t -> w_profile xs vs s == w_profile xs vs t.
Proof. intros H. unfold w_profile. rewrite (find_proper s t _ _ H). rewrite !H. reflexivity. Qed.
Lemma w_line_good : through_line w_line.
Proof.
  intros xs vs f E. unfold w_line in E.
  destruct ((length xs =? length vs)%nat) eqn:E1; cbn [andb] in E; [|discriminate]. destruct ((4 <=? length xs)%nat) eqn:E2; cbn [andb] in E; [|discriminate].
  destruct (Qlt_bool (nth 0 xs 0) (last xs 0)) eqn:E3; cbn [andb] in E; [|discriminate]. destruct (forallb _ _) eqn:E4; [|discriminate].
  apply Nat.eqb_eq in E1. apply Nat.leb_le in E2. apply Qlt_bool_iff in E3. injection E as <-. split; [exact E1|]. split; [exact E2|]. split; [|split; [|split]].
  - intros s t. apply profile_proper.
  - intros k Hk. rewrite forallb_forall in E4. apply Qeq_bool_iff, E4, in_seq. lia.
  - intros t Ht. unfold w_profile. apply Qle_bool_iff in Ht. rewrite Ht. reflexivity.
  - intros t Ht. unfold w_profile. destruct (Qle_bool t (nth 0 xs 0)) eqn:A; [apply Qle_bool_iff in A; lra|]. apply Qle_bool_iff in Ht. rewrite Ht. reflexivity.
Qed.

(** A file: major radius 1 to 4, height -2 to 2, the flux 0 on the axis and 3 at the edge
    of a triangular core with its tip up, at (2, 1) *)
Definition w_core : list pt := [(1 # 2, -1 # 2); (7 # 2, -1 # 2); (2, 3 # 2)].
Definition w_psi : array2 Q := {| len0 := 5; len1 := 4; cell := fun j i => inject_Z (Z.of_nat i) |}.
Definition w_file : eqdsk := {| rleft := 1; rdim := 3; zmid := 0; zdim := 4; psirz := w_psi; simagx := 0; sibdry := 3;
  fpol := [10; 11; 12; 13]; pres := [7; 5; 3; 2]; rbdry := map fst w_core; zbdry := map snd w_core; rlim := [1; 4; 4; 1]; zlim := [-2; -2; 2; 2] |}.
Definition w_built : geqdsk := match snd (geqdsk_init w_rect w_line w_file) with Ok g => g | Err _ => {| gr := []; gz := []; gpsi := {| ev := fun _ _ => None; ev_dx := fun _ _ => None; ev_dy := fun _ _ => None |}; gnorm := {| ev := fun _ _ => None; ev_dx := fun _ _ => None; ev_dy := fun _ _ => None |}; gf := fun x => x; gp := fun x => x; limiter := None |} end.
Lemma w_built_ok : geqdsk_init w_rect w_line w_file = (Some (gpsi w_built), Ok w_built).
Proof. reflexivity. Qed.
Lemma w_core_convex : convex 1 w_core.
Proof. repeat split; fop. Qed.
Definition osame (a b : option Q) : bool := match a, b with Some a, Some b => Qeq_bool a b | None, None => true | _, _ => false end.
(** two nodes in the core, one outside, one outside but straight below the tip *)
Lemma w_values : map (fun ij => let x := nth (fst ij) (gr w_built) 0 in let z := nth (snd ij) (gz w_built) 0 in
      (polygon_outside (BoundaryWitness.w_poly w_core) x z, option_map Qred (gBy w_built x z), option_map Qred (gpressure w_built x z))) [(1, 2); (2, 2); (3, 4); (1, 0)]%nat
  = [(Ok true, Some (13 # 2), Some 2); (Ok false, Some 4, Some 3); (Ok true, Some (13 # 4), Some 2); (Ok false, Some (11 # 2), Some 5)].
Proof. vm_compute. reflexivity. Qed.
Lemma w_sides : forall a b, In (a, b) (sides w_core) -> fst a == fst b \/ 1 # 1000000 <= Qabs (fst b - fst a).
Proof. intros a b [E|[E|[E|[]]]]; injection E as <- <-; right; vm_compute; discriminate. Qed.
Lemma w_below_tip : ~ convex_interior 1 w_core (nth 1 (gr w_built) 0, nth 0 (gz w_built) 0) /\
  ~ same (gpressure w_built (nth 1 (gr w_built) 0) (nth 0 (gz w_built) 0)) (Some (last (pres w_file) 0)).
Proof.
  split.
  - intros H. specialize (H (1 # 2, -1 # 2) (7 # 2, -1 # 2) (or_introl eq_refl)). vm_compute in H. discriminate H.
  - vm_compute. discriminate.
Qed.
Lemma w_centre : convex_interior 1 w_core (nth 1 (gr w_built) 0, nth 2 (gz w_built) 0) /\
  ~ same (ev (gnorm w_built) (nth 1 (gr w_built) 0) (nth 2 (gz w_built) 0)) (Some ((cell (psirz w_file) 2 1 - simagx w_file) / (sibdry w_file - simagx w_file))).
Proof.
  split.
  - intros a b [E|[E|[E|[]]]]; injection E as <- <-; vm_compute; reflexivity.
  - vm_compute. discriminate.
Qed.
Lemma w_free : (forall v, In v w_core -> ~ fst v == nth 3 (gr w_built) 0) /\
  (forall a b, In (a, b) (sides w_core) -> ~ on_segment a b (nth 3 (gr w_built) 0, nth 4 (gz w_built) 0)) /\
  ~ convex_interior 1 w_core (nth 3 (gr w_built) 0, nth 4 (gz w_built) 0).
Proof.
  split; [|split].
  - intros v [<-|[<-|[<-|[]]]]; vm_compute; discriminate.
  - change (nth 3 (gr w_built) 0) with 4. change (nth 4 (gz w_built) 0) with (0 + (1 # 2) * 4).
    intros a b [E|[E|[E|[]]]]; injection E as <- <-; intros (t & Ht & Hx & Hz); cbn [fst snd] in *; Lqa.lra.
  - intros H. specialize (H (7 # 2, -1 # 2) (2, 3 # 2) ltac:(right; left; reflexivity)). vm_compute in H. discriminate H.
Qed.

(** a file without a core boundary, one with a flat flux, one with the flux stored the other way round *)
Definition w_no_core : eqdsk := {| rleft := 1; rdim := 3; zmid := 0; zdim := 4; psirz := w_psi; simagx := 0; sibdry := 3;
  fpol := [10; 11; 12; 13]; pres := [7; 5; 3; 2]; rbdry := []; zbdry := []; rlim := []; zlim := [] |}.
Definition w_flat : eqdsk := {| rleft := 1; rdim := 3; zmid := 0; zdim := 4; psirz := w_psi; simagx := 3; sibdry := 3;
  fpol := [10; 11; 12; 13]; pres := [7; 5; 3; 2]; rbdry := map fst w_core; zbdry := map snd w_core; rlim := []; zlim := [] |}.
Definition w_flat_built : geqdsk := match snd (geqdsk_init w_rect w_line w_flat) with Ok g => g | Err _ => w_built end.
Definition w_other_way : eqdsk := {| rleft := 1; rdim := 3; zmid := 0; zdim := 4; psirz := transpose w_psi; simagx := 0; sibdry := 3;
  fpol := [10; 11; 12; 13]; pres := [7; 5; 3; 2]; rbdry := map fst w_core; zbdry := map snd w_core; rlim := []; zlim := [] |}.
Lemma w_refused : geqdsk_init w_rect w_line w_no_core = (Some (gpsi w_built), Err ValueError) /\ zbdry w_no_core = [] /\
  (exists o, geqdsk_init w_rect w_line w_flat = (o, Ok w_flat_built)) /\ sibdry w_flat == simagx w_flat /\
  polygon_outside (w_poly w_core) (nth 2 (gr w_flat_built) 0) (nth 2 (gz w_flat_built) 0) = Ok false /\
  (exists o e, geqdsk_init w_rect w_line w_other_way = (Some o, Err e)) /\ length (fpol w_other_way) <> len1 (psirz w_other_way).
Proof.
  split; [reflexivity|]. split; [reflexivity|]. split; [eexists; reflexivity|]. split; [reflexivity|]. split; [vm_compute; reflexivity|].
  split; [eexists; eexists; reflexivity|]. cbn. discriminate.
Qed.
