(** Proofs about toCent. *)
From Coq Require Import List ZArith QArith Lia Lqa.
From Verif Require Import Prelude SmoothModel SmoothProofs CentModel PolModel.
Import ListNotations.
Open Scope Q_scope.

Lemma add1_length a b : length b = length a -> length (add1 a b) = length a.
Proof. intros H. unfold add1. rewrite map_length, combine_length. lia. Qed.
Lemma add1_nth a b j : length b = length a -> (j < length a)%nat -> nth j (add1 a b) 0 = nth j a 0 + nth j b 0.
Proof.
  intros H Hj. unfold add1. rewrite (nth_indep _ 0 (fst (0, 0) + snd (0, 0))) by (rewrite map_length, combine_length; lia).
  rewrite (map_nth (fun p : Q * Q => fst p + snd p)), combine_nth by lia. reflexivity.
Qed.
Lemma add2_length a b : length b = length a -> length (add2 a b) = length a.
Proof. intros H. unfold add2. rewrite map_length, combine_length. lia. Qed.
Lemma add2_nth a b i : length b = length a -> (i < length a)%nat -> nth i (add2 a b) [] = add1 (nth i a []) (nth i b []).
Proof.
  intros H Hi. unfold add2. rewrite (nth_indep _ [] (add1 (fst ([] : list Q, [] : list Q)) (snd ([] : list Q, [] : list Q)))) by (rewrite map_length, combine_length; lia).
  rewrite (map_nth (fun p : list Q * list Q => add1 (fst p) (snd p))), combine_nth by lia. reflexivity.
Qed.
Lemma removelast_length {A} (l : list A) : length (removelast l) = (length l - 1)%nat.
Proof. induction l as [|a [|b l] IH]; [reflexivity|reflexivity|]. change (removelast (a :: b :: l)) with (a :: removelast (b :: l)). cbn [length] in *. rewrite IH. lia. Qed.
Lemma removelast_nth {A} (l : list A) d : forall i, (S i < length l)%nat -> nth i (removelast l) d = nth i l d.
Proof.
  induction l as [|a [|b l] IH]; intros i H; [cbn in H; lia|cbn in H; lia|]. change (removelast (a :: b :: l)) with (a :: removelast (b :: l)).
  destruct i as [|i]; [reflexivity|]. cbn [nth]. apply IH. cbn [length] in *. lia.
Qed.
Lemma tl_nth {A} (l : list A) d i : nth i (tl l) d = nth (S i) l d. Proof. destruct l; [destruct i|]; reflexivity. Qed.
Lemma tl_length {A} (l : list A) : length (tl l) = (length l - 1)%nat. Proof. destruct l; cbn; lia. Qed.
Lemma roll1_nth l j : (j < length l)%nat -> nth j (rollz 1 l) 0 = nth ((j + length l - 1) mod length l) l 0.
Proof.
  intros H. assert (R := rollz_nth 1 l (Z.of_nat j)). unfold len in R. rewrite Nat2Z.id in R. rewrite R by lia. f_equal.
  rewrite <- (Nat2Z.id ((j + length l - 1) mod length l)). f_equal. rewrite Nat2Z.inj_mod by lia. rewrite Nat2Z.inj_sub, Nat2Z.inj_add by lia.
  replace (Z.of_nat j + Z.of_nat (length l) - Z.of_nat 1)%Z with (Z.of_nat j - 1 + 1 * Z.of_nat (length l))%Z by lia. now rewrite Z.mod_add by lia.
Qed.
Section Cent.
Variables (RZ : list (list Q)) (nz : nat).
Hypothesis rows : forall r, In r RZ -> length r = nz.
Notation c1 := (add2 RZ (map (rollz 1) RZ)).
Lemma c1_length : length c1 = length RZ. Proof. apply add2_length. apply map_length. Qed.
Lemma c1_nth i : (i < length RZ)%nat -> nth i c1 [] = add1 (nth i RZ []) (rollz 1 (nth i RZ [])).
Proof. intros H. rewrite add2_nth by (rewrite ?map_length; lia). f_equal. exact (map_nth (rollz 1) RZ [] i). Qed.
Lemma row_len i : (i < length RZ)%nat -> length (nth i RZ []) = nz. Proof. intros H. apply rows, nth_In, H. Qed.
Lemma c1_row i : (i < length RZ)%nat -> length (nth i c1 []) = nz.
Proof. intros H. rewrite c1_nth by exact H. rewrite add1_length by apply rollz_length. now apply row_len. Qed.
Lemma cent_length : length (toCent RZ) = (length RZ - 1)%nat.
Proof. unfold toCent. rewrite map_length, add2_length by (now rewrite removelast_length, tl_length). rewrite tl_length, c1_length. reflexivity. Qed.
Lemma cent_nth0 i : (S i < length RZ)%nat -> nth i (toCent RZ) [] = map (fun v => v / 4) (add1 (nth (S i) c1 []) (nth i c1 [])).
Proof.
  intros H. unfold toCent. change (@nil Q) with (map (fun v => v / 4) []) at 1. rewrite map_nth. f_equal.
  assert (L := c1_length). rewrite add2_nth by (rewrite ?removelast_length, ?tl_length; lia). rewrite tl_nth, removelast_nth by lia. reflexivity.
Qed.
Lemma cent_row i : (S i < length RZ)%nat -> length (nth i (toCent RZ) []) = nz.
Proof. intros H. rewrite cent_nth0, map_length by exact H. rewrite add1_length; rewrite !c1_row by lia; reflexivity. Qed.
Lemma cent_at i j : (S i < length RZ)%nat -> (j < nz)%nat ->
  nth j (nth i (toCent RZ) []) 0 == (nth j (nth i RZ []) 0 + nth ((j + nz - 1) mod nz) (nth i RZ []) 0 + nth j (nth (S i) RZ []) 0 + nth ((j + nz - 1) mod nz) (nth (S i) RZ []) 0) / 4.
Proof.
  intros Hi Hj. rewrite cent_nth0 by exact Hi. rewrite (nth_indep _ 0 (0 / 4)) by (rewrite map_length, add1_length; rewrite !c1_row by lia; lia).
  rewrite (map_nth (fun v => v / 4)). rewrite add1_nth by (rewrite !c1_row by lia; lia). rewrite !c1_nth by lia.
  rewrite !add1_nth; try (apply rollz_length); try (rewrite row_len by lia; exact Hj). rewrite !roll1_nth by (rewrite row_len by lia; exact Hj). rewrite !row_len by lia. field.
Qed.
End Cent.

(** the coordinates of a rectangular grid at its points *)
Definition table (nx nz : nat) (f : nat -> nat -> Q) : list (list Q) := map (fun i => map (fun j => f i j) (seq 0 nz)) (seq 0 nx).
Lemma table_length nx nz f : length (table nx nz f) = nx. Proof. unfold table. now rewrite map_length, seq_length. Qed.
Lemma table_rows nx nz f r : In r (table nx nz f) -> length r = nz.
Proof. intros H. unfold table in H. apply in_map_iff in H. destruct H as (i & <- & _). now rewrite map_length, seq_length. Qed.
Lemma nth_map_seq {A} (g : nat -> A) n i d : (i < n)%nat -> nth i (map g (seq 0 n)) d = g i.
Proof. intros H. rewrite (nth_indep _ d (g 0%nat)) by (rewrite map_length, seq_length; exact H). rewrite map_nth, seq_nth by exact H. reflexivity. Qed.
Lemma table_nth nx nz f i j : (i < nx)%nat -> (j < nz)%nat -> nth j (nth i (table nx nz f) []) 0 = f i j.
Proof. intros Hi Hj. unfold table. rewrite (nth_map_seq (fun i => map (fun j => f i j) (seq 0 nz))) by exact Hi. now rewrite nth_map_seq. Qed.
Lemma table_cent nx nz f i j : (S i < nx)%nat -> (j < nz)%nat ->
  nth j (nth i (toCent (table nx nz f)) []) 0 == (f i j + f i ((j + nz - 1) mod nz)%nat + f (S i) j + f (S i) ((j + nz - 1) mod nz)%nat) / 4.
Proof.
  intros Hi Hj. assert (((j + nz - 1) mod nz < nz)%nat) by (apply Nat.mod_upper_bound; lia).
  rewrite (cent_at _ nz (table_rows nx nz f)) by (rewrite ?table_length; assumption). rewrite !table_nth by lia. reflexivity.
Qed.
Lemma back_one j nz : (1 <= j < nz)%nat -> ((j + nz - 1) mod nz = j - 1)%nat.
Proof. intros H. replace (j + nz - 1)%nat with (j - 1 + 1 * nz)%nat by lia. rewrite Nat.mod_add by lia. apply Nat.mod_small. lia. Qed.
Lemma back_zero nz : (1 <= nz)%nat -> ((0 + nz - 1) mod nz = nz - 1)%nat.
Proof. intros H. apply Nat.mod_small. lia. Qed.
Definition nq (k : nat) : Q := inject_Z (Z.of_nat k).
Lemma nq_S k : nq (S k) == nq k + 1. Proof. unfold nq. rewrite Nat2Z.inj_succ. unfold Z.succ. now rewrite inject_Z_plus. Qed.
Lemma nq_pred k : (1 <= k)%nat -> nq (k - 1) == nq k - 1.
Proof. intros H. destruct k; [lia|]. rewrite nq_S. replace (S k - 1)%nat with k by lia. ring. Qed.
Section Rect.
Variable r : rect.
Definition rR (x : Q) : Q := r_Rmin r + x * r_dR r.
Definition rZ (z : Q) : Q := r_Zmin r + z * r_dZ r.
Lemma rect_R nx nz i j : (S i < nx)%nat -> (j < nz)%nat ->
  nth j (nth i (toCent (table nx nz (fun i _ => rR (nq i)))) []) 0 == rR (nq i + (1 # 2)).
Proof. intros Hi Hj. rewrite table_cent by assumption. unfold rR. rewrite nq_S. field. Qed.
Lemma rect_Z nx nz i j : (S i < nx)%nat -> (1 <= j < nz)%nat ->
  nth j (nth i (toCent (table nx nz (fun _ j => rZ (nq j)))) []) 0 == rZ (nq j - (1 # 2)).
Proof. intros Hi Hj. rewrite table_cent by (assumption || lia). rewrite back_one by exact Hj. unfold rZ. rewrite nq_pred by lia. field. Qed.
Lemma rect_seam nx nz i : (S i < nx)%nat -> (1 <= nz)%nat ->
  nth 0 (nth i (toCent (table nx nz (fun _ j => rZ (nq j)))) []) 0 == rZ ((nq nz - 1) / 2).
Proof. intros Hi Hj. rewrite table_cent by (assumption || lia). rewrite back_zero by exact Hj. unfold rZ. rewrite nq_pred by lia. change (nq 0) with 0. field. Qed.
End Rect.
Lemma rect_coord r x z : rect_getCoordinate r x z 0 0 = Ok (rR r x, rZ r z). Proof. reflexivity. Qed.
Lemma between4 a b c d lo hi : lo <= a <= hi -> lo <= b <= hi -> lo <= c <= hi -> lo <= d <= hi -> lo <= (a + b + c + d) / 4 <= hi.
Proof. intros. unfold Qdiv. change (/ 4) with (1 # 4). lra. Qed.
Lemma cent_between RZ nz i j lo hi : (forall r, In r RZ -> length r = nz) -> (S i < length RZ)%nat -> (j < nz)%nat ->
  (forall i' j', (i' = i \/ i' = S i) -> (j' = j \/ j' = (j + nz - 1) mod nz)%nat -> lo <= nth j' (nth i' RZ []) 0 <= hi) -> lo <= nth j (nth i (toCent RZ) []) 0 <= hi.
Proof. intros H Hi Hj B. rewrite (cent_at RZ nz H i j Hi Hj). apply between4; apply B; tauto. Qed.
Lemma rect_centres r nx nz i j R0 Z0 : (S i < nx)%nat -> (j < nz)%nat ->
  (forall i j, exists R Z, rect_getCoordinate r (inject_Z (Z.of_nat i)) (inject_Z (Z.of_nat j)) 0 0 = Ok (R, Z) /\ R = R0 i j /\ Z = Z0 i j) ->
  exists R Z, rect_getCoordinate r (inject_Z (Z.of_nat i) + (1 # 2)) (inject_Z (Z.of_nat j) - (1 # 2)) 0 0 = Ok (R, Z) /\
  nth j (nth i (toCent (map (fun i => map (R0 i) (seq 0 nz)) (seq 0 nx))) []) 0 == R /\
  ((1 <= j)%nat -> nth j (nth i (toCent (map (fun i => map (Z0 i) (seq 0 nz)) (seq 0 nx))) []) 0 == Z).
Proof.
  intros Hi Hj H. assert (E : forall i j, R0 i j = rR r (nq i) /\ Z0 i j = rZ r (nq j)).
  { intros a b. destruct (H a b) as (R & Z & E & -> & ->). rewrite rect_coord in E. injection E as E1 E2. split; symmetry; assumption. }
  exists (rR r (nq i + (1 # 2))), (rZ r (nq j - (1 # 2))). split; [reflexivity|]. split.
  - rewrite <- (rect_R r nx nz i j Hi Hj). unfold table. rewrite (map_ext (fun i => map (R0 i) (seq 0 nz)) (fun i => map (fun _ => rR r (nq i)) (seq 0 nz))); [reflexivity|].
    intros a. apply map_ext. intros b. apply E.
  - intros H1. rewrite <- (rect_Z r nx nz i j Hi (conj H1 Hj)). unfold table. rewrite (map_ext (fun i => map (Z0 i) (seq 0 nz)) (fun i => map (fun j => rZ r (nq j)) (seq 0 nz))); [reflexivity|].
    intros a. apply map_ext. intros b. apply E.
Qed.
Lemma seam_witness : exists r, rect_init 2 4 2 4 1 (3 # 2) 0 = Ok r /\
  (forall i j, rect_getCoordinate r (inject_Z i) (inject_Z j) 0 0 = Ok (r_Rmin r + inject_Z i * r_dR r, r_Zmin r + inject_Z j * r_dZ r)) /\
  let RZ := map (fun i : nat => map (fun j => r_Zmin r + inject_Z (Z.of_nat j) * r_dZ r) (seq 0 4)) (seq 0 2) in
  nth 0 (nth 0 (toCent RZ) []) 0 == 3 # 2 /\ r_Zmin r + (0 - (1 # 2)) * r_dZ r == - (1 # 2) /\ r_Zmin r + ((4 - (1 # 2))) * r_dZ r == 7 # 2.
Proof. eexists. split; [reflexivity|]. split; [reflexivity|]. repeat split; reflexivity. Qed.
