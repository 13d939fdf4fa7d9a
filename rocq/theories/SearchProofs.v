(** Proofs about the search of EMC3FieldTracer.rz_to_ab. *)
From Coq Require Import List ZArith QArith Bool Lia Lqa.
From Verif Require Import Prelude PreludeFacts RzModel RzGreedy EmcModel SearchModel SearchSpec.
Import ListNotations.
Open Scope Q_scope.

(** the number found for corner (i, j) *)
Definition number (m : mesh) (i j : nat) : nat := (if (i =? nr m - 1)%nat then i - 1 else i) * nz m + j.

Lemma l2_length m rz : length (l2 m rz) = (nr m * nz m)%nat.
Proof. unfold l2. now rewrite map_length, seq_length. Qed.
Lemma l2_nth m rz i j : (i < nr m)%nat -> (j < nz m)%nat -> nth (i * nz m + j) (l2 m rz) 0 = far2 m rz i j.
Proof.
  intros Hi Hj. assert (L : (i * nz m + j < nr m * nz m)%nat) by nia. unfold l2, far2.
  set (f := fun k : nat => _). rewrite (nth_indep _ 0 (f 0%nat)) by (rewrite map_length, seq_length; exact L). rewrite map_nth, seq_nth by exact L.
  unfold f. cbn [Nat.add]. replace ((i * nz m + j) / nz m)%nat with i; [replace ((i * nz m + j) mod nz m)%nat with j; [reflexivity|]|].
  - rewrite Nat.add_comm, Nat.mod_add, Nat.mod_small by lia. reflexivity.
  - rewrite Nat.div_add_l, Nat.div_small by lia. lia.
Qed.
Lemma argmin_corner m rz : (0 < nr m)%nat -> (0 < nz m)%nat -> exists i j, argmin (l2 m rz) = (i * nz m + j)%nat /\ nearest m rz i j.
Proof.
  intros Hr Hz. assert (N : l2 m rz <> []) by (intros E; pose proof (l2_length m rz) as L; rewrite E in L; cbn in L; nia).
  destruct (argmin_spec _ N) as [A1 A2]. rewrite l2_length in A1. set (k := argmin (l2 m rz)) in *.
  exists (k / nz m)%nat, (k mod nz m)%nat. pose proof (Nat.div_mod k (nz m) ltac:(lia)) as E.
  assert (K1 : (k / nz m < nr m)%nat) by (apply Nat.div_lt_upper_bound; nia). assert (K2 : (k mod nz m < nz m)%nat) by (apply Nat.mod_upper_bound; lia).
  split; [lia|]. split; [exact K1|]. split; [exact K2|]. intros i' j' Hi Hj. rewrite <- (l2_nth m rz i' j' Hi Hj), <- (l2_nth m rz _ _ K1 K2).
  replace (k / nz m * nz m + k mod nz m)%nat with k by lia. apply A2. rewrite l2_length. nia.
Qed.
Lemma near_spec m rz d : (2 <= nr m)%nat -> (0 < nz m)%nat -> exists i j, nearest m rz i j /\
  near m rz d = Ok (if Qlt_bool (far2 m rz i j) d then Some (Z.of_nat (number m i j)) else None).
Proof.
  intros Hr Hz. destruct (argmin_corner m rz ltac:(lia) Hz) as (i & j & E & N). exists i, j. split; [exact N|]. destruct N as (Hi & Hj & _).
  unfold near. destruct (l2 m rz) as [|v l] eqn:EL; [pose proof (l2_length m rz) as L; rewrite EL in L; cbn in L; nia|].
  rewrite E, <- EL, l2_nth by assumption. destruct (Qlt_bool (far2 m rz i j) d); [|reflexivity]. do 2 f_equal. unfold number.
  destruct (Nat.eqb_spec i (nr m - 1)) as [-> | Hne]; destruct (Z.leb_spec (Z.of_nat ((nr m - 1) * nz m)) (Z.of_nat (i * nz m + j))) as [H|H] || destruct (Z.leb_spec (Z.of_nat ((nr m - 1) * nz m)) (Z.of_nat ((nr m - 1) * nz m + j))) as [H|H]; nia.
Qed.
Definition good (m : mesh) : Prop := (2 <= nr m)%nat /\ (0 < nz m)%nat.
Lemma near_loop_spec l rz d : (forall m, In m l -> good m) -> exists o, near_loop l rz d = Ok o /\
  match o with
  | Some (m, ij) => In m l /\ exists i j, nearest m rz i j /\ far2 m rz i j < d /\ ij = Z.of_nat (number m i j)
  | None => forall m i j, In m l -> (i < nr m)%nat -> (j < nz m)%nat -> d <= far2 m rz i j
  end.
Proof.
  induction l as [|m l IH]; intros G; cbn [near_loop]; [exists None; split; [reflexivity|]; intros ? ? ? []|].
  destruct (G m (or_introl eq_refl)) as [G1 G2]. destruct (near_spec m rz d G1 G2) as (i & j & N & ->). cbn [bind].
  destruct (Qlt_bool (far2 m rz i j) d) eqn:E.
  - exists (Some (m, Z.of_nat (number m i j))). split; [reflexivity|]. split; [now left|]. exists i, j. split; [exact N|]. split; [now apply Qlt_bool_iff|reflexivity].
  - destruct (IH (fun m' I => G m' (or_intror I))) as (o & Eo & H). exists o. split; [exact Eo|]. destruct o as [[m' ij]|].
    + destruct H as [I H]. split; [now right|exact H].
    + intros m' i' j' [<- | I] Hi Hj; [|now apply H]. destruct N as (_ & _ & N). specialize (N i' j' Hi Hj).
      assert (~ far2 m rz i j < d) by (intros L; apply Qlt_bool_iff in L; congruence). lra.
Qed.
Lemma widen_spec minds l rz : (forall m, In m l -> good m) -> exists o, widen minds l rz = Ok o /\
  match o with
  | Some (m, ij) => In m l /\ exists i j d, In d minds /\ nearest m rz i j /\ far2 m rz i j < d * d /\ ij = Z.of_nat (number m i j)
  | None => forall d m i j, In d minds -> In m l -> (i < nr m)%nat -> (j < nz m)%nat -> d * d <= far2 m rz i j
  end.
Proof.
  intros G. induction minds as [|d minds IH]; cbn [widen]; [exists None; split; [reflexivity|]; intros ? ? ? ? []|].
  destruct (near_loop_spec l rz (d * d) G) as (o & -> & H). cbn [bind]. destruct o as [[m ij]|].
  - exists (Some (m, ij)). split; [reflexivity|]. destruct H as (I & i & j & H1 & H2 & H3). split; [exact I|]. exists i, j, d. split; [now left|auto].
  - destruct IH as (o & -> & H'). exists o. split; [reflexivity|]. destruct o as [[m ij]|].
    + destruct H' as (I & i & j & d' & H1 & H2). split; [exact I|]. exists i, j, d'. split; [now right|exact H2].
    + intros d' m i j [<- | I]; [apply H|now apply H'].
Qed.

Section Search.
Variable find : mesh -> pt -> Z -> Z.
Variable least_squares : pt -> pt -> pt -> pt -> pt.
Variable loc : mesh -> pt -> Z.
Hypothesis hints : forall m rz h, find m rz h = loc m rz.

Lemma find_none l rz ij : (forall m, In m l -> (loc m rz < 0)%Z) -> find_loop find l rz ij = None.
Proof.
  revert ij. induction l as [|m l IH]; intros ij H; cbn [find_loop]; [reflexivity|]. rewrite hints.
  destruct (Z.leb_spec 0 (loc m rz)); [specialize (H m (or_introl eq_refl)); lia|]. apply IH. intros m' I. apply H. now right.
Qed.
Lemma in_order meshes z m : In m (order meshes z) <-> In m meshes.
Proof. unfold order. rewrite in_app_iff. rewrite <- (firstn_skipn z meshes) at 3. rewrite in_app_iff. tauto. Qed.
Lemma found meshes z rz ij pre m post : order meshes z = pre ++ m :: post -> (forall m', In m' pre -> (loc m' rz < 0)%Z) -> (0 <= loc m rz)%Z ->
  rz_to_ab find least_squares rz meshes ij z = let* ab := cell_ab least_squares m rz (loc m rz) in Ok (ab, loc m rz, zid m).
Proof.
  intros E H1 H2. unfold rz_to_ab. rewrite E. clear E.
  assert (F : find_loop find (pre ++ m :: post) rz ij = Some (m, loc m rz)); [|now rewrite F].
  revert ij. induction pre as [|m' pre IH]; intros ij; cbn [app find_loop]; rewrite hints.
  - destruct (Z.leb_spec 0 (loc m rz)); [reflexivity|lia].
  - destruct (Z.leb_spec 0 (loc m' rz)); [specialize (H1 m' (or_introl eq_refl)); lia|]. apply IH. intros m'' I. apply H1. now right.
Qed.
Lemma fallback meshes z rz ij ab k z' : (forall m, In m meshes -> good m /\ (loc m rz < 0)%Z) -> rz_to_ab find least_squares rz meshes ij z = Ok (ab, k, z') ->
  exists m i j, In m meshes /\ zid m = z' /\ nearest m rz i j /\ far2 m rz i j < 1 /\ k = Z.of_nat (number m i j) /\ cell_ab least_squares m rz k = Ok ab.
Proof.
  intros H E. unfold rz_to_ab in E. rewrite find_none in E by (intros m I; apply in_order in I; apply (H m I)).
  destruct (widen_spec [1 # 1000; 1 # 100; 1] (order meshes z) rz) as (o & Eo & S); [intros m I; apply in_order in I; apply (H m I)|].
  rewrite Eo in E. cbn [bind] in E. destruct o as [[m n]|]; [|discriminate E]. destruct S as (I & i & j & d & Id & N & F & ->).
  destruct (cell_ab least_squares m rz (Z.of_nat (number m i j))) as [ab'|e] eqn:C; cbn [bind] in E; [|discriminate E].
  pose proof (f_equal (fun x => match x with Ok v => v | Err _ => (ab, k, z') end) E) as E'. cbn beta iota in E'. injection E' as -> <- <-.
  exists m, i, j. split; [now apply in_order in I|]. split; [reflexivity|]. split; [exact N|]. split; [|split; [reflexivity|exact C]].
  destruct Id as [<- |[<- |[<- | []]]]; lra.
Qed.
Lemma too_far meshes z rz ij : (forall m, In m meshes -> good m /\ (loc m rz < 0)%Z) -> (forall m i j, In m meshes -> (i < nr m)%nat -> (j < nz m)%nat -> 1 <= far2 m rz i j) ->
  rz_to_ab find least_squares rz meshes ij z = Err RuntimeError.
Proof.
  intros H F. unfold rz_to_ab. rewrite find_none by (intros m I; apply in_order in I; apply (H m I)).
  destruct (widen_spec [1 # 1000; 1 # 100; 1] (order meshes z) rz) as (o & Eo & S); [intros m I; apply in_order in I; apply (H m I)|].
  rewrite Eo. cbn [bind]. destruct o as [[m n]|]; [|reflexivity]. exfalso. destruct S as (I & i & j & d & Id & N & L & _). apply in_order in I.
  specialize (F m i j I (proj1 N) (proj1 (proj2 N))). destruct Id as [<- |[<- |[<- | []]]]; lra.
Qed.
Lemma one_zone m z rz ij i j : good m -> (loc m rz < 0)%Z -> only_nearest m rz i j -> far2 m rz i j < 1 ->
  rz_to_ab find least_squares rz [m] ij z = let* ab := cell_ab least_squares m rz (Z.of_nat (number m i j)) in Ok (ab, Z.of_nat (number m i j), zid m).
Proof.
  intros G L (N & U) F. unfold rz_to_ab. rewrite find_none by (intros m' I; apply in_order in I; destruct I as [<- | []]; exact L).
  destruct (widen_spec [1 # 1000; 1 # 100; 1] (order [m] z) rz) as (o & Eo & S); [intros m' I; apply in_order in I; destruct I as [<- | []]; exact G|].
  rewrite Eo. cbn [bind]. destruct o as [[m' n]|].
  - destruct S as (I & i' & j' & d & _ & N' & _ & ->). apply in_order in I. destruct I as [<- | []]. destruct (U i' j' N') as [-> ->]. reflexivity.
  - exfalso. assert (I : In m (order [m] z)) by (apply in_order; now left). specialize (S 1 m i j ltac:(right; right; now left) I (proj1 N) (proj1 (proj2 N))). lra.
Qed.
Lemma degenerate m z rz ij : (loc m rz < 0)%Z ->
  ((nr m * nz m = 0)%nat -> rz_to_ab find least_squares rz [m] ij z = Err ValueError) /\
  (nz m = 1%nat -> (2 <= nr m)%nat -> (exists i, (i < nr m)%nat /\ far2 m rz i 0 < 1) -> rz_to_ab find least_squares rz [m] ij z = Err AssertionError).
Proof.
  intros L. unfold rz_to_ab. rewrite find_none by (intros m' I; apply in_order in I; destruct I as [<- | []]; exact L). split.
  - intros E. assert (O : order [m] z = [m]) by (destruct z as [|[|z]]; reflexivity). rewrite O. cbn [widen near_loop]. unfold near.
    pose proof (l2_length m rz) as Ll. rewrite E in Ll. destruct (l2 m rz); [reflexivity|discriminate Ll].
  - intros Hz Hr (i & Hi & F).
    destruct (widen_spec [1 # 1000; 1 # 100; 1] (order [m] z) rz) as (o & Eo & S); [intros m' I; apply in_order in I; destruct I as [<- | []]; split; lia|].
    rewrite Eo. cbn [bind]. destruct o as [[m' n]|].
    + destruct S as (I & _). apply in_order in I. destruct I as [<- | []]. unfold cell_ab. rewrite Hz. reflexivity.
    + exfalso. assert (I : In m (order [m] z)) by (apply in_order; now left). specialize (S 1 m i 0%nat ltac:(right; right; now left) I Hi ltac:(lia)). lra.
Qed.
Lemma cell_outside m rz ij : (Z.of_nat (nr m) - 1 <= row m ij)%Z -> cell_ab least_squares m rz ij = Err AssertionError.
Proof.
  unfold row, cell_ab. intros H. destruct (_ || _)%bool; [reflexivity|]. destruct (Z.ltb_spec (ij / (Z.of_nat (nz m) - 1) + 1) (Z.of_nat (nr m))); [lia|reflexivity].
Qed.
End Search.

(** the cells of the numbers *)
Lemma number_row m i j : (2 <= nr m)%nat -> (i < nr m)%nat -> (2 <= nz m)%nat -> let i' := if (i =? nr m - 1)%nat then (i - 1)%nat else i in (i' + j < nz m - 1)%nat ->
  row m (Z.of_nat (number m i j)) = Z.of_nat i' /\ column m (Z.of_nat (number m i j)) = Z.of_nat (i' + j).
Proof.
  intros H1 H2 H3 i' H4. unfold row, column, number. fold i'. set (q := (Z.of_nat (nz m) - 1)%Z).
  replace (Z.of_nat (i' * nz m + j)) with (Z.of_nat i' * q + Z.of_nat (i' + j))%Z by (unfold q; nia).
  split; [rewrite Z.div_add_l by (unfold q; lia); rewrite Z.div_small by (unfold q; lia); lia|].
  rewrite Z.add_comm, Z.mod_add by (unfold q; lia). apply Z.mod_small. unfold q. lia.
Qed.
Lemma number_last m i : (2 <= nr m)%nat -> (2 <= nz m)%nat -> (nr m - 2 <= i < nr m)%nat -> (Z.of_nat (nr m) - 1 <= row m (Z.of_nat (number m i (nz m - 1))))%Z.
Proof.
  intros H1 H2 H3. unfold row, number. assert (E : (if (i =? nr m - 1)%nat then i - 1 else i)%nat = (nr m - 2)%nat) by (destruct (Nat.eqb_spec i (nr m - 1)); lia).
  rewrite E. apply Z.div_le_lower_bound; nia.
Qed.

(** unit squares *)
Definition w_mesh : mesh := {| nr := 4; nz := 5; grid := fun i j => (inject_Z i, inject_Z j); zid := 0 |}.
Fixpoint lower (m : mesh) (rz : pt) (d : Q) (k i j : nat) : bool :=
  match k with
  | O => true
  | S k => ((Nat.eqb (k / nz m) i && Nat.eqb (k mod nz m) j) || Qlt_bool d (far2 m rz (k / nz m) (k mod nz m)))%bool && lower m rz d k i j
  end%bool.
Lemma lower_spec m rz d i j : forall k, lower m rz d k i j = true -> forall n, (n < k)%nat -> (n / nz m = i /\ n mod nz m = j)%nat \/ d < far2 m rz (n / nz m) (n mod nz m).
Proof.
  induction k as [|k IH]; intros H n Hn; [lia|]. cbn [lower] in H. apply andb_prop in H. destruct H as [H1 H2].
  destruct (Nat.eq_dec n k) as [-> | Hne]; [|apply IH; [exact H2|lia]]. apply orb_prop in H1. destruct H1 as [H1 | H1].
  - apply andb_prop in H1. destruct H1 as [A B]. apply Nat.eqb_eq in A. apply Nat.eqb_eq in B. now left.
  - right. now apply Qlt_bool_iff.
Qed.
Lemma lower_only m rz i j : (i < nr m)%nat -> (j < nz m)%nat -> lower m rz (far2 m rz i j) (nr m * nz m) i j = true -> only_nearest m rz i j.
Proof.
  intros Hi Hj H.
  assert (D : forall i' j', (i' < nr m)%nat -> (j' < nz m)%nat -> (i' = i /\ j' = j) \/ far2 m rz i j < far2 m rz i' j').
  { intros i' j' Hi' Hj'. destruct (lower_spec m rz _ i j _ H (i' * nz m + j')%nat) as [A | A]; [nia| |];
      rewrite Nat.div_add_l, Nat.div_small in A by lia; rewrite (Nat.add_comm (i' * nz m)), Nat.mod_add, Nat.mod_small in A by lia.
    - left. lia.
    - right. replace (i' + 0)%nat with i' in A by lia. exact A. }
  split.
  - split; [exact Hi|]. split; [exact Hj|]. intros i' j' Hi' Hj'. destruct (D i' j' Hi' Hj') as [[-> ->] | A]; lra.
  - intros i' j' (Hi' & Hj' & N). destruct (D i' j' Hi' Hj') as [A | A]; [exact A|]. specialize (N i j Hi Hj). lra.
Qed.
Lemma w_nearest : only_nearest w_mesh (1, - (1 # 10)) 1 0 /\ far2 w_mesh (1, - (1 # 10)) 1 0 < 1 /\ only_nearest w_mesh (31 # 10, 41 # 10) 3 4 /\ far2 w_mesh (31 # 10, 41 # 10) 3 4 < 1.
Proof.
  split; [apply lower_only; [cbn; lia|cbn; lia|vm_compute; reflexivity]|]. split; [vm_compute; reflexivity|].
  split; [apply lower_only; [cbn; lia|cbn; lia|vm_compute; reflexivity]|]. vm_compute. reflexivity.
Qed.
