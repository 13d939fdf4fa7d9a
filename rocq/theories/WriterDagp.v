(** C27: interrupting and resuming add_dagp. *)
From Coq Require Import String List ZArith Bool Lia.
From Verif Require Import Prelude PreludeFacts WriterModel WriterSpec.
Import ListNotations.
Open Scope string_scope.

Section D.
Variable S : Type.
Variable fill : S.
Variable doit : nat -> list (string * S).
Notation dfile := (dfile S).
Notation step := (step S fill).
Notation steps := (steps S fill).

Definition hasv (f : dfile) (k : string) : bool := match var f k with Some _ => true | None => false end.
Definition cell (f : dfile) (k : string) (i : nat) : S := match var f k with Some c => c i | None => fill end.
Definition memk (k : string) (d : list (string * S)) : bool := existsb (fun kv => String.eqb k (fst kv)) d.
(** Last value for a key *)
Fixpoint lastv (k : string) (d : list (string * S)) (dflt : S) : S :=
  match d with [] => dflt | (k', v) :: t => lastv k t (if String.eqb k k' then v else dflt) end.

Lemma lastv_not k d : forall x, memk k d = false -> lastv k d x = x.
Proof.
  induction d as [|[k' v] t IH]; cbn; intros x H; [reflexivity|]. apply orb_false_iff in H. destruct H as [H1 H2].
  rewrite H1. now apply IH.
Qed.
Lemma lastv_mem k d : forall x y, memk k d = true -> lastv k d x = lastv k d y.
Proof.
  induction d as [|[k' v] t IH]; cbn; intros x y H; [discriminate|].
  destruct (String.eqb k k'); [reflexivity|]. cbn in H. now apply IH.
Qed.

Lemma same_obs (f g : dfile) : prog f = prog g -> (forall k, hasv f k = hasv g k) ->
  (forall k i, cell f k i = cell g k i) -> same_file f g.
Proof.
  intros H1 H2 H3. split; [exact H1|]. intros k. specialize (H2 k). specialize (H3 k). unfold hasv, cell in *.
  destruct (var f k), (var g k); try discriminate; auto.
Qed.

Lemma step_create f k : hasv f k = false ->
  prog (step f (Create k)) = prog f /\
  (forall k', hasv (step f (Create k)) k' = (hasv f k' || String.eqb k' k)%bool) /\
  (forall k' i, cell (step f (Create k)) k' i = cell f k' i).
Proof.
  intros H. split; [reflexivity|split].
  - intros k'. unfold hasv. cbn. destruct (String.eqb_spec k' k) as [->|N]; [now rewrite orb_true_r|].
    rewrite orb_false_r. reflexivity.
  - intros k' i. unfold cell. cbn. destruct (String.eqb_spec k' k) as [->|N]; [|reflexivity].
    unfold hasv in H. destruct (var f k); [discriminate|reflexivity].
Qed.
Lemma step_put f k ind v : hasv f k = true ->
  prog (step f (Put k ind v)) = prog f /\
  (forall k', hasv (step f (Put k ind v)) k' = hasv f k') /\
  (forall k' i, cell (step f (Put k ind v)) k' i = if (String.eqb k' k && Nat.eqb i ind)%bool then v else cell f k' i).
Proof.
  intros H. unfold hasv in *. destruct (var f k) as [c|] eqn:Ek; [|discriminate]. split; [reflexivity|split].
  - intros k'. cbn. destruct (String.eqb_spec k' k) as [->|N]; [now rewrite Ek|reflexivity].
  - intros k' i. unfold cell. cbn. destruct (String.eqb_spec k' k) as [->|N]; cbn; [|reflexivity].
    rewrite Ek. reflexivity.
Qed.

Lemma steps_app f l1 l2 : steps f (l1 ++ l2)%list = steps (steps f l1) l2.
Proof. apply fold_left_app. Qed.

(** Effect of storing one slice. *)
Lemma put_spec ind d : forall f, let f' := steps f (put_actions S fill f ind d) in
  prog f' = prog f /\
  (forall k, hasv f' k = (hasv f k || memk k d)%bool) /\
  (forall k i, cell f' k i = if Nat.eqb i ind then lastv k d (cell f k i) else cell f k i).
Proof.
  induction d as [|[k v] t IH]; intros f f'.
  - cbn in f'. subst f'. cbn. split; [reflexivity|split].
    + intros k. now rewrite orb_false_r.
    + intros k i. now destruct (Nat.eqb i ind).
  - subst f'. cbn [put_actions].
    set (acts := match var f k with Some _ => [Put k ind v] | None => [Create k; Put k ind v] end).
    assert (A : let f1 := steps f acts in prog f1 = prog f /\ (forall k', hasv f1 k' = (hasv f k' || String.eqb k' k)%bool) /\
      (forall k' i, cell f1 k' i = if (String.eqb k' k && Nat.eqb i ind)%bool then v else cell f k' i)).
    { unfold acts. destruct (var f k) eqn:Ek; cbn [WriterModel.steps fold_left].
      - assert (Hh : hasv f k = true) by (unfold hasv; now rewrite Ek).
        destruct (step_put f k ind v Hh) as (P1 & P2 & P3). split; [exact P1|split; [|exact P3]].
        intros k'. rewrite P2. destruct (String.eqb_spec k' k) as [->|]; [rewrite Hh; reflexivity|now rewrite orb_false_r].
      - assert (Hh : hasv f k = false) by (unfold hasv; now rewrite Ek).
        destruct (step_create f k Hh) as (C1 & C2 & C3).
        assert (Hh' : hasv (step f (Create k)) k = true) by (rewrite C2, String.eqb_refl; apply orb_true_r).
        destruct (step_put (step f (Create k)) k ind v Hh') as (P1 & P2 & P3).
        split; [congruence|split]; [intros k'; now rewrite P2, C2|intros k' i; now rewrite P3, C3]. }
    destruct A as (A1 & A2 & A3). rewrite steps_app. destruct (IH (steps f acts)) as (I1 & I2 & I3).
    split; [congruence|split].
    + intros k'. rewrite I2, A2. cbn. now rewrite <- orb_assoc.
    + intros k' i. rewrite I3, A3. cbn. destruct (Nat.eqb i ind); [|now rewrite andb_false_r].
      rewrite andb_true_r. reflexivity.
Qed.

Definition doneZ (f : dfile) : Z := Z.max 0 (progress f).

(** A complete pass over the slices [s .. s+m-1], of which those before [doneZ f] are skipped. *)
Lemma loop_spec m : forall s f, (Z.of_nat s <= doneZ f)%Z ->
  let n := (s + m)%nat in let q := doneZ f in let f' := steps f (loop_actions S fill doit f (seq s m)) in
  prog f' = (if (q <? Z.of_nat n)%Z then Some (Z.of_nat n) else prog f) /\
  (forall k, hasv f' k = (hasv f k || existsb (fun i => (q <=? Z.of_nat i)%Z && memk k (doit i))%bool (seq s m))%bool) /\
  (forall k i, cell f' k i = if ((q <=? Z.of_nat i)%Z && (Nat.ltb i n) && memk k (doit i))%bool
                             then lastv k (doit i) fill else cell f k i) /\
  computed (loop_actions S fill doit f (seq s m)) = seq (Z.to_nat q) (n - Z.to_nat q).
Proof.
  induction m as [|m IH]; intros s f Hs n q f'.
  - cbn in f'. subst f' n. rewrite Nat.add_0_r. cbn [seq loop_actions computed].
    split; [|split; [|split]].
    + destruct (Z.ltb_spec q (Z.of_nat s)); [unfold q in *; lia|reflexivity].
    + intros k. cbn. now rewrite orb_false_r.
    + intros k i. cbn [WriterModel.steps fold_left].
      destruct (Z.leb_spec q (Z.of_nat i)), (Nat.ltb_spec i s); cbn [andb]; try reflexivity. unfold q in *; lia.
    + replace (s - Z.to_nat q)%nat with 0%nat by (unfold q; lia). reflexivity.
  - subst f' n. cbn [seq loop_actions].
    destruct (Z.ltb_spec (Z.of_nat s) (progress f)) as [Hlt|Hge].
    + (* skipped *)
      assert (Hs' : (Z.of_nat (1 + s) <= doneZ f)%Z) by (unfold doneZ; lia).
      destruct (IH (1 + s)%nat f Hs') as (I1 & I2 & I3 & I4).
      replace (s + Datatypes.S m)%nat with (1 + s + m)%nat by lia. unfold q.
      split; [exact I1|split; [|split; [exact I3|exact I4]]].
      intros k. rewrite I2. cbn [existsb]. destruct (Z.leb_spec (doneZ f) (Z.of_nat s)); [unfold doneZ in *; lia|]. reflexivity.
    + (* done now *)
      assert (Eq : q = Z.of_nat s) by (unfold q, doneZ in *; lia).
      set (acts := Compute s :: (put_actions S fill f s (doit s) ++ [SetProg (Z.of_nat s + 1)])%list).
      assert (Ea : steps f acts = step (steps f (put_actions S fill f s (doit s))) (SetProg (Z.of_nat s + 1))).
      { unfold acts. cbn [WriterModel.steps fold_left]. change (step f (Compute s)) with f.
        rewrite fold_left_app. reflexivity. }
      destruct (put_spec s (doit s) f) as (P1 & P2 & P3).
      set (f1 := steps f acts) in *.
      assert (D1 : doneZ f1 = Z.of_nat (1 + s)) by (rewrite Ea; unfold doneZ, progress; cbn; lia).
      assert (H1 : forall k, hasv f1 k = (hasv f k || memk k (doit s))%bool) by (intros k; rewrite Ea; apply P2).
      assert (C1 : forall k i, cell f1 k i = if Nat.eqb i s then lastv k (doit s) (cell f k i) else cell f k i)
        by (intros k i; rewrite Ea; apply P3).
      assert (Hs1 : (Z.of_nat (1 + s) <= doneZ f1)%Z) by lia.
      destruct (IH (1 + s)%nat f1 Hs1) as (I1 & I2 & I3 & I4).
      fold acts. rewrite steps_app. fold f1. change (Datatypes.S s) with (1 + s)%nat. replace (s + Datatypes.S m)%nat with (1 + s + m)%nat by lia.
      assert (Ep : prog f1 = Some (Z.of_nat (1 + s))) by (rewrite Ea; cbn [WriterModel.step prog]; f_equal; lia).
      split; [|split; [|split]].
      * rewrite I1, D1. rewrite Eq. destruct (Z.ltb_spec (Z.of_nat s) (Z.of_nat (1 + s + m))); [|lia].
        destruct (Z.ltb_spec (Z.of_nat (1 + s)) (Z.of_nat (1 + s + m))); [reflexivity|].
        rewrite Ep. f_equal. lia.
      * intros k. rewrite I2, H1, D1. cbn [existsb]. rewrite Eq.
        destruct (Z.leb_spec (Z.of_nat s) (Z.of_nat s)); [|lia]. cbn [andb]. rewrite <- orb_assoc. f_equal. f_equal.
        assert (L : forall l, (forall x, In x l -> (s < x)%nat) ->
          existsb (fun i => (Z.of_nat (1 + s) <=? Z.of_nat i)%Z && memk k (doit i))%bool l =
          existsb (fun i => (Z.of_nat s <=? Z.of_nat i)%Z && memk k (doit i))%bool l).
        { intros l. induction l as [|x t IHl]; intros Hl; [reflexivity|]. cbn [existsb]. rewrite IHl by (intros; apply Hl; now right).
          specialize (Hl x (or_introl eq_refl)).
          destruct (Z.leb_spec (Z.of_nat (1 + s)) (Z.of_nat x)); [|lia]. destruct (Z.leb_spec (Z.of_nat s) (Z.of_nat x)); [|lia]. reflexivity. }
        apply L. intros x Hx. apply in_seq in Hx. lia.
      * intros k i. rewrite I3, C1, D1, Eq.
        destruct (Nat.eqb_spec i s) as [->|Ni].
        -- destruct (Z.leb_spec (Z.of_nat (1 + s)) (Z.of_nat s)); [lia|].
           destruct (Z.leb_spec (Z.of_nat s) (Z.of_nat s)); [|lia]. destruct (Nat.ltb_spec s (1 + s + m)); [|lia]. cbn [andb].
           destruct (memk k (doit s)) eqn:Em; [now apply lastv_mem|now apply lastv_not].
        -- destruct (Z.leb_spec (Z.of_nat (1 + s)) (Z.of_nat i)), (Z.leb_spec (Z.of_nat s) (Z.of_nat i)); try lia; reflexivity.
      * assert (Cp : forall l1 l2, computed (l1 ++ l2)%list = (@computed S l1 ++ computed l2)%list).
        { intros l1 l2. induction l1 as [|x t IHl]; [reflexivity|]. destruct x; cbn; rewrite IHl; reflexivity. }
        assert (Cq : forall d f0, @computed S (put_actions S fill f0 s d) = []).
        { intros d. induction d as [|[k0 v0] t0 IHd]; intros f0; [reflexivity|]. cbn [put_actions]. rewrite Cp, IHd.
          destruct (var f0 k0); reflexivity. }
        rewrite Cp. unfold acts at 1. cbn [computed]. rewrite Cp, Cq. cbn [computed app]. rewrite I4, D1, Eq.
        rewrite !Nat2Z.id. replace (1 + s + m - s)%nat with (Datatypes.S (1 + s + m - (1 + s))) by lia. reflexivity.
Qed.

Lemma init_same f : let f0 := steps f (match prog f with Some _ => [] | None => [CreateProg; SetProg 0] end) in
  doneZ f0 = doneZ f /\ (forall k, hasv f0 k = hasv f k) /\ (forall k i, cell f0 k i = cell f k i) /\
  (prog f0 = prog f \/ prog f = None).
Proof. destruct (prog f) as [p|] eqn:E; cbn; unfold doneZ, progress; cbn; rewrite ?E; auto. Qed.

(** Everything one undisturbed run does. *)
Lemma run_spec n f : let f' := dagp_run S fill doit n f in let q := doneZ f in
  ((0 < n)%nat -> prog f' = (if (q <? Z.of_nat n)%Z then Some (Z.of_nat n) else prog f)) /\
  (forall k, hasv f' k = (hasv f k || existsb (fun i => (q <=? Z.of_nat i)%Z && memk k (doit i))%bool (seq 0 n))%bool) /\
  (forall k i, cell f' k i = if ((q <=? Z.of_nat i)%Z && (Nat.ltb i n) && memk k (doit i))%bool
                             then lastv k (doit i) fill else cell f k i) /\
  computed (dagp_actions S fill doit n f) = seq (Z.to_nat q) (n - Z.to_nat q).
Proof.
  intros f' q. unfold f', dagp_run, dagp_actions. rewrite steps_app.
  destruct (init_same f) as (D & H & C & P). set (f0 := steps f _) in *.
  assert (Hs : (Z.of_nat 0 <= doneZ f0)%Z) by (unfold doneZ; lia).
  destruct (loop_spec n 0 f0 Hs) as (I1 & I2 & I3 & I4). cbn [Nat.add] in *. rewrite D in *. fold q in I1, I2, I3, I4.
  split; [|split; [|split]].
  - intros Hn. rewrite I1. destruct (Z.ltb_spec q (Z.of_nat n)); [reflexivity|]. destruct P as [P|P]; [exact P|].
    exfalso. unfold q, doneZ, progress in *. rewrite P in *. unfold fill_int in *. lia.
  - intros k. now rewrite I2, H.
  - intros k i. now rewrite I3, C.
  - rewrite <- I4. destruct (prog f); reflexivity.
Qed.

(** ** States met on the way *)

(** [g] is a state that can be met while running from [f]: the slices from
    [doneZ f] to [doneZ g - 1] are done, slice [doneZ g] may hold anything. *)
Definition mid (n : nat) (f g : dfile) : Prop :=
  (doneZ f <= doneZ g <= Z.max (doneZ f) (Z.of_nat n))%Z /\
  (forall k, hasv f k = true -> hasv g k = true) /\
  (forall k i, (doneZ f <= Z.of_nat i < doneZ g)%Z -> memk k (doit i) = true -> hasv g k = true) /\
  (forall k, hasv g k = true -> hasv f k = true \/
     exists i, (doneZ f <= Z.of_nat i <= doneZ g)%Z /\ (i < n)%nat /\ memk k (doit i) = true) /\
  (forall k i, (doneZ f <= Z.of_nat i < doneZ g)%Z -> memk k (doit i) = true -> cell g k i = lastv k (doit i) fill) /\
  (forall k i, (doneZ f <= Z.of_nat i < doneZ g)%Z -> memk k (doit i) = false -> cell g k i = cell f k i) /\
  (forall k i, (Z.of_nat i < doneZ f \/ doneZ g <= Z.of_nat i)%Z ->
     ~ (Z.of_nat i = doneZ g /\ (i < n)%nat /\ memk k (doit i) = true) -> cell g k i = cell f k i) /\
  (doneZ f <> doneZ g -> prog g = Some (doneZ g)) /\
  ((Z.of_nat n <= doneZ f)%Z -> prog g = prog f).

Lemma mid_refl n f : mid n f f.
Proof. unfold mid. repeat split; auto; try lia. Qed.

Lemma existsb_seq (p : nat -> bool) n : existsb p (seq 0 n) = true <-> exists i, (i < n)%nat /\ p i = true.
Proof.
  rewrite existsb_exists. split; intros (i & H1 & H2); exists i; [apply in_seq in H1|]; split; auto; [lia|apply in_seq; lia].
Qed.

Lemma mid_same n f g : (0 < n)%nat -> mid n f g -> same_file (dagp_run S fill doit n g) (dagp_run S fill doit n f).
Proof.
  intros Hn (Q & H1 & H2 & H3 & C1 & C2 & C3 & P1 & P2).
  destruct (run_spec n f) as (F1 & F2 & F3 & _). destruct (run_spec n g) as (G1 & G2 & G3 & _).
  specialize (F1 Hn). specialize (G1 Hn).
  apply same_obs.
  - rewrite F1, G1. destruct (Z.ltb_spec (doneZ f) (Z.of_nat n)) as [L|L], (Z.ltb_spec (doneZ g) (Z.of_nat n)) as [L'|L']; try lia; auto.
    rewrite P1 by lia. f_equal. lia.
  - intros k. rewrite F2, G2. apply Bool.eq_iff_eq_true. rewrite !orb_true_iff, !existsb_seq. split.
    + intros [H|(i & Hi & H)].
      * destruct (H3 _ H) as [H'|(i & Hi & Hin & Hm)]; [auto|]. right. exists i. split; [exact Hin|]. rewrite Hm, andb_true_r. apply Z.leb_le. lia.
      * apply andb_true_iff in H. destruct H as [Hq Hm]. apply Z.leb_le in Hq. right. exists i. split; [exact Hi|].
        rewrite Hm, andb_true_r. apply Z.leb_le. lia.
    + intros [H|(i & Hi & H)]; [auto|]. apply andb_true_iff in H. destruct H as [Hq Hm]. apply Z.leb_le in Hq.
      destruct (Z.ltb_spec (Z.of_nat i) (doneZ g)) as [Lt|Ge]; [left; eapply H2; [|exact Hm]; lia|].
      right. exists i. split; [exact Hi|]. rewrite Hm, andb_true_r. now apply Z.leb_le.
  - intros k i. rewrite F3, G3.
    destruct (memk k (doit i)) eqn:Em; rewrite ?andb_true_r, ?andb_false_r.
    + destruct (Nat.ltb_spec i n) as [Li|Li]; rewrite ?andb_true_r, ?andb_false_r.
      * destruct (Z.leb_spec (doneZ g) (Z.of_nat i)) as [Lg|Lg], (Z.leb_spec (doneZ f) (Z.of_nat i)) as [Lf|Lf]; try lia; try reflexivity.
        -- apply C1; [lia|exact Em].
        -- apply C3; [lia|]. intros (E & _). lia.
      * destruct (Z.ltb_spec (Z.of_nat i) (doneZ f)); [apply C3; [lia|intros (_ & E & _); lia]|].
        destruct (Z.ltb_spec (Z.of_nat i) (doneZ g)); [lia|]. apply C3; [lia|intros (_ & E & _); lia].
    + destruct (Z.ltb_spec (Z.of_nat i) (doneZ f)); [apply C3; [lia|intros (_ & _ & E); congruence]|].
      destruct (Z.ltb_spec (Z.of_nat i) (doneZ g)); [apply C2; [lia|exact Em]|apply C3; [lia|intros (_ & _ & E); congruence]].
Qed.

(** [R] holds before, after and between the actions, and after torn stores. *)
Fixpoint along (R : dfile -> Prop) (f : dfile) (l : list (action S)) : Prop :=
  R f /\
  match l with
  | [] => True
  | a :: t => match a with Put k i _ => forall junk, R (step f (Put k i junk)) | _ => True end /\ along R (step f a) t
  end.

Lemma along_start R f l : along R f l -> R f.
Proof. destruct l; cbn; tauto. Qed.
Lemma along_app R l1 : forall f l2, along R f l1 -> along R (steps f l1) l2 -> along R f (l1 ++ l2)%list.
Proof.
  induction l1 as [|a t IH]; intros f l2 H1 H2; [exact H2|]. cbn [app along] in *.
  destruct H1 as (Ra & Ta & Ht). split; [exact Ra|split; [exact Ta|]]. now apply IH.
Qed.
Lemma along_firstn R l : forall f m, along R f l -> R (steps f (firstn m l)).
Proof.
  induction l as [|a t IH]; intros f m H.
  - rewrite firstn_nil. now apply along_start in H.
  - destruct m; [now apply along_start in H|]. cbn [firstn along] in *. apply IH. apply H.
Qed.
Lemma along_torn R l : forall f m k i v junk, along R f l -> nth_error l m = Some (Put k i v) ->
  R (step (steps f (firstn m l)) (Put k i junk)).
Proof.
  induction l as [|a t IH]; intros f m k i v junk H E; [destruct m; discriminate|].
  destruct m; cbn [nth_error firstn along] in *.
  - injection E as ->. apply H.
  - eapply IH; [|exact E]. apply H.
Qed.

Lemma mid_obs n f g h : prog h = prog g -> (forall k, hasv h k = hasv g k) -> (forall k i, cell h k i = cell g k i) ->
  mid n f g -> mid n f h.
Proof.
  intros Hp Hh Hc (Q & H1 & H2 & H3 & C1 & C2 & C3 & P1 & P2).
  assert (D : doneZ h = doneZ g) by (unfold doneZ, progress; now rewrite Hp).
  unfold mid. rewrite D. split; [exact Q|]. setoid_rewrite Hh. setoid_rewrite Hc. rewrite Hp. tauto.
Qed.

(** Storing into the slice in progress keeps [mid]. *)
Lemma mid_put n f g k s v : mid n f g -> doneZ g = Z.of_nat s -> (s < n)%nat -> memk k (doit s) = true -> hasv g k = true ->
  mid n f (step g (Put k s v)).
Proof.
  intros (Q & H1 & H2 & H3 & C1 & C2 & C3 & P1 & P2) Hs Hn Hm Hh.
  destruct (step_put g k s v Hh) as (Ep & Eh & Ec). set (h := step g (Put k s v)) in *.
  assert (D : doneZ h = doneZ g) by reflexivity.
  unfold mid. rewrite D, Ep. setoid_rewrite Eh. setoid_rewrite Ec.
  split; [exact Q|]. do 3 (split; [assumption|]). split; [|split; [|split; [|auto]]].
  - intros k' i Hi Hm'. destruct (Nat.eqb_spec i s) as [->|]; [lia|]. rewrite andb_false_r. auto.
  - intros k' i Hi Hm'. destruct (Nat.eqb_spec i s) as [->|]; [lia|]. rewrite andb_false_r. auto.
  - intros k' i Hi Hx. destruct (Nat.eqb_spec i s) as [->|]; [|rewrite andb_false_r; auto].
    destruct (String.eqb_spec k' k) as [->|]; [exfalso; apply Hx; auto|]. cbn. auto.
Qed.
Lemma mid_create n f g k s : mid n f g -> doneZ g = Z.of_nat s -> (s < n)%nat -> (doneZ f <= Z.of_nat s)%Z ->
  memk k (doit s) = true -> hasv g k = false -> mid n f (step g (Create k)).
Proof.
  intros (Q & H1 & H2 & H3 & C1 & C2 & C3 & P1 & P2) Hs Hn Hf Hm Hh.
  destruct (step_create g k Hh) as (Ep & Eh & Ec). set (h := step g (Create k)) in *.
  assert (D : doneZ h = doneZ g) by reflexivity.
  unfold mid. rewrite D, Ep. setoid_rewrite Ec. setoid_rewrite Eh.
  split; [exact Q|]. split; [intros k' H; now rewrite (H1 _ H)|].
  split; [intros k' i Hi Hm'; now rewrite (H2 _ _ Hi Hm')|].
  split; [|auto]. intros k' H. apply orb_true_iff in H. destruct H as [H|H]; [auto|].
  apply String.eqb_eq in H. subst k'. right. exists s. repeat split; auto; lia.
Qed.

Lemma along_put n f s d : (s < n)%nat -> (doneZ f <= Z.of_nat s)%Z -> (forall k, memk k d = true -> memk k (doit s) = true) ->
  forall g, mid n f g -> doneZ g = Z.of_nat s -> along (mid n f) g (put_actions S fill g s d).
Proof.
  intros Hn Hf. induction d as [|[k v] t IH]; intros Hd g Hg Hs; [cbn; auto|].
  assert (Hk : memk k (doit s) = true) by (apply Hd; cbn; now rewrite String.eqb_refl).
  assert (Ht : forall k', memk k' t = true -> memk k' (doit s) = true) by (intros k' H; apply Hd; unfold memk in *; cbn [existsb]; rewrite H; apply orb_true_r).
  cbn [put_actions]. destruct (var g k) eqn:Ek.
  - assert (Hh : hasv g k = true) by (unfold hasv; now rewrite Ek).
    assert (Hp : forall v, mid n f (step g (Put k s v))) by (intros; now apply mid_put).
    apply along_app; [cbn [along]; auto|]. apply (IH Ht); [apply Hp|exact Hs].
  - assert (Hh : hasv g k = false) by (unfold hasv; now rewrite Ek).
    assert (Hc : mid n f (step g (Create k))) by (now apply (mid_create n f g k s)).
    assert (Hh' : hasv (step g (Create k)) k = true).
    { destruct (step_create g k Hh) as (_ & E & _). rewrite E, String.eqb_refl. apply orb_true_r. }
    assert (Hp : forall v, mid n f (step (step g (Create k)) (Put k s v))) by (intros; now apply mid_put).
    apply along_app; [exact (conj Hg (conj I (conj Hc (conj Hp (conj (Hp v) I)))))|]. apply (IH Ht); [apply Hp|exact Hs].
Qed.

Lemma along_loop n f m : forall s g, (s + m = n)%nat -> (Z.of_nat s <= doneZ g)%Z -> mid n f g ->
  along (mid n f) g (loop_actions S fill doit g (seq s m)).
Proof.
  induction m as [|m IH]; intros s g Hn Hs Hg; [cbn; auto|]. cbn [seq loop_actions].
  destruct (Z.ltb_spec (Z.of_nat s) (progress g)) as [Hlt|Hge].
  - apply IH; [lia|unfold doneZ; lia|exact Hg].
  - assert (Eq : doneZ g = Z.of_nat s) by (unfold doneZ in *; lia).
    pose proof Hg as (Q & H1 & H2 & H3 & C1 & C2 & C3 & P1 & P2).
    assert (Hf : (doneZ f <= Z.of_nat s)%Z) by lia.
    destruct (put_spec s (doit s) g) as (S1 & S2 & S3).
    assert (Ha : along (mid n f) g (put_actions S fill g s (doit s))) by (apply along_put; auto; lia).
    assert (Hend : mid n f (steps g (put_actions S fill g s (doit s)))).
    { pose proof (along_firstn _ _ _ (length (put_actions S fill g s (doit s))) Ha) as H. now rewrite firstn_all in H. }
    set (g1 := steps g (put_actions S fill g s (doit s))) in *.
    assert (Hnext : mid n f (step g1 (SetProg (Z.of_nat s + 1)))).
    { set (h := step g1 (SetProg (Z.of_nat s + 1))).
      assert (D : doneZ h = (Z.of_nat s + 1)%Z) by (unfold doneZ, progress; cbn; lia).
      assert (Hh : forall k, hasv h k = hasv g1 k) by reflexivity.
      assert (Hc : forall k i, cell h k i = cell g1 k i) by reflexivity.
      unfold mid. rewrite D. setoid_rewrite Hc. setoid_rewrite Hh. setoid_rewrite S2. setoid_rewrite S3.
      split; [lia|]. split; [intros k H; now rewrite (H1 _ H)|].
      split.
      { intros k i Hi Hm. destruct (Nat.eq_dec i s) as [->|Ni]; [now rewrite Hm, orb_true_r|].
        rewrite (H2 k i); [reflexivity|lia|exact Hm]. }
      split.
      { intros k H. apply orb_true_iff in H. destruct H as [H|H].
        - destruct (H3 _ H) as [|(i & Hi & Hin & Hm)]; [auto|]. right. exists i. repeat split; auto; lia.
        - right. exists s. repeat split; auto; lia. }
      split.
      { intros k i Hi Hm. destruct (Nat.eqb_spec i s) as [->|Ni]; [now apply lastv_mem|]. apply C1; [lia|exact Hm]. }
      split.
      { intros k i Hi Hm. destruct (Nat.eqb_spec i s) as [->|Ni].
        - rewrite lastv_not by exact Hm. apply C3; [lia|]. intros (_ & _ & E). congruence.
        - apply C2; [lia|exact Hm]. }
      split.
      { intros k i Hi Hx. destruct (Nat.eqb_spec i s) as [->|Ni]; [lia|]. apply C3; [lia|]. intros (E & _). lia. }
      split; [reflexivity|lia]. }
    set (acts := Compute s :: (put_actions S fill g s (doit s) ++ [SetProg (Z.of_nat s + 1)])%list).
    assert (Ea : steps g acts = step g1 (SetProg (Z.of_nat s + 1))).
    { unfold acts. cbn [WriterModel.steps fold_left]. change (step g (Compute s)) with g. rewrite fold_left_app. reflexivity. }
    apply along_app.
    + unfold acts. cbn [along]. split; [exact Hg|split; [exact I|]]. change (step g (Compute s)) with g.
      apply along_app; [exact Ha|]. cbn [along]. split; [exact Hend|split; [exact I|split; [exact Hnext|exact I]]].
    + fold acts. rewrite Ea. apply IH; [lia| |exact Hnext]. unfold doneZ, progress. cbn. lia.
Qed.

Lemma along_run n f : (0 < n)%nat -> along (mid n f) f (dagp_actions S fill doit n f).
Proof.
  intros Hn. unfold dagp_actions. destruct (init_same f) as (D & H & C & P).
  assert (M : forall h, hasv h = hasv f -> cell h = cell f -> doneZ h = doneZ f -> (prog h = prog f \/ prog f = None) -> mid n f h).
  { intros h Eh Ec Ed Ep. unfold mid. rewrite Eh, Ec, Ed. repeat split; auto; try lia.
    intros Hge. destruct Ep as [|Ep]; [assumption|]. exfalso. unfold doneZ, progress in Hge. rewrite Ep in Hge. unfold fill_int in Hge. lia. }
  apply along_app.
  - destruct (prog f) as [p|] eqn:E; cbn [along]; [split; [apply mid_refl|exact I]|].
    split; [apply mid_refl|split; [exact I|split; [|split; [exact I|split; [|exact I]]]]];
      apply M; try reflexivity; unfold doneZ, progress; cbn; rewrite ?E; auto.
  - apply along_loop; [lia|unfold doneZ; lia|].
    destruct (prog f) as [p|] eqn:E; [apply mid_refl|]. apply M; try reflexivity; unfold doneZ, progress; cbn; rewrite ?E; auto.
Qed.

Lemma interrupted_mid n f g : (0 < n)%nat -> interrupted fill doit n f g -> mid n f g.
Proof.
  intros Hn H. destruct H as [m|m k ind v junk E].
  - apply along_firstn. now apply along_run.
  - eapply along_torn; [now apply along_run|exact E].
Qed.

Lemma same_trans (f g h : dfile) : same_file f g -> same_file g h -> same_file f h.
Proof.
  intros [P1 H1] [P2 H2]. split; [congruence|]. intros k. specialize (H1 k). specialize (H2 k).
  destruct (var f k), (var g k), (var h k); try contradiction; auto. intros i. now rewrite H1.
Qed.
Lemma same_refl (f : dfile) : same_file f f.
Proof. split; [reflexivity|]. intros k. destruct (var f k); auto. Qed.

Lemma resume n f g : (0 < n)%nat -> interruptions fill doit n f g ->
  same_file (dagp_run S fill doit n g) (dagp_run S fill doit n f).
Proof.
  intros Hn H. induction H as [f|f g h H1 H2 IH]; [apply same_refl|].
  eapply same_trans; [exact IH|]. apply mid_same; [exact Hn|]. now apply interrupted_mid.
Qed.

(** What the next run computes: exactly the slices not finished before. *)
Lemma resume_computes n f : computed (dagp_actions S fill doit n f) = seq (Z.to_nat (doneZ f)) (n - Z.to_nat (doneZ f)).
Proof. apply run_spec. Qed.

(** A slice counted as finished after an interruption was finished before or holds doit's result. *)
Lemma interrupted_finished n f g i : (0 < n)%nat -> interrupted fill doit n f g ->
  (doneZ f <= Z.of_nat i < doneZ g)%Z ->
  forall k v, memk k (doit i) = true -> lastv k (doit i) v = cell g k i.
Proof.
  intros Hn H Hi k v Hm. destruct (interrupted_mid _ _ _ Hn H) as (_ & _ & _ & _ & C1 & _).
  rewrite (C1 k i Hi Hm). now apply lastv_mem.
Qed.
End D.

Lemma only_missing : forall (S : Type) (fill : S) (doit : nat -> list (string * S)) n f,
  let p := Z.to_nat (progress f) in
  computed (dagp_actions S fill doit n f) = seq p (n - p) /\
  ((p < n)%nat -> progress (dagp_run S fill doit n f) = Z.of_nat n).
Proof.
  intros S fill doit n f p. destruct (run_spec S fill doit n f) as (R1 & _ & _ & R4).
  assert (E : Z.to_nat (doneZ S f) = p) by (unfold doneZ, p; lia). rewrite E in R4. split; [exact R4|].
  intros Hp. unfold progress. rewrite R1 by lia. destruct (Z.ltb_spec (doneZ S f) (Z.of_nat n)); [reflexivity|lia].
Qed.

Lemma run_content : forall (S : Type) (fill : S) (doit : nat -> list (string * S)) n f k i,
  (forall j, NoDup (map fst (doit j))) ->
  let p := Z.to_nat (progress f) in
  (forall v, (p <= i < n)%nat -> In (k, v) (doit i) ->
     exists c, var (dagp_run S fill doit n f) k = Some c /\ c i = v) /\
  (forall c, ((i < p)%nat \/ (n <= i)%nat \/ ~ In k (map fst (doit i))) -> var f k = Some c ->
     exists c', var (dagp_run S fill doit n f) k = Some c' /\ c' i = c i).
Proof.
  intros S fill doit n f k i Hnd p. destruct (run_spec S fill doit n f) as (_ & R2 & R3 & _).
  assert (E : Z.to_nat (doneZ S f) = p) by (unfold doneZ, p; lia).
  assert (E0 : (0 <= doneZ S f)%Z) by (unfold doneZ; lia).
  assert (Hmem : forall d, memk S k d = true <-> In k (map fst d)).
  { intros d. unfold memk. rewrite existsb_exists, in_map_iff. split.
    - intros (kv & H1 & H2). apply String.eqb_eq in H2. eauto.
    - intros (kv & H1 & H2). exists kv. split; [exact H2|]. now apply String.eqb_eq. }
  assert (Hlast : forall d v x, NoDup (map fst d) -> In (k, v) d -> lastv S k d x = v).
  { intros d. induction d as [|[k' v'] t IH]; intros v x Hn Hin; [easy|]. cbn in Hn. inversion Hn as [|? ? N N']; subst.
    cbn. destruct Hin as [Ei|Hin].
    - injection Ei as -> ->. rewrite String.eqb_refl. rewrite lastv_not; [reflexivity|].
      destruct (memk S k t) eqn:Em; [|reflexivity]. apply Hmem in Em. tauto.
    - now apply IH. }
  specialize (R3 k i). specialize (R2 k). unfold hasv, cell in *.
  split.
  - intros v Hi Hin.
    assert (Hk : memk S k (doit i) = true) by (apply Hmem; apply in_map_iff; exists (k, v); auto).
    assert (Hv : existsb (fun j => (doneZ S f <=? Z.of_nat j)%Z && memk S k (doit j))%bool (seq 0 n) = true).
    { apply existsb_exists. exists i. split; [apply in_seq; lia|]. rewrite Hk, andb_true_r. apply Z.leb_le. lia. }
    rewrite Hv, orb_true_r in R2. destruct (var (dagp_run S fill doit n f) k) as [c|]; [|discriminate].
    exists c. split; [reflexivity|]. rewrite R3, Hk. destruct (Z.leb_spec (doneZ S f) (Z.of_nat i)); [|lia].
    destruct (Nat.ltb_spec i n); [|lia]. cbn. now apply Hlast.
  - intros c Hi Hc. rewrite Hc in R2, R3. cbn in R2. destruct (var (dagp_run S fill doit n f) k) as [c'|]; [|discriminate].
    exists c'. split; [reflexivity|]. rewrite R3.
    destruct (Z.leb_spec (doneZ S f) (Z.of_nat i)); [|reflexivity]. destruct (Nat.ltb_spec i n); [|reflexivity].
    destruct (memk S k (doit i)) eqn:Em; [|reflexivity]. apply Hmem in Em. exfalso. destruct Hi as [Hi|[Hi|Hi]]; [lia|lia|tauto].
Qed.
