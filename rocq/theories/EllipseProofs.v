(** Proofs about rotating_ellipse. *)
From Coq Require Import List Bool Lia.
From Verif Require Import Prelude EllipseModel.
Import ListNotations.

(** the grid of slice i *)
Definition slice_grid (g : pgrids) (i : nat) : option pgrid := match g with One p => Some p | Each l => nth_error l i end.
(** the boundary asked for *)
Definition wanted (a : radius) (aligned : bool) (i : nat) : boundary := if aligned then Surface a i else Shaped a.

Lemma nth_lines a ny i : (i < ny)%nat -> nth_error (get_lines a ny) i = Some (Surface a i).
Proof. intros H. unfold get_lines. rewrite nth_error_map, (nth_error_nth' _ 0) by (rewrite seq_length; exact H). cbn. now rewrite seq_nth. Qed.
Lemma nth_combine {A B} (a : list A) (b : list B) i x y : nth_error a i = Some x -> nth_error b i = Some y -> nth_error (combine a b) i = Some (x, y).
Proof.
  revert a b. induction i as [|i IH]; intros [|a' a] [|b' b] E1 E2; try discriminate; cbn in *; [congruence|]. now apply IH.
Qed.

Lemma aligned f ny : rectangular f = false -> curvilinear f = true -> (inner_aligned f = true \/ outer_aligned f = false) ->
  exists acts g, poloidal_grid f ny = Ok (acts, g) /\
    (forall i, (i < ny)%nat -> slice_grid g i = Some (Elliptic (wanted HalfA (inner_aligned f) i) (wanted FullA (outer_aligned f) i))) /\
    (In TraceInner acts <-> inner_aligned f = true) /\ (In TraceOuter acts <-> outer_aligned f = true).
Proof.
  intros H1 H2 H3. unfold poloidal_grid. rewrite H1, H2. eexists _, _. split; [reflexivity|].
  split; [|destruct (inner_aligned f), (outer_aligned f); cbn; intuition discriminate].
  intros i Hi. destruct (inner_aligned f); [|destruct H3 as [H3|H3]; [discriminate|]].
  - destruct (outer_aligned f); cbn [slice_grid wanted].
    + rewrite nth_error_map, (nth_combine _ _ i (Surface HalfA i) (Surface FullA i)) by now apply nth_lines. reflexivity.
    + rewrite nth_error_map, nth_lines by exact Hi. reflexivity.
  - rewrite H3. reflexivity.
Qed.
Lemma outer_ignored f ny i : rectangular f = false -> curvilinear f = true -> inner_aligned f = false -> outer_aligned f = true ->
  exists acts g, poloidal_grid f ny = Ok (acts, g) /\ In TraceOuter acts /\ slice_grid g i = Some (Elliptic (Shaped HalfA) (Shaped FullA)).
Proof. intros H1 H2 H3 H4. unfold poloidal_grid. rewrite H1, H2, H3, H4. eexists _, _. split; [reflexivity|]. split; [now left|reflexivity]. Qed.
Lemma no_grid f ny : rectangular f = false -> curvilinear f = false -> rotating_ellipse f ny = Err NameError.
Proof. intros H1 H2. unfold rotating_ellipse, poloidal_grid. now rewrite H1, H2. Qed.
Lemma runs f ny : rectangular f = true \/ curvilinear f = true -> exists acts, rotating_ellipse f ny = Ok (acts, None) /\
  (In Smooth acts <-> calc_curvature f = true /\ smooth_curvature f = true) /\
  (In Curvature acts <-> curvilinear f = true /\ calc_curvature f = true) /\
  (In WriteIota acts <-> write_iota f = true) /\ (In PrintIota acts <-> write_iota f = false /\ return_iota f = true).
Proof.
  intros H. unfold rotating_ellipse, poloidal_grid.
  destruct f as [c r i o cc sc ri wi]. cbn [curvilinear rectangular inner_aligned outer_aligned calc_curvature smooth_curvature return_iota write_iota] in *.
  destruct c, r, i, o, cc, sc, ri, wi; try (destruct H; discriminate); cbn; eexists; (split; [reflexivity|]); cbn; intuition discriminate.
Qed.

Lemma uses_grid f ny acts0 g acts r : poloidal_grid f ny = Ok (acts0, g) -> rotating_ellipse f ny = Ok (acts, r) ->
  exists rest, acts = acts0 ++ MakeMaps g :: WriteMaps :: rest /\ forall x, In x rest -> x = Curvature \/ x = Smooth \/ x = Iota \/ x = WriteIota \/ x = PrintIota.
Proof.
  intros E. unfold rotating_ellipse. rewrite E. cbn [bind fst snd]. intros E2.
  assert (E3 := f_equal (fun x => match x with Ok v => fst v | Err _ => [] end) E2). cbn in E3. subst acts. eexists. split; [reflexivity|].
  intros x Hx. destruct (curvilinear f), (calc_curvature f), (smooth_curvature f), (return_iota f), (write_iota f); cbn in Hx; intuition auto.
Qed.
Lemma option_eqb_eq a b : option_eqb a b = true <-> a = b.
Proof. destruct a, b; cbn; split; congruence. Qed.
Lemma given args o : existsb (option_eqb o) args = true <-> In o args.
Proof.
  rewrite existsb_exists. split.
  - intros [x [Hx E]]. apply option_eqb_eq in E. now subst.
  - intros H. exists o. split; [exact H|now apply option_eqb_eq].
Qed.
Lemma main_fails args ny : main args ny = Err NameError <-> In O_curvilinear args /\ ~ In O_rectangular args.
Proof.
  unfold main. destruct (existsb (option_eqb O_curvilinear) args) eqn:C; destruct (existsb (option_eqb O_rectangular) args) eqn:R.
  all: assert (HC := given args O_curvilinear); assert (HR := given args O_rectangular); rewrite C in HC; rewrite R in HR.
  - split; [|intros [_ H]; exfalso; apply H; now apply HR].
    intros E. destruct (runs (parse_args args) ny) as [acts [E2 _]]; [left; exact R|]. congruence.
  - split; [|intros _; apply no_grid; unfold parse_args, store_true, store_false; cbn; rewrite ?C, ?R; reflexivity].
    intros _. split; [now apply HC|]. intros X. apply HR in X. discriminate.
  - split; [|intros [H _]; apply HC in H; discriminate].
    intros E. destruct (runs (parse_args args) ny) as [acts [E2 _]]; [left; exact R|]. congruence.
  - split; [|intros [H _]; apply HC in H; discriminate].
    intros E. destruct (runs (parse_args args) ny) as [acts [E2 _]]; [right; unfold parse_args, store_false; cbn; now rewrite C|]. congruence.
Qed.
(** what the switches of the same names ask for *)
Lemma main_switches args : let f := parse_args args in
  (curvilinear f = true <-> ~ In O_curvilinear args) /\ (rectangular f = true <-> In O_rectangular args) /\
  (inner_aligned f = true <-> ~ In O_inner_aligned args) /\ (outer_aligned f = true <-> ~ In O_outer_aligned args) /\
  (calc_curvature f = true <-> ~ In O_calc_curvature args) /\ (smooth_curvature f = true <-> In O_smooth_curvature args) /\
  (write_iota f = true <-> In O_write_iota args) /\ return_iota f = false.
Proof.
  cbn. unfold store_true, store_false. rewrite <- !given.
  repeat split; try (intros; destruct (existsb _ args); cbn in *; congruence); intros; now apply given.
Qed.
