(** Proofs about the numbering sweeps of weights.py. *)
From Coq Require Import List ZArith QArith Qround Qabs Lia Lqa Bool Permutation.
From Verif Require Import Prelude PreludeFacts WeightsModel.
Import ListNotations.
Open Scope Z_scope.

(** ** Cells *)

Lemma cell_eqb_eq a b : cell_eqb a b = true <-> a = b.
Proof.
  destruct a as [[x y] z], b as [[x' y'] z']. cbn.
  rewrite !andb_true_iff, !Z.eqb_eq. split; [intros [[-> ->] ->]; reflexivity|intros [= -> -> ->]; auto].
Qed.

Lemma cell_eqb_refl a : cell_eqb a a = true.
Proof. now apply cell_eqb_eq. Qed.

Lemma cell_eqb_neq a b : a <> b -> cell_eqb a b = false.
Proof. intros H. apply not_true_iff_false. rewrite cell_eqb_eq. assumption. Qed.

Lemma cell_dec (a b : cell) : {a = b} + {a <> b}.
Proof. repeat decide equality. Qed.

Lemma key_dec (a b : bool * cell) : {a = b} + {a <> b}.
Proof. repeat decide equality. Qed.

Lemma upd_eq {V} (a : arr V) c v : upd a c v c = v.
Proof. unfold upd. now rewrite cell_eqb_refl. Qed.

Lemma upd_neq {V} (a : arr V) c c' v : c' <> c -> upd a c v c' = a c'.
Proof. intros H. unfold upd. now rewrite cell_eqb_neq. Qed.

Lemma in_cells x0 x1 ny nz x y z :
  In (x, y, z) (cells x0 x1 ny nz) <-> x0 <= x < x1 /\ 0 <= y < ny /\ 0 <= z < nz.
Proof.
  unfold cells. rewrite in_flat_map. split.
  - intros (x' & Hx & H). rewrite in_flat_map in H. destruct H as (y' & Hy & H).
    rewrite in_map_iff in H. destruct H as (z' & [= -> -> ->] & Hz).
    rewrite in_zrange in *. lia.
  - intros (Hx & Hy & Hz). exists x. rewrite in_zrange. split; [lia|].
    rewrite in_flat_map. exists y. rewrite in_zrange. split; [lia|].
    apply in_map_iff. exists z. rewrite in_zrange. split; [reflexivity|lia].
Qed.

Lemma NoDup_cells x0 x1 ny nz : NoDup (cells x0 x1 ny nz).
Proof.
  unfold cells. apply NoDup_flat_map; [apply NoDup_zrange| |].
  - intros x _. apply NoDup_flat_map; [apply NoDup_zrange| |].
    + intros y _. apply FinFun.Injective_map_NoDup; [|apply NoDup_zrange]. intros a b [= ->]. reflexivity.
    + intros y y' [[e1 e2] e3] _ _. rewrite !in_map_iff. intros (z & [= <- <- <-] & _) (z' & [= <- ->] & _). reflexivity.
  - intros x x' [[e1 e2] e3] _ _. rewrite !in_flat_map. intros (y & _ & H) (y' & _ & H').
    rewrite in_map_iff in H, H'. destruct H as (z & [= <- <- <-] & _). destruct H' as (z' & [= <- -> ->] & _). reflexivity.
Qed.

(** Position of an element in nested ranges. *)
Lemma nth_error_flat_map_const {A B} (f : A -> list B) (k : nat) l i j :
  (forall a, In a l -> length (f a) = k) -> (j < k)%nat ->
  nth_error (flat_map f l) (i * k + j) =
  match nth_error l i with Some a => nth_error (f a) j | None => None end.
Proof.
  revert i. induction l as [|a l IH]; intros i Hl Hj; cbn.
  - destruct i; cbn; [destruct j; reflexivity|]. destruct (k + i * k + j)%nat; reflexivity.
  - assert (Ha : length (f a) = k) by (apply Hl; now left).
    destruct i as [|i]; cbn.
    + rewrite nth_error_app1 by lia. reflexivity.
    + rewrite nth_error_app2 by lia.
      replace (k + i * k + j - length (f a))%nat with (i * k + j)%nat by lia.
      apply IH; [|assumption]. intros; apply Hl; now right.
Qed.

Lemma length_flat_map_const {A B} (f : A -> list B) (k : nat) l :
  (forall a, In a l -> length (f a) = k) -> length (flat_map f l) = (length l * k)%nat.
Proof.
  induction l as [|a l IH]; cbn; intros H; [reflexivity|].
  rewrite app_length, IH, H; auto.
Qed.

Lemma cells_length x0 x1 ny nz : x0 <= x1 -> 0 <= ny -> 0 <= nz ->
  Z.of_nat (length (cells x0 x1 ny nz)) = (x1 - x0) * ny * nz.
Proof.
  intros. unfold cells.
  rewrite length_flat_map_const with (k := (Z.to_nat ny * Z.to_nat nz)%nat).
  - rewrite zrange_length. rewrite !Nat2Z.inj_mul, !Z2Nat.id by lia. lia.
  - intros x _. rewrite length_flat_map_const with (k := Z.to_nat nz).
    + rewrite zrange_length. rewrite ?Z.sub_0_r; reflexivity.
    + intros y _. rewrite map_length, zrange_length. rewrite ?Z.sub_0_r; reflexivity.
Qed.

Lemma nth_error_cells x0 x1 ny nz x y z :
  x0 <= x < x1 -> 0 <= y < ny -> 0 <= z < nz ->
  nth_error (cells x0 x1 ny nz) (Z.to_nat (((x - x0) * ny + y) * nz + z)) = Some (x, y, z).
Proof.
  intros Hx Hy Hz. unfold cells.
  replace (Z.to_nat (((x - x0) * ny + y) * nz + z))
    with (Z.to_nat (x - x0) * (Z.to_nat ny * Z.to_nat nz) + (Z.to_nat y * Z.to_nat nz + Z.to_nat z))%nat.
  2:{ apply Nat2Z.inj. assert (0 <= (x - x0) * ny) by (apply Z.mul_nonneg_nonneg; lia). assert (0 <= ((x - x0) * ny + y) * nz) by (apply Z.mul_nonneg_nonneg; lia). rewrite Z2Nat.id by lia. rewrite !Nat2Z.inj_add, !Nat2Z.inj_mul, !Z2Nat.id by lia. ring. }
  rewrite nth_error_flat_map_const.
  - rewrite nth_error_zrange by lia. rewrite nth_error_flat_map_const.
    + rewrite nth_error_zrange by lia.
      rewrite nth_error_map, nth_error_zrange by lia. cbn. do 2 f_equal; [f_equal|]; lia.
    + intros. rewrite map_length, zrange_length. rewrite ?Z.sub_0_r; reflexivity.
    + lia.
  - intros. rewrite length_flat_map_const with (k := Z.to_nat nz).
    + rewrite zrange_length. rewrite ?Z.sub_0_r; reflexivity.
    + intros. rewrite map_length, zrange_length. rewrite ?Z.sub_0_r; reflexivity.
  - nia.
Qed.

(** ** One-array numbering *)

Lemma number_cells_app l1 l2 st : number_cells (l1 ++ l2) st = number_cells l2 (number_cells l1 st).
Proof. apply fold_left_app. Qed.

Lemma number_cells_spec l a n :
  NoDup l ->
  snd (number_cells l (a, n)) = n + Z.of_nat (length l) /\
  (forall i c, nth_error l i = Some c -> fst (number_cells l (a, n)) c = n + Z.of_nat i) /\
  (forall c, ~ In c l -> fst (number_cells l (a, n)) c = a c).
Proof.
  revert a n. induction l as [|c0 l IH]; intros a n Hnd.
  - cbn. split; [lia|]. split; [intros [|i] c; discriminate|reflexivity].
  - inversion Hnd; subst. cbn [number_cells fold_left].
    change (fold_left _ l _) with (number_cells l (upd a c0 n, n + 1)).
    destruct (IH (upd a c0 n) (n + 1) H2) as (S & V & F).
    split; [rewrite S; cbn [length]; lia|]. split.
    + intros [|i] c E; cbn in E.
      * injection E as ->. rewrite F by assumption. rewrite upd_eq. lia.
      * rewrite (V _ _ E). lia.
    + intros c Hc. rewrite F by (intro; apply Hc; now right).
      apply upd_neq. intro; apply Hc; now left.
Qed.

(** The full sweep order of [assign_cell_space_numbers]. *)
Definition all_cells (nx ny nz mxg : Z) : list cell :=
  cells mxg (nx - mxg) ny nz ++ cells 0 mxg ny nz ++ cells (nx - mxg) nx ny nz.

Lemma in_all_cells nx ny nz mxg x y z : 0 <= mxg -> 2 * mxg <= nx ->
  In (x, y, z) (all_cells nx ny nz mxg) <-> 0 <= x < nx /\ 0 <= y < ny /\ 0 <= z < nz.
Proof. intros. unfold all_cells. rewrite !in_app_iff, !in_cells. lia. Qed.

Lemma NoDup_all_cells nx ny nz mxg : 0 <= mxg -> 2 * mxg <= nx -> NoDup (all_cells nx ny nz mxg).
Proof.
  intros. unfold all_cells. apply NoDup_app; [apply NoDup_cells| |].
  - apply NoDup_app; try apply NoDup_cells. intros [[x y] z]. rewrite !in_cells. lia.
  - intros [[x y] z]. rewrite in_app_iff, !in_cells. lia.
Qed.

Lemma all_cells_length nx ny nz mxg : 0 <= mxg -> 2 * mxg <= nx -> 0 <= ny -> 0 <= nz ->
  Z.of_nat (length (all_cells nx ny nz mxg)) = nx * ny * nz.
Proof. intros. unfold all_cells. rewrite !app_length, !Nat2Z.inj_add, !cells_length by lia. ring. Qed.

(** ** Two-array numbering *)

Definition two_step (p q : cell -> bool) (st : arr Z * arr Z * Z) (c : cell) : arr Z * arr Z * Z :=
  let '(a, b, n) := st in
  let '(a, n) := if p c then (upd a c n, n + 1) else (a, n) in
  let '(b, n) := if q c then (upd b c n, n + 1) else (b, n) in
  (a, b, n).

(** The keys numbered at a cell, in order: [true] for the first array. *)
Definition evs (p q : cell -> bool) (c : cell) : list (bool * cell) :=
  (if p c then [(true, c)] else []) ++ (if q c then [(false, c)] else []).

Definition pick {V} (k : bool) (a b : arr V) : arr V := if k then a else b.

Lemma in_evs p q c k c' : In (k, c') (evs p q c) <-> c' = c /\ (if k then p c else q c) = true.
Proof.
  unfold evs. rewrite in_app_iff. destruct (p c) eqn:P, (q c) eqn:Q, k; cbn; intuition (try congruence).
Qed.

Lemma in_events p q l k c : In (k, c) (flat_map (evs p q) l) <-> In c l /\ (if k then p c else q c) = true.
Proof.
  rewrite in_flat_map. split.
  - intros (c' & Hc & H). apply in_evs in H. destruct H as [-> H]. auto.
  - intros [Hc H]. exists c. rewrite in_evs. auto.
Qed.

Lemma NoDup_events p q l : NoDup l -> NoDup (flat_map (evs p q) l).
Proof.
  intros H. apply NoDup_flat_map; [assumption| |].
  - intros c _. unfold evs. destruct (p c), (q c); cbn; repeat constructor; cbn; intuition congruence.
  - intros c c' [k d] _ _ H1 H2. apply in_evs in H1, H2. destruct H1, H2. congruence.
Qed.

Definition numbered (E : list (bool * cell)) (n0 : Z) (a b : arr Z) : Prop :=
  (forall k i c, nth_error E i = Some (k, c) -> pick k a b c = n0 + Z.of_nat i) /\
  (forall k c, ~ In (k, c) E -> pick k a b c = -1).

Lemma two_sweep_spec p q l n0 :
  NoDup l ->
  let '(a, b, n) := fold_left (two_step p q) l ((fun _ => -1), (fun _ => -1), n0) in
  n = n0 + Z.of_nat (length (flat_map (evs p q) l)) /\ numbered (flat_map (evs p q) l) n0 a b.
Proof.
  intros Hnd.
  set (P := fun pre (st : arr Z * arr Z * Z) => let '(a, b, n) := st in
    n = n0 + Z.of_nat (length (flat_map (evs p q) pre)) /\ numbered (flat_map (evs p q) pre) n0 a b).
  change (P l (fold_left (two_step p q) l ((fun _ => -1), (fun _ => -1), n0))).
  apply fold_left_inv.
  - unfold P, numbered. cbn. split; [lia|]. split.
    + intros k [|i] c; discriminate.
    + intros [] c _; reflexivity.
  - intros pre c post [[a b] n] -> (Hn & Hv & Hf).
    assert (Hc : ~ In c pre).
    { apply NoDup_app_inv in Hnd. destruct Hnd as (_ & _ & D). intro Hin. apply (D c); cbn; auto. }
    assert (HcE : forall k, ~ In (k, c) (flat_map (evs p q) pre)).
    { intros k. rewrite in_events. tauto. }
    unfold P, two_step. rewrite flat_map_app. cbn [flat_map]. rewrite app_nil_r.
    set (E := flat_map (evs p q) pre) in *.
    assert (HB : forall k i c', nth_error E i = Some (k, c') -> c' <> c).
    { intros k i c' H ->. apply nth_error_In in H. eapply HcE; eauto. }
    unfold evs. destruct (p c) eqn:Pc, (q c) eqn:Qc; cbn [app].
    + split; [rewrite app_length; cbn [length]; lia|]. split.
      * intros k i c' H. destruct (Nat.lt_ge_cases i (length E)) as [Hi|Hi].
        -- rewrite nth_error_app1 in H by assumption. specialize (HB _ _ _ H). specialize (Hv _ _ _ H).
           destruct k; cbn in *; rewrite upd_neq by assumption; assumption.
        -- rewrite nth_error_app2 in H by assumption.
           remember (i - length E)%nat as j. destruct j as [|[|j]]; cbn in H; [| |destruct j; discriminate].
           ++ injection H as <- <-. cbn. rewrite upd_eq. lia.
           ++ injection H as <- <-. cbn. rewrite upd_eq. lia.
      * intros k c' H. rewrite in_app_iff in H. cbn in H.
        assert (Hf' := Hf k c' ltac:(tauto)).
        assert (c' <> c) by (intros ->; apply H; right; destruct k; auto).
        destruct k; cbn in *; rewrite upd_neq by assumption; assumption.
    + split; [rewrite app_length; cbn [length]; lia|]. split.
      * intros k i c' H. destruct (Nat.lt_ge_cases i (length E)) as [Hi|Hi].
        -- rewrite nth_error_app1 in H by assumption. specialize (HB _ _ _ H). specialize (Hv _ _ _ H).
           destruct k; cbn in *; rewrite ?upd_neq by assumption; assumption.
        -- rewrite nth_error_app2 in H by assumption.
           remember (i - length E)%nat as j. destruct j as [|j]; cbn in H; [|destruct j; discriminate].
           injection H as <- <-. cbn. rewrite upd_eq. lia.
      * intros k c' H. rewrite in_app_iff in H. cbn in H.
        assert (Hf' := Hf k c' ltac:(tauto)). destruct k; cbn in *; [|assumption].
        rewrite upd_neq; [assumption|]. intros ->. apply H. auto.
    + split; [rewrite app_length; cbn [length]; lia|]. split.
      * intros k i c' H. destruct (Nat.lt_ge_cases i (length E)) as [Hi|Hi].
        -- rewrite nth_error_app1 in H by assumption. specialize (HB _ _ _ H). specialize (Hv _ _ _ H).
           destruct k; cbn in *; rewrite ?upd_neq by assumption; assumption.
        -- rewrite nth_error_app2 in H by assumption.
           remember (i - length E)%nat as j. destruct j as [|j]; cbn in H; [|destruct j; discriminate].
           injection H as <- <-. cbn. rewrite upd_eq. lia.
      * intros k c' H. rewrite in_app_iff in H. cbn in H.
        assert (Hf' := Hf k c' ltac:(tauto)). destruct k; cbn in *; [assumption|].
        rewrite upd_neq; [assumption|]. intros ->. apply H. auto.
    + rewrite app_nil_r. split; [exact Hn|]. split; assumption.
Qed.

(** Consequences of [numbered]. *)
Section Numbered.
  Context (E : list (bool * cell)) (n0 : Z) (a b : arr Z).
  Hypothesis Hn0 : 0 <= n0.
  Hypothesis HE : numbered E n0 a b.

  Lemma numbered_in k c : In (k, c) E -> n0 <= pick k a b c < n0 + Z.of_nat (length E).
  Proof.
    intros H. apply In_nth_error in H. destruct H as [i Hi].
    rewrite (proj1 HE _ _ _ Hi). assert (i < length E)%nat by (apply nth_error_Some; congruence). lia.
  Qed.

  Lemma numbered_nonneg k c : 0 <= pick k a b c <-> In (k, c) E.
  Proof.
    split.
    - intros H. destruct (in_dec key_dec (k, c) E) as [|N]; [assumption|].
      rewrite (proj2 HE _ _ N) in H. lia.
    - intros H. apply numbered_in in H. lia.
  Qed.

  Lemma numbered_inj k c k' c' : In (k, c) E -> In (k', c') E ->
    pick k a b c = pick k' a b c' -> k = k' /\ c = c'.
  Proof.
    intros H H' Eq. apply In_nth_error in H, H'. destruct H as [i Hi], H' as [j Hj].
    rewrite (proj1 HE _ _ _ Hi), (proj1 HE _ _ _ Hj) in Eq.
    assert (i = j) by lia. subst. rewrite Hi in Hj. injection Hj as -> ->. auto.
  Qed.

  Lemma numbered_surj v : n0 <= v < n0 + Z.of_nat (length E) ->
    exists k c, In (k, c) E /\ pick k a b c = v.
  Proof.
    intros H. destruct (nth_error E (Z.to_nat (v - n0))) as [[k c]|] eqn:Hn.
    - exists k, c. split; [eapply nth_error_In; eauto|]. rewrite (proj1 HE _ _ _ Hn). lia.
    - apply nth_error_None in Hn. lia.
  Qed.
End Numbered.

(** ** assign_cell_space_numbers *)

Definition dims_ok (m : maps) : Prop :=
  0 <= m_mxg m /\ 2 * m_mxg m <= m_nx m /\ 0 <= m_ny m /\ 0 <= m_nz m.

Definition interior (m : maps) (c : cell) : Prop :=
  let '(x, y, z) := c in m_mxg m <= x < m_nx m - m_mxg m /\ 0 <= y < m_ny m /\ 0 <= z < m_nz m.

Definition in_grid (m : maps) (c : cell) : Prop :=
  let '(x, y, z) := c in 0 <= x < m_nx m /\ 0 <= y < m_ny m /\ 0 <= z < m_nz m.

Definition icells (m : maps) : list cell := cells (m_mxg m) (m_nx m - m_mxg m) (m_ny m) (m_nz m).

Lemma in_icells m c : In c (icells m) <-> interior m c.
Proof. destruct c as [[x y] z]. apply in_cells. Qed.

Lemma interior_in_grid m c : dims_ok m -> interior m c -> in_grid m c.
Proof. destruct c as [[x y] z]. unfold dims_ok. cbn. lia. Qed.

(** Resolved x/z map of a direction. *)
Definition xts_of (m : maps) (d : dir) : res arr4 :=
  let* a := get_map_array (xt_key d m) (xt_fallback d m) in as_subsample_array a.
Definition zts_of (m : maps) (d : dir) : res arr4 :=
  let* a := get_map_array (zt_key d m) (zt_fallback d m) in as_subsample_array a.

Lemma bind_assoc {A B C} (r : res A) (f : A -> res B) (g : B -> res C) :
  bind (bind r f) g = bind r (fun a => bind (f a) g).
Proof. destruct r; reflexivity. Qed.

Record cs_spec (m : maps) (fx bx : arr4) (cs : cell_space) : Prop := {
  css_nx : cs_nx cs = m_nx m;
  css_ny : cs_ny cs = m_ny m;
  css_nz : cs_nz cs = m_nz m;
  css_evolving : cs_N_evolving cs = (m_nx m - 2 * m_mxg m) * m_ny m * m_nz m;
  css_cell : forall i c, nth_error (all_cells (m_nx m) (m_ny m) (m_nz m) (m_mxg m)) i = Some c ->
             cs_cell_number cs c = Z.of_nat i;
  css_cell_out : forall c, ~ in_grid m c -> cs_cell_number cs c = -1;
  css_bnd : numbered (flat_map (evs (any_hits bx (m_nx m) (m_mxg m)) (any_hits fx (m_nx m) (m_mxg m))) (icells m))
              (m_nx m * m_ny m * m_nz m)
              (cs_backward_boundary_number cs) (cs_forward_boundary_number cs);
  css_N : cs_N_cells cs = m_nx m * m_ny m * m_nz m +
          Z.of_nat (length (flat_map (evs (any_hits bx (m_nx m) (m_mxg m)) (any_hits fx (m_nx m) (m_mxg m))) (icells m)))
}.

Lemma number_boundary_two_step bx fx nx mxg :
  number_boundary_step bx fx nx mxg = two_step (any_hits bx nx mxg) (any_hits fx nx mxg).
Proof. reflexivity. Qed.

Lemma assign_spec m fx bx :
  dims_ok m -> xts_of m Fwd = Ok fx -> xts_of m Bwd = Ok bx ->
  exists cs, assign_cell_space_numbers m = Ok cs /\ cs_spec m fx bx cs.
Proof.
  intros (D1 & D2 & D3 & D4) Hf Hb. unfold assign_cell_space_numbers.
  rewrite <- !number_cells_app, <- ?app_assoc.
  change (cells (m_mxg m) (m_nx m - m_mxg m) (m_ny m) (m_nz m) ++
          cells 0 (m_mxg m) (m_ny m) (m_nz m) ++
          cells (m_nx m - m_mxg m) (m_nx m) (m_ny m) (m_nz m))
    with (all_cells (m_nx m) (m_ny m) (m_nz m) (m_mxg m)).
  destruct (number_cells_spec (all_cells (m_nx m) (m_ny m) (m_nz m) (m_mxg m)) (fun _ => -1) 0
             (NoDup_all_cells _ _ _ _ D1 D2)) as (S & V & F).
  destruct (number_cells _ _) as [cn next] eqn:EN. cbn [fst snd] in *.
  rewrite all_cells_length in S by assumption.
  unfold xts_of in Hf, Hb. cbn [xt_key xt_fallback] in Hf, Hb.
  destruct (get_map_array (m_fxts m) (m_fxt m)) as [fa|]; cbn [bind] in *; [|discriminate].
  destruct (get_map_array (m_bxts m) (m_bxt m)) as [ba|]; cbn [bind] in *; [|discriminate].
  rewrite Hf. cbn [bind]. rewrite Hb. cbn [bind].
  rewrite number_boundary_two_step.
  pose proof (two_sweep_spec (any_hits bx (m_nx m) (m_mxg m)) (any_hits fx (m_nx m) (m_mxg m)) (icells m) next
                (NoDup_cells _ _ _ _)) as T.
  fold (icells m).
  destruct (fold_left _ (icells m) _) as [[bw fw] n'] eqn:EF.
  destruct T as [T1 T2].
  eexists. split; [reflexivity|].
  replace next with (m_nx m * m_ny m * m_nz m) in * by lia.
  constructor; cbn; try reflexivity; try assumption.
  intros [[x y] z] H. apply F. rewrite in_all_cells by assumption. exact H.
Qed.

(** ** build_leg_space_metadata *)

Definition mask_of (xts : arr4) (nx mxg : Z) (c : cell) : list bool :=
  map (fun x => hits_radial_boundary x nx mxg) (row4 xts c).
Definition hasI xts nx mxg c := existsb negb (mask_of xts nx mxg c).
Definition hasB xts nx mxg c := existsb (fun b => b) (mask_of xts nx mxg c).

Lemma hasB_any_hits xts nx mxg c : hasB xts nx mxg c = any_hits xts nx mxg c.
Proof. reflexivity. Qed.

Lemma row4_length a c : length (row4 a c) = fst a.
Proof. unfold row4. now rewrite map_length, seq_length. Qed.

Lemma mask_of_length xts nx mxg c : length (mask_of xts nx mxg c) = fst xts.
Proof. unfold mask_of. rewrite map_length. apply row4_length. Qed.

Lemma classify_ok xts subw nx mxg c : length subw = fst xts ->
  classify_leg_contributions (row4 xts c) subw nx mxg =
  Ok {| cl_hits := mask_of xts nx mxg c;
        cl_has_boundary := hasB xts nx mxg c;
        cl_has_interior := hasI xts nx mxg c;
        cl_boundary_fraction := qsum (select (mask_of xts nx mxg c) subw);
        cl_interior_fraction := qsum (select (map negb (mask_of xts nx mxg c)) subw) |}.
Proof.
  intros H. unfold classify_leg_contributions.
  fold (mask_of xts nx mxg c). rewrite mask_of_length, H, Nat.eqb_refl. reflexivity.
Qed.

Record ls_spec (m : maps) (xts : arr4) (subw : list Q) (ls : leg_space) : Prop := {
  lss_nx : ls_nx ls = m_nx m;
  lss_ny : ls_ny ls = m_ny m;
  lss_nz : ls_nz ls = m_nz m;
  lss_num : numbered (flat_map (evs (hasI xts (m_nx m) (m_mxg m)) (hasB xts (m_nx m) (m_mxg m))) (icells m)) 0
              (ls_interior_leg_number ls) (ls_boundary_leg_number ls);
  lss_n : ls_n_legs ls =
    Z.of_nat (length (flat_map (evs (hasI xts (m_nx m) (m_mxg m)) (hasB xts (m_nx m) (m_mxg m))) (icells m)));
  lss_in : forall c, interior m c ->
    ls_has_interior_leg ls c = hasI xts (m_nx m) (m_mxg m) c /\
    ls_has_boundary_leg ls c = hasB xts (m_nx m) (m_mxg m) c /\
    ls_interior_fraction ls c = qsum (select (map negb (mask_of xts (m_nx m) (m_mxg m) c)) subw) /\
    ls_boundary_fraction ls c = qsum (select (mask_of xts (m_nx m) (m_mxg m) c) subw);
  lss_out : forall c, ~ interior m c ->
    ls_has_interior_leg ls c = false /\ ls_has_boundary_leg ls c = false
}.

Lemma fold_left_last {A S} (f : S -> A -> S) l a s : fold_left f (l ++ [a]) s = f (fold_left f l s) a.
Proof. now rewrite fold_left_app. Qed.

Lemma leg_space_spec m cs d xts subw :
  dims_ok m -> cs_nx cs = m_nx m -> cs_ny cs = m_ny m -> cs_nz cs = m_nz m ->
  xts_of m d = Ok xts -> get_subcell_weights m (fst xts) = Ok subw -> length subw = fst xts ->
  exists ls, build_leg_space_metadata cs m d = Ok ls /\ ls_spec m xts subw ls.
Proof.
  intros D Hx Hy Hz Hxts Hw Hlen. unfold build_leg_space_metadata.
  rewrite Hx, Hy, Hz. unfold xts_of in Hxts.
  destruct (get_map_array (xt_key d m) (xt_fallback d m)) as [xa|]; cbn [bind] in *; [|discriminate].
  rewrite Hxts. cbn [bind]. rewrite Hw. cbn [bind].
  fold (icells m).
  set (p := hasI xts (m_nx m) (m_mxg m)). set (q := hasB xts (m_nx m) (m_mxg m)).
  set (ls0 := {| ls_nx := m_nx m |}) || idtac.
  match goal with |- context [foldM _ _ ?l0] => set (s0 := l0) end.
  set (P := fun pre ls =>
    ls_nx ls = m_nx m /\ ls_ny ls = m_ny m /\ ls_nz ls = m_nz m /\
    (ls_interior_leg_number ls, ls_boundary_leg_number ls, ls_n_legs ls) =
      fold_left (two_step p q) pre ((fun _ => -1), (fun _ => -1), 0) /\
    (forall c, In c pre ->
      ls_has_interior_leg ls c = p c /\ ls_has_boundary_leg ls c = q c /\
      ls_interior_fraction ls c = qsum (select (map negb (mask_of xts (m_nx m) (m_mxg m) c)) subw) /\
      ls_boundary_fraction ls c = qsum (select (mask_of xts (m_nx m) (m_mxg m) c) subw)) /\
    (forall c, ~ In c pre -> ls_has_interior_leg ls c = false /\ ls_has_boundary_leg ls c = false)).
  destruct (foldM_inv P (leg_step xts subw (m_nx m) (m_mxg m)) (icells m) s0) as (ls & Els & HP).
  - unfold P, s0; cbn. repeat split; auto; intros; contradiction.
  - intros pre c post ls El (P1 & P2 & P3 & P4 & P5 & P6).
    unfold leg_step. rewrite classify_ok by assumption. cbn [bind cl_has_interior cl_has_boundary cl_interior_fraction cl_boundary_fraction].
    fold p q. rewrite <- fold_left_last with (f := two_step p q) || idtac.
    unfold P. rewrite fold_left_last, <- P4. unfold two_step.
    destruct (if p c then _ else _) as [inum n1] eqn:E1.
    destruct (if q c then _ else _) as [bnum n2] eqn:E2.
    eexists. split; [reflexivity|]. cbn. repeat split; auto.
    + destruct (cell_eqb c0 c) eqn:Ec; [apply cell_eqb_eq in Ec; subst; apply upd_eq|].
      unfold upd; rewrite Ec. apply P5. rewrite in_app_iff in H. destruct H as [|[->|[]]]; auto. rewrite cell_eqb_refl in Ec; discriminate.
    + destruct (cell_eqb c0 c) eqn:Ec; [apply cell_eqb_eq in Ec; subst; apply upd_eq|].
      unfold upd; rewrite Ec. apply P5. rewrite in_app_iff in H. destruct H as [|[->|[]]]; auto. rewrite cell_eqb_refl in Ec; discriminate.
    + destruct (cell_eqb c0 c) eqn:Ec; [apply cell_eqb_eq in Ec; subst; apply upd_eq|].
      unfold upd; rewrite Ec. apply P5. rewrite in_app_iff in H. destruct H as [|[->|[]]]; auto. rewrite cell_eqb_refl in Ec; discriminate.
    + destruct (cell_eqb c0 c) eqn:Ec; [apply cell_eqb_eq in Ec; subst; apply upd_eq|].
      unfold upd; rewrite Ec. apply P5. rewrite in_app_iff in H. destruct H as [|[->|[]]]; auto. rewrite cell_eqb_refl in Ec; discriminate.
    + rewrite in_app_iff in H. cbn in H. rewrite upd_neq by (intros ->; apply H; auto). apply P6. tauto.
    + rewrite in_app_iff in H. cbn in H. rewrite upd_neq by (intros ->; apply H; auto). apply P6. tauto.
  - rewrite Els. eexists. split; [reflexivity|].
    destruct HP as (P1 & P2 & P3 & P4 & P5 & P6).
    pose proof (two_sweep_spec p q (icells m) 0 (NoDup_cells _ _ _ _)) as T.
    rewrite <- P4 in T. destruct T as [T1 T2].
    constructor; auto.
    + intros c Hc. apply P5. now apply in_icells.
    + intros c Hc. apply P6. now rewrite in_icells.
Qed.

(** ** build_leg_weight_vector *)

Definition leg_share (split : bool) (frac : Q) : Q := if split then frac else 1%Q.

Lemma set_weight_ok w row v : 0 <= row < Z.of_nat (length w) ->
  set_weight w row v = Ok (set_nth (Z.to_nat row) v w).
Proof.
  intros H. unfold set_weight.
  destruct (row <? 0) eqn:E1; [lia|]. destruct (row <? Z.of_nat (length w)) eqn:E2; [reflexivity|lia].
Qed.

Lemma weight_vector_spec m xts subw ls :
  dims_ok m -> ls_spec m xts subw ls ->
  exists w, build_leg_weight_vector ls = Ok w /\ length w = Z.to_nat (ls_n_legs ls) /\
    forall c, interior m c ->
      let i := hasI xts (m_nx m) (m_mxg m) c in
      let b := hasB xts (m_nx m) (m_mxg m) c in
      (i = true -> nth_error w (Z.to_nat (ls_interior_leg_number ls c)) =
         Some (leg_share (i && b) (qsum (select (map negb (mask_of xts (m_nx m) (m_mxg m) c)) subw)))) /\
      (b = true -> nth_error w (Z.to_nat (ls_boundary_leg_number ls c)) =
         Some (leg_share (i && b) (qsum (select (mask_of xts (m_nx m) (m_mxg m) c) subw)))).
Proof.
  intros D [Lx Ly Lz Lnum Ln Lin Lout].
  set (p := hasI xts (m_nx m) (m_mxg m)) in *. set (q := hasB xts (m_nx m) (m_mxg m)) in *.
  set (E := flat_map (evs p q) (icells m)) in *.
  assert (EinI : forall c, interior m c -> p c = true -> In (true, c) E).
  { intros c Hc Hp. apply in_events. split; [now apply in_icells|assumption]. }
  assert (EinB : forall c, interior m c -> q c = true -> In (false, c) E).
  { intros c Hc Hq. apply in_events. split; [now apply in_icells|assumption]. }
  assert (RI : forall c, interior m c -> p c = true -> 0 <= ls_interior_leg_number ls c < ls_n_legs ls).
  { intros c Hc Hp. pose proof (numbered_in E 0 _ _ Lnum true c (EinI c Hc Hp)). cbn [pick] in H. lia. }
  assert (RB : forall c, interior m c -> q c = true -> 0 <= ls_boundary_leg_number ls c < ls_n_legs ls).
  { intros c Hc Hq. pose proof (numbered_in E 0 _ _ Lnum false c (EinB c Hc Hq)). cbn [pick] in H. lia. }
  assert (IJ : forall k c k' c', In (k, c) E -> In (k', c') E ->
     pick k (ls_interior_leg_number ls) (ls_boundary_leg_number ls) c =
     pick k' (ls_interior_leg_number ls) (ls_boundary_leg_number ls) c' -> k = k' /\ c = c').
  { apply (numbered_inj E 0 _ _ Lnum). }
  unfold build_leg_weight_vector. rewrite Lx, Ly, Lz.
  set (all := cells 0 (m_nx m) (m_ny m) (m_nz m)).
  set (vI := fun c => leg_share (p c && q c) (qsum (select (map negb (mask_of xts (m_nx m) (m_mxg m) c)) subw))).
  set (vB := fun c => leg_share (p c && q c) (qsum (select (mask_of xts (m_nx m) (m_mxg m) c) subw))).
  set (P := fun pre w => length w = Z.to_nat (ls_n_legs ls) /\
    forall c, In c pre -> interior m c ->
      (p c = true -> nth_error w (Z.to_nat (ls_interior_leg_number ls c)) = Some (vI c)) /\
      (q c = true -> nth_error w (Z.to_nat (ls_boundary_leg_number ls c)) = Some (vB c))).
  destruct (foldM_inv P (weight_step ls) all (repeat 0%Q (Z.to_nat (ls_n_legs ls)))) as (w & Ew & Hlen & HP).
  - unfold P. split; [apply repeat_length|]. intros c [].
  - intros pre c post w El (Hlen & HP). unfold weight_step.
    assert (Hc : In c all) by (rewrite El; apply in_app_iff; cbn; auto).
    assert (Hcn : ~ In c pre).
    { pose proof (NoDup_cells 0 (m_nx m) (m_ny m) (m_nz m)) as N. fold all in N. rewrite El in N.
      apply NoDup_app_inv in N. destruct N as (_ & _ & N). intro. apply (N c); cbn; auto. }
    assert (Dec : interior m c \/ ~ interior m c).
    { destruct (in_dec cell_dec c (icells m)) as [I|I];
        rewrite in_icells in I; auto. }
    destruct Dec as [Ic|Ic].
    + destruct (Lin c Ic) as (L1 & L2 & L3 & L4). rewrite L1, L2, L3, L4.
      change (if p c && q c then ?f else 1%Q) with (leg_share (p c && q c) f).
      fold (vI c) (vB c).
      (* frame: writing one of c's rows leaves rows of other cells alone *)
      assert (Fr : forall k c' k' r, In c' pre -> interior m c' -> (if k' : bool then p c' else q c') = true ->
         (if k : bool then p c else q c) = true ->
         r = pick k (ls_interior_leg_number ls) (ls_boundary_leg_number ls) c ->
         Z.to_nat (pick k' (ls_interior_leg_number ls) (ls_boundary_leg_number ls) c') <> Z.to_nat r).
      { intros k c' k' r Hc' Ic' Hk' Hk -> Eq.
        assert (I1 : In (k', c') E) by (destruct k'; auto).
        assert (I2 : In (k, c) E) by (destruct k; auto).
        assert (0 <= pick k' (ls_interior_leg_number ls) (ls_boundary_leg_number ls) c') by (destruct k'; cbn; [apply RI|apply RB]; auto).
        assert (0 <= pick k (ls_interior_leg_number ls) (ls_boundary_leg_number ls) c) by (destruct k; cbn; [apply RI|apply RB]; auto).
        destruct (IJ k' c' k c I1 I2 ltac:(lia)) as [_ ->]. contradiction. }
      destruct (p c) eqn:Pc, (q c) eqn:Qc; cbn [orb negb andb bind].
      * rewrite set_weight_ok by (rewrite Hlen; specialize (RI c Ic Pc); lia). cbn [bind].
        rewrite set_weight_ok by (rewrite set_nth_length, Hlen; specialize (RB c Ic Qc); lia).
        eexists. split; [reflexivity|]. unfold P. rewrite !set_nth_length. split; [assumption|].
        assert (NE : Z.to_nat (ls_interior_leg_number ls c) <> Z.to_nat (ls_boundary_leg_number ls c)).
        { intro Eq. specialize (RI c Ic Pc). specialize (RB c Ic Qc).
          destruct (IJ true c false c (EinI c Ic Pc) (EinB c Ic Qc)); [cbn; lia|discriminate]. }
        intros c' Hc' Ic'. rewrite in_app_iff in Hc'. destruct Hc' as [Hc'|[<-|[]]].
        -- destruct (HP c' Hc' Ic') as [H1 H2]. split; intros Hk.
           ++ rewrite !nth_error_set_nth_neq; [auto| |].
              ** apply (Fr true c' true _ Hc' Ic' Hk eq_refl eq_refl).
              ** apply (Fr false c' true _ Hc' Ic' Hk eq_refl eq_refl).
           ++ rewrite !nth_error_set_nth_neq; [auto| |].
              ** apply (Fr true c' false _ Hc' Ic' Hk eq_refl eq_refl).
              ** apply (Fr false c' false _ Hc' Ic' Hk eq_refl eq_refl).
        -- split; intros _.
           ++ rewrite nth_error_set_nth_neq by assumption. apply nth_error_set_nth_eq. specialize (RI c Ic Pc); lia.
           ++ apply nth_error_set_nth_eq. rewrite set_nth_length. specialize (RB c Ic Qc); lia.
      * rewrite set_weight_ok by (rewrite Hlen; specialize (RI c Ic Pc); lia). cbn [bind].
        eexists. split; [reflexivity|]. unfold P. rewrite !set_nth_length. split; [assumption|].
        intros c' Hc' Ic'. rewrite in_app_iff in Hc'. destruct Hc' as [Hc'|[<-|[]]].
        -- destruct (HP c' Hc' Ic') as [H1 H2]. split; intros Hk.
           ++ rewrite !nth_error_set_nth_neq; [auto|]. apply (Fr true c' true _ Hc' Ic' Hk eq_refl eq_refl).
           ++ rewrite !nth_error_set_nth_neq; [auto|]. apply (Fr true c' false _ Hc' Ic' Hk eq_refl eq_refl).
        -- split; intros ?; [|congruence]. apply nth_error_set_nth_eq. specialize (RI c Ic Pc); lia.
      * rewrite set_weight_ok by (rewrite Hlen; specialize (RB c Ic Qc); lia).
        eexists. split; [reflexivity|]. unfold P. rewrite !set_nth_length. split; [assumption|].
        intros c' Hc' Ic'. rewrite in_app_iff in Hc'. destruct Hc' as [Hc'|[<-|[]]].
        -- destruct (HP c' Hc' Ic') as [H1 H2]. split; intros Hk.
           ++ rewrite !nth_error_set_nth_neq; [auto|]. apply (Fr false c' true _ Hc' Ic' Hk eq_refl eq_refl).
           ++ rewrite !nth_error_set_nth_neq; [auto|]. apply (Fr false c' false _ Hc' Ic' Hk eq_refl eq_refl).
        -- split; intros ?; [congruence|]. apply nth_error_set_nth_eq. specialize (RB c Ic Qc); lia.
      * eexists. split; [reflexivity|]. split; [assumption|].
        intros c' Hc' Ic'. rewrite in_app_iff in Hc'. destruct Hc' as [Hc'|[<-|[]]]; [auto|]. split; congruence.
    + destruct (Lout c Ic) as [L1 L2]. rewrite L1, L2. cbn. eexists. split; [reflexivity|].
      split; [assumption|]. intros c' Hc' Ic'. rewrite in_app_iff in Hc'. destruct Hc' as [Hc'|[<-|[]]]; [auto|contradiction].
  - exists w. split; [exact Ew|]. split; [exact Hlen|]. intros c Ic. apply HP; [|assumption].
    unfold all. destruct c as [[x y] z]. apply in_cells. apply interior_in_grid in Ic; [exact Ic|assumption].
Qed.
