(** modify_maps: pointwise effect of the two pre-processing sweeps. *)
From Coq Require Import List ZArith QArith Qround Qabs Lia Lqa Bool.
From Verif Require Import Prelude PreludeFacts WeightsModel WeightsSpec WeightsInput WeightsNumbering WeightsOperators WeightsTop.
Import ListNotations.
Open Scope Q_scope.

Lemma mark_fold n xts nx mxg l xt c : NoDup l ->
  fold_left (mark_step n xts nx mxg) l xt c =
  if (existsb (cell_eqb c) l && existsb (fun w => hits_radial_boundary (xts c w) nx mxg) (seq 0 n))%bool
  then -1 else xt c.
Proof.
  revert xt. induction l as [|a l IH]; intros xt N; [reflexivity|]. inversion N; subst.
  cbn [fold_left existsb]. rewrite IH by assumption. unfold mark_step.
  destruct (cell_eqb c a) eqn:E; cbn [orb andb].
  - apply cell_eqb_eq in E. subst a.
    assert (existsb (cell_eqb c) l = false) as ->.
    { destruct (existsb (cell_eqb c) l) eqn:E'; [|reflexivity]. apply existsb_exists in E'.
      destruct E' as (b & Hb & Eb). apply cell_eqb_eq in Eb. subst. contradiction. }
    cbn [andb]. destruct (existsb _ (seq 0 n)); [apply upd_eq|reflexivity].
  - destruct (existsb (cell_eqb c) l && _)%bool; [reflexivity|].
    destruct (existsb _ (seq 0 n)); [|reflexivity]. unfold upd. now rewrite E.
Qed.

Lemma existsb_cell c l : existsb (cell_eqb c) l = true <-> In c l.
Proof.
  rewrite existsb_exists. split.
  - intros (b & Hb & E). apply cell_eqb_eq in E. now subst.
  - intros H. exists c. split; [assumption|apply cell_eqb_refl].
Qed.

Lemma existsb_hit m n X c : existsb (fun w => hits_radial_boundary (X c w) (m_nx m) (m_mxg m)) (seq 0 n) = true
  <-> some_hit m n X c.
Proof.
  rewrite existsb_exists. split.
  - intros (s & Hs & E). apply in_seq in Hs. exists s. split; [lia|]. apply leavesb_iff. now rewrite <- leavesb_hits.
  - intros (s & Hs & E). exists s. split; [apply in_seq; lia|]. rewrite leavesb_hits. now apply leavesb_iff.
Qed.

Lemma forallb_hit m n X c : forallb (fun w => hits_radial_boundary (X c w) (m_nx m) (m_mxg m)) (seq 0 n) = true
  <-> ~ some_inside m n X c.
Proof.
  rewrite forallb_forall. split.
  - intros H (s & Hs & E). apply E. apply leavesb_iff. rewrite <- leavesb_hits. apply H. apply in_seq. lia.
  - intros H s Hs. apply in_seq in Hs. destruct (hits_radial_boundary (X c s) (m_nx m) (m_mxg m)) eqn:E; [reflexivity|].
    exfalso. apply H. exists s. split; [lia|]. rewrite <- leavesb_iff, <- leavesb_hits. congruence.
Qed.

Lemma in_all_grid m c : In c (cells 0 (m_nx m) (m_ny m) (m_nz m)) <-> on_grid m c.
Proof. destruct c as [[x y] z]. apply in_cells. Qed.

Lemma mark_dir_spec m n X xt c : on_grid m c ->
  (some_hit m n X c -> mark_dir n X (m_nx m) (m_ny m) (m_nz m) (m_mxg m) xt c = -1) /\
  (~ some_hit m n X c -> mark_dir n X (m_nx m) (m_ny m) (m_nz m) (m_mxg m) xt c = xt c).
Proof.
  intros G. unfold mark_dir. rewrite mark_fold by apply NoDup_cells.
  apply in_all_grid in G. apply existsb_cell in G. rewrite G. cbn [andb].
  rewrite <- existsb_hit. destruct (existsb _ (seq 0 n)); split; intros; congruence.
Qed.

(** filter *)

Definition filtered (m : maps) (n : nat) (X : cell -> nat -> Q) (xt : arr Q) (other : cell -> nat -> Q) (ot : arr Q)
  (c : cell) (s : nat) : Q :=
  if (existsb (fun w => hits_radial_boundary (X c w) (m_nx m) (m_mxg m)) (seq 0 n)
      && negb (forallb (fun w => hits_radial_boundary (X c w) (m_nx m) (m_mxg m)) (seq 0 n)))%bool then
    if hits_radial_boundary (xt c) (m_nx m) (m_mxg m) then ot c
    else if hits_radial_boundary (X c s) (m_nx m) (m_mxg m) then ot c else other c s
  else other c s.

Lemma filter_fold m n xt zt l X Zm c s : NoDup l ->
  let st := fold_left (filter_step n xt zt (m_nx m) (m_mxg m)) l (X, Zm) in
  fst st c s = (if existsb (cell_eqb c) l then filtered m n X xt X xt c s else X c s) /\
  snd st c s = (if existsb (cell_eqb c) l then filtered m n X xt Zm zt c s else Zm c s).
Proof.
  revert X Zm. induction l as [|a l IH]; intros X Zm N; [cbn; auto|]. inversion N; subst.
  cbn [fold_left existsb]. unfold filter_step at 2 4.
  match goal with |- context [fold_left _ l ?st] => destruct st as [X' Z'] eqn:E end.
  specialize (IH X' Z' H2). cbv zeta in IH. cbv zeta. destruct IH as [-> ->].
  assert (R : forall c', c' <> a -> forall w, X' c' w = X c' w /\ Z' c' w = Zm c' w).
  { intros c' Hc w. revert E. destruct (_ && _)%bool; [destruct (hits_radial_boundary _ _ _)|]; intros [= <- <-];
    unfold upd_row; rewrite ?(cell_eqb_neq _ _ Hc); auto. }
  destruct (cell_eqb c a) eqn:Ec; cbn [orb].
  - apply cell_eqb_eq in Ec. subst a.
    assert (existsb (cell_eqb c) l = false) as ->.
    { destruct (existsb (cell_eqb c) l) eqn:E'; [|reflexivity]. apply existsb_cell in E'. contradiction. }
    unfold filtered. revert E. destruct (_ && _)%bool; [destruct (hits_radial_boundary (xt c) _ _)|]; intros [= <- <-];
    unfold upd_row; rewrite ?cell_eqb_refl; auto.
  - assert (Hne : c <> a) by (intros ->; rewrite cell_eqb_refl in Ec; discriminate).
    destruct (existsb (cell_eqb c) l); [|apply (R c Hne s)].
    unfold filtered.
    assert (A1 : forall w, X' c w = X c w) by (intros; apply R; assumption).
    assert (A2 : forall w, Z' c w = Zm c w) by (intros; apply R; assumption).
    assert (E1 : existsb (fun w => hits_radial_boundary (X' c w) (m_nx m) (m_mxg m)) (seq 0 n) =
                 existsb (fun w => hits_radial_boundary (X c w) (m_nx m) (m_mxg m)) (seq 0 n)).
    { clear -A1. induction (seq 0 n); [reflexivity|]. cbn. now rewrite A1, IHl. }
    assert (E2 : forallb (fun w => hits_radial_boundary (X' c w) (m_nx m) (m_mxg m)) (seq 0 n) =
                 forallb (fun w => hits_radial_boundary (X c w) (m_nx m) (m_mxg m)) (seq 0 n)).
    { clear -A1. induction (seq 0 n); [reflexivity|]. cbn. now rewrite A1, IHl. }
    rewrite E1, E2, A1, A2. auto.
Qed.

Section Filter.
  Context (m : maps) (n : nat) (X Zm : cell -> nat -> Q) (xt zt : arr Q).
  Let out := filter_dir n X Zm (m_nx m) (m_ny m) (m_nz m) (m_mxg m) xt zt.

  Lemma filter_dir_eq c s : on_grid m c ->
    fst out c s = filtered m n X xt X xt c s /\ snd out c s = filtered m n X xt Zm zt c s.
  Proof.
    intros G. unfold out, filter_dir.
    pose proof (filter_fold m n xt zt _ X Zm c s (NoDup_cells 0 (m_nx m) (m_ny m) (m_nz m))) as F.
    cbv zeta in F. apply in_all_grid, existsb_cell in G. rewrite G in F. exact F.
  Qed.

  Definition split_cell (c : cell) : Prop := some_hit m n X c /\ some_inside m n X c.

  Lemma split_test c : (existsb (fun w => hits_radial_boundary (X c w) (m_nx m) (m_mxg m)) (seq 0 n)
      && negb (forallb (fun w => hits_radial_boundary (X c w) (m_nx m) (m_mxg m)) (seq 0 n)))%bool = true <-> split_cell c.
  Proof.
    rewrite andb_true_iff, negb_true_iff, existsb_hit. unfold split_cell.
    split; intros [A B]; (split; [assumption|]).
    - destruct (forallb _ _) eqn:E in B; [discriminate|].
      assert (NN : ~ ~ some_inside m n X c).
      { intros N. apply forallb_hit in N. congruence. }
      (* decidable *)
      clear NN B A. 
      assert (H : exists s, In s (seq 0 n) /\ hits_radial_boundary (X c s) (m_nx m) (m_mxg m) = false).
      { induction (seq 0 n) as [|a l IH]; [discriminate|]. cbn in E.
        destruct (hits_radial_boundary (X c a) (m_nx m) (m_mxg m)) eqn:E'.
        - destruct (IH E) as (s & ? & ?). exists s. cbn. auto.
        - exists a. cbn. auto. }
      destruct H as (s & Hs & Hf). apply in_seq in Hs. exists s. split; [lia|].
      rewrite <- leavesb_iff, <- leavesb_hits. congruence.
    - destruct (forallb _ _) eqn:E; [|reflexivity]. apply forallb_hit in E. contradiction.
  Qed.

  (** cells that are not split are untouched *)
  Lemma filter_untouched c s : on_grid m c -> ~ split_cell c -> fst out c s = X c s /\ snd out c s = Zm c s.
  Proof.
    intros G N. destruct (filter_dir_eq c s G) as [-> ->]. unfold filtered.
    destruct (_ && _)%bool eqn:E; [|auto]. apply split_test in E. contradiction.
  Qed.

  (** a split cell whose centre hits is all boundary; otherwise only the hitting
      sub-samples are replaced by the centre *)
  Lemma filter_split c s : on_grid m c -> split_cell c ->
    (leaves m (xt c) -> fst out c s = xt c /\ snd out c s = zt c) /\
    (~ leaves m (xt c) -> leaves m (X c s) -> fst out c s = xt c /\ snd out c s = zt c) /\
    (~ leaves m (xt c) -> ~ leaves m (X c s) -> fst out c s = X c s /\ snd out c s = Zm c s).
  Proof.
    intros G Sp. destruct (filter_dir_eq c s G) as [-> ->]. unfold filtered.
    apply split_test in Sp. rewrite Sp. rewrite !leavesb_hits, <- !leavesb_iff.
    destruct (leavesb m (xt c)); [repeat split; congruence|]. destruct (leavesb m (X c s)); repeat split; congruence.
  Qed.

  (** after filtering no cell is split *)
  Lemma filter_unsplit c : on_grid m c -> ~ (some_hit m n (fst out) c /\ some_inside m n (fst out) c).
  Proof.
    intros G [(s & Hs & Ls) (t & Ht & Lt)].
    pose proof (split_test c) as ST. match type of ST with (?b = true <-> _) => destruct b eqn:E end.
    - assert (Sp : split_cell c) by now apply split_test.
      destruct (filter_split c s G Sp) as (S1 & S2 & S3). destruct (filter_split c t G Sp) as (T1 & T2 & T3).
      destruct (leavesb m (xt c)) eqn:Ec.
      + apply leavesb_iff in Ec. destruct (T1 Ec) as [Et _]. rewrite Et in Lt. contradiction.
      + assert (Nc : ~ leaves m (xt c)) by (rewrite <- leavesb_iff; congruence).
        destruct (leavesb m (X c s)) eqn:Es.
        * apply leavesb_iff in Es. destruct (S2 Nc Es) as [Eq _]. rewrite Eq in Ls. contradiction.
        * assert (Ns : ~ leaves m (X c s)) by (rewrite <- leavesb_iff; congruence).
          destruct (S3 Nc Ns) as [Eq _]. rewrite Eq in Ls. contradiction.
    - assert (N : ~ split_cell c) by (intro H; apply split_test in H; congruence).
      destruct (filter_untouched c s G N) as [Es _]. destruct (filter_untouched c t G N) as [Et _].
      apply N. split; [exists s|exists t]; (split; [assumption|]); congruence.
  Qed.
End Filter.
