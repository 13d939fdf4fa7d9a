(** modify_maps end to end, and periodicity in the mapped z. *)
From Coq Require Import List ZArith QArith Qround Qabs Lia Lqa Bool.
From Verif Require Import Prelude PreludeFacts WeightsModel WeightsSpec WeightsInput WeightsNumbering WeightsOperators WeightsCSR WeightsRows WeightsTop WeightsModify.
Import ListNotations.
Open Scope Q_scope.

Section Modify.
  Context (jw : Q) (jc : Z) (m : maps) (n : nat) (X Zm : dir -> cell -> nat -> Q) (xt zt : dir -> cell -> Q) (w : list Q).
  Hypothesis I : modify_input m n X Zm xt zt w.

  Definition fX d := fst (filter_dir n (X d) (Zm d) (m_nx m) (m_ny m) (m_nz m) (m_mxg m) (xt d) (zt d)).
  Definition fZ d := snd (filter_dir n (X d) (Zm d) (m_nx m) (m_ny m) (m_nz m) (m_mxg m) (xt d) (zt d)).

  Lemma premodify_false : exists m', premodify false m = Ok m' /\ valid_maps m' n fX fZ w /\
    m_nx m' = m_nx m /\ m_ny m' = m_ny m /\ m_nz m' = m_nz m /\ m_mxg m' = m_mxg m.
  Proof.
    destruct I as [[] ? ? ? ? ? ? ? ?]. unfold premodify.
    rewrite mi_fxts, mi_bxts, mi_fzts, mi_bzts, mi_fxt, mi_bxt, mi_fzt, mi_bzt. cbn [need4 need3 bind fst snd].
    destruct (filter_dir n (X Fwd) _ _ _ _ _ _ _) as [fx' fz'] eqn:Ef.
    destruct (filter_dir n (X Bwd) _ _ _ _ _ _ _) as [bx' bz'] eqn:Eb.
    eexists. split; [reflexivity|]. cbn. split; [|auto].
    assert (F1 : fX Fwd = fx') by (unfold fX; now rewrite Ef).
    assert (F2 : fZ Fwd = fz') by (unfold fZ; now rewrite Ef).
    assert (F3 : fX Bwd = bx') by (unfold fX; now rewrite Eb).
    assert (F4 : fZ Bwd = bz') by (unfold fZ; now rewrite Eb).
    constructor; cbn; try assumption; apply P4; congruence.
  Qed.

  Lemma premodify_true : exists m', premodify true m = Ok m' /\ valid_maps m' n X Zm w /\
    m_nx m' = m_nx m /\ m_ny m' = m_ny m /\ m_nz m' = m_nz m /\ m_mxg m' = m_mxg m /\
    forall d, centre_map m' d = Some (A3 (mark_dir n (X d) (m_nx m) (m_ny m) (m_nz m) (m_mxg m) (xt d))).
  Proof.
    destruct I as [[] ? ? ? ? ? ? ? ?]. unfold premodify.
    rewrite mi_fxts, mi_bxts, mi_fxt, mi_bxt, mi_fzts, mi_bzts. cbn [need4 need3 bind fst snd].
    eexists. split; [reflexivity|]. cbn. split; [|repeat split; intros []; reflexivity].
    constructor; cbn; try assumption; apply P4; congruence.
  Qed.

  (** Successful in both modes. *)
  Lemma modify_ok pb : exists m' v, modify_maps jw jc pb m = Ok (m', v).
  Proof.
    assert (H : exists m' Y Yz, premodify pb m = Ok m' /\ valid_maps m' n Y Yz w).
    { destruct pb; [destruct premodify_true as (m' & E & V & _)|destruct premodify_false as (m' & E & V & _)]; eauto. }
    destruct H as (m' & Y & Yz & E & V). unfold modify_maps. rewrite E. cbn [bind].
    destruct (calc_ok jw jc m' n Y Yz w V) as (cs & fl & bl & _ & EC & _). rewrite EC. cbn [bind]. eauto.
  Qed.

  Lemma unsplit_one_leg m' Y Yz v d c : valid_maps m' n Y Yz w ->
    calculate_parallel_map_operators jw jc m' = Ok v -> evolving m' c ->
    ~ (some_hit m' n (Y d) c /\ some_inside m' n (Y d) c) ->
    let lo := wv_dir d v in
    (some_inside m' n (Y d) c -> (0 <= lo_interior_number lo c)%Z /\ (lo_boundary_number lo c < 0)%Z /\
      nth_error (lo_leg_weights lo) (Z.to_nat (lo_interior_number lo c)) = Some 1) /\
    (some_hit m' n (Y d) c -> (0 <= lo_boundary_number lo c)%Z /\ (lo_interior_number lo c < 0)%Z /\
      nth_error (lo_leg_weights lo) (Z.to_nat (lo_boundary_number lo c)) = Some 1).
  Proof.
    intros V C Hc Hn lo.
    destruct (legs jw jc m' n Y Yz w V v C d) as (L1 & L2 & _).
    destruct (weights_of_legs jw jc m' n Y Yz w V v C d) as (_ & W). specialize (W c Hc). destruct W as (W1 & W2 & _).
    fold lo in L1, L2, W1, W2.
    split; intros H; (split; [|split]).
    - apply L1; auto.
    - destruct (Z_lt_dec (lo_boundary_number lo c) 0); [assumption|]. exfalso. apply Hn. split; [|assumption].
      apply L2. lia.
    - apply W1; [assumption|]. tauto.
    - apply L2; auto.
    - destruct (Z_lt_dec (lo_interior_number lo c) 0); [assumption|]. exfalso. apply Hn. split; [assumption|].
      apply L1. lia.
    - apply W2; [assumption|]. tauto.
  Qed.

  (** Which kind of leg a cell gets after filtering. *)
  Definition cell_all_boundary d c : Prop :=
    some_hit m n (X d) c /\ (some_inside m n (X d) c -> leaves m (xt d c)).

  Lemma filtered_kind d c : on_grid m c ->
    (cell_all_boundary d c -> some_hit m n (fX d) c) /\ (~ cell_all_boundary d c -> some_inside m n (fX d) c).
  Proof.
    intros G. destruct I as [V _ _ _ _ _ _ _ _]. pose proof (n_pos m n X Zm w V) as Hn.
    assert (Dec : split_cell m n (X d) c \/ ~ split_cell m n (X d) c).
    { pose proof (split_test m n (X d) c) as ST. match type of ST with (?b = true <-> _) => destruct b eqn:E end.
      - left. now apply ST.
      - right. intros H. apply ST in H. discriminate. }
    assert (Lc : leaves m (xt d c) \/ ~ leaves m (xt d c)).
    { rewrite <- leavesb_iff. destruct (leavesb m (xt d c)); auto. }
    destruct (hit_or_inside m n X d c Hn) as [Hh|Hi0].
    - destruct Dec as [Sp|Ns].
      + split.
        * intros [_ H]. pose proof (H (proj2 Sp)) as L. destruct Hh as (s & Hs & _). exists s. split; [assumption|].
          destruct (filter_split m n (X d) (Zm d) (xt d) (zt d) c s G Sp) as (F1 & _). unfold fX. rewrite (proj1 (F1 L)). exact L.
        * intros N. destruct Lc as [L|L]; [exfalso; apply N; split; auto|].
          destruct Hh as (s & Hs & Ls). exists s. split; [assumption|].
          destruct (filter_split m n (X d) (Zm d) (xt d) (zt d) c s G Sp) as (_ & F2 & _). unfold fX. now rewrite (proj1 (F2 L Ls)).
      + assert (Ni : ~ some_inside m n (X d) c) by (intro; apply Ns; split; assumption).
        split.
        * intros _. destruct Hh as (s & Hs & Ls). exists s. split; [assumption|].
          unfold fX. now rewrite (proj1 (filter_untouched m n (X d) (Zm d) (xt d) (zt d) c s G Ns)).
        * intros N. exfalso. apply N. split; [assumption|]. intros; contradiction.
    - destruct Dec as [Sp|Ns].
      + split.
        * intros [[s [Hs _]] H]. pose proof (H (proj2 Sp)) as L. exists s. split; [assumption|].
          destruct (filter_split m n (X d) (Zm d) (xt d) (zt d) c s G Sp) as (F1 & _). unfold fX. rewrite (proj1 (F1 L)). exact L.
        * intros N. destruct Lc as [L|L]; [exfalso; apply N; split; [apply Sp|auto]|].
          destruct (proj1 Sp) as (s & Hs & Ls). exists s. split; [assumption|].
          destruct (filter_split m n (X d) (Zm d) (xt d) (zt d) c s G Sp) as (_ & F2 & _). unfold fX. now rewrite (proj1 (F2 L Ls)).
      + assert (Nh : ~ some_hit m n (X d) c) by (intro; apply Ns; split; assumption).
        split; [intros [H _]; contradiction|]. intros _. destruct Hi0 as (s & Hs & Ls). exists s. split; [assumption|].
        unfold fX. now rewrite (proj1 (filter_untouched m n (X d) (Zm d) (xt d) (zt d) c s G Ns)).
  Qed.

  Lemma some_hit_dims m' Y c : m_nx m' = m_nx m -> m_mxg m' = m_mxg m ->
    (some_hit m' n Y c <-> some_hit m n Y c) /\ (some_inside m' n Y c <-> some_inside m n Y c).
  Proof. intros E1 E2. unfold some_hit, some_inside, leaves. rewrite E1, E2. split; reflexivity. Qed.

  Lemma modify_false m'' v d c : modify_maps jw jc false m = Ok (m'', v) -> evolving m c ->
    let lo := wv_dir d v in
    (cell_all_boundary d c -> (0 <= lo_boundary_number lo c)%Z /\ (lo_interior_number lo c < 0)%Z /\
      nth_error (lo_leg_weights lo) (Z.to_nat (lo_boundary_number lo c)) = Some 1) /\
    (~ cell_all_boundary d c -> (0 <= lo_interior_number lo c)%Z /\ (lo_boundary_number lo c < 0)%Z /\
      nth_error (lo_leg_weights lo) (Z.to_nat (lo_interior_number lo c)) = Some 1).
  Proof.
    intros E Hc lo. destruct premodify_false as (m' & Em & V & E1 & E2 & E3 & E4).
    unfold modify_maps in E. rewrite Em in E. cbn [bind] in E.
    destruct (calculate_parallel_map_operators jw jc m') as [v'|] eqn:C; cbn [bind] in E; [|discriminate].
    injection E as _ <-.
    assert (Hc' : evolving m' c) by (destruct c as [[x y] z]; unfold evolving in *; now rewrite E1, E2, E3, E4).
    assert (G : on_grid m c).
    { destruct I as [[] _ _ _ _ _ _ _ _]. destruct c as [[x y] z]. cbn in *. lia. }
    destruct (some_hit_dims m' (fX d) c E1 E4) as [D1 D2].
    assert (U : ~ (some_hit m' n (fX d) c /\ some_inside m' n (fX d) c)).
    { rewrite D1, D2. apply filter_unsplit. exact G. }
    destruct (unsplit_one_leg m' fX fZ v' d c V C Hc' U) as [U1 U2]. fold lo in U1, U2.
    destruct (filtered_kind d c G) as [K1 K2].
    split; intros H; [apply U2, D1, K1, H|apply U1, D2, K2, H].
  Qed.

  Lemma modify_true m'' v d c : modify_maps jw jc true m = Ok (m'', v) -> evolving m c ->
    exists xt', centre_map m'' d = Some (A3 xt') /\
    ((0 <= wv_dir_cell_number d v c)%Z <-> some_hit m n (X d) c) /\
    ((0 <= wv_dir_cell_number d v c)%Z -> xt' c = -1 /\ leaves m (xt' c)) /\
    ((wv_dir_cell_number d v c < 0)%Z -> xt' c = xt d c).
  Proof.
    intros E Hc. destruct premodify_true as (m' & Em & V & E1 & E2 & E3 & E4 & E5).
    unfold modify_maps in E. rewrite Em in E. cbn [bind] in E.
    destruct (calculate_parallel_map_operators jw jc m') as [v'|] eqn:C; cbn [bind] in E; [|discriminate].
    injection E as <- <-.
    assert (Hc' : evolving m' c) by (destruct c as [[x y] z]; unfold evolving in *; now rewrite E1, E2, E3, E4).
    assert (G : on_grid m c).
    { destruct I as [[] _ _ _ _ _ _ _ _]. destruct c as [[x y] z]. cbn in *. lia. }
    exists (mark_dir n (X d) (m_nx m) (m_ny m) (m_nz m) (m_mxg m) (xt d)).
    split; [rewrite <- E5; destruct d; reflexivity|].
    destruct (boundary_numbers jw jc m' n X Zm w V v' C) as (B & _). specialize (B d c).
    destruct (some_hit_dims m' (X d) c E1 E4) as [D1 _]. rewrite D1 in B.
    destruct (mark_dir_spec m n (X d) (xt d) c G) as [M1 M2].
    split; [tauto|]. split.
    - intros H. apply B in H. rewrite (M1 (proj2 H)). split; [reflexivity|]. left.
      destruct I as [[] _ _ _ _ _ _ _ _]. eapply Qlt_le_trans with 0; [reflexivity|].
      change 0 with (inject_Z 0). now rewrite <- Zle_Qle.
    - intros H. apply M2. intros Hh. assert (0 <= wv_dir_cell_number d v' c)%Z by (apply B; auto). lia.
  Qed.
End Modify.

(** ** Periodicity in z *)

Lemma Qtrunc_plus_Z z k : 0 <= z -> 0 <= z + inject_Z k -> Qtrunc (z + inject_Z k) = (Qtrunc z + k)%Z.
Proof. intros H1 H2. rewrite !Qtrunc_nonneg by assumption. apply Qfloor_plus_Z. Qed.

Lemma zval_period nx ny nz cn y yo f i z z' k : (0 < nz)%Z -> 0 <= z -> 0 <= z' -> z' == z + inject_Z (k * nz) ->
  zval nx ny nz cn y yo f i z' == zval nx ny nz cn y yo f i z.
Proof.
  intros Hn H0 H1 E. unfold zval.
  assert (T : Qtrunc z' = (Qtrunc z + k * nz)%Z).
  { rewrite (Qtrunc_comp _ _ E). apply Qtrunc_plus_Z; [assumption|]. now rewrite <- E. }
  assert (Cc : forall j, col nx ny nz cn y yo i (Qtrunc z' + j) = col nx ny nz cn y yo i (Qtrunc z + j)).
  { intros j. unfold col. do 2 f_equal. rewrite T.
    replace (Qtrunc z + k * nz + j + nz)%Z with (Qtrunc z + j + nz + k * nz)%Z by ring. apply Z_mod_plus_full. }
  unfold Z.sub. rewrite !Cc. rewrite <- (Z.add_0_r (Qtrunc z')) at 1. rewrite Cc, Z.add_0_r.
  apply hermite_Proper; try reflexivity.
  rewrite T, E, inject_Z_plus. ring.
Qed.

Lemma sample_raw_period m cs d X Zm Zm' n c f s k :
  dims_ok m -> interior m c -> hits_radial_boundary (X c s) (m_nx m) (m_mxg m) = false ->
  0 <= Zm c s -> 0 <= Zm' c s -> Zm' c s == Zm c s + inject_Z (k * m_nz m) ->
  sample_raw m cs d (n, X) (n, Zm') c f s == sample_raw m cs d (n, X) (n, Zm) c f s.
Proof.
  intros D Ic H Z0 Z1 E. unfold sample_raw. cbn [fst snd].
  assert (Hnz : (0 < m_nz m)%Z) by (destruct c as [[x y] z]; cbn in Ic; lia).
  destruct (sample_value (m_nx m) (m_ny m) (m_nz m) (m_mxg m) (cs_cell_number cs) (snd (fst c)) (y_offset d)
                1 (proj1 D) (X c s) (Zm' c s) 1 f H) as (a0 & a1 & a2 & a3 & Ew & _).
  rewrite !(row_apply_sample _ _ _ _ _ _ _ _ _ _ _ _ _ _ _ _ Ew).
  rewrite !(zval_period _ _ _ _ _ _ _ _ _ _ k Hnz Z0 Z1 E). reflexivity.
Qed.

Section Period.
  Context (jw : Q) (jc : Z) (m : maps) (n : nat) (X Zm Zm' : dir -> cell -> nat -> Q) (w : list Q).
  Hypothesis V : valid_maps m n X Zm w.
  Let m' := with_z m n Zm'.

  Lemma valid_with_z : valid_maps m' n X Zm' w.
  Proof. destruct V. constructor; cbn; auto; apply P4; reflexivity. Qed.

  Context (v v' : weight_vars).
  Hypothesis C : calculate_parallel_map_operators jw jc m = Ok v.
  Hypothesis C' : calculate_parallel_map_operators jw jc m' = Ok v'.

  Lemma same_numbers :
    wv_cell_number v = wv_cell_number v' /\ wv_total_cells v = wv_total_cells v' /\
    forall d, wv_dir_cell_number d v = wv_dir_cell_number d v' /\
      lo_n_legs (wv_dir d v) = lo_n_legs (wv_dir d v') /\
      lo_interior_number (wv_dir d v) = lo_interior_number (wv_dir d v') /\
      lo_boundary_number (wv_dir d v) = lo_boundary_number (wv_dir d v') /\
      lo_leg_weights (wv_dir d v) = lo_leg_weights (wv_dir d v').
  Proof.
    unfold calculate_parallel_map_operators in C, C'.
    change (assign_cell_space_numbers m') with (assign_cell_space_numbers m) in C'.
    destruct (assign_cell_space_numbers m) as [cs|]; cbn [bind] in *; [|discriminate].
    change (build_leg_space_metadata cs m' Fwd) with (build_leg_space_metadata cs m Fwd) in C'.
    change (build_leg_space_metadata cs m' Bwd) with (build_leg_space_metadata cs m Bwd) in C'.
    destruct (build_leg_space_metadata cs m Fwd) as [fl|]; cbn [bind] in *; [|discriminate].
    destruct (build_leg_space_metadata cs m Bwd) as [bl|]; cbn [bind] in *; [|discriminate].
    destruct (build_leg_destination_operator jw jc cs fl m Fwd); cbn [bind] in *; [|discriminate].
    destruct (build_leg_destination_operator jw jc cs bl m Bwd); cbn [bind] in *; [|discriminate].
    destruct (build_leg_destination_operator jw jc cs fl m' Fwd); cbn [bind] in *; [|discriminate].
    destruct (build_leg_destination_operator jw jc cs bl m' Bwd); cbn [bind] in *; [|discriminate].
    destruct (build_leg_weight_vector fl); cbn [bind] in *; [|discriminate].
    destruct (build_leg_weight_vector bl); cbn [bind] in *; [|discriminate].
    injection C as <-. injection C' as <-. cbn. split; [reflexivity|]. split; [reflexivity|].
    intros []; repeat split; reflexivity.
  Qed.

  Lemma same_rows d c f (k : nat -> Z) : evolving m c -> some_inside m n (X d) c ->
    (forall s, (s < n)%nat -> 0 <= Zm d c s /\ 0 <= Zm' d c s /\ Zm' d c s == Zm d c s + inject_Z (k s * m_nz m)) ->
    row_apply (leg_row v' d (lo_interior_number (wv_dir d v') c)) f ==
    row_apply (leg_row v d (lo_interior_number (wv_dir d v) c)) f.
  Proof.
    intros Hc Hi Hz.
    destruct (decoded_interior jw jc m n X Zm w V v C d c Hc Hi) as (cs & A1 & _ & CS & E1).
    destruct (decoded_interior jw jc m' n X Zm' w valid_with_z v' C' d c Hc Hi) as (cs' & A2 & _ & _ & E2).
    change (assign_cell_space_numbers m') with (assign_cell_space_numbers m) in A2. rewrite A1 in A2. injection A2 as <-.
    unfold decoded_row in E1, E2. rewrite E1, E2.
    pose proof V as [_ _ _ _ _ _ _ _ _ L P _].
    pose proof (dims m n X Zm w V) as D.
    rewrite (row_value m cs d (n, X d) (n, Zm d) w c) by (auto; now apply hasI_iff || apply Hc).
    change (interior_row m' cs (n, X d) (n, Zm' d) w d c) with (interior_row m cs (n, X d) (n, Zm' d) w d c).
    rewrite (row_value m cs d (n, X d) (n, Zm' d) w c) by (auto; now apply hasI_iff || apply Hc).
    apply wavg_ext. cbn [fst snd]. intros s Hs Hh. apply in_seq in Hs. destruct (Hz s ltac:(lia)) as (Z0 & Z1 & E).
    apply (sample_raw_period m cs d (X d) (Zm d) (Zm' d) n c f s (k s)); auto.
  Qed.
End Period.
