(** The complete result of [calculate_parallel_map_operators] on valid maps. *)
From Coq Require Import List ZArith QArith Qround Qabs Lia Lqa Bool Permutation.
From Verif Require Import Prelude PreludeFacts WeightsModel WeightsSpec WeightsInput WeightsNumbering WeightsOperators WeightsCSR WeightsRows.
Import ListNotations.
Open Scope Q_scope.

Lemma provides_resolve p q n f : provides p q n f ->
  (let* a := get_map_array p q in as_subsample_array a) = Ok (n, f).
Proof. intros [n' f' E|g E|n' f' E E'|g E E']; unfold get_map_array; rewrite E; try rewrite E'; reflexivity. Qed.

Lemma provides_weights_resolve m w n : provides_weights (m_subw m) w -> length w = n ->
  Qabs (qsum w - 1) < 1 # 100000000 -> get_subcell_weights m n = Ok w.
Proof.
  intros P L S. unfold get_subcell_weights.
  assert (T : Qle_bool tol_sum (Qabs (qsum w - 1)) = false) by now apply Qle_bool_false_iff.
  destruct P as [w' E|E]; rewrite E; cbn [bind].
  - rewrite L, Nat.eqb_refl. cbn [negb]. now rewrite T.
  - cbn in L. subst n. cbn [Nat.eqb bind length negb]. now rewrite T.
Qed.

Section Top.
  Context (jw : Q) (jc : Z) (m : maps) (n : nat) (X Zm : dir -> cell -> nat -> Q) (w : list Q).
  Hypothesis V : valid_maps m n X Zm w.

  Lemma dims : dims_ok m.
  Proof. destruct V. repeat split; assumption. Qed.

  Lemma vdir d : valid_dir m d (n, X d) (n, Zm d) w.
  Proof.
    pose proof V as [v1 v2 v3 v4 v5 v6 v7 v8 v9 v10 v11 v12].
    assert (G : get_subcell_weights m n = Ok w) by (apply provides_weights_resolve; assumption).
    destruct d; constructor; try reflexivity; try assumption;
      unfold xts_of, zts_of; cbn [xt_key xt_fallback zt_key zt_fallback]; now apply provides_resolve.
  Qed.

  (** Everything known about one direction of the result. *)
  Record dir_ok (d : dir) (cs : cell_space) (lo : leg_ops) : Prop := {
    do_ls : exists ls b wt, lo = mk_leg_ops ls wt (to_csr jw jc b) /\
      ls_spec m (n, X d) w ls /\ rows_spec m cs ls (n, X d) (n, Zm d) w d b /\
      length wt = Z.to_nat (ls_n_legs ls) /\
      forall c, interior m c ->
      let i := hasI (n, X d) (m_nx m) (m_mxg m) c in
      let h := hasB (n, X d) (m_nx m) (m_mxg m) c in
      (i = true -> nth_error wt (Z.to_nat (ls_interior_leg_number ls c)) =
         Some (leg_share (i && h) (qsum (select (map negb (mask_of (n, X d) (m_nx m) (m_mxg m) c)) w)))) /\
      (h = true -> nth_error wt (Z.to_nat (ls_boundary_leg_number ls c)) =
         Some (leg_share (i && h) (qsum (select (mask_of (n, X d) (m_nx m) (m_mxg m) c) w))))
  }.

  Lemma calc_ok : exists cs fl bl,
    assign_cell_space_numbers m = Ok cs /\
    calculate_parallel_map_operators jw jc m =
      Ok {| wv_total_cells := cs_N_cells cs; wv_cell_number := cs_cell_number cs;
            wv_forward_cell_number := cs_forward_boundary_number cs;
            wv_backward_cell_number := cs_backward_boundary_number cs;
            wv_forward := fl; wv_backward := bl |} /\
    cs_spec m (n, X Fwd) (n, X Bwd) cs /\ dir_ok Fwd cs fl /\ dir_ok Bwd cs bl.
  Proof.
    pose proof dims as D.
    destruct (assign_spec m (n, X Fwd) (n, X Bwd) D (vd_xts _ _ _ _ _ (vdir Fwd)) (vd_xts _ _ _ _ _ (vdir Bwd)))
      as (cs & Ecs & CS).
    assert (G : forall d, exists ls b wt,
      build_leg_space_metadata cs m d = Ok ls /\ build_leg_destination_operator jw jc cs ls m d = Ok (to_csr jw jc b) /\
      build_leg_weight_vector ls = Ok wt /\ dir_ok d cs (mk_leg_ops ls wt (to_csr jw jc b))).
    { intros d. pose proof (vdir d) as Vd. pose proof Vd as [Vx Vz Vn Vw Vp].
      destruct (subcell_weights_ok _ _ _ Vw) as [Hl _].
      destruct (leg_space_spec m cs d (n, X d) w D (css_nx _ _ _ _ CS) (css_ny _ _ _ _ CS) (css_nz _ _ _ _ CS) Vx Vw Hl)
        as (ls & Els & LS).
      destruct (build_rows_spec m cs ls d (n, X d) (n, Zm d) w (n, X Fwd) (n, X Bwd) D CS Vd) as (b & Eb & HB);
        [destruct d; reflexivity|exact LS|].
      destruct (weight_vector_spec m (n, X d) w ls D LS) as (wt & Ew & Hlen & Hw).
      exists ls, b, wt. unfold build_leg_destination_operator. rewrite Eb. cbn [bind].
      split; [exact Els|]. split; [reflexivity|]. split; [exact Ew|]. constructor.
      exists ls, b, wt. split; [reflexivity|]. split; [exact LS|]. split; [exact HB|]. split; [exact Hlen|exact Hw]. }
    destruct (G Fwd) as (fls & fb & fw & E1 & E2 & E3 & E4).
    destruct (G Bwd) as (bls & bb & bw & E5 & E6 & E7 & E8).
    exists cs, (mk_leg_ops fls fw (to_csr jw jc fb)), (mk_leg_ops bls bw (to_csr jw jc bb)).
    unfold calculate_parallel_map_operators. rewrite Ecs. cbn [bind]. rewrite E1. cbn [bind]. rewrite E5. cbn [bind].
    rewrite E2. cbn [bind]. rewrite E6. cbn [bind]. rewrite E3. cbn [bind]. rewrite E7. cbn [bind].
    repeat split; auto; try apply CS; try apply E4; try apply E8.
  Qed.

  Context (v : weight_vars).
  Hypothesis C : calculate_parallel_map_operators jw jc m = Ok v.

  Lemma calc_inv : exists cs, assign_cell_space_numbers m = Ok cs /\
    wv_total_cells v = cs_N_cells cs /\ wv_cell_number v = cs_cell_number cs /\
    (forall d, wv_dir_cell_number d v = cs_boundary_number d cs) /\
    cs_spec m (n, X Fwd) (n, X Bwd) cs /\ (forall d, dir_ok d cs (wv_dir d v)).
  Proof.
    destruct calc_ok as (cs & fl & bl & Ecs & E & CS & DF & DB). rewrite C in E. injection E as ->.
    exists cs. split; [exact Ecs|]. split; [reflexivity|]. split; [reflexivity|].
    split; [intros []; reflexivity|]. split; [exact CS|]. intros []; assumption.
  Qed.

  (** ** Translation to the specification vocabulary *)

  Lemma evolving_interior c : evolving m c <-> interior m c.
  Proof. destruct c as [[x y] z]. reflexivity. Qed.

  Lemma leavesb_hits x : hits_radial_boundary x (m_nx m) (m_mxg m) = leavesb m x.
  Proof. unfold hits_radial_boundary, leavesb, Qlt_bool. now rewrite negb_andb. Qed.

  Lemma leavesb_iff x : leavesb m x = true <-> leaves m x.
  Proof.
    rewrite <- leavesb_hits. unfold hits_radial_boundary, leaves. rewrite orb_true_iff, !Qlt_bool_iff. reflexivity.
  Qed.

  Lemma hasB_iff d c : hasB (n, X d) (m_nx m) (m_mxg m) c = true <-> some_hit m n (X d) c.
  Proof.
    unfold hasB, mask_of, row4, some_hit. cbn [fst snd]. rewrite map_map, existsb_exists. split.
    - intros (b & Hb & ->). apply in_map_iff in Hb. destruct Hb as (s & E & Hs). apply in_seq in Hs.
      exists s. split; [lia|]. apply leavesb_iff. now rewrite <- leavesb_hits.
    - intros (s & Hs & L). exists true. split; [|reflexivity]. apply in_map_iff. exists s. split.
      + rewrite leavesb_hits. now apply leavesb_iff.
      + apply in_seq. lia.
  Qed.

  Lemma hasI_iff d c : hasI (n, X d) (m_nx m) (m_mxg m) c = true <-> some_inside m n (X d) c.
  Proof.
    unfold hasI, mask_of, row4, some_inside. cbn [fst snd]. rewrite map_map, existsb_exists. split.
    - intros (b & Hb & Hn). apply in_map_iff in Hb. destruct Hb as (s & E & Hs). apply in_seq in Hs.
      exists s. split; [lia|]. rewrite <- leavesb_iff, <- leavesb_hits, E. destruct b; [discriminate|]. discriminate.
    - intros (s & Hs & L). exists false. split; [|reflexivity]. apply in_map_iff. exists s. split.
      + rewrite leavesb_hits. destruct (leavesb m (X d c s)) eqn:E; [|reflexivity]. exfalso. apply L. now apply leavesb_iff.
      + apply in_seq. lia.
  Qed.

  Lemma hit_area_eq d c : qsum (select (mask_of (n, X d) (m_nx m) (m_mxg m) c) w) == hit_area m n (X d) w c.
  Proof.
    destruct V as [_ _ _ _ _ _ _ _ _ L _ _].
    pose proof (select_mask_sum (n, X d) (m_nx m) (m_mxg m) c w (fun b => b) L) as E. rewrite map_id in E. rewrite E.
    unfold hit_area. cbn [fst snd]. apply qsum_map_ext. intros s _. rewrite leavesb_hits. reflexivity.
  Qed.

  Lemma inside_area_eq d c : qsum (select (map negb (mask_of (n, X d) (m_nx m) (m_mxg m) c)) w) == inside_area m n (X d) w c.
  Proof.
    destruct V as [_ _ _ _ _ _ _ _ _ L _ _].
    rewrite (select_mask_sum (n, X d) (m_nx m) (m_mxg m) c w negb L).
    unfold inside_area. cbn [fst snd]. apply qsum_map_ext. intros s _. rewrite leavesb_hits.
    destruct (leavesb m (X d c s)); reflexivity.
  Qed.

  Lemma areas_sum d c : hit_area m n (X d) w c + inside_area m n (X d) w c == qsum w.
  Proof.
    unfold hit_area, inside_area. rewrite <- qsum_map_plus.
    destruct V as [_ _ _ _ _ _ _ _ _ L _ _].
    transitivity (qsum (map (fun i => nth i w 0) (seq 0 (length w)))); [|now rewrite list_as_map]. rewrite L. apply qsum_map_ext. intros s _.
    destruct (leavesb m (X d c s)); ring.
  Qed.

  (** ** Cell numbers *)

  Lemma cell_numbers :
    (forall c, on_grid m c -> (0 <= wv_cell_number v c < m_nx m * m_ny m * m_nz m)%Z) /\
    (forall c c', on_grid m c -> on_grid m c' -> wv_cell_number v c = wv_cell_number v c' -> c = c') /\
    (forall k, (0 <= k < m_nx m * m_ny m * m_nz m)%Z -> exists c, on_grid m c /\ wv_cell_number v c = k) /\
    (forall c, on_grid m c -> (evolving m c <-> (wv_cell_number v c < (m_nx m - 2 * m_mxg m) * m_ny m * m_nz m)%Z)).
  Proof.
    destruct calc_inv as (cs & _ & _ & -> & _ & CS & _).
    pose proof dims as D. pose proof D as (D1 & D2 & D3 & D4).
    set (l := all_cells (m_nx m) (m_ny m) (m_nz m) (m_mxg m)) in *.
    assert (Hin : forall c, on_grid m c -> In c l) by (intros [[x y] z] H; apply in_all_cells; assumption).
    assert (Hon : forall c, In c l -> on_grid m c) by (intros [[x y] z] H; apply in_all_cells in H; assumption).
    assert (HL : Z.of_nat (length l) = (m_nx m * m_ny m * m_nz m)%Z) by (apply all_cells_length; assumption).
    assert (N : NoDup l) by (apply NoDup_all_cells; assumption).
    pose proof (css_cell _ _ _ _ CS) as Hnum. fold l in Hnum.
    split; [|split; [|split]].
    - intros c Hc. apply (cell_number_pos m _ _ cs c D CS). exact Hc.
    - intros c c' Hc Hc' E. apply Hin, In_nth_error in Hc, Hc'. destruct Hc as [i Hi], Hc' as [j Hj].
      rewrite (Hnum _ _ Hi), (Hnum _ _ Hj) in E. apply Nat2Z.inj in E. subst j. congruence.
    - intros k Hk. destruct (nth_error l (Z.to_nat k)) as [c|] eqn:Ec.
      + exists c. split; [apply Hon; eapply nth_error_In; exact Ec|]. rewrite (Hnum _ _ Ec). lia.
      + apply nth_error_None in Ec. lia.
    - intros c Hc. pose proof (Hin _ Hc) as Hl. apply In_nth_error in Hl. destruct Hl as [i Hi].
      rewrite (Hnum _ _ Hi).
      assert (LI : Z.of_nat (length (icells m)) = ((m_nx m - 2 * m_mxg m) * m_ny m * m_nz m)%Z).
      { unfold icells. rewrite cells_length by lia. f_equal. f_equal. lia. }
      rewrite evolving_interior, <- in_icells. unfold l, all_cells in Hi. fold (icells m) in Hi.
      destruct (Nat.lt_ge_cases i (length (icells m))) as [L|L].
      + rewrite nth_error_app1 in Hi by assumption. split; intros _; [lia|]. eapply nth_error_In; exact Hi.
      + split; [|lia]. intros Hic. exfalso.
        apply In_nth_error in Hic. destruct Hic as [j Hj].
        assert (Hj' : nth_error l j = Some c).
        { unfold l, all_cells. fold (icells m). rewrite nth_error_app1; [assumption|]. exact (nth_error_lt _ _ _ Hj). }
        assert (j = i).
        { apply (proj1 (NoDup_nth_error l) N); [exact (nth_error_lt _ _ _ Hj')|].
          rewrite Hj'. unfold l, all_cells. fold (icells m). symmetry. exact Hi. }
        pose proof (nth_error_lt _ _ _ Hj). subst j. cbn in *. lia.
  Qed.

  (** The evolving numbers in closed form. *)
  Lemma cell_number_closed x y z : evolving m (x, y, z) ->
    wv_cell_number v (x, y, z) = (((x - m_mxg m) * m_ny m + y) * m_nz m + z)%Z.
  Proof.
    destruct calc_inv as (cs & _ & _ & -> & _ & CS & _). intros Hc.
    pose proof Hc as Hi. apply evolving_interior in Hi. cbn in Hi.
    destruct dims as (D1 & D2 & D3 & D4).
    pose proof (nth_error_cells (m_mxg m) (m_nx m - m_mxg m) (m_ny m) (m_nz m) x y z) as E.
    assert (E' := E ltac:(lia) ltac:(lia) ltac:(lia)). clear E.
    rewrite (css_cell _ _ _ _ CS (Z.to_nat (((x - m_mxg m) * m_ny m + y) * m_nz m + z)) (x, y, z)).
    - rewrite Z2Nat.id; [reflexivity|]. assert (0 <= (x - m_mxg m) * m_ny m)%Z by (apply Z.mul_nonneg_nonneg; lia).
      assert (0 <= ((x - m_mxg m) * m_ny m + y) * m_nz m)%Z by (apply Z.mul_nonneg_nonneg; lia). lia.
    - unfold all_cells. rewrite nth_error_app1; [exact E'|]. exact (nth_error_lt _ _ _ E').
  Qed.

  Lemma n_evolving : forall cs, assign_cell_space_numbers m = Ok cs ->
    cs_N_evolving cs = ((m_nx m - 2 * m_mxg m) * m_ny m * m_nz m)%Z.
  Proof.
    destruct calc_inv as (cs & E & _ & _ & _ & CS & _). intros cs' E'. rewrite E in E'. injection E' as <-.
    apply (css_evolving _ _ _ _ CS).
  Qed.

  (** ** Boundary numbers *)

  Definition bnd_ev (d : dir) : bool := match d with Bwd => true | Fwd => false end.

  Lemma boundary_numbers :
    (forall d c, (0 <= wv_dir_cell_number d v c)%Z <-> evolving m c /\ some_hit m n (X d) c) /\
    (forall d c, (0 <= wv_dir_cell_number d v c)%Z ->
        (m_nx m * m_ny m * m_nz m <= wv_dir_cell_number d v c < wv_total_cells v)%Z) /\
    (forall d c d' c', (0 <= wv_dir_cell_number d v c)%Z -> wv_dir_cell_number d v c = wv_dir_cell_number d' v c' ->
        d = d' /\ c = c') /\
    (forall k, (m_nx m * m_ny m * m_nz m <= k < wv_total_cells v)%Z ->
        exists d c, wv_dir_cell_number d v c = k).
  Proof.
    destruct calc_inv as (cs & _ & EN & _ & EB & CS & _).
    pose proof dims as (D1 & D2 & D3 & D4).
    assert (N0 : (0 <= m_nx m * m_ny m * m_nz m)%Z) by (repeat apply Z.mul_nonneg_nonneg; lia).
    pose proof (css_bnd _ _ _ _ CS) as NB. pose proof (css_N _ _ _ _ CS) as NN.
    set (E := flat_map _ (icells m)) in *.
    assert (P : forall d c, wv_dir_cell_number d v c =
       pick (bnd_ev d) (cs_backward_boundary_number cs) (cs_forward_boundary_number cs) c).
    { intros d c. rewrite EB. destruct d; reflexivity. }
    assert (IN : forall d c, In (bnd_ev d, c) E <-> evolving m c /\ some_hit m n (X d) c).
    { intros d c. unfold E. rewrite in_events, in_icells, evolving_interior, <- hasB_iff. destruct d; reflexivity. }
    assert (NN0 : forall d c, (0 <= wv_dir_cell_number d v c)%Z <-> In (bnd_ev d, c) E).
    { intros d c. rewrite P. apply (numbered_nonneg E _ _ _ N0 NB). }
    rewrite EN, NN.
    split; [|split; [|split]].
    - intros d c. rewrite NN0. apply IN.
    - intros d c H. apply NN0 in H. rewrite P. apply (numbered_in _ _ _ _ NB _ _ H).
    - intros d c d' c' H Eq. pose proof H as H'. rewrite Eq in H'. apply NN0 in H, H'.
      rewrite !P in Eq. destruct (numbered_inj _ _ _ _ NB _ _ _ _ H H' Eq) as [Ed ->]. split; [|reflexivity].
      destruct d, d'; try reflexivity; discriminate.
    - intros k Hk. destruct (numbered_surj _ _ _ _ NB k Hk) as (b & c & Hin & Ek).
      exists (if b then Bwd else Fwd), c. rewrite P. destruct b; exact Ek.
  Qed.

  (** ** Legs *)

  Lemma legs d (lo := wv_dir d v) :
    (forall c, (0 <= lo_interior_number lo c)%Z <-> evolving m c /\ some_inside m n (X d) c) /\
    (forall c, (0 <= lo_boundary_number lo c)%Z <-> evolving m c /\ some_hit m n (X d) c) /\
    (forall c, (lo_interior_number lo c < lo_n_legs lo)%Z /\ (lo_boundary_number lo c < lo_n_legs lo)%Z) /\
    (forall c c', (0 <= lo_interior_number lo c)%Z -> lo_interior_number lo c = lo_interior_number lo c' -> c = c') /\
    (forall c c', (0 <= lo_boundary_number lo c)%Z -> lo_boundary_number lo c = lo_boundary_number lo c' -> c = c') /\
    (forall c c', (0 <= lo_interior_number lo c)%Z -> lo_interior_number lo c <> lo_boundary_number lo c') /\
    (forall k, (0 <= k < lo_n_legs lo)%Z ->
        exists c, lo_interior_number lo c = k \/ lo_boundary_number lo c = k).
  Proof.
    destruct calc_inv as (cs & _ & _ & _ & _ & CS & DO). destruct (DO d) as [(ls & b & wt & E & LS & _)].
    unfold lo. rewrite E. cbn [mk_leg_ops lo_interior_number lo_boundary_number lo_n_legs].
    pose proof (lss_num _ _ _ _ LS) as NB. pose proof (lss_n _ _ _ _ LS) as NN.
    set (Ev := flat_map _ (icells m)) in *.
    assert (I1 : forall c, In (true, c) Ev <-> evolving m c /\ some_inside m n (X d) c).
    { intros c. unfold Ev. rewrite in_events, in_icells, evolving_interior, <- hasI_iff. reflexivity. }
    assert (I2 : forall c, In (false, c) Ev <-> evolving m c /\ some_hit m n (X d) c).
    { intros c. unfold Ev. rewrite in_events, in_icells, evolving_interior, <- hasB_iff. reflexivity. }
    assert (N1 : forall c, (0 <= ls_interior_leg_number ls c)%Z <-> In (true, c) Ev).
    { intros c. change (ls_interior_leg_number ls c) with (pick true (ls_interior_leg_number ls) (ls_boundary_leg_number ls) c).
      apply (numbered_nonneg _ _ _ _ (Z.le_refl 0) NB). }
    assert (N2 : forall c, (0 <= ls_boundary_leg_number ls c)%Z <-> In (false, c) Ev).
    { intros c. change (ls_boundary_leg_number ls c) with (pick false (ls_interior_leg_number ls) (ls_boundary_leg_number ls) c).
      apply (numbered_nonneg _ _ _ _ (Z.le_refl 0) NB). }
    pose proof (numbered_in _ _ _ _ NB) as NI. pose proof (numbered_inj _ _ _ _ NB) as NJ.
    split; [|split; [|split; [|split; [|split; [|split]]]]].
    - intros c. now rewrite N1.
    - intros c. now rewrite N2.
    - intros c. split.
      + destruct (Z_lt_dec (ls_interior_leg_number ls c) 0); [lia|].
        assert (H : In (true, c) Ev) by (apply N1; lia). apply NI in H. cbn [pick] in H. lia.
      + destruct (Z_lt_dec (ls_boundary_leg_number ls c) 0); [lia|].
        assert (H : In (false, c) Ev) by (apply N2; lia). apply NI in H. cbn [pick] in H. lia.
    - intros c c' H Eq. pose proof H as H'. rewrite Eq in H'. apply N1 in H, H'. apply (NJ true c true c' H H' Eq).
    - intros c c' H Eq. pose proof H as H'. rewrite Eq in H'. apply N2 in H, H'. apply (NJ false c false c' H H' Eq).
    - intros c c' H Eq. pose proof H as H'. rewrite Eq in H'. apply N1 in H. apply N2 in H'.
      destruct (NJ true c false c' H H' Eq). discriminate.
    - intros k Hk. destruct (numbered_surj _ _ _ _ NB k ltac:(lia)) as (b' & c & Hin & Ek).
      exists c. destruct b'; cbn [pick] in Ek; auto.
  Qed.

  Lemma hit_or_inside d c : (0 < n)%nat -> some_hit m n (X d) c \/ some_inside m n (X d) c.
  Proof.
    intros Hn. destruct (leavesb m (X d c 0)) eqn:E.
    - left. exists 0%nat. split; [assumption|]. now apply leavesb_iff.
    - right. exists 0%nat. split; [assumption|]. rewrite <- leavesb_iff. congruence.
  Qed.

  Lemma n_pos : (0 < n)%nat.
  Proof.
    destruct V as [_ _ _ _ _ _ _ _ _ L _ S]. destruct n; [|lia]. destruct w; [|discriminate].
    cbn in S. discriminate.
  Qed.

  Lemma weights_of_legs d (lo := wv_dir d v) :
    Z.of_nat (length (lo_leg_weights lo)) = lo_n_legs lo /\
    forall c, evolving m c ->
    (some_inside m n (X d) c -> ~ some_hit m n (X d) c ->
       nth_error (lo_leg_weights lo) (Z.to_nat (lo_interior_number lo c)) = Some 1) /\
    (some_hit m n (X d) c -> ~ some_inside m n (X d) c ->
       nth_error (lo_leg_weights lo) (Z.to_nat (lo_boundary_number lo c)) = Some 1) /\
    (some_hit m n (X d) c -> some_inside m n (X d) c ->
       exists wi wb,
       nth_error (lo_leg_weights lo) (Z.to_nat (lo_interior_number lo c)) = Some wi /\
       nth_error (lo_leg_weights lo) (Z.to_nat (lo_boundary_number lo c)) = Some wb /\
       wi == inside_area m n (X d) w c /\ wb == hit_area m n (X d) w c /\ wi + wb == qsum w /\ 0 < wi /\ 0 < wb).
  Proof.
    destruct calc_inv as (cs & _ & _ & _ & _ & CS & DO). destruct (DO d) as [(ls & b & wt & E & LS & _ & HL & HW)].
    unfold lo. rewrite E. cbn [mk_leg_ops lo_interior_number lo_boundary_number lo_leg_weights lo_n_legs].
    split; [rewrite HL; pose proof (lss_n _ _ _ _ LS); lia|].
    intros c Hc. apply evolving_interior in Hc. destruct (HW c Hc) as [HI HB]. cbv zeta in HI, HB.
    rewrite <- hasI_iff, <- hasB_iff.
    destruct V as [_ _ _ _ _ _ _ _ _ L P _].
    destruct (hasI (n, X d) (m_nx m) (m_mxg m) c) eqn:EI; destruct (hasB (n, X d) (m_nx m) (m_mxg m) c) eqn:EB;
      cbn [andb leg_share] in *; (split; [|split]); intros; try congruence; auto.
    eexists. eexists. split; [apply HI; reflexivity|]. split; [apply HB; reflexivity|].
    rewrite inside_area_eq, hit_area_eq. split; [reflexivity|]. split; [reflexivity|].
    split; [rewrite Qplus_comm; apply areas_sum|].
    rewrite <- inside_area_eq, <- hit_area_eq. split; apply select_pos; try assumption.
    - rewrite map_length, mask_of_length. cbn. congruence.
    - rewrite existsb_map_negb. exact EI.
    - rewrite mask_of_length. cbn. congruence.
  Qed.

  (** ** Rows *)

  Definition decoded_row (d : dir) (r : Z) : list (Z * Q) := leg_row v d r.

  Lemma decoded_boundary d c : evolving m c -> some_hit m n (X d) c ->
    decoded_row d (lo_boundary_number (wv_dir d v) c) = [(wv_dir_cell_number d v c, 1)].
  Proof.
    intros Hc Hh. destruct calc_inv as (cs & _ & _ & _ & EB & CS & DO).
    destruct (DO d) as [(ls & b & wt & E & LS & (HLb & HR) & _)].
    unfold decoded_row, leg_row. rewrite E, EB. cbn [mk_leg_ops lo_boundary_number lo_csr].
    apply csr_decode. apply HR; [now apply evolving_interior|now apply hasB_iff].
  Qed.

  Lemma decoded_interior d c : evolving m c -> some_inside m n (X d) c ->
    exists cs, assign_cell_space_numbers m = Ok cs /\ wv_cell_number v = cs_cell_number cs /\
      cs_spec m (n, X Fwd) (n, X Bwd) cs /\
    decoded_row d (lo_interior_number (wv_dir d v) c) = interior_row m cs (n, X d) (n, Zm d) w d c.
  Proof.
    intros Hc Hh. destruct calc_inv as (cs & Ecs & _ & EC & EB & CS & DO). exists cs. repeat (split; [assumption|]).
    destruct (DO d) as [(ls & b & wt & E & LS & (HLb & HR) & _)].
    unfold decoded_row, leg_row. rewrite E. cbn [mk_leg_ops lo_interior_number lo_csr].
    apply csr_decode. apply HR; [now apply evolving_interior|now apply hasI_iff].
  Qed.

  Lemma csr_shape d (lo := wv_dir d v) :
    length (csr_weights (lo_csr lo)) = length (csr_columns (lo_csr lo)) /\
    Z.of_nat (length (csr_rows (lo_csr lo))) = (lo_n_legs lo + 1)%Z /\
    nth 0 (csr_rows (lo_csr lo)) (-1)%Z = 0%Z /\
    last (csr_rows (lo_csr lo)) (-1)%Z = Z.of_nat (length (csr_columns (lo_csr lo))) /\
    (forall i, (S i < length (csr_rows (lo_csr lo)))%nat ->
       (nth i (csr_rows (lo_csr lo)) 0 <= nth (S i) (csr_rows (lo_csr lo)) 0)%Z) /\
    (forall k, In k (csr_columns (lo_csr lo)) -> (0 <= k < wv_total_cells v)%Z).
  Proof.
    destruct calc_inv as (cs & _ & EN & EC & EB & CS & DO).
    pose proof dims as D. pose proof D as (D1 & D2 & D3 & D4).
    destruct (DO d) as [(ls & b & wt & E & LS & (HLb & HR) & _)].
    unfold lo. rewrite E. cbn [mk_leg_ops lo_csr lo_n_legs].
    rewrite to_csr_concat. cbn [csr_weights csr_columns csr_rows].
    pose proof (lss_n _ _ _ _ LS) as NL.
    split; [now rewrite !map_length|]. split; [rewrite ptr_length, HLb; lia|]. split; [reflexivity|].
    split. { replace (last (ptr b) (-1)%Z) with (last (ptr b) 0%Z).
             - rewrite last_ptr. unfold total. now rewrite map_length.
             - unfold ptr. destruct (cumsum_from 0 (lens b)) eqn:Ecu; [reflexivity|].
               clear. revert z. cbn [last]. induction l; intros z0; [reflexivity|]. apply IHl. }
    split. { intros i Hi. rewrite ptr_length in Hi. apply ptr_monotone. lia. }
    intros k Hk. apply in_map_iff in Hk. destruct Hk as ([k' q] & <- & Hk). apply in_concat in Hk.
    destruct Hk as (r & Hr & Hk). cbn [fst].
    (* the row of which leg? *)
    apply In_nth_error in Hr. destruct Hr as [i Hi].
    pose proof (nth_error_lt _ _ _ Hi) as Li.
    destruct (numbered_surj _ _ _ _ (lss_num _ _ _ _ LS) (Z.of_nat i) ltac:(lia)) as (kk & c & Hin & Ek).
    apply in_events in Hin. destruct Hin as [Hic Hp]. apply in_icells in Hic.
    assert (NC : (m_nx m * m_ny m * m_nz m <= wv_total_cells v)%Z).
    { rewrite EN, (css_N _ _ _ _ CS). lia. }
    destruct (HR c Hic) as [HRI HRB].
    destruct kk; cbn [pick] in Ek.
    - specialize (HRI Hp). rewrite Ek, Nat2Z.id, Hi in HRI. injection HRI as ->.
      assert (Hk' : In k' (map fst (interior_row m cs (n, X d) (n, Zm d) w d c))) by (apply in_map_iff; exists (k', q); auto).
      destruct V as [_ _ _ _ _ _ _ _ _ L P _].
      apply (row_cols m cs d (n, X d) (n, Zm d) w c D eq_refl L Hic Hp) in Hk'.
      destruct Hk' as (s & i' & j & _ & _ & _ & _ & Hx & ->).
      assert (G : (0 <= cs_cell_number cs
         ((Qtrunc (snd (n, X d) c s) + i')%Z, ((snd (fst c) + y_offset d) mod m_ny m)%Z, ((Qtrunc (snd (n, Zm d) c s) + j) mod m_nz m)%Z)
          < m_nx m * m_ny m * m_nz m)%Z).
      { apply (cell_number_pos m _ _ cs _ D CS). destruct c as [[x y] z]. cbn in Hic. cbn [fst snd] in *.
        repeat split; try lia; apply Z.mod_pos_bound; lia. }
      lia.
    - specialize (HRB Hp). rewrite Ek, Nat2Z.id, Hi in HRB. injection HRB as ->.
      destruct Hk as [[= <- <-]|[]]. rewrite <- EB.
      assert (H0 : (0 <= wv_dir_cell_number d v c)%Z).
      { apply boundary_numbers. split; [now apply evolving_interior|]. now apply hasB_iff. }
      split; [assumption|]. apply (proj1 (proj2 boundary_numbers) d c H0).
  Qed.

  Lemma decoded_sum d c : evolving m c -> some_inside m n (X d) c ->
    Qabs (qsum (map snd (decoded_row d (lo_interior_number (wv_dir d v) c))) - 1) <= 4 # 10000000000.
  Proof.
    intros Hc Hi. destruct (decoded_interior d c Hc Hi) as (cs & _ & EC & CS & ->).
    destruct V as [_ _ _ _ _ _ _ _ _ L P _].
    setoid_replace (qsum (map snd (interior_row m cs (n, X d) (n, Zm d) w d c)))
      with (row_apply (interior_row m cs (n, X d) (n, Zm d) w d c) (fun _ => 1)).
    - apply (row_sum_bound m cs d (n, X d) (n, Zm d) w c dims eq_refl L P). now apply hasI_iff.
    - unfold row_apply. apply qsum_map_ext. intros e _. ring.
  Qed.

  Lemma y_next d c : evolving m c -> ((snd (fst c) + y_offset d) mod m_ny m)%Z = next_y m d c.
  Proof. destruct c as [[x y] z]. intros _. destruct d; reflexivity. Qed.

  Lemma decoded_cols d c k : evolving m c -> some_inside m n (X d) c ->
    In k (map fst (decoded_row d (lo_interior_number (wv_dir d v) c))) ->
    exists s i j x' z', (s < n)%nat /\ ~ leaves m (X d c s) /\ (-1 <= i <= 2)%Z /\ (-1 <= j <= 2)%Z /\
      x' = (Qfloor (X d c s) + i)%Z /\
      (0 <= Zm d c s -> z' = ((Qfloor (Zm d c s) + j) mod m_nz m)%Z) /\
      evolving m (x', next_y m d c, z') /\ k = wv_cell_number v (x', next_y m d c, z').
  Proof.
    intros Hc Hi Hk. destruct (decoded_interior d c Hc Hi) as (cs & _ & EC & CS & E). rewrite E in Hk.
    destruct V as [V1 _ _ _ _ _ _ _ _ L P _].
    apply (row_cols m cs d (n, X d) (n, Zm d) w c dims eq_refl L) in Hk; [|now apply evolving_interior|now apply hasI_iff].
    destruct Hk as (s & i & j & Hs & Hh & Hi' & Hj & Hx & ->). cbn [fst snd] in *.
    destruct (no_hit_base _ _ _ Hh V1) as [T _]. rewrite T in *.
    exists s, i, j, (Qfloor (X d c s) + i)%Z, ((Qtrunc (Zm d c s) + j) mod m_nz m)%Z.
    rewrite EC. rewrite <- (y_next d c Hc).
    split; [assumption|]. split; [rewrite <- leavesb_iff, <- leavesb_hits; congruence|].
    do 2 (split; [assumption|]). split; [reflexivity|]. split; [intros H; now rewrite Qtrunc_nonneg|].
    split; [|reflexivity].
    destruct c as [[x y] z]. cbn in Hc. cbn [fst snd] in *. repeat split; try lia; apply Z.mod_pos_bound; lia.
  Qed.

  Lemma decoded_nodup d c : evolving m c -> some_inside m n (X d) c ->
    NoDup (map fst (decoded_row d (lo_interior_number (wv_dir d v) c))).
  Proof.
    intros Hc Hi. destruct (decoded_interior d c Hc Hi) as (cs & _ & EC & CS & ->). apply row_NoDup.
  Qed.

  Lemma inside_average_eq d c g : evolving m c ->
    wavg m (n, X d) w c g == inside_average m n (X d) w c g.
  Proof.
    intros Hc. rewrite wavg_quot. unfold inside_average, inside_area. cbn [fst snd].
    apply Qmult_comp; [|apply Qinv_comp]; apply qsum_map_ext; intros s _; rewrite leavesb_hits; reflexivity.
  Qed.

  Lemma F_of_extend d c cs g f : evolving m c -> wv_cell_number v = cs_cell_number cs ->
    (forall c', evolving m c' -> f (wv_cell_number v c') == g c') ->
    forall i k, F_of m cs d c f i k == extend m d c g i k.
  Proof.
    intros Hc EC Hf i k. unfold F_of, extend. rewrite (y_next d c Hc), <- EC. apply Hf.
    destruct c as [[x y] z]. cbn in Hc. repeat split; try (apply Z.mod_pos_bound; lia);
    try (unfold next_y; destruct d; apply Z.mod_pos_bound; lia).
    all: unfold clampZ; repeat match goal with |- context [Z.ltb ?a ?b] => destruct (Z.ltb_spec a b) end; lia.
  Qed.

  Lemma interp2_ext F G x z : (forall i k, F i k == G i k) -> interp2 F x z == interp2 G x z.
  Proof. intros H. unfold interp2, interp1. rewrite !H. reflexivity. Qed.

  Lemma decoded_interp d c (f : Z -> Q) (g : cell -> Q) M : evolving m c -> some_inside m n (X d) c ->
    (forall s, (s < n)%nat -> ~ leaves m (X d c s) -> 0 <= Zm d c s) ->
    (forall c', evolving m c' -> f (wv_cell_number v c') == g c') ->
    (forall c', evolving m c' -> Qabs (g c') <= M) ->
    Qabs (row_apply (decoded_row d (lo_interior_number (wv_dir d v) c)) f
          - inside_average m n (X d) w c (fun s => interp2 (extend m d c g) (X d c s) (Zm d c s)))
      <= (5 # 10000000000) * M.
  Proof.
    intros Hc Hi Hz Hf HM. destruct (decoded_interior d c Hc Hi) as (cs & _ & EC & CS & ->).
    rewrite <- inside_average_eq by assumption.
    pose proof V as [_ _ _ _ _ _ _ _ _ L P _].
    assert (Ic : interior m c) by now apply evolving_interior.
    assert (HI : hasI (n, X d) (m_nx m) (m_mxg m) c = true) by now apply hasI_iff.
    pose proof (row_interp_bound m cs d (n, X d) (n, Zm d) w c dims eq_refl L P Ic HI f M) as B.
    setoid_replace ((5 # 10000000000) * M) with (5 * tol_drop * M) by (unfold tol_drop; ring).
    cbn [fst snd] in B.
    assert (EW : wavg m (n, X d) w c (fun s => interp2 (F_of m cs d c f) (X d c s) (Zm d c s)) ==
                 wavg m (n, X d) w c (fun s => interp2 (extend m d c g) (X d c s) (Zm d c s))).
    { apply wavg_ext. intros s _ _. apply interp2_ext. now apply F_of_extend. }
    rewrite <- EW. apply B.
    - intros s Hs Hh. apply Hz; [assumption|]. rewrite <- leavesb_iff, <- leavesb_hits. congruence.
    - intros x k Hx Hk. rewrite (y_next d c Hc), <- EC.
      assert (Hev : evolving m (x, next_y m d c, k)).
      { destruct c as [[x0 y0] z0]. cbn in Ic. repeat split; try lia; unfold next_y; destruct d; apply Z.mod_pos_bound; lia. }
      rewrite (Hf _ Hev). now apply HM.
  Qed.

  Lemma decoded_exact d c (f : Z -> Q) (g : cell -> Q) : evolving m c -> some_inside m n (X d) c ->
    (forall s, (s < n)%nat -> ~ leaves m (X d c s) ->
        0 <= Zm d c s /\ clear_frac (X d c s - inject_Z (Qfloor (X d c s)))) ->
    (forall c', evolving m c' -> f (wv_cell_number v c') == g c') ->
    row_apply (decoded_row d (lo_interior_number (wv_dir d v) c)) f ==
      inside_average m n (X d) w c (fun s => interp2 (extend m d c g) (X d c s) (Zm d c s)).
  Proof.
    intros Hc Hi Hz Hf. destruct (decoded_interior d c Hc Hi) as (cs & _ & EC & CS & ->).
    rewrite <- inside_average_eq by assumption.
    pose proof V as [_ _ _ _ _ _ _ _ _ L P _].
    assert (Ic : interior m c) by now apply evolving_interior.
    assert (HI : hasI (n, X d) (m_nx m) (m_mxg m) c = true) by now apply hasI_iff.
    rewrite (row_interp_exact m cs d (n, X d) (n, Zm d) w c dims eq_refl L Ic HI f).
    - cbn [fst snd]. apply wavg_ext. intros s _ _. apply interp2_ext. now apply F_of_extend.
    - cbn [fst snd]. intros s Hs Hh. apply Hz; [assumption|]. rewrite <- leavesb_iff, <- leavesb_hits. congruence.
  Qed.

  Lemma decoded_linear d c (f : Z -> Q) (a : Z -> Q) b g : evolving m c -> some_inside m n (X d) c ->
    (forall s, (s < n)%nat -> ~ leaves m (X d c s) ->
        clear_frac (X d c s - inject_Z (Qfloor (X d c s))) /\
        (m_mxg m + 1 <= Qfloor (X d c s) <= m_nx m - m_mxg m - 3)%Z /\
        (1 <= Qfloor (Zm d c s) <= m_nz m - 3)%Z) ->
    (forall x y z, evolving m (x, y, z) -> f (wv_cell_number v (x, y, z)) == a y + b * inject_Z x + g * inject_Z z) ->
    row_apply (decoded_row d (lo_interior_number (wv_dir d v) c)) f ==
      inside_average m n (X d) w c (fun s => a (next_y m d c) + b * X d c s + g * Zm d c s).
  Proof.
    intros Hc Hi Hz Hf.
    rewrite (decoded_exact d c f (fun c' => a (snd (fst c')) + b * inject_Z (fst (fst c')) + g * inject_Z (snd c')) Hc Hi).
    - rewrite <- !inside_average_eq by assumption. apply wavg_ext. cbn [fst snd]. intros s Hs Hh. apply in_seq in Hs.
      destruct (Hz s ltac:(lia)) as (_ & Hx & Hk); [rewrite <- leavesb_iff, <- leavesb_hits; congruence|].
      apply interp2_linear. intros i k Hi' Hk'. unfold extend. cbn [fst snd].
      rewrite Z.mod_small by lia.
      replace (clampZ i (m_mxg m) (m_nx m - m_mxg m - 1)) with i; [reflexivity|].
      unfold clampZ. repeat match goal with |- context [Z.ltb ?p ?q] => destruct (Z.ltb_spec p q) end; lia.
    - intros s Hs Hl. destruct (Hz s Hs Hl) as (Hcl & _ & Hk). split; [|assumption].
      pose proof (Qfloor_le (Zm d c s)). eapply Qle_trans; [|eassumption].
      change 0 with (inject_Z 0). rewrite <- Zle_Qle. lia.
    - intros [[x y] z] Hev. now apply Hf.
  Qed.
End Top.
