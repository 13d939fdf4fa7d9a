(** Proofs about the leg destination operators of weights.py. *)
From Coq Require Import List ZArith QArith Qround Qabs Lia Lqa Bool Permutation.
From Verif Require Import Prelude PreludeFacts WeightsModel WeightsSpec WeightsNumbering.
Import ListNotations.
Open Scope Q_scope.

(** ** Rows *)

Definition add_all (r : list entry) (ks : list entry) : list entry :=
  fold_left (fun r e => add_entry r (fst e) (snd e)) ks r.

Lemma add_all_app r k1 k2 : add_all r (k1 ++ k2) = add_all (add_all r k1) k2.
Proof. apply fold_left_app. Qed.

Lemma row_apply_cons e r f : row_apply (e :: r) f = snd e * f (fst e) + row_apply r f.
Proof. reflexivity. Qed.

Lemma row_apply_app r1 r2 f : row_apply (r1 ++ r2) f == row_apply r1 f + row_apply r2 f.
Proof. unfold row_apply. rewrite map_app. apply qsum_app. Qed.

Lemma row_apply_add_entry r c w f : row_apply (add_entry r c w) f == row_apply r f + w * f c.
Proof.
  induction r as [|[c' w'] r IH].
  - cbn. ring.
  - cbn [add_entry]. destruct (Z.eqb_spec c' c) as [->|N].
    + rewrite !row_apply_cons. cbn [fst snd]. ring.
    + rewrite !row_apply_cons, IH. cbn [fst snd]. ring.
Qed.

Lemma row_apply_add_all ks r f : row_apply (add_all r ks) f == row_apply r f + row_apply ks f.
Proof.
  revert r. induction ks as [|[c w] ks IH]; intros r.
  - change (add_all r []) with r. change (row_apply [] f) with 0. ring.
  - cbn [add_all fold_left]. change (fold_left _ ks ?x) with (add_all x ks).
    rewrite IH. cbn [fst snd]. rewrite row_apply_add_entry, row_apply_cons. cbn [fst snd]. ring.
Qed.

Lemma cols_add_entry r c w k : In k (map fst (add_entry r c w)) <-> k = c \/ In k (map fst r).
Proof.
  induction r as [|[c' w'] r IH]; cbn [add_entry].
  - cbn. intuition.
  - destruct (Z.eqb_spec c' c) as [->|N]; cbn; [intuition|]. cbn in IH. rewrite IH. intuition.
Qed.

Lemma NoDup_add_entry r c w : NoDup (map fst r) -> NoDup (map fst (add_entry r c w)).
Proof.
  induction r as [|[c' w'] r IH]; cbn [add_entry]; intros H.
  - cbn. repeat constructor. auto.
  - cbn in H. inversion H; subst. destruct (Z.eqb_spec c' c) as [->|N]; cbn.
    + constructor; assumption.
    + constructor; [|now apply IH]. rewrite cols_add_entry. intros [->|?]; [congruence|contradiction].
Qed.

Lemma NoDup_add_all ks r : NoDup (map fst r) -> NoDup (map fst (add_all r ks)).
Proof.
  revert r. induction ks as [|k ks IH]; intros r H; [assumption|]. cbn [add_all fold_left].
  apply (IH (add_entry r (fst k) (snd k))). now apply NoDup_add_entry.
Qed.

Lemma cols_add_all ks r k : In k (map fst (add_all r ks)) <-> In k (map fst ks) \/ In k (map fst r).
Proof.
  revert r. induction ks as [|[c w] ks IH]; intros r.
  - cbn. intuition.
  - cbn [add_all fold_left]. change (fold_left _ ks ?x) with (add_all x ks).
    rewrite IH, cols_add_entry. cbn. intuition.
Qed.

(** ** Builder *)

Lemma set_nth_set_nth {A} n (u v : A) l : set_nth n u (set_nth n v l) = set_nth n u l.
Proof. revert n. induction l; destruct n; cbn; auto. now rewrite IHl. Qed.

Lemma set_nth_id {A} n (v : A) l : nth_error l n = Some v -> set_nth n v l = l.
Proof. revert n. induction l; destruct n; cbn; intros; try congruence. now rewrite IHl. Qed.

(** [g] applied to [a] adds the entries [ks] to row [row]. *)
Definition acts {A} (row : Z) (g : builder -> A -> res builder) (ks : A -> list entry) (a : A) : Prop :=
  forall b r, nth_error b (Z.to_nat row) = Some r ->
    g b a = Ok (set_nth (Z.to_nat row) (add_all r (ks a)) b).

Lemma acts_fold {A} row (g : builder -> A -> res builder) ks l :
  (forall a, In a l -> acts row g ks a) ->
  forall b r, nth_error b (Z.to_nat row) = Some r ->
    foldM g l b = Ok (set_nth (Z.to_nat row) (add_all r (flat_map ks l)) b).
Proof.
  induction l as [|a l IH]; intros H b r Hb.
  - cbn. now rewrite set_nth_id.
  - cbn [foldM]. rewrite (H a (or_introl eq_refl) b r Hb). cbn [bind].
    rewrite (IH (fun a' Ha' => H a' (or_intror Ha')) _ (add_all r (ks a))).
    + cbn [flat_map]. now rewrite set_nth_set_nth, add_all_app.
    + apply nth_error_set_nth_eq. apply nth_error_Some. congruence.
Qed.

Lemma add_to_entry_ok b row c w r : (0 <= row)%Z -> nth_error b (Z.to_nat row) = Some r ->
  add_to_entry b row c w = Ok (set_nth (Z.to_nat row) (add_entry r c w) b).
Proof. intros H E. unfold add_to_entry. destruct (Z.ltb_spec row 0); [lia|]. now rewrite E. Qed.

(** ** Catmull-Rom weights *)

Lemma catmull_rom_4 u : exists w0 w1 w2 w3, catmull_rom_weights u = [w0; w1; w2; w3] /\
  w0 == (1#2) * (- (u*u*u) + 2*(u*u) - u) /\
  w1 == (1#2) * (3*(u*u*u) - 5*(u*u) + 2) /\
  w2 == (1#2) * (- (3)*(u*u*u) + 4*(u*u) + u) /\
  w3 == (1#2) * (u*u*u - u*u).
Proof. do 4 eexists. split; [reflexivity|]. repeat split; reflexivity. Qed.

Lemma catmull_rom_sum u : qsum (catmull_rom_weights u) == 1.
Proof. cbn. ring. Qed.

Lemma catmull_rom_hermite u p0 p1 p2 p3 :
  forall w0 w1 w2 w3, catmull_rom_weights u = [w0; w1; w2; w3] ->
  w0 * p0 + w1 * p1 + w2 * p2 + w3 * p3 == hermite p0 p1 p2 p3 u.
Proof. intros * [= <- <- <- <-]. unfold hermite. field. Qed.

Lemma tol_test_false s : s == 1 -> Qle_bool tol_sum (Qabs (s - 1)) = false.
Proof.
  intros H. apply Qle_bool_false_iff.
  assert (E : s - 1 == 0) by lra. rewrite E. reflexivity.
Qed.

(** ** Shifting weights out of the radial boundary *)

(** Moving weight to the neighbour inside = evaluating at the clamped index. *)
Lemma shift_spec w0 w1 w2 w3 xb nx mxg :
  w0 + w1 + w2 + w3 == 1 ->
  (mxg <= xb <= nx - mxg - 1)%Z ->
  exists a0 a1 a2 a3,
    shift_weights_out_of_x_boundaries [w0; w1; w2; w3] xb x_offsets nx mxg = Ok [a0; a1; a2; a3] /\
    (forall F : Z -> Q,
       a0 * F (xb - 1)%Z + a1 * F xb + a2 * F (xb + 1)%Z + a3 * F (xb + 2)%Z ==
       w0 * F (clampZ (xb - 1) mxg (nx - mxg - 1)) + w1 * F (clampZ xb mxg (nx - mxg - 1))
       + w2 * F (clampZ (xb + 1) mxg (nx - mxg - 1)) + w3 * F (clampZ (xb + 2) mxg (nx - mxg - 1))) /\
    ((xb - 1 < mxg)%Z -> a0 = 0) /\
    ((nx - mxg - 1 < xb + 1)%Z -> a2 = 0) /\
    ((nx - mxg - 1 < xb + 2)%Z -> a3 = 0).
Proof.
  intros Hs Hb. unfold shift_weights_out_of_x_boundaries, x_offsets, enumerate.
  cbn [length seq combine foldM rev app].
  destruct (Z.ltb_spec (xb + -1) mxg) as [L0|L0];
  destruct (Z.ltb_spec (xb + 0) mxg) as [L1|L1]; [exfalso; lia| |exfalso; lia|];
  (destruct (Z.ltb_spec (xb + 1) mxg) as [L2|L2]; [exfalso; lia|]);
  (destruct (Z.ltb_spec (xb + 2) mxg) as [L3|L3]; [exfalso; lia|]);
  (destruct (Z.leb_spec (nx - mxg) (xb + -1)) as [U0|U0]; [exfalso; lia|]);
  (destruct (Z.leb_spec (nx - mxg) (xb + 0)) as [U1|U1]; [exfalso; lia|]);
  destruct (Z.leb_spec (nx - mxg) (xb + 1)) as [U2|U2];
  destruct (Z.leb_spec (nx - mxg) (xb + 2)) as [U3|U3]; try (exfalso; lia);
  cbn -[Qabs Qle_bool Qplus Qmult Qminus tol_sum];
  repeat (progress (unfold Pos.to_nat); cbn -[Qabs Qle_bool Qplus Qmult Qminus tol_sum]).
  all: match goal with |- context [Qle_bool tol_sum (Qabs (?s - 1))] =>
     rewrite (tol_test_false s) by (rewrite <- Hs; ring) end.
  all: do 4 eexists; (split; [reflexivity|]);
  (split; [|repeat split; intros; try reflexivity; exfalso; lia]);
  intros F; unfold clampZ;
  repeat match goal with
  | |- context [Z.ltb ?a ?b] => destruct (Z.ltb_spec a b); try (exfalso; lia)
  end.
  all: try (replace (nx - mxg - 1)%Z with xb by lia).
  all: try (replace (nx - mxg - 1)%Z with (xb + 1)%Z by lia).
  all: try (replace mxg with xb by lia).
  all: ring.
Qed.

(** ** One sub-sample *)

Lemma no_hit_range x nx mxg : hits_radial_boundary x nx mxg = false <->
  inject_Z mxg <= x <= inject_Z (nx - mxg - 1).
Proof.
  unfold hits_radial_boundary. rewrite orb_false_iff, !Qlt_bool_false_iff. tauto.
Qed.

Lemma no_hit_base x nx mxg : hits_radial_boundary x nx mxg = false -> (0 <= mxg)%Z ->
  Qtrunc x = Qfloor x /\ (mxg <= Qfloor x <= nx - mxg - 1)%Z.
Proof.
  intros H Hm. apply no_hit_range in H. destruct H as [H1 H2].
  assert (0 <= x).
  { eapply Qle_trans; [|exact H1]. change 0 with (inject_Z 0). now rewrite <- Zle_Qle. }
  split; [now apply Qtrunc_nonneg|]. split.
  - rewrite <- (Qfloor_Z mxg). now apply Qfloor_resp_le.
  - rewrite <- (Qfloor_Z (nx - mxg - 1)). now apply Qfloor_resp_le.
Qed.

Section Sample.
  Context (nx ny nz mxg : Z) (cn : arr Z) (row y yo : Z) (W : Q).
  Hypothesis Hrow : (0 <= row)%Z.
  Hypothesis Hmxg : (0 <= mxg)%Z.
  Hypothesis Hnx : (0 < nx)%Z.
  Hypothesis Hny : (0 < ny)%Z.
  Hypothesis Hnz : (0 < nz)%Z.
  Hypothesis Hcn : forall x y z, (0 <= x < nx)%Z -> (0 <= y < ny)%Z -> (0 <= z < nz)%Z -> (0 <= cn (x, y, z))%Z.

  Definition col (x z : Z) : Z :=
    cn (clip x 0 (nx - 1), ((y + yo + ny) mod ny)%Z, ((z + nz) mod nz)%Z).

  Definition wx_of (x : Q) : list Q :=
    match shift_weights_out_of_x_boundaries (catmull_rom_weights (x - inject_Z (Qtrunc x)))
            (Qtrunc x) x_offsets nx mxg with Ok a => a | Err _ => [] end.
  Definition wz_of (z : Q) : list Q := catmull_rom_weights (z - inject_Z (Qtrunc z)).

  Definition x_ks (scale : Q) (x z : Q) (e : Z * Q) : list entry :=
    if Qlt_bool (Qabs (snd e)) tol_drop then [] else
    map (fun f => (col (Qtrunc x + fst e) (Qtrunc z + fst f), scale * snd e * snd f)) (combine x_offsets (wz_of z)).

  Definition sample_ks (s : Q * Q * Q * bool) : list entry :=
    let '(x, z, w, hit) := s in
    if hit : bool then [] else flat_map (x_ks (w / W) x z) (combine x_offsets (wx_of x)).

  Lemma col_nonneg x z : (0 <= col x z)%Z.
  Proof.
    unfold col, clip. apply Hcn.
    - lia.
    - apply Z.mod_pos_bound. lia.
    - apply Z.mod_pos_bound. lia.
  Qed.

  Lemma stencil_entry_acts scale x z xo xw zw :
    acts row (stencil_entry nx ny nz cn row y yo (Qtrunc x) (Qtrunc z) scale xw xo)
         (fun f => [(col (Qtrunc x + xo) (Qtrunc z + fst f), scale * xw * snd f)]) zw.
  Proof.
    intros b r Hb. unfold stencil_entry. destruct zw as [zo zw]. cbn [fst snd].
    fold (col (Qtrunc x + xo) (Qtrunc z + zo)).
    destruct (Z.ltb_spec (col (Qtrunc x + xo) (Qtrunc z + zo)) 0) as [L|L].
    - pose proof (col_nonneg (Qtrunc x + xo) (Qtrunc z + zo)). lia.
    - now apply add_to_entry_ok.
  Qed.

  Lemma flat_map_single {A B} (f : A -> B) l : flat_map (fun a => [f a]) l = map f l.
  Proof. induction l; cbn; congruence. Qed.

  Lemma wx_ok x : hits_radial_boundary x nx mxg = false ->
    shift_weights_out_of_x_boundaries (catmull_rom_weights (x - inject_Z (Qtrunc x)))
            (Qtrunc x) x_offsets nx mxg = Ok (wx_of x).
  Proof.
    intros H. destruct (no_hit_base _ _ _ H Hmxg) as [T B].
    destruct (catmull_rom_4 (x - inject_Z (Qtrunc x))) as (w0 & w1 & w2 & w3 & E & _).
    pose proof (catmull_rom_sum (x - inject_Z (Qtrunc x))) as S.
    unfold wx_of. rewrite E in *. cbn [qsum] in S.
    destruct (shift_spec w0 w1 w2 w3 (Qtrunc x) nx mxg) as (a0 & a1 & a2 & a3 & Ea & _).
    - rewrite <- S. ring.
    - rewrite T. exact B.
    - now rewrite Ea.
  Qed.

  Lemma sample_acts s :
    snd s = hits_radial_boundary (fst (fst (fst s))) nx mxg ->
    acts row (stencil_sample nx ny nz mxg cn row y yo W) sample_ks s.
  Proof.
    destruct s as [[[x z] w] hit]. cbn [fst snd]. intros Hh b r Hb.
    unfold stencil_sample, sample_ks. destruct hit; symmetry in Hh.
    - cbn. now rewrite set_nth_id.
    - rewrite wx_ok by assumption. cbn [bind].
      rewrite tol_test_false by apply catmull_rom_sum.
      erewrite acts_fold with (ks := x_ks (w / W) x z); [reflexivity| |exact Hb].
      intros [xo xw] _ b' r' Hb'. unfold x_ks. cbn [fst snd].
      destruct (Qlt_bool (Qabs xw) tol_drop); [cbn; now rewrite set_nth_id|].
      fold (wz_of z).
      rewrite <- flat_map_single.
      erewrite acts_fold with (ks := fun f => [(col (Qtrunc x + xo) (Qtrunc z + fst f), w / W * xw * snd f)]);
        [reflexivity| |exact Hb'].
      intros zw _. apply stencil_entry_acts.
  Qed.

  (** *** Value of a sample's contribution *)

  Lemma row_apply_flat_map {A} (g : A -> list entry) l f :
    row_apply (flat_map g l) f == qsum (map (fun a => row_apply (g a) f) l).
  Proof.
    induction l as [|a l IH]; cbn [flat_map map qsum]; [reflexivity|].
    rewrite row_apply_app, IH. reflexivity.
  Qed.

  (** z-interpolation with base [zb] and fraction [u]. *)
  Definition zval (f : Z -> Q) (x : Z) (z : Q) : Q :=
    let zb := Qtrunc z in
    hermite (f (col x (zb - 1))) (f (col x zb)) (f (col x (zb + 1))) (f (col x (zb + 2))) (z - inject_Z zb).

  Lemma row_apply_x_ks scale x z e f :
    row_apply (x_ks scale x z e) f ==
    (if Qlt_bool (Qabs (snd e)) tol_drop then 0 else scale * snd e * zval f (Qtrunc x + fst e) z).
  Proof.
    unfold x_ks. destruct (Qlt_bool (Qabs (snd e)) tol_drop); [reflexivity|].
    unfold zval, wz_of.
    destruct (catmull_rom_4 (z - inject_Z (Qtrunc z))) as (w0 & w1 & w2 & w3 & E & _).
    rewrite <- (catmull_rom_hermite _ _ _ _ _ _ _ _ _ E). rewrite E.
    cbn [x_offsets combine map fst snd]. unfold row_apply. cbn [map qsum fst snd].
    replace (Qtrunc z + -1)%Z with (Qtrunc z - 1)%Z by lia.
    replace (Qtrunc z + 0)%Z with (Qtrunc z) by lia. ring.
  Qed.

  (** Kept part of the x-weights applied to a function of x. *)
  Definition keep (w : Q) : Q := if Qlt_bool (Qabs w) tol_drop then 0 else w.

  Lemma row_apply_sample x z w f a0 a1 a2 a3 :
    wx_of x = [a0; a1; a2; a3] ->
    row_apply (sample_ks (x, z, w, false)) f ==
    (w / W) * (keep a0 * zval f (Qtrunc x - 1) z + keep a1 * zval f (Qtrunc x) z
             + keep a2 * zval f (Qtrunc x + 1) z + keep a3 * zval f (Qtrunc x + 2) z).
  Proof.
    intros E. unfold sample_ks. rewrite row_apply_flat_map, E.
    cbn [x_offsets combine map qsum].
    rewrite !row_apply_x_ks. cbn [fst snd]. unfold keep.
    replace (Qtrunc x + -1)%Z with (Qtrunc x - 1)%Z by lia.
    replace (Qtrunc x + 0)%Z with (Qtrunc x) by lia.
    destruct (Qlt_bool (Qabs a0) tol_drop), (Qlt_bool (Qabs a1) tol_drop),
      (Qlt_bool (Qabs a2) tol_drop), (Qlt_bool (Qabs a3) tol_drop); ring.
  Qed.

  Lemma keep_err w : Qabs (keep w - w) <= tol_drop.
  Proof.
    unfold keep. destruct (Qlt_bool (Qabs w) tol_drop) eqn:E.
    - apply Qlt_bool_iff in E. setoid_replace (0 - w) with (- w) by ring. rewrite Qabs_opp. lra.
    - setoid_replace (w - w) with 0 by ring. discriminate.
  Qed.

  (** The ideal value: interpolation with the x index clamped to the evolving range. *)
  Definition ideal (f : Z -> Q) (x z : Q) : Q :=
    let xb := Qtrunc x in
    let g i := zval f (clampZ i mxg (nx - mxg - 1)) z in
    hermite (g (xb - 1)%Z) (g xb) (g (xb + 1)%Z) (g (xb + 2)%Z) (x - inject_Z xb).

  Lemma sample_value x z w f : hits_radial_boundary x nx mxg = false ->
    exists a0 a1 a2 a3,
      wx_of x = [a0; a1; a2; a3] /\
      ((Qtrunc x - 1 < mxg)%Z -> a0 = 0) /\
      ((nx - mxg - 1 < Qtrunc x + 1)%Z -> a2 = 0) /\
      ((nx - mxg - 1 < Qtrunc x + 2)%Z -> a3 = 0) /\
      a0 + a1 + a2 + a3 == 1 /\
      row_apply (sample_ks (x, z, w, false)) f ==
        (w / W) * (ideal f x z
           + ((keep a0 - a0) * zval f (Qtrunc x - 1) z + (keep a1 - a1) * zval f (Qtrunc x) z
             + (keep a2 - a2) * zval f (Qtrunc x + 1) z + (keep a3 - a3) * zval f (Qtrunc x + 2) z)).
  Proof.
    intros H. destruct (no_hit_base _ _ _ H Hmxg) as [T B].
    destruct (catmull_rom_4 (x - inject_Z (Qtrunc x))) as (w0 & w1 & w2 & w3 & E & _).
    pose proof (catmull_rom_sum (x - inject_Z (Qtrunc x))) as S.
    pose proof (wx_ok x H) as Hok. rewrite E in *. cbn [qsum] in S.
    destruct (shift_spec w0 w1 w2 w3 (Qtrunc x) nx mxg) as (a0 & a1 & a2 & a3 & Ea & HF & A0 & A2 & A3).
    { rewrite <- S. ring. } { rewrite T. exact B. }
    assert (EW : wx_of x = [a0; a1; a2; a3]) by congruence.
    exists a0, a1, a2, a3. repeat split; auto.
    - pose proof (HF (fun _ => 1)) as H1. cbn beta in H1. rewrite !Qmult_1_r in H1. rewrite H1, <- S. ring.
    - rewrite (row_apply_sample x z w f a0 a1 a2 a3 EW).
      apply Qmult_comp; [reflexivity|].
      unfold ideal. rewrite <- (catmull_rom_hermite _ _ _ _ _ _ _ _ _ E).
      rewrite <- (HF (fun i => zval f i z)). ring.
  Qed.
End Sample.

(** ** Columns of a sample *)

Section SampleCols.
  Context (nx ny nz mxg : Z) (cn : arr Z) (y yo : Z) (W : Q).
  Hypothesis Hmxg : (0 <= mxg)%Z.
  Hypothesis Hny : (0 < ny)%Z.
  Hypothesis Hnz : (0 < nz)%Z.

  Lemma mod_plus_n a n : (0 < n)%Z -> ((a + n) mod n = a mod n)%Z.
  Proof. intros H. rewrite <- (Z.mul_1_l n) at 1. apply Z_mod_plus_full. Qed.

  Lemma sample_cols x z w k :
    hits_radial_boundary x nx mxg = false ->
    In k (map fst (sample_ks nx ny nz mxg cn y yo W (x, z, w, false))) ->
    exists i j, (-1 <= i <= 2)%Z /\ (-1 <= j <= 2)%Z /\
      (mxg <= Qtrunc x + i <= nx - mxg - 1)%Z /\
      k = cn ((Qtrunc x + i)%Z, ((y + yo) mod ny)%Z, ((Qtrunc z + j) mod nz)%Z).
  Proof.
    intros H Hk. destruct (no_hit_base _ _ _ H Hmxg) as [T B].
    destruct (sample_value nx ny nz mxg cn y yo W Hmxg x z w (fun _ => 0) H)
      as (a0 & a1 & a2 & a3 & E & A0 & A2 & A3 & _).
    unfold sample_ks in Hk. rewrite E in Hk.
    apply in_map_iff in Hk. destruct Hk as [[k' v] [Hk Hin]]. cbn in Hk. subst k'.
    apply in_flat_map in Hin. destruct Hin as [[i xw] [Hi Hx]].
    assert (Hi2 : (-1 <= i <= 2)%Z).
    { cbn in Hi. destruct Hi as [Hi|[Hi|[Hi|[Hi|[]]]]]; injection Hi; intros; lia. }
    unfold x_ks in Hx. cbn [fst snd] in Hx.
    destruct (Qlt_bool (Qabs xw) tol_drop) eqn:Ed; [contradiction|].
    apply in_map_iff in Hx. destruct Hx as [[j zw] [[= Hk _] Hj]].
    assert (Hj2 : (-1 <= j <= 2)%Z).
    { unfold wz_of in Hj. destruct (catmull_rom_4 (z - inject_Z (Qtrunc z))) as (w0 & w1 & w2 & w3 & Ez & _).
      rewrite Ez in Hj. cbn in Hj. destruct Hj as [Hj|[Hj|[Hj|[Hj|[]]]]]; injection Hj; intros; lia. }
    exists i, j. split; [assumption|]. split; [assumption|].
    assert (Hr : (mxg <= Qtrunc x + i <= nx - mxg - 1)%Z).
    { assert (Z0 : Qlt_bool (Qabs 0) tol_drop = true) by reflexivity.
      rewrite T in *.
      cbn in Hi. destruct Hi as [Hi|[Hi|[Hi|[Hi|[]]]]]; injection Hi as <- <-.
      - destruct (Z_lt_dec (Qfloor x - 1) mxg) as [L|L]; [rewrite (A0 L), Z0 in Ed; discriminate|]. lia.
      - lia.
      - destruct (Z_lt_dec (nx - mxg - 1) (Qfloor x + 1)) as [L|L]; [rewrite (A2 L), Z0 in Ed; discriminate|]. lia.
      - destruct (Z_lt_dec (nx - mxg - 1) (Qfloor x + 2)) as [L|L]; [rewrite (A3 L), Z0 in Ed; discriminate|]. lia. }
    split; [assumption|].
    rewrite <- Hk. unfold col. cbn [fst].
    replace (clip (Qtrunc x + i) 0 (nx - 1)) with (Qtrunc x + i)%Z by (unfold clip; lia).
    now rewrite !mod_plus_n by assumption.
  Qed.
End SampleCols.

(** ** accumulate_interior_stencil *)

Definition samples (xs zs w : list Q) (hits : list bool) := combine (combine (combine xs zs) w) hits.

Lemma accumulate_ok b row xs zs w nx ny nz mxg cn y yo r :
  (0 <= row)%Z -> (0 <= mxg)%Z -> (0 < nx)%Z -> (0 < ny)%Z -> (0 < nz)%Z ->
  (forall x y z, (0 <= x < nx)%Z -> (0 <= y < ny)%Z -> (0 <= z < nz)%Z -> (0 <= cn (x, y, z))%Z) ->
  let hits := map (fun x => hits_radial_boundary x nx mxg) xs in
  let W := qsum (select (map negb hits) w) in
  0 < W -> nth_error b (Z.to_nat row) = Some r ->
  accumulate_interior_stencil b row xs zs w hits y yo nx ny nz cn mxg =
    Ok (set_nth (Z.to_nat row)
         (add_all r (flat_map (sample_ks nx ny nz mxg cn y yo W) (samples xs zs w hits))) b).
Proof.
  intros Hrow Hm Hx Hy Hz Hcn hits W HW Hb. unfold accumulate_interior_stencil.
  fold W. destruct (Qle_bool W 0) eqn:E; [apply Qle_bool_iff in E; lra|].
  apply acts_fold; [|assumption].
  intros [[[x z] sw] hit] Hin. apply sample_acts; auto. cbn [fst snd].
  apply in_combine_r in Hin as Hh.
  (* the hit flag belongs to the same position as x *)
  clear - Hin. unfold hits in Hin. clear hits.
  revert zs w Hin. induction xs as [|x0 xs IH]; intros zs w Hin.
  - cbn in Hin. contradiction.
  - destruct zs as [|z0 zs]; [cbn in Hin; contradiction|]. destruct w as [|w0 w]; [cbn in Hin; contradiction|].
    cbn [map combine] in Hin. destruct Hin as [[= <- <- <- <-]|Hin]; [reflexivity|]. eauto.
Qed.

(** ** Valid inputs *)

Record valid_dir (m : maps) (d : dir) (xts zts : arr4) (subw : list Q) : Prop := {
  vd_xts : xts_of m d = Ok xts;
  vd_zts : zts_of m d = Ok zts;
  vd_n : fst zts = fst xts;
  vd_subw : get_subcell_weights m (fst xts) = Ok subw;
  vd_pos : Forall (fun w => 0 < w) subw
}.

Lemma subcell_weights_ok m n w : get_subcell_weights m n = Ok w ->
  length w = n /\ Qabs (qsum w - 1) < tol_sum.
Proof.
  unfold get_subcell_weights. destruct (m_subw m) as [[l|]|] eqn:E; cbn [bind]; try discriminate.
  - destruct (Nat.eqb_spec (length l) n) as [E1|E1]; cbn [negb]; [|discriminate].
    destruct (Qle_bool tol_sum (Qabs (qsum l - 1))) eqn:E2; [discriminate|].
    intros [= <-]. split; [assumption|]. now apply Qle_bool_false_iff.
  - destruct (Nat.eqb_spec n 1) as [->|E1]; cbn [bind]; [|discriminate].
    cbn [length]. rewrite Nat.eqb_refl. cbn [negb].
    destruct (Qle_bool tol_sum (Qabs (qsum [1] - 1))) eqn:E2; [discriminate|].
    intros [= <-]. split; [reflexivity|]. now apply Qle_bool_false_iff.
Qed.

Lemma in_select_iff {A} (m : list bool) (l : list A) :
  length m = length l -> existsb (fun b => b) m = true -> select m l <> [].
Proof.
  revert l. induction m as [|b m IH]; intros [|a l]; cbn; try discriminate.
  intros E H. destruct b; [discriminate|]. apply IH; [congruence|assumption].
Qed.

Lemma existsb_map_negb l : existsb (fun b => b) (map negb l) = existsb negb l.
Proof. induction l; cbn; congruence. Qed.

Lemma select_pos m w : length m = length w -> Forall (fun q => 0 < q) w ->
  existsb (fun b => b) m = true -> 0 < qsum (select m w).
Proof.
  intros El Hp Hm. apply qsum_pos; [now apply in_select_iff|].
  intros q Hq. apply in_select in Hq. rewrite Forall_forall in Hp. auto.
Qed.

(** Consequences of [cs_spec] for cell numbers. *)
Lemma cell_number_pos m fx bx cs c : dims_ok m -> cs_spec m fx bx cs -> in_grid m c ->
  (0 <= cs_cell_number cs c < m_nx m * m_ny m * m_nz m)%Z.
Proof.
  intros (D1 & D2 & D3 & D4) S Hc. destruct c as [[x y] z].
  assert (Hin : In (x, y, z) (all_cells (m_nx m) (m_ny m) (m_nz m) (m_mxg m))).
  { apply in_all_cells; auto. }
  apply In_nth_error in Hin. destruct Hin as [i Hi].
  rewrite (css_cell _ _ _ _ S _ _ Hi).
  assert (i < length (all_cells (m_nx m) (m_ny m) (m_nz m) (m_mxg m)))%nat by exact (nth_error_lt _ _ _ Hi).
  rewrite <- (all_cells_length (m_nx m) (m_ny m) (m_nz m) (m_mxg m)) by assumption. lia.
Qed.

(** ** build_rows *)

(** The entries added to the interior leg row of a cell. *)
Definition cell_ks (m : maps) (cs : cell_space) (xts zts : arr4) (subw : list Q) (d : dir) (c : cell) : list entry :=
  let mask := mask_of xts (m_nx m) (m_mxg m) c in
  flat_map (sample_ks (m_nx m) (m_ny m) (m_nz m) (m_mxg m) (cs_cell_number cs) (snd (fst c)) (y_offset d)
              (qsum (select (map negb mask) subw)))
           (samples (row4 xts c) (row4 zts c) subw mask).

Definition interior_row m cs xts zts subw d c := add_all [] (cell_ks m cs xts zts subw d c).

Definition rows_spec (m : maps) (cs : cell_space) (ls : leg_space) (xts zts : arr4) (subw : list Q) (d : dir)
  (b : builder) : Prop :=
  length b = Z.to_nat (ls_n_legs ls) /\
  forall c, interior m c ->
    (hasI xts (m_nx m) (m_mxg m) c = true ->
       nth_error b (Z.to_nat (ls_interior_leg_number ls c)) = Some (interior_row m cs xts zts subw d c)) /\
    (hasB xts (m_nx m) (m_mxg m) c = true ->
       nth_error b (Z.to_nat (ls_boundary_leg_number ls c)) = Some [(cs_boundary_number d cs c, 1)]).

Lemma build_rows_spec m cs ls d xts zts subw fx bx :
  dims_ok m -> cs_spec m fx bx cs -> valid_dir m d xts zts subw ->
  (match d with Fwd => fx | Bwd => bx end) = xts ->
  ls_spec m xts subw ls ->
  exists b, build_rows cs ls m d = Ok b /\ rows_spec m cs ls xts zts subw d b.
Proof.
  intros D CS [Vx Vz Vn Vw Vp] Efx LS.
  pose proof (subcell_weights_ok _ _ _ Vw) as [Hlen Hsum].
  destruct LS as [Lx Ly Lz Lnum Ln Lin Lout].
  set (p := hasI xts (m_nx m) (m_mxg m)) in *. set (q := hasB xts (m_nx m) (m_mxg m)) in *.
  set (E := flat_map (evs p q) (icells m)) in *.
  assert (Ein : forall k c, interior m c -> (if k : bool then p c else q c) = true -> In (k, c) E).
  { intros k c Hc Hp. apply in_events. split; [now apply in_icells|assumption]. }
  set (num := fun k : bool => pick k (ls_interior_leg_number ls) (ls_boundary_leg_number ls)).
  assert (R : forall k c, In (k, c) E -> (0 <= num k c < ls_n_legs ls)%Z).
  { intros k c Hc. pose proof (numbered_in E 0 _ _ Lnum k c Hc) as H. unfold num. lia. }
  assert (IJ : forall k c k' c', In (k, c) E -> In (k', c') E ->
            Z.to_nat (num k c) = Z.to_nat (num k' c') -> k = k' /\ c = c').
  { intros k c k' c' H H' Eq. pose proof (R _ _ H). pose proof (R _ _ H').
    apply (numbered_inj E 0 _ _ Lnum k c k' c' H H'). unfold num in *. lia. }
  unfold build_rows. rewrite (css_nx _ _ _ _ CS), (css_ny _ _ _ _ CS), (css_nz _ _ _ _ CS).
  unfold xts_of in Vx. unfold zts_of in Vz.
  destruct (get_map_array (xt_key d m) (xt_fallback d m)) as [xa|]; cbn [bind] in *; [|discriminate].
  rewrite Vx. cbn [bind].
  destruct (get_map_array (zt_key d m) (zt_fallback d m)) as [za|]; cbn [bind] in *; [|discriminate].
  rewrite Vz. cbn [bind]. rewrite Vw. cbn [bind]. fold (icells m).
  set (val := fun (k : bool) c => if k then interior_row m cs xts zts subw d c else [(cs_boundary_number d cs c, 1)]).
  set (P := fun pre (b : builder) => length b = Z.to_nat (ls_n_legs ls) /\
     forall k c, In (k, c) E ->
       (In c pre -> nth_error b (Z.to_nat (num k c)) = Some (val k c)) /\
       (~ In c pre -> nth_error b (Z.to_nat (num k c)) = Some [])).
  destruct (foldM_inv P (operator_step cs ls xts zts subw (m_mxg m) d) (icells m) (new_builder (ls_n_legs ls)))
    as (b & Eb & Hb1 & Hb2).
  - split; [apply repeat_length|]. intros k c Hc. split; [intros []|]. intros _.
    pose proof (R _ _ Hc). unfold new_builder.
    assert (Hlt : (Z.to_nat (num k c) < Z.to_nat (ls_n_legs ls))%nat) by lia. clear -Hlt.
    revert Hlt. generalize (Z.to_nat (num k c)) as i. induction (Z.to_nat (ls_n_legs ls)) as [|n IH]; intros i Hi; [lia|].
    destruct i as [|i]; [reflexivity|]. cbn. apply IH. lia.
  - intros pre c post b El (Hl & HP).
    assert (Hic : In c (icells m)) by (rewrite El; apply in_app_iff; cbn; auto).
    assert (Ic : interior m c) by now apply in_icells.
    assert (Hcn : ~ In c pre).
    { pose proof (NoDup_cells (m_mxg m) (m_nx m - m_mxg m) (m_ny m) (m_nz m)) as N. fold (icells m) in N. rewrite El in N.
      apply NoDup_app_inv in N. destruct N as (_ & _ & N). intro. apply (N c); cbn; auto. }
    destruct (Lin c Ic) as (L1 & L2 & _ & _).
    destruct c as [[x y] z]. set (c := (x, y, z)) in *.
    unfold operator_step. unfold c at 1.
    rewrite (css_nx _ _ _ _ CS), (css_ny _ _ _ _ CS), (css_nz _ _ _ _ CS).
    fold c. rewrite classify_ok by assumption. cbn [bind cl_hits]. rewrite L1, L2. fold p q.
    (* boundary leg *)
    assert (SB : exists b1, (if q c then
                    (if (cs_boundary_number d cs c <? 0)%Z then Err ValueError
                     else set_row b (ls_boundary_leg_number ls c) [(cs_boundary_number d cs c, 1)])
                  else Ok b) = Ok b1 /\
               b1 = if q c then set_nth (Z.to_nat (num false c)) (val false c) b else b).
    { destruct (q c) eqn:Qc; [|exists b; auto].
      assert (Hin : In (false, c) E) by (apply Ein; auto).
      assert (Hcol : (0 <= cs_boundary_number d cs c)%Z).
      { pose proof (css_bnd _ _ _ _ CS) as NB.
        destruct d; cbn [cs_boundary_number]; subst xts.
        - pose proof (numbered_in _ _ _ _ NB false c) as G. cbn [pick] in G.
          destruct D as (?&?&?&?). assert (0 <= m_nx m * m_ny m * m_nz m)%Z by (repeat apply Z.mul_nonneg_nonneg; lia).
          rewrite in_events in G. specialize (G (conj Hic Qc)). lia.
        - pose proof (numbered_in _ _ _ _ NB true c) as G. cbn [pick] in G.
          destruct D as (?&?&?&?). assert (0 <= m_nx m * m_ny m * m_nz m)%Z by (repeat apply Z.mul_nonneg_nonneg; lia).
          rewrite in_events in G. specialize (G (conj Hic Qc)). lia. }
      cbn zeta. destruct (Z.ltb_spec (cs_boundary_number d cs c) 0); [lia|].
      unfold set_row. pose proof (R _ _ Hin) as Rr. unfold num in Rr. cbn [pick] in Rr.
      destruct (Z.ltb_spec (ls_boundary_leg_number ls c) 0); [lia|].
      destruct (HP _ _ Hin) as [_ Hempty]. specialize (Hempty Hcn). unfold num in Hempty. cbn [pick] in Hempty.
      rewrite Hempty. eexists. split; [reflexivity|]. reflexivity. }
    destruct SB as (b1 & SB1 & SB2). rewrite SB1. cbn [bind].
    assert (Hl1 : length b1 = Z.to_nat (ls_n_legs ls)) by (subst b1; destruct (q c); rewrite ?set_nth_length; assumption).
    (* interior leg *)
    assert (SI : exists b2, (if p c then
        accumulate_interior_stencil b1 (ls_interior_leg_number ls c) (row4 xts c) (row4 zts c) subw
          (mask_of xts (m_nx m) (m_mxg m) c) y (y_offset d) (m_nx m) (m_ny m) (m_nz m) (cs_cell_number cs) (m_mxg m)
        else Ok b1) = Ok b2 /\
        b2 = if p c then set_nth (Z.to_nat (num true c)) (val true c) b1 else b1).
    { destruct (p c) eqn:Pc; [|exists b1; auto].
      assert (Hin : In (true, c) E) by (apply Ein; auto).
      pose proof (R _ _ Hin) as Rr. unfold num in Rr. cbn [pick] in Rr.
      unfold c in Ic. cbn in Ic. destruct D as (D1&D2&D3&D4).
      unfold mask_of at 1.
      rewrite accumulate_ok with (r := []); try lia.
      - eexists. split; [reflexivity|]. reflexivity.
      - intros x' y' z' Hx' Hy' Hz'. apply (cell_number_pos m fx bx cs (x', y', z')); [repeat split; assumption|exact CS|repeat split; lia].
      - fold (mask_of xts (m_nx m) (m_mxg m) c). apply select_pos; [|assumption|].
        + rewrite map_length, mask_of_length. congruence.
        + rewrite existsb_map_negb. exact Pc.
      - destruct (HP _ _ Hin) as [_ Hempty]. specialize (Hempty Hcn). unfold num in Hempty. cbn [pick] in Hempty.
        subst b1. destruct (q c) eqn:Qc; [|exact Hempty].
        rewrite nth_error_set_nth_neq; [exact Hempty|].
        intro Eq. destruct (IJ true c false c Hin (Ein false c ltac:(unfold c; cbn; lia) Qc) Eq). discriminate. }
    destruct SI as (b2 & SI1 & SI2). rewrite SI1. exists b2. split; [reflexivity|]. split.
    + subst b2. destruct (p c); rewrite ?set_nth_length; assumption.
    + intros k c' Hk.
      assert (Hp_in : forall k', (if k' : bool then p c else q c) = true -> In (k', c) E) by (intros; apply Ein; auto).
      destruct (cell_dec c' c) as [->|Nc].
      * split; [|intros N; exfalso; apply N; apply in_app_iff; cbn; auto]. intros _.
        assert (Hk2 : (if k then p c else q c) = true) by (apply in_events in Hk; tauto).
        pose proof (R _ _ Hk) as Rk.
        destruct k; subst b2.
        -- rewrite Hk2. apply nth_error_set_nth_eq. rewrite Hl1. lia.
        -- assert (G : nth_error b1 (Z.to_nat (num false c)) = Some (val false c)).
           { subst b1. rewrite Hk2. apply nth_error_set_nth_eq. rewrite Hl. lia. }
           destruct (p c) eqn:Pc; [|exact G].
           rewrite nth_error_set_nth_neq; [exact G|].
           intro Eq. destruct (IJ false c true c Hk (Hp_in true eq_refl) Eq). discriminate.
      * assert (Fr : nth_error b2 (Z.to_nat (num k c')) = nth_error b (Z.to_nat (num k c'))).
        { assert (F1 : nth_error b1 (Z.to_nat (num k c')) = nth_error b (Z.to_nat (num k c'))).
          { subst b1. destruct (q c) eqn:Qc; [|reflexivity]. apply nth_error_set_nth_neq.
            intro Eq. destruct (IJ k c' false c Hk (Hp_in false eq_refl) Eq). contradiction. }
          rewrite <- F1. subst b2. destruct (p c) eqn:Pc; [|reflexivity]. apply nth_error_set_nth_neq.
          intro Eq. destruct (IJ k c' true c Hk (Hp_in true eq_refl) Eq). contradiction. }
        rewrite Fr. destruct (HP k c' Hk) as [H1 H2]. split.
        -- intros Hin. apply H1. apply in_app_iff in Hin. destruct Hin as [|[->|[]]]; [assumption|congruence].
        -- intros Hin. apply H2. intro; apply Hin; apply in_app_iff; auto.
  - exists b. split; [exact Eb|]. split; [exact Hb1|]. intros c Ic. split; intros Hk.
    + apply (Hb2 true c (Ein true c Ic Hk)). now apply in_icells.
    + apply (Hb2 false c (Ein false c Ic Hk)). now apply in_icells.
Qed.
