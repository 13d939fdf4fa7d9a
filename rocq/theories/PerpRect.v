(** The operator that [doit] makes for rectangular grids dissipates, has a maximum principle and is second order. *)
From Coq Require Import List ZArith QArith Qabs Reals Qreals Bool Lia Lra Lqa.
From Verif Require Import Prelude PreludeFacts PolModel DagpModel DagpSpec DagpProofs DagpRect DagpDoit DagpThms PerpSpec PerpProofs RevAcc WeightsSmooth.
Import ListNotations.
Open Scope Q_scope.

Lemma mr_ext s r x y : x == y -> major_radius s r x == major_radius s r y.
Proof. intros E. unfold major_radius. destruct s; [reflexivity|]. now rewrite E. Qed.

Section Rect.
Variables (sqrt : Q -> Q) (junk : Z -> Z -> Z -> Q) (s : bool) (rs : list rect) (nx nz : Z) (Lz : Q).
Variables (vol : Z -> Z -> Z -> Q) (cX cZ : Z -> Z -> Z -> Q * Q) (j : nat) (r : rect).
Hypothesis Hs : root_like sqrt.
Hypothesis Hrs : forall r, In r rs -> rectangular nx nz Lz r.
Hypothesis Hnx : (4 <= nx)%Z.
Hypothesis Hnz : (3 <= nz)%Z.
Hypothesis HLz : 0 < Lz.
Hypothesis Hd : doit sqrt junk (map (fun r => of_rect r Lz) rs) s = Ok (vol, cX, cZ).
Hypothesis Hj : nth_error rs j = Some r.
Notation J := (Z.of_nat j).
Notation L f := (apply_op nx nz cX cZ f).
Definition faceA (i : Z) : Q := major_radius s r (inject_Z i + (1 # 2)) * (r_dZ r / r_dR r).
Definition faceB (i : Z) : Q := major_radius s r (inject_Z i) * (r_dR r / r_dZ r).
Lemma rs_some : rs <> []. Proof. intros E. rewrite E in Hj. destruct j; discriminate. Qed.
Lemma r_grid : is_rect_grid nx nz Lz r.
Proof. apply rectangular_grid; [lia|]. apply Hrs. eapply nth_error_In, Hj. Qed.
Lemma dZ_positive : 0 < r_dZ r. Proof. exact (dZ_pos r nx nz Lz r_grid Hnz HLz). Qed.
Lemma vol_at i k : (1 <= i < nx - 1)%Z -> (0 <= k < nz)%Z -> vol i J k == r_dR r * r_dZ r * major_radius s r (inject_Z i).
Proof.
  intros Hi Hk. destruct (rect_total sqrt junk s rs nx nz Lz Hs rs_some Hrs Hnx Hnz HLz) as (v' & x' & z' & E & H). rewrite Hd in E. injection E as <- <- <-.
  exact (proj1 (H j r Hj i k Hi Hk)).
Qed.
Lemma op_at f i k : (1 <= i < nx - 1)%Z -> (0 <= k < nz)%Z -> L f i J k == stencil nz faceA faceB (fun i k => f i J k) i k.
Proof.
  intros Hi Hk. destruct (rect_total sqrt junk s rs nx nz Lz Hs rs_some Hrs Hnx Hnz HLz) as (v' & x' & z' & E & H). rewrite Hd in E. injection E as <- <- <-.
  rewrite (proj2 (H j r Hj i k Hi Hk) f). unfold stencil, faceA, faceB. destruct r_grid as (_ & _ & _ & NR). assert (PZ := dZ_positive).
  rewrite (mr_ext s r (inject_Z (i - 1) + (1 # 2)) (inject_Z i - (1 # 2))) by (unfold Z.sub; rewrite inject_Z_plus; change (inject_Z (- (1))) with (-(1)); ring).
  field. split; [intros C; rewrite C in PZ; apply (Qlt_irrefl 0 PZ)|exact NR].
Qed.

Section Proper.
Hypothesis Hp : proper_grid s r.
Lemma nx_r : r_nx r = nx. Proof. apply r_grid. Qed.
Lemma faceA_pos i : (0 <= i < nx - 1)%Z -> 0 < faceA i.
Proof.
  intros Hi. destruct Hp as [PR PM]. assert (PZ := dZ_positive). unfold faceA. apply Qmult_lt_0_compat.
  - apply PM. rewrite nx_r. assert (inject_Z 0 <= inject_Z i) by (rewrite <- Zle_Qle; lia). assert (inject_Z (i + 1) <= inject_Z (nx - 1)) by (rewrite <- Zle_Qle; lia).
    rewrite inject_Z_plus in *. change (inject_Z 0) with 0 in *. change (inject_Z 1) with 1 in *. lra.
  - apply Qlt_shift_div_l; [exact PR|]. lra.
Qed.
Lemma faceB_pos i : (1 <= i < nx - 1)%Z -> 0 < faceB i.
Proof.
  intros Hi. destruct Hp as [PR PM]. assert (PZ := dZ_positive). unfold faceB. apply Qmult_lt_0_compat.
  - apply PM. rewrite nx_r. assert (inject_Z 0 <= inject_Z i) by (rewrite <- Zle_Qle; lia). assert (inject_Z i <= inject_Z (nx - 1)) by (rewrite <- Zle_Qle; lia).
    change (inject_Z 0) with 0 in *. lra.
  - apply Qlt_shift_div_l; [exact PZ|]. lra.
Qed.
Lemma plane_form f g : zero_edges nx nz J g -> over_plane nx nz (fun i k => g i J k * L f i J k) == - form nx nz faceA faceB (fun i k => f i J k) (fun i k => g i J k).
Proof.
  intros V. unfold over_plane. rewrite <- (by_parts nx nz faceA faceB ltac:(lia) ltac:(lia) (fun i k => f i J k) (fun i k => g i J k) V).
  apply sum_over_ext. intros i Hi. apply sum_over_ext. intros k Hk. now rewrite op_at.
Qed.
Lemma symmetric f g : zero_edges nx nz J f -> zero_edges nx nz J g ->
  over_plane nx nz (fun i k => g i J k * L f i J k) == over_plane nx nz (fun i k => f i J k * L g i J k).
Proof. intros Vf Vg. rewrite !plane_form by assumption. now rewrite form_sym. Qed.
Lemma dissipates f : zero_edges nx nz J f -> over_plane nx nz (fun i k => f i J k * L f i J k) <= 0 /\
  (over_plane nx nz (fun i k => f i J k * L f i J k) == 0 -> forall i k, (0 <= i < nx)%Z -> (0 <= k < nz)%Z -> f i J k == 0).
Proof.
  intros V. rewrite (plane_form f f V).
  assert (N := form_nonneg nx nz faceA faceB faceA_pos faceB_pos (fun i k => f i J k)). split; [Lqa.lra|].
  intros E. apply (form_zero nx nz faceA faceB faceA_pos faceB_pos (fun i k => f i J k) V). Lqa.lra.
Qed.
Lemma max_edge f : (forall i k, (1 <= i < nx - 1)%Z -> (0 <= k < nz)%Z -> 0 <= L f i J k) ->
  forall i k, (0 <= i < nx)%Z -> (0 <= k < nz)%Z -> exists i' k', (i' = 0 \/ i' = nx - 1)%Z /\ (0 <= k' < nz)%Z /\ f i J k <= f i' J k'.
Proof.
  intros H. apply (maximum nx nz faceA faceB ltac:(lia) faceA_pos faceB_pos (fun i k => f i J k)). intros i k Hi Hk. rewrite <- op_at by assumption. now apply H.
Qed.
Lemma op_minus f g i k : (1 <= i < nx - 1)%Z -> (0 <= k < nz)%Z -> L (fun a b c => f a b c - g a b c) i J k == L f i J k - L g i J k.
Proof. intros Hi Hk. rewrite !op_at by assumption. unfold stencil. ring. Qed.
Lemma solution_unique f g : (forall i k, (1 <= i < nx - 1)%Z -> (0 <= k < nz)%Z -> L f i J k == L g i J k) ->
  (forall k, (0 <= k < nz)%Z -> f 0%Z J k == g 0%Z J k /\ f (nx - 1)%Z J k == g (nx - 1)%Z J k) ->
  forall i k, (0 <= i < nx)%Z -> (0 <= k < nz)%Z -> f i J k == g i J k.
Proof.
  intros E V i k Hi Hk. set (d a b c := f a b c - g a b c).
  assert (Vd : zero_edges nx nz J d) by (intros k' Hk'; destruct (V k' Hk') as [V1 V2]; unfold d; rewrite V1, V2; split; ring).
  destruct (dissipates d Vd) as [_ U]. assert (X := U). clear U.
  assert (Z0 : over_plane nx nz (fun i k => d i J k * L d i J k) == 0).
  { unfold over_plane. assert (Y := sum_over_scale 1 (nx - 1) 0 (fun _ => 0)).
    rewrite (sum_over_ext _ _ _ (fun _ => 0 * 0)); [rewrite Y; ring|]. intros i' Hi'.
    assert (Y' := sum_over_scale 0 nz 0 (fun _ => 0)). rewrite (sum_over_ext _ _ _ (fun _ => 0 * 0)); [rewrite Y'; ring|].
    intros k' Hk'. unfold d at 2. rewrite op_minus, E by assumption. ring. }
  assert (D := X Z0 i k Hi Hk). unfold d in D. Lqa.lra.
Qed.
End Proper.
End Rect.
