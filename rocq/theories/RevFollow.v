(** FieldTracerReversible.follow_field_lines: what happens to the caller's arrays,
    affine fields, round trips, slabs. *)
From Coq Require Import List ZArith QArith Qfield Lia Lqa Bool Setoid.
From Verif Require Import Prelude PreludeFacts TracerModel TracerSpec TracerProofs RevModel RevSpec RevProofs.
Import ListNotations.
Open Scope Q_scope.

Section Frame.
Variable dir : Q -> Q -> Q -> Q * Q.
Variable rtol eps : Q.
Lemma newton_frame fuel : forall s lx lz y dy hs s', newton dir rtol eps fuel s lx lz y dy hs = Some (Ok s') -> forall l, l <> lx -> l <> lz -> s' l = s l.
Proof.
  induction fuel as [|fuel IH]; intros s lx lz y dy hs s' H l L1 L2; [discriminate|]. cbn [newton] in H.
  destruct (all_some _) as [[|d ds]|]; try discriminate. destruct (forallb _ _).
  - injection H as <-. now rewrite !upd_other by assumption.
  - apply IH with (l := l) in H; [|assumption|assumption]. rewrite H. now rewrite !upd_other by assumption.
Qed.
Lemma substep_frame fuel lx lz y dy s s' : substep dir rtol eps fuel lx lz y dy s = Some (Ok s') -> forall l, l <> lx -> l <> lz -> s' l = s l.
Proof. intros H l L1 L2. unfold substep in H. apply newton_frame with (l := l) in H; [|assumption|assumption]. rewrite H. now rewrite !upd_other by assumption. Qed.
Lemma substeps_frame fuel n : forall lx lz y dy s s' y', substeps dir rtol eps fuel n lx lz y dy s = Some (Ok (s', y')) -> forall l, l <> lx -> l <> lz -> s' l = s l.
Proof.
  induction n as [|n IH]; intros lx lz y dy s s' y' H l L1 L2; cbn [substeps] in H; [now injection H as <- _|].
  destruct (substep _ _ _ _ _ _ _ _ _) as [[s1|]|] eqn:E; try discriminate. rewrite (IH _ _ _ _ _ _ _ H l L1 L2). now apply (substep_frame _ _ _ _ _ _ _ E).
Qed.
Lemma rev_rows_frame fuel n ys : forall lx lz y s s' rows, rev_rows dir rtol eps fuel n lx lz y ys s = Some (Ok (s', rows)) ->
  length rows = length ys /\ last rows (s lx, s lz) = (s' lx, s' lz) /\ forall l, l <> lx -> l <> lz -> s' l = s l.
Proof.
  induction ys as [|b t IH]; intros lx lz y s s' rows H; cbn [rev_rows] in H; [injection H as <- <-; auto|].
  destruct (substeps _ _ _ _ _ _ _ _ _ _) as [[[s1 y1]|]|] eqn:E; try discriminate.
  destruct (rev_rows _ _ _ _ _ _ _ y1 t s1) as [[[s2 r]|]|] eqn:E2; try discriminate. injection H as <- <-.
  destruct (IH _ _ _ _ _ _ E2) as (L & La & Fr). split; [cbn; now rewrite L|]. split.
  - destruct r as [|r0 r]; [exact La|]. rewrite <- La. clear. change (last ((s1 lx, s1 lz) :: r0 :: r) (s lx, s lz)) with (last (r0 :: r) (s lx, s lz)).
    revert r0. induction r as [|r1 r IH]; intros r0; [reflexivity|]. cbn [last] in *. apply IH.
  - intros l L1 L2. rewrite Fr by assumption. now apply (substeps_frame _ _ _ _ _ _ _ _ _ E).
Qed.

(** where follow_field_lines works *)
Definition scalar_of (a b : nda) : bool := negb (shape_eqb (shape a) (shape b)) && (size a =? 1)%nat.
Definition work_x (s : store) (x z : arg) : loc := match x with Ref n _ => if scalar_of (arg_nda s x) (arg_nda s z) then TmpX else Caller n | Fresh _ => TmpX end.
Definition work_z (s : store) (x z : arg) : loc :=
  match z with Ref n _ => if negb (shape_eqb (shape (arg_nda s x)) (shape (arg_nda s z))) && negb (size (arg_nda s x) =? 1)%nat then TmpZ else Caller n | Fresh _ => TmpZ end.

Lemma rev_follow_split fuel n s x z ys s' rows : rev_follow dir rtol eps fuel n s x z ys = Some (Ok (s', rows)) ->
  exists xa za s2 rest, match_shapes (arg_nda s x) (arg_nda s z) = Ok (xa, za) /\ (2 <= length ys)%nat /\
    s2 (work_x s x z) = data xa /\ (s2 (work_z s x z) = data za) /\ (forall m, s2 (Caller m) = s (Caller m)) /\
    rev_rows dir rtol eps fuel n (work_x s x z) (work_z s x z) (hd 0 ys) (tl ys) s2 = Some (Ok (s', rest)) /\ rows = (data xa, data za) :: rest.
Proof.
  unfold rev_follow. destruct ys as [|y0 [|y1 ys]]; try discriminate. set (xa := arg_nda s x). set (za := arg_nda s z).
  destruct (match_shapes xa za) as [[xa' za']|e] eqn:M; [|discriminate].
  set (p := if shape_eqb (shape xa) (shape za) || negb (size xa =? 1)%nat then arg_loc TmpX x s else (TmpX, upd s TmpX (data xa'))).
  destruct p as [lx s1] eqn:Ep.
  set (q := if shape_eqb (shape xa) (shape za) || (size xa =? 1)%nat then arg_loc TmpZ z s1 else (TmpZ, upd s1 TmpZ (data za'))).
  destruct q as [lz s2] eqn:Eq. destruct (rev_rows _ _ _ _ _ lx lz y0 _ s2) as [[[s3 rest]|]|] eqn:R; try discriminate. intros [= <- <-].
  assert (Hx : lx = work_x s x z /\ s1 lx = data xa' /\ (forall l, l <> TmpX -> s1 l = s l)).
  { unfold work_x, scalar_of. fold xa za. unfold p in Ep. unfold match_shapes in M.
    destruct (shape_eqb (shape xa) (shape za)); cbn [orb negb andb] in *; [|destruct (size xa =? 1)%nat eqn:Sx; cbn [negb] in Ep].
    - injection M as <- <-. destruct x; cbn in Ep; injection Ep as <- <-; [split; [reflexivity|]; split; [reflexivity|auto]|split; [reflexivity|]; split; [now rewrite upd_same|intros; now rewrite upd_other]].
    - injection Ep as <- <-. split; [now destruct x|]. split; [now rewrite upd_same|intros; now rewrite upd_other].
    - destruct (size za =? 1)%nat; [|discriminate]. injection M as <- <-. destruct x; cbn in Ep; injection Ep as <- <-; [split; [reflexivity|]; split; [reflexivity|auto]|split; [reflexivity|]; split; [now rewrite upd_same|intros; now rewrite upd_other]]. }
  destruct Hx as (-> & X1 & X2).
  assert (Hz : lz = work_z s x z /\ s2 lz = data za' /\ (forall l, l <> TmpZ -> s2 l = s1 l)).
  { unfold work_z. fold xa za. unfold q in Eq. unfold match_shapes in M.
    destruct (shape_eqb (shape xa) (shape za)); cbn [orb negb andb] in *; [|destruct (size xa =? 1)%nat eqn:Sx; cbn [negb] in Eq |- *].
    - injection M as <- <-. destruct z; cbn in Eq; injection Eq as <- <-; [split; [reflexivity|]; split; [apply X2; discriminate|auto]|split; [reflexivity|]; split; [now rewrite upd_same|intros; now rewrite upd_other]].
    - injection M as <- <-. destruct z; cbn in Eq; injection Eq as <- <-; [split; [reflexivity|]; split; [apply X2; discriminate|auto]|split; [reflexivity|]; split; [now rewrite upd_same|intros; now rewrite upd_other]].
    - injection Eq as <- <-. split; [now destruct z|]. split; [now rewrite upd_same|intros; now rewrite upd_other]. }
  destruct Hz as (-> & Z1 & Z2). exists xa', za', s2, rest. split; [reflexivity|]. split; [cbn; lia|].
  assert (Nx : work_x s x z <> TmpZ) by (unfold work_x; destruct x; [destruct (scalar_of _ _)|]; discriminate).
  split; [rewrite Z2 by exact Nx; exact X1|]. split; [exact Z1|]. split; [intros m; rewrite Z2, X2 by discriminate; reflexivity|].
  split; [exact R|]. rewrite Z2 by exact Nx. now rewrite X1, Z1.
Qed.

(** the caller's arrays after the call, for every field *)
Lemma rev_arrays fuel n s x z ys s' rows : rev_follow dir rtol eps fuel n s x z ys = Some (Ok (s', rows)) ->
  length rows = length ys /\
  (s' (work_x s x z), s' (work_z s x z)) = last rows ([], []) /\
  forall m, Caller m <> work_x s x z -> Caller m <> work_z s x z -> s' (Caller m) = s (Caller m).
Proof.
  intros H. destruct (rev_follow_split _ _ _ _ _ _ _ _ H) as (xa & za & s2 & rest & M & L & E1 & E2 & E3 & R & ->).
  destruct (rev_rows_frame _ _ _ _ _ _ _ _ _ R) as (Lr & La & Fr). rewrite E1, E2 in La.
  split; [cbn; rewrite Lr; destruct ys; cbn in *; lia|]. split.
  - rewrite <- La. destruct rest as [|r rest]; [reflexivity|]. clear. change (last ((data xa, data za) :: r :: rest) ([], [])) with (last (r :: rest) ([] : list Q, [] : list Q)).
    revert r. induction rest as [|r1 rest IH]; intros r; [reflexivity|]. cbn [last] in *. apply IH.
  - intros m N1 N2. rewrite Fr by assumption. apply E3.
Qed.
Lemma work_fresh s a b : work_x s (Fresh a) (Fresh b) = TmpX /\ work_z s (Fresh a) (Fresh b) = TmpZ.
Proof. split; reflexivity. Qed.

Definition aliased (x z : arg) : Prop := match x, z with Ref n _, Ref m _ => n = m | _, _ => False end.
Lemma work_distinct s x z : ~ aliased x z -> work_x s x z <> work_z s x z.
Proof.
  unfold work_x, work_z, aliased. intros H. destruct x as [n sh|a], z as [m sh'|b];
    repeat match goal with |- context [if ?b then _ else _] => destruct b end; try discriminate; congruence.
Qed.
End Frame.

Section Affine.
Variable dir : Q -> Q -> Q -> Q * Q.
Variable rtol eps : Q.
Variable F : affine.
Hypothesis HF : is_affine F dir.
Hypothesis HP : affine_ok F.
Hypothesis Heps : ~ eps == 0.
Hypothesis Hr : 0 < rtol.

(** all start points as a list, in the order of the arrays *)
Lemma rev_follow_affine fuel n s x z ys sh fx fz : (2 <= fuel)%nat -> (0 < n)%nat -> (2 <= length ys)%nat -> ~ aliased x z ->
  wf (arg_nda s x) -> wf (arg_nda s z) -> starts (arg_nda s x) (arg_nda s z) sh fx fz -> (0 < nsize sh)%nat -> solvable F n ys ->
  exists s' ps pss, rev_follow dir rtol eps fuel n s x z ys = Some (Ok (s', map row_of (ps :: pss))) /\ run dir n ys (ps :: pss) /\
    length ps = nsize sh /\ (forall idx, valid sh idx -> nth (offset sh idx) ps (0, 0) = (fx idx, fz idx)).
Proof.
  intros Hf Hn Hy Ha Wx Wz St Hs Sv. destruct (starts_match _ _ _ _ _ Wx Wz St) as (xa & za & M & Sx & Sz & Lx & Lz & Pt).
  unfold rev_follow. destruct ys as [|y0 [|y1 ys]]; cbn in Hy; try lia. rewrite M.
  destruct (if shape_eqb (shape (arg_nda s x)) (shape (arg_nda s z)) || negb (size (arg_nda s x) =? 1)%nat then arg_loc TmpX x s else (TmpX, upd s TmpX (data xa))) as [lx s1] eqn:Ex.
  destruct (if shape_eqb (shape (arg_nda s x)) (shape (arg_nda s z)) || (size (arg_nda s x) =? 1)%nat then arg_loc TmpZ z s1 else (TmpZ, upd s1 TmpZ (data za))) as [lz s2] eqn:Ez.
  assert (Hx : s1 lx = data xa /\ (forall l, l <> TmpX -> s1 l = s l) /\ (lx = TmpX \/ exists m sh, x = Ref m sh /\ lx = Caller m)).
  { unfold match_shapes in M. destruct (shape_eqb _ _); cbn [orb] in Ex; [|destruct (size (arg_nda s x) =? 1)%nat eqn:S1; cbn [negb] in Ex].
    - injection M as <- <-. destruct x; cbn in Ex; injection Ex as <- <-; [split; [reflexivity|]; split; [auto|right; eauto]|]. split; [now rewrite upd_same|]. split; [intros; now rewrite upd_other|now left].
    - injection Ex as <- <-. split; [now rewrite upd_same|]. split; [intros; now rewrite upd_other|now left].
    - destruct (size (arg_nda s z) =? 1)%nat; [|discriminate]. injection M as <- <-. destruct x; cbn in Ex; injection Ex as <- <-; [split; [reflexivity|]; split; [auto|right; eauto]|]. split; [now rewrite upd_same|]. split; [intros; now rewrite upd_other|now left]. }
  destruct Hx as (X1 & X2 & X3).
  assert (Hz : s2 lz = data za /\ (forall l, l <> TmpZ -> s2 l = s1 l) /\ (lz = TmpZ \/ exists m sh, z = Ref m sh /\ lz = Caller m)).
  { unfold match_shapes in M. destruct (shape_eqb _ _); cbn [orb] in Ez; [|destruct (size (arg_nda s x) =? 1)%nat eqn:S1; cbn [negb] in Ez].
    - injection M as <- <-. destruct z; cbn in Ez; injection Ez as <- <-; [split; [apply X2; discriminate|]; split; [auto|right; eauto]|]. split; [now rewrite upd_same|]. split; [intros; now rewrite upd_other|now left].
    - injection M as <- <-. destruct z; cbn in Ez; injection Ez as <- <-; [split; [apply X2; discriminate|]; split; [auto|right; eauto]|]. split; [now rewrite upd_same|]. split; [intros; now rewrite upd_other|now left].
    - injection Ez as <- <-. split; [now rewrite upd_same|]. split; [intros; now rewrite upd_other|now left]. }
  destruct Hz as (Z1 & Z2 & Z3).
  assert (Nl : lx <> lz).
  { destruct X3 as [->|(m & ? & -> & ->)], Z3 as [->|(m' & ? & -> & ->)]; try discriminate. cbn in Ha. congruence. }
  assert (Nx : lx <> TmpZ) by (destruct X3 as [->|(m & ? & -> & ->)]; discriminate).
  set (ps := combine (data xa) (data za)).
  assert (Lps : length ps = nsize sh) by (unfold ps; rewrite combine_length; lia).
  assert (Fs : forall (a b : list Q), length a = length b -> map fst (combine a b) = a /\ map snd (combine a b) = b).
  { clear. induction a as [|u a IH]; intros [|v b] L; try discriminate; [auto|]. destruct (IH b ltac:(now injection L)) as [I1 I2]. cbn. now rewrite I1, I2. }
  destruct (Fs (data xa) (data za)) as [F1 F2]; [lia|].
  assert (A : at_points s2 lx lz ps). { unfold at_points, ps. rewrite F1, F2. split; [rewrite Z2 by exact Nx; exact X1|exact Z1]. }
  destruct (rev_rows_affine dir rtol eps F HF HP Heps n (y1 :: ys) Hn s2 lx lz y0 ps fuel Nl Hr A) as (s' & pss & R & Ru & _ & _).
  { intros C. rewrite C in Lps. cbn in Lps. lia. }
  { exact Sv. } { exact Hf. }
  rewrite R. exists s', ps, pss. split; [|auto]. destruct A as [-> ->]. reflexivity.
Qed.

(** forwards along ys, then backwards from the end points *)
Lemma rev_round_trip n ys ps pss qs qss : (0 < n)%nat -> solvable F n ys -> run dir n ys (ps :: pss) -> run dir n (rev ys) (qs :: qss) ->
  Forall2 qeq2 qs (last (ps :: pss) []) -> Forall2 (Forall2 qeq2) (qs :: qss) (rev (ps :: pss)).
Proof.
  intros Hn Sv H K E. pose proof (run_rev dir F HF HP n ys _ Hn H) as R.
  destruct (rev (ps :: pss)) as [|r rs] eqn:Er. { cbn in Er. destruct (rev pss); discriminate. }
  assert (L : last (ps :: pss) [] = r). { rewrite <- (rev_involutive (ps :: pss)), Er. cbn. now rewrite last_last. }
  rewrite L in E. apply (run_unique dir F HF HP n (rev ys)); [now apply (solvable_rev F HP)|exact E|exact K|exact R].
Qed.
End Affine.

(** ** a slab: the field line is straight at each x *)
Lemma chain_slab w : forall l a p q, (forall x x', x == x' -> w x == w x') -> chain (fun x _ _ => (0, w x)) (a :: l) p q ->
  fst q == fst p /\ snd q == snd p + w (fst p) * (last l a - a).
Proof.
  intros l a p q Hw H. remember (a :: l) as m eqn:E. revert a l E. induction H as [y p|y y' l' p p' q T H IH]; intros a l E; injection E as -> <-.
  - cbn [last]. split; ring.
  - destruct (IH y' l' eq_refl) as [I1 I2]. destruct T as [T1 T2]. cbn [fst snd] in T1, T2.
    assert (X : fst p' == fst p) by lra. rewrite (Hw _ _ X) in I2, T2. split; [lra|]. rewrite I2.
    assert (L : last (y' :: l') a = last l' y'). { destruct l' as [|b l']; [reflexivity|]. change (last (y' :: b :: l') a) with (last (b :: l') a). clear. revert b. induction l' as [|c l' IH]; intros b; [reflexivity|]. cbn [last] in *. apply IH. }
    rewrite L. lra.
Qed.
Lemma even_grid_last n a b : (0 < n)%nat -> exists l, even_grid n a b = (a + 0 * ((b - a) / inject_Z (Z.of_nat n))) :: l /\ last l (a + 0 * ((b - a) / inject_Z (Z.of_nat n))) == b.
Proof.
  intros Hn. unfold even_grid. replace (n + 1)%nat with (S n) by lia. cbn [seq map]. eexists. split; [reflexivity|].
  destruct n as [|m]; [lia|]. rewrite (seq_S m 1), map_app. cbn [map Nat.add]. rewrite last_last. field. apply injn_neq0. lia.
Qed.
Lemma run_slab w n : (0 < n)%nat -> (forall x x', x == x' -> w x == w x') -> forall ys pss, run (fun x _ _ => (0, w x)) n ys pss ->
  length pss = length ys /\ forall k i, (k < length ys)%nat -> (i < length (hd [] pss))%nat ->
    let p := nth i (hd [] pss) (0, 0) in
    let q := nth i (nth k pss []) (0, 0) in
    fst q == fst p /\ snd q == snd p + w (fst p) * (nth k ys 0 - hd 0 ys).
Proof.
  intros Hn Hw ys pss H. induction H as [a ps|a b t ps ps' r C H IH].
  - split; [reflexivity|]. intros k i Hk Hi. cbn in Hk. replace k with 0%nat by lia. cbn. split; ring.
  - destruct IH as [L IH]. split; [cbn in *; now rewrite L|]. intros [|k] i Hk Hi; cbn [hd nth] in *.
    + split; ring.
    + assert (Lp : length ps = length ps') by (clear - C; induction C; cbn; congruence).
      destruct (IH k i ltac:(cbn in *; lia) ltac:(lia)) as [I1 I2]. cbn [hd] in I1, I2.
      assert (P : chain (fun x _ _ => (0, w x)) (even_grid n a b) (nth i ps (0, 0)) (nth i ps' (0, 0))).
      { clear - C Hi. revert i Hi. induction C; intros [|i] Hi; cbn in *; try lia; auto. apply IHC. lia. }
      destruct (even_grid_last n a b Hn) as (l & El & Ll). rewrite El in P. destruct (chain_slab w _ _ _ _ Hw P) as [P1 P2]. rewrite Ll in P2. rewrite (Hw _ _ P1) in I2.
      split; [lra|]. rewrite I2, P2. ring.
Qed.

Lemma run_widths dir n ys pss : run dir n ys pss -> length pss = length ys /\ forall r, In r pss -> length r = length (hd [] pss).
Proof.
  intros H. induction H as [a ps|a b t ps ps' r C H IH]; [split; [reflexivity|intros r [<-|[]]; reflexivity]|].
  destruct IH as [L IH]. split; [cbn in *; now rewrite L|]. assert (Lp : length ps = length ps') by (clear - C; induction C; cbn; congruence).
  intros q [<-|Hq]; [reflexivity|]. cbn [hd] in *. rewrite Lp. now apply IH.
Qed.
(** the sheared slab of field.py: Bx = 0, Bz + (x - xcentre) Bzprime over By *)
Definition slab_dir (By Bz xcentre Bzprime x z y : Q) : Q * Q := (0, (Bz + (x - xcentre) * Bzprime) / By).
Lemma rev_slab By Bz xc Bzp rtol eps fuel n s x z ys sh fx fz : ~ By == 0 -> ~ eps == 0 -> 0 < rtol -> (2 <= fuel)%nat -> (0 < n)%nat -> (2 <= length ys)%nat -> ~ aliased x z ->
  wf (arg_nda s x) -> wf (arg_nda s z) -> starts (arg_nda s x) (arg_nda s z) sh fx fz -> (0 < nsize sh)%nat ->
  exists s' rows, rev_follow (slab_dir By Bz xc Bzp) rtol eps fuel n s x z ys = Some (Ok (s', rows)) /\ length rows = length ys /\
    forall k idx, (k < length ys)%nat -> valid sh idx ->
      nth (offset sh idx) (fst (nth k rows ([], []))) 0 == fx idx /\
      nth (offset sh idx) (snd (nth k rows ([], []))) 0 == fz idx + (Bz + (fx idx - xc) * Bzp) / By * (nth k ys 0 - nth 0 ys 0).
Proof.
  intros HB He Hr Hf Hn Hy Ha Wx Wz St Hs.
  set (F := {| A11 := fun _ => 0; A12 := fun _ => 0; A21 := fun _ => Bzp / By; A22 := fun _ => 0; C1 := fun _ => 0; C2 := fun _ => (Bz - xc * Bzp) / By |}).
  assert (HF : is_affine F (slab_dir By Bz xc Bzp)). { intros u v y. cbn. split; [ring|field; exact HB]. }
  assert (HP : affine_ok F) by (repeat split; intros a b _; reflexivity).
  assert (Sv : solvable F n ys).
  { clear - ys. induction ys as [|a [|b t] IH]; cbn [solvable]; auto. split; [|exact IH]. intros y. unfold step_det. cbn [A11 A12 A21 A22 F]. split; intros C;
    match type of C with ?u == 0 => assert (u == 1) by ring end; lra. }
  destruct (rev_follow_affine _ rtol eps F HF HP He Hr fuel n s x z ys sh fx fz Hf Hn Hy Ha Wx Wz St Hs Sv) as (s' & ps & pss & R & Ru & Lp & Pt).
  exists s', (map row_of (ps :: pss)). split; [exact R|]. destruct (run_widths _ _ _ _ Ru) as [L W]. split; [rewrite map_length; exact L|].
  intros k idx Hk Hv. pose proof (offset_lt sh idx Hv) as Ho. rewrite (nth_map' row_of _ _ _ []) by (rewrite L; exact Hk). unfold row_of. cbn [fst snd].
  assert (Lk : length (nth k (ps :: pss) []) = nsize sh). { rewrite <- Lp. apply (W (nth k (ps :: pss) [])). apply nth_In. rewrite L. exact Hk. }
  rewrite (nth_map' fst _ _ _ (0, 0)), (nth_map' snd _ _ _ (0, 0)) by (rewrite Lk; exact Ho).
  destruct (run_slab (fun x => (Bz + (x - xc) * Bzp) / By) n Hn ltac:(intros u v E; cbv beta; now rewrite E) ys (ps :: pss) Ru) as [_ Sl].
  specialize (Sl k (offset sh idx) Hk). cbn [hd] in Sl. specialize (Sl ltac:(rewrite Lp; exact Ho)). rewrite (Pt idx Hv) in Sl. cbn [fst snd] in Sl.
  destruct ys as [|y0 ys]; [cbn in Hy; lia|]. exact Sl.
Qed.

(** forwards, then backwards from where the first call ended *)
Definition row_eq (a b : list Q * list Q) : Prop := Forall2 Qeq (fst a) (fst b) /\ Forall2 Qeq (snd a) (snd b).
Lemma row_of_eq ps qs : Forall2 qeq2 ps qs -> row_eq (row_of ps) (row_of qs).
Proof. unfold row_eq, row_of. cbn. induction 1 as [|p q ps qs [E1 E2] H [I1 I2]]; cbn; split; constructor; assumption. Qed.
Lemma rev_follow_round_trip dir rtol eps F fuel n s x z ys sh fx fz : is_affine F dir -> affine_ok F -> ~ eps == 0 -> 0 < rtol ->
  (2 <= fuel)%nat -> (0 < n)%nat -> (2 <= length ys)%nat -> ~ aliased x z ->
  wf (arg_nda s x) -> wf (arg_nda s z) -> starts (arg_nda s x) (arg_nda s z) sh fx fz -> (0 < nsize sh)%nat -> solvable F n ys ->
  exists s' rows, rev_follow dir rtol eps fuel n s x z ys = Some (Ok (s', rows)) /\ length rows = length ys /\
    let '(xe, ze) := last rows ([], []) in
    exists s'' rows', rev_follow dir rtol eps fuel n s (Fresh {| shape := [nsize sh]; data := xe |}) (Fresh {| shape := [nsize sh]; data := ze |}) (rev ys) = Some (Ok (s'', rows'))
      /\ Forall2 row_eq rows' (rev rows).
Proof.
  intros HF HP He Hr Hf Hn Hy Ha Wx Wz St Hs Sv.
  destruct (rev_follow_affine _ rtol eps F HF HP He Hr fuel n s x z ys sh fx fz Hf Hn Hy Ha Wx Wz St Hs Sv) as (s' & ps & pss & R & Ru & Lp & Pt).
  exists s', (map row_of (ps :: pss)). split; [exact R|]. destruct (run_widths _ _ _ _ Ru) as [L W]. split; [rewrite map_length; exact L|].
  remember (last (ps :: pss) []) as e eqn:Ee.
  assert (El : last (map row_of (ps :: pss)) ([], []) = row_of e).
  { rewrite Ee. clear. revert ps. induction pss as [|q pss IH]; intros ps; [reflexivity|]. change (last (map row_of (ps :: q :: pss)) ([], [])) with (last (map row_of (q :: pss)) ([], [])). apply IH. }
  rewrite El. unfold row_of at 1.
  assert (Ein : In e (ps :: pss)). { rewrite Ee. clear. revert ps. induction pss as [|q pss IH]; intros ps; [now left|]. right. apply IH. }
  assert (Le : length e = nsize sh). { rewrite (W e Ein). exact Lp. }
  set (xa := {| shape := [nsize sh]; data := map fst e |}). set (za := {| shape := [nsize sh]; data := map snd e |}).
  assert (W1 : wf xa) by (unfold wf, size; cbn; rewrite map_length, Le; lia). assert (W2 : wf za) by (unfold wf, size; cbn; rewrite map_length, Le; lia).
  destruct (rev_follow_affine _ rtol eps F HF HP He Hr fuel n s (Fresh xa) (Fresh za) (rev ys) [nsize sh] (get xa) (get za) Hf Hn) as (s'' & qs & qss & R' & Ru' & Lq & Pq).
  { now rewrite rev_length. } { cbn. auto. } { exact W1. } { exact W2. } { exact (starts_same xa za eq_refl). } { cbn. lia. } { now apply (solvable_rev F HP). }
  exists s'', (map row_of (qs :: qss)). split; [exact R'|].
  assert (Eq : qs = e).
  { apply (nth_ext _ _ (0, 0) (0, 0)); [rewrite Lq, Le; cbn; lia|]. intros i Hi. rewrite Lq in Hi. cbn in Hi. specialize (Pq [i]). cbn [offset nsize] in Pq.
    replace (i * 1 + 0)%nat with i in Pq by lia. rewrite Pq by (repeat constructor; lia). unfold get. cbn [offset nsize shape data xa za]. replace (i * 1 + 0)%nat with i by lia.
    rewrite (nth_map' fst _ _ _ (0, 0)), (nth_map' snd _ _ _ (0, 0)) by (rewrite Le; lia). now destruct (nth i e (0, 0)). }
  assert (T : Forall2 (Forall2 qeq2) (qs :: qss) (rev (ps :: pss))).
  { apply (rev_round_trip dir F HF HP n ys ps pss qs qss Hn Sv Ru Ru'). rewrite <- Ee, Eq. apply qeq2_refl_all. }
  rewrite <- map_rev. clear - T. induction T as [|a b l m E T IH]; cbn [map]; constructor; [now apply row_of_eq|exact IH].
Qed.

(** calls that are refused *)
Section Refused.
Variable dir : Q -> Q -> Q -> Q * Q.
Variable rtol eps : Q.
Lemma rev_refused fuel n s x z ys : ((length ys < 2)%nat -> rev_follow dir rtol eps fuel n s x z ys = Some (Err ValueError)) /\
  (forall e, (2 <= length ys)%nat -> match_shapes (arg_nda s x) (arg_nda s z) = Err e -> rev_follow dir rtol eps fuel n s x z ys = Some (Err e)) /\
  (let none := Fresh {| shape := [0%nat]; data := [] |} in
   (2 <= length ys)%nat -> (1 <= fuel)%nat -> (1 <= n)%nat -> rev_follow dir rtol eps fuel n s none none ys = Some (Err ValueError)).
Proof.
  split; [|split].
  - destruct ys as [|y0 [|y1 ys]]; [reflexivity..|]. cbn. lia.
  - intros e H E. destruct ys as [|y0 [|y1 ys]]; [cbn in H; lia..|]. unfold rev_follow. now rewrite E.
  - intros none H Hf Hn. destruct ys as [|y0 [|y1 ys]]; [cbn in H; lia..|]. destruct fuel; [lia|]. destruct n; [lia|]. reflexivity.
Qed.
End Refused.
