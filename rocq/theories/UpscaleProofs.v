(** Proofs about UpscaleModel.v *)
From Coq Require Import List Reals Lia Lra Bool.
From Verif Require Import Prelude PreludeFacts FieldReal UpscaleModel.
Import ListNotations.
Open Scope R_scope.
Open Scope res_scope.

Lemma spline2_step a b t : spline2 a b t = a + (3 * t ^ 2 - 2 * t ^ 3) * (b - a).
Proof. unfold spline2. field. Qed.
Lemma flat_T_length {A} nx nz (a : nat -> nat -> A) : length (flat_T nx nz a) = (nz * nx)%nat.
Proof.
  unfold flat_T. assert (G : forall s, length (flat_map (fun z => map (fun x => a x z) (seq 0 nx)) (seq s nz)) = (nz * nx)%nat).
  { induction nz as [|n IH]; intros s; [reflexivity|]. cbn [seq flat_map]. rewrite app_length, map_length, seq_length, IH. lia. }
  apply G.
Qed.
Lemma flat_T_nth {A} nx nz (a : nat -> nat -> A) x z d : (x < nx)%nat -> (z < nz)%nat -> nth (z * nx + x) (flat_T nx nz a) d = a x z.
Proof.
  intros Hx Hz. unfold flat_T. assert (G : forall n s z, (z < n)%nat -> nth (z * nx + x) (flat_map (fun z => map (fun x => a x z) (seq 0 nx)) (seq s n)) d = a x (s + z)%nat).
  { clear z Hz. induction n as [|n IH]; intros s z Hz; [lia|]. cbn [seq flat_map]. destruct z as [|z].
    - rewrite app_nth1 by (rewrite map_length, seq_length; lia). cbn [Nat.mul Nat.add]. rewrite (nth_indep _ d ((fun x => a x s) 0%nat)) by (rewrite map_length, seq_length; exact Hx).
      rewrite (map_nth (fun x => a x s)), seq_nth by exact Hx. f_equal. lia.
    - rewrite app_nth2 by (rewrite map_length, seq_length; lia). rewrite map_length, seq_length. replace (S z * nx + x - nx)%nat with (z * nx + x)%nat by lia.
      rewrite IH by lia. f_equal. lia. }
  rewrite G by exact Hz. reflexivity.
Qed.
Lemma flat_T_nodup nx nz : NoDup (flat_T nx nz (fun x z => (INR x, INR z))).
Proof.
  unfold flat_T. assert (G : forall n s, NoDup (flat_map (fun z => map (fun x => (INR x, INR z)) (seq 0 nx)) (seq s n))).
  { induction n as [|n IH]; intros s; [constructor|]. cbn [seq flat_map].
    assert (D : forall l1 l2 : list (R * R), NoDup l1 -> NoDup l2 -> (forall p, In p l1 -> ~ In p l2) -> NoDup (l1 ++ l2)).
    { clear. induction l1 as [|p l1 IH]; intros l2 H1 H2 H; [exact H2|]. inversion H1 as [|? ? Hn Hd]; subst. cbn [app]. constructor.
      - intros Hin. apply in_app_or in Hin. destruct Hin as [Hin|Hin]; [contradiction|]. exact (H p (or_introl eq_refl) Hin).
      - apply IH; [exact Hd|exact H2|]. intros q Hq. apply H. right. exact Hq. }
    apply D; [|apply IH|].
    - apply FinFun.Injective_map_NoDup; [|apply seq_NoDup]. intros i j E. apply INR_eq. exact (f_equal fst E).
    - intros p Hp Hq. apply in_map_iff in Hp. destruct Hp as [x [<- _]]. apply in_flat_map in Hq. destruct Hq as [z [Hz Hq]]. apply in_map_iff in Hq.
      destruct Hq as [x' [E _]]. apply in_seq in Hz. pose proof (INR_eq _ _ (f_equal snd E)). lia. }
  apply G.
Qed.
Lemma flat_T_ext {A} nx nz (a b : nat -> nat -> A) : (forall x z, (x < nx)%nat -> (z < nz)%nat -> a x z = b x z) -> flat_T nx nz a = flat_T nx nz b.
Proof.
  intros H. unfold flat_T. rewrite !flat_map_concat_map. f_equal. apply map_ext_in. intros z Hz. apply map_ext_in. intros x Hx. apply in_seq in Hz, Hx. apply H; lia.
Qed.

Section Upscale.
Variable mc : nat * nat * nat -> arr3 -> R * R * R -> R.
Variable tq : bool.
Variable griddata : list (R * R) -> list R -> res (R * R -> R).
Notation upscale := (upscale mc tq griddata).
(** the fraction of the way along the field line *)
Definition way (t : R) : R := 3 * t ^ 2 - 2 * t ^ 3.
Definition endp (field : arr3) nx ny nz (xt zt : arr3) : arr3 := fun x y z => mc (nx, ny, nz) field (xt x y z, INR (yup ny y), zt x y z).
Definition slice_points nx nz (xt zt : arr3) y s : list (R * R) :=
  flat_T nx nz (fun x z => (INR x + s * (xt x y z - INR x), INR z + s * (zt x y z - INR z))).
Definition slice_values (field : arr3) nx ny nz (xt zt : arr3) y s : list R :=
  flat_T nx nz (fun x z => field x y z + s * (endp field nx ny nz xt zt x y z - field x y z)).
Lemma slice_eq (F : arr3) nx ny nz xt zt f m y : (m < f)%nat ->
  flat_T nx nz (fun x z => (spline2 (INR x) (xt x ((y * f + m) / f)%nat z) (INR ((y * f + m) mod f) / INR f), spline2 (INR z) (zt x ((y * f + m) / f)%nat z) (INR ((y * f + m) mod f) / INR f))) = slice_points nx nz xt zt y (way (INR m / INR f)) /\
  flat_T nx nz (fun x z => spline2 (F x ((y * f + m) / f)%nat z) (endp F nx ny nz xt zt x ((y * f + m) / f)%nat z) (INR ((y * f + m) mod f) / INR f)) = slice_values F nx ny nz xt zt y (way (INR m / INR f)).
Proof.
  intros Hm. rewrite (Nat.add_comm (y * f) m), Nat.mod_add, Nat.mod_small, Nat.div_add, Nat.div_small, Nat.add_0_l by lia.
  unfold slice_points, slice_values, way. split; apply flat_T_ext; intros x z _ _; rewrite !spline2_step; reflexivity.
Qed.
Lemma upscale_slices field F nx ny nz xt zt f quiet out :
  fitted field nx ny nz = Ok F -> upscale field nx ny nz xt zt f quiet = Ok out ->
  (0 < f)%nat /\ length out = (f * ny)%nat /\
  forall y m, (y < ny)%nat -> (m < f)%nat -> exists g,
    griddata (slice_points nx nz xt zt y (way (INR m / INR f))) (slice_values F nx ny nz xt zt y (way (INR m / INR f))) = Ok g /\
    forall x z, nth (y * f + m) out (fun _ _ => 0) x z = g (INR x, INR z).
Proof.
  intros HF H. unfold UpscaleModel.upscale in H. rewrite HF in H. cbn [bind] in H. destruct (Nat.eqb_spec ny 0) as [|Hy]; [discriminate|]. destruct (Nat.eqb_spec f 0) as [|Hf]; [discriminate|].
  match type of H with foldM ?S _ _ = _ => set (step := S) in H end.
  assert (G : forall n acc out, foldM step (seq (length acc) n) acc = Ok out -> length out = (length acc + n)%nat /\ (forall k, (k < length acc)%nat -> nth k out (fun _ _ => 0) = nth k acc (fun _ _ => 0)) /\
     forall k, (length acc <= k)%nat -> (k < length acc + n)%nat -> exists g, griddata (flat_T nx nz (fun x z => (spline2 (INR x) (xt x (k / f)%nat z) (INR (k mod f) / INR f), spline2 (INR z) (zt x (k / f)%nat z) (INR (k mod f) / INR f))))
        (flat_T nx nz (fun x z => spline2 (F x (k / f)%nat z) (endp F nx ny nz xt zt x (k / f)%nat z) (INR (k mod f) / INR f))) = Ok g /\ nth k out (fun _ _ => 0) = fun x z => g (INR x, INR z)).
  { clear H out. induction n as [|n IH]; intros acc out H.
    - cbn [seq foldM] in H. injection H as <-. repeat split; [lia|intros; lia].
    - cbn [seq foldM] in H. unfold step at 1 in H. 
      match type of H with bind (bind ?G0 _) _ = _ => destruct G0 as [g|e] eqn:Eg end; [|discriminate].
      cbn [bind] in H.
      assert (H' : foldM step (seq (S (length acc)) n) (acc ++ [fun x z => g (INR x, INR z)]) = Ok out).
      { destruct quiet; [exact H|]. destruct tq; [discriminate|]. destruct (ny - 1 =? 0)%nat; [discriminate|exact H]. }
      assert (La : length (acc ++ [fun x z => g (INR x, INR z)]) = S (length acc)) by (rewrite app_length; cbn [length]; lia).
      rewrite <- La in H'. destruct (IH _ _ H') as [L1 [L2 L3]]. rewrite La in *. split; [lia|]. split.
      + intros k Hk. rewrite L2 by lia. apply app_nth1. exact Hk.
      + intros k Hk1 Hk2. destruct (Nat.eq_dec k (length acc)) as [->|Nk]; [|apply L3; lia].
        exists g. split; [exact Eg|]. rewrite L2 by lia. rewrite app_nth2, Nat.sub_diag by lia. reflexivity. }
  destruct (G _ [] out H) as [L1 [_ L3]]. split; [lia|]. split; [exact L1|]. intros y m Hy' Hm.
  destruct (L3 (y * f + m)%nat ltac:(cbn [length]; lia) ltac:(cbn [length]; nia)) as [g [Eg En]].
  destruct (slice_eq F nx ny nz xt zt f m y Hm) as [E1 E2]. rewrite E1, E2 in Eg. exists g. split; [exact Eg|]. intros x z. rewrite En. reflexivity.
Qed.
Lemma upscale_returns field F nx ny nz xt zt f quiet : fitted field nx ny nz = Ok F -> (0 < f)%nat -> (0 < ny)%nat -> (forall pts vals, length pts = length vals -> exists g, griddata pts vals = Ok g) ->
  if (quiet || negb (tq || (ny =? 1)%nat))%bool then exists out, upscale field nx ny nz xt zt f quiet = Ok out
  else upscale field nx ny nz xt zt f quiet = Err (if tq then NameError else ZeroDivisionError).
Proof.
  intros HF Hf Hy Hg. unfold UpscaleModel.upscale. rewrite HF. cbn [bind]. destruct (Nat.eqb_spec ny 0) as [|_]; [lia|]. destruct (Nat.eqb_spec f 0) as [|_]; [lia|].
  match goal with |- if _ then exists o, foldM ?S _ _ = _ else _ => set (step := S) end.
  assert (A : forall acc k, exists g, (let* g := griddata (flat_T nx nz (fun x z => (spline2 (INR x) (xt x (k / f)%nat z) (INR (k mod f) / INR f), spline2 (INR z) (zt x (k / f)%nat z) (INR (k mod f) / INR f))))
        (flat_T nx nz (fun x z => spline2 (F x (k / f)%nat z) (endp F nx ny nz xt zt x (k / f)%nat z) (INR (k mod f) / INR f))) in Ok g) = Ok g /\
     step acc k = (if quiet then Ok (acc ++ [fun x z => g (INR x, INR z)]) else if tq then Err NameError else if (ny - 1 =? 0)%nat then Err ZeroDivisionError else Ok (acc ++ [fun x z => g (INR x, INR z)]))).
  { intros acc k. match goal with |- exists g, (let* _ := griddata ?p ?v in _) = _ /\ _ => destruct (Hg p v) as [g Eg]; [rewrite !flat_T_length; reflexivity|] end.
    exists g. split; [rewrite Eg; reflexivity|]. unfold step. unfold endp in Eg. rewrite Eg. reflexivity. }
  destruct (quiet || negb (tq || (ny =? 1)%nat))%bool eqn:Eq.
  - assert (B : forall acc k, exists acc', step acc k = Ok acc').
    { intros acc k. destruct (A acc k) as [g [_ E]]. destruct quiet; [eexists; exact E|]. cbn [orb] in Eq. apply negb_true_iff, orb_false_iff in Eq. destruct Eq as [Et Eq]. apply Nat.eqb_neq in Eq. rewrite Et in E.
      destruct (Nat.eqb_spec (ny - 1) 0) as [|_]; [lia|]. eexists; exact E. }
    assert (G : forall l acc, exists out, foldM step l acc = Ok out).
    { induction l as [|k l IH]; intros acc; [eexists; reflexivity|]. cbn [foldM]. destruct (B acc k) as [acc' ->]. cbn [bind]. apply IH. }
    apply G.
  - apply orb_false_iff in Eq. destruct Eq as [-> Eq]. apply negb_false_iff in Eq.
    replace (seq 0 (f * ny)) with (0%nat :: seq 1 (f * ny - 1)) by (destruct (f * ny)%nat eqn:E; [nia|]; cbn [seq]; rewrite Nat.sub_succ, Nat.sub_0_r; reflexivity).
    cbn [foldM]. destruct (A [] 0%nat) as [g [_ E]]. rewrite E. destruct tq; [reflexivity|]. cbn [orb] in Eq. apply Nat.eqb_eq in Eq. subst ny. reflexivity.
Qed.
Hypothesis exact : forall pts vals g, griddata pts vals = Ok g -> NoDup pts -> length vals = length pts -> forall k, (k < length pts)%nat -> g (nth k pts (0, 0)) = nth k vals 0.
Lemma upscale_kept field F nx ny nz xt zt f quiet out : fitted field nx ny nz = Ok F -> upscale field nx ny nz xt zt f quiet = Ok out ->
  forall x y z, (x < nx)%nat -> (y < ny)%nat -> (z < nz)%nat -> nth (y * f) out (fun _ _ => 0) x z = F x y z.
Proof.
  intros HF H x y z Hx Hy Hz. destruct (upscale_slices _ _ _ _ _ _ _ _ _ _ HF H) as [Hf [_ Q]]. destruct (Q y 0%nat Hy Hf) as [g [Eg En]].
  rewrite Nat.add_0_r in En. rewrite En. assert (W : way (INR 0 / INR f) = 0) by (unfold way; cbn [INR]; unfold Rdiv; ring). rewrite W in Eg.
  assert (E1 : slice_points nx nz xt zt y 0 = flat_T nx nz (fun x z => (INR x, INR z))) by (apply flat_T_ext; intros; f_equal; ring).
  assert (E2 : slice_values F nx ny nz xt zt y 0 = flat_T nx nz (fun x z => F x y z)) by (apply flat_T_ext; intros; ring).
  rewrite E1, E2 in Eg. pose proof (exact _ _ g Eg (flat_T_nodup nx nz) ltac:(rewrite !flat_T_length; reflexivity) (z * nx + x)%nat ltac:(rewrite flat_T_length; nia)) as V.
  rewrite !flat_T_nth in V by assumption. exact V.
Qed.
Hypothesis nodes : forall nx ny nz F x y z, (x < nx)%nat -> (y < ny)%nat -> (z < nz)%nat -> mc (nx, ny, nz) F (INR x, INR y, INR z) = F x y z.
Lemma upscale_straight field F nx ny nz xt zt f quiet out : fitted field nx ny nz = Ok F -> upscale field nx ny nz xt zt f quiet = Ok out ->
  (forall x y z, (x < nx)%nat -> (y < ny)%nat -> (z < nz)%nat -> xt x y z = INR x /\ zt x y z = INR z) ->
  forall x y z m, (x < nx)%nat -> (y < ny)%nat -> (z < nz)%nat -> (m < f)%nat ->
  nth (y * f + m) out (fun _ _ => 0) x z = F x y z + way (INR m / INR f) * (F x (yup ny y) z - F x y z).
Proof.
  intros HF H Hs x y z m Hx Hy Hz Hm. destruct (upscale_slices _ _ _ _ _ _ _ _ _ _ HF H) as [Hf [_ Q]]. destruct (Q y m Hy Hm) as [g [Eg En]].
  rewrite En. assert (E1 : slice_points nx nz xt zt y (way (INR m / INR f)) = flat_T nx nz (fun x z => (INR x, INR z))).
  { apply flat_T_ext. intros x' z' H1 H2. destruct (Hs x' y z' H1 Hy H2) as [-> ->]. f_equal; ring. }
  assert (E2 : slice_values F nx ny nz xt zt y (way (INR m / INR f)) = flat_T nx nz (fun x z => F x y z + way (INR m / INR f) * (F x (yup ny y) z - F x y z))).
  { apply flat_T_ext. intros x' z' H1 H2. unfold endp. destruct (Hs x' y z' H1 Hy H2) as [-> ->]. rewrite nodes; [reflexivity|exact H1| |exact H2].
    unfold yup. destruct (Nat.eqb_spec y (ny - 1)); lia. }
  rewrite E1, E2 in Eg. pose proof (exact _ _ g Eg (flat_T_nodup nx nz) ltac:(rewrite !flat_T_length; reflexivity) (z * nx + x)%nat ltac:(rewrite flat_T_length; nia)) as V.
  rewrite !flat_T_nth in V by assumption. exact V.
Qed.
End Upscale.
Lemma way_range t : 0 <= t <= 1 -> 0 <= way t <= 1.
Proof.
  intros H. unfold way. split.
  - replace (3 * t ^ 2 - 2 * t ^ 3) with (t ^ 2 * (3 - 2 * t)) by ring. apply Rmult_le_pos; [apply pow2_ge_0|lra].
  - assert (E : 1 - (3 * t ^ 2 - 2 * t ^ 3) = (1 - t) ^ 2 * (1 + 2 * t)) by ring. assert (0 <= (1 - t) ^ 2 * (1 + 2 * t)) by (apply Rmult_le_pos; [apply pow2_ge_0|lra]). lra.
Qed.
Lemma way_mono s t : 0 <= s -> s < t -> t <= 1 -> way s < way t.
Proof.
  intros H1 H2 H3. unfold way. assert (E : 3 * t ^ 2 - 2 * t ^ 3 - (3 * s ^ 2 - 2 * s ^ 3) = (t - s) * (3 * (t + s) - 2 * (t ^ 2 + t * s + s ^ 2))) by ring.
  assert (0 < 3 * (t + s) - 2 * (t ^ 2 + t * s + s ^ 2)) by nra. nra.
Qed.
Lemma way_linear t : way t = t <-> t = 0 \/ t = 1 / 2 \/ t = 1.
Proof.
  unfold way. split.
  - intros E. assert (Q : t * ((2 * t - 1) * (1 - t)) = 0) by lra. destruct (Rmult_integral _ _ Q) as [|Q']; [left; assumption|]. destruct (Rmult_integral _ _ Q'); [right; left; lra|right; right; lra].
  - intros [-> |[-> | -> ]]; lra.
Qed.
Lemma fitted_wrong field nx ny nz : (prod (shape field) <> nx * ny * nz)%nat -> fitted field nx ny nz = Err ValueError.
Proof.
  intros H. unfold fitted, shape_eqb. destruct (list_eq_dec _ _ _) as [E|_]; [exfalso; apply H; rewrite E; cbn; lia|].
  destruct (Nat.eqb_spec (prod (shape field)) (nz * ny * nx)); [lia|reflexivity].
Qed.
Lemma upscale_entries mc tq griddata field F nx ny nz xt zt f quiet out :
  fitted field nx ny nz = Ok F -> upscale mc tq griddata field nx ny nz xt zt f quiet = Ok out ->
  length out = (f * ny)%nat /\
  forall y m, (y < ny)%nat -> (m < f)%nat -> exists pts vals g, griddata pts vals = Ok g /\ length pts = (nz * nx)%nat /\ length vals = (nz * nx)%nat /\
    (forall x z, (x < nx)%nat -> (z < nz)%nat ->
      let t := INR m / INR f in let s := 3 * t ^ 2 - 2 * t ^ 3 in
      nth (z * nx + x) pts (0, 0) = (INR x + s * (xt x y z - INR x), INR z + s * (zt x y z - INR z)) /\
      nth (z * nx + x) vals 0 = F x y z + s * (mc (nx, ny, nz) F (xt x y z, INR (if (y + 1 =? ny)%nat then 0%nat else (y + 1)%nat), zt x y z) - F x y z)) /\
    forall x z, nth (y * f + m) out (fun _ _ => 0) x z = g (INR x, INR z).
Proof.
  intros HF H. destruct (upscale_slices _ _ _ _ _ _ _ _ _ _ _ _ _ HF H) as [Hf [L Q]]. split; [exact L|]. intros y m Hy Hm. destruct (Q y m Hy Hm) as [g [Eg En]].
  eexists _, _, g. split; [exact Eg|]. split; [apply flat_T_length|]. split; [apply flat_T_length|]. split; [|exact En]. intros x z Hx Hz t s.
  unfold slice_points, slice_values. rewrite !flat_T_nth by assumption. split; [reflexivity|]. unfold endp, yup.
  destruct (Nat.eqb_spec y (ny - 1)), (Nat.eqb_spec (y + 1) ny); try lia; reflexivity.
Qed.
(** * oracles that fulfil the hypotheses: the value of the same point, else zero *)
Definition same (p q : R * R) : bool := (if Req_EM_T (fst p) (fst q) then true else false) && (if Req_EM_T (snd p) (snd q) then true else false).
Fixpoint lookup (pts : list (R * R)) (vals : list R) (p : R * R) : R :=
  match pts, vals with q :: pts', v :: vals' => if same q p then v else lookup pts' vals' p | _, _ => 0 end.
Definition nearest (pts : list (R * R)) (vals : list R) : res (R * R -> R) := Ok (lookup pts vals).
Lemma same_iff p q : same p q = true <-> p = q.
Proof.
  unfold same. destruct p as [a b], q as [a' b']. cbn [fst snd]. destruct (Req_EM_T a a') as [->|N], (Req_EM_T b b') as [->|N']; cbn [andb]; split; intros H; try discriminate; try reflexivity; injection H; intros; contradiction.
Qed.
Lemma lookup_exact pts vals g : nearest pts vals = Ok g -> NoDup pts -> length vals = length pts -> forall k, (k < length pts)%nat -> g (nth k pts (0, 0)) = nth k vals 0.
Proof.
  intros E. injection E as <-. revert vals. induction pts as [|q pts IH]; intros vals Hd Hl k Hk; [cbn in Hk; lia|]. destruct vals as [|v vals]; [discriminate|].
  inversion Hd as [|? ? Hn Hd']; subst. destruct k as [|k]; cbn [nth lookup].
  - rewrite (proj2 (same_iff q q) eq_refl). reflexivity.
  - cbn [length] in Hk, Hl. destruct (same q (nth k pts (0, 0))) eqn:Es.
    + apply same_iff in Es. exfalso. apply Hn. rewrite Es. apply nth_In. lia.
    + apply IH; [exact Hd'|lia|lia].
Qed.
Definition cell (_ : nat * nat * nat) (F : arr3) (p : R * R * R) : R :=
  let '(x, y, z) := p in F (Z.to_nat (up x - 1)) (Z.to_nat (up y - 1)) (Z.to_nat (up z - 1)).
Lemma up_nat n : Z.to_nat (up (INR n) - 1) = n.
Proof.
  rewrite INR_IZR_INZ. rewrite <- (tech_up (IZR (Z.of_nat n)) (Z.of_nat n + 1)); [rewrite Z.add_simpl_r; apply Nat2Z.id| |]; rewrite plus_IZR; lra.
Qed.
Lemma cell_nodes nx ny nz F x y z : (x < nx)%nat -> (y < ny)%nat -> (z < nz)%nat -> cell (nx, ny, nz) F (INR x, INR y, INR z) = F x y z.
Proof. intros _ _ _. unfold cell. rewrite !up_nat. reflexivity. Qed.
Lemma way_steps f m m' : (m < m')%nat -> (m' < f)%nat ->
  let s k := 3 * (INR k / INR f) ^ 2 - 2 * (INR k / INR f) ^ 3 in 0 <= s m /\ s m < s m' /\ s m' <= 1.
Proof.
  intros H1 H2 s. assert (Hf : 0 < INR f) by (apply lt_0_INR; lia).
  assert (B : forall k, (k <= f)%nat -> 0 <= INR k / INR f <= 1).
  { intros k Hk. split; [apply Rmult_le_pos; [apply pos_INR|left; apply Rinv_0_lt_compat; exact Hf]|]. apply Rmult_le_reg_r with (INR f); [exact Hf|].
    unfold Rdiv. rewrite Rmult_assoc, Rinv_l, Rmult_1_r, Rmult_1_l by lra. apply le_INR. exact Hk. }
  assert (L : INR m / INR f < INR m' / INR f) by (apply Rmult_lt_compat_r; [apply Rinv_0_lt_compat; exact Hf|apply lt_INR; exact H1]).
  pose proof (B m ltac:(lia)). pose proof (B m' ltac:(lia)).
  split; [apply (way_range (INR m / INR f)); lra|]. split; [apply (way_mono (INR m / INR f) (INR m' / INR f)); lra|apply (way_range (INR m' / INR f)); lra].
Qed.
Lemma spline2_linear a b t : a <> b -> spline2 a b t = a + t * (b - a) <-> t = 0 \/ t = 1 / 2 \/ t = 1.
Proof.
  intros N. rewrite spline2_step, <- way_linear. unfold way. split; intros H.
  - apply Rmult_eq_reg_r with (b - a); lra.
  - rewrite H. reflexivity.
Qed.
