(** Proofs about the Fourier sums of FieldReal.v. *)
From Coq Require Import List Reals Lra Lia.
From Verif Require Import Prelude FieldReal CoilSpec CoilProofs.
Import ListNotations.
Open Scope R_scope.

Lemma map_nth_seq {A B} (f : A -> B) l (d : A) : map f l = map (fun i => f (nth i l d)) (seq 0 (length l)).
Proof.
  induction l as [|a l IH]; [reflexivity|]. cbn [map length seq nth]. f_equal. rewrite <- seq_shift, map_map. exact IH.
Qed.
Lemma rsum_modes (g : R -> R -> R -> R) c xm xn : length c = length xm -> length xn = length xm ->
  rsum (map (fun i => g (nth i c 0) (nth i xm 0) (nth i xn 0)) (seq 0 (length xm))) =
  rsum (map (fun cmn => g (fst (fst cmn)) (snd (fst cmn)) (snd cmn)) (modes c xm xn)).
Proof.
  intros L1 L2. unfold modes. f_equal.
  rewrite (map_nth_seq (fun cmn : R * R * R => g (fst (fst cmn)) (snd (fst cmn)) (snd cmn)) _ (0, 0, 0)).
  rewrite !combine_length, L1, L2, !Nat.min_id. apply map_ext_in. intros i Hi. apply in_seq in Hi.
  rewrite combine_nth by (rewrite combine_length; lia). rewrite combine_nth by lia. reflexivity.
Qed.

Lemma transform_row (sine : bool) (xm xn : list R) (t z : R) (c : list R) : length c = length xm -> length xn = length xm ->
  let mt (i j : nat) := nth i xm 0 * t in let nz (i l : nat) := nth i xn 0 * z in
  let a i j := nth i c 0 * (if sine then sin (mt i j) else cos (mt i j)) in
  let c' i j := nth i c 0 * (if sine then cos (mt i j) else sin (mt i j)) in
  let b := dotT (length xm) a (fun i l => cos (nz i l)) 0%nat 0%nat in
  let d := dotT (length xm) c' (fun i l => sin (nz i l)) 0%nat 0%nat in
  (if sine then b + d else b - d) = series (if sine then sin else cos) (modes c xm xn) t z.
Proof.
  intros L1 L2 mt nz a c' b d. unfold series.
  rewrite <- (rsum_modes (fun c m n => c * (if sine then sin else cos) (m * t + n * z)) c xm xn L1 L2).
  unfold b, d, dotT, a, c', mt, nz. destruct sine.
  - rewrite <- rsum_plus. apply rsum_ext. intros i _. rewrite sin_plus. ring.
  - set (u := fun i => nth i c 0 * cos (nth i xm 0 * t) * cos (nth i xn 0 * z)).
    set (w := fun i => nth i c 0 * sin (nth i xm 0 * t) * sin (nth i xn 0 * z)).
    transitivity (rsum (map (fun i => u i + -1 * w i) (seq 0 (length xm)))).
    + rewrite rsum_plus, rsum_scale. ring.
    + apply rsum_ext. intros i _. unfold u, w. rewrite cos_plus. ring.
Qed.

Lemma transform_ok sine xm xn th ze c : fits xm xn c ->
  transform sine xm xn th ze c = Ok (table (fun row t z => series (if sine then sin else cos) (modes row xm xn) t z) c th ze).
Proof.
  intros [L F]. unfold transform. cbv zeta.
  match goal with |- foldM ?g _ _ = _ => set (step := g) end.
  assert (G : forall acc, foldM step c acc = Ok (acc ++ table (fun row t z => series (if sine then sin else cos) (modes row xm xn) t z) c th ze)).
  { induction c as [|row c IH]; intros acc.
    - cbn. now rewrite app_nil_r.
    - cbn [foldM]. assert (Lr := Forall_inv F).
      assert (E : step acc row = Ok (acc ++ [map (fun t => map (fun z => series (if sine then sin else cos) (modes row xm xn) t z) ze) th])).
      { unfold step. rewrite Lr, L, !Nat.eqb_refl. cbn [negb orb]. do 3 f_equal.
        rewrite (map_nth_seq (fun t => map (fun z => series (if sine then sin else cos) (modes row xm xn) t z) ze) th 0).
        apply map_ext. intros j. rewrite (map_nth_seq (fun z => series (if sine then sin else cos) (modes row xm xn) (nth j th 0) z) ze 0).
        apply map_ext. intros l. exact (transform_row sine xm xn (nth j th 0) (nth l ze 0) row Lr L). }
      rewrite E. cbn [bind]. rewrite IH by exact (Forall_inv_tail F). f_equal. rewrite <- app_assoc. reflexivity. }
  exact (G []).
Qed.
Lemma transform_misfit sine xm xn th ze c : ~ fits xm xn c -> c <> [] -> transform sine xm xn th ze c = Err ValueError.
Proof.
  intros NF NE. unfold transform. cbv zeta.
  match goal with |- foldM ?g _ _ = _ => set (step := g) end.
  assert (S : forall acc row, length row <> length xm \/ length xn <> length xm -> step acc row = Err ValueError).
  { intros acc row H. unfold step. destruct (Nat.eqb_spec (length row) (length xm)); destruct (Nat.eqb_spec (length xn) (length xm)); cbn [negb orb]; try reflexivity. lia. }
  destruct (Nat.eq_dec (length xn) (length xm)) as [L|L].
  - assert (H : exists row, In row c /\ length row <> length xm).
    { assert (D := Forall_Exists_dec (fun row : list R => length row = length xm) (fun row => Nat.eq_dec (length row) (length xm)) c).
      destruct D as [D|D]; [exfalso; apply NF; now split|]. apply Exists_exists in D as [row [I D]]. now exists row. }
    clear NF NE. generalize (@nil (list (list R))). induction c as [|row c IH]; intros acc; [destruct H as [? [[] _]]|].
    cbn [foldM]. destruct (Nat.eq_dec (length row) (length xm)) as [E|E]; [|now rewrite S by now left].
    destruct H as [row' [[<-|I] D]]; [contradiction|].
    assert (T : exists b, step acc row = Ok b). { unfold step. rewrite E, L, !Nat.eqb_refl. cbn [negb orb]. eexists. reflexivity. }
    destruct T as [b ->]. cbn [bind]. apply IH. now exists row'.
  - destruct c as [|row c]; [contradiction|]. cbn [foldM]. now rewrite S by now right.
Qed.

(** * Derivatives *)
Lemma series_dt_cos ms t z : derivable_pt_lim (fun t' => series cos ms t' z) t
  (rsum (map (fun cmn => - (fst (fst cmn) * snd (fst cmn)) * sin (snd (fst cmn) * t + snd cmn * z)) ms)).
Proof.
  unfold series. apply (d_rsum (fun (cmn : R * R * R) t' => fst (fst cmn) * cos (snd (fst cmn) * t' + snd cmn * z))). intros c _.
  eapply d_eq; [|apply d_scal, d_cos, d_add; [apply d_scal, d_id|apply d_const]]. cbv beta. ring.
Qed.
Lemma series_dz_cos ms t z : derivable_pt_lim (fun z' => series cos ms t z') z
  (rsum (map (fun cmn => - (fst (fst cmn) * snd cmn) * sin (snd (fst cmn) * t + snd cmn * z)) ms)).
Proof.
  unfold series. apply (d_rsum (fun (cmn : R * R * R) z' => fst (fst cmn) * cos (snd (fst cmn) * t + snd cmn * z'))). intros c _.
  eapply d_eq; [|apply d_scal, d_cos, d_add; [apply d_const|apply d_scal, d_id]]. cbv beta. ring.
Qed.
Lemma series_dt_sin ms t z : derivable_pt_lim (fun t' => series sin ms t' z) t
  (rsum (map (fun cmn => (fst (fst cmn) * snd (fst cmn)) * cos (snd (fst cmn) * t + snd cmn * z)) ms)).
Proof.
  unfold series. apply (d_rsum (fun (cmn : R * R * R) t' => fst (fst cmn) * sin (snd (fst cmn) * t' + snd cmn * z))). intros c _.
  eapply d_eq; [|apply d_scal, d_sin, d_add; [apply d_scal, d_id|apply d_const]]. cbv beta. ring.
Qed.
Lemma series_dz_sin ms t z : derivable_pt_lim (fun z' => series sin ms t z') z
  (rsum (map (fun cmn => (fst (fst cmn) * snd cmn) * cos (snd (fst cmn) * t + snd cmn * z)) ms)).
Proof.
  unfold series. apply (d_rsum (fun (cmn : R * R * R) z' => fst (fst cmn) * sin (snd (fst cmn) * t + snd cmn * z'))). intros c _.
  eapply d_eq; [|apply d_scal, d_sin, d_add; [apply d_const|apply d_scal, d_id]]. cbv beta. ring.
Qed.

Lemma mul_row_nth (f : R -> R) row x i : length row = length x -> (i < length x)%nat ->
  nth i (map (fun p => fst p * snd p) (combine (map f row) x)) 0 = f (nth i row 0) * nth i x 0.
Proof.
  intros L H. set (g := fun p : R * R => fst p * snd p).
  rewrite (nth_indep _ 0 (g (f 0, 0))) by (rewrite map_length, combine_length, map_length; lia).
  rewrite map_nth, combine_nth by (rewrite map_length; exact L). unfold g. cbn [fst snd]. now rewrite map_nth.
Qed.
Lemma mul_row_len (f : R -> R) row x : length row = length x -> length (map (fun p => fst p * snd p) (combine (map f row) x)) = length x.
Proof. intros L. rewrite map_length, combine_length, map_length. lia. Qed.

(** the series with coefficients times the mode numbers *)
Lemma series_scaled trig (f : R -> R) row x xm xn t z : length row = length xm -> length xn = length xm -> length x = length xm ->
  series trig (modes (map (fun p => fst p * snd p) (combine (map f row) x)) xm xn) t z =
  rsum (map (fun i => f (nth i row 0) * nth i x 0 * trig (nth i xm 0 * t + nth i xn 0 * z)) (seq 0 (length xm))).
Proof.
  intros L1 L2 L3. unfold series.
  rewrite <- (rsum_modes (fun c m n => c * trig (m * t + n * z))) by (try (rewrite mul_row_len; lia); lia).
  apply rsum_ext. intros i Hi. apply in_seq in Hi. rewrite mul_row_nth by lia. reflexivity.
Qed.

Lemma fits_times (f : R -> R) xm xn x c : fits xm xn c -> length x = length xm -> fits xm xn (times (map (map f) c) x).
Proof.
  intros [L F] Lx. split; [exact L|]. unfold times. rewrite map_map, Forall_map. eapply Forall_impl; [|exact F].
  intros row Lr. cbv beta in Lr |- *. rewrite mul_row_len; [exact Lx|congruence].
Qed.

Lemma table_times (f : R -> R) g c x th ze : table g (times (map (map f) c) x) th ze =
  table (fun row => g (map (fun p => fst p * snd p) (combine (map f row) x))) c th ze.
Proof. unfold table, times. now rewrite !map_map. Qed.

Lemma times_id c x : times c x = times (map (map (fun r => r)) c) x.
Proof. f_equal. rewrite <- (map_id c) at 1. apply map_ext. intros row. now rewrite map_id. Qed.

(** entries of a table *)
Lemma nth_map_in {A B} (f : A -> B) l i d d' : (i < length l)%nat -> nth i (map f l) d = f (nth i l d').
Proof. intros H. rewrite (nth_indep _ d (f d')) by now rewrite map_length. apply map_nth. Qed.
Lemma table_entry f c th ze k j l : (k < length c)%nat -> (j < length th)%nat -> (l < length ze)%nat ->
  entry (table f c th ze) k j l = f (nth k c []) (nth j th 0) (nth l ze 0).
Proof.
  intros Hk Hj Hl. unfold entry, table. rewrite (nth_map_in _ _ _ _ []) by exact Hk.
  rewrite (nth_map_in _ _ _ _ 0) by exact Hj. now rewrite (nth_map_in _ _ _ _ 0) by exact Hl.
Qed.

Lemma vmec_positions v th ze : asym v = None -> fits (xm v) (xn v) (rmnc v) -> fits (xm v) (xn v) (zmns v) ->
  vmec_r v th ze = Ok (table (fun row t z => series cos (modes row (xm v) (xn v)) t z) (rmnc v) th ze) /\
  vmec_z v th ze = Ok (table (fun row t z => series sin (modes row (xm v) (xn v)) t z) (zmns v) th ze).
Proof.
  intros A F1 F2. unfold vmec_r, vmec_z, cfunct, sfunct. rewrite A, !transform_ok by assumption. split; reflexivity.
Qed.

Lemma vmec_slopes v th ze k j l : asym v = None -> fits (xm v) (xn v) (rmnc v) -> fits (xm v) (xn v) (zmns v) ->
  (k < length (rmnc v))%nat -> (k < length (zmns v))%nat -> (j < length th)%nat -> (l < length ze)%nat ->
  exists drdu drdv dzdu dzdv, vmec_drdu v th ze = Ok drdu /\ vmec_drdv v th ze = Ok drdv /\ vmec_dzdu v th ze = Ok dzdu /\ vmec_dzdv v th ze = Ok dzdv /\
  let r := series cos (modes (nth k (rmnc v) []) (xm v) (xn v)) in
  let z := series sin (modes (nth k (zmns v) []) (xm v) (xn v)) in
  derivable_pt_lim (fun t => r t (nth l ze 0)) (nth j th 0) (entry drdu k j l) /\
  derivable_pt_lim (fun s => r (nth j th 0) s) (nth l ze 0) (entry drdv k j l) /\
  derivable_pt_lim (fun t => z t (nth l ze 0)) (nth j th 0) (entry dzdu k j l) /\
  derivable_pt_lim (fun s => z (nth j th 0) s) (nth l ze 0) (entry dzdv k j l).
Proof.
  intros A F1 F2 Hk1 Hk2 Hj Hl.
  assert (L : length (xn v) = length (xm v)) by apply F1.
  assert (LR : length (nth k (rmnc v) []) = length (xm v)) by (apply (proj1 (Forall_forall _ _) (proj2 F1)), nth_In, Hk1).
  assert (LZ : length (nth k (zmns v) []) = length (xm v)) by (apply (proj1 (Forall_forall _ _) (proj2 F2)), nth_In, Hk2).
  unfold vmec_drdu, vmec_drdv, vmec_dzdu, vmec_dzdv, cfunct, sfunct, neg. rewrite A, !(times_id (zmns v)).
  rewrite !transform_ok by (apply fits_times; auto). cbn [bind].
  do 4 eexists. do 4 (split; [reflexivity|]). cbv zeta. rewrite !table_times, !table_entry by assumption.
  rewrite !series_scaled by auto.
  repeat split.
  - eapply d_eq; [|apply series_dt_cos].
    rewrite <- (rsum_modes (fun c m n => - (c * m) * sin (m * nth j th 0 + n * nth l ze 0))) by auto. apply rsum_ext. intros i _. ring.
  - eapply d_eq; [|apply series_dz_cos].
    rewrite <- (rsum_modes (fun c m n => - (c * n) * sin (m * nth j th 0 + n * nth l ze 0))) by auto. apply rsum_ext. intros i _. ring.
  - eapply d_eq; [|apply series_dt_sin].
    rewrite <- (rsum_modes (fun c m n => (c * m) * cos (m * nth j th 0 + n * nth l ze 0))) by auto. apply rsum_ext. intros i _. ring.
  - eapply d_eq; [|apply series_dz_sin].
    rewrite <- (rsum_modes (fun c m n => (c * n) * cos (m * nth j th 0 + n * nth l ze 0))) by auto. apply rsum_ext. intros i _. ring.
Qed.

(** * Asymmetric equilibria *)
Definition w_vmec (c s : R) : vmec := {| xm := [1]; xn := [0]; rmnc := [[c]]; zmns := [[0]]; asym := Some ([[s]], [[0]]) |}.
Lemma w_angle : nth 1 (angles 5) 0 = PI / 2 /\ nth 0 (angles 5) 0 = 0 /\ nth 0 (angles 1) 0 = 0.
Proof. cbn. split; [field|split; [field|reflexivity]]. Qed.
Lemma w_fits c s : fits (xm (w_vmec c s)) (xn (w_vmec c s)) (rmnc (w_vmec c s)) /\ fits (xm (w_vmec c s)) (xn (w_vmec c s)) [[s]].
Proof. split; (split; [reflexivity|repeat constructor]). Qed.

(** r contains rmnc twice and rmns not at all *)
Lemma w_r_wrong : exists r, vmec_r (w_vmec 1 0) (angles 5) (angles 1) = Ok r /\ entry r 0 1 0 = 1 /\
  series cos (modes [1] [1] [0]) (PI / 2) 0 + series sin (modes [0] [1] [0]) (PI / 2) 0 = 0.
Proof.
  destruct (w_fits 1 0) as [F1 F2]. unfold vmec_r, cfunct, sfunct. rewrite !transform_ok by exact F1. cbn [bind asym w_vmec].
  eexists. split; [reflexivity|].
  destruct w_angle as [W1 [W0 Z0]].
  split.
  - unfold entry, zip3, table. cbn [map combine fst snd nth angles seq Nat.eqb w_vmec xm xn rmnc].
    unfold series, modes. cbn [combine map rsum fold_right fst snd].
    replace (INR 1 * (2 * PI) / INR (5 - 1)) with (PI / 2) by (cbn; field).
    replace (1 * (PI / 2) + 0 * 0) with (PI / 2) by ring. rewrite cos_PI2, sin_PI2. ring.
  - unfold series, modes. cbn [combine map rsum fold_right fst snd].
    replace (1 * (PI / 2) + 0 * 0) with (PI / 2) by ring. rewrite cos_PI2, sin_PI2. ring.
Qed.
(** and the slope of the missing part has the wrong sign *)
Lemma w_slope_wrong : exists d, vmec_drdu (w_vmec 0 1) (angles 5) (angles 1) = Ok d /\ entry d 0 0 0 = -1 /\
  derivable_pt_lim (fun t => series cos (modes [0] [1] [0]) t 0 + series sin (modes [1] [1] [0]) t 0) 0 1.
Proof.
  destruct (w_fits 0 1) as [F1 F2]. unfold vmec_drdu, cfunct, sfunct, neg. cbn [asym w_vmec].
  rewrite !transform_ok; [|apply (fits_times Ropp _ _ _ _ F2); reflexivity|apply (fits_times Ropp _ _ _ _ F1); reflexivity].
  cbn [bind]. eexists. split; [reflexivity|]. split.
  - unfold entry, zip3, table, times. cbn [map combine fst snd nth angles seq Nat.eqb w_vmec xm xn rmnc].
    unfold series, modes. cbn [combine map rsum fold_right fst snd].
    replace (INR 0 * (2 * PI) / INR (5 - 1)) with 0 by (cbn; field).
    replace (1 * 0 + 0 * 0) with 0 by ring. rewrite cos_0, sin_0. ring.
  - eapply d_eq; [|apply d_add; [apply series_dt_cos|apply series_dt_sin]].
    unfold modes. cbn [combine map rsum fold_right fst snd].
    replace (1 * 0 + 0 * 0) with 0 by ring. rewrite cos_0, sin_0. ring.
Qed.


(** * The field is tangent to the surfaces *)
Lemma combine_nth_in {A B} (a : list A) (b : list B) i da db : (i < length a)%nat -> (i < length b)%nat -> nth i (combine a b) (da, db) = (nth i a da, nth i b db).
Proof.
  revert b i. induction a as [|x a IH]; intros b i Ha Hb; [cbn in Ha; lia|]. destruct b as [|y b]; [cbn in Hb; lia|].
  destruct i as [|i]; [reflexivity|]. cbn in *. apply IH; lia.
Qed.
Lemma zip3_entry op a b k j l : has_entry a k j l -> has_entry b k j l -> entry (zip3 op a b) k j l = op (entry a k j l) (entry b k j l).
Proof.
  intros (A1 & A2 & A3) (B1 & B2 & B3). unfold entry, zip3.
  rewrite (nth_map_in _ _ _ _ ([], [])) by (rewrite combine_length; lia). rewrite combine_nth_in by assumption. cbn [fst snd].
  rewrite (nth_map_in _ _ _ _ ([], [])) by (rewrite combine_length; lia). rewrite combine_nth_in by assumption. cbn [fst snd].
  rewrite (nth_map_in _ _ _ _ (0, 0)) by (rewrite combine_length; lia). rewrite combine_nth_in by assumption. reflexivity.
Qed.
Lemma zip3_has op a b k j l : has_entry a k j l -> has_entry b k j l -> has_entry (zip3 op a b) k j l.
Proof.
  intros (A1 & A2 & A3) (B1 & B2 & B3). unfold has_entry, zip3.
  split; [rewrite map_length, combine_length; lia|].
  rewrite (nth_map_in _ _ _ _ ([], [])) by (rewrite combine_length; lia). rewrite combine_nth_in by assumption. cbn [fst snd].
  split; [rewrite map_length, combine_length; lia|].
  rewrite (nth_map_in _ _ _ _ ([], [])) by (rewrite combine_length; lia). rewrite combine_nth_in by assumption. cbn [fst snd].
  rewrite map_length, combine_length. lia.
Qed.
Lemma table_has f c th ze k j l : (k < length c)%nat -> (j < length th)%nat -> (l < length ze)%nat -> has_entry (table f c th ze) k j l.
Proof.
  intros Hk Hj Hl. unfold has_entry, table. rewrite map_length. split; [exact Hk|].
  rewrite (nth_map_in _ _ _ _ []) by exact Hk. rewrite map_length. split; [exact Hj|].
  rewrite (nth_map_in _ _ _ _ 0) by exact Hj. now rewrite map_length.
Qed.
Lemma br_entry bu bv du dv k j l : has_entry bu k j l -> has_entry bv k j l -> has_entry du k j l -> has_entry dv k j l ->
  entry (vmec_br bu bv du dv) k j l = entry bu k j l * entry du k j l + entry bv k j l * entry dv k j l.
Proof. intros. unfold vmec_br. rewrite !zip3_entry by (try apply zip3_has; assumption). reflexivity. Qed.
Lemma bphi_entry r bv k j l : has_entry r k j l -> has_entry bv k j l -> entry (vmec_bphi r bv) k j l = entry r k j l * entry bv k j l.
Proof. intros. unfold vmec_bphi. now rewrite zip3_entry. Qed.

Lemma series_chain_cos ms U V s u v : derivable_pt_lim U s u -> derivable_pt_lim V s v ->
  derivable_pt_lim (fun s' => series cos ms (U s') (V s')) s
   (rsum (map (fun cmn => fst (fst cmn) * (- sin (snd (fst cmn) * U s + snd cmn * V s) * (snd (fst cmn) * u + snd cmn * v))) ms)).
Proof.
  intros DU DV. unfold series. apply (d_rsum (fun (cmn : R * R * R) s' => fst (fst cmn) * cos (snd (fst cmn) * U s' + snd cmn * V s'))). intros c _.
  apply d_scal. apply (d_cos (fun s' => snd (fst c) * U s' + snd c * V s')). apply d_add; apply d_scal; assumption.
Qed.
Lemma series_chain_sin ms U V s u v : derivable_pt_lim U s u -> derivable_pt_lim V s v ->
  derivable_pt_lim (fun s' => series sin ms (U s') (V s')) s
   (rsum (map (fun cmn => fst (fst cmn) * (cos (snd (fst cmn) * U s + snd cmn * V s) * (snd (fst cmn) * u + snd cmn * v))) ms)).
Proof.
  intros DU DV. unfold series. apply (d_rsum (fun (cmn : R * R * R) s' => fst (fst cmn) * sin (snd (fst cmn) * U s' + snd cmn * V s'))). intros c _.
  apply d_scal. apply (d_sin (fun s' => snd (fst c) * U s' + snd c * V s')). apply d_add; apply d_scal; assumption.
Qed.

Lemma vmec_tangent v th ze bu bv k j l U V s : asym v = None -> fits (xm v) (xn v) (rmnc v) -> fits (xm v) (xn v) (zmns v) ->
  (k < length (rmnc v))%nat -> (k < length (zmns v))%nat -> (j < length th)%nat -> (l < length ze)%nat ->
  has_entry bu k j l -> has_entry bv k j l ->
  U s = nth j th 0 -> V s = nth l ze 0 ->
  derivable_pt_lim U s (entry bu k j l) -> derivable_pt_lim V s (entry bv k j l) ->
  exists drdu drdv dzdu dzdv, vmec_drdu v th ze = Ok drdu /\ vmec_drdv v th ze = Ok drdv /\ vmec_dzdu v th ze = Ok dzdu /\ vmec_dzdv v th ze = Ok dzdv /\
  derivable_pt_lim (fun s' => series cos (modes (nth k (rmnc v) []) (xm v) (xn v)) (U s') (V s')) s (entry (vmec_br bu bv drdu drdv) k j l) /\
  derivable_pt_lim (fun s' => series sin (modes (nth k (zmns v) []) (xm v) (xn v)) (U s') (V s')) s (entry (vmec_br bu bv dzdu dzdv) k j l) /\
  exists r, vmec_r v th ze = Ok r /\ entry (vmec_bphi r bv) k j l = series cos (modes (nth k (rmnc v) []) (xm v) (xn v)) (U s) (V s) * entry bv k j l.
Proof.
  intros A F1 F2 Hk1 Hk2 Hj Hl Eu Ev EU EV DU DV.
  assert (L : length (xn v) = length (xm v)) by apply F1.
  assert (LR : length (nth k (rmnc v) []) = length (xm v)) by (apply (proj1 (Forall_forall _ _) (proj2 F1)), nth_In, Hk1).
  assert (LZ : length (nth k (zmns v) []) = length (xm v)) by (apply (proj1 (Forall_forall _ _) (proj2 F2)), nth_In, Hk2).
  unfold vmec_drdu, vmec_drdv, vmec_dzdu, vmec_dzdv, cfunct, sfunct, neg. rewrite A, !(times_id (zmns v)).
  rewrite !transform_ok by (apply fits_times; auto). cbn [bind].
  do 4 eexists. do 4 (split; [reflexivity|]). rewrite !table_times.
  rewrite !br_entry by (assumption || (apply table_has; assumption)). rewrite !table_entry by assumption. rewrite !series_scaled by auto.
  split; [|split].
  - eapply d_eq; [|apply series_chain_cos; eassumption]. rewrite EU, EV.
    rewrite <- (rsum_modes (fun c m n => c * (- sin (m * nth j th 0 + n * nth l ze 0) * (m * entry bu k j l + n * entry bv k j l)))) by auto.
    rewrite <- !rsum_scale, <- rsum_plus. apply rsum_ext. intros i _. ring.
  - eapply d_eq; [|apply series_chain_sin; eassumption]. rewrite EU, EV.
    rewrite <- (rsum_modes (fun c m n => c * (cos (m * nth j th 0 + n * nth l ze 0) * (m * entry bu k j l + n * entry bv k j l)))) by auto.
    rewrite <- !rsum_scale, <- rsum_plus. apply rsum_ext. intros i _. ring.
  - destruct (vmec_positions v th ze A F1 F2) as (E & _). rewrite E. eexists. split; [reflexivity|].
    rewrite bphi_entry by (assumption || (apply table_has; assumption)). rewrite table_entry by assumption. now rewrite EU, EV.
Qed.

Lemma ok_inj {A} (x y : A) : Ok x = Ok y -> x = y.
Proof. congruence. Qed.
Lemma asym_r_refuted : ~ forall v rmns zmnc th ze r, asym v = Some (rmns, zmnc) ->
  fits (xm v) (xn v) (rmnc v) -> fits (xm v) (xn v) rmns -> vmec_r v th ze = Ok r ->
  forall k j l, has_entry r k j l ->
    entry r k j l = series cos (modes (nth k (rmnc v) []) (xm v) (xn v)) (nth j th 0) (nth l ze 0) + series sin (modes (nth k rmns []) (xm v) (xn v)) (nth j th 0) (nth l ze 0).
Proof.
  intros H. destruct w_r_wrong as (r & E & V & S). destruct (w_fits 1 0) as [F1 F2].
  assert (HE : has_entry r 0 1 0).
  { unfold vmec_r, cfunct, sfunct in E. rewrite !transform_ok in E by exact F1. cbn [bind asym w_vmec] in E. apply ok_inj in E. rewrite <- E.
    apply zip3_has; apply table_has; cbn; lia. }
  specialize (H (w_vmec 1 0) [[0]] [[0]] (angles 5) (angles 1) r eq_refl F1 F2 E 0%nat 1%nat 0%nat HE).
  destruct w_angle as (W1 & W0 & Z0). rewrite W1, Z0, V in H. cbn [w_vmec rmnc xm xn nth] in H. rewrite S in H. lra.
Qed.
Lemma asym_slope_refuted : ~ forall v rmns zmnc th ze d, asym v = Some (rmns, zmnc) ->
  fits (xm v) (xn v) (rmnc v) -> fits (xm v) (xn v) rmns -> vmec_drdu v th ze = Ok d ->
  forall k j l, has_entry d k j l ->
    derivable_pt_lim (fun t => series cos (modes (nth k (rmnc v) []) (xm v) (xn v)) t (nth l ze 0) + series sin (modes (nth k rmns []) (xm v) (xn v)) t (nth l ze 0))
      (nth j th 0) (entry d k j l).
Proof.
  intros H. destruct w_slope_wrong as (d & E & V & S). destruct (w_fits 0 1) as [F1 F2].
  assert (HE : has_entry d 0 0 0).
  { unfold vmec_drdu, cfunct, sfunct, neg in E. cbn [asym w_vmec] in E.
    rewrite !transform_ok in E; [|apply (fits_times Ropp _ _ _ _ F2); reflexivity|apply (fits_times Ropp _ _ _ _ F1); reflexivity].
    cbn [bind] in E. apply ok_inj in E. rewrite <- E. apply zip3_has; apply table_has; cbn; lia. }
  specialize (H (w_vmec 0 1) [[1]] [[0]] (angles 5) (angles 1) d eq_refl F1 F2 E 0%nat 0%nat 0%nat HE).
  destruct w_angle as (W1 & W0 & Z0). rewrite W0, Z0, V in H. cbn [w_vmec rmnc xm xn nth] in H.
  assert (T := uniqueness_limite _ _ _ _ H S). lra.
Qed.
