(** make_maps as a whole. *)
From Coq Require Import String Ascii List ZArith QArith Qabs Qround Lia Lqa Bool.
From Verif Require Import Prelude PreludeFacts NamingModel NamingSpec NamingProofs GridModel GridSpec GridProofs
  MapsModel MapsSpec MapsTrace MapsJ.
Import ListNotations.
Open Scope string_scope.

(** ** Names that survive the clean-up *)

Lemma has_substring c n m s : has c (String.substring n m s) = true -> has c s = true.
Proof.
  revert n m. induction s as [|d s IH]; intros [|n] [|m] H; cbn in *; try discriminate.
  - apply orb_true_iff in H. apply orb_true_iff. destruct H as [H|H]; [now left|right; now apply (IH 0%nat m)].
  - apply orb_true_iff. right. now apply (IH n 0%nat).
  - apply orb_true_iff. right. now apply (IH n (S m)).
Qed.

Lemma contains_has sub s c : has c sub = true -> contains sub s = true -> has c s = true.
Proof.
  unfold contains. intros Hc H. destruct (String.index 0 sub s) as [n|] eqn:E; [|discriminate].
  apply String.index_correct1 in E. apply (has_substring c n (String.length sub)). now rewrite E.
Qed.

Section Survive.
Variable repr : Q -> string.
Notation nm := (nm repr).

Lemma digits_no_y s : all_digits s = true -> has "y" s = false.
Proof.
  induction s as [|c s IH]; intros H; [reflexivity|].
  cbn [all_digits] in H. apply andb_true_iff in H as [Hc Hs]. cbn [has].
  rewrite (IH Hs), orb_false_r.
  destruct (Ascii.eqb_spec "y" c) as [<-|]; [|reflexivity]. vm_compute in Hc. discriminate.
Qed.

Lemma nm_int f k : k <> 0%Z -> nm f (OInt k) = name_int f k.
Proof. intros H. unfold MapsTrace.nm. now rewrite name_int_ok. Qed.

Lemma nm_no_y f k : In f fields6 -> k <> 0%Z -> has "y" (nm f (OInt k)) = false.
Proof.
  intros Hf Hk. rewrite nm_int by assumption. unfold name_int, suffix_of.
  rewrite !has_app. destruct (1 <? Z.abs k)%Z; destruct (0 <? k)%Z; cbn in Hf;
    destruct Hf as [<-|[<-|[<-|[<-|[<-|[<-|[]]]]]]]; cbn; rewrite ?digits_no_y by apply dec_digits; reflexivity.
Qed.

Lemma nm_kept d f k : In f fields6 -> k <> 0%Z -> drop_half_maps d (nm f (OInt k)) = d (nm f (OInt k)).
Proof.
  intros Hf Hk. unfold drop_half_maps.
  destruct (contains "_cell_y" (nm f (OInt k))) eqn:C; [|reflexivity].
  apply (contains_has _ _ "y") in C; [|reflexivity]. rewrite nm_no_y in C by assumption. discriminate.
Qed.

Lemma add_J_kept is_slab st d f k : k <> 0%Z -> add_J is_slab st d (nm f (OInt k)) = d (nm f (OInt k)).
Proof.
  intros Hk. rewrite nm_int by assumption. unfold add_J, name_int.
  destruct (0 <? k)%Z, is_slab; rewrite !dset_neq by (cbn; discriminate); reflexivity.
Qed.
End Survive.

Section Top.
Variable repr : Q -> string.
Context {G : Type}.
Variable pR pZ : G -> arr2.
Variable pnx pnz : G -> nat.
Variable findIndex : G -> arr2 -> arr2 -> arr2 * arr2.
Variable trace : arr2 -> arr2 -> list Q -> list (arr2 * arr2).
Variable outside : arr2 -> Q -> arr2 -> Z -> Z -> bool.
Variable Byfunc : Q -> Q -> Q -> Q.
Variable roots_jacobi : nat -> list Q * list Q.
Variable fll : list (Q * Q) -> list Q -> Q.
Variable Jperp : G -> Z -> Z -> Q.
Variable is_slab : bool.
Variable flow : arr2 -> arr2 -> Q -> Q -> arr2 * arr2.
Variable t1 : Q -> Q -> list Q -> list (Q * Q).
Hypothesis Hflow : follows trace flow.
Hypothesis Ht : pointwise trace t1.
Hypothesis Hroots : forall n, length (fst (roots_jacobi n)) = n.
Variable g : grid G.
Hypothesis Wg : well_formed g.
Variables (nslice mxg spd : Z) (refine n_chunks : nat) (junk : jstate).
Hypothesis Hns : (0 <= nslice)%Z.
Hypothesis Hspd : (1 <= spd)%Z.
Hypothesis Hacc : weights_accepted roots_jacobi spd = true.
Hypothesis Href : (1 <= refine)%nat.
Hypothesis Hch : n_chunks <> 0%nat.

Notation nm := (nm repr).
Notation present := (present repr).
Notation arr := (arr repr).
Notation step_entry := (step_entry repr pR pZ pnx pnz findIndex outside roots_jacobi flow g spd).
Notation trace_step := (trace_step G pR pZ pnx pnz findIndex trace outside roots_jacobi g spd).

Lemma dir_loop os d : present d os -> (forall o, In o os -> used_offset o) -> NoDup os -> os <> [] ->
  exists d', foldM (trace_step (map (ps_of repr) os)) (zrange 0 (ny g)) d = Ok d' /\
    present d' os /\ (forall j, (0 <= j < ny g)%Z -> step_entry os d' j) /\
    (forall k, (forall f o, In f fields6 -> In o os -> k <> nm f o) -> d' k = d k) /\
    (forall f o o', In f ["xt_primes"; "zt_primes"] -> nth_error os (length os - 1) = Some o' -> In o os -> o <> o' ->
       d' (nm f o) = d (nm f o)).
Proof.
  intros P U ND Hne.
  destruct (foldM_inv (fun pre d' => present d' os /\ (forall j, In j pre -> step_entry os d' j) /\
    (forall k, (forall f o, In f fields6 -> In o os -> k <> nm f o) -> d' k = d k) /\
    (forall f o o', In f ["xt_primes"; "zt_primes"] -> nth_error os (length os - 1) = Some o' -> In o os -> o <> o' ->
       d' (nm f o) = d (nm f o))) (trace_step (map (ps_of repr) os)) (zrange 0 (ny g)) d) as (d' & E & H1 & H2 & H3 & H4).
  - split; [assumption|split; [intros ? []|auto]].
  - intros pre j post d1 El (I1 & I2 & I3 & I4).
    assert (Hj : (0 <= j < ny g)%Z).
    { apply in_zrange. rewrite El. apply in_app_iff. right. now left. }
    assert (Hnj : ~ In j pre).
    { pose proof (NoDup_zrange 0 (ny g)) as NZ. rewrite El in NZ. apply NoDup_remove_2 in NZ.
      intros C. apply NZ, in_app_iff. now left. }
    destruct (trace_step_ok repr pR pZ pnx pnz findIndex trace outside roots_jacobi flow Hflow g Wg spd os d1 j I1 U ND Hne Hj Hspd Hroots)
      as (d2 & E2 & A1 & A2 & A3 & A4 & A5).
    exists d2. split; [exact E2|split; [exact A1|split; [|split]]].
    + intros j' Hj'. apply in_app_iff in Hj'. destruct Hj' as [Hj'|[<-|[]]]; [|exact A2].
      apply (step_entry_ext repr pR pZ pnx pnz findIndex outside roots_jacobi flow g spd os d1); [|now apply I2].
      intros f o x z s Hf Ho. apply A3; auto. intros ->. contradiction.
    + intros k Hk. rewrite A4 by assumption. now apply I3.
    + intros f o o' Hf Eo Ho Hno. rewrite (A5 f o o') by assumption. eapply I4; eauto.
  - exists d'. split; [exact E|split; [exact H1|split; [|split; assumption]]].
    intros j Hj. apply H2. now apply in_zrange.
Qed.

Lemma dir_offsets_disjoint o : In o (dir_offsets nslice 1) -> In o (dir_offsets nslice (-1)) -> False.
Proof.
  intros [<-|H1] [E|H2].
  - discriminate.
  - apply in_map_iff in H2 as (k & C & _). discriminate.
  - apply in_map_iff in H1 as (k & C & _). subst o. discriminate.
  - apply in_map_iff in H1 as (k1 & C1 & K1). apply in_map_iff in H2 as (k2 & C2 & K2).
    apply in_zrange in K1, K2. subst o. injection C2 as C2. lia.
Qed.

Lemma dir_offsets_ne dir : dir_offsets nslice dir <> [].
Proof. discriminate. Qed.

Lemma step_entry_frame os d d' j : (forall f o, In f fields6 -> In o os -> d' (nm f o) = d (nm f o)) ->
  step_entry os d j -> step_entry os d' j.
Proof.
  intros H. apply step_entry_ext. intros f o x z s Hf Ho. unfold MapsTrace.arr. now rewrite H.
Qed.

Lemma gather_RZ_ok : exists RZ, gather_RZ G pR pZ g = Ok RZ /\
  forall j p y x z s, (0 <= j < ny g)%Z -> getPoloidalGrid g (inject_Z j) = Ok (Some p, y) ->
    fst RZ x j z s = pR p x z /\ snd RZ x j z s = pZ p x z.
Proof.
  unfold gather_RZ.
  match goal with |- exists RZ, foldM ?f _ _ = _ /\ _ =>
    destruct (foldM_inv (fun pre (RZ : arr4 * arr4) => forall j p y x z s, In j pre -> getPoloidalGrid g (inject_Z j) = Ok (Some p, y) ->
      fst RZ x j z s = pR p x z /\ snd RZ x j z s = pZ p x z) f (zrange 0 (ny g)) (zeros, zeros)) as (RZ & E & H) end.
  - intros ? ? ? ? ? ? [].
  - intros pre j post RZ El I1.
    assert (Hj : (0 <= j < ny g)%Z).
    { apply in_zrange. rewrite El. apply in_app_iff. right. now left. }
    destruct (getPoloidalGrid_slice g Wg j Hj) as (p & y & Ep). rewrite Ep. cbn [bind fst snd].
    eexists; split; [reflexivity|]. cbn [fst snd].
    intros j' p' y' x z s Hin Ep'. apply in_app_iff in Hin.
    destruct (Z.eq_dec j' j) as [->|N].
    + rewrite Ep in Ep'. injection Ep' as <- <-. now rewrite !set3_eq.
    + rewrite !set3_neq by assumption. eapply I1; eauto. destruct Hin as [Hin|[<-|[]]]; [assumption|congruence].
  - exists RZ. split; [exact E|]. intros j p y x z s Hj. apply H. now apply in_zrange.
Qed.

Definition run := make_maps repr G pR pZ pnx pnz findIndex trace outside Byfunc roots_jacobi fll Jperp is_slab g
                    nslice mxg spd refine n_chunks junk.

(** Everything the theorems need to know about the result. *)
Record result (nx : nat) (d : dict) : Prop := {
  r_f : forall j, (0 <= j < ny g)%Z -> exists d', step_entry (dir_offsets nslice 1) d' j /\
     forall f k, In f fields6 -> (1 <= k <= nslice)%Z -> d (nm f (OInt k)) = d' (nm f (OInt k));
  r_b : forall j, (0 <= j < ny g)%Z -> exists d', step_entry (dir_offsets nslice (-1)) d' j /\
     forall f k, In f fields6 -> (1 <= k <= nslice)%Z -> d (nm f (OInt (- k))) = d' (nm f (OInt (- k)));
  r_present : forall f k, In f fields6 -> k <> 0%Z -> (Z.abs k <= nslice)%Z -> exists a, d (nm f (OInt k)) = Some (VArr a);
  r_half : forall j, (0 <= j < ny g)%Z ->
     (exists d', step_entry (dir_offsets nslice 1) d' j /\
        forall f, In f ["R"; "Z"] -> exists a, d (String.append f "_cell_yhigh") = Some (VArr a) /\
          d' (nm f (OFloat ((1#2) * inject_Z 1))) = Some (VArr a)) /\
     (exists d', step_entry (dir_offsets nslice (-1)) d' j /\
        forall f, In f ["R"; "Z"] -> exists a, d (String.append f "_cell_ylow") = Some (VArr a) /\
          d' (nm f (OFloat ((1#2) * inject_Z (-1)))) = Some (VArr a));
  r_zero : forall f k, In f ["xt_primes"; "zt_primes"] -> k <> 0%Z -> (Z.abs k < nslice)%Z -> d (nm f (OInt k)) = Some (VArr zeros);
  r_weights : d "subcell_weights" = Some (VList (subcell_weights roots_jacobi spd));
  r_RZ : exists aR aZ, d "R" = Some (VArr aR) /\ d "Z" = Some (VArr aZ) /\
     forall j p y x z s, (0 <= j < ny g)%Z -> getPoloidalGrid g (inject_Z j) = Ok (Some p, y) ->
        aR x j z s = pR p x z /\ aZ x j z s = pZ p x z;
  r_ints : d "MXG" = Some (VInt mxg) /\ d "MYG" = Some (VInt nslice);
  r_J : exists st, (forall j, (0 <= j < ny g)%Z -> slice_ok_J pR pZ Byfunc fll Jperp t1 g refine st nx j) /\
     (is_slab = false -> d "J" = Some (VArr (s_J st)) /\ d "Ly_cell_ylow" = Some (VArr (s_sg st 0%nat)) /\
        d "Ly" = Some (VArr (s_sg st 1%nat)) /\ d "Ly_cell_yhigh" = Some (VArr (s_sg st 2%nat))) /\
     d "By_cell_ylow" = Some (VArr (s_B st 0%nat)) /\ d "By" = Some (VArr (s_B st 1%nat)) /\
     d "By_cell_yhigh" = Some (VArr (s_B st 2%nat)) }.

Lemma in_dir_offsets k dir : (1 <= k <= nslice)%Z -> In (OInt (k * dir)) (dir_offsets nslice dir).
Proof. intros H. right. apply in_map_iff. exists k. split; [reflexivity|]. apply in_zrange. lia. Qed.

Lemma last_dir_offset dir : (1 <= nslice)%Z ->
  nth_error (dir_offsets nslice dir) (length (dir_offsets nslice dir) - 1) = Some (OInt (nslice * dir)).
Proof.
  intros H. unfold dir_offsets. cbn [length]. rewrite map_length, zrange_length.
  replace (S (Z.to_nat (nslice + 1 - 1)) - 1)%nat with (S (Z.to_nat nslice - 1))%nat by lia. cbn [nth_error].
  rewrite nth_error_map, nth_error_zrange by lia. cbn [option_map].
  now replace (1 + Z.of_nat (Z.to_nat nslice - 1))%Z with nslice by lia.
Qed.

(** No key other than the maps' own is touched by the tracing loops. *)
Lemma plain_key k f o : (forall h, k <> String.append "forward" h) -> (forall h, k <> String.append "backward" h) ->
  (forall h, has "_" h = true -> k <> h) -> used_offset o -> In f fields6 -> k <> nm f o.
Proof.
  intros H1 H2 H3 Ho Hf C. destruct o as [z|q]; cbn in Ho.
  - rewrite nm_int in C by assumption. unfold name_int in C. destruct (0 <? z)%Z; [eapply H1|eapply H2]; exact C.
  - unfold MapsTrace.nm in C. destruct Ho as [-> | ->].
    + rewrite name_half in C. apply (H3 _) in C; [assumption|]. rewrite has_app. apply orb_true_r.
    + rewrite name_mhalf in C. apply (H3 _) in C; [assumption|]. rewrite has_app. apply orb_true_r.
Qed.

Lemma weights_key f o : used_offset o -> In f fields6 -> "subcell_weights" <> nm f o.
Proof.
  intros Ho Hf C. destruct o as [z|q]; cbn in Ho.
  - rewrite nm_int in C by assumption. unfold name_int in C. destruct (0 <? z)%Z; discriminate.
  - unfold MapsTrace.nm in C. destruct Ho as [-> | ->].
    + rewrite name_half in C. cbn in Hf. destruct Hf as [<-|[<-|[<-|[<-|[<-|[<-|[]]]]]]]; discriminate.
    + rewrite name_mhalf in C. cbn in Hf. destruct Hf as [<-|[<-|[<-|[<-|[<-|[<-|[]]]]]]]; discriminate.
Qed.

Lemma R_key k f o : In k ["R"; "Z"; "MXG"; "MYG"] -> used_offset o -> In f fields6 -> k <> nm f o.
Proof.
  intros Hk Ho Hf C. destruct o as [z|q]; cbn in Ho.
  - rewrite nm_int in C by assumption. unfold name_int in C. destruct (0 <? z)%Z, Hk as [<-|[<-|[<-|[<-|[]]]]]; discriminate.
  - unfold MapsTrace.nm in C. destruct Ho as [-> | ->].
    + rewrite name_half in C. cbn in Hf. destruct Hk as [<-|[<-|[<-|[<-|[]]]]]; destruct Hf as [<-|[<-|[<-|[<-|[<-|[<-|[]]]]]]]; discriminate.
    + rewrite name_mhalf in C. cbn in Hf. destruct Hk as [<-|[<-|[<-|[<-|[]]]]]; destruct Hf as [<-|[<-|[<-|[<-|[<-|[<-|[]]]]]]]; discriminate.
Qed.

Lemma make_maps_ok : exists d p0 y0, run = Ok d /\ getPoloidalGrid g 0 = Ok (Some p0, y0) /\ result (pnx p0) d.
Proof.
  destruct (getPoloidalGrid_slice g Wg 0) as (p0 & y0 & E0). { pose proof (ny_pos g Wg). lia. }
  change (inject_Z 0) with 0%Q in E0.
  unfold run, make_maps. rewrite E0. cbn [bind fst].
  destruct gather_RZ_ok as (RZ & ERZ & HRZ). rewrite ERZ. cbn [bind]. rewrite Hacc. cbn [negb].
  match goal with |- context [mk_pslices repr ?d (dir_offsets nslice 1)] => set (d0 := d) end.
  set (osf := dir_offsets nslice 1). set (osb := dir_offsets nslice (-1)).
  assert (Uf : forall o, In o osf -> used_offset o) by (intros o; apply dir_offsets_used; now left).
  assert (Ub : forall o, In o osb -> used_offset o) by (intros o; apply dir_offsets_used; now right).
  assert (NDf : NoDup osf) by (apply dir_offsets_NoDup; now left).
  assert (NDb : NoDup osb) by (apply dir_offsets_NoDup; now right).
  destruct (mk_pslices_ok repr d0 osf NDf Uf) as (d1 & E1 & Z1 & F1). rewrite E1. cbn [bind fst snd].
  destruct (mk_pslices_ok repr d1 osb NDb Ub) as (d2 & E2 & Z2 & F2). rewrite E2. cbn [bind fst snd].
  assert (Dis : forall f o f' o', In f fields6 -> In f' fields6 -> In o osf -> In o' osb -> nm f o <> nm f' o').
  { intros f o f' o' Hf Hf' Ho Ho' C. apply nm_inj in C; auto. destruct C as [_ ->].
    eapply dir_offsets_disjoint; eauto. }
  unfold trace_all. cbn [foldM].
  assert (Zf : forall f o, In f fields6 -> In o osf -> d2 (nm f o) = Some (VArr zeros)).
  { intros f o Hf Ho. rewrite F2; [now apply Z1|]. intros; now apply Dis. }
  destruct (dir_loop osf d2) as (d3 & E3 & P3 & S3 & F3 & X3); auto.
  { intros f o Hf Ho. rewrite Zf by assumption. eauto. } { apply dir_offsets_ne. }
  rewrite E3. cbn [bind].
  assert (Zb : forall f o, In f fields6 -> In o osb -> d3 (nm f o) = Some (VArr zeros)).
  { intros f o Hf Ho. rewrite F3; [now apply Z2|]. intros f' o' Hf' Ho' C. symmetry in C. revert C. now apply Dis. }
  destruct (dir_loop osb d3) as (d4 & E4 & P4 & S4 & F4 & X4); auto.
  { intros f o Hf Ho. rewrite Zb by assumption. eauto. } { apply dir_offsets_ne. }
  rewrite E4. cbn [bind].
  destruct (J_loop_ok pR pZ trace Byfunc fll Jperp t1 Ht g Wg refine Href (pnx p0) n_chunks junk Hch) as (st & EJ & HJ).
  rewrite EJ. cbn [bind].
  eexists. exists p0, y0. split; [reflexivity|split; [reflexivity|]].
  assert (Kept : forall f k, In f fields6 -> k <> 0%Z -> add_J is_slab st (drop_half_maps d4) (nm f (OInt k)) = d4 (nm f (OInt k))).
  { intros f k Hf Hk. rewrite add_J_kept by assumption. now apply nm_kept. }
  assert (Fk : forall f k, In f fields6 -> (1 <= k <= nslice)%Z -> d4 (nm f (OInt k)) = d3 (nm f (OInt k))).
  { intros f k Hf Hk. apply F4. intros f' o' Hf' Ho'. apply Dis; auto.
    replace k with (k * 1)%Z by lia. now apply in_dir_offsets. }
  assert (Split : forall k, k <> 0%Z -> (Z.abs k <= nslice)%Z -> (1 <= k <= nslice)%Z \/ (1 <= - k <= nslice)%Z) by lia.
  assert (Inf : forall k, (1 <= k <= nslice)%Z -> In (OInt k) osf).
  { intros k Hk. replace k with (k * 1)%Z by lia. now apply in_dir_offsets. }
  assert (Inb : forall k, (1 <= - k <= nslice)%Z -> In (OInt k) osb).
  { intros k Hk. replace k with ((- k) * -1)%Z by lia. now apply in_dir_offsets. }
  assert (K : forall k, In k ["R"; "Z"; "MXG"; "MYG"] -> add_J is_slab st (drop_half_maps d4) k = d0 k).
  { intros k Hk. transitivity (drop_half_maps d4 k).
    { unfold add_J. destruct is_slab, Hk as [<-|[<-|[<-|[<-|[]]]]]; rewrite !dset_neq by discriminate; reflexivity. }
    transitivity (d4 k). { destruct Hk as [<-|[<-|[<-|[<-|[]]]]]; reflexivity. }
    rewrite F4 by (intros; apply R_key; auto). rewrite F3 by (intros; apply R_key; auto).
    rewrite F2 by (intros; apply R_key; auto). apply F1. intros; apply R_key; auto. }
  split.
  - intros j Hj. exists d3. split; [now apply S3|]. intros f k Hf Hk. rewrite Kept by (auto; lia). now apply Fk.
  - intros j Hj. exists d4. split; [now apply S4|]. intros f k Hf Hk. apply Kept; [assumption|lia].
  - intros f k Hf Hk Ha. rewrite Kept by assumption. destruct (Split k Hk Ha) as [H|H].
    + rewrite Fk by assumption. apply P3; auto.
    + apply P4; auto.
  - intros j Hj. split.
    + exists d3. split; [now apply S3|]. intros f Hf. assert (Hf6 : In f fields6) by (cbn in Hf |- *; intuition).
      assert (Ho : In (OFloat ((1#2) * inject_Z 1)) osf) by now left.
      destruct (P3 f _ Hf6 Ho) as [a Ea]. exists a. split; [|exact Ea].
      assert (En : nm f (OFloat ((1#2) * inject_Z 1)) = String.append f "_cell_yhigh").
      { unfold MapsTrace.nm. change ((1#2) * inject_Z 1) with (1#2). now rewrite name_half. }
      assert (E4' : d4 (nm f (OFloat ((1#2) * inject_Z 1))) = Some (VArr a)).
      { rewrite F4; [exact Ea|]. intros f' o' Hf' Ho'. now apply Dis. }
      rewrite En in E4'. unfold add_J. destruct is_slab, Hf as [<-|[<-|[]]];
        rewrite !dset_neq by discriminate; exact E4'.
    + exists d4. split; [now apply S4|]. intros f Hf. assert (Hf6 : In f fields6) by (cbn in Hf |- *; intuition).
      assert (Ho : In (OFloat ((1#2) * inject_Z (-1))) osb) by now left.
      destruct (P4 f _ Hf6 Ho) as [a Ea]. exists a. split; [|exact Ea].
      assert (En : nm f (OFloat ((1#2) * inject_Z (-1))) = String.append f "_cell_ylow").
      { unfold MapsTrace.nm. change ((1#2) * inject_Z (-1)) with (-(1#2)). now rewrite name_mhalf. }
      rewrite En in Ea. unfold add_J. destruct is_slab, Hf as [<-|[<-|[]]];
        rewrite !dset_neq by discriminate; exact Ea.
  - intros f k Hf Hk Ha. assert (Hf6 : In f fields6) by (cbn in Hf |- *; intuition).
    rewrite Kept by assumption. destruct (Split k Hk ltac:(lia)) as [H|H].
    + rewrite Fk by assumption. rewrite (X3 f (OInt k) (OInt (nslice * 1))); auto.
      * apply last_dir_offset. lia.
      * intros C. injection C. lia.
    + rewrite (X4 f (OInt k) (OInt (nslice * -1))); auto.
      * apply last_dir_offset. lia.
      * intros C. injection C. lia.
  - transitivity (drop_half_maps d4 "subcell_weights").
    { unfold add_J. destruct is_slab; rewrite !dset_neq by discriminate; reflexivity. }
    change (drop_half_maps d4 "subcell_weights") with (d4 "subcell_weights").
    rewrite F4 by (intros; apply weights_key; auto). rewrite F3 by (intros; apply weights_key; auto).
    rewrite F2 by (intros; apply weights_key; auto). rewrite F1 by (intros; apply weights_key; auto).
    apply dset_eq.
  - exists (fst RZ), (snd RZ). split; [|split; [|exact HRZ]].
    + rewrite K by (cbn; auto). reflexivity.
    + rewrite K by (cbn; auto). reflexivity.
  - split; (rewrite K by (cbn; auto)); reflexivity.
  - exists st. split; [exact HJ|]. split.
    + intros ->. unfold add_J. repeat split.
    + unfold add_J. repeat split.
Qed.

(** ** The statements *)

Lemma last_snd (pys : list (option G * Q)) d p y : nth_error pys (length pys - 1) = Some (p, y) -> last (map snd pys) d = y.
Proof.
  destruct pys as [|a l _] using rev_ind; cbn; [discriminate|].
  rewrite app_length. cbn [length]. replace (length l + 1 - 1)%nat with (length l) by lia.
  rewrite nth_error_app2, Nat.sub_diag by lia. cbn. intros [= ->]. rewrite map_app. cbn. apply last_last.
Qed.

Lemma entry_gen d d' dir k j : (dir = 1 \/ dir = -1)%Z -> (1 <= k <= nslice)%Z -> (0 <= j < ny g)%Z ->
  step_entry (dir_offsets nslice dir) d' j ->
  (forall f, In f fields6 -> d (nm f (OInt (k * dir))) = d' (nm f (OInt (k * dir)))) ->
  (forall f, In f fields6 -> exists a, d (nm f (OInt (k * dir))) = Some (VArr a)) ->
  exists yb, y_of g j (OInt (nslice * dir)) yb /\
    entries_at repr pR pZ findIndex flow outside g d (OInt (k * dir)) j yb.
Proof.
  intros Hd Hk Hj (pol & yj & pys & E1 & L & E2 & E3 & _) Eq Pr. cbn zeta in E3.
  set (os := dir_offsets nslice dir) in *.
  destruct (E2 _ _ (last_dir_offset dir ltac:(lia))) as (pl & yl & Epl & Eyl).
  fold os in Epl. rewrite <- L in Epl.
  exists yl. split; [exists pl; exact Eyl|].
  assert (Ho : In (OInt (k * dir)) os) by now apply in_dir_offsets.
  assert (Uo : used_offset (OInt (k * dir))) by (cbn; destruct Hd as [-> | ->]; lia).
  apply In_nth_error in Ho as [i Ei]. destruct (E2 _ _ Ei) as (p & y & Ep & Eg).
  specialize (E3 i _ p y Ei Ep). rewrite (last_snd pys yj pl yl Epl) in E3.
  assert (A : forall f, In f fields6 -> d (nm f (OInt (k * dir))) = Some (VArr (arr d' f (OInt (k * dir))))).
  { intros f Hf. destruct (Pr f Hf) as [a Ea]. unfold MapsTrace.arr. rewrite <- Eq, Ea by assumption. reflexivity. }
  exists pol, yj, p, y, (arr d' "R" (OInt (k * dir))), (arr d' "Z" (OInt (k * dir))),
    (arr d' "xt_prime" (OInt (k * dir))), (arr d' "zt_prime" (OInt (k * dir))).
  split; [exact E1|split; [exact Eg|]].
  split; [eexists; split; [now apply nm_ok|apply A; cbn; auto 10]|].
  split; [eexists; split; [now apply nm_ok|apply A; cbn; auto 10]|].
  split; [eexists; split; [now apply nm_ok|apply A; cbn; auto 10]|].
  split; [eexists; split; [now apply nm_ok|apply A; cbn; auto 10]|].
  cbn zeta. intros x z s. destruct (E3 x z s) as (V1 & V2 & V3 & V4).
  split; [exact V1|split; [exact V2|]]. rewrite V3, V4. unfold xind, zind, mask_out, const2. destruct p; auto.
Qed.

Lemma maps_entries o j d : run = Ok d -> (o <> 0)%Z -> (Z.abs o <= nslice)%Z -> (0 <= j < ny g)%Z ->
  exists yb, y_of g j (OInt (nslice * Z.sgn o)) yb /\
    entries_at repr pR pZ findIndex flow outside g d (OInt o) j yb.
Proof.
  intros Hrun Ho Ha Hj. destruct make_maps_ok as (d1 & p0 & y0 & E & _ & R). rewrite Hrun in E. injection E as <-.
  destruct (Z_lt_le_dec 0 o) as [H|H].
  - destruct (r_f _ _ R j Hj) as (d' & S & Eq).
    rewrite Z.sgn_pos by lia. replace o with (o * 1)%Z by lia.
    apply (entry_gen d d' 1 o j); auto; try lia.
    + intros f Hf. rewrite Z.mul_1_r. apply Eq; [assumption|lia].
    + intros f Hf. apply (r_present _ _ R); auto; lia.
  - destruct (r_b _ _ R j Hj) as (d' & S & Eq).
    rewrite Z.sgn_neg by lia. replace o with ((- o) * -1)%Z by lia.
    apply (entry_gen d d' (-1) (- o) j); auto; try lia.
    + intros f Hf. replace (- o * -1)%Z with (- (- o))%Z by lia. apply Eq; [assumption|lia].
    + intros f Hf. apply (r_present _ _ R); auto; lia.
Qed.

(** The positions half a step away. *)
Lemma half_gen d' dir j : (dir = 1 \/ dir = -1)%Z -> (0 <= j < ny g)%Z ->
  step_entry (dir_offsets nslice dir) d' j ->
  exists pol yj p y, getPoloidalGrid g (inject_Z j) = Ok (Some pol, yj) /\
    getPoloidalGrid g (inject_Z j + (1#2) * inject_Z dir) = Ok (p, y) /\
    forall aR aZ, d' (nm "R" (OFloat ((1#2) * inject_Z dir))) = Some (VArr aR) ->
      d' (nm "Z" (OFloat ((1#2) * inject_Z dir))) = Some (VArr aZ) ->
    forall x z s, aR x j z s = fst (flow (pR pol) (pZ pol) yj y) x z /\
      aZ x j z s = snd (flow (pR pol) (pZ pol) yj y) x z.
Proof.
  intros Hd Hj (pol & yj & pys & E1 & L & E2 & E3 & _). cbn zeta in E3.
  destruct (E2 0%nat (OFloat ((1#2) * inject_Z dir)) eq_refl) as (p & y & Ep & Eg).
  exists pol, yj, p, y. split; [exact E1|split; [exact Eg|]].
  intros aR aZ HR HZ x z s. destruct (E3 0%nat _ p y eq_refl Ep x z s) as (V1 & V2 & _).
  unfold MapsTrace.arr in V1, V2. rewrite HR in V1. rewrite HZ in V2. split; assumption.
Qed.

Lemma maps_half d j : run = Ok d -> (0 <= j < ny g)%Z ->
  exists pol yj pl yl ph yh Rl Zl Rh Zh,
    getPoloidalGrid g (inject_Z j) = Ok (Some pol, yj) /\
    getPoloidalGrid g (inject_Z j + (1#2) * inject_Z (-1)) = Ok (pl, yl) /\
    getPoloidalGrid g (inject_Z j + (1#2) * inject_Z 1) = Ok (ph, yh) /\
    d "R_cell_ylow" = Some (VArr Rl) /\ d "Z_cell_ylow" = Some (VArr Zl) /\
    d "R_cell_yhigh" = Some (VArr Rh) /\ d "Z_cell_yhigh" = Some (VArr Zh) /\
    forall x z s,
      Rl x j z s = fst (flow (pR pol) (pZ pol) yj yl) x z /\ Zl x j z s = snd (flow (pR pol) (pZ pol) yj yl) x z /\
      Rh x j z s = fst (flow (pR pol) (pZ pol) yj yh) x z /\ Zh x j z s = snd (flow (pR pol) (pZ pol) yj yh) x z.
Proof.
  intros Hrun Hj. destruct make_maps_ok as (d1 & p0 & y0 & E & _ & R). rewrite Hrun in E. injection E as <-.
  destruct (r_half _ _ R j Hj) as [(dh & Sh & Hh) (dl & Sl & Hl)].
  destruct (half_gen dh 1 j ltac:(auto) Hj Sh) as (pol & yj & ph & yh & E1 & E2 & V).
  destruct (half_gen dl (-1) j ltac:(auto) Hj Sl) as (pol' & yj' & pl & yl & E1' & E2' & V').
  rewrite E1 in E1'. injection E1' as <- <-.
  destruct (Hh "R" ltac:(cbn; auto)) as (Rh & A1 & B1). destruct (Hh "Z" ltac:(cbn; auto)) as (Zh & A2 & B2).
  destruct (Hl "R" ltac:(cbn; auto)) as (Rl & A3 & B3). destruct (Hl "Z" ltac:(cbn; auto)) as (Zl & A4 & B4).
  exists pol, yj, pl, yl, ph, yh, Rl, Zl, Rh, Zh. repeat (split; [assumption|]).
  intros x z s. destruct (V _ _ B1 B2 x z s). destruct (V' _ _ B3 B4 x z s). auto.
Qed.

End Top.

(** What the clean-up leaves of the maps half a step away, whatever the input. *)
Section Clean.
Variable repr : Q -> string.
Context {G : Type}.
Variable pR pZ : G -> arr2.
Variable pnx pnz : G -> nat.
Variable findIndex : G -> arr2 -> arr2 -> arr2 * arr2.
Variable trace : arr2 -> arr2 -> list Q -> list (arr2 * arr2).
Variable outside : arr2 -> Q -> arr2 -> Z -> Z -> bool.
Variable Byfunc : Q -> Q -> Q -> Q.
Variable roots_jacobi : nat -> list Q * list Q.
Variable fll : list (Q * Q) -> list Q -> Q.
Variable Jperp : G -> Z -> Z -> Q.
Variable is_slab : bool.
Variable g : grid G.
Notation run := (make_maps repr G pR pZ pnx pnz findIndex trace outside Byfunc roots_jacobi fll Jperp is_slab g).

Lemma half_dropped nslice mxg spd refine n_chunks junk d f side :
  run nslice mxg spd refine n_chunks junk = Ok d ->
  In f ["xt_prime"; "zt_prime"; "xt_primes"; "zt_primes"] -> In side ["low"; "high"] ->
  d (f ++ "_cell_y" ++ side) = None.
Proof.
  unfold make_maps. intros H Hf Hs.
  repeat match type of H with
  | bind ?m _ = Ok _ => destruct m; [cbn [bind] in H|discriminate]
  | match ?m with _ => _ end = Ok _ => destruct m; try discriminate
  end.
  injection H as <-.
  unfold add_J. destruct Hf as [<-|[<-|[<-|[<-|[]]]]], Hs as [<-|[<-|[]]], is_slab;
    rewrite !dset_neq by discriminate; reflexivity.
Qed.

Lemma no_chunks nslice mxg spd refine junk flow t1 :
  follows trace flow -> pointwise trace t1 -> (forall n, length (fst (roots_jacobi n)) = n) -> well_formed g ->
  (0 <= nslice)%Z -> (1 <= spd)%Z -> weights_accepted roots_jacobi spd = true -> (1 <= refine)%nat ->
  run nslice mxg spd refine 0 junk = Err ValueError.
Proof.
  intros Hflow Ht Hroots Wg Hns Hspd Hacc Href.
  destruct (make_maps_ok repr pR pZ pnx pnz findIndex trace outside Byfunc roots_jacobi fll Jperp is_slab flow t1
    Hflow Ht Hroots g Wg nslice mxg spd refine 1 junk Hns Hspd Hacc Href ltac:(discriminate)) as (d & p0 & y0 & H & _).
  revert H. unfold MapsTop.run, make_maps.
  destruct (getPoloidalGrid g 0) as [q|]; cbn [bind]; [|discriminate].
  destruct (fst q) as [pol0|]; [|discriminate].
  destruct (gather_RZ G pR pZ g) as [RZ|]; cbn [bind]; [|discriminate].
  destruct (negb (weights_accepted roots_jacobi spd)); [discriminate|]. cbv zeta.
  match goal with |- bind ?m _ = _ -> _ => destruct m as [f1|]; cbn [bind]; [|discriminate] end.
  match goal with |- bind ?m _ = _ -> _ => destruct m as [f2|]; cbn [bind]; [|discriminate] end.
  match goal with |- bind ?m _ = _ -> _ => destruct m as [f3|]; cbn [bind]; [|discriminate] end.
  intros _. unfold J_loop.
  assert (E : zrange 0 (ny g) = 0%Z :: zrange 1 (ny g)).
  { pose proof (ny_pos g Wg). unfold zrange. replace (Z.to_nat (ny g - 0)) with (S (Z.to_nat (ny g - 1))) by lia.
    cbn [seq map]. f_equal. rewrite <- seq_shift, map_map. apply map_ext. intros; lia. }
  rewrite E. reflexivity.
Qed.
End Clean.

