(** The tracing loop of make_maps. *)
From Coq Require Import String Ascii List ZArith QArith Qabs Qround Lia Lqa Bool.
From Verif Require Import Prelude PreludeFacts NamingModel NamingSpec NamingProofs GridModel GridSpec GridProofs MapsModel MapsSpec.
Import ListNotations.
Open Scope string_scope.

Lemma dset_eq d k v : dset d k v k = Some v.
Proof. unfold dset. now rewrite String.eqb_refl. Qed.
Lemma dset_neq d k v k' : k' <> k -> dset d k v k' = d k'.
Proof. intros H. unfold dset. apply String.eqb_neq in H. now rewrite H. Qed.
Lemma dmod_ok d k f a : d k = Some (VArr a) -> dmod d k f = Ok (dset d k (VArr (f a))).
Proof. intros H. unfold dmod. now rewrite H. Qed.

Definition fields6 : list string := ["R"; "Z"; "xt_prime"; "zt_prime"; "xt_primes"; "zt_primes"].

Section Keys.
Variable repr : Q -> string.

Definition nm (f : string) (o : offset) : string :=
  match parallel_slice_field_name repr f o with Ok n => n | Err _ => "" end.

Lemma nm_ok f o : used_offset o -> parallel_slice_field_name repr f o = Ok (nm f o).
Proof. intros H. destruct (slice_names_ok repr f o H) as [n E]. unfold nm. now rewrite E. Qed.

Lemma fields6_library f : In f fields6 -> In f library_fields.
Proof. unfold fields6, library_fields. cbn. intuition. Qed.

Lemma nm_inj f g o o' : In f fields6 -> In g fields6 -> used_offset o -> used_offset o' ->
  nm f o = nm g o' -> f = g /\ o = o'.
Proof.
  intros Hf Hg Ho Ho' E.
  apply (slice_names_unique repr library_fields f g o o' (nm f o)).
  - exact (clash_free_b_sound library_fields eq_refl).
  - now apply fields6_library.
  - now apply fields6_library.
  - assumption.
  - assumption.
  - now apply nm_ok.
  - rewrite E. now apply nm_ok.
Qed.

Definition ps_of (o : offset) : pslice :=
  {| ps_off := o; kR := nm "R" o; kZ := nm "Z" o; kxt := nm "xt_prime" o; kzt := nm "zt_prime" o;
     kxts := nm "xt_primes" o; kzts := nm "zt_primes" o |}.

Lemma mk_pslice_ok d o : used_offset o ->
  exists d', mk_pslice repr d o = Ok (d', ps_of o) /\
    (forall f, In f fields6 -> d' (nm f o) = Some (VArr zeros)) /\
    (forall k, (forall f, In f fields6 -> k <> nm f o) -> d' k = d k).
Proof.
  intros H. unfold mk_pslice. rewrite !nm_ok by assumption. cbn [bind].
  eexists; split; [reflexivity|]. split.
  - intros f Hf. cbn [fold_left].
    cbn in Hf. destruct Hf as [<-|[<-|[<-|[<-|[<-|[<-|[]]]]]]];
    repeat (rewrite dset_eq || rewrite dset_neq by (intros E; apply nm_inj in E; [destruct E; discriminate| | | |]; cbn; auto 10)); reflexivity.
  - intros k Hk. cbn [fold_left].
    rewrite !dset_neq by (apply Hk; cbn; auto 10). reflexivity.
Qed.

Lemma mk_pslices_ok d os : NoDup os -> (forall o, In o os -> used_offset o) ->
  exists d', mk_pslices repr d os = Ok (d', map ps_of os) /\
    (forall f o, In f fields6 -> In o os -> d' (nm f o) = Some (VArr zeros)) /\
    (forall k, (forall f o, In f fields6 -> In o os -> k <> nm f o) -> d' k = d k).
Proof.
  intros ND U. unfold mk_pslices.
  destruct (foldM_inv (fun pre st => snd st = map ps_of pre /\
      (forall f o, In f fields6 -> In o pre -> fst st (nm f o) = Some (VArr zeros)) /\
      (forall k, (forall f o, In f fields6 -> In o pre -> k <> nm f o) -> fst st k = d k))
    (fun st o => let* r := mk_pslice repr (fst st) o in Ok (fst r, (snd st ++ [snd r])%list)) os (d, []))
    as ([d' l] & E & H1 & H2 & H3).
  - cbn. split; [reflexivity|split; [intros ? ? ? []|reflexivity]].
  - intros pre o post [d1 l1] Eo (I1 & I2 & I3). cbn [fst snd] in *.
    assert (Uo : used_offset o) by (apply U; rewrite Eo; apply in_app_iff; right; now left).
    destruct (mk_pslice_ok d1 o Uo) as (d2 & E2 & J1 & J2). rewrite E2. cbn [bind fst snd].
    eexists; split; [reflexivity|]. cbn [fst snd]. split; [rewrite I1, map_app; reflexivity|].
    assert (Hni : ~ In o pre).
    { subst os. apply NoDup_remove_2 in ND. intros C. apply ND, in_app_iff. now left. }
    split.
    + intros f o' Hf Ho'. apply in_app_iff in Ho'. destruct Ho' as [Ho'|[<-|[]]]; [|now apply J1].
      rewrite J2; [now apply I2|]. intros f' Hf' C. apply nm_inj in C; auto.
      * destruct C as [_ ->]. contradiction.
      * apply U. rewrite Eo. apply in_app_iff. now left.
    + intros k Hk. rewrite J2.
      * apply I3. intros f o' Hf Ho'. apply Hk; [assumption|]. apply in_app_iff. now left.
      * intros f Hf. apply Hk; [assumption|]. apply in_app_iff. right. now left.
  - cbn [fst snd] in *. subst l. exists d'. split; [exact E|split; assumption].
Qed.

Lemma dir_offsets_used nslice dir o : (dir = 1 \/ dir = -1)%Z -> In o (dir_offsets nslice dir) -> used_offset o.
Proof.
  intros Hd [<-|H].
  - cbn. destruct Hd as [-> | ->]; [left|right]; reflexivity.
  - apply in_map_iff in H as (k & <- & Hk). apply in_zrange in Hk. cbn. destruct Hd as [-> | ->]; lia.
Qed.

Lemma dir_offsets_NoDup nslice dir : (dir = 1 \/ dir = -1)%Z -> NoDup (dir_offsets nslice dir).
Proof.
  intros Hd. constructor.
  - intros C. apply in_map_iff in C as (k & C & _). discriminate.
  - apply FinFun.Injective_map_NoDup; [|apply NoDup_zrange].
    intros a b E. injection E as E. destruct Hd as [-> | ->]; lia.
Qed.
End Keys.

(** ** One step of the tracing loop *)

Section Step.
Variable repr : Q -> string.
Context {G : Type}.
Variable pR pZ : G -> arr2.
Variable pnx pnz : G -> nat.
Variable findIndex : G -> arr2 -> arr2 -> arr2 * arr2.
Variable trace : arr2 -> arr2 -> list Q -> list (arr2 * arr2).
Variable outside : arr2 -> Q -> arr2 -> Z -> Z -> bool.
Variable roots_jacobi : nat -> list Q * list Q.
Variable flow : arr2 -> arr2 -> Q -> Q -> arr2 * arr2.
Hypothesis Hflow : follows trace flow.
Variable g : grid G.
Hypothesis Wg : well_formed g.

Notation nm := (nm repr).
Notation ps_of := (ps_of repr).

Definition present (d : dict) (os : list offset) : Prop :=
  forall f o, In f fields6 -> In o os -> exists a, d (nm f o) = Some (VArr a).

Definition arr (d : dict) (f : string) (o : offset) : arr4 :=
  match d (nm f o) with Some (VArr a) => a | _ => zeros end.

Lemma present_arr d os f o : present d os -> In f fields6 -> In o os -> d (nm f o) = Some (VArr (arr d f o)).
Proof. intros P Hf Ho. destruct (P f o Hf Ho) as [a E]. unfold arr. now rewrite E. Qed.

Definition xind (y_slice : Q) (c : arr2 * arr2) (p : option G) : arr2 :=
  match p with None => const2 (-(1)) | Some p => mask_out (outside (fst c) y_slice (snd c)) (fst (findIndex p (fst c) (snd c))) end.
Definition zind (y_slice : Q) (c : arr2 * arr2) (p : option G) : arr2 :=
  match p with None => const2 (-(1)) | Some p => mask_out (outside (fst c) y_slice (snd c)) (snd (findIndex p (fst c) (snd c))) end.

Notation item := (offset * (arr2 * arr2) * option G)%type.
Definition it_off (t : item) := fst (fst t).
Definition to_ps (t : item) : pslice * (arr2 * arr2) * option G := (ps_of (fst (fst t)), snd (fst t), snd t).

(** Dictionary after storing the items [l] *)
Record stored_items (y_slice : Q) (j : Z) (d : dict) (l : list item) (d' : dict) : Prop := {
  si_R : forall o c p, In (o, c, p) l -> d' (nm "R" o) = Some (VArr (set3 j (fst c) (arr d "R" o)));
  si_Z : forall o c p, In (o, c, p) l -> d' (nm "Z" o) = Some (VArr (set3 j (snd c) (arr d "Z" o)));
  si_x : forall o c p, In (o, c, p) l -> d' (nm "xt_prime" o) = Some (VArr (set3 j (xind y_slice c p) (arr d "xt_prime" o)));
  si_z : forall o c p, In (o, c, p) l -> d' (nm "zt_prime" o) = Some (VArr (set3 j (zind y_slice c p) (arr d "zt_prime" o)));
  si_frame : forall k, (forall f o, In f ["R"; "Z"; "xt_prime"; "zt_prime"] -> In o (map it_off l) -> k <> nm f o) -> d' k = d k }.

Ltac nmneq := intros E; apply nm_inj in E; [destruct E; (discriminate || congruence)| | | |]; cbn; auto 10.

Lemma store_one_step y_slice j d l st t os :
  present d os -> (forall o, In o os -> used_offset o) ->
  In (it_off t) os -> (forall o, In o (map it_off l) -> In o os) -> ~ In (it_off t) (map it_off l) ->
  stored_items y_slice j d l (fst st) ->
  exists d', store_one G findIndex outside y_slice j st (to_ps t) =
      Ok (d', Some (ps_of (it_off t), snd t, xind y_slice (snd (fst t)) (snd t), zind y_slice (snd (fst t)) (snd t))) /\
    stored_items y_slice j d (l ++ [t]) d'.
Proof.
  destruct t as [[o c] p]. unfold to_ps, it_off at 1 3. cbn [fst snd].
  intros P U Ho Hl Hni S. destruct S as [S1 S2 S3 S4 S5].
  assert (Uo : used_offset o) by auto.
  assert (Hd : forall f, In f fields6 -> fst st (nm f o) = Some (VArr (arr d f o))).
  { intros f Hf. rewrite S5; [eapply present_arr; eauto|].
    intros f' o' Hf' Ho'. intros E. apply nm_inj in E; auto.
    - destruct E as [_ ->]. contradiction.
    - cbn in Hf'. cbn. intuition. }
  unfold store_one. cbn [kR kZ kxt kzt MapsTrace.ps_of fst snd].
  replace (match p with None => (const2 (-(1)), const2 (-(1))) | Some p0 =>
      (mask_out (outside (fst c) y_slice (snd c)) (fst (findIndex p0 (fst c) (snd c))),
       mask_out (outside (fst c) y_slice (snd c)) (snd (findIndex p0 (fst c) (snd c)))) end)
    with (xind y_slice c p, zind y_slice c p) by (destruct p; reflexivity).
  cbn [fst snd].
  rewrite (dmod_ok _ _ _ (arr d "R" o)) by (apply Hd; cbn; auto). cbn [bind].
  rewrite (dmod_ok _ _ _ (arr d "Z" o)) by (rewrite dset_neq by nmneq; apply Hd; cbn; auto). cbn [bind].
  rewrite (dmod_ok _ _ _ (arr d "xt_prime" o)) by (rewrite !dset_neq by nmneq; apply Hd; cbn; auto). cbn [bind].
  rewrite (dmod_ok _ _ _ (arr d "zt_prime" o)) by (rewrite !dset_neq by nmneq; apply Hd; cbn; auto). cbn [bind].
  eexists; split; [reflexivity|].
  assert (Hold : forall o' f c' p', In (o', c', p') l -> In f fields6 -> forall f', In f' fields6 -> nm f o' <> nm f' o).
  { intros o' f c' p' Hin Hf f' Hf' E. 
    assert (Ho' : In o' (map it_off l)) by (change o' with (it_off (o', c', p')); now apply in_map).
    apply nm_inj in E; auto. destruct E as [_ ->]. contradiction. }
  split.
  - intros o' c' p' Hin. apply in_app_iff in Hin. destruct Hin as [Hin|[Eq|[]]].
    + rewrite !dset_neq by (eapply Hold; [exact Hin| |]; cbn; auto 10). eapply S1; eauto.
    + injection Eq as <- <- <-. rewrite !(dset_neq _ _ _ (nm "R" o)) by nmneq. now rewrite dset_eq.
  - intros o' c' p' Hin. apply in_app_iff in Hin. destruct Hin as [Hin|[Eq|[]]].
    + rewrite !dset_neq by (eapply Hold; [exact Hin| |]; cbn; auto 10). eapply S2; eauto.
    + injection Eq as <- <- <-. rewrite 2!(dset_neq _ _ _ (nm "Z" o)) by nmneq. now rewrite dset_eq.
  - intros o' c' p' Hin. apply in_app_iff in Hin. destruct Hin as [Hin|[Eq|[]]].
    + rewrite !dset_neq by (eapply Hold; [exact Hin| |]; cbn; auto 10). eapply S3; eauto.
    + injection Eq as <- <- <-. rewrite (dset_neq _ _ _ (nm "xt_prime" o)) by nmneq. now rewrite dset_eq.
  - intros o' c' p' Hin. apply in_app_iff in Hin. destruct Hin as [Hin|[Eq|[]]].
    + rewrite !dset_neq by (eapply Hold; [exact Hin| |]; cbn; auto 10). eapply S4; eauto.
    + injection Eq as <- <- <-. now rewrite dset_eq.
  - intros k Hk. rewrite map_app in Hk. cbn [map] in Hk. unfold it_off in Hk at 2. cbn [fst] in Hk.
    rewrite !dset_neq by (apply Hk; [cbn; auto 10|apply in_app_iff; right; now left]).
    apply S5. intros f o' Hf Ho'. apply Hk; [assumption|]. apply in_app_iff. now left.
Qed.

Lemma store_all y_slice j d (l : list item) os :
  present d os -> (forall o, In o os -> used_offset o) -> map it_off l = os -> NoDup os ->
  exists d', foldM (store_one G findIndex outside y_slice j) (map to_ps l) (d, None) =
    Ok (d', option_map (fun t => (ps_of (it_off t), snd t, xind y_slice (snd (fst t)) (snd t), zind y_slice (snd (fst t)) (snd t)))
              (hd_error (rev l))) /\
  stored_items y_slice j d l d'.
Proof.
  intros P U Eos ND.
  assert (Gen : forall l1 l2, l = (l1 ++ l2)%list -> 
     exists d', foldM (store_one G findIndex outside y_slice j) (map to_ps l1) (d, None) =
    Ok (d', option_map (fun t => (ps_of (it_off t), snd t, xind y_slice (snd (fst t)) (snd t), zind y_slice (snd (fst t)) (snd t)))
              (hd_error (rev l1))) /\ stored_items y_slice j d l1 d').
  { induction l1 as [|t l1 IH] using rev_ind; intros l2 E.
    - cbn. eexists; split; [reflexivity|]. split; try (intros ? ? ? []). reflexivity.
    - destruct (IH (t :: l2)) as (d1 & E1 & S1). { rewrite E, <- app_assoc. reflexivity. }
      rewrite map_app, foldM_app, E1. cbn [bind map foldM].
      assert (Em : os = (map it_off l1 ++ it_off t :: map it_off l2)%list).
      { rewrite <- Eos, E, !map_app, <- app_assoc. reflexivity. }
      match goal with |- context [store_one _ _ _ _ _ ?st _] =>
        destruct (store_one_step y_slice j d l1 st t os P U) as (d2 & E2 & S2) end.
      + rewrite Em. apply in_app_iff. right. now left.
      + intros o Ho. rewrite Em. apply in_app_iff. now left.
      + rewrite Em in ND. apply NoDup_remove_2 in ND. intros C. apply ND, in_app_iff. now left.
      + exact S1.
      + rewrite E2. cbn [bind]. exists d2. split; [|assumption].
        rewrite rev_app_distr. reflexivity. }
  apply (Gen l []). now rewrite app_nil_r.
Qed.

Lemma mapM_ok {A B} (f : A -> res B) l : (forall a, In a l -> exists b, f a = Ok b) ->
  exists bs, mapM f l = Ok bs /\ length bs = length l /\ forall i a, nth_error l i = Some a -> exists b, nth_error bs i = Some b /\ f a = Ok b.
Proof.
  induction l as [|a l IH]; intros H; cbn [mapM].
  - eexists; split; [reflexivity|split; [reflexivity|]]. intros [|i] ? E; discriminate.
  - destruct (H a (or_introl eq_refl)) as [b Eb]. rewrite Eb. cbn [bind].
    destruct IH as (bs & E & L & N). { intros; apply H; now right. }
    rewrite E. cbn [bind]. exists (b :: bs). split; [reflexivity|split; [cbn; now rewrite L|]].
    intros [|i] a' Ea; cbn in Ea.
    + injection Ea as <-. exists b. now cbn.
    + now apply N.
Qed.

(** ** Totality of the slice lookup *)
Lemma getPoloidalGrid_total q : exists p y, getPoloidalGrid g q = Ok (p, y).
Proof.
  pose proof (ny_pos g Wg) as Hn. unfold getPoloidalGrid. rewrite rec_S.
  assert (T : forall q i, (q == inject_Z i)%Q -> exists p y, getPoloidalGrid_rec 1 g q = Ok (p, y)).
  { intros q' i E. rewrite (rec_int 0 g q' i Hn E), <- (getPoloidalGrid_int g i Wg). now apply int_total. }
  destruct (Qlt_bool _ _).
  - destruct (T (inject_Z (Qfloor q) + 1)%Q (Qfloor q + 1)%Z) as (p1 & y1 & ->); [rewrite inject_Z_plus; reflexivity|].
    destruct (T (inject_Z (Qfloor q)) (Qfloor q)) as (p2 & y2 & ->); [reflexivity|]. cbn [bind]. eauto.
  - destruct (Qle_bool 0 q && Qlt_bool q (inject_Z (ny g)))%bool eqn:C.
    + apply andb_true_iff in C as [C1 C2]. apply Qle_bool_iff in C1. apply Qlt_bool_iff in C2.
      rewrite Qtrunc_nonneg by assumption.
      destruct (slice_ok g (Qfloor q) 0 Wg) as (p & y & _ & _ & ->); [|eauto].
      split.
      * apply Qfloor_resp_le in C1. exact C1.
      * pose proof (Qfloor_le q). rewrite Zlt_Qlt. lra.
    + destruct (yperiodic g).
      * destruct (slice_ok g (Qtrunc q mod ny g) (inject_Z (Qfloor (q / inject_Z (ny g))) * Ly g) Wg) as (p & y & _ & _ & ->); [|eauto].
        now apply Z.mod_pos_bound.
      * destruct (Qlt_bool q 0); eauto.
Qed.

Lemma getPoloidalGrid_slice j : (0 <= j < ny g)%Z -> exists p y, getPoloidalGrid g (inject_Z j) = Ok (Some p, y).
Proof.
  intros H. destruct (slice_ok g j 0 Wg H) as (p & y & _ & _ & E).
  rewrite getPoloidalGrid_int by assumption. unfold int_result.
  replace (0 <=? j)%Z with true by (symmetry; apply Z.leb_le; lia).
  replace (j <? ny g)%Z with true by (symmetry; apply Z.ltb_lt; lia). cbn [andb]. eauto.
Qed.

(** ** Sub-samples *)

Definition sub_point (pol : G) (yj yl : Q) (xo zo : Q) : arr2 * arr2 :=
  flow (sub_R G pR pnx pnz pol xo zo) (sub_Z G pZ pnx pnz pol xo zo) yj yl.

(** What the sub-sample arrays of slice [o] hold at [j]. *)
Definition sub_entry (spd : Z) (pol : G) (yj yl : Q) (p : option G) (xi zi : arr2) (j : Z) (ax az : arr4) : Prop :=
  if (nsamples spd =? 1)%Z then
    forall x z, ax x j z 0%Z = xi x z /\ az x j z 0%Z = zi x z
  else match p with
  | None => forall x z s, ax x j z s = (-(1))%Q /\ az x j z s = (-(1))%Q
  | Some _ => exists offs, subcell_offsets roots_jacobi spd = Some offs /\
      forall s xo zo, (0 <= s < nsamples spd)%Z -> nth_error offs (Z.to_nat s) = Some (xo, zo) -> forall x z,
        ax x j z s = xind yl (sub_point pol yj yl xo zo) p x z /\
        az x j z s = zind yl (sub_point pol yj yl xo zo) p x z
  end.

Lemma set3_eq j v a x z s : set3 j v a x j z s = v x z.
Proof. unfold set3. now rewrite Z.eqb_refl. Qed.
Lemma set3_neq j v a x y z s : y <> j -> set3 j v a x y z s = a x y z s.
Proof. intros H. unfold set3. apply Z.eqb_neq in H. now rewrite H. Qed.
Lemma set4_eq j s v a x z : set4 j s v a x j z s = v x z.
Proof. unfold set4. now rewrite !Z.eqb_refl. Qed.
Lemma set4_neq j s v a x y z s' : y <> j \/ s' <> s -> set4 j s v a x y z s' = a x y z s'.
Proof.
  intros H. unfold set4. destruct (Z.eqb_spec y j), (Z.eqb_spec s' s); cbn; try reflexivity.
  destruct H; contradiction.
Qed.

Lemma trace2 a b y0 y1 : nth_error (trace a b [y0; y1]) 1 = Some (flow a b y0 y1).
Proof. destruct (Hflow a b y0 [y1]) as [c0 ->]. reflexivity. Qed.

Lemma combine_zrange_nth {A} m (l : list A) s a : (s, a) = (s, a) -> length l = Z.to_nat m ->
  In (s, a) (combine (zrange 0 m) l) <-> (0 <= s < m)%Z /\ nth_error l (Z.to_nat s) = Some a.
Proof.
  intros _ L. split.
  - intros H. apply In_nth_error in H as [i E]. 
    assert (Li : (i < length (combine (zrange 0 m) l))%nat) by (apply nth_error_Some; congruence).
    rewrite combine_length, zrange_length in Li.
    assert (nth_error (zrange 0 m) i = Some s /\ nth_error l i = Some a) as [E1 E2].
    { clear Li L. revert E. generalize (zrange 0 m) as r. intros r. revert l i. induction r as [|x r IH]; intros [|y l] [|i] E; cbn in *; try discriminate.
      - injection E as -> ->. auto.
      - now apply IH. }
    rewrite nth_error_zrange in E1 by lia. injection E1 as <-. split; [lia|].
    cbn [Z.add]. rewrite Nat2Z.id. exact E2.
  - intros [H E]. apply nth_error_In with (n := Z.to_nat s).
    assert (E1 : nth_error (zrange 0 m) (Z.to_nat s) = Some s).
    { rewrite nth_error_zrange by lia. f_equal. lia. }
    revert E1 E. generalize (zrange 0 m) as r. generalize (Z.to_nat s) as i. clear L. intros i r. revert l i.
    induction r as [|x r IH]; intros [|y l] [|i] E1 E; cbn in *; try discriminate.
    + injection E1 as ->. injection E as ->. reflexivity.
    + now apply IH.
Qed.

Lemma map_fst_combine {A B} (l1 : list A) (l2 : list B) : length l1 = length l2 -> map fst (combine l1 l2) = l1.
Proof. revert l2. induction l1 as [|a l1 IH]; intros [|b l2] E; cbn in *; try discriminate; [reflexivity|]. f_equal. apply IH. lia. Qed.
Lemma map_snd_combine {A B} (l1 : list A) (l2 : list B) : length l1 = length l2 -> map snd (combine l1 l2) = l2.
Proof. revert l2. induction l1 as [|a l1 IH]; intros [|b l2] E; cbn in *; try discriminate; [reflexivity|]. f_equal. apply IH. lia. Qed.

Lemma store_subs pol p o yj yl j (l : list (Z * (Q * Q))) d ax az :
  used_offset o -> NoDup (map fst l) ->
  d (nm "xt_primes" o) = Some (VArr ax) -> d (nm "zt_primes" o) = Some (VArr az) ->
  exists d' ax' az', foldM (store_sub G pR pZ pnx pnz findIndex trace outside pol p (ps_of o) yj yl j) l d = Ok d' /\
    d' (nm "xt_primes" o) = Some (VArr ax') /\ d' (nm "zt_primes" o) = Some (VArr az') /\
    (forall k, k <> nm "xt_primes" o -> k <> nm "zt_primes" o -> d' k = d k) /\
    (forall x y z s, y <> j -> ax' x y z s = ax x y z s /\ az' x y z s = az x y z s) /\
    (forall s xo zo, In (s, (xo, zo)) l -> forall x z,
       ax' x j z s = xind yl (sub_point pol yj yl xo zo) (Some p) x z /\
       az' x j z s = zind yl (sub_point pol yj yl xo zo) (Some p) x z).
Proof.
  intros U ND Ex Ez.
  destruct (foldM_inv (fun pre d' => exists ax' az',
    d' (nm "xt_primes" o) = Some (VArr ax') /\ d' (nm "zt_primes" o) = Some (VArr az') /\
    (forall k, k <> nm "xt_primes" o -> k <> nm "zt_primes" o -> d' k = d k) /\
    (forall x y z s, y <> j -> ax' x y z s = ax x y z s /\ az' x y z s = az x y z s) /\
    (forall s xo zo, In (s, (xo, zo)) pre -> forall x z,
       ax' x j z s = xind yl (sub_point pol yj yl xo zo) (Some p) x z /\
       az' x j z s = zind yl (sub_point pol yj yl xo zo) (Some p) x z))
    (store_sub G pR pZ pnx pnz findIndex trace outside pol p (ps_of o) yj yl j) l d)
    as (d' & E & ax' & az' & H).
  - exists ax, az. split; [assumption|split; [assumption|split; [auto|split; [auto|intros ? ? ? []]]]].
  - intros pre [s [xo zo]] post d1 El (ax1 & az1 & H1 & H2 & H3 & H4 & H5).
    unfold store_sub. rewrite trace2. cbn [kxts kzts MapsTrace.ps_of].
    rewrite (dmod_ok _ _ _ ax1) by assumption. cbn [bind].
    assert (Nk : nm "zt_primes" o <> nm "xt_primes" o) by (nmneq).
    rewrite (dmod_ok _ _ _ az1) by (rewrite dset_neq by assumption; assumption).
    eexists; split; [reflexivity|].
    assert (Hs : ~ In s (map fst pre)).
    { rewrite El, map_app in ND. cbn in ND. apply NoDup_remove_2 in ND. intros C; apply ND, in_app_iff; now left. }
    eexists; eexists. split; [|split; [|split; [|split]]].
    + rewrite dset_neq by (intros C; apply Nk; now symmetry). apply dset_eq.
    + apply dset_eq.
    + intros k K1 K2. rewrite !dset_neq by assumption. now apply H3.
    + intros x y z s' Hy. rewrite !set4_neq by (now left). now apply H4.
    + intros s' xo' zo' Hin x z. apply in_app_iff in Hin. destruct Hin as [Hin|[Eq|[]]].
      * assert (s' <> s).
        { intros ->. apply Hs. change s with (fst (s, (xo', zo'))). now apply in_map. }
        rewrite !set4_neq by (now right). now apply H5.
      * injection Eq as <- <- <-. rewrite !set4_eq. split; reflexivity.
  - exists d', ax', az'. split; [exact E|exact H].
Qed.

Lemma outer_length {A B C} (f : A -> B -> C) l1 l2 : length (outer f l1 l2) = (length l1 * length l2)%nat.
Proof. unfold outer. induction l1 as [|x l IH]; cbn; [reflexivity|]. now rewrite app_length, map_length, IH. Qed.

Lemma subsample_ok spd pol o p xi zi yj yl j d ax az :
  used_offset o -> (1 <= spd)%Z -> (forall n, length (fst (roots_jacobi n)) = n) ->
  d (nm "xt_primes" o) = Some (VArr ax) -> d (nm "zt_primes" o) = Some (VArr az) ->
  exists d' ax' az',
    subsample G pR pZ pnx pnz findIndex trace outside roots_jacobi spd pol yj yl j (ps_of o, p, xi, zi) d = Ok d' /\
    d' (nm "xt_primes" o) = Some (VArr ax') /\ d' (nm "zt_primes" o) = Some (VArr az') /\
    (forall k, k <> nm "xt_primes" o -> k <> nm "zt_primes" o -> d' k = d k) /\
    (forall x y z s, y <> j -> ax' x y z s = ax x y z s /\ az' x y z s = az x y z s) /\
    sub_entry spd pol yj yl p xi zi j ax' az'.
Proof.
  intros U Hspd Hr Ex Ez. unfold subsample, sub_entry.
  assert (Nk : nm "zt_primes" o <> nm "xt_primes" o) by (nmneq).
  assert (Nk' : nm "xt_primes" o <> nm "zt_primes" o) by (intros C; apply Nk; now symmetry).
  destruct (Z.eqb_spec (nsamples spd) 1) as [E1|E1]; [|destruct p as [p|]].
  - cbn [kxts kzts MapsTrace.ps_of]. rewrite (dmod_ok _ _ _ ax) by assumption. cbn [bind].
    rewrite (dmod_ok _ _ _ az) by (rewrite dset_neq; assumption).
    eexists; eexists; eexists. split; [reflexivity|].
    split; [rewrite dset_neq by assumption; apply dset_eq|]. split; [apply dset_eq|].
    split; [intros k K1 K2; now rewrite !dset_neq|].
    split; [intros x y z s Hy; rewrite !set4_neq by (now left); auto|].
    intros x z. rewrite !set4_eq. auto.
  - unfold nsamples in E1. unfold subcell_offsets. replace (1 <? spd)%Z with true by (symmetry; apply Z.ltb_lt; nia).
    set (xs := map (fun x => (x * (1#2))%Q) (fst (roots_jacobi (Z.to_nat spd)))).
    assert (Lx : length xs = Z.to_nat spd) by (unfold xs; now rewrite map_length, Hr).
    assert (Lo : length (outer pair xs xs) = Z.to_nat (nsamples spd)).
    { unfold nsamples. rewrite Z2Nat.inj_mul by lia. rewrite outer_length. congruence. }
    destruct (store_subs pol p o yj yl j (combine (zrange 0 (nsamples spd)) (outer pair xs xs)) d ax az)
      as (d' & ax' & az' & E & H1 & H2 & H3 & H4 & H5); auto.
    + rewrite map_fst_combine by (rewrite zrange_length; lia). apply NoDup_zrange.
    + exists d', ax', az'. split; [exact E|]. do 4 (split; [assumption|]).
      eexists; split; [reflexivity|]. intros s xo zo Hs En. apply H5.
      apply combine_zrange_nth; auto.
  - cbn [kxts kzts MapsTrace.ps_of]. rewrite (dmod_ok _ _ _ ax) by assumption. cbn [bind].
    rewrite (dmod_ok _ _ _ az) by (rewrite dset_neq; assumption).
    eexists; eexists; eexists. split; [reflexivity|].
    split; [rewrite dset_neq by assumption; apply dset_eq|]. split; [apply dset_eq|].
    split; [intros k K1 K2; now rewrite !dset_neq|].
    split; [intros x y z s Hy; rewrite !set3_neq by assumption; auto|].
    intros x z s. rewrite !set3_eq. auto.
Qed.

(** ** A whole step *)

(** The arrays of the offsets [os] hold the right values at y index [j]. *)
Definition step_entry (spd : Z) (os : list offset) (d : dict) (j : Z) : Prop :=
  exists pol yj pys,
    getPoloidalGrid g (inject_Z j) = Ok (Some pol, yj) /\
    length pys = length os /\
    (forall i o, nth_error os i = Some o -> exists p y, nth_error pys i = Some (p, y) /\
        getPoloidalGrid g (inject_Z j + offset_value o) = Ok (p, y)) /\
    let yl := last (map snd pys) yj in
    (forall i o p y, nth_error os i = Some o -> nth_error pys i = Some (p, y) ->
      let c := flow (pR pol) (pZ pol) yj y in
      forall x z s, arr d "R" o x j z s = fst c x z /\ arr d "Z" o x j z s = snd c x z /\
        arr d "xt_prime" o x j z s = xind yl c p x z /\ arr d "zt_prime" o x j z s = zind yl c p x z) /\
    (forall o p y, nth_error os (length os - 1) = Some o -> nth_error pys (length os - 1) = Some (p, y) ->
      let c := flow (pR pol) (pZ pol) yj y in
      sub_entry spd pol yj yl p (xind yl c p) (zind yl c p) j (arr d "xt_primes" o) (arr d "zt_primes" o)).

Lemma step_entry_ext spd os d d' j :
  (forall f o x z s, In f fields6 -> In o os -> arr d' f o x j z s = arr d f o x j z s) ->
  step_entry spd os d j -> step_entry spd os d' j.
Proof.
  intros H (pol & yj & pys & E1 & L & E2 & E3 & E4). exists pol, yj, pys.
  split; [assumption|split; [assumption|split; [assumption|]]]. cbn zeta in *. split.
  - intros i o p y Ho Hp x z s. assert (Hin : In o os) by (eapply nth_error_In; eauto).
    rewrite !H by (cbn; auto 10). eapply E3; eauto.
  - intros o p y Ho Hp. assert (Hin : In o os) by (eapply nth_error_In; eauto).
    specialize (E4 o p y Ho Hp). unfold sub_entry in *.
    destruct (nsamples spd =? 1)%Z; [|destruct p].
    + intros x z. rewrite !H by (cbn; auto 10). apply E4.
    + destruct E4 as (offs & Eo & E4). exists offs. split; [assumption|].
      intros s xo zo Hs Hn x z. rewrite !H by (cbn; auto 10). now apply E4.
    + intros x z s. rewrite !H by (cbn; auto 10). apply E4.
Qed.

Lemma nth_error_combine {A B} (l1 : list A) (l2 : list B) i a b :
  nth_error l1 i = Some a -> nth_error l2 i = Some b -> nth_error (combine l1 l2) i = Some (a, b).
Proof.
  revert l2 i. induction l1 as [|x l1 IH]; intros [|y l2] [|i] H1 H2; cbn in *; try discriminate.
  - injection H1 as ->. injection H2 as ->. reflexivity.
  - now apply IH.
Qed.

Lemma map_combine3 {A A' B C} (f : A -> A') (l1 : list A) (l2 : list B) (l3 : list C) :
  combine (combine (map f l1) l2) l3 = map (fun t => (f (fst (fst t)), snd (fst t), snd t)) (combine (combine l1 l2) l3).
Proof.
  revert l2 l3. induction l1 as [|x l1 IH]; intros [|y l2] [|z l3]; cbn; try reflexivity.
  now rewrite IH.
Qed.

Lemma hd_rev_last {A} (l : list A) a : nth_error l (length l - 1) = Some a -> hd_error (rev l) = Some a.
Proof.
  destruct l as [|x l] using rev_ind; cbn; [discriminate|]. rewrite app_length. cbn [length].
  replace (length l + 1 - 1)%nat with (length l) by lia.
  rewrite nth_error_app2, Nat.sub_diag by lia. cbn. intros [= ->]. now rewrite rev_app_distr.
Qed.

Lemma trace_step_ok spd os d j :
  present d os -> (forall o, In o os -> used_offset o) -> NoDup os -> os <> [] -> (0 <= j < ny g)%Z ->
  (1 <= spd)%Z -> (forall n, length (fst (roots_jacobi n)) = n) ->
  exists d', trace_step G pR pZ pnx pnz findIndex trace outside roots_jacobi g spd (map ps_of os) d j = Ok d' /\
    present d' os /\ step_entry spd os d' j /\
    (forall f o x y z s, In f fields6 -> In o os -> y <> j -> arr d' f o x y z s = arr d f o x y z s) /\
    (forall k, (forall f o, In f fields6 -> In o os -> k <> nm f o) -> d' k = d k) /\
    (forall f o o', In f ["xt_primes"; "zt_primes"] -> nth_error os (length os - 1) = Some o' -> In o os -> o <> o' ->
       d' (nm f o) = d (nm f o)).
Proof.
  intros P U ND Hne Hj Hspd Hr.
  destruct (getPoloidalGrid_slice j Hj) as (pol & yj & Epol).
  unfold trace_step. rewrite Epol. cbn [bind fst snd].
  destruct (mapM_ok (fun ps => getPoloidalGrid g (inject_Z j + offset_value (ps_off ps))) (map ps_of os))
    as (pys & Epys & Lpys & Npys).
  { intros ps _. destruct (getPoloidalGrid_total (inject_Z j + offset_value (ps_off ps))) as (p & y & E). eauto. }
  rewrite map_length in Lpys. rewrite Epys. cbn [bind].
  destruct (Hflow (pR pol) (pZ pol) yj (map snd pys)) as [c0 Et]. rewrite Et. cbn [skipn].
  set (yl := last (map snd pys) yj).
  set (coords := map (flow (pR pol) (pZ pol) yj) (map snd pys)).
  assert (Lc : length coords = length os) by (unfold coords; rewrite !map_length; assumption).
  rewrite map_combine3.
  set (items := combine (combine os coords) (map fst pys)).
  assert (Lit : length (combine os coords) = length (map fst pys)).
  { rewrite combine_length, map_length. lia. }
  assert (Eoff : map it_off items = os).
  { unfold items, it_off. rewrite <- (map_map fst fst), map_fst_combine by assumption.
    apply map_fst_combine. lia. }
  change (map _ items) with (map to_ps items).
  destruct (store_all yl j d items os P U Eoff ND) as (d1 & E1 & [S1 S2 S3 S4 S5]).
  rewrite E1. cbn [bind snd fst].
  assert (Hos : (0 < length os)%nat) by (destruct os; [congruence|cbn; lia]).
  destruct (nth_error os (length os - 1)) as [ol|] eqn:Eol.
  2:{ apply nth_error_None in Eol. lia. }
  assert (Hol : In ol os) by (eapply nth_error_In; eauto).
  assert (Items : forall i o p y, nth_error os i = Some o -> nth_error pys i = Some (p, y) ->
     nth_error items i = Some (o, flow (pR pol) (pZ pol) yj y, p)).
  { intros i o p y Ho Hp. unfold items. apply nth_error_combine; [apply nth_error_combine|]; [assumption| |].
    - unfold coords. rewrite !nth_error_map, Hp. reflexivity.
    - rewrite nth_error_map, Hp. reflexivity. }
  assert (Pys : forall i o, nth_error os i = Some o -> exists p y, nth_error pys i = Some (p, y) /\
        getPoloidalGrid g (inject_Z j + offset_value o) = Ok (p, y)).
  { intros i o Ho. destruct (Npys i (ps_of o)) as ((p & y) & Ep & Eg).
    - rewrite nth_error_map, Ho. reflexivity.
    - exists p, y. split; assumption. }
  destruct (Pys _ _ Eol) as (pl & yl' & Epl & _).
  assert (Litems : length items = length os).
  { unfold items. rewrite combine_length, Lit. rewrite map_length. lia. }
  rewrite (hd_rev_last items (ol, flow (pR pol) (pZ pol) yj yl', pl)).
  2:{ rewrite Litems. now apply Items. }
  cbn [option_map it_off fst snd].
  assert (Fr1 : forall f o, In f ["xt_primes"; "zt_primes"] -> In o os -> d1 (nm f o) = d (nm f o)).
  { intros f o Hf Ho. apply S5. intros f' o' Hf' Ho' C.
    rewrite Eoff in Ho'. apply nm_inj in C; auto.
    - destruct C as [-> _]. cbn in Hf, Hf'. clear - Hf Hf'. intuition (subst; discriminate).
    - cbn in Hf |- *. intuition.
    - cbn in Hf' |- *. intuition. }
  destruct (subsample_ok spd pol ol pl (xind yl (flow (pR pol) (pZ pol) yj yl') pl) (zind yl (flow (pR pol) (pZ pol) yj yl') pl)
      yj yl j d1 (arr d "xt_primes" ol) (arr d "zt_primes" ol)) as (d2 & ax & az & E2 & X1 & X2 & X3 & X4 & X5); auto.
  { rewrite Fr1 by (cbn; auto). eapply present_arr; eauto. cbn; auto 10. }
  { rewrite Fr1 by (cbn; auto). eapply present_arr; eauto. cbn; auto 10. }
  exists d2. split; [exact E2|].
  assert (Ne : forall f o, In f ["R"; "Z"; "xt_prime"; "zt_prime"] -> In o os -> d2 (nm f o) = d1 (nm f o)).
  { intros f o Hf Ho. apply X3; intros C; apply nm_inj in C; auto;
      try (destruct C as [-> _]; cbn in Hf; intuition discriminate); cbn in Hf |- *; intuition. }
  assert (Val : forall i o p y, nth_error os i = Some o -> nth_error pys i = Some (p, y) ->
     let c := flow (pR pol) (pZ pol) yj y in
     d2 (nm "R" o) = Some (VArr (set3 j (fst c) (arr d "R" o))) /\
     d2 (nm "Z" o) = Some (VArr (set3 j (snd c) (arr d "Z" o))) /\
     d2 (nm "xt_prime" o) = Some (VArr (set3 j (xind yl c p) (arr d "xt_prime" o))) /\
     d2 (nm "zt_prime" o) = Some (VArr (set3 j (zind yl c p) (arr d "zt_prime" o)))).
  { intros i o p y Ho Hp c. specialize (Items i o p y Ho Hp). apply nth_error_In in Items.
    assert (Hin : In o os) by (eapply nth_error_In; eauto).
    rewrite !Ne by (cbn; auto 10). repeat split; eauto. }
  assert (Oth : forall f o, In f ["xt_primes"; "zt_primes"] -> In o os -> o <> ol -> d2 (nm f o) = d (nm f o)).
  { intros f o Hf Ho Hno. rewrite X3; [now apply Fr1| |]; intros C; apply nm_inj in C; auto;
     try (destruct C; congruence); cbn in Hf |- *; intuition. }
  assert (Cases : forall f o, In f fields6 -> In o os -> exists a, d2 (nm f o) = Some (VArr a) /\
     forall x y z s, y <> j -> a x y z s = arr d f o x y z s).
  { intros f o Hf Ho. apply In_nth_error in Ho as [i Ei]. destruct (Pys _ _ Ei) as (p & y & Ep & _).
    destruct (Val i o p y Ei Ep) as (V1 & V2 & V3 & V4).
    assert (Ho : In o os) by (eapply nth_error_In; eauto).
    cbn in Hf. destruct Hf as [<-|[<-|[<-|[<-|Hf]]]];
      try (eexists; split; [eassumption|]; intros; now rewrite set3_neq).
    assert (Dec : {o = ol} + {o <> ol}).
    { destruct (Nat.eq_dec i (length os - 1)) as [->|N]; [left; congruence|right].
      intros ->. apply N. eapply NoDup_nth_error; eauto.
      - apply nth_error_Some. congruence.
      - congruence. }
    destruct Dec as [->|No].
    - destruct Hf as [<-|[<-|[]]]; (eexists; split; [eassumption|]; intros x y' z s Hy; now apply X4).
    - rewrite Oth by (cbn; auto). assert (Hf6 : In f fields6) by (cbn; intuition).
      rewrite (present_arr d os f o P Hf6 Ho). eexists; split; [reflexivity|]. auto. }
  split; [|split; [|split; [|split]]].
  - intros f o Hf Ho. destruct (Cases f o Hf Ho) as (a & E & _). eauto.
  - exists pol, yj, pys. split; [assumption|split; [assumption|split; [assumption|]]]. cbn zeta. fold yl. split.
    + intros i o p y Ho Hp x z s. destruct (Val i o p y Ho Hp) as (V1 & V2 & V3 & V4).
      unfold arr at 1 2 3 4. rewrite V1, V2, V3, V4. rewrite !set3_eq. auto.
    + intros o p y Ho Hp. rewrite Eol in Ho. injection Ho as <-. rewrite Epl in Hp. injection Hp as <- <-.
      unfold arr. rewrite X1, X2. exact X5.
  - intros f o x y z s Hf Ho Hy. destruct (Cases f o Hf Ho) as (a & E & A). unfold arr at 1. rewrite E. now apply A.
  - intros k Hk. rewrite X3 by (apply Hk; cbn; auto 10). apply S5. intros f o Hf Ho. rewrite Eoff in Ho.
    apply Hk; [cbn in Hf |- *; intuition|assumption].
  - intros f o o' Hf E Ho Hno. injection E as <-. now apply Oth.
Qed.
End Step.
