(** C26: what the file holds after write_maps. *)
From Coq Require Import String List ZArith QArith Bool Lia.
From Verif Require Import Prelude PreludeFacts NamingModel NamingSpec NamingProofs WriterModel WriterSpec WriterProofs.
Import ListNotations.
Open Scope string_scope.

(** ** Names *)

Lemma clash : clash_free library_fields.
Proof. exact (clash_free_b_sound library_fields eq_refl). Qed.

Lemma incl_out nn m : In m metric_names -> In (out_name nn m) library_fields.
Proof.
  intros H. unfold metric_names in H. cbn [In] in H.
  destruct nn; repeat destruct H as [<-|H]; try contradiction; cbn; tauto.
Qed.
Lemma incl_slice f : In f slice_fields -> In f library_fields.
Proof. intros H. unfold slice_fields in H. cbn [In] in H. repeat destruct H as [<-|H]; try contradiction; cbn; tauto. Qed.

Lemma rename_old k : In k (metric_names ++ extra_metric_names) -> rename k = old_name k.
Proof.
  intros H. unfold metric_names, extra_metric_names in H. cbn [In app] in H.
  repeat destruct H as [<-|H]; try contradiction; reflexivity.
Qed.

Lemma name_int_not_listed repr f z k l : z <> 0%Z -> parallel_slice_field_name repr f (OInt z) = Ok k ->
  forallb (fun s => negb (String.prefix "forward_" s) && negb (String.prefix "backward_" s))%bool l = true -> ~ In k l.
Proof.
  intros Hz E Hl Hin. rewrite name_int_ok in E by assumption. injection E as <-.
  rewrite forallb_forall in Hl. specialize (Hl _ Hin). unfold name_int in Hl.
  destruct (0 <? z)%Z; cbn in Hl; destruct (f ++ suffix_of z); discriminate.
Qed.

Lemma half_names repr f o k : In f slice_fields -> o = OFloat (1#2) \/ o = OFloat (-(1#2)) ->
  parallel_slice_field_name repr f o = Ok k ->
  In k (flat_map (fun f => [f ++ "_cell_yhigh"; f ++ "_cell_ylow"]) slice_fields).
Proof.
  intros Hf Ho E. apply in_flat_map. exists f. split; [exact Hf|].
  destruct Ho as [-> | ->]; [rewrite name_half in E|rewrite name_mhalf in E]; injection E as <-; cbn; auto.
Qed.

Lemma no_common (l1 l2 : list string) k :
  forallb (fun a => forallb (fun b => negb (String.eqb a b)) l2) l1 = true -> In k l1 -> In k l2 -> False.
Proof.
  intros H H1 H2. rewrite forallb_forall in H. specialize (H _ H1). rewrite forallb_forall in H.
  specialize (H _ H2). rewrite String.eqb_refl in H. discriminate.
Qed.

Lemma map_key_not_metric repr nn k : map_key repr k ->
  ~ In k (map (out_name nn) (metric_names ++ extra_metric_names)).
Proof.
  intros [H|(f & o & Hf & Ho & E)] Hin.
  - revert H Hin. apply no_common. destruct nn; reflexivity.
  - assert (Hh : o = OFloat (1#2) \/ o = OFloat (-(1#2)) -> False).
    { intros Hh. pose proof (half_names _ _ _ _ Hf Hh E) as Hk. revert Hk Hin. apply no_common. destruct nn; reflexivity. }
    destruct Ho as [Ho|[Ho|(z & Hz & ->)]]; [tauto|tauto|].
    revert Hin. eapply name_int_not_listed; [exact Hz|exact E|destruct nn; reflexivity].
Qed.

Lemma map_key_not_size repr k : map_key repr k -> ~ In k size_names.
Proof.
  intros [H|(f & o & Hf & Ho & E)] Hin.
  - revert H Hin. apply no_common. reflexivity.
  - assert (Hh : o = OFloat (1#2) \/ o = OFloat (-(1#2)) -> False).
    { intros Hh. pose proof (half_names _ _ _ _ Hf Hh E) as Hk. revert Hk Hin. apply no_common. reflexivity. }
    destruct Ho as [Ho|[Ho|(z & Hz & ->)]]; [tauto|tauto|].
    revert Hin. eapply name_int_not_listed; [exact Hz|exact E|reflexivity].
Qed.

Lemma slice_metric_disjoint nn f m : In f slice_fields -> In m metric_names -> f <> out_name nn m.
Proof.
  intros Hf Hm E. assert (In f (map (out_name nn) metric_names)) by (rewrite E; now apply in_map).
  revert Hf H. apply no_common. destruct nn; reflexivity.
Qed.

Lemma map_key_not_par repr nn k : map_key repr k -> ~ par_key repr nn k.
Proof.
  intros H (m & z & Hm & Hz & E).
  destruct H as [H|(f & o & Hf & Ho & E')].
  - revert H. eapply name_int_not_listed; [exact Hz|exact E|reflexivity].
  - assert (U : used_offset o) by (destruct Ho as [->|[->|(w & Hw & ->)]]; cbn; auto).
    destruct (slice_names_unique repr library_fields f (out_name nn m) o (OInt z) k) as [C _];
      [exact clash|now apply incl_slice|now apply incl_out|exact U|exact Hz|exact E'|exact E|].
    now apply slice_metric_disjoint in C.
Qed.

Lemma metric_not_par repr nn k : In k (map (out_name nn) (metric_names ++ extra_metric_names)) -> ~ par_key repr nn k.
Proof.
  intros H (m & z & Hm & Hz & E). revert H.
  eapply name_int_not_listed; [exact Hz|exact E|destruct nn; reflexivity].
Qed.
Lemma metric_not_size nn k : In k (map (out_name nn) (metric_names ++ extra_metric_names)) -> ~ In k size_names.
Proof. intros H H'. revert H H'. apply no_common. destruct nn; reflexivity. Qed.
Lemma par_not_size repr nn k : par_key repr nn k -> ~ In k size_names.
Proof.
  intros (m & z & Hm & Hz & E). eapply name_int_not_listed; [exact Hz|exact E|reflexivity].
Qed.

Lemma NoDup_dec_bool (l : list string) :
  (fix nd l := match l with [] => true | a :: t => (negb (existsb (String.eqb a) t) && nd t)%bool end) l = true -> NoDup l.
Proof.
  induction l as [|a t IH]; [constructor|]. intros H. apply andb_prop in H. destruct H as [H1 H2].
  constructor; [|now apply IH]. intros C. apply Bool.negb_true_iff in H1.
  assert (existsb (String.eqb a) t = true) by (apply existsb_exists; exists a; split; [exact C|apply String.eqb_refl]).
  congruence.
Qed.

Lemma map_NoDup_inj {A B} (f : A -> B) l a b : NoDup (map f l) -> In a l -> In b l -> f a = f b -> a = b.
Proof.
  induction l as [|x t IH]; cbn; [easy|]. intros Hn [->|Ha] [->|Hb] E; inversion Hn as [|? ? N N']; subst; auto.
  - exfalso. apply N. rewrite E. now apply in_map.
  - exfalso. apply N. rewrite <- E. now apply in_map.
Qed.

Lemma out_inj nn a b : In a (metric_names ++ extra_metric_names) -> In b (metric_names ++ extra_metric_names) ->
  out_name nn a = out_name nn b -> a = b.
Proof. apply map_NoDup_inj. apply NoDup_dec_bool. destruct nn; reflexivity. Qed.

Lemma NoDup_map_inj {A B} (f : A -> B) l : (forall a b, In a l -> In b l -> f a = f b -> a = b) -> NoDup l -> NoDup (map f l).
Proof.
  induction l as [|x t IH]; cbn; intros H Hn; [constructor|]. inversion Hn as [|? ? N N']; subst.
  constructor; [|apply IH; auto]. intros C. apply in_map_iff in C. destruct C as (y & E & Hy).
  apply N. rewrite (H x y); auto.
Qed.

(** ** The metric's dictionary *)

Section D.
Variable V : Type.

Lemma update_as_build (d : pdict V) :
  update_metric_names d = build (map (fun kv => (rename (fst kv), snd kv)) d).
Proof. unfold update_metric_names, build. rewrite fold_left_map. reflexivity. Qed.

Lemma keys_map (h : string -> string) (d : pdict V) : keys (map (fun kv => (h (fst kv), snd kv)) d) = map h (keys d).
Proof. unfold keys. rewrite !map_map. reflexivity. Qed.

(** The dictionary written: renamed unless new names are wanted. *)
Definition outdict (nn : bool) (d : pdict V) : pdict V := if nn then d else update_metric_names d.

Lemma outdict_spec nn (d : pdict V) : NoDup (keys d) -> incl (keys d) (metric_names ++ extra_metric_names) ->
  NoDup (keys (outdict nn d)) /\
  (forall x, In x (keys (outdict nn d)) <-> In x (map (out_name nn) (keys d))) /\
  (forall k v, dget d k = Some v -> dget (outdict nn d) (out_name nn k) = Some v).
Proof.
  intros Hn Hi. destruct nn; cbn [outdict out_name].
  - split; [exact Hn|split; [intros x; now rewrite map_id|auto]].
  - rewrite update_as_build. unfold build.
    destruct (fold_dput_spec (map (fun kv => (rename (fst kv), snd kv)) d) []) as (H1 & H2 & H3 & H4); [constructor|].
    assert (Ek : map rename (keys d) = map old_name (keys d)).
    { apply map_ext_in. intros a Ha. apply rename_old. auto. }
    split; [exact H1|split].
    + intros x. rewrite H2, keys_map, Ek. cbn. tauto.
    + intros k v Hk. apply H4.
      * rewrite keys_map, Ek. apply NoDup_map_inj; [|exact Hn].
        intros a b Ha Hb E. apply (out_inj false); auto.
      * apply in_map_iff. exists (k, v). cbn. split; [f_equal; apply rename_old; apply Hi; now apply dget_key in Hk|now apply dget_in].
Qed.

Variable ratio2 : V -> V -> V.

Ltac bok H := match type of H with bind ?r _ = Ok _ => destruct r as [?a|?e] eqn:?E; cbn [bind] in H; [|discriminate] end.

Lemma incl_dput (d : pdict V) k v l : incl (keys d) l -> In k l -> incl (keys (dput d k v)) l.
Proof. intros H1 H2 x Hx. apply keys_dput in Hx. destruct Hx as [->|Hx]; auto. Qed.

Lemma dget_err_ok (d : pdict V) k v : dget_err d k = Ok v -> dget d k = Some v.
Proof. unfold dget_err. destruct (dget d k); congruence. Qed.

(** Values of the metric dictionary before renaming. *)
Definition yy_values (maps m : pdict V) (m' : pdict V) : Prop :=
  match dget maps "Ly" with
  | Some _ =>
    exists g dy L Ll Lh, dget m "g_yy" = Some g /\ dget m "dy" = Some dy /\ dget maps "Ly" = Some L /\
      dget maps "Ly_cell_ylow" = Some Ll /\ dget maps "Ly_cell_yhigh" = Some Lh /\
      dget m' "g_yy_old" = Some g /\ dget m' "g_yy" = Some (ratio2 L dy) /\
      dget m' "g_yy_cell_ylow" = Some (ratio2 Ll dy) /\ dget m' "g_yy_cell_yhigh" = Some (ratio2 Lh dy) /\
      dget m' "g_yy_correct" = Some (ratio2 L dy)
  | None =>
    exists g, dget m "g_yy" = Some g /\ dget m' "g_yy" = Some g /\
      dget m' "g_yy_cell_ylow" = Some g /\ dget m' "g_yy_cell_yhigh" = Some g
  end.

Lemma full_metric_spec maps m m' : full_metric V ratio2 maps m = Ok m' ->
  NoDup (keys m) -> incl (keys m) metric_names ->
  NoDup (keys m') /\ incl (keys m') (metric_names ++ extra_metric_names) /\
  (forall k, In k metric_names -> k <> "g_yy" -> dget m' k = dget m k) /\ yy_values maps m m'.
Proof.
  unfold full_metric, dmem, yy_values. intros E Hn Hi.
  assert (Hi' : incl (keys m) (metric_names ++ extra_metric_names)) by (intros x Hx; apply in_or_app; auto).
  assert (NE : forall k k', In k metric_names -> k <> "g_yy" -> In k' ("g_yy" :: extra_metric_names) -> k <> k').
  { intros k k' Hk Hny Hk' ->. destruct Hk' as [<-|Hk']; [congruence|]. revert Hk Hk'. apply no_common. reflexivity. }
  destruct (dget maps "Ly") as [L|] eqn:EL.
  - bok E. bok E. cbn [foldM posts append] in E.
    unfold dget_err at 1 in E. rewrite EL in E. cbn [bind] in E.
    destruct (dget_err maps "Ly_cell_ylow") as [Ll|] eqn:El; cbn [bind] in E; [|discriminate].
    destruct (dget_err maps "Ly_cell_yhigh") as [Lh|] eqn:Eh; cbn [bind] in E; [|discriminate].
    unfold dget_err in E. rewrite EL in E. cbn [bind] in E. injection E as <-.
    apply dget_err_ok in E0, E1, El, Eh.
    split; [repeat apply NoDup_dput; exact Hn|].
    split; [repeat (apply incl_dput; [|cbn; tauto]); exact Hi'|].
    split.
    + intros k Hk Hny. rewrite !dget_dput_neq by (apply NE; cbn; tauto). reflexivity.
    + exists a, a0, L, Ll, Lh. do 5 (split; [assumption||reflexivity|]).
      repeat (rewrite ?dget_dput_eq; rewrite ?dget_dput_neq by discriminate). auto.
  - cbn [foldM append] in E.
    destruct (dget_err m "g_yy") as [g|] eqn:Eg; cbn [bind] in E; [|discriminate].
    apply dget_err_ok in Eg. unfold dget_err in E. rewrite dget_dput_neq in E by discriminate. rewrite Eg in E.
    cbn [bind] in E. injection E as <-.
    split; [repeat apply NoDup_dput; exact Hn|].
    split; [repeat (apply incl_dput; [|cbn; tauto]); exact Hi'|].
    split.
    + intros k Hk Hny. rewrite !dget_dput_neq by (apply NE; cbn; tauto). reflexivity.
    + exists g. repeat (rewrite ?dget_dput_eq; rewrite ?dget_dput_neq by discriminate). auto.
Qed.
End D.

(** ** The writing monad *)
Section M.
Variable V : Type.
Variable is_array finite : V -> bool.
Variable sub0 sub00 : V -> res V.

Lemma wbind_ok {A B} (m : W V A) (k : A -> W V B) f f' b : wbind V m k f = (f', Ok b) ->
  exists f1 a, m f = (f1, Ok a) /\ k a f1 = (f', Ok b).
Proof. unfold wbind. destruct (m f) as [f1 [a|e]]; [eauto|discriminate]. Qed.
Lemma lift_ok {A} (r : res A) f f' a : lift V r f = (f', Ok a) -> f' = f /\ r = Ok a.
Proof. unfold lift. intros E. injection E as -> ->. auto. Qed.

Lemma items_ok d : forall f f', write_items V is_array finite d f = (f', Ok tt) ->
  (forall k, ~ In k (keys d) -> f' k = f k) /\
  (NoDup (keys d) -> forall k v, dget d k = Some v -> f' k = Some v).
Proof.
  induction d as [|[k v] t IH]; cbn [write_items]; intros f f' E.
  - injection E as <-. split; [reflexivity|discriminate].
  - destruct (is_array v && negb (finite v))%bool; [discriminate|].
    apply wbind_ok in E. destruct E as (f1 & [] & E1 & E2). injection E1 as <-.
    destruct (IH _ _ E2) as [H1 H2]. split.
    + intros k' Hk'. cbn in Hk'. rewrite H1 by tauto. unfold fset.
      destruct (String.eqb_spec k' k); [subst; tauto|reflexivity].
    + cbn. intros Hn k' v' Hg. inversion Hn as [|? ? N N']; subst.
      destruct (String.eqb_spec k' k) as [->|Nk].
      * injection Hg as <-. rewrite H1 by exact N. unfold fset. now rewrite String.eqb_refl.
      * now apply H2.
Qed.

(** always3d or no 2D metrics: the dictionary is written as it is. *)
Lemma dict_ok m2 op a3 d f f' d' : (m2 && negb a3)%bool = false ->
  write_dict V is_array finite sub0 sub00 m2 op a3 d f = (f', Ok d') ->
  d' = d /\ write_items V is_array finite d f = (f', Ok tt).
Proof.
  intros Hm E. unfold write_dict in E. destruct op; cbn in E; [|discriminate]. rewrite Hm in E.
  apply wbind_ok in E. destruct E as (f1 & a & E1 & E). injection E1 as <- <-.
  apply wbind_ok in E. destruct E as (f2 & [] & E1 & E). injection E as <- <-. auto.
Qed.

Lemma squeeze_keys d d' : squeeze V sub0 d = Ok d' -> keys d' = keys d.
Proof.
  revert d'. induction d as [|[k v] t IH]; cbn; intros d' E; [injection E as <-; reflexivity|].
  destruct (sub0 v) as [v'|e]; cbn in E.
  - destruct (squeeze V sub0 t) eqn:Et; cbn in E; [|discriminate]. injection E as <-. cbn. f_equal. now apply IH.
  - destruct e; cbn in E; try discriminate.
    destruct (squeeze V sub0 t) eqn:Et; cbn in E; [|discriminate]. injection E as <-. cbn. f_equal. now apply IH.
Qed.
Lemma squeeze_val d : forall d' k v v', squeeze V sub0 d = Ok d' -> dget d k = Some v -> sub0 v = Ok v' -> dget d' k = Some v'.
Proof.
  induction d as [|[k0 v0] t IH]; cbn; intros d' k v v' E Hg Hs; [discriminate|].
  destruct (String.eqb_spec k k0) as [->|Nk].
  - injection Hg as ->. rewrite Hs in E. cbn in E.
    destruct (squeeze V sub0 t) eqn:Et; cbn in E; [|discriminate]. injection E as <-. cbn. now rewrite String.eqb_refl.
  - destruct (match sub0 v0 with Ok v' => Ok v' | Err TypeError => Ok v0 | Err e => Err e end); cbn in E; [|discriminate].
    destruct (squeeze V sub0 t) eqn:Et; cbn in E; [|discriminate]. injection E as <-. cbn.
    destruct (String.eqb_spec k k0); [congruence|]. eapply IH; eauto.
Qed.

(** In general: the keys are those of the dictionary. *)
Lemma dict_any m2 op a3 d f f' d' : NoDup (keys d) ->
  write_dict V is_array finite sub0 sub00 m2 op a3 d f = (f', Ok d') ->
  (forall k, ~ In k (keys d) -> f' k = f k) /\
  (forall k v, dget d k = Some v -> (m2 && negb a3)%bool = false -> f' k = Some v) /\
  (forall k v v', dget d k = Some v -> (m2 && negb a3)%bool = true -> k <> "dz" -> sub0 v = Ok v' -> f' k = Some v') /\
  (forall v v' v'', dget d "dz" = Some v -> (m2 && negb a3)%bool = true -> sub0 v = Ok v' -> sub00 v' = Ok v'' ->
     f' "dz" = Some v'').
Proof.
  intros Hn E. destruct (m2 && negb a3)%bool eqn:Hm.
  - unfold write_dict in E. destruct op; cbn [negb] in E; [|discriminate]. rewrite Hm in E.
    apply wbind_ok in E. destruct E as (f1 & d2 & E1 & E).
    apply wbind_ok in E. destruct E as (f2 & [] & E2 & E). injection E as <- <-.
    apply wbind_ok in E1. destruct E1 as (f3 & d1 & E3 & E1). apply lift_ok in E3. destruct E3 as [-> Es].
    pose proof (squeeze_keys _ _ Es) as Ks.
    destruct (dget d1 "dz") as [vz|] eqn:Ez.
    + apply wbind_ok in E1. destruct E1 as (f4 & v' & E4 & E1). apply lift_ok in E4. destruct E4 as [-> E4].
      injection E1 as <- <-.
      destruct (items_ok _ _ _ E2) as [I1 I2].
      assert (N2 : NoDup (keys (dput d1 "dz" v'))) by (apply NoDup_dput; now rewrite Ks).
      split; [|split; [discriminate|split]].
      * intros k Hk. apply I1. intros C. apply keys_dput in C. rewrite Ks in C. destruct C as [->|C]; [|tauto].
        apply dget_key in Ez. rewrite Ks in Ez. tauto.
      * intros k v vv Hg _ Hk Hs. apply (I2 N2). rewrite dget_dput_neq by exact Hk. eapply squeeze_val; eauto.
      * intros v vv vw Hg _ Hs Hs'. apply (I2 N2). rewrite dget_dput_eq.
        rewrite (squeeze_val _ _ _ _ _ Es Hg Hs) in Ez. injection Ez as <-. congruence.
    + injection E1 as <- <-. destruct (items_ok _ _ _ E2) as [I1 I2]. rewrite Ks in I1, I2.
      split; [exact I1|split; [discriminate|split]].
      * intros k v vv Hg _ Hk Hs. apply (I2 Hn). eapply squeeze_val; eauto.
      * intros v vv vw Hg _ Hs Hs'. exfalso. rewrite (squeeze_val _ _ _ _ _ Es Hg Hs) in Ez. discriminate.
  - destruct (dict_ok _ _ _ _ _ _ _ Hm E) as [-> E']. destruct (items_ok _ _ _ E') as [I1 I2].
    split; [exact I1|split; [intros; now apply (I2 Hn)|split; discriminate]].
Qed.
End M.

(** ** write_maps as a whole *)
Section Top.
Variable V : Type.
Variable is_array finite : V -> bool.
Variable sub0 sub00 : V -> res V.
Variable ratio2 : V -> V -> V.
Variable of_int : Z -> V.
Variable Grid Field : Type.
Variable grid_RZ : Grid -> res (V * V).
Variable grid_metric : Grid -> Field -> res (pdict V).
Variable grid_shape : Grid -> Z * Z * Z.
Variable field_attributes : Grid -> Field -> res (pdict V).
Variable par_metric : Grid -> Field -> pdict V -> Z -> res (pdict V).
Variable as_int : V -> option Z.
Variable repr : Q -> string.
Variable m2d nn : bool.
Variable g : Grid.
Variable fd : Field.
Hypothesis Hmetric : forall m, grid_metric g fd = Ok m -> NoDup (keys m) /\ incl (keys m) metric_names.
Hypothesis Hpar : forall keep o m, par_metric g fd keep o = Ok m -> NoDup (keys m) /\ incl (keys m) metric_names.
Hypothesis Hattr : forall a, field_attributes g fd = Ok a -> NoDup (keys a) /\ forall k, In k (keys a) -> free_key repr nn k.

Notation st := {| metric2d := m2d; new_names := nn; is_open := true; w_grid := Some g; w_field := Some fd |}.
Notation name k o := (parallel_slice_field_name repr k (OInt o)).
Notation out := (map (out_name nn) (metric_names ++ extra_metric_names)).

(** What the file must hold of the metric. *)
Definition metric_written (m' : pdict V) (f : string -> option V) : Prop :=
  forall k v, dget m' k = Some v ->
    (m2d = false -> f (out_name nn k) = Some v) /\
    (m2d = true -> forall v', sub0 v = Ok v' ->
      (k <> "dz" -> f (out_name nn k) = Some v') /\
      (k = "dz" -> forall v'', sub00 v' = Ok v'' -> f (out_name nn k) = Some v'')).

Lemma write_metric_ok maps f f' :
  write_metric V is_array finite sub0 sub00 ratio2 Grid Field grid_metric field_attributes st g fd maps f = (f', Ok tt) ->
  exists m m' a, grid_metric g fd = Ok m /\ full_metric V ratio2 maps m = Ok m' /\ field_attributes g fd = Ok a /\
    metric_written m' f' /\ (forall k v, dget a k = Some v -> f' k = Some v) /\
    (forall k, ~ In k out -> ~ In k (keys a) -> f' k = f k).
Proof.
  unfold write_metric. cbn [metric2d new_names is_open]. intros E.
  apply wbind_ok in E. destruct E as (f1 & m & E1 & E). apply lift_ok in E1. destruct E1 as [-> Em].
  apply wbind_ok in E. destruct E as (f1 & m' & E1 & E). apply lift_ok in E1. destruct E1 as [-> Em'].
  apply wbind_ok in E. destruct E as (f1 & d1 & E1 & E).
  apply wbind_ok in E. destruct E as (f2 & a & E2 & E). apply lift_ok in E2. destruct E2 as [-> Ea].
  apply wbind_ok in E. destruct E as (f2 & d2 & E2 & E). injection E as <-.
  exists m, m', a. do 3 (split; [assumption|]).
  destruct (Hmetric _ Em) as [Nm Im]. destruct (Hattr _ Ea) as [Na Fa].
  destruct (full_metric_spec V ratio2 _ _ _ Em' Nm Im) as (N' & I' & _ & _).
  change (if nn then m' else update_metric_names m') with (outdict V nn m') in E1.
  destruct (outdict_spec V nn m' N' I') as (No & Ko & Do).
  destruct (dict_any _ _ _ _ _ _ _ _ _ _ _ _ No E1) as (F1 & V1 & V2 & V3).
  destruct (dict_any _ _ _ _ _ _ _ _ _ _ _ _ Na E2) as (F2 & W1 & _ & _).
  rewrite andb_true_r in V1, V2, V3. rewrite andb_false_r in W1.
  assert (Hmono : forall k, In k (keys m') -> f2 (out_name nn k) = f1 (out_name nn k)).
  { intros k Hk. apply F2. intros C. destruct (Fa _ C) as (_ & _ & _ & X). apply X. apply in_map. auto. }
  split; [|split].
  - intros k v Hk. rewrite Hmono by (now apply dget_key in Hk). split.
    + intros Hm. apply V1; auto.
    + intros Hm v' Hs. split.
      * intros Hz. eapply V2; [apply Do; exact Hk|exact Hm| |exact Hs].
        intros C. apply Hz. apply (out_inj nn); [apply I'; now apply dget_key in Hk|cbn; tauto|].
        rewrite C. destruct nn; reflexivity.
      * intros -> v'' Hs'. assert (Ez : out_name nn "dz" = "dz") by (destruct nn; reflexivity).
        rewrite Ez. eapply V3; [rewrite <- Ez; apply Do; exact Hk|exact Hm|exact Hs|exact Hs'].
  - intros k v Hk. apply W1; [exact Hk|reflexivity].
  - intros k H1 H2. rewrite F2 by exact H2. apply F1. intros C. apply Ko in C. apply H1.
    apply in_map_iff in C. destruct C as (x & <- & Hx). apply in_map. auto.
Qed.

Lemma wmapM_spec {A B} (h : A -> res B) l l' : wmapM h l = Ok l' -> Forall2 (fun a b => h a = Ok b) l l'.
Proof.
  revert l'. induction l as [|a t IH]; cbn; intros l' E; [injection E as <-; constructor|].
  destruct (h a) eqn:Ea; cbn in E; [|discriminate]. destruct (wmapM h t) eqn:Et; cbn in E; [|discriminate].
  injection E as <-. constructor; auto.
Qed.

Lemma write_par_ok keep os : (forall o, In o os -> o <> 0%Z) -> NoDup os -> forall f f',
  write_par V is_array finite sub0 sub00 Grid Field par_metric repr st g fd keep os f = (f', Ok tt) ->
  (forall k, ~ par_key repr nn k -> f' k = f k) /\
  (forall o k v n, In o os -> exists pm, par_metric g fd keep o = Ok pm /\
     (dget pm k = Some v -> name (out_name nn k) o = Ok n -> f' n = Some v)).
Proof.
  induction os as [|o t IH]; intros Hz Hnd f f' E; cbn [write_par] in E.
  { injection E as <-. split; [reflexivity|intros ? ? ? ? []]. }
  cbn [metric2d new_names is_open] in E.
  apply wbind_ok in E. destruct E as (f1 & pm & E1 & E). apply lift_ok in E1. destruct E1 as [-> Epm].
  apply wbind_ok in E. destruct E as (f1 & items & E1 & E). apply lift_ok in E1. destruct E1 as [-> Eit].
  apply wbind_ok in E. destruct E as (f1 & d1 & E1 & E).
  change (if nn then pm else update_metric_names pm) with (outdict V nn pm) in Eit.
  inversion Hnd as [|? ? No' Nt]; subst.
  destruct (IH (fun o' H => Hz o' (or_intror H)) Nt _ _ E) as [IH1 IH2].
  destruct (Hpar _ _ _ Epm) as [Nm Im].
  assert (Im' : incl (keys pm) (metric_names ++ extra_metric_names)) by (intros x Hx; apply in_or_app; auto).
  destruct (outdict_spec V nn pm Nm Im') as (No & Ko & Do).
  assert (Hoz : o <> 0%Z) by (apply Hz; now left).
  apply wmapM_spec in Eit.
  assert (Eitems : items = map (fun kv => (name_int (fst kv) o, snd kv)) (outdict V nn pm)).
  { clear -Eit Hoz. induction Eit as [|[a v] b l l' H Hl IH]; [reflexivity|]. cbn in H |- *.
    rewrite name_int_ok in H by exact Hoz. cbn in H. injection H as <-. f_equal. exact IH. }
  assert (Lib : forall x, In x (keys (outdict V nn pm)) -> In x library_fields).
  { intros x Hx. apply Ko in Hx. apply in_map_iff in Hx. destruct Hx as (y & <- & Hy). apply incl_out. auto. }
  assert (Nitems : NoDup (keys items)).
  { rewrite Eitems, (keys_map V (fun k => name_int k o)). apply NoDup_map_inj; [|exact No].
    intros a b Ha Hb Eab. destruct (name_int_inj library_fields a b o o clash) as [H _]; auto. }
  destruct (fold_dput_spec items []) as (Nb & Kb & _ & Gb); [constructor|].
  destruct (dict_any _ _ _ _ _ _ _ _ _ _ _ _ Nb E1) as (F1 & V1 & _ & _).
  cbn [negb] in V1. rewrite andb_false_r in V1.
  assert (Kp : forall k, In k (keys items) -> par_key repr nn k).
  { intros k Hk. rewrite Eitems, (keys_map V (fun k => name_int k o)) in Hk. apply in_map_iff in Hk.
    destruct Hk as (x & <- & Hx). apply Ko in Hx. apply in_map_iff in Hx. destruct Hx as (y & <- & Hy).
    exists y, o. split; [auto|split; [exact Hoz|]]. now apply name_int_ok. }
  split.
  - intros k Hk. rewrite IH1 by exact Hk. apply F1. rewrite Kb. cbn. intros [[]|C]. apply Hk. now apply Kp.
  - intros o' k v n [<-|Hin].
    + exists pm. split; [exact Epm|]. intros Hk Hname.
      rewrite name_int_ok in Hname by exact Hoz. injection Hname as <-.
      assert (Hf1 : f1 (name_int (out_name nn k) o) = Some v).
      { apply V1; [|reflexivity]. apply (Gb Nitems). rewrite Eitems. apply in_map_iff.
        exists (out_name nn k, v). split; [reflexivity|]. apply dget_in. now apply Do. }
      (* the other offsets use other names *)
      clear IH1 IH2. rewrite <- Hf1. clear Hf1.
      revert f1 f' E1 E V1 F1. clear IH. intros f1 f' E1 E V1 F1.
      assert (Frame : forall os f f', (forall o', In o' os -> o' <> 0%Z /\ o' <> o) ->
        write_par V is_array finite sub0 sub00 Grid Field par_metric repr st g fd keep os f = (f', Ok tt) ->
        f' (name_int (out_name nn k) o) = f (name_int (out_name nn k) o)).
      { clear E E1 V1 F1 f1 f'. intros os. induction os as [|o' t' IHo]; intros f1 f2 Hos E; cbn [write_par] in E.
        { injection E as <-. reflexivity. }
        cbn [metric2d new_names is_open] in E.
        apply wbind_ok in E. destruct E as (f3 & pm' & E1 & E). apply lift_ok in E1. destruct E1 as [-> Epm'].
        apply wbind_ok in E. destruct E as (f3 & items' & E1 & E). apply lift_ok in E1. destruct E1 as [-> Eit'].
        apply wbind_ok in E. destruct E as (f3 & d3 & E1 & E).
        change (if nn then pm' else update_metric_names pm') with (outdict V nn pm') in Eit'.
        rewrite (IHo f3 f2 (fun x H => Hos x (or_intror H)) E).
        destruct (Hpar _ _ _ Epm') as [Nm' Im2].
        assert (Im3 : incl (keys pm') (metric_names ++ extra_metric_names)) by (intros x Hx; apply in_or_app; auto).
        destruct (outdict_spec V nn pm' Nm' Im3) as (No2 & Ko2 & Do2).
        destruct (Hos o' (or_introl eq_refl)) as [Hz' Ho'].
        destruct (fold_dput_spec items' []) as (Nb' & Kb' & _ & _); [constructor|].
        destruct (dict_any _ _ _ _ _ _ _ _ _ _ _ _ Nb' E1) as (F1 & _ & _ & _).
        apply F1. rewrite Kb'. cbn. intros [[]|C].
        apply wmapM_spec in Eit'.
        assert (Ei : items' = map (fun kv => (name_int (fst kv) o', snd kv)) (outdict V nn pm')).
        { clear -Eit' Hz'. induction Eit' as [|[a v] b l l' H Hl IH]; [reflexivity|]. cbn in H |- *.
          rewrite name_int_ok in H by exact Hz'. cbn in H. injection H as <-. f_equal. exact IH. }
        rewrite Ei, (keys_map V (fun k => name_int k o')) in C. apply in_map_iff in C. destruct C as (x & Ex & Hx).
        apply Ko2 in Hx. apply in_map_iff in Hx. destruct Hx as (y & <- & Hy).
        destruct (name_int_inj library_fields (out_name nn y) (out_name nn k) o' o clash) as [_ C];
          [apply incl_out; auto|apply incl_out; apply Im; now apply dget_key in Hk|exact Hz'|exact Hoz|exact Ex|congruence]. }
      apply (Frame t); [|exact E]. intros o' Ho'. split; [apply Hz; now right|intros ->; tauto].
    + destruct (IH2 o' k v n Hin) as (pm' & Ep & Hv). exists pm'. auto.
Qed.

Lemma sizes_ok s f f' : write_sizes V of_int s f = (f', Ok tt) ->
  f' "nx" = Some (of_int (fst (fst s))) /\ f' "ny" = Some (of_int (snd (fst s))) /\ f' "nz" = Some (of_int (snd s)) /\
  f' "ixseps1" = Some (of_int (fst (fst s) + 1)) /\ f' "ixseps2" = Some (of_int (fst (fst s) + 1)) /\
  (forall k, ~ In k size_names -> f' k = f k).
Proof.
  destruct s as [[nx ny] nz]. unfold write_sizes, wbind, fwrite. intros E. injection E as <-.
  do 5 (split; [reflexivity|]). intros k Hk. unfold fset.
  repeat match goal with |- context[String.eqb k ?s] =>
    let N := fresh in destruct (String.eqb_spec k s) as [N|N]; [exfalso; apply Hk; rewrite N; cbn; tauto|] end.
  reflexivity.
Qed.

Lemma offsets_nz n o : In o (offsets n) -> o <> 0%Z.
Proof.
  unfold offsets. intros H. apply in_app_or in H. destruct H as [H|H].
  - apply in_zrange in H. lia.
  - apply in_map_iff in H. destruct H as (x & <- & H). apply in_zrange in H. lia.
Qed.
Lemma offsets_NoDup n : NoDup (offsets n).
Proof.
  unfold offsets. apply NoDup_app; [apply NoDup_zrange| |].
  - apply NoDup_map_inj; [intros; lia|apply NoDup_zrange].
  - intros x H1 H2. apply in_zrange in H1. apply in_map_iff in H2. destruct H2 as (y & <- & H2). apply in_zrange in H2. lia.
Qed.

Lemma map_keys_fixed k : In k fixed_map_keys -> map_key repr k.
Proof. now left. Qed.

Theorem write_maps_content maps f f' maps' :
  NoDup (keys maps) -> (forall k, In k (keys maps) -> map_key repr k) ->
  write_maps V is_array finite sub0 sub00 ratio2 of_int Grid Field grid_RZ grid_metric grid_shape field_attributes
    par_metric as_int repr m2d nn g fd maps f = (f', Ok maps') ->
  (* the maps *)
  (forall k v, dget maps k = Some v -> f' k = Some v) /\
  (forall v, dget maps "Rxy" = None -> dget maps "R" = Some v -> f' "Rxy" = Some v) /\
  (* the sizes *)
  (f' "nx" = Some (of_int (fst (fst (grid_shape g)))) /\ f' "ny" = Some (of_int (snd (fst (grid_shape g)))) /\
   f' "nz" = Some (of_int (snd (grid_shape g)))) /\
  (* the metric and the attributes *)
  (exists m m' a, grid_metric g fd = Ok m /\ field_attributes g fd = Ok a /\
     (forall k, In k metric_names -> k <> "g_yy" -> dget m' k = dget m k) /\ yy_values V ratio2 maps m m' /\
     metric_written m' f' /\ (forall k v, dget a k = Some v -> f' k = Some v)) /\
  (* the parallel metrics *)
  (exists keep nslice, (exists v, dget maps "MYG" = Some v /\ as_int v = Some nslice) /\
     (forall o c n, In o (offsets nslice) -> c = "R" \/ c = "Z" -> name c o = Ok n ->
        exists v, dget keep n = Some v /\ dget maps n = Some v) /\
     (forall o k v n, In o (offsets nslice) -> exists pm, par_metric g fd keep o = Ok pm /\
        (dget pm k = Some v -> name (out_name nn k) o = Ok n -> f' n = Some v))).
Proof.
  intros Hnd Hkeys E. unfold write_maps in E.
  apply wbind_ok in E. destruct E as (f1 & w & E1 & E).
  unfold add_grid in E1. apply wbind_ok in E1. destruct E1 as (f2 & RZ & _ & E1).
  apply wbind_ok in E1. destruct E1 as (f3 & d3 & _ & E1). injection E1 as <- <-. cbn [add_field metric2d new_names is_open w_field] in E.
  unfold add_maps in E. cbn [metric2d new_names is_open w_field w_grid] in E.
  apply wbind_ok in E. destruct E as (f4 & m1 & E1 & E).
  assert (H1 : NoDup (keys m1) /\ (forall k, In k (keys m1) -> map_key repr k) /\
    (forall k v, dget maps k = Some v -> dget m1 k = Some v) /\
    (forall k, k <> "Rxy" -> dget m1 k = dget maps k) /\
    (forall v, dget maps "Rxy" = None -> dget maps "R" = Some v -> dget m1 "Rxy" = Some v)).
  { unfold dmem in E1. destruct (dget maps "Rxy") eqn:ER.
    - injection E1 as <- <-. repeat split; auto. discriminate.
    - apply wbind_ok in E1. destruct E1 as (f5 & R & E2 & E1). apply lift_ok in E2. destruct E2 as [-> E2].
      injection E1 as <- <-. apply dget_err_ok in E2.
      split; [now apply NoDup_dput|split; [|split; [|split]]].
      + intros k Hk. apply keys_dput in Hk. destruct Hk as [->|Hk]; [apply map_keys_fixed; cbn; tauto|auto].
      + intros k v Hk. rewrite dget_dput_neq; [exact Hk|intros ->; congruence].
      + intros k Hk. now apply dget_dput_neq.
      + intros v _ HR. rewrite dget_dput_eq. congruence. }
  destruct H1 as (N1 & K1 & V1 & V1' & R1). clear E1.
  apply wbind_ok in E. destruct E as (f5 & m2 & E1 & E).
  destruct (dict_ok V is_array finite sub0 sub00 m2d true true m1 f4 f5 m2 (andb_false_r _) E1) as [-> E2].
  apply items_ok in E2; [|exact sub0|exact sub00]. destruct E2 as [_ I2]. specialize (I2 N1). clear E1.
  apply wbind_ok in E. destruct E as (f6 & vm & E1 & E). apply lift_ok in E1. destruct E1 as [-> Evm].
  apply dget_err_ok in Evm.
  destruct (as_int vm) as [nslice|] eqn:Eint; [|discriminate].
  apply wbind_ok in E. destruct E as (f6 & keep & E1 & E). apply lift_ok in E1. destruct E1 as [-> Ekeep].
  apply wbind_ok in E. destruct E as (f6 & [] & Em & E).
  apply wbind_ok in E. destruct E as (f7 & [] & Ep & E).
  apply wbind_ok in E. destruct E as (f8 & [] & Es & E). injection E as <- <-.
  destruct (write_metric_ok _ _ _ Em) as (m & m' & a & EM & EF & EA & MW & AW & FM).
  destruct (write_par_ok _ _ (offsets_nz nslice) (offsets_NoDup nslice) _ _ Ep) as [FP PW].
  destruct (sizes_ok _ _ _ Es) as (S1 & S2 & S3 & _ & _ & FS).
  destruct (Hmetric _ EM) as [Nm Im]. destruct (Hattr _ EA) as [Na Fa].
  destruct (full_metric_spec V ratio2 _ _ _ EF Nm Im) as (Nm' & Im' & Vm & Yy).
  assert (Keep : forall k v, map_key repr k -> dget m1 k = Some v -> f8 k = Some v).
  { intros k v Hk Hg. rewrite FS by (now apply (map_key_not_size repr)). rewrite FP by (now apply map_key_not_par).
    rewrite FM; [now apply I2|now apply (map_key_not_metric repr)|].
    intros C. destruct (Fa _ C) as [X _]. tauto. }
  split; [|split; [|split; [|split]]].
  - intros k v Hk. apply Keep; [apply Hkeys; now apply dget_key in Hk|auto].
  - intros v H1 H2. apply Keep; [apply map_keys_fixed; cbn; tauto|auto].
  - auto.
  - exists m, m', a. split; [exact EM|split; [exact EA|split; [exact Vm|split; [|split]]]].
    + unfold yy_values in *. rewrite !(V1' "Ly"), (V1' "Ly_cell_ylow"), (V1' "Ly_cell_yhigh") in Yy by discriminate. exact Yy.
    + intros k v Hk. assert (Hko : In (out_name nn k) out) by (apply in_map, Im'; now apply dget_key in Hk).
      rewrite FS by (now apply metric_not_size in Hko). rewrite FP by (now apply metric_not_par).
      now apply MW.
    + intros k v Hk. destruct (Fa k (dget_key _ _ _ Hk)) as (X1 & X2 & X3 & X4).
      rewrite FS by exact X2. rewrite FP by exact X3. now apply AW.
  - exists keep, nslice. split; [|split].
    + exists vm. split; [rewrite <- V1' by discriminate; exact Evm|exact Eint].
    + assert (Hk : forall os keep', wmapM (fun ok => let* n := name (snd ok) (fst ok) in let* v := dget_err m1 n in Ok (n, v))
          (flat_map (fun o => [(o, "R"); (o, "Z")]) os) = Ok keep' -> (forall o, In o os -> o <> 0%Z) ->
          (forall n v, In (n, v) keep' -> dget m1 n = Some v) /\
          (forall o c, In o os -> c = "R" \/ c = "Z" -> In (name_int c o) (keys keep'))).
      { clear -repr. induction os as [|o t IH]; intros keep' E Hz.
        - cbn in E. injection E as <-. split; [intros ? ? []|intros ? ? []].
        - assert (Ho : o <> 0%Z) by (apply Hz; now left).
          cbn [flat_map app wmapM fst snd] in E. rewrite !(name_int_ok repr _ _ Ho) in E. cbn [bind] in E.
          destruct (dget_err m1 (name_int "R" o)) eqn:ER; cbn [bind] in E; [|discriminate].
          destruct (dget_err m1 (name_int "Z" o)) eqn:EZ; cbn [bind] in E; [|discriminate].
          destruct (wmapM _ _) as [t'|] eqn:Et in E; cbn [bind] in E; [|discriminate]. injection E as <-.
          apply dget_err_ok in ER, EZ.
          destruct (IH t' Et (fun o' H => Hz o' (or_intror H))) as [I1 I2]. split.
          + intros n v [C|[C|C]]; [injection C as <- <-; exact ER|injection C as <- <-; exact EZ|auto].
          + intros o' c [<-|Ho'] Hc; cbn; [destruct Hc as [-> | ->]; auto|right; right; now apply I2]. }
      destruct (Hk _ _ Ekeep (offsets_nz nslice)) as [I1 I3].
      intros o c n Ho Hc Hname. pose proof (offsets_nz _ _ Ho) as Hz.
      rewrite name_int_ok in Hname by exact Hz. injection Hname as <-.
      destruct (key_dget _ _ (I3 _ _ Ho Hc)) as [v Hv]. exists v. split; [exact Hv|].
      rewrite <- V1'; [apply I1; now apply dget_in|]. unfold name_int. destruct (0 <? o)%Z; discriminate.
    + intros o k v n Ho. destruct (PW o k v n Ho) as (pm & Epm & Hv). exists pm. split; [exact Epm|].
      intros H1 H2. rewrite FS; [now apply Hv|]. destruct (Hpar _ _ _ Epm) as [_ Ip].
      apply (par_not_size repr nn). exists k, o. split; [apply Ip; now apply dget_key in H1|].
      split; [now apply offsets_nz in Ho|exact H2].
Qed.
End Top.
