(** C26: what write_maps does not touch. *)
From Coq Require Import String List ZArith QArith Bool Lia.
From Verif Require Import Prelude PreludeFacts NamingModel NamingSpec NamingProofs WriterModel WriterSpec WriterProofs WriterMaps.
Import ListNotations.
Open Scope string_scope.

Section F.
Variable V : Type.
Variable is_array finite : V -> bool.
Variable sub0 sub00 : V -> res V.
Variable ratio2 : V -> V -> V.
Variable of_int : Z -> V.
Variable Grid Field : Type.
Variable grid_RZ : Grid -> res (V * V).
Variable grid_metric : Grid -> Field -> res (pdict V).
Variable grid_shape : Grid -> Z * Z * Z.
Variable field_attributes : Grid -> Field -> res (pdict V).
Variable par_metric : Grid -> Field -> pdict V -> Z -> res (pdict V).
Variable as_int : V -> option Z.
Variable repr : Q -> string.
Variable k : string.

(** the variable k stays as it is, also if m raises *)
Definition keepsv {A} (m : W V A) : Prop := forall f, fst (m f) k = f k.
Lemma keepsv_ret {A} (a : A) : keepsv (ret V a).
Proof. intros f. reflexivity. Qed.
Lemma keepsv_raise {A} e : keepsv (@raise V A e).
Proof. intros f. reflexivity. Qed.
Lemma keepsv_lift {A} (r : res A) : keepsv (lift V r).
Proof. intros f. reflexivity. Qed.
Lemma keepsv_bind {A B} (m : W V A) (h : A -> W V B) : keepsv m -> (forall a, keepsv (h a)) -> keepsv (wbind V m h).
Proof. intros Hm Hh f. unfold wbind. specialize (Hm f). destruct (m f) as [f' [a|e]]; [|exact Hm]. rewrite (Hh a f'). exact Hm. Qed.
Lemma keepsv_lift_bind {A B} (r : res A) (h : A -> W V B) : (forall a, r = Ok a -> keepsv (h a)) -> keepsv (wbind V (lift V r) h).
Proof. intros Hh f. unfold wbind, lift. destruct r as [a|e]; [|reflexivity]. now apply Hh. Qed.
Lemma keepsv_fwrite k' v : k <> k' -> keepsv (fwrite V k' v).
Proof. intros N f. cbn. unfold fset. destruct (String.eqb_spec k k'); [contradiction|reflexivity]. Qed.
Lemma keepsv_items d : ~ In k (keys d) -> keepsv (write_items V is_array finite d).
Proof.
  induction d as [|[k' v] t IH]; intros N; cbn [write_items]; [apply keepsv_ret|].
  destruct (_ && _)%bool; [apply keepsv_raise|]. cbn in N. apply keepsv_bind; [apply keepsv_fwrite; intros ->; tauto|]. intros _. apply IH. tauto.
Qed.
Lemma dput_same d k' (v : V) : In k' (keys d) -> forall x, In x (keys (dput d k' v)) -> In x (keys d).
Proof. intros H x Hx. apply keys_dput in Hx. destruct Hx as [->|Hx]; assumption. Qed.
Lemma keepsv_dict m2 op a3 d : ~ In k (keys d) -> keepsv (write_dict V is_array finite sub0 sub00 m2 op a3 d).
Proof.
  intros N. unfold write_dict. destruct (negb op); [apply keepsv_raise|]. destruct (m2 && negb a3)%bool.
  - (* the two-dimensional option keeps the names *)
    intros f. unfold wbind at 1 2. unfold lift at 1. destruct (squeeze V sub0 d) as [d1|e] eqn:E1; [|reflexivity].
    pose proof (squeeze_keys V sub0 d d1 E1) as K. assert (N1 : ~ In k (keys d1)) by (rewrite K; exact N).
    destruct (dget d1 "dz") as [v|] eqn:Ez.
    + unfold wbind at 1. unfold lift at 1. destruct (sub00 v) as [v'|e] eqn:E2; [|reflexivity]. cbn [ret].
      refine (keepsv_bind _ _ _ _ f); [|intros; apply keepsv_ret]. apply keepsv_items. intros H. apply N1. apply (dput_same d1 "dz" v'); [now apply dget_key in Ez|exact H].
    + cbn [ret]. refine (keepsv_bind _ _ _ _ f); [|intros; apply keepsv_ret]. now apply keepsv_items.
  - intros f. unfold wbind at 1. cbn [ret]. refine (keepsv_bind _ _ _ _ f); [|intros; apply keepsv_ret]. now apply keepsv_items.
Qed.

Variables (m2d nn : bool) (g : Grid) (fd : Field).
Hypothesis Hmetric : forall m, grid_metric g fd = Ok m -> NoDup (keys m) /\ incl (keys m) metric_names.
Hypothesis Hpar : forall keep o m, par_metric g fd keep o = Ok m -> NoDup (keys m) /\ incl (keys m) metric_names.
Hypothesis Hk : free_key repr nn k.
Hypothesis Ha : forall a, field_attributes g fd = Ok a -> ~ In k (keys a).
Lemma keepsv_metric w maps : new_names Grid Field w = nn -> keepsv (write_metric V is_array finite sub0 sub00 ratio2 Grid Field grid_metric field_attributes w g fd maps).
Proof.
  intros Enn. unfold write_metric. apply keepsv_lift_bind. intros m Em. apply keepsv_lift_bind. intros m' Em'. rewrite Enn.
  destruct (Hmetric m Em) as [N1 I1]. destruct (full_metric_spec V ratio2 maps m m' Em' N1 I1) as (N2 & I2 & _).
  destruct (outdict_spec V nn m' N2 I2) as (_ & K & _). apply keepsv_bind.
  - apply keepsv_dict. change (if nn then m' else update_metric_names m') with (outdict V nn m'). rewrite K. intros H. apply in_map_iff in H.
    destruct H as (y & Ey & Hy). destruct Hk as (_ & _ & _ & H). apply H. apply in_map_iff. exists y. split; [exact Ey|now apply I2].
  - intros _. apply keepsv_lift_bind. intros a Ea. apply keepsv_bind; [apply keepsv_dict; now apply Ha|]. intros _. apply keepsv_ret.
Qed.
Lemma keepsv_par w keep os : new_names Grid Field w = nn -> (forall o, In o os -> o <> 0%Z) ->
  keepsv (write_par V is_array finite sub0 sub00 Grid Field par_metric repr w g fd keep os).
Proof.
  intros Enn. induction os as [|o t IH]; intros Hz; cbn [write_par]; [apply keepsv_ret|].
  apply keepsv_lift_bind. intros m Em. rewrite Enn. apply keepsv_lift_bind. intros items Ei.
  destruct (Hpar keep o m Em) as [N1 I1]. assert (I2 : incl (keys m) (metric_names ++ extra_metric_names)) by (intros x Hx; apply in_or_app; left; now apply I1).
  destruct (outdict_spec V nn m N1 I2) as (_ & K & _). apply keepsv_bind; [|intros _; apply IH; intros o' Ho'; apply Hz; now right].
  apply keepsv_dict. destruct (fold_dput_spec items []) as (_ & Kf & _); [constructor|]. rewrite Kf. intros [[]|H].
  change (if nn then m else update_metric_names m) with (outdict V nn m) in Ei. apply wmapM_spec in Ei.
  assert (E : exists x, In x (keys (outdict V nn m)) /\ parallel_slice_field_name repr x (OInt o) = Ok k).
  { clear -Ei H. induction Ei as [|[a v] [n v'] l l' H1 Hl IH]; [destruct H|]. cbn in H1. destruct (parallel_slice_field_name repr a (OInt o)) as [n'|e] eqn:En; [|discriminate].
    cbn in H1. injection H1 as <- <-. cbn in H. destruct H as [<-|H]; [exists a; split; [now left|exact En]|]. destruct (IH H) as (x & Hx & Ex). exists x. split; [now right|exact Ex]. }
  destruct E as (x & Hx & Ex). rewrite K in Hx. apply in_map_iff in Hx. destruct Hx as (y & <- & Hy).
  destruct Hk as (_ & _ & HP & _). apply HP. exists y, o. split; [now apply I1|]. split; [apply Hz; now left|exact Ex].
Qed.
Lemma keepsv_sizes shape : keepsv (write_sizes V of_int shape).
Proof.
  destruct Hk as (_ & HS & _). unfold write_sizes. destruct shape as [[a b] c].
  repeat (apply keepsv_bind; [apply keepsv_fwrite; intros ->; apply HS; cbn; tauto|intros _]). apply keepsv_fwrite. intros ->. apply HS. cbn. tauto.
Qed.
Lemma keepsv_add_maps w maps : new_names Grid Field w = nn -> w_grid Grid Field w = Some g -> w_field Grid Field w = Some fd ->
  (forall k', In k' (keys maps) -> map_key repr k') ->
  keepsv (add_maps V is_array finite sub0 sub00 ratio2 of_int Grid Field grid_metric grid_shape field_attributes par_metric as_int repr w maps).
Proof.
  intros Enn Eg Ef Hmaps. assert (NM : ~ map_key repr k) by (destruct Hk as (H & _); exact H).
  unfold add_maps. rewrite Eg, Ef.
  assert (Rest : forall maps, ~ In k (keys maps) -> keepsv (wbind V (write_dict V is_array finite sub0 sub00 (metric2d Grid Field w) (is_open Grid Field w) true maps) (fun maps =>
    wbind V (lift V (dget_err maps "MYG")) (fun v => match as_int v with
    | None => raise V TypeError
    | Some nslice => wbind V (lift V (wmapM (fun ok => let* n := parallel_slice_field_name repr (snd ok) (OInt (fst ok)) in let* v := dget_err maps n in Ok (n, v))
                           (flat_map (fun o => [(o, "R"); (o, "Z")]) (offsets nslice)))) (fun keep =>
        wbind V (write_metric V is_array finite sub0 sub00 ratio2 Grid Field grid_metric field_attributes w g fd maps) (fun _ =>
        wbind V (write_par V is_array finite sub0 sub00 Grid Field par_metric repr w g fd keep (offsets nslice)) (fun _ =>
        wbind V (write_sizes V of_int (grid_shape g)) (fun _ => ret V maps)))) end)))).
  { intros mp Hmp. apply keepsv_bind; [now apply keepsv_dict|]. intros mp'. apply keepsv_lift_bind. intros v _. destruct (as_int v) as [nslice|]; [|apply keepsv_raise].
    apply keepsv_lift_bind. intros keep _. apply keepsv_bind; [now apply keepsv_metric|]. intros _. apply keepsv_bind; [apply keepsv_par; [exact Enn|apply offsets_nz]|]. intros _.
    apply keepsv_bind; [apply keepsv_sizes|]. intros _. apply keepsv_ret. }
  assert (N : ~ In k (keys maps)) by (intros H; apply NM; now apply Hmaps).
  destruct (dmem maps "Rxy").
  - intros f. unfold wbind at 1. cbn [ret]. exact (Rest maps N f).
  - intros f. unfold wbind at 1. unfold wbind at 1. unfold lift at 1. destruct (dget_err maps "R") as [R0|e]; [|reflexivity]. cbn [ret].
    refine (Rest (dput maps "Rxy" R0) _ f). rewrite keys_dput. intros [->|H]; [|now apply N]. apply NM. left. cbn. tauto.
Qed.
Lemma write_maps_frame maps f : (forall k', In k' (keys maps) -> map_key repr k') ->
  fst (write_maps V is_array finite sub0 sub00 ratio2 of_int Grid Field grid_RZ grid_metric grid_shape field_attributes
    par_metric as_int repr m2d nn g fd maps f) k = f k.
Proof.
  intros Hmaps. revert f. assert (NM : ~ map_key repr k) by (destruct Hk as (H & _); exact H).
  unfold write_maps, add_grid, add_field. cbn [metric2d new_names is_open w_field w_grid]. intros f. unfold wbind at 1. unfold wbind at 1. unfold lift at 1.
  destruct (grid_RZ g) as [RZ|e]; [|reflexivity]. unfold wbind at 1.
  assert (N : ~ In k (keys [("R", fst RZ); ("Z", snd RZ)])) by (intros H; apply NM; left; cbn in *; tauto).
  pose proof (keepsv_dict m2d true true _ N f) as K. destruct (write_dict V is_array finite sub0 sub00 m2d true true [("R", fst RZ); ("Z", snd RZ)] f) as [f1 [d|e]]; [|exact K].
  cbn [ret]. cbn [fst] in K. rewrite <- K. apply keepsv_add_maps; auto.
Qed.
End F.

(** a name the library does not use *)
Lemma bx_free repr nn : free_key repr nn "bx".
Proof.
  assert (P : forall f z, z <> 0%Z -> parallel_slice_field_name repr f (OInt z) <> Ok "bx").
  { intros f z Hz. rewrite name_int_ok by exact Hz. unfold name_int. destruct (0 <? z)%Z; discriminate. }
  split; [|split; [|split]].
  - intros [H|(f & o & Hf & Ho & E)].
    + cbn in H. repeat destruct H as [H|H]; try discriminate H. exact H.
    + destruct Ho as [->|[->|(z & Hz & ->)]]; [| |exact (P f z Hz E)]; cbn in Hf; repeat destruct Hf as [<-|Hf]; try discriminate E; exact Hf.
  - cbn. intros H. repeat destruct H as [H|H]; try discriminate H. exact H.
  - intros (m & z & _ & Hz & E). exact (P _ z Hz E).
  - destruct nn; cbn; intros H; repeat destruct H as [H|H]; try discriminate H; exact H.
Qed.
