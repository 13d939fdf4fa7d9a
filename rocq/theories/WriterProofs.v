(** C25 and C26: what the writer stores. *)
From Coq Require Import String List ZArith QArith Bool Lia.
From Verif Require Import Prelude PreludeFacts NamingModel NamingSpec NamingProofs WriterModel WriterSpec.
Import ListNotations.
Open Scope string_scope.

Section Fin.
Variable V : Type.
Variable is_array finite : V -> bool.
Variable sub0 sub00 : V -> res V.
Variable ratio2 : V -> V -> V.
Variable of_int : Z -> V.
Variable Grid Field : Type.
Variable grid_RZ : Grid -> res (V * V).
Variable grid_metric : Grid -> Field -> res (pdict V).
Variable grid_shape : Grid -> Z * Z * Z.
Variable field_attributes : Grid -> Field -> res (pdict V).
Variable par_metric : Grid -> Field -> pdict V -> Z -> res (pdict V).
Variable as_int : V -> option Z.
Variable repr : Q -> string.
Hypothesis ints : forall z, is_array (of_int z) = false.

Notation ofa := (only_finite_added is_array finite).

Lemma ofa_refl f : ofa f f.
Proof. intros k v H. now left. Qed.
Lemma ofa_trans f g h : ofa f g -> ofa g h -> ofa f h.
Proof. intros H1 H2 k v H. destruct (H2 k v H) as [H'|H']; [apply (H1 k v H')|now right]. Qed.
Lemma ofa_set f k v : (is_array v = true -> finite v = true) -> ofa f (fset V f k v).
Proof.
  intros H k' v' E. unfold fset in E. destruct (String.eqb k' k); [injection E as <-; right; exact H|left; exact E].
Qed.

Definition keeps {A} (m : W V A) : Prop := forall f, ofa f (fst (m f)).

Lemma keeps_ret {A} (a : A) : keeps (ret V a).
Proof. intros f. apply ofa_refl. Qed.
Lemma keeps_raise {A} e : keeps (@raise V A e).
Proof. intros f. apply ofa_refl. Qed.
Lemma keeps_lift {A} (r : res A) : keeps (lift V r).
Proof. intros f. apply ofa_refl. Qed.
Lemma keeps_bind {A B} (m : W V A) (k : A -> W V B) :
  keeps m -> (forall a, keeps (k a)) -> keeps (wbind V m k).
Proof.
  intros Hm Hk f. unfold wbind. specialize (Hm f). destruct (m f) as [f' [a|e]]; cbn in *; [|exact Hm].
  eapply ofa_trans; [exact Hm|apply Hk].
Qed.
Lemma keeps_fwrite k v : (is_array v = true -> finite v = true) -> keeps (fwrite V k v).
Proof. intros H f. now apply ofa_set. Qed.

Lemma keeps_items d : keeps (write_items V is_array finite d).
Proof.
  induction d as [|[k v] t IH]; cbn; [apply keeps_ret|].
  destruct (is_array v && negb (finite v))%bool eqn:E; [apply keeps_raise|].
  apply keeps_bind; [apply keeps_fwrite|intros _; exact IH].
  intros Ha. rewrite Ha in E. cbn in E. now destruct (finite v).
Qed.

Lemma keeps_dict m2 op a3 d : keeps (write_dict V is_array finite sub0 sub00 m2 op a3 d).
Proof.
  unfold write_dict. destruct op; cbn; [|apply keeps_raise].
  apply keeps_bind.
  - destruct (m2 && negb a3)%bool; [|apply keeps_ret].
    apply keeps_bind; [apply keeps_lift|intros d1]. destruct (dget d1 "dz"); [|apply keeps_ret].
    apply keeps_bind; [apply keeps_lift|intros; apply keeps_ret].
  - intros d'. apply keeps_bind; [apply keeps_items|intros; apply keeps_ret].
Qed.

Lemma keeps_grid w g : keeps (add_grid V is_array finite sub0 sub00 Grid Field grid_RZ w g).
Proof.
  unfold add_grid. apply keeps_bind; [apply keeps_lift|intros RZ].
  apply keeps_bind; [apply keeps_dict|intros; apply keeps_ret].
Qed.

Lemma keeps_metric w g fd maps :
  keeps (write_metric V is_array finite sub0 sub00 ratio2 Grid Field grid_metric field_attributes w g fd maps).
Proof.
  unfold write_metric.
  repeat (apply keeps_bind; [first [apply keeps_lift|apply keeps_dict]|intros]). apply keeps_ret.
Qed.

Lemma keeps_par w g fd keep os :
  keeps (write_par V is_array finite sub0 sub00 Grid Field par_metric repr w g fd keep os).
Proof.
  induction os as [|o t IH]; cbn; [apply keeps_ret|].
  apply keeps_bind; [apply keeps_lift|intros]. apply keeps_bind; [apply keeps_lift|intros].
  apply keeps_bind; [apply keeps_dict|intros; exact IH].
Qed.

Lemma keeps_sizes s : keeps (write_sizes V of_int s).
Proof.
  destruct s as [[nx ny] nz]. unfold write_sizes.
  repeat (apply keeps_bind; [apply keeps_fwrite; rewrite ints; discriminate|intros]).
  apply keeps_fwrite. rewrite ints. discriminate.
Qed.

Lemma keeps_maps w maps : keeps (add_maps V is_array finite sub0 sub00 ratio2 of_int Grid Field grid_metric
  grid_shape field_attributes par_metric as_int repr w maps).
Proof.
  unfold add_maps. apply keeps_bind.
  { destruct (dmem maps "Rxy"); [apply keeps_ret|]. apply keeps_bind; [apply keeps_lift|intros; apply keeps_ret]. }
  intros m1. apply keeps_bind; [apply keeps_dict|intros m2].
  apply keeps_bind; [apply keeps_lift|intros v]. destruct (as_int v); [|apply keeps_raise].
  apply keeps_bind; [apply keeps_lift|intros keep].
  destruct (w_field _ _ w); [|apply keeps_raise]. destruct (w_grid _ _ w); [|apply keeps_raise].
  apply keeps_bind; [apply keeps_metric|intros]. apply keeps_bind; [apply keeps_par|intros].
  apply keeps_bind; [apply keeps_sizes|intros; apply keeps_ret].
Qed.

Lemma keeps_calls cs : forall w f, ofa f (snd (do_calls V is_array finite sub0 sub00 ratio2 of_int Grid Field
  grid_RZ grid_metric grid_shape field_attributes par_metric as_int repr w cs f)).
Proof.
  induction cs as [|c t IH]; intros w f; cbn [do_calls]; [apply ofa_refl|].
  match goal with |- context[do_call ?a1 ?a2 ?a3 ?a4 ?a5 ?a6 ?a7 ?a8 ?a9 ?b1 ?b2 ?b3 ?b4 ?b5 ?b6 ?b7 w c f] =>
    assert (H : ofa f (snd (do_call a1 a2 a3 a4 a5 a6 a7 a8 a9 b1 b2 b3 b4 b5 b6 b7 w c f)));
    [|destruct (do_call a1 a2 a3 a4 a5 a6 a7 a8 a9 b1 b2 b3 b4 b5 b6 b7 w c f) as [w' f'] eqn:Ec] end.
  - destruct c; cbn [do_call snd]; try apply ofa_refl.
    + apply keeps_dict.
    + generalize (keeps_grid w g f). intros H. destruct (add_grid _ _ _ _ _ _ _ _ w g f) as [f' [w'|e]]; exact H.
    + apply keeps_maps.
  - eapply ofa_trans; [exact H|apply IH].
Qed.
End Fin.

(** ** Dictionaries *)

Lemma dget_in {V} (d : pdict V) k v : dget d k = Some v -> In (k, v) d.
Proof.
  induction d as [|[k' v'] t IH]; cbn; [discriminate|].
  destruct (String.eqb_spec k k') as [->|N]; [intros E; injection E as ->; now left|auto].
Qed.
Lemma dget_key {V} (d : pdict V) k v : dget d k = Some v -> In k (keys d).
Proof. intros H. apply dget_in in H. apply in_map_iff. now exists (k, v). Qed.
Lemma key_dget {V} (d : pdict V) k : In k (keys d) -> exists v, dget d k = Some v.
Proof.
  induction d as [|[k' v'] t IH]; cbn; [easy|].
  destruct (String.eqb_spec k k') as [->|N]; [eauto|]. intros [E|H]; [congruence|auto].
Qed.
Lemma dget_none {V} (d : pdict V) k : dget d k = None <-> ~ In k (keys d).
Proof.
  destruct (dget d k) eqn:E.
  - apply dget_key in E. split; [discriminate|tauto].
  - split; [|auto]. intros _ H. destruct (key_dget _ _ H) as [v Hv]. congruence.
Qed.
Lemma dget_dput_eq {V} (d : pdict V) k v : dget (dput d k v) k = Some v.
Proof.
  induction d as [|[k' v'] t IH]; cbn; [now rewrite String.eqb_refl|].
  destruct (String.eqb k k') eqn:E; cbn; [now rewrite E|now rewrite E].
Qed.
Lemma dget_dput_neq {V} (d : pdict V) k v k' : k' <> k -> dget (dput d k v) k' = dget d k'.
Proof.
  intros N. induction d as [|[k1 v1] t IH]; cbn.
  - destruct (String.eqb_spec k' k); [congruence|reflexivity].
  - destruct (String.eqb_spec k k1) as [->|N1]; cbn.
    + destruct (String.eqb_spec k' k1); [congruence|reflexivity].
    + now rewrite IH.
Qed.
Lemma keys_dput {V} (d : pdict V) k v x : In x (keys (dput d k v)) <-> x = k \/ In x (keys d).
Proof.
  induction d as [|[k' v'] t IH]; cbn; [intuition congruence|].
  destruct (String.eqb_spec k k') as [->|N]; cbn; [intuition congruence|]. rewrite IH. intuition.
Qed.
Lemma NoDup_dput {V} (d : pdict V) k v : NoDup (keys d) -> NoDup (keys (dput d k v)).
Proof.
  induction d as [|[k' v'] t IH]; cbn; [repeat constructor; auto|].
  intros H. inversion H as [|? ? N N']; subst. destruct (String.eqb_spec k k') as [->|Nk]; cbn; constructor; auto.
  intros C. apply keys_dput in C. destruct C; [congruence|tauto].
Qed.

(** Building a dictionary from items with distinct keys. *)
Definition build {V} (l : pdict V) : pdict V := fold_left (fun d kv => dput d (fst kv) (snd kv)) l [].

Lemma fold_dput_spec {V} (l : pdict V) : forall d, NoDup (keys d) ->
  NoDup (keys (fold_left (fun d kv => dput d (fst kv) (snd kv)) l d)) /\
  (forall k, In k (keys (fold_left (fun d kv => dput d (fst kv) (snd kv)) l d)) <-> In k (keys d) \/ In k (keys l)) /\
  (forall k, ~ In k (keys l) -> dget (fold_left (fun d kv => dput d (fst kv) (snd kv)) l d) k = dget d k) /\
  (NoDup (keys l) -> forall k v, In (k, v) l -> dget (fold_left (fun d kv => dput d (fst kv) (snd kv)) l d) k = Some v).
Proof.
  induction l as [|[k0 v0] t IH]; intros d Hd; cbn [fold_left fst snd].
  { cbn. intuition. }
  destruct (IH (dput d k0 v0) (NoDup_dput _ _ _ Hd)) as (H1 & H2 & H3 & H4).
  split; [exact H1|split; [|split]].
  - intros k. rewrite H2, keys_dput. cbn. intuition congruence.
  - intros k Hk. cbn in Hk. rewrite H3 by tauto. apply dget_dput_neq. intros ->. tauto.
  - intros Hn k v Hin. cbn in Hn. inversion Hn as [|? ? N N']; subst. destruct Hin as [E|Hin].
    + injection E as -> ->. rewrite H3 by exact N. apply dget_dput_eq.
    + now apply H4.
Qed.

Lemma fold_left_map {A B C} (f : A -> B -> A) (h : C -> B) l : forall a,
  fold_left f (map h l) a = fold_left (fun a c => f a (h c)) l a.
Proof. induction l; cbn; auto. Qed.

(** ** write_dict itself *)
Section Dict.
Variable V : Type.
Variable is_array finite : V -> bool.
Variable sub0 sub00 : V -> res V.

Definition fset_all (f : string -> option V) (d : pdict V) : string -> option V :=
  fold_left (fun f kv => fset V f (fst kv) (snd kv)) d f.

Lemma items_all d : (forall k v, In (k, v) d -> is_array v = true -> finite v = true) ->
  forall f, write_items V is_array finite d f = (fset_all f d, Ok tt).
Proof.
  induction d as [|[k v] t IH]; intros H f; [reflexivity|]. cbn [write_items].
  assert (E : (is_array v && negb (finite v))%bool = false).
  { destruct (is_array v) eqn:Ea; [|reflexivity]. rewrite (H k v (or_introl eq_refl) Ea). reflexivity. }
  rewrite E. unfold wbind, fwrite. rewrite IH by (intros; eapply H; [right; eassumption|assumption]). reflexivity.
Qed.

Lemma items_stop d k v t : (forall k v, In (k, v) d -> is_array v = true -> finite v = true) ->
  is_array v = true -> finite v = false ->
  forall f, write_items V is_array finite (d ++ (k, v) :: t)%list f = (fset_all f d, Err AssertionError).
Proof.
  intros H Ha Hf. induction d as [|[k' v'] d IH]; intros f; cbn [app write_items].
  - rewrite Ha, Hf. reflexivity.
  - assert (E : (is_array v' && negb (finite v'))%bool = false).
    { destruct (is_array v') eqn:Ea; [|reflexivity]. rewrite (H k' v' (or_introl eq_refl) Ea). reflexivity. }
    rewrite E. unfold wbind, fwrite. rewrite IH by (intros; eapply H; [right; eassumption|eassumption]). reflexivity.
Qed.

Lemma dict_accepts m2 d f : (forall k v, In (k, v) d -> is_array v = true -> finite v = true) ->
  write_dict V is_array finite sub0 sub00 m2 true true d f = (fset_all f d, Ok d).
Proof.
  intros H. unfold write_dict. cbn. rewrite andb_false_r. unfold wbind, ret. now rewrite items_all.
Qed.
Lemma dict_stops m2 d k v t f : (forall k v, In (k, v) d -> is_array v = true -> finite v = true) ->
  is_array v = true -> finite v = false ->
  write_dict V is_array finite sub0 sub00 m2 true true (d ++ (k, v) :: t)%list f = (fset_all f d, Err AssertionError).
Proof.
  intros H Ha Hf. unfold write_dict. cbn. rewrite andb_false_r. unfold wbind, ret. now rewrite items_stop.
Qed.
Lemma dict_closed m2 a3 d f :
  write_dict V is_array finite sub0 sub00 m2 false a3 d f = (f, Err AssertionError).
Proof. reflexivity. Qed.
End Dict.
