(** Histories of calls of W7X_vacuum.field_values. *)
From Coq Require Import String Ascii List ZArith NArith QArith Qabs Qround Lia Lqa Bool.
From Verif Require Import Prelude PreludeFacts NamingModel FieldModel PolModel W7xModel W7xSpec W7xNames.
Import ListNotations.
Open Scope Q_scope.

Lemma linspace_length a b n : length (linspace a b n) = n.
Proof. unfold linspace. now rewrite map_length, seq_length. Qed.
Lemma linspace_ends a b n : (1 <= n)%nat -> ends (linspace a b n) = Ok (a, if (n <=? 1)%nat then a else b).
Proof.
  intros H. destruct n as [|n]; [lia|]. unfold linspace. cbn [seq map ends Nat.eqb]. f_equal. f_equal.
  destruct n as [|n]; [reflexivity|]. cbn [Nat.leb]. rewrite seq_S, map_app, app_comm_cons. cbn [map]. rewrite last_last.
  change (1 + n)%nat with (S n). cbn [Nat.eqb]. now rewrite Nat.eqb_refl.
Qed.
Lemma linspace_empty a b : ends (linspace a b 0) = Err IndexError.
Proof. reflexivity. Qed.
Lemma linspace_one a b b' : linspace a b 1 = linspace a b' 1.
Proof. reflexivity. Qed.


Lemma request_label q : sizes_pos q -> exists l, label (mesh_of q) = Ok l.
Proof.
  unfold sizes_pos, mesh_of, label. destruct (q_n q) as [[nx ny] nz]. intros (H1 & H2 & H3). cbn [ax_r ax_phi ax_z].
  rewrite !linspace_ends by assumption. cbn [bind]. eauto.
Qed.
Lemma request_no_label q : ~ sizes_pos q -> label (mesh_of q) = Err IndexError.
Proof.
  unfold sizes_pos, mesh_of, label. destruct (q_n q) as [[nx ny] nz]. intros H. cbn [ax_r ax_phi ax_z].
  destruct nx as [|nx]; [reflexivity|]. rewrite (linspace_ends _ _ (S nx)) by lia. cbn [bind].
  destruct ny as [|ny]; [reflexivity|]. rewrite (linspace_ends _ _ (S ny)) by lia. cbn [bind].
  destruct nz as [|nz]; [reflexivity|]. lia.
Qed.

Lemma same_label_bounds a b : same_label (mesh_of a) (mesh_of b) -> q_n a = q_n b /\ sizes_pos a /\ Forall2 same_cents (bounds a) (bounds b).
Proof.
  unfold same_label, lens, mesh_of, bounds, sizes_pos. destruct (q_n a) as [[nx ny] nz], (q_n b) as [[nx' ny'] nz']. cbn [ax_r ax_phi ax_z].
  rewrite !linspace_length. intros ([= <- <- <-] & Hr & Hp & Hz). split; [reflexivity|].
  assert (K : forall n u v u' v', same_ends (linspace u v n) (linspace u' v' n) -> (1 <= n)%nat /\ Forall2 same_cents (two_ends n (u, v)) (two_ends n (u', v'))).
  { intros n u v u' v' (c & d & c' & d' & E & E' & S1 & S2). destruct n as [|n]; [discriminate E|]. split; [lia|].
    rewrite linspace_ends in E, E' by lia. injection E as <- <-. injection E' as <- <-. unfold two_ends. cbn [fst snd].
    constructor; [now apply same2_iff|]. constructor; [now apply same2_iff|constructor]. }
  apply K in Hr, Hp, Hz. destruct Hr as [? Hr], Hp as [? Hp], Hz as [? Hz]. split; [auto|].
  destruct (q_r a), (q_phi a), (q_z a), (q_r b), (q_phi b), (q_z b). cbn [fst snd] in *. apply Forall2_app; [exact Hr|]. apply Forall2_app; assumption.
Qed.
Lemma bounds_same_label a b : q_n a = q_n b -> sizes_pos a -> Forall2 same_cents (bounds a) (bounds b) -> same_label (mesh_of a) (mesh_of b).
Proof.
  unfold same_label, lens, mesh_of, bounds, sizes_pos. intros <-. destruct (q_n a) as [[nx ny] nz]. cbn [ax_r ax_phi ax_z].
  rewrite !linspace_length. intros (H1 & H2 & H3) F. split; [reflexivity|].
  assert (K : forall n u v u' v', (1 <= n)%nat -> same_cents u u' -> same_cents (if (n <=? 1)%nat then u else v) (if (n <=? 1)%nat then u' else v') ->
     same_ends (linspace u v n) (linspace u' v' n)).
  { intros n u v u' v' H S1 S2. do 4 eexists. rewrite !linspace_ends by assumption. split; [reflexivity|]. split; [reflexivity|].
    split; now apply same2_iff. }
  unfold two_ends in F. cbn [app] in F.
  repeat match goal with H : Forall2 _ (_ :: _) _ |- _ => inversion H; clear H; subst end.
  split; [|split]; apply K; assumption.
Qed.
Lemma bounds_mesh a b : q_n a = q_n b -> sizes_pos a -> bounds a = bounds b -> mesh_of a = mesh_of b.
Proof.
  unfold mesh_of, bounds, sizes_pos. intros <-. destruct (q_n a) as [[nx ny] nz]. intros (H1 & H2 & H3) E.
  assert (K : forall n u v u' v', (1 <= n)%nat -> u = u' -> (if (n <=? 1)%nat then u else v) = (if (n <=? 1)%nat then u' else v') -> linspace u v n = linspace u' v' n).
  { intros n u v u' v' H -> E'. destruct (Nat.leb_spec n 1); [|now rewrite E']. replace n with 1%nat by lia. apply linspace_one. }
  unfold two_ends in E. cbn [app] in E. injection E as E1 E2 E3 E4 E5 E6. f_equal; apply K; assumption.
Qed.

Section H.
Variable service : configuration -> mesh -> res samples.

(** the directory holds answers of the service to requests of the list only *)
Definition from_service (l : list request) (st : dir) : Prop := forall n d, st n = Some d ->
  exists q, In q l /\ fname (q_cfg q) (mesh_of q) = Ok n /\ service (q_cfg q) (mesh_of q) = Ok d.

Lemma one_call l st q : (forall q, In q l -> exists k, set_config (q_cfg q) = Ok k) ->
  (forall a b, In a l -> In b l -> told_apart a b) -> In q l -> sizes_pos q -> from_service l st ->
  let '(r, st') := field_values service st (q_cfg q) (mesh_of q) in r = service (q_cfg q) (mesh_of q) /\ from_service l st'.
Proof.
  intros Hc Ht Hq Hs F. unfold field_values. destruct (request_label q Hs) as [lab El].
  assert (Eo : exists o, fname_old (mesh_of q) = Ok o) by (unfold fname_old; rewrite El; cbn [bind]; eauto). destruct Eo as [o Eo].
  assert (En : exists n, fname (q_cfg q) (mesh_of q) = Ok n) by (unfold fname; rewrite El; cbn [bind]; eauto). destruct En as [n En].
  rewrite Eo, En. cbn [bind].
  assert (No : st o = None).
  { destruct (st o) as [d|] eqn:E; [|reflexivity]. destruct (F o d E) as (p & _ & E' & _). exfalso. eapply fname_not_old; [exact E'|exact Eo|reflexivity]. }
  rewrite No. destruct (st n) as [d|] eqn:E.
  - split; [|exact F]. destruct (F n d E) as (p & Hp & E' & <-).
    destruct (Hc p Hp) as [kp Kp], (Hc q Hq) as [kq Kq].
    destruct (fname_inj _ _ _ _ n (accepted_no_dot _ _ Kp) (accepted_no_dot _ _ Kq) E' En) as [C L].
    apply (accepted_inj _ _ _ _ Kp Kq) in C. apply same_label_bounds in L. destruct L as (Nn & Sp & B).
    apply (Ht p q Hp Hq) in B. rewrite C. f_equal. apply bounds_mesh; auto.
  - destruct (service (q_cfg q) (mesh_of q)) as [d|e] eqn:Es; split; auto.
    intros n' d'. unfold save. destruct (String.eqb_spec n' n) as [->|]; [|apply F]. intros [= <-]. exists q. auto.
Qed.

Lemma history l st : (forall q, In q l -> exists k, set_config (q_cfg q) = Ok k) ->
  (forall a b, In a l -> In b l -> told_apart a b) -> (forall q, In q l -> sizes_pos q) -> from_service l st ->
  forall l', incl l' l -> calls service st l' = map (fun q => service (q_cfg q) (mesh_of q)) l'.
Proof.
  intros Hc Ht Hs F l'. revert st F. induction l' as [|q l' IH]; intros st F I; [reflexivity|]. cbn [calls map].
  pose proof (one_call l st q Hc Ht (I q (or_introl eq_refl)) (Hs q (I q (or_introl eq_refl))) F) as K.
  destruct (field_values _ _ _ _) as [r st']. destruct K as [-> F']. rewrite (IH st' F'); [reflexivity|]. intros p Hp. apply I. now right.
Qed.

Lemma fresh_history l : (forall q, In q l -> exists k, set_config (q_cfg q) = Ok k) ->
  (forall a b, In a l -> In b l -> told_apart a b) -> (forall q, In q l -> sizes_pos q) ->
  calls service no_files l = map (fun q => service (q_cfg q) (mesh_of q)) l.
Proof. intros Hc Ht Hs. apply (history l no_files Hc Ht Hs); [intros n d H; discriminate H|apply incl_refl]. Qed.

(** no points on an axis *)
Lemma no_points st q : ~ sizes_pos q -> field_values service st (q_cfg q) (mesh_of q) = (Err IndexError, st).
Proof. intros H. unfold field_values, fname_old, fname. rewrite (request_no_label q H). reflexivity. Qed.

(** the name of another request *)
Lemma confused st a b d : cfg_str (q_cfg a) = cfg_str (q_cfg b) -> q_n a = q_n b -> sizes_pos a -> Forall2 same_cents (bounds a) (bounds b) ->
  fst (field_values service st (q_cfg a) (mesh_of a)) = Ok d ->
  fst (field_values service (snd (field_values service st (q_cfg a) (mesh_of a))) (q_cfg b) (mesh_of b)) = Ok d.
Proof.
  intros Ec En Hs B. pose proof (bounds_same_label a b En Hs B) as L.
  destruct (fname_same _ _ _ _ Ec L) as (n & Ea & Eb). destruct (label_same _ _ L) as (l & La & Lb).
  assert (Oa : exists o, fname_old (mesh_of a) = Ok o) by (unfold fname_old; rewrite La; cbn [bind]; eauto).
  assert (Ob : exists o, fname_old (mesh_of b) = Ok o) by (unfold fname_old; rewrite Lb; cbn [bind]; eauto).
  destruct Oa as [oa Oa], Ob as [ob Ob]. unfold field_values at 1 2 3. rewrite Oa, Ob, Ea, Eb. cbn [bind].
  assert (K : forall st', st' n = Some d -> fst (match st' n with Some d => (Ok d, st') | None => match st' ob with
      | Some d => (Ok d, save st' n d) | None => match service (q_cfg b) (mesh_of b) with Ok d => (Ok d, save st' n d) | Err e => (Err e, st') end end end) = Ok d).
  { intros st' E. rewrite E. reflexivity. }
  destruct (st n) as [d'|] eqn:E.
  - cbn [fst snd]. intros [= ->]. now apply K.
  - destruct (st oa) as [d'|].
    + cbn [fst snd]. intros [= ->]. apply K. unfold save. now rewrite String.eqb_refl.
    + destruct (service (q_cfg a) (mesh_of a)) as [d'|]; cbn [fst snd]; [|discriminate]. intros [= ->]. apply K. unfold save. now rewrite String.eqb_refl.
Qed.

(** an old file *)
Lemma old_file st c m o d : fname_old m = Ok o -> st o = Some d -> (forall n, fname c m = Ok n -> st n = None) ->
  exists n, fname c m = Ok n /\ field_values service st c m = (Ok d, save st n d).
Proof.
  intros Eo Es Hn. unfold fname_old in Eo. destruct (label m) as [l|] eqn:El; [|discriminate].
  assert (En : exists n, fname c m = Ok n) by (unfold fname; rewrite El; cbn [bind]; eauto). destruct En as [n En]. exists n. split; [exact En|].
  cbn [bind] in Eo. unfold field_values, fname_old. rewrite El, En. cbn [bind]. rewrite (Hn n En). assert (Eo' : ("B.w7x." ++ l ++ ".dat")%string = o) by congruence. rewrite Eo', Es. reflexivity.
Qed.
(** and it stays after the old file has gone *)
Lemma saved_file st c m n d : fname c m = Ok n -> st n = Some d -> field_values service st c m = (Ok d, st).
Proof.
  intros En Es. assert (L : exists l, label m = Ok l) by (unfold fname in En; destruct (label m); [eauto|discriminate]). destruct L as [l El].
  unfold field_values, fname_old. rewrite El, En. cbn [bind]. now rewrite Es.
Qed.
(** a failing service leaves nothing behind *)
Lemma failing st c m e : fst (field_values service st c m) = Err e -> snd (field_values service st c m) = st.
Proof.
  unfold field_values. destruct (bind _ _) as [[o n]|]; [|reflexivity]. destruct (st n); [discriminate|]. destruct (st o); [discriminate|].
  destruct (service c m); [discriminate|reflexivity].
Qed.
End H.
