(** The dictionary made by make_maps only has the keys [map_key] allows. *)
From Coq Require Import String List ZArith QArith Bool Lia.
From Verif Require Import Prelude PreludeFacts NamingModel NamingSpec NamingProofs GridModel MapsModel WriterModel WriterSpec.
Import ListNotations.
Open Scope string_scope.

Definition dom_in (P : string -> Prop) (d : dict) : Prop := forall k, d k <> None -> P k.

Lemma dom_dset P d k v : dom_in P d -> P k -> dom_in P (dset d k v).
Proof. intros H Hk k'. unfold dset. destruct (String.eqb_spec k' k) as [->|]; [intros _; exact Hk|apply H]. Qed.

Lemma dom_dmod P d k h d' : dmod d k h = Ok d' -> dom_in P d -> dom_in P d'.
Proof.
  unfold dmod. destruct (d k) as [v|] eqn:E; [|discriminate]. intros E' H.
  assert (P k) by (apply H; congruence).
  destruct v; try discriminate; injection E' as <-; now apply dom_dset.
Qed.

Lemma foldM_keep {A S} (Q : S -> Prop) (h : S -> A -> res S) l :
  (forall s a s', In a l -> h s a = Ok s' -> Q s -> Q s') -> forall s s', foldM h l s = Ok s' -> Q s -> Q s'.
Proof.
  induction l as [|a t IH]; cbn; intros H s s' E Hs; [now injection E as <-|].
  destruct (h s a) as [s1|] eqn:E1; cbn in E; [|discriminate].
  eapply IH; [|exact E|eapply H; [now left|exact E1|exact Hs]]. intros. eapply H; eauto.
Qed.

Section Link.
Variable repr : Q -> string.
Variable G : Type.
Variable pR pZ : G -> arr2.
Variable pnx pnz : G -> nat.
Variable findIndex : G -> arr2 -> arr2 -> arr2 * arr2.
Variable trace : arr2 -> arr2 -> list Q -> list (arr2 * arr2).
Variable outside : arr2 -> Q -> arr2 -> Z -> Z -> bool.
Variable Byfunc : Q -> Q -> Q -> Q.
Variable roots_jacobi : nat -> list Q * list Q.
Variable field_line_length : list (Q * Q) -> list Q -> Q.
Variable Jperp : G -> Z -> Z -> Q.
Variable is_slab : bool.
Variable g : GridModel.grid G.
Notation P := (map_key repr).
Ltac bok E := repeat match type of E with bind ?r _ = Ok _ => destruct r as [?a|?e] eqn:?; cbn [bind] in E; [|discriminate] end.

Lemma dom_store_one ys j st it st' : store_one G findIndex outside ys j st it = Ok st' -> dom_in P (fst st) -> dom_in P (fst st').
Proof.
  unfold store_one. destruct it as [[ps c] pol]. intros E H. bok E. injection E as <-. cbn [fst].
  repeat (eapply dom_dmod; [eassumption|]). exact H.
Qed.
Lemma dom_store_sub p p' ps y ys j d it d' :
  store_sub G pR pZ pnx pnz findIndex trace outside p p' ps y ys j d it = Ok d' -> dom_in P d -> dom_in P d'.
Proof.
  unfold store_sub. destruct it as [s [xo zo]]. destruct (nth_error _ _); [|discriminate]. intros E H. bok E.
  repeat (eapply dom_dmod; [eassumption|]). exact H.
Qed.
Lemma dom_subsample spd pol y ys j l d d' :
  subsample G pR pZ pnx pnz findIndex trace outside roots_jacobi spd pol y ys j l d = Ok d' -> dom_in P d -> dom_in P d'.
Proof.
  unfold subsample. destruct l as [[[ps pol_slice] xi] zi]. intros E H.
  destruct (nsamples spd =? 1)%Z.
  { bok E. repeat (eapply dom_dmod; [eassumption|]). exact H. }
  destruct pol_slice as [p'|].
  - destruct (subcell_offsets _ spd); [|discriminate].
    eapply foldM_keep; [|exact E|exact H]. intros s a s' _ E1 H1. cbv beta in H1 |- *. exact (dom_store_sub _ _ _ _ _ _ _ _ _ E1 H1).
  - bok E. repeat (eapply dom_dmod; [eassumption|]). exact H.
Qed.
Lemma dom_trace_step spd pss d j d' :
  trace_step G pR pZ pnx pnz findIndex trace outside roots_jacobi g spd pss d j = Ok d' -> dom_in P d -> dom_in P d'.
Proof.
  unfold trace_step. intros E H. bok E. destruct (fst a); [|discriminate]. bok E.
  destruct (snd a1); [|discriminate]. eapply dom_subsample; [exact E|].
  eapply (foldM_keep (fun st => dom_in P (fst st))); [|eassumption|exact H].
  intros s b s' _ E1 H1. exact (dom_store_one _ _ _ _ _ E1 H1).
Qed.

Lemma dom_mk_pslice d o d' ps : used_offset o -> mk_pslice repr d o = Ok (d', ps) -> dom_in P d -> dom_in P d'.
Proof.
  intros U E H. unfold mk_pslice in E.
  assert (K : forall f n, In f slice_fields -> parallel_slice_field_name repr f o = Ok n -> P n).
  { intros f n Hf Hn. right. exists f, o. split; [exact Hf|split; [|exact Hn]].
    destruct o as [z|q]; cbn in U; [right; right; eauto|destruct U as [-> | ->]; auto]. }
  bok E. injection E as <- _. cbn [fold_left].
  repeat (apply dom_dset; [|eapply K; [|eassumption]; cbn; tauto]). exact H.
Qed.

Lemma dom_mk_pslices d nslice dir d' ps : dir = 1%Z \/ dir = (-1)%Z ->
  mk_pslices repr d (dir_offsets nslice dir) = Ok (d', ps) -> dom_in P d -> dom_in P d'.
Proof.
  intros Hd E H. unfold mk_pslices in E.
  eapply (foldM_keep (fun st => dom_in P (fst st)) _ _ _ _ _ E); [exact H].
  Unshelve. intros s o s' Ho E1 H1. cbv beta in *. bok E1. injection E1 as <-. cbn [fst].
  destruct a as [d1 ps1]. eapply dom_mk_pslice; [|eassumption|exact H1].
  unfold dir_offsets in Ho. destruct Ho as [<-|Ho].
  - destruct Hd as [-> | ->]; cbn; auto.
  - apply in_map_iff in Ho. destruct Ho as (k & <- & Hk). apply in_zrange in Hk. cbn. nia.
Qed.

Lemma make_maps_keys nslice mxg spd refine n_chunks junk d :
  make_maps repr G pR pZ pnx pnz findIndex trace outside Byfunc roots_jacobi field_line_length Jperp is_slab g
    nslice mxg spd refine n_chunks junk = Ok d -> dom_in P d.
Proof.
  unfold make_maps. intros E. bok E. destruct (fst a); [|discriminate]. bok E.
  destruct (negb (weights_accepted _ spd)); [discriminate|]. bok E. injection E as <-.
  assert (H0 : dom_in P a3).
  { unfold trace_all in *. eapply (foldM_keep (dom_in P)); [|eassumption|].
    - intros s pss s' _ E1 H1. eapply (foldM_keep (dom_in P)); [|exact E1|exact H1].
      intros s1 j s2 _ E2 H2. exact (dom_trace_step _ _ _ _ _ E2 H2).
    - destruct a2 as [d2 p2]. cbn [fst]. eapply dom_mk_pslices; [|eassumption|]; [now right|].
      destruct a1 as [d1 p1]. cbn [fst]. eapply dom_mk_pslices; [|eassumption|]; [now left|].
      repeat (apply dom_dset; [|left; cbn; tauto]). intros k Hk. congruence. }
  unfold add_J. assert (H1 : dom_in P (drop_half_maps a3)).
  { intros k. unfold drop_half_maps. destruct (_ && _)%bool; [congruence|apply H0]. }
  destruct is_slab; repeat (apply dom_dset; [|left; cbn; tauto]); exact H1.
Qed.
End Link.
