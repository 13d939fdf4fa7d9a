(** C28: provenance attributes. *)
From Coq Require Import String Ascii List ZArith NArith Bool Lia DecimalString DecimalN.
From Verif Require Import Prelude PreludeFacts NamingModel NamingSpec NamingProofs WriterModel WriterSpec WriterProofs.
Import ListNotations.
Open Scope string_scope.

Lemma dec_nonempty j : dec j <> "".
Proof.
  intros E. unfold dec in E. assert (H : NilEmpty.uint_of_string (NilEmpty.string_of_uint (N.to_uint j)) = Some (N.to_uint j)) by apply NilEmpty.usu.
  rewrite E in H. cbn in H. injection H as H.
  assert (J : j = 0%N). { rewrite <- (DecimalN.Unsigned.of_to j), <- H. reflexivity. }
  subst j. discriminate.
Qed.

Lemma split_first a b c d : has "_" a = false -> has "_" b = false -> a ++ "_" ++ c = b ++ "_" ++ d -> a = b /\ c = d.
Proof.
  revert b. induction a as [|x a IH]; intros [|y b] Ha Hb E; cbn [append has] in *.
  - injection E as ->. auto.
  - injection E as <- E. discriminate.
  - injection E as -> E. discriminate.
  - injection E as <- E. apply orb_false_iff in Ha, Hb. destruct (IH b) as [-> ->]; tauto.
Qed.

Definition form (j : N) (k : string) : string := "old" ++ dec j ++ "_" ++ k.
Definition form0 (k : string) : string := "old" ++ "_" ++ k.

Lemma has_old j : has "_" ("old" ++ dec j) = false.
Proof. rewrite has_app, dec_no_underscore. reflexivity. Qed.

Lemma form_assoc j k : form j k = ("old" ++ dec j) ++ "_" ++ k.
Proof. unfold form. now rewrite append_assoc_s. Qed.

Lemma form_inj i j k l : form i k = form j l -> i = j /\ k = l.
Proof.
  rewrite !form_assoc. intros E. apply split_first in E; try apply has_old.
  destruct E as [E ->]. apply append_inj_l in E. apply dec_inj in E. auto.
Qed.
Lemma form_form0 j k l : form j k = form0 l -> False.
Proof.
  rewrite form_assoc. unfold form0. intros E. apply split_first in E; [|apply has_old|reflexivity].
  destruct E as [E _]. change "old" with ("old" ++ "") in E at 2. apply append_inj_l in E. now apply dec_nonempty in E.
Qed.
Lemma form0_inj k l : form0 k = form0 l -> k = l.
Proof. unfold form0. intros E. apply append_inj_l in E. now apply (append_inj_l "_") in E. Qed.

Fixpoint cands (fuel : nat) (k cur : string) (j : N) : list string :=
  match fuel with O => [] | S f => cur :: cands f k (form j k) (N.succ j) end.

Lemma cands_length fuel k : forall cur j, length (cands fuel k cur j) = fuel.
Proof. induction fuel; cbn; auto. Qed.
Lemma cands_in fuel k : forall i j x, In x (cands fuel k (form i k) j) -> (i < j)%N -> x = form i k \/ exists l, (j <= l)%N /\ x = form l k.
Proof.
  induction fuel as [|f IH]; cbn; intros i j x H Hij; [easy|]. destruct H as [<-|H]; [auto|].
  apply IH in H; [|lia]. destruct H as [->|(l & Hl & ->)]; right; [exists j|exists l]; split; auto; lia.
Qed.
Lemma cands_NoDup fuel k : forall i j, (i < j)%N -> NoDup (cands fuel k (form i k) j).
Proof.
  induction fuel as [|f IH]; cbn; intros i j H; [constructor|]. constructor; [|apply IH; lia].
  intros C. apply cands_in in C; [|lia]. destruct C as [C|(l & Hl & C)]; apply form_inj in C; lia.
Qed.
Lemma cands0_NoDup fuel k : NoDup (cands fuel k (form0 k) 0).
Proof.
  destruct fuel as [|f]; cbn [cands]; [constructor|]. constructor; [|apply cands_NoDup; lia].
  intros C. apply cands_in in C; [|lia]. destruct C as [C|(l & Hl & C)]; symmetry in C; now apply form_form0 in C.
Qed.

Lemma existsb_in s old : existsb (String.eqb s) old = true <-> In s old.
Proof.
  rewrite existsb_exists. split.
  - intros (x & Hx & E). apply String.eqb_eq in E. now subst.
  - intros H. exists s. split; [exact H|apply String.eqb_refl].
Qed.

Lemma fresh_none fuel old k : forall cur j, fresh_loop fuel old k cur j = None -> incl (cands fuel k cur j) old.
Proof.
  induction fuel as [|f IH]; cbn [fresh_loop cands]; intros cur j E x Hx; [easy|].
  destruct (existsb (String.eqb cur) old) eqn:Ex; [|discriminate]. apply existsb_in in Ex.
  destruct Hx as [<-|Hx]; [exact Ex|]. eapply IH; [exact E|exact Hx].
Qed.
Lemma fresh_some fuel old k n : forall cur j, fresh_loop fuel old k cur j = Some n ->
  ~ In n old /\ In n (cands fuel k cur j).
Proof.
  induction fuel as [|f IH]; cbn [fresh_loop cands]; intros cur j E; [discriminate|].
  destruct (existsb (String.eqb cur) old) eqn:Ex.
  - apply IH in E. destruct E as [H1 H2]. split; [exact H1|now right].
  - injection E as <-. split; [|now left]. intros C. apply existsb_in in C. congruence.
Qed.

(** The search ends, with a free name made from the key. *)
Lemma fresh_name (attrs : pdict string) k :
  exists n, fresh_loop (length attrs + 2) (map fst attrs) k ("old_" ++ k) 0 = Some n /\
    ~ In n (keys attrs) /\ (n = form0 k \/ exists j, n = form j k).
Proof.
  change ("old_" ++ k) with (form0 k).
  destruct (fresh_loop _ _ k (form0 k) 0) as [n|] eqn:E.
  - exists n. split; [reflexivity|]. apply fresh_some in E. destruct E as [H1 H2]. split; [exact H1|].
    replace (length attrs + 2)%nat with (S (length attrs + 1)) in H2 by lia. cbn [cands] in H2.
    destruct H2 as [<-|H2]; [auto|]. right. apply cands_in in H2; [|lia]. destruct H2 as [->|(l & _ & ->)]; eauto.
  - exfalso. apply fresh_none in E.
    pose proof (NoDup_incl_length (cands0_NoDup (length attrs + 2) k) E) as L.
    rewrite cands_length, map_length in L. lia.
Qed.

Definition made_from (n k : string) : Prop := n = form0 k \/ exists j, n = form j k.
Lemma made_inj n k l : made_from n k -> made_from n l -> k = l.
Proof.
  intros [->|[j ->]] [E|[i E]].
  - now apply form0_inj.
  - symmetry in E. now apply form_form0 in E.
  - now apply form_form0 in E.
  - now apply form_inj in E.
Qed.
Lemma made_not_key n k : made_from n k -> ~ In n final_keys.
Proof. intros [->|[j ->]]; unfold form0, form; cbn; intuition discriminate. Qed.

Lemma old_items_spec attrs ks : NoDup ks -> exists olds, old_items attrs ks = Some olds /\
  NoDup (keys olds) /\
  (forall n v, In (n, v) olds -> ~ In n (keys attrs) /\ exists k, In k ks /\ made_from n k) /\
  (forall k v, In k ks -> dget attrs k = Some v -> exists n, In (n, v) olds).
Proof.
  induction ks as [|k t IH]; intros Hn; cbn [old_items].
  - exists []. split; [reflexivity|split; [constructor|split; [intros ? ? []|intros ? ? []]]].
  - inversion Hn as [|? ? N N']; subst. destruct (IH N') as (olds & E & D & H1 & H2).
    destruct (dget attrs k) as [v|] eqn:Ek.
    + destruct (fresh_name attrs k) as (n & En & Hf & Hm). rewrite En, E. exists ((n, v) :: olds).
      split; [reflexivity|split; [|split]].
      * cbn. constructor; [|exact D]. intros C. apply in_map_iff in C. destruct C as ([n' v'] & E' & C). cbn in E'. subst n'.
        destruct (H1 _ _ C) as (_ & k' & Hk' & Hm'). apply N. rewrite (made_inj n k k'); auto.
      * intros n' v' [C|C]; [injection C as <- <-; split; [exact Hf|exists k; split; [now left|exact Hm]]|].
        destruct (H1 _ _ C) as (A & k' & Hk' & Hm'). split; [exact A|]. exists k'. split; [now right|exact Hm'].
      * intros k' v' [<-|Hk'] Hg; [exists n; left; congruence|]. destruct (H2 _ _ Hk' Hg) as (n' & Hn'). exists n'. now right.
    + exists olds. split; [exact E|split; [exact D|split]].
      * intros n' v' C. destruct (H1 _ _ C) as (A & k' & Hk' & Hm'). split; [exact A|]. exists k'. split; [now right|exact Hm'].
      * intros k' v' [<-|Hk'] Hg; [congruence|eauto].
Qed.

Lemma final_keys_NoDup : NoDup final_keys.
Proof. unfold final_keys. repeat constructor; cbn; intuition discriminate. Qed.

(** One update: it ends, keeps every value under some name, and sets the new ones. *)
Lemma final_update values attrs : NoDup (keys attrs) -> exists attrs', final_attrs true values attrs = Some attrs' /\
  NoDup (keys attrs') /\
  (forall k v, dget attrs k = Some v -> ~ In k final_keys -> dget attrs' k = Some v) /\
  (forall k v, dget attrs k = Some v -> In k final_keys -> exists n, ~ In n (keys attrs) /\ dget attrs' n = Some v) /\
  (forall k, In k final_keys -> dget attrs' k = Some (values k)).
Proof.
  intros Hn. unfold final_attrs. destruct (old_items_spec attrs final_keys final_keys_NoDup) as (olds & E & D & H1 & H2).
  rewrite E. eexists. split; [reflexivity|].
  set (new := map (fun k => (k, values k)) final_keys).
  destruct (fold_dput_spec (new ++ olds)%list attrs Hn) as (F1 & F2 & F3 & F4).
  assert (Kn : keys new = final_keys) by (unfold new, keys; rewrite map_map; reflexivity).
  assert (Ka : keys (new ++ olds)%list = (final_keys ++ keys olds)%list) by (unfold keys in *; now rewrite map_app, Kn).
  assert (Nd : NoDup (keys (new ++ olds)%list)).
  { rewrite Ka. apply NoDup_app; [exact final_keys_NoDup|exact D|].
    intros x Hx C. apply in_map_iff in C. destruct C as ([n v] & <- & C). cbn in Hx.
    destruct (H1 _ _ C) as (_ & k & _ & Hm). now apply made_not_key in Hm. }
  split; [exact F1|split; [|split]].
  - intros k v Hk Hnk. rewrite F3; [exact Hk|]. rewrite Ka. intros C. apply in_app_or in C. destruct C as [C|C]; [tauto|].
    apply in_map_iff in C. destruct C as ([n v'] & <- & C). destruct (H1 _ _ C) as (A & _). apply A. cbn in Hk. now apply dget_key in Hk.
  - intros k v Hk Hik. destruct (H2 _ _ Hik Hk) as (n & Hin). exists n. split; [apply (H1 _ _ Hin)|].
    apply (F4 Nd). apply in_or_app. now right.
  - intros k Hk. apply (F4 Nd). apply in_or_app. left. apply in_map_iff. eauto.
Qed.

(** Any number of updates. *)
Fixpoint final_history (vs : list (string -> string)) (attrs : pdict string) : option (pdict string) :=
  match vs with
  | [] => Some attrs
  | v :: t => match final_attrs true v attrs with Some a => final_history t a | None => None end
  end.
Lemma history_keeps vs : forall attrs, NoDup (keys attrs) -> exists attrs', final_history vs attrs = Some attrs' /\
  forall k v, dget attrs k = Some v -> exists n, dget attrs' n = Some v.
Proof.
  induction vs as [|v t IH]; intros attrs Hn; cbn [final_history]; [eauto|].
  destruct (final_update v attrs Hn) as (a & E & Na & K1 & K2 & _). rewrite E.
  destruct (IH a Na) as (a' & E' & K). exists a'. split; [exact E'|].
  intros k x Hk. destruct (in_dec string_dec k final_keys) as [Hi|Hi].
  - destruct (K2 _ _ Hk Hi) as (n & _ & Hx). eauto.
  - eauto.
Qed.
