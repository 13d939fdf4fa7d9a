(** The names of the files of W7X_vacuum, and histories of calls. *)
From Coq Require Import String Ascii List ZArith NArith QArith Qabs Qround Lia Lqa Bool.
From Verif Require Import Prelude PreludeFacts NamingModel NamingSpec NamingProofs FieldModel PolModel W7xModel W7xSpec.
Import ListNotations.
Open Scope string_scope.

Lemma digits_has c s : all_digits s = true -> all_digits (String c "") = false -> has c s = false.
Proof.
  intros H Hc. induction s as [|d s IH]; [reflexivity|]. cbn [all_digits] in H. apply andb_true_iff in H as [Hd Hs]. cbn [has].
  rewrite (IH Hs), orb_false_r. destruct (Ascii.eqb_spec c d) as [->|]; [|reflexivity].
  cbn [all_digits] in Hc. rewrite Hd in Hc. discriminate.
Qed.
Lemma dec_no_dot n : has "." (dec n) = false.
Proof. apply digits_has; [apply dec_digits|reflexivity]. Qed.
Lemma dec_no_minus n : has "-" (dec n) = false.
Proof. apply digits_has; [apply dec_digits|reflexivity]. Qed.

(** splitting at the first occurrence of a character *)
Lemma split_first c a b a' b' : has c a = false -> has c a' = false -> a ++ String c b = a' ++ String c b' -> a = a' /\ b = b'.
Proof.
  revert a'. induction a as [|x a IH]; intros [|y a'] H H' E; cbn in *.
  - injection E as ->. auto.
  - injection E as <- _. rewrite Ascii.eqb_refl in H'. discriminate.
  - injection E as -> _. rewrite Ascii.eqb_refl in H. discriminate.
  - injection E as -> E. apply orb_false_iff in H, H'. destruct (IH a') as [-> ->]; tauto.
Qed.
Lemma app_same_length a b a' b' : String.length a = String.length a' -> a ++ b = a' ++ b' -> a = a' /\ b = b'.
Proof.
  revert a'. induction a as [|x a IH]; intros [|y a'] H E; cbn in *; try discriminate; [auto|].
  injection E as -> E. injection H as H. destruct (IH a' H E) as [-> ->]. auto.
Qed.

Lemma two_length n : (n < 100)%N -> String.length (two n) = 2%nat.
Proof.
  intros H. assert (K : forallb (fun i => String.length (two (N.of_nat i)) =? 2)%nat (seq 0 100) = true) by reflexivity.
  rewrite forallb_forall in K. specialize (K (N.to_nat n)). rewrite N2Nat.id in K. apply Nat.eqb_eq, K, in_seq. lia.
Qed.
Lemma two_inj n m : (n < 100)%N -> (m < 100)%N -> two n = two m -> n = m.
Proof.
  intros Hn Hm. unfold two. destruct (N.ltb_spec n 10), (N.ltb_spec m 10).
  - cbn. intros [= E]. now apply dec_inj.
  - intros E. exfalso. assert (K : forallb (fun i => negb (String.eqb (substring 0 1 (dec (N.of_nat i))) "0")) (seq 10 90) = true) by reflexivity.
    rewrite forallb_forall in K. specialize (K (N.to_nat m)). rewrite N2Nat.id, <- E in K. specialize (K ltac:(apply in_seq; lia)). cbn in K. destruct (dec n); discriminate K.
  - intros E. exfalso. assert (K : forallb (fun i => negb (String.eqb (substring 0 1 (dec (N.of_nat i))) "0")) (seq 10 90) = true) by reflexivity.
    rewrite forallb_forall in K. specialize (K (N.to_nat n)). rewrite N2Nat.id, E in K. specialize (K ltac:(apply in_seq; lia)). cbn in K. destruct (dec m); discriminate K.
  - apply dec_inj.
Qed.

Lemma dec_nonempty_head n : exists c s, dec n = String c s /\ all_digits (String c "") = true \/ dec n = "".
Proof.
  pose proof (dec_digits n) as H. destruct (dec n) as [|c s]; [exists "0"%char, ""; now right|].
  exists c, s. left. split; [reflexivity|]. cbn in *. apply andb_true_iff in H. destruct H as [-> _]. reflexivity.
Qed.

Lemma sign_inj (b b' : bool) s s' : has "-" s = false -> has "-" s' = false ->
  (if b then "-" else "") ++ s = (if b' then "-" else "") ++ s' -> b = b' /\ s = s'.
Proof.
  intros H H' E. destruct b, b'; cbn in E.
  - injection E. auto.
  - exfalso. rewrite <- E in H'. cbn in H'. discriminate.
  - exfalso. rewrite E in H. cbn in H. discriminate.
  - auto.
Qed.

(** fmt2 followed by anything *)
Lemma round_even_nonneg q : (0 <= q)%Q -> (0 <= round_even q)%Z.
Proof.
  intros H. assert (0 <= Qfloor q)%Z by (apply Qfloor_resp_le in H; exact H).
  unfold round_even. destruct (Qlt_bool _ _); [lia|]. destruct (Qlt_bool _ _); [lia|]. destruct (Z.even _); lia.
Qed.
Lemma Qabs100 q : (0 <= Qabs q * 100)%Q.
Proof. pose proof (Qabs_nonneg q). lra. Qed.
Definition same2 (a b : Q) : Prop := Qlt_bool a 0 = Qlt_bool b 0 /\ round_even (Qabs a * 100) = round_even (Qabs b * 100).
Lemma same2_iff a b : same2 a b <-> same_cents a b.
Proof.
  unfold same2, same_cents. split; intros [A B]; (split; [|exact B]).
  - split; intros H; apply Qlt_bool_iff; apply Qlt_bool_iff in H; congruence.
  - destruct (Qlt_bool a 0) eqn:E, (Qlt_bool b 0) eqn:E'; try reflexivity.
    + apply Qlt_bool_iff, A, Qlt_bool_iff in E. congruence.
    + apply Qlt_bool_iff, A, Qlt_bool_iff in E'. congruence.
Qed.
Lemma fmt2_inj a b s s' : fmt2 a ++ s = fmt2 b ++ s' -> same2 a b /\ s = s'.
Proof.
  unfold fmt2, same2. set (n := Z.to_N (round_even (Qabs a * 100))). set (m := Z.to_N (round_even (Qabs b * 100))).
  rewrite !append_assoc_s. intros E.
  assert (Hn : (n mod 100 < 100)%N) by (apply N.mod_lt; lia). assert (Hm : (m mod 100 < 100)%N) by (apply N.mod_lt; lia).
  assert (E' : ((if Qlt_bool a 0 then "-" else "") ++ dec (n / 100)) ++ String "." (two (n mod 100) ++ s) =
               ((if Qlt_bool b 0 then "-" else "") ++ dec (m / 100)) ++ String "." (two (m mod 100) ++ s')).
  { rewrite !append_assoc_s. exact E. }
  apply split_first in E'; [|rewrite has_app, dec_no_dot; match goal with |- context [Qlt_bool ?u 0] => destruct (Qlt_bool u 0) end; reflexivity..].
  destruct E' as [E1 E2]. apply sign_inj in E1; [|apply dec_no_minus..]. destruct E1 as [B E1].
  apply app_same_length in E2; [|now rewrite !two_length]. destruct E2 as [E2 ->].
  apply dec_inj in E1. apply two_inj in E2; [|assumption..]. repeat split; [exact B|].
  assert (n = m) by (rewrite (N.div_mod n 100), (N.div_mod m 100) by lia; now rewrite E1, E2).
  apply Z2N.inj; [apply round_even_nonneg, Qabs100..|assumption].
Qed.
Lemma fmt2_same a b : same2 a b -> fmt2 a = fmt2 b.
Proof. unfold same2, fmt2. intros [-> ->]. reflexivity. Qed.

Lemma dec_field n m s s' : dec n ++ String "." s = dec m ++ String "." s' -> n = m /\ s = s'.
Proof. intros E. apply split_first in E; [|apply dec_no_dot..]. destruct E as [E ->]. apply dec_inj in E. auto. Qed.

(** The label tells the lengths and the rounded ends. *)
Definition lens (m : mesh) := (length (ax_r m), length (ax_phi m), length (ax_z m)).
Definition same_ends (l l' : list Q) : Prop := exists a b a' b', ends l = Ok (a, b) /\ ends l' = Ok (a', b') /\ same2 a a' /\ same2 b b'.
Definition same_label (m m' : mesh) : Prop := lens m = lens m' /\ same_ends (ax_r m) (ax_r m') /\ same_ends (ax_phi m) (ax_phi m') /\ same_ends (ax_z m) (ax_z m').

Lemma label_inj m m' l l' s s' : label m = Ok l -> label m' = Ok l' -> l ++ s = l' ++ s' -> same_label m m' /\ s = s'.
Proof.
  unfold label. destruct (ends (ax_r m)) as [[r0 r1]|] eqn:Er; [|discriminate]. destruct (ends (ax_phi m)) as [[p0 p1]|] eqn:Ep; [|discriminate].
  destruct (ends (ax_z m)) as [[z0 z1]|] eqn:Ez; [|discriminate].
  destruct (ends (ax_r m')) as [[r0' r1']|] eqn:Er'; [|discriminate]. destruct (ends (ax_phi m')) as [[p0' p1']|] eqn:Ep'; [|discriminate].
  destruct (ends (ax_z m')) as [[z0' z1']|] eqn:Ez'; [|discriminate]. cbn [bind]. intros [= <-] [= <-].
  rewrite !append_assoc_s. intros E. cbn [String.append] in E.
  repeat match type of E with
  | (_ ++ _) ++ _ = _ => rewrite !append_assoc_s in E; cbn [String.append] in E
  | dec _ ++ String "." _ = _ => apply dec_field in E; let K := fresh "K" in destruct E as [K E]; apply Nat2N.inj in K
  | fmt2 _ ++ _ = _ => apply fmt2_inj in E; let K := fresh "S" in destruct E as [K E]
  | String _ _ = String _ _ => injection E as E
  end.
  split; [|exact E]. unfold same_label, lens, same_ends. rewrite K, K0, K1. split; [reflexivity|].
  split; [|split]; do 4 eexists; (split; [eassumption|]); (split; [eassumption|]); split; assumption.
Qed.
Lemma label_same m m' : same_label m m' -> exists l, label m = Ok l /\ label m' = Ok l.
Proof.
  unfold same_label, lens, label. intros (L & (r0 & r1 & r0' & r1' & -> & -> & A1 & A2) & (p0 & p1 & p0' & p1' & -> & -> & B1 & B2) & (z0 & z1 & z0' & z1' & -> & -> & C1 & C2)).
  injection L as -> -> ->. cbn [bind]. eexists. split; [reflexivity|].
  now rewrite (fmt2_same _ _ A1), (fmt2_same _ _ A2), (fmt2_same _ _ B1), (fmt2_same _ _ B2), (fmt2_same _ _ C1), (fmt2_same _ _ C2).
Qed.

Definition no_dot (c : configuration) : Prop := has "." (cfg_str c) = false.
Lemma int_no_dot i : no_dot (CInt i).
Proof. unfold no_dot, cfg_str. rewrite has_app, dec_no_dot. destruct (_ <? _)%Z; reflexivity. Qed.

Lemma fname_inj c c' m m' n : no_dot c -> no_dot c' -> fname c m = Ok n -> fname c' m' = Ok n -> cfg_str c = cfg_str c' /\ same_label m m'.
Proof.
  unfold fname. intros D D' E E'. destruct (label m) as [l|] eqn:El; [|discriminate]. destruct (label m') as [l'|] eqn:El'; [|discriminate].
  cbn [bind] in *. injection E as <-. injection E' as E'.
  apply split_first in E'; [|assumption..]. destruct E' as [E0 E']. split; [now symmetry|].
  symmetry in E'. destruct (label_inj m m' l l' _ _ El El' E') as [K _]. exact K.
Qed.
Lemma fname_same c c' m m' : cfg_str c = cfg_str c' -> same_label m m' -> exists n, fname c m = Ok n /\ fname c' m' = Ok n.
Proof. intros Ec H. destruct (label_same m m' H) as (l & E & E'). unfold fname. rewrite E, E', Ec. cbn [bind]. eauto. Qed.

(** a string that ends in .nc does not end in .dat *)
Fixpoint last_char (s : string) (d : ascii) : ascii := match s with "" => d | String c s => last_char s c end.
Lemma last_app a b d : b <> "" -> last_char (a ++ b) d = last_char b d.
Proof.
  revert d. induction a as [|x a IH]; intros d H; [reflexivity|]. cbn. rewrite IH by exact H. destruct b; [congruence|reflexivity].
Qed.
Lemma fname_not_old c m m' n n' : fname c m = Ok n -> fname_old m' = Ok n' -> n <> n'.
Proof.
  unfold fname, fname_old. destruct (label m) as [l|]; [|discriminate]. destruct (label m') as [l'|]; [|discriminate]. cbn [bind].
  intros E E' K. assert (N : n = ("B.w7x." ++ cfg_str c ++ "." ++ l) ++ ".nc") by (rewrite !append_assoc_s; congruence).
  assert (N' : n = ("B.w7x." ++ l') ++ ".dat") by (rewrite !append_assoc_s; congruence).
  assert (L : last_char n " " = "c"%char) by (rewrite N, last_app by discriminate; reflexivity).
  assert (L' : last_char n " " = "t"%char) by (rewrite N', last_app by discriminate; reflexivity).
  congruence.
Qed.
Lemma plasma_not_fname c m m' n n' : fname c m = Ok n -> fname_plasma m' = Ok n' -> n <> n'.
Proof.
  unfold fname, fname_plasma. destruct (label m); [|discriminate]. destruct (label m'); [|discriminate]. cbn [bind]. intros [= <-] [= <-] E. discriminate E.
Qed.
Lemma plasma_not_old m m' n n' : fname_old m = Ok n -> fname_plasma m' = Ok n' -> n <> n'.
Proof.
  unfold fname_old, fname_plasma. destruct (label m); [|discriminate]. destruct (label m'); [|discriminate]. cbn [bind]. intros [= <-] [= <-] E. discriminate E.
Qed.

(** Configurations the services know have different names. *)
Lemma accepted_names c k : set_config c = Ok k -> (exists i, c = CInt i /\ (-1 <= i)%Z) \/ c = CName "FMM002".
Proof.
  destruct c as [i|s]; cbn.
  - destruct (Z.leb_spec 0 i); [left; exists i; split; [reflexivity|lia]|]. unfold coil_config, known.
    destruct i as [|p|p]; try discriminate. destruct p; try discriminate. intros _. left. exists (-1)%Z. split; [reflexivity|lia].
  - unfold coil_config, known. destruct (String.eqb_spec s "FMM002") as [->|]; [now right|discriminate].
Qed.
Lemma accepted_no_dot c k : set_config c = Ok k -> no_dot c.
Proof. intros H. destruct (accepted_names c k H) as [(i & -> & _)| ->]; [apply int_no_dot|reflexivity]. Qed.
Lemma accepted_inj c c' k k' : set_config c = Ok k -> set_config c' = Ok k' -> cfg_str c = cfg_str c' -> c = c'.
Proof.
  intros H H' E. destruct (accepted_names c k H) as [(i & -> & Hi)| ->], (accepted_names c' k' H') as [(j & -> & Hj)| ->]; cbn [cfg_str] in E.
  - apply sign_inj in E; [|apply dec_no_minus..]. destruct E as [B E]. apply dec_inj in E. f_equal.
    destruct (Z.ltb_spec i 0), (Z.ltb_spec j 0); try discriminate; lia.
  - exfalso. pose proof (dec_digits (Z.abs_N i)) as D. destruct (i <? 0)%Z; cbn in E; [discriminate|]. rewrite E in D. discriminate.
  - exfalso. pose proof (dec_digits (Z.abs_N j)) as D. destruct (j <? 0)%Z; cbn in E; [discriminate|]. rewrite <- E in D. discriminate.
  - reflexivity.
Qed.

(** ** The numbers in the names *)
Lemma round_even_near q : Qabs (inject_Z (round_even q) - q) <= 1#2 /\ (Qabs (inject_Z (round_even q) - q) == 1#2 -> Z.even (round_even q) = true).
Proof.
  unfold round_even. pose proof (Qfloor_le q) as F1. pose proof (Qlt_floor q) as F2. rewrite inject_Z_plus in F2. change (inject_Z 1) with 1%Q in F2.
  set (f := Qfloor q) in *.
  destruct (Qlt_bool (q - inject_Z f) (1#2)) eqn:E1.
  - apply Qlt_bool_iff in E1. split; [apply Qabs_case; intros; lra|]. apply Qabs_case; intros; lra.
  - apply Qlt_bool_false_iff in E1. destruct (Qlt_bool (1#2) (q - inject_Z f)) eqn:E2.
    + apply Qlt_bool_iff in E2. rewrite inject_Z_plus. change (inject_Z 1) with 1%Q.
      split; [apply Qabs_case; intros; lra|]. apply Qabs_case; intros; lra.
    + apply Qlt_bool_false_iff in E2. destruct (Z.even f) eqn:E.
      * split; [apply Qabs_case; intros; lra|auto].
      * rewrite inject_Z_plus. change (inject_Z 1) with 1%Q. split; [apply Qabs_case; intros; lra|].
        intros _. rewrite Z.add_1_r, Z.even_succ, <- Z.negb_even, E. reflexivity.
Qed.

Lemma fmt2_near q : exists n : N, fmt2 q = ((if Qlt_bool q 0 then "-" else "") ++ dec (n / 100) ++ "." ++ (if (n mod 100 <? 10)%N then "0" else "") ++ dec (n mod 100))%string /\
  (Qabs (inject_Z (Z.of_N n) - Qabs q * 100) <= 1#2)%Q /\ ((Qabs (inject_Z (Z.of_N n) - Qabs q * 100) == 1#2)%Q -> N.even n = true).
Proof.
  destruct (round_even_near (Qabs q * 100)) as [H1 H2].
  assert (P : (0 <= round_even (Qabs q * 100))%Z).
  { assert (-1 < round_even (Qabs q * 100))%Z; [|lia]. rewrite Zlt_Qlt. pose proof (Qabs_nonneg q).
    revert H1. apply Qabs_case; intros; change (inject_Z (-1)) with (-(1))%Q; lra. }
  exists (Z.to_N (round_even (Qabs q * 100))). rewrite Z2N.id by assumption. split; [|split; [exact H1|]].
  - unfold fmt2, two. cbv zeta. now destruct (_ <? 10)%N.
  - intros E. specialize (H2 E). apply Z.even_spec in H2 as [k Hk]. rewrite Hk. apply N.even_spec. exists (Z.to_N k). lia.
Qed.
