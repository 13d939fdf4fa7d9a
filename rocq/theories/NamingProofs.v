From Coq Require Import String Ascii List ZArith QArith Qabs Lqa Bool Lia.
From Coq Require Import Decimal DecimalString DecimalN.
From Verif Require Import Prelude PreludeFacts NamingModel NamingSpec.
Import ListNotations.
Open Scope string_scope.

(** ** Strings *)

Lemma append_inj_l p a b : p ++ a = p ++ b -> a = b.
Proof. induction p as [|c p IH]; cbn; intros H; [assumption|]. injection H; auto. Qed.

Lemma append_assoc_s a b c : (a ++ b) ++ c = a ++ (b ++ c).
Proof. induction a as [|x a IH]; cbn; [reflexivity|]. now rewrite IH. Qed.

Lemma append_nil_s a : a ++ "" = a.
Proof. induction a as [|x a IH]; cbn; [reflexivity|]. now rewrite IH. Qed.

Lemma append_length a b : String.length (a ++ b) = (String.length a + String.length b)%nat.
Proof. induction a as [|x a IH]; cbn; [reflexivity|]. now rewrite IH. Qed.

Lemma append_inj_r a b p : a ++ p = b ++ p -> a = b.
Proof.
  revert b. induction a as [|x a IH]; intros [|y b] H; cbn in H.
  - reflexivity.
  - exfalso. assert (L : String.length p = String.length (String y (b ++ p))) by now rewrite <- H.
    cbn in L. rewrite append_length in L. lia.
  - exfalso. assert (L : String.length (String x (a ++ p)) = String.length p) by now rewrite H.
    cbn in L. rewrite append_length in L. lia.
  - injection H as -> H. f_equal. now apply IH.
Qed.

Fixpoint has (c : ascii) (s : string) : bool :=
  match s with "" => false | String d s' => orb (Ascii.eqb c d) (has c s') end.

Lemma has_app c a b : has c (a ++ b) = orb (has c a) (has c b).
Proof. induction a as [|x a IH]; cbn; [reflexivity|]. rewrite IH. now rewrite orb_assoc. Qed.

(** Splitting at the last underscore is unique. *)
Lemma split_last a b c1 c2 : has "_" c1 = false -> has "_" c2 = false ->
  a ++ "_" ++ c1 = b ++ "_" ++ c2 -> a = b /\ c1 = c2.
Proof.
  intros H1 H2. revert b. induction a as [|x a IH]; intros [|y b] E; cbn in E.
  - injection E as ->. auto.
  - injection E as <- E. exfalso. rewrite E in H1. rewrite has_app in H1. cbn in H1.
    now rewrite orb_true_r in H1.
  - injection E as -> E. exfalso. rewrite <- E in H2. rewrite has_app in H2. cbn in H2.
    now rewrite orb_true_r in H2.
  - injection E as -> E. destruct (IH b E) as [-> ->]. auto.
Qed.

(** ** Decimal printing *)

Lemma string_of_uint_digits u : all_digits (NilEmpty.string_of_uint u) = true.
Proof. induction u; cbn; auto. Qed.

Lemma all_digits_has s : all_digits s = true -> has "_" s = false.
Proof.
  induction s as [|c s IH]; intros H; [reflexivity|].
  cbn [all_digits] in H. apply andb_true_iff in H as [Hc Hs]. cbn [has].
  rewrite (IH Hs). rewrite orb_false_r.
  destruct (Ascii.eqb_spec "_" c) as [<-|]; [|reflexivity]. vm_compute in Hc. discriminate.
Qed.

Lemma dec_digits n : all_digits (dec n) = true.
Proof. apply string_of_uint_digits. Qed.

Lemma dec_no_underscore n : has "_" (dec n) = false.
Proof. apply all_digits_has, dec_digits. Qed.

Lemma dec_inj n m : dec n = dec m -> n = m.
Proof.
  unfold dec. intros H.
  assert (E : Some (N.to_uint n) = Some (N.to_uint m)).
  { rewrite <- (NilEmpty.usu (N.to_uint n)), <- (NilEmpty.usu (N.to_uint m)). now rewrite H. }
  injection E. apply Unsigned.to_uint_inj.
Qed.

(** ** The computable test *)

Lemma extends_by_number_complete g d : all_digits d = true -> extends_by_number (g ++ "_" ++ d) g = true.
Proof.
  intros H. induction g as [|c g IH]; cbn [append extends_by_number].
  - cbn. now rewrite H.
  - now rewrite Ascii.eqb_refl.
Qed.

Lemma clash_free_b_sound fields : clash_free_b fields = true -> clash_free fields.
Proof.
  unfold clash_free_b. rewrite andb_true_iff, !forallb_forall. intros [H1 H2]. split.
  - intros f g n Hf Hg E. specialize (H1 f Hf). rewrite forallb_forall in H1. specialize (H1 g Hg).
    rewrite E, extends_by_number_complete in H1 by apply dec_digits. discriminate.
  - intros f Hf. specialize (H2 f Hf). rewrite andb_true_iff, !negb_true_iff in H2. assumption.
Qed.

(** ** Shapes of names *)

Section Names.
Variable repr : Q -> string.

Lemma Qabs_int z : Qabs (inject_Z z) = inject_Z (Z.abs z).
Proof. reflexivity. Qed.

Lemma Zabs_lt1 z : z <> 0%Z -> Qlt_bool (Qabs (inject_Z z)) 1 = false.
Proof.
  intros H. rewrite Qabs_int. apply Qlt_bool_false_iff. change 1%Q with (inject_Z 1).
  rewrite <- Zle_Qle. lia.
Qed.

Definition suffix_of (z : Z) : string :=
  if (1 <? Z.abs z)%Z then "_" ++ dec (Z.abs_N z) else "".

Definition name_int f z := (if (0 <? z)%Z then "forward" else "backward") ++ "_" ++ f ++ suffix_of z.

Lemma name_int_ok f z : z <> 0%Z ->
  parallel_slice_field_name repr f (OInt z) = Ok (name_int f z).
Proof.
  intros H. unfold parallel_slice_field_name. cbn [offset_value offset_str].
  rewrite Zabs_lt1 by assumption. unfold name_int, suffix_of.
  rewrite Qabs_int. change 0%Q with (inject_Z 0). change 1%Q with (inject_Z 1).
  rewrite !Qlt_bool_Z. reflexivity.
Qed.

Lemma name_zero f : parallel_slice_field_name repr f (OInt 0) = Err AssertionError.
Proof. reflexivity. Qed.

Lemma name_half f : parallel_slice_field_name repr f (OFloat (1#2)) = Ok (f ++ "_cell_yhigh").
Proof. reflexivity. Qed.

Lemma name_mhalf f : parallel_slice_field_name repr f (OFloat (-(1#2))) = Ok (f ++ "_cell_ylow").
Proof. reflexivity. Qed.

(** [f ++ "_cell_y..."] never looks like a forward/backward name. *)
Lemma half_not_prefixed p f s r : has "_" p = false -> String.prefix p f = false ->
  f ++ "_" ++ s = p ++ "_" ++ r -> False.
Proof.
  revert f. induction p as [|c p IH]; intros f Hp Hf E.
  - cbn in Hf. destruct f; discriminate.
  - cbn [has] in Hp. apply orb_false_iff in Hp as [Hc Hp].
    destruct f as [|d f]; cbn in E.
    + injection E as <- _. cbn in Hc. discriminate.
    + injection E as -> E. cbn [String.prefix] in Hf.
      destruct (ascii_dec c c) as [_|]; [|congruence]. eauto.
Qed.

Lemma name_int_inj fields f g z w : clash_free fields -> In f fields -> In g fields ->
  z <> 0%Z -> w <> 0%Z -> name_int f z = name_int g w -> f = g /\ z = w.
Proof.
  intros [HC _] Hf Hg Hz Hw E. unfold name_int in E.
  assert (Hsgn : (0 <? z)%Z = (0 <? w)%Z).
  { destruct (0 <? z)%Z, (0 <? w)%Z; cbn in E; try reflexivity; discriminate. }
  rewrite Hsgn in E. apply append_inj_l in E. apply (append_inj_l "_") in E.
  unfold suffix_of in E.
  destruct (Z.ltb_spec 1 (Z.abs z)) as [Lz|Lz], (Z.ltb_spec 1 (Z.abs w)) as [Lw|Lw];
    rewrite ?append_nil_s in E.
  - apply split_last in E; try apply dec_no_underscore. destruct E as [-> E]. split; [reflexivity|].
    apply dec_inj in E. destruct (Z.ltb_spec 0 z), (Z.ltb_spec 0 w); try discriminate; lia.
  - exfalso. symmetry in E. now apply HC in E.
  - exfalso. now apply HC in E.
  - split; [assumption|]. destruct (Z.ltb_spec 0 z), (Z.ltb_spec 0 w); try discriminate; lia.
Qed.

Lemma half_int_disjoint fields f g w s : clash_free fields -> In f fields ->
  f ++ "_" ++ s = name_int g w -> False.
Proof.
  intros [_ HP] Hf E. destruct (HP f Hf) as [P1 P2]. unfold name_int in E.
  destruct (0 <? w)%Z; (eapply half_not_prefixed; [| |exact E]); auto.
Qed.

Lemma low_high f g : f ++ "_cell_ylow" = g ++ "_cell_yhigh" -> False.
Proof.
  intros E. change "_cell_ylow" with ("_cell" ++ "_" ++ "ylow") in E.
  change "_cell_yhigh" with ("_cell" ++ "_" ++ "yhigh") in E.
  rewrite <- !(append_assoc_s _ "_cell") in E.
  apply split_last in E; [|reflexivity|reflexivity]. destruct E; discriminate.
Qed.

Lemma slice_names_ok f o : used_offset o -> exists n, parallel_slice_field_name repr f o = Ok n.
Proof.
  destruct o as [z|q]; cbn; intros H.
  - rewrite name_int_ok by assumption. eauto.
  - destruct H as [-> | ->]; eexists; reflexivity.
Qed.

Lemma slice_names_unique fields f g o1 o2 n :
  clash_free fields -> In f fields -> In g fields ->
  used_offset o1 -> used_offset o2 ->
  parallel_slice_field_name repr f o1 = Ok n ->
  parallel_slice_field_name repr g o2 = Ok n -> f = g /\ o1 = o2.
Proof.
  intros HC Hf Hg H1 H2 E1 E2.
  destruct o1 as [z|q], o2 as [w|r]; cbn in H1, H2.
  - rewrite name_int_ok in E1, E2 by assumption. injection E1 as <-. injection E2 as E2.
    destruct (name_int_inj fields f g z w) as [-> ->]; auto.
  - rewrite name_int_ok in E1 by assumption. injection E1 as <-. exfalso.
    destruct H2 as [-> | ->]; [rewrite name_half in E2|rewrite name_mhalf in E2];
      injection E2 as E2; (eapply half_int_disjoint; [exact HC|exact Hg|exact E2]).
  - rewrite name_int_ok in E2 by assumption. injection E2 as <-. exfalso.
    destruct H1 as [-> | ->]; [rewrite name_half in E1|rewrite name_mhalf in E1];
      injection E1 as E1; (eapply half_int_disjoint; [exact HC|exact Hf|exact E1]).
  - destruct H1 as [-> | ->], H2 as [-> | ->];
      rewrite ?name_half, ?name_mhalf in E1, E2; injection E1 as <-; injection E2 as E2.
    + now apply append_inj_r in E2.
    + exfalso. eapply low_high. exact E2.
    + exfalso. eapply low_high. symmetry. exact E2.
    + now apply append_inj_r in E2.
Qed.
End Names.
