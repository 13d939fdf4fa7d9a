(** Proofs about magnetic_axis. *)
From Coq Require Import List Reals Lra Lia.
From Verif Require Import Prelude FieldModel AxisModel AxisSpec.
Import ListNotations.
Open Scope R_scope.

Lemma window_iff phi v : in_window phi v = true <-> counts phi v.
Proof.
  destruct v as [[x y] z]. unfold in_window, counts. cbn [fst snd]. destruct (angle x y) as [a|].
  - destruct (Rle_dec _ a) as [H|H]; [destruct (Rle_dec a _) as [K|K]|].
    + split; [|reflexivity]. intros _. exists a. auto.
    + split; [discriminate|]. intros (b & [= <-] & _ & B). contradiction.
    + split; [discriminate|]. intros (b & [= <-] & B & _). contradiction.
  - split; [discriminate|]. intros (b & E & _). discriminate.
Qed.
Lemma window_false phi v : in_window phi v = false <-> ~ counts phi v.
Proof. rewrite <- window_iff. destruct (in_window phi v); split; congruence. Qed.

Lemma filter_first {A} (f : A -> bool) l a l' : filter f l = a :: l' -> exists pre post, l = pre ++ a :: post /\ f a = true /\ forall b, In b pre -> f b = false.
Proof.
  induction l as [|b l IH]; [discriminate|]. cbn [filter]. destruct (f b) eqn:E.
  - intros [= <- _]. exists [], l. repeat split; [exact E|intros c []].
  - intros H. destruct (IH H) as (pre & post & -> & Ha & Hp). exists (b :: pre), post. repeat split; [exact Ha|]. intros c [<-|Hc]; auto.
Qed.
Lemma filter_none {A} (f : A -> bool) l : filter f l = [] <-> forall a, In a l -> f a = false.
Proof.
  induction l as [|b l IH]; [split; [intros _ a []|reflexivity]|]. cbn [filter]. destruct (f b) eqn:E.
  - split; [discriminate|]. intros H. specialize (H b (or_introl eq_refl)). congruence.
  - rewrite IH. split; intros H a; [intros [<-|Ha]; auto|]. intros Ha. apply H. now right.
Qed.

Section Axis.
Variable find_axis : configuration -> res (list (R * R * R)).
Local Notation magnetic_axis := (magnetic_axis find_axis).

Lemma found phi c k l r z : set_config c = Ok k -> find_axis c = Ok l ->
  (magnetic_axis phi c = Ok (r, z) <-> exists pre x y post, l = pre ++ (x, y, z) :: post /\ counts phi (x, y, z) /\ (forall v, In v pre -> ~ counts phi v) /\ r = sqrt (x * x + y * y)).
Proof.
  intros Ek El. unfold AxisModel.magnetic_axis. rewrite Ek, El. cbn [bind]. split.
  - destruct (filter (in_window phi) l) as [|[[x y] z'] l'] eqn:E; [discriminate|]. intros [= <- <-].
    destruct (filter_first _ _ _ _ E) as (pre & post & -> & Ha & Hp). exists pre, x, y, post.
    split; [reflexivity|]. split; [now apply window_iff|]. split; [|reflexivity]. intros v Hv. apply window_false. auto.
  - intros (pre & x & y & post & -> & Hc & Hp & ->). rewrite filter_app.
    rewrite (proj2 (filter_none (in_window phi) pre)) by (intros v Hv; apply window_false; auto).
    cbn [app filter]. now rewrite (proj2 (window_iff phi (x, y, z)) Hc).
Qed.
Lemma not_found phi c k l : set_config c = Ok k -> find_axis c = Ok l -> (magnetic_axis phi c = Err IndexError <-> forall v, In v l -> ~ counts phi v).
Proof.
  intros Ek El. unfold AxisModel.magnetic_axis. rewrite Ek, El. cbn [bind]. split.
  - destruct (filter (in_window phi) l) as [|[[x y] z] l'] eqn:E; [|discriminate]. intros _ v Hv. apply window_false. exact (proj1 (filter_none _ _) E v Hv).
  - intros H. rewrite (proj2 (filter_none (in_window phi) l)); [reflexivity|]. intros v Hv. apply window_false. auto.
Qed.
End Axis.

Lemma angle_bound x y a : angle x y = Some a -> - (PI / 2) <= a <= PI / 2.
Proof.
  pose proof PI_RGT_0 as P. unfold angle. destruct (Req_EM_T x 0).
  - destruct (Rlt_dec 0 y); [intros [= <-]; lra|]. destruct (Rlt_dec y 0); [intros [= <-]; lra|discriminate].
  - intros [= <-]. pose proof (atan_bound (y / x)). lra.
Qed.
Lemma negative phi v : phi < 0 -> ~ counts phi v.
Proof. intros H (a & _ & A & B). lra. Qed.
Lemma far phi v : PI / 2 < 97 / 100 * phi -> ~ counts phi v.
Proof. intros H (a & E & A & B). apply angle_bound in E. lra. Qed.
Lemma zero v : counts 0 v <-> snd (fst v) = 0 /\ fst (fst v) <> 0.
Proof.
  destruct v as [[x y] z]. unfold counts. cbn [fst snd]. split.
  - intros (a & E & A & B). assert (a = 0) by lra. subst a. pose proof PI_RGT_0 as P. unfold angle in E. destruct (Req_EM_T x 0).
    + destruct (Rlt_dec 0 y); [injection E; lra|]. destruct (Rlt_dec y 0); [injection E; lra|discriminate].
    + injection E as E. split; [|exact n]. assert (y / x = 0) by (rewrite <- (tan_atan (y / x)), E; apply tan_0).
      apply (Rmult_eq_compat_r x) in H. unfold Rdiv in H. rewrite Rmult_assoc, Rinv_l in H by exact n. lra.
  - intros [-> n]. exists 0. unfold angle. destruct (Req_EM_T x 0); [contradiction|]. unfold Rdiv. rewrite Rmult_0_l, atan_0. split; [reflexivity|]. lra.
Qed.

(** A vertex with x > 0 is where its angle says, one with x < 0 on the other side. *)
Lemma polar x y a : 0 < x -> angle x y = Some a -> x = sqrt (x * x + y * y) * cos a /\ y = sqrt (x * x + y * y) * sin a.
Proof.
  intros Hx. unfold angle. destruct (Req_EM_T x 0); [lra|]. intros [= <-].
  pose proof (atan_bound (y / x)) as B. set (t := atan (y / x)) in *. assert (C : 0 < cos t) by (apply cos_gt_0; lra).
  assert (T : sin t = y / x * cos t).
  { pose proof (tan_atan (y / x)) as T. fold t in T. unfold tan in T. rewrite <- T. field. lra. }
  pose proof (sin2_cos2 t) as U. unfold Rsqr in U.
  assert (E : sqrt (x * x + y * y) = x / cos t).
  { apply sqrt_lem_1; [nra|apply Rlt_le, Rdiv_lt_0_compat; lra|].
    assert (K : x * x + y * y = x * x * (1 + y / x * (y / x))) by (field; lra). rewrite K.
    assert (K2 : 1 + y / x * (y / x) = / (cos t * cos t)).
    { rewrite T in U. apply (Rmult_eq_reg_r (cos t * cos t)); [|nra]. rewrite Rinv_l by nra. lra. }
    rewrite K2. field. lra. }
  rewrite E. split; [field; lra|]. rewrite T. field. lra.
Qed.
Lemma opposite x y : x <> 0 -> angle (- x) (- y) = angle x y.
Proof.
  intros H. unfold angle. destruct (Req_EM_T (- x) 0); [lra|]. destruct (Req_EM_T x 0); [lra|]. do 2 f_equal. field. lra.
Qed.
Lemma opposite_counts phi x y z : x <> 0 -> counts phi (- x, - y, z) <-> counts phi (x, y, z).
Proof. intros H. unfold counts. cbn [fst snd]. now rewrite opposite. Qed.
