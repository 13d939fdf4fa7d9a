(** Proofs about FieldModel.v. *)
From Coq Require Import String List ZArith QArith Qabs Qminmax Bool Lia Lqa Qfield.
From Verif Require Import Prelude PreludeFacts SmoothModel DiffModel FieldModel FieldSpec.
Import ListNotations.
Open Scope Q_scope.

Lemma amin_ok l : l <> [] -> exists m, amin l = Ok m /\ In m l /\ forall a, In a l -> m <= a.
Proof.
  induction l as [|a l IH]; [congruence|intros _].
  destruct l as [|b l].
  - exists a. split; [reflexivity|]. split; [now left|]. intros c [<-|[]]. apply Qle_refl.
  - destruct IH as [m [E [I M]]]; [congruence|].
    change (amin (a :: b :: l)) with (let* m := amin (b :: l) in Ok (Qmin a m)). rewrite E. cbn [bind].
    exists (Qmin a m). split; [reflexivity|].
    unfold Qmin, GenericMinMax.gmin. destruct (a ?= m) eqn:C.
    + split; [now left|]. apply Qeq_alt in C. intros c [<-|Hc]; [lra|]. specialize (M c Hc). lra.
    + split; [now left|]. apply Qlt_alt in C. intros c [<-|Hc]; [lra|]. specialize (M c Hc). lra.
    + split; [now right|]. apply Qgt_alt in C. intros c [<-|Hc]; [lra|]. exact (M c Hc).
Qed.

Lemma combine_map_map {A B C} (f : A -> B) (g : A -> C) l : combine (map f l) (map g l) = map (fun a => (f a, g a)) l.
Proof. induction l; cbn; congruence. Qed.

Lemma direction_eq f x z y : length x = length z ->
  direction f x z y =
  let pts := combine x z in
  let* m := amin (map (fun p => Qabs (snd (fst (B_at f (fst p) (snd p) y)))) pts) in
  if Qlt_bool m (1 # 100000000) then Err ValueError
  else Ok (map (fun p => R_at f (fst p) (snd p) y / snd (fst (B_at f (fst p) (snd p) y)) * fst (fst (B_at f (fst p) (snd p) y))) pts,
           map (fun p => R_at f (fst p) (snd p) y / snd (fst (B_at f (fst p) (snd p) y)) * snd (B_at f (fst p) (snd p) y)) pts).
Proof.
  intros L. unfold direction. rewrite L, Nat.eqb_refl. cbn [negb]. cbv zeta.
  assert (EB : match Bxyzfunc f with
               | Some b => map (fun p => b (fst p) (snd p) y) (combine x z)
               | None => map (fun p => (Bxfunc f (fst p) (snd p) y, Byfunc f (fst p) (snd p) y, Bzfunc f (fst p) (snd p) y)) (combine x z)
               end = map (fun p => B_at f (fst p) (snd p) y) (combine x z)).
  { unfold B_at. destruct (Bxyzfunc f); reflexivity. }
  rewrite EB.
  assert (ER : match Rfunc f with
               | Some r => map (fun p => r (fst p) (snd p) y) (combine x z)
               | None => map (fun _ => 1) (combine x z)
               end = map (fun p => R_at f (fst p) (snd p) y) (combine x z)).
  { unfold R_at. destruct (Rfunc f); reflexivity. }
  rewrite ER. clear EB ER. rewrite !map_map.
  rewrite !combine_map_map, !map_map, !combine_map_map, !map_map. reflexivity.
Qed.

Lemma in_combine_nth (x z : list Q) p : length x = length z -> In p (combine x z) ->
  exists k, (k < length x)%nat /\ p = (nth k x 0, nth k z 0).
Proof.
  intros L H. destruct (In_nth _ _ (0, 0) H) as [k [Hk E]].
  rewrite combine_length, <- L, Nat.min_id in Hk. exists k. split; [exact Hk|].
  rewrite <- E. now rewrite combine_nth.
Qed.
Lemma nth_combine_in (x z : list Q) k : length x = length z -> (k < length x)%nat -> In (nth k x 0, nth k z 0) (combine x z).
Proof.
  intros L H. rewrite <- combine_nth by exact L. apply nth_In. rewrite combine_length, <- L, Nat.min_id. exact H.
Qed.

Lemma direction_small f x z y : length x = length z -> x = [] \/ small_By f x z y -> direction f x z y = Err ValueError.
Proof.
  intros L [->|[k [Hk S]]]; rewrite direction_eq by exact L; cbv zeta.
  - destruct z; reflexivity.
  - destruct (amin_ok (map (fun p => Qabs (snd (fst (B_at f (fst p) (snd p) y)))) (combine x z))) as [m [E [_ M]]].
    { intros H. apply map_eq_nil in H. assert (I := nth_combine_in x z k L Hk). rewrite H in I. exact I. }
    rewrite E. cbn [bind].
    assert (Hm : m < 1 # 100000000).
    { eapply Qle_lt_trans; [|exact S]. apply M. apply in_map_iff. exists (nth k x 0, nth k z 0).
      split; [reflexivity|]. now apply nth_combine_in. }
    now apply Qlt_bool_iff in Hm as ->.
Qed.

Lemma direction_ok f x z y : length x = length z -> x <> [] -> ~ small_By f x z y ->
  exists dx dz, direction f x z y = Ok (dx, dz) /\ length dx = length x /\ length dz = length x /\
  forall k, (k < length x)%nat ->
    along_B f (nth k x 0) (nth k z 0) y (nth k dx 0) (nth k dz 0) /\
    let '(bx, by_, bz) := B_at f (nth k x 0) (nth k z 0) y in
    nth k dx 0 == R_at f (nth k x 0) (nth k z 0) y * bx / by_ /\ nth k dz 0 == R_at f (nth k x 0) (nth k z 0) y * bz / by_.
Proof.
  intros L N S. rewrite direction_eq by exact L. cbv zeta.
  assert (LC : length (combine x z) = length x) by (rewrite combine_length, <- L; apply Nat.min_id).
  destruct (amin_ok (map (fun p => Qabs (snd (fst (B_at f (fst p) (snd p) y)))) (combine x z))) as [m [E [I M]]].
  { intros H. apply map_eq_nil in H. rewrite H in LC. destruct x; [congruence|discriminate]. }
  rewrite E. cbn [bind].
  assert (Hm : Qlt_bool m (1 # 100000000) = false).
  { apply not_true_is_false. intros H. apply Qlt_bool_iff in H. apply S.
    apply in_map_iff in I as [p [Ep Ip]]. destruct (in_combine_nth x z p L Ip) as [k [Hk ->]].
    exists k. split; [exact Hk|]. cbn [fst snd] in Ep. rewrite Ep. exact H. }
  rewrite Hm. eexists _, _. split; [reflexivity|]. rewrite !map_length. split; [exact LC|]. split; [exact LC|].
  intros k Hk.
  assert (NB : ~ snd (fst (B_at f (nth k x 0) (nth k z 0) y)) == 0).
  { intros H0. apply S. exists k. split; [exact Hk|]. rewrite H0. reflexivity. }
  set (g1 := fun p : Q * Q => R_at f (fst p) (snd p) y / snd (fst (B_at f (fst p) (snd p) y)) * fst (fst (B_at f (fst p) (snd p) y))).
  set (g2 := fun p : Q * Q => R_at f (fst p) (snd p) y / snd (fst (B_at f (fst p) (snd p) y)) * snd (B_at f (fst p) (snd p) y)).
  assert (E1 : nth k (map g1 (combine x z)) 0 = g1 (nth k x 0, nth k z 0)).
  { rewrite nth_indep with (d' := g1 (0, 0)) by (rewrite map_length; lia). now rewrite map_nth, combine_nth. }
  assert (E2 : nth k (map g2 (combine x z)) 0 = g2 (nth k x 0, nth k z 0)).
  { rewrite nth_indep with (d' := g2 (0, 0)) by (rewrite map_length; lia). now rewrite map_nth, combine_nth. }
  rewrite E1, E2. unfold g1, g2, along_B. cbn [fst snd].
  destruct (B_at f (nth k x 0) (nth k z 0) y) as [[bx by_] bz]. cbn [fst snd] in *.
  split; [split; [|split]|split]; field; exact NB.
Qed.

Lemma two_by_two_split n : forall l, length l = (2 * n)%nat ->
  map fst (two_by_two l) = map (fun k => nth (2 * k) l 0) (seq 0 n) /\ map snd (two_by_two l) = map (fun k => nth (2 * k + 1) l 0) (seq 0 n).
Proof.
  induction n as [|n IH]; intros l H.
  - destruct l; [split; reflexivity|discriminate].
  - destruct l as [|a [|b l]]; [discriminate|cbn in H; lia|].
    destruct (IH l) as [E1 E2]; [cbn in H; lia|].
    cbn [two_by_two map fst snd seq]. rewrite E1, E2, <- seq_shift, !map_map. split; (apply f_equal2; [try reflexivity|]).
    + apply map_ext. intros k. replace (2 * S k)%nat with (S (S (2 * k))) by lia. reflexivity.
    + apply map_ext. intros k. replace (2 * S k + 1)%nat with (S (S (2 * k + 1))) by lia. reflexivity.
Qed.

Lemma interleave_split : forall a b, length a = length b ->
  length (interleave a b) = (2 * length a)%nat /\
  (forall k, (k < length a)%nat -> nth (2 * k) (interleave a b) 0 = nth k a 0 /\ nth (2 * k + 1) (interleave a b) 0 = nth k b 0).
Proof.
  induction a as [|x a IH]; intros [|y b] L; try discriminate.
  - split; [reflexivity|]. cbn. lia.
  - destruct (IH b) as [E N]; [now injection L|].
    change (interleave (x :: a) (y :: b)) with (x :: y :: interleave a b).
    split; [cbn [length]; lia|].
    intros [|k] Hk; [split; reflexivity|]. cbn [length] in Hk.
    replace (2 * S k)%nat with (S (S (2 * k))) by lia. replace (S (S (2 * k)) + 1)%nat with (S (S (2 * k + 1))) by lia.
    cbn [nth]. apply N. lia.
Qed.

(** the flattened form is the other one, point after point *)
Lemma flat_pair f x z y : length x = length z ->
  field_direction_flat f (interleave x z) y =
  match field_direction_pair f [x; z] y with
  | Ok [dx; dz] => Ok (interleave dx dz)
  | Ok _ => Err OtherError
  | Err e => Err e
  end.
Proof.
  intros L. unfold field_direction_flat, field_direction_pair. cbn [length Nat.even negb].
  destruct (interleave_split x z L) as [E N]. rewrite E.
  assert (Ev : Nat.even (2 * length x) = true) by (apply Nat.even_spec; exists (length x); reflexivity).
  rewrite Ev. cbn [negb]. cbv zeta.
  assert (T : two_by_two (interleave x z) = combine x z).
  { clear. revert z. induction x as [|a x IH]; intros [|b z]; try reflexivity.
    change (interleave (a :: x) (b :: z)) with (a :: b :: interleave x z). cbn [two_by_two combine]. now rewrite IH. }
  rewrite T.
  assert (F1 : map fst (combine x z) = x).
  { clear - L. revert z L. induction x as [|a x IH]; intros [|b z] L; try reflexivity; try discriminate. cbn. f_equal. apply IH. now injection L. }
  assert (F2 : map snd (combine x z) = z).
  { clear - L. revert z L. induction x as [|a x IH]; intros [|b z] L; try reflexivity; try discriminate. cbn. f_equal. apply IH. now injection L. }
  rewrite F1, F2. destruct (direction f x z y) as [[dx dz]|e]; reflexivity.
Qed.

(** * The attributes *)
Lemma nth_error_app_keep {A} (l : list A) a i : (i < length l)%nat -> nth_error (l ++ [a]) i = nth_error l i.
Proof. intros H. now rewrite nth_error_app1. Qed.

Lemma create_other w k i : (i < length (objects w))%nat -> (forall psi, k <> Geqdsk psi) -> attributes (create w k) i = attributes w i.
Proof.
  intros H N. unfold attributes. destruct k as [| |psi]; cbn [create objects class_dict].
  - now rewrite nth_error_app_keep.
  - now rewrite nth_error_app_keep.
  - exfalso. now apply (N psi).
Qed.
Lemma create_own w k i d : nth_error (objects w) i = Some (Some d) -> attributes (create w k) i = attributes w i.
Proof.
  intros H. assert (L : (i < length (objects w))%nat) by (apply nth_error_Some; congruence).
  unfold attributes. destruct k as [| |psi]; cbn [create objects class_dict]; rewrite nth_error_app_keep by exact L; rewrite H; reflexivity.
Qed.
Lemma create_geqdsk w psi i : nth_error (objects w) i = Some None ->
  attributes w i = Some (class_dict w) /\ attributes (create w (Geqdsk psi)) i = Some (dict_set (class_dict w) "psi" (fun x z _ => psi x z)).
Proof.
  intros H. assert (L : (i < length (objects w))%nat) by (apply nth_error_Some; congruence).
  unfold attributes. cbn [create objects class_dict]. rewrite nth_error_app_keep by exact L. rewrite H. split; reflexivity.
Qed.
Lemma dict_get_set d k v : dict_get (dict_set d k v) k = Some v.
Proof.
  induction d as [|[k' v'] d IH]; cbn [dict_set dict_get].
  - now rewrite String.eqb_refl.
  - destruct (String.eqb k' k) eqn:E; cbn [dict_get]; rewrite E; [reflexivity|exact IH].
Qed.
Lemma created_app ks k : created (ks ++ [k]) = create (created ks) k.
Proof. unfold created. now rewrite fold_left_app. Qed.
Lemma created_no_geqdsk ks : (forall psi, ~ In (Geqdsk psi) ks) -> class_dict (created ks) = [] /\
  forall i, (i < length ks)%nat -> attributes (created ks) i = Some [].
Proof.
  induction ks as [|k ks IH] using rev_ind; intros N.
  - split; [reflexivity|]. cbn. lia.
  - destruct IH as [C A]. { intros psi H. apply (N psi), in_or_app. now left. }
    assert (LO : length (objects (created ks)) = length ks).
    { clear. induction ks as [|k ks IH] using rev_ind; [reflexivity|]. rewrite created_app, app_length.
      destruct k; cbn [create objects]; rewrite app_length, IH; reflexivity. }
    rewrite created_app. assert (Nk : forall psi, k <> Geqdsk psi).
    { intros psi ->. apply (N psi), in_or_app. right. now left. }
    split. { destruct k as [| |psi]; cbn [create class_dict]; [exact C|exact C|now destruct (Nk psi)]. }
    intros i H. rewrite app_length in H. cbn [length] in H.
    destruct (Nat.eq_dec i (length ks)) as [->|Hi].
    + unfold attributes. destruct k as [| |psi]; cbn [create objects class_dict]; [| |now destruct (Nk psi)];
        rewrite nth_error_app2 by lia; rewrite LO, Nat.sub_diag; cbn [nth_error]; [now rewrite C|reflexivity].
    + rewrite create_other by (auto; lia). apply A. lia.
Qed.

(** * The damping factor *)
Lemma ramp_left b x : xl_outer b < xl_inner b -> (x - xl_inner b) / (xl_inner b - xl_outer b) + 1 == ramp (xl_inner b) (xl_outer b) x.
Proof. intros H. unfold ramp. field. split; lra. Qed.
Lemma ramp_gen inner outer x : ~ inner == outer -> (x - inner) / (inner - outer) + 1 == ramp inner outer x.
Proof.
  intros H. unfold ramp. field. split; intros E; apply H; lra.
Qed.

Lemma ramp_at inner outer x : ~ inner == outer -> x == inner -> ramp inner outer x == 1.
Proof. intros H E. rewrite <- (ramp_gen inner outer x H), E. field. intros F. apply H. lra. Qed.

Lemma Qdiv_le a b c : 0 < c -> (a / c <= b <-> a <= b * c).
Proof.
  intros H. split; intros L.
  - apply (Qmult_le_compat_r _ _ c) in L; [|lra]. field_simplify in L; [|lra]. field_simplify in L; lra.
  - apply Qle_shift_div_r; assumption.
Qed.
Lemma Qdiv_ge a b c : 0 < c -> (b <= a / c <-> b * c <= a).
Proof.
  intros H. split; intros L.
  - apply (Qmult_le_compat_r _ _ c) in L; [|lra]. field_simplify in L; [|lra]. field_simplify in L; lra.
  - apply Qle_shift_div_l; assumption.
Qed.

(** a ramp falling to the left *)
Lemma ramp_low inner outer x : outer < inner -> (ramp inner outer x <= 0 <-> x <= outer) /\ (1 <= ramp inner outer x <-> inner <= x) /\ (0 <= ramp inner outer x <-> outer <= x).
Proof.
  intros H. assert (E : ramp inner outer x == (x - outer) / (inner - outer)) by (unfold ramp; field; lra).
  rewrite E. rewrite Qdiv_le, !Qdiv_ge by lra. repeat split; intros; lra.
Qed.
Lemma ramp_high inner outer x : inner < outer -> (ramp inner outer x <= 0 <-> outer <= x) /\ (1 <= ramp inner outer x <-> x <= inner) /\ (0 <= ramp inner outer x <-> x <= outer).
Proof.
  intros H. unfold ramp. rewrite Qdiv_le, !Qdiv_ge by lra. repeat split; intros; lra.
Qed.

(** the factor is the smallest of 1 and the four ramps, cut off at 0 *)
Definition blend (b : box) (x z : Q) : Q :=
  Qmax 0 (Qmin 1 (Qmin (Qmin (ramp (xl_inner b) (xl_outer b) x) (ramp (xr_inner b) (xr_outer b) x))
                       (Qmin (ramp (zb_inner b) (zb_outer b) z) (ramp (zt_inner b) (zt_outer b) z)))).

Lemma Qmin_case_r a b : a <= b -> Qmin a b == a.
Proof. intros H. apply Q.min_l. exact H. Qed.

Lemma smooth_blend b x z : nested b -> smooth_field_line b x z == blend b x z.
Proof.
  intros [H1 [H2 [H3 [H4 [H5 H6]]]]]. unfold smooth_field_line, blend. cbv zeta.
  assert (EL := ramp_gen (xl_inner b) (xl_outer b) x ltac:(lra)).
  assert (ER := ramp_gen (xr_inner b) (xr_outer b) x ltac:(lra)).
  assert (EB := ramp_gen (zb_inner b) (zb_outer b) z ltac:(lra)).
  assert (ET := ramp_gen (zt_inner b) (zt_outer b) z ltac:(lra)).
  destruct (ramp_low (xl_inner b) (xl_outer b) x H1) as [_ [L1 _]].
  destruct (ramp_high (xr_inner b) (xr_outer b) x H3) as [_ [R1 _]].
  destruct (ramp_low (zb_inner b) (zb_outer b) z H4) as [_ [B1 _]].
  destruct (ramp_high (zt_inner b) (zt_outer b) z H6) as [_ [T1 _]].
  assert (XR := fun F => ramp_at (xr_inner b) (xr_outer b) x ltac:(lra) F).
  assert (XT := fun F => ramp_at (zt_inner b) (zt_outer b) z ltac:(lra) F).
  remember (ramp (xl_inner b) (xl_outer b) x) as rl. remember (ramp (xr_inner b) (xr_outer b) x) as rr.
  remember (ramp (zb_inner b) (zb_outer b) z) as rb. remember (ramp (zt_inner b) (zt_outer b) z) as rt.
  remember ((x - xl_inner b) / (xl_inner b - xl_outer b) + 1) as vl.
  remember ((x - xr_inner b) / (xr_inner b - xr_outer b) + 1) as vr.
  remember ((z - zb_inner b) / (zb_inner b - zb_outer b) + 1) as vb.
  remember ((z - zt_inner b) / (zt_inner b - zt_outer b) + 1) as vt.
  clear Heqrl Heqrr Heqrb Heqrt Heqvl Heqvr Heqvb Heqvt.
  match goal with |- (if Qlt_bool ?P 0 then 0 else ?P) == _ => assert (E : P == Qmin 1 (Qmin (Qmin rl rr) (Qmin rb rt))) end.
  { assert (D1 : (x < xl_inner b /\ rl < 1) \/ (xl_inner b <= x /\ 1 <= rl)).
    { destruct (Qlt_le_dec x (xl_inner b)) as [C|C]; [left|right; split; [exact C|now apply L1]].
      split; [exact C|]. apply Qnot_le_lt. intros F. apply L1 in F. lra. }
    assert (D2 : (xr_inner b < x /\ rr < 1) \/ (x <= xr_inner b /\ 1 <= rr)).
    { destruct (Qlt_le_dec (xr_inner b) x) as [C|C]; [left|right; split; [exact C|now apply R1]].
      split; [exact C|]. apply Qnot_le_lt. intros F. apply R1 in F. lra. }
    assert (D3 : (z < zb_inner b /\ rb < 1) \/ (zb_inner b <= z /\ 1 <= rb)).
    { destruct (Qlt_le_dec z (zb_inner b)) as [C|C]; [left|right; split; [exact C|now apply B1]].
      split; [exact C|]. apply Qnot_le_lt. intros F. apply B1 in F. lra. }
    assert (D4 : (zt_inner b < z /\ rt < 1) \/ (z <= zt_inner b /\ 1 <= rt)).
    { destruct (Qlt_le_dec (zt_inner b) z) as [C|C]; [left|right; split; [exact C|now apply T1]].
      split; [exact C|]. apply Qnot_le_lt. intros F. apply T1 in F. lra. }
    assert (MIN : forall v, v <= 1 -> v <= rl -> v <= rr -> v <= rb -> v <= rt ->
              v == 1 \/ v == rl \/ v == rr \/ v == rb \/ v == rt -> v == Qmin 1 (Qmin (Qmin rl rr) (Qmin rb rt))).
    { intros v V1 V2 V3 V4 V5 V. 
      destruct (Q.min_spec rl rr) as [[? ->]|[? ->]]; destruct (Q.min_spec rb rt) as [[? ->]|[? ->]];
      match goal with |- context [Qmin 1 (Qmin ?a ?b)] => destruct (Q.min_spec a b) as [[? ->]|[? ->]] end;
      match goal with |- context [Qmin 1 ?a] => destruct (Q.min_spec 1 a) as [[? ->]|[? ->]] end;
      destruct V as [V|[V|[V|[V|V]]]]; lra. }
    assert (XR' : x <= xr_inner b -> xr_inner b <= x -> rr == 1) by (intros; apply XR; lra).
    assert (XT' : z <= zt_inner b -> zt_inner b <= z -> rt == 1) by (intros; apply XT; lra).
    clear L1 R1 B1 T1 XR XT. apply MIN; clear MIN;
    repeat match goal with
    | |- context [Qlt_bool ?u ?v] => let C := fresh "C" in destruct (Qlt_bool u v) eqn:C; [apply Qlt_bool_iff in C|apply Qlt_bool_false_iff in C]
    | |- context [Qle_bool ?u ?v] => let C := fresh "C" in destruct (Qle_bool u v) eqn:C; [apply Qle_bool_iff in C|apply Qle_bool_false_iff in C]
    end;
    try (destruct (Q.min_spec vl vb) as [[? ->]|[? ->]]); try (destruct (Q.min_spec vl vt) as [[? ->]|[? ->]]);
    try (destruct (Q.min_spec vr vb) as [[? ->]|[? ->]]); try (destruct (Q.min_spec vr vt) as [[? ->]|[? ->]]);
    destruct D1 as [D1|D1]; destruct D2 as [D2|D2]; destruct D3 as [D3|D3]; destruct D4 as [D4|D4];
    repeat match goal with
    | H : ?u <= ?v -> _, G : ?u <= ?v |- _ => specialize (H G)
    | H : ?u <= ?v -> _, G : _ /\ _ |- _ => specialize (H (proj1 G))
    end; try lra.
    all: first [left; lra|right; left; lra|right; right; left; lra|right; right; right; left; lra|right; right; right; right; lra|idtac]. }
  match goal with |- (if Qlt_bool ?P 0 then 0 else ?P) == _ => remember P as Pv; clear HeqPv end.
  rewrite <- E. destruct (Qlt_bool Pv 0) eqn:C; [apply Qlt_bool_iff in C|apply Qlt_bool_false_iff in C].
  - symmetry. apply Q.max_l. lra.
  - symmetry. apply Q.max_r. exact C.
Qed.
