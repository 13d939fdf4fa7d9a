(** Orientation, positions and distances of lines. *)
From Coq Require Import List ZArith QArith Qround Qfield Lia Lqa Bool.
From Verif Require Import Prelude PreludeFacts PolModel PolSpec PolProofs RzModel RzSpec.
Import ListNotations.
Open Scope Q_scope.

(** ** closed sums *)
Lemma last_cons {A} (u : A) t p : last (u :: t) p = last t u.
Proof.
  revert u p. induction t as [|c t IH]; intros u p; [reflexivity|].
  change (last (u :: c :: t) p) with (last (c :: t) p). now rewrite !IH.
Qed.
Lemma removelast_cons {A} (a b : A) l : removelast (a :: b :: l) = a :: removelast (b :: l).
Proof. reflexivity. Qed.

Lemma roll1_cons {A} (p : A) t : roll 1 (p :: t) = last t p :: removelast (p :: t).
Proof.
  unfold roll. cbn [length]. replace (S (length t) - 1)%nat with (length t) by lia.
  rewrite (removelast_firstn_len (p :: t)). cbn [length pred].
  assert (E : skipn (length t) (p :: t) = [last t p]).
  { revert p. induction t as [|q t IH]; intros p; [reflexivity|]. cbn [length skipn]. rewrite IH.
    now rewrite last_cons. }
  rewrite E. reflexivity.
Qed.

Lemma roll_length {A} k (l : list A) : length (roll k l) = length l.
Proof. unfold roll. rewrite app_length, skipn_length, firstn_length. lia. Qed.

Lemma path_back {A} (F : A * A -> Q) p t :
  qsum (map F (combine t (removelast (p :: t)))) = path_sum (fun a b => F (b, a)) p t.
Proof.
  revert p. induction t as [|q t IH]; intros p; [reflexivity|]. rewrite removelast_cons. cbn [combine map qsum path_sum]. now rewrite IH.
Qed.
Lemma cyc_back {A} (F : A * A -> Q) l : qsum (map F (combine l (roll 1 l))) == closed_sum (fun a b => F (b, a)) l.
Proof.
  destruct l as [|p t]; [reflexivity|]. rewrite roll1_cons. cbn [combine map qsum closed_sum]. rewrite path_back. ring.
Qed.
Lemma path_fwd {A} (F : A * A -> Q) p t q :
  qsum (map F (combine (p :: t) (t ++ [q]))) == path_sum (fun a b => F (a, b)) p t + F (last t p, q).
Proof.
  revert p. induction t as [|u t IH]; intros p.
  - cbn. ring.
  - cbn [app combine map qsum path_sum]. cbn [combine map qsum] in IH. rewrite IH.
    rewrite last_cons. ring.
Qed.
Lemma cyc_fwd {A} (F : A * A -> Q) l : qsum (map F (combine l (skipn 1 l ++ firstn 1 l))) == closed_sum (fun a b => F (a, b)) l.
Proof. destruct l as [|p t]; [reflexivity|]. cbn [skipn firstn closed_sum]. apply path_fwd. Qed.

Lemma path_ext {A} (f g : A -> A -> Q) p l : (forall a b, f a b == g a b) -> path_sum f p l == path_sum g p l.
Proof. intros H. revert p. induction l as [|q l IH]; intros p; cbn [path_sum]; [reflexivity|]. now rewrite H, IH. Qed.
Lemma closed_ext {A} (f g : A -> A -> Q) l : (forall a b, f a b == g a b) -> closed_sum f l == closed_sum g l.
Proof. intros H. destruct l as [|p l]; cbn [closed_sum]; [reflexivity|]. rewrite H. now rewrite (path_ext f g p l H). Qed.
Lemma path_plus {A} (f g : A -> A -> Q) p l : path_sum (fun a b => f a b + g a b) p l == path_sum f p l + path_sum g p l.
Proof. revert p. induction l as [|q l IH]; intros p; cbn [path_sum]; [ring|]. rewrite IH. ring. Qed.
Lemma closed_plus {A} (f g : A -> A -> Q) l : closed_sum (fun a b => f a b + g a b) l == closed_sum f l + closed_sum g l.
Proof. destruct l as [|p l]; cbn [closed_sum]; [ring|]. rewrite path_plus. ring. Qed.
Lemma path_scale {A} c (f : A -> A -> Q) p l : path_sum (fun a b => c * f a b) p l == c * path_sum f p l.
Proof. revert p. induction l as [|q l IH]; intros p; cbn [path_sum]; [ring|]. rewrite IH. ring. Qed.
Lemma closed_scale {A} c (f : A -> A -> Q) l : closed_sum (fun a b => c * f a b) l == c * closed_sum f l.
Proof. destruct l as [|p l]; cbn [closed_sum]; [ring|]. rewrite path_scale. ring. Qed.
Lemma path_tele {A} (h : A -> Q) p l : path_sum (fun a b => h b - h a) p l == h (last l p) - h p.
Proof. revert p. induction l as [|q l IH]; intros p; [cbn; ring|]. cbn [path_sum]. rewrite IH, last_cons. ring. Qed.
Lemma closed_tele {A} (h : A -> Q) l : closed_sum (fun a b => h b - h a) l == 0.
Proof. destruct l as [|p l]; cbn [closed_sum]; [reflexivity|]. rewrite path_tele. ring. Qed.
Lemma path_app {A} (f : A -> A -> Q) p l1 q l2 : path_sum f p (l1 ++ q :: l2) == path_sum f p l1 + f (last l1 p) q + path_sum f q l2.
Proof.
  revert p. induction l1 as [|u l1 IH]; intros p; cbn [app path_sum]; [cbn [last]; ring|]. rewrite IH, last_cons. ring.
Qed.
Lemma last_app1 {A} l (a d : A) : last (l ++ [a]) d = a.
Proof. apply last_last. Qed.
(** walking backwards *)
Lemma closed_rev {A} (f : A -> A -> Q) l : closed_sum f (rev l) == closed_sum (fun a b => f b a) l.
Proof.
  assert (K : forall p t, match rev (p :: t) with [] => 0 | q :: u => path_sum f q u end == path_sum (fun a b => f b a) p t /\
              match rev (p :: t) with [] => p | q :: u => q end = last t p /\
              match rev (p :: t) with [] => p | q :: u => last u q end = p).
  { intros p t. revert p. induction t as [|q t IH]; intros p.
    - cbn. repeat split; reflexivity.
    - destruct (IH q) as (I1 & I2 & I3). change (rev (p :: q :: t)) with (rev (q :: t) ++ [p]).
      destruct (rev (q :: t)) as [|u v] eqn:E.
      + exfalso. apply (f_equal (@length A)) in E. rewrite rev_length in E. discriminate.
      + cbn [app]. split; [|split].
        * rewrite path_app. cbn [path_sum]. rewrite I1, I3. ring.
        * rewrite I2. now rewrite last_cons.
        * apply last_app1. }
  destruct l as [|p t]; [reflexivity|]. destruct (K p t) as (K1 & K2 & K3). unfold closed_sum at 1.
  destruct (rev (p :: t)) as [|u v] eqn:E.
  - exfalso. apply (f_equal (@length A)) in E. rewrite rev_length in E. discriminate.
  - cbn [closed_sum]. rewrite K1, K3, K2. reflexivity.
Qed.

(** ** orientation *)
Lemma orient_area l : orient_sum l == - area2 l.
Proof.
  unfold orient_sum, area2. rewrite (cyc_back (fun pq : pt * pt => (fst (fst pq) - fst (snd pq)) * (snd (fst pq) + snd (snd pq)))).
  cbn [fst snd].
  assert (E : - closed_sum (fun p q : pt => fst p * snd q - fst q * snd p) l ==
              closed_sum (fun p q : pt => (-1) * (fst p * snd q - fst q * snd p)) l) by (rewrite closed_scale; ring).
  rewrite E.
  rewrite (closed_ext _ (fun p q : pt => (-1) * (fst p * snd q - fst q * snd p) + (fst q * snd q - fst p * snd p))) by (intros; ring).
  rewrite closed_plus, (closed_tele (fun p : pt => fst p * snd p)). ring.
Qed.
Lemma area2_rev l : area2 (rev l) == - area2 l.
Proof.
  unfold area2. rewrite closed_rev.
  assert (E : - closed_sum (fun p q : pt => fst p * snd q - fst q * snd p) l ==
              closed_sum (fun p q : pt => (-1) * (fst p * snd q - fst q * snd p)) l) by (rewrite closed_scale; ring).
  rewrite E. apply closed_ext. intros; ring.
Qed.

Lemma combine_map_split (l : list pt) : combine (map fst l) (map snd l) = l.
Proof. induction l as [|[a b] l IH]; cbn; [reflexivity|]. now rewrite IH. Qed.

(** what __init__ returns, completely *)
Lemma rz_init_true k r z :
  length z = length r ->
  let l := combine r z in
  (area2 l == 0 -> rz_init true k r z = Err AssertionError) /\
  (~ area2 l == 0 -> exists l', oriented l l' /\
     rz_init true k r z = if (k <? length l + 1)%nat then Ok l' else Err TypeError).
Proof.
  intros E l. unfold rz_init. rewrite (proj2 (Nat.eqb_eq _ _) E). cbn [negb]. fold l.
  pose proof (orient_area l) as OA. split.
  - intros H. assert (Z0 : Qeq_bool (orient_sum l) 0 = true) by (apply Qeq_bool_iff; rewrite OA, H; reflexivity).
    cbv zeta. now rewrite Z0.
  - intros H. assert (Z0 : Qeq_bool (orient_sum l) 0 = false).
    { destruct (Qeq_bool (orient_sum l) 0) eqn:Eb; [|reflexivity]. apply Qeq_bool_iff in Eb. exfalso. apply H. lra. }
    cbv zeta. rewrite Z0.
    set (l' := if Qlt_bool 0 (orient_sum l) then rev l else l).
    assert (Ol : oriented l l').
    { unfold l'. destruct (Qlt_bool 0 (orient_sum l)) eqn:Ep.
      - apply Qlt_bool_iff in Ep. split; [now right|]. rewrite area2_rev. lra.
      - apply Qlt_bool_false_iff in Ep. split; [now left|].
        destruct (Qlt_le_dec 0 (area2 l)) as [P|P]; [exact P|]. exfalso. apply H. lra. }
    exists l'. split; [exact Ol|]. destruct Ol as [Ol Pl].
    assert (N : Qlt_bool (orient_sum l') 0 = true) by (apply Qlt_bool_iff; rewrite orient_area; lra). rewrite N. cbn [bind].
    assert (Le : length l' = length l) by (destruct Ol as [-> | ->]; [reflexivity|apply rev_length]).
    destruct l' as [|p t] eqn:El'; [|rewrite Le; reflexivity].
    exfalso. cbn in Pl. lra.
Qed.
Lemma rz_init_pts k (l : list pt) :
  (area2 l == 0 -> rz_init true k (map fst l) (map snd l) = Err AssertionError) /\
  (~ area2 l == 0 -> exists l', oriented l l' /\
     rz_init true k (map fst l) (map snd l) = if (k <? length l + 1)%nat then Ok l' else Err TypeError).
Proof. pose proof (rz_init_true k (map fst l) (map snd l) ltac:(now rewrite !map_length)) as H. rewrite combine_map_split in H. exact H. Qed.

Lemma rz_init_ok k (l l' : list pt) : rz_init true k (map fst l) (map snd l) = Ok l' -> oriented l l' /\ (k <= length l)%nat.
Proof.
  destruct (rz_init_pts k l) as [H0 H1]. intros H. destruct (Qeq_dec (area2 l) 0) as [E|N].
  - rewrite (H0 E) in H. discriminate.
  - destruct (H1 N) as (m & Om & Em). rewrite Em in H. destruct (Nat.ltb_spec k (length l + 1)); [|discriminate].
    injection H as <-. split; [exact Om|lia].
Qed.
Lemma area_small (l : list pt) : (length l <= 2)%nat -> area2 l == 0.
Proof. destruct l as [|p [|q [|u l]]]; intros H; cbn in *; try lia; unfold area2; cbn; ring. Qed.

(** ** positionPolygon *)
Section Pos.
Variable pi : Q.
Hypothesis Hpi : 0 < pi.
Variable l : list pt.
Hypothesis Hl : l <> [].
Let n := zlen l.
Let dth := 2 * pi / inject_Z n.
Lemma n_pos : (0 < n)%Z.
Proof. unfold n, zlen. destruct l; [contradiction|]. cbn [length]. lia. Qed.
Lemma nq_pos : 0 < inject_Z n.
Proof. change 0 with (inject_Z 0). rewrite <- Zlt_Qlt. exact n_pos. Qed.
Lemma dth_pos : 0 < dth.
Proof. unfold dth. apply Qlt_shift_div_l; [exact nq_pos|lra]. Qed.

(** what is computed for non-negative angles *)
Lemma polygon_nonneg theta : 0 <= theta ->
  let i := Qfloor (theta / dth) in
  qeq2 (positionPolygon pi l theta) (along (znth l (i mod n)) (znth l ((i + 1) mod n)) (theta - inject_Z i * dth)).
Proof.
  intros H i. pose proof dth_pos as Hd. unfold positionPolygon. fold n. fold dth.
  assert (Q0 : 0 <= theta / dth) by (apply Qle_shift_div_l; lra).
  rewrite Qtrunc_nonneg by exact Q0. fold i. unfold qrem. fold i.
  rewrite Zplus_mod_idemp_l. unfold qeq2, along. cbn [fst snd]. split; ring.
Qed.
(** at the vertices *)
Lemma polygon_vertex k : (0 <= k)%Z -> qeq2 (positionPolygon pi l (inject_Z k * dth)) (znth l (k mod n)).
Proof.
  intros H. pose proof dth_pos as Hd.
  assert (H0 : 0 <= inject_Z k * dth).
  { apply Qmult_le_0_compat; [|lra]. change 0 with (inject_Z 0). rewrite <- Zle_Qle. exact H. }
  pose proof (polygon_nonneg _ H0) as K. cbv zeta in K.
  assert (E : Qfloor (inject_Z k * dth / dth) = k).
  { rewrite (Qfloor_comp _ (inject_Z k)) by (field; lra). apply Qfloor_Z. }
  rewrite E in K. destruct K as [K1 K2]. unfold qeq2. rewrite K1, K2. unfold along. cbn [fst snd]. split; ring.
Qed.
End Pos.

(** ** distance *)
Lemma running_length s l : length (running s l) = S (length l).
Proof. revert s. induction l as [|c l IH]; intros s; cbn; [reflexivity|]. now rewrite IH. Qed.
Lemma running_head s l : nth 0 (running s l) 0 = s.
Proof. destruct l; reflexivity. Qed.
Lemma running_nth s l i : (i <= length l)%nat -> nth i (running s l) 0 == s + qsum (firstn i l).
Proof.
  revert s i. induction l as [|c l IH]; intros s [|i] H; cbn [running nth firstn qsum]; try ring.
  - cbn in H. lia.
  - cbn in H. rewrite IH by lia. ring.
Qed.
Lemma running_last s l d : last (running s l) d == s + qsum l.
Proof.
  revert s. induction l as [|c l IH]; intros s; [cbn; ring|]. cbn [running qsum].
  destruct (running (s + c) l) as [|x y] eqn:E; [destruct l; discriminate|].
  change (last (s :: x :: y) d) with (last (x :: y) d). rewrite <- E, IH. ring.
Qed.
Lemma running_mono s l : (forall c, In c l -> 0 <= c) -> nondecreasing (running s l).
Proof.
  revert s. induction l as [|c l IH]; intros s H; [exact I|]. cbn [running].
  assert (K := IH (s + c) ltac:(intros; apply H; now right)). assert (C := H c (or_introl eq_refl)).
  destruct l; cbn [running nondecreasing] in *; split; try lra; exact K.
Qed.

Lemma edges_length l : length (edges l) = length l.
Proof. unfold edges. rewrite combine_length, app_length, skipn_length, firstn_length. lia. Qed.

Section Dist.
Variable sqrt : Q -> Q.
Hypothesis sqrt_nonneg : forall q, 0 <= sqrt q.

Lemma combine_ones (dr : list Q) : map (fun cw : Q * Q => fst cw * snd cw) (combine dr (map (fun _ => 1) dr)) = map (fun c => c * 1) dr.
Proof. induction dr as [|c dr IH]; cbn; [reflexivity|]. now rewrite IH. Qed.

Lemma distance_poly_ok l :
  let d := distance_poly sqrt l None in
  length d = S (length l) /\ nth 0 d 0 == 0 /\ nondecreasing d /\ last d 0 == perimeter sqrt l /\
  (forall i, (i <= length l)%nat -> nth i d 0 == qsum (firstn i (map (fun e => sqrt (dist2 (fst e) (snd e))) (edges l)))).
Proof.
  intros d. unfold d, distance_poly. rewrite combine_ones.
  set (dr := map (fun e : pt * pt => sqrt (d2 (fst e) (snd e))) (edges l)).
  assert (Ll : length dr = length l) by (unfold dr; rewrite map_length; apply edges_length).
  split; [rewrite running_length, map_length; lia|]. split; [rewrite running_head; reflexivity|]. split; [|split].
  - apply running_mono. intros c Hc. apply in_map_iff in Hc. destruct Hc as (c' & <- & Hc'). unfold dr in Hc'. apply in_map_iff in Hc'.
    destruct Hc' as (e & <- & _). pose proof (sqrt_nonneg (d2 (fst e) (snd e))). lra.
  - rewrite running_last. unfold perimeter. rewrite (qsum_map_ext _ (fun c => c)) by (intros; ring). rewrite map_id. unfold dr, edges.
    rewrite (cyc_fwd (fun e : pt * pt => sqrt (d2 (fst e) (snd e)))). rewrite Qplus_0_l. apply closed_ext. intros a b. reflexivity.
  - intros i Hi. rewrite running_nth by (rewrite map_length; lia). rewrite Qplus_0_l. rewrite firstn_map.
    rewrite (qsum_map_ext _ (fun c => c)) by (intros; ring). rewrite map_id. reflexivity.
Qed.

Lemma interp_length dat n : length (interp_periodic dat n) = n.
Proof. unfold interp_periodic. now rewrite map_length, seq_length. Qed.
(** as many weights as points: the weights themselves *)
Lemma interp_same dat : forall i, (i < length dat)%nat -> nth i (interp_periodic dat (length dat)) 0 == nth i dat 0.
Proof.
  intros i Hi. unfold interp_periodic. set (n := length dat).
  erewrite (nth_indep _ 0); [|rewrite map_length, seq_length; exact Hi].
  rewrite map_nth with (d := 0%nat). rewrite seq_nth by exact Hi. cbn [plus]. unfold zlen. fold n. cbv zeta.
  assert (N : ~ inject_Z (Z.of_nat n) == 0) by (apply injz_neq0; lia).
  assert (Ep : inject_Z (Z.of_nat i) * inject_Z (Z.of_nat n) / inject_Z (Z.of_nat n) == inject_Z (Z.of_nat i)) by (field; exact N).
  rewrite (Qfloor_comp _ _ Ep), Qfloor_Z. rewrite Ep. rewrite Z.mod_small by lia. rewrite Nat2Z.id. ring.
Qed.
Lemma interp_nonneg dat n : (0 < length dat)%nat -> (forall w, In w dat -> 0 <= w) -> forall w, In w (interp_periodic dat n) -> 0 <= w.
Proof.
  intros Hd H w Hw. unfold interp_periodic in Hw. apply in_map_iff in Hw. destruct Hw as (i & <- & Hi). cbv zeta.
  set (m := zlen dat). set (p := inject_Z (Z.of_nat i) * inject_Z m / inject_Z (Z.of_nat n)). set (j := Qfloor p).
  assert (Hm : (0 < m)%Z) by (unfold m, zlen; lia).
  assert (A : forall k, 0 <= nth (Z.to_nat (k mod m)) dat 0).
  { intros k. apply H. apply nth_In. pose proof (Z.mod_pos_bound k m Hm). unfold m, zlen in *. lia. }
  pose proof (A j) as A1. pose proof (A (j + 1)%Z) as A2.
  pose proof (Qfloor_le p) as F1. pose proof (Qlt_floor p) as F2. fold j in F1, F2. rewrite inject_Z_plus in F2. change (inject_Z 1) with 1 in F2.
  set (a := nth _ dat 0) in *. set (b := nth (Z.to_nat ((j + 1) mod m)) dat 0) in *.
  assert (0 <= (p - inject_Z j) * b) by (apply Qmult_le_0_compat; lra).
  assert (0 <= (1 - (p - inject_Z j)) * a) by (apply Qmult_le_0_compat; lra). lra.
Qed.

Lemma distance_poly_weights l w : (0 < length w)%nat -> (forall x, In x w -> 0 <= x) ->
  let d := distance_poly sqrt l (Some w) in
  length d = S (length l) /\ nth 0 d 0 == 0 /\ nondecreasing d.
Proof.
  intros Hw Hp d. unfold d, distance_poly.
  set (dr := map (fun e : pt * pt => sqrt (d2 (fst e) (snd e))) (edges l)).
  assert (Ll : length dr = length l) by (unfold dr; rewrite map_length; apply edges_length).
  split; [rewrite running_length, map_length, combine_length, interp_length; lia|]. split; [rewrite running_head; reflexivity|].
  apply running_mono. intros c Hc. apply in_map_iff in Hc. destruct Hc as ([c' w'] & <- & Hc'). cbn [fst snd].
  pose proof (in_combine_l _ _ _ _ Hc') as H1. pose proof (in_combine_r _ _ _ _ Hc') as H2.
  apply Qmult_le_0_compat.
  - unfold dr in H1. apply in_map_iff in H1. destruct H1 as (e & <- & _). apply sqrt_nonneg.
  - revert H2. now apply interp_nonneg.
Qed.
End Dist.

(** spline distances *)
Lemma cumtrapz_cons s a b y u v x :
  cumtrapz s (a :: b :: y) (u :: v :: x) = s :: cumtrapz (s + (v - u) * (a + b) / 2) (b :: y) (v :: x).
Proof. reflexivity. Qed.
Lemma cumtrapz_length s y x : length y = length x -> length (cumtrapz s y x) = length y.
Proof.
  revert s x. induction y as [|a y IH]; intros s x H; [destruct x; reflexivity|].
  destruct y as [|b y]; [destruct x; [discriminate|]; destruct x; reflexivity|].
  destruct x as [|u [|v x]]; try discriminate. rewrite cumtrapz_cons.
  change (S (length (cumtrapz (s + (v - u) * (a + b) / 2) (b :: y) (v :: x))) = S (length (b :: y))). f_equal. apply IH. cbn [length] in *. lia.
Qed.
Lemma cumtrapz_hd s y x d : y <> [] -> nth 0 (cumtrapz s y x) d = s.
Proof. destruct y as [|a [|b y]]; [contradiction| |]; intros _; [destruct x; reflexivity|]. destruct x as [|u [|v x]]; reflexivity. Qed.
Lemma cumtrapz_mono s y x : (forall a, In a y -> 0 <= a) -> nondecreasing x -> nondecreasing (cumtrapz s y x).
Proof.
  revert s x. induction y as [|a y IH]; intros s x Hy Hx; [destruct x; exact I|].
  destruct y as [|b y]; [destruct x; exact I|]. destruct x as [|u [|v x]]; try exact I.
  rewrite cumtrapz_cons. destruct Hx as [Huv Hx].
  assert (K := IH (s + (v - u) * (a + b) / 2) (v :: x) ltac:(intros; apply Hy; now right) Hx).
  assert (A := Hy a (or_introl eq_refl)). assert (B := Hy b (or_intror (or_introl eq_refl))).
  assert (0 <= (v - u) * (a + b) / 2) by (apply Qle_shift_div_l; [lra|]; rewrite Qmult_0_l; apply Qmult_le_0_compat; lra).
  destruct (cumtrapz (s + (v - u) * (a + b) / 2) (b :: y) (v :: x)) as [|t0 t] eqn:E; [exact I|].
  cbn [nondecreasing]. split; [|exact K].
  pose proof (cumtrapz_hd (s + (v - u) * (a + b) / 2) (b :: y) (v :: x) 0 ltac:(discriminate)) as Hh. rewrite E in Hh. cbn in Hh. rewrite Hh. lra.
Qed.

Lemma nondecreasing_nth l d : nondecreasing l <-> forall i j, (i <= j < length l)%nat -> nth i l d <= nth j l d.
Proof.
  induction l as [|a l IH].
  - split; [intros _ i j H; cbn in H; lia|intros; exact I].
  - destruct l as [|b l].
    + split; [|intros; exact I]. intros _ i j H. cbn in H. replace i with 0%nat by lia. replace j with 0%nat by lia. lra.
    + change (nondecreasing (a :: b :: l)) with (a <= b /\ nondecreasing (b :: l)). rewrite IH. split.
      * intros [Hab H] i j Hij. destruct i as [|i], j as [|j]; cbn [length] in *; try lia; [lra| |].
        -- cbn [nth]. specialize (H 0%nat j ltac:(lia)). cbn [nth] in H. lra.
        -- cbn [nth]. apply H. lia.
      * intros H. split; [apply (H 0%nat 1%nat); cbn; lia|]. intros i j Hij. apply (H (S i) (S j)). cbn [length] in *. lia.
Qed.

(** l[::k] *)
Lemma stride_from_nth {A} k j (l : list A) i d : (0 < k)%nat -> nth i (stride_from k j l) d = nth (j + i * k) l d.
Proof.
  intros Hk. revert j i. induction l as [|a l IH]; intros j i.
  - cbn. destruct i; destruct (j + _)%nat; reflexivity.
  - cbn [stride_from]. destruct j as [|j].
    + destruct i as [|i]; [reflexivity|]. cbn [nth]. rewrite IH. replace (0 + S i * k)%nat with (S (k - 1 + i * k)) by nia. reflexivity.
    + rewrite IH. reflexivity.
Qed.
Lemma stride_from_length {A} k j (l : list A) : (0 < k)%nat ->
  length (stride_from k j l) = if (length l <=? j)%nat then 0%nat else S ((length l - 1 - j) / k).
Proof.
  intros Hk. revert j. induction l as [|a l IH]; intros j; [reflexivity|]. cbn [stride_from length].
  destruct j as [|j].
  - cbn [length]. rewrite IH. cbn [Nat.leb]. replace (S (length l) - 1 - 0)%nat with (length l) by lia.
    destruct (Nat.leb_spec (length l) (k - 1)) as [H|H].
    + rewrite Nat.div_small by lia. reflexivity.
    + replace (length l) with (length l - 1 - (k - 1) + 1 * k)%nat at 2 by lia. rewrite Nat.div_add by lia. lia.
  - rewrite IH. cbn [Nat.leb]. replace (S (length l) - 1 - S j)%nat with (length l - 1 - j)%nat by lia. reflexivity.
Qed.

Lemma linspace_closed_length a b n : length (linspace_closed a b n) = n.
Proof. unfold linspace_closed. now rewrite map_length, seq_length. Qed.
Lemma linspace_open_length a b n : length (linspace_open a b n) = n.
Proof. unfold linspace_open. now rewrite map_length, seq_length. Qed.
Lemma linspace_open_nth a b n i : (i < n)%nat -> nth i (linspace_open a b n) 0 = a + inject_Z (Z.of_nat i) * ((b - a) / inject_Z (Z.of_nat n)).
Proof.
  intros H. unfold linspace_open. erewrite (nth_indep _ 0); [|rewrite map_length, seq_length; exact H].
  rewrite map_nth with (d := 0%nat). now rewrite seq_nth.
Qed.
Lemma linspace_closed_nth a b n i : (i < n)%nat -> nth i (linspace_closed a b n) 0 = a + inject_Z (Z.of_nat i) * ((b - a) / inject_Z (Z.of_nat (n - 1))).
Proof.
  intros H. unfold linspace_closed. erewrite (nth_indep _ 0); [|rewrite map_length, seq_length; exact H].
  rewrite map_nth with (d := 0%nat). now rewrite seq_nth.
Qed.
Lemma injz_nonneg n : 0 <= inject_Z (Z.of_nat n).
Proof. change 0 with (inject_Z 0). rewrite <- Zle_Qle. lia. Qed.
Lemma linspace_closed_mono a b n : a <= b -> nondecreasing (linspace_closed a b n).
Proof.
  intros Hab. apply (nondecreasing_nth _ 0). rewrite linspace_closed_length. intros i j Hij.
  rewrite !linspace_closed_nth by lia.
  destruct (Nat.eq_dec n 1) as [->|N].
  { replace i with 0%nat by lia. replace j with 0%nat by lia. lra. }
  assert (P : 0 < inject_Z (Z.of_nat (n - 1))) by (change 0 with (inject_Z 0); rewrite <- Zlt_Qlt; lia).
  assert (S0 : 0 <= (b - a) / inject_Z (Z.of_nat (n - 1))) by (apply Qle_shift_div_l; lra).
  assert (L : inject_Z (Z.of_nat i) <= inject_Z (Z.of_nat j)) by (rewrite <- Zle_Qle; lia).
  assert (0 <= (inject_Z (Z.of_nat j) - inject_Z (Z.of_nat i)) * ((b - a) / inject_Z (Z.of_nat (n - 1)))) by (apply Qmult_le_0_compat; lra).
  lra.
Qed.

Lemma distance_spline_ok pi dl n sample d : 0 < pi -> (0 < n)%nat -> (forall t, 0 <= dl t) ->
  distance_spline pi dl n sample None = Ok d ->
  length d = S n /\ nth 0 d 0 == 0 /\ nondecreasing d.
Proof.
  intros Hpi Hn Hdl. unfold distance_spline. destruct (Z.ltb_spec sample 1) as [|Hs]; [discriminate|]. intros [= <-].
  set (s := Z.to_nat sample). assert (Hs' : (0 < s)%nat) by (unfold s; lia).
  set (th := linspace_closed 0 (2 * pi) (s * n + 1)).
  assert (Lth : length th = (s * n + 1)%nat) by apply linspace_closed_length.
  assert (Lc : length (cumtrapz 0 (map dl th) th) = (s * n + 1)%nat) by (rewrite cumtrapz_length; rewrite map_length; [exact Lth|reflexivity]).
  unfold stride. split; [|split].
  - rewrite stride_from_length by exact Hs'. rewrite Lc. destruct (Nat.leb_spec (s * n + 1) 0); [lia|].
    replace (s * n + 1 - 1 - 0)%nat with (n * s)%nat by lia. rewrite Nat.div_mul by lia. reflexivity.
  - rewrite stride_from_nth by exact Hs'. cbn [plus mult]. rewrite cumtrapz_hd; [reflexivity|].
    intro C. apply (f_equal (@length Q)) in C. rewrite map_length, Lth in C. cbn in C. lia.
  - apply (nondecreasing_nth _ 0). intros i j Hij. rewrite !stride_from_nth by exact Hs'.
    assert (M : nondecreasing (cumtrapz 0 (map dl th) th)).
    { apply cumtrapz_mono; [|apply linspace_closed_mono; lra]. intros a Ha. apply in_map_iff in Ha. destruct Ha as (t & <- & _). apply Hdl. }
    apply (nondecreasing_nth _ 0) with (i := (0 + i * s)%nat) (j := (0 + j * s)%nat) in M; [exact M|].
    rewrite Lc. destruct Hij as [H1 H2]. rewrite stride_from_length, Lc in H2 by exact Hs'.
    destruct (Nat.leb_spec (s * n + 1) 0); [lia|]. replace (s * n + 1 - 1 - 0)%nat with (n * s)%nat in H2 by lia. rewrite Nat.div_mul in H2 by lia. nia.
Qed.
