(** Following the field there and back with FieldTracerReversible. *)
From Coq Require Import List ZArith QArith Qabs Reals Qreals Lia Lra Setoid.
From Verif Require Import Prelude PreludeFacts TracerModel TracerSpec TracerProofs RevModel RevSpec RevProofs RevFollow RevLipSpec RevLip RevAcc.
Import ListNotations.

Section Q.
Open Scope Q_scope.
Variable dir : Q -> Q -> Q -> Q * Q.
Variable L : Q.
Hypothesis HL : lipschitz dir L.
Lemma near_sym k y y' p p' : near_trapezoid dir k y y' p p' -> near_trapezoid dir k y' y p' p.
Proof.
  unfold near_trapezoid. cbv zeta. intros (A & B). rewrite <- (Qabs_opp (y - y')). setoid_replace (- (y - y')) with (y' - y) by ring.
  split; [rewrite <- Qabs_opp; setoid_replace (- (fst p - fst p' - (y - y') * (1 # 2) * (fst (dir (fst p') (snd p') y') + fst (dir (fst p) (snd p) y)))) with
    (fst p' - fst p - (y' - y) * (1 # 2) * (fst (dir (fst p) (snd p) y) + fst (dir (fst p') (snd p') y'))) by ring; exact A
  |rewrite <- Qabs_opp; setoid_replace (- (snd p - snd p' - (y - y') * (1 # 2) * (snd (dir (fst p') (snd p') y') + snd (dir (fst p) (snd p) y)))) with
    (snd p' - snd p - (y' - y) * (1 # 2) * (snd (dir (fst p) (snd p) y) + snd (dir (fst p') (snd p') y'))) by ring; exact B].
Qed.
Lemma near_chain_snoc k l y y' p q q' : near_chain dir k (l ++ [y]) p q -> near_trapezoid dir k y y' q q' -> near_chain dir k (l ++ [y; y']) p q'.
Proof.
  intros H T. remember (l ++ [y]) as m eqn:E. revert l E. induction H as [y0 p|y0 y1 m p p' q H0 H IH]; intros l E.
  - destruct l as [|a l]; [injection E as ->|destruct l; discriminate]. cbn. econstructor; [exact T|constructor].
  - destruct l as [|a l]; [discriminate|]. cbn in E. injection E as -> E. specialize (IH T l E).
    destruct l as [|b l]; cbn in E |- *; injection E as -> E'; econstructor; eauto.
Qed.
Lemma near_chain_rev k l p q : near_chain dir k l p q -> near_chain dir k (rev l) q p.
Proof.
  intros H. induction H as [y p|y y' l p p' q T H IH]; [constructor|]. cbn [rev] in *. rewrite <- app_assoc. cbn.
  apply (near_chain_snoc k (rev l) y' y q p' p); [exact IH|now apply near_sym].
Qed.
Lemma near_run_snoc k n l a b pss ps ps' : near_run dir k n (l ++ [a]) (pss ++ [ps]) -> Forall2 (near_chain dir k (even_grid n a b)) ps ps' -> near_run dir k n (l ++ [a; b]) (pss ++ [ps; ps']).
Proof.
  intros H C. remember (l ++ [a]) as m eqn:E. remember (pss ++ [ps]) as r eqn:E'. revert l pss E E'. induction H as [a0 ps0|a0 b0 t ps0 ps1 r C0 H IH]; intros l pss E E'.
  - destruct l as [|? l]; [|destruct l; discriminate]. destruct pss as [|? pss]; [|destruct pss; discriminate]. cbn in *. injection E as ->. injection E' as ->.
    constructor; [exact C|constructor].
  - destruct l as [|? l]; [discriminate|]. destruct pss as [|? pss]; [discriminate|]. cbn in E, E'. injection E as -> E. injection E' as -> E'. specialize (IH l pss E E').
    destruct l as [|? l]; cbn in E; injection E as -> E; destruct pss as [|? pss]; cbn in E'; injection E' as -> E'; cbn in IH |- *; constructor; assumption.
Qed.
Lemma near_run_rev k n ys pss : (0 < n)%nat -> near_run dir k n ys pss -> near_run dir k n (rev ys) (rev pss).
Proof.
  intros Hn H. induction H as [a ps|a b t ps ps' r C H IH]; [constructor|]. cbn [rev] in *. rewrite <- !app_assoc. cbn [app].
  apply near_run_snoc; [exact IH|]. eapply Forall2_flip'; [|exact C]. intros p q K. eapply (near_chain_comp dir L HL); [now apply even_grid_rev|]. now apply near_chain_rev.
Qed.
End Q.

Lemma steps_snoc H n l a b : steps_below H n (l ++ [a]) -> Qle (Qabs (b - a)) (H * inject_Z (Z.of_nat n)) -> steps_below H n (l ++ [a; b]).
Proof.
  induction l as [|c l IH]; intros S D; [cbn; auto|]. destruct l as [|c' l]; [cbn in *; destruct S; auto|]. cbn [app steps_below] in *. destruct S as [S1 S2]. split; [exact S1|]. now apply IH.
Qed.
Lemma steps_rev H n l : steps_below H n l -> steps_below H n (rev l).
Proof.
  induction l as [|a l IH]; [auto|]. destruct l as [|b l]; [cbn; auto|]. intros [S1 S2]. specialize (IH S2). cbn [rev] in *. rewrite <- app_assoc. cbn [app].
  apply steps_snoc; [exact IH|]. rewrite <- Qabs_opp. setoid_replace (- (a - b))%Q with (b - a)%Q by ring. exact S1.
Qed.

Open Scope R_scope.
Lemma follow_back u v dir rtol eps L sigma H n s x z ys sh fx fz :
  extends u v dir -> lipschitz_R u v (Q2R L) -> (0 <= L)%Q -> ~ (eps == 0)%Q -> (0 < rtol)%Q -> (0 <= sigma)%Q -> (rtol <= sigma * sigma)%Q ->
  (0 < n)%nat -> (2 <= length ys)%nat -> ~ aliased x z ->
  wf (arg_nda s x) -> wf (arg_nda s z) -> starts (arg_nda s x) (arg_nda s z) sh fx fz -> (0 < nsize sh)%nat -> (0 <= H)%Q -> steps_below H n ys -> (H * L <= 1 # 4)%Q ->
  exists N s' rows, (forall fuel, (N <= fuel)%nat -> rev_follow dir rtol eps fuel n s x z ys = Some (Ok (s', rows))) /\ length rows = length ys /\
    let '(xe, ze) := last rows ([], []) in
    exists N' s'' rows', (forall fuel, (N' <= fuel)%nat ->
        rev_follow dir rtol eps fuel n s (Fresh {| shape := [nsize sh]; data := xe |}) (Fresh {| shape := [nsize sh]; data := ze |}) (rev ys) = Some (Ok (s'', rows'))) /\ length rows' = length ys /\
      forall k i, (k < length ys)%nat -> (i < nsize sh)%nat ->
        let S := Q2R (way k (rev ys)) in
        let bound := exp (3 / 2 * Q2R L * S) * (24 / 7 * (Q2R L * Q2R sigma) * S) in
        Rabs (Q2R (nth i (fst (nth k rows' ([], []))) 0%Q) - Q2R (nth i (fst (nth (length ys - 1 - k) rows ([], []))) 0%Q)) <= bound /\
        Rabs (Q2R (nth i (snd (nth k rows' ([], []))) 0%Q) - Q2R (nth i (snd (nth (length ys - 1 - k) rows ([], []))) 0%Q)) <= bound.
Proof.
  intros HE HL L0 He Hr Hs Hrs Hn Hy Ha Wx Wz St Hsz H0 Sv HH. assert (HLQ := lipschitz_of_R u v dir L HE HL L0).
  destruct (rev_follow_near dir rtol eps L sigma HLQ He Hr Hs Hrs H n s x z ys sh fx fz Hn Hy Ha Wx Wz St Hsz Sv HH) as (N & s' & ps & pss & F & Ru & Lp & Pt).
  exists N, s', (map row_of (ps :: pss)). split; [exact F|]. destruct (near_widths dir n _ _ _ _ Ru) as (W1 & W2). split; [now rewrite map_length|].
  remember (last (ps :: pss) []) as e eqn:Ee.
  assert (El : last (map row_of (ps :: pss)) ([], []) = row_of e).
  { rewrite Ee. clear. revert ps. induction pss as [|q pss IH]; intros ps; [reflexivity|]. change (last (map row_of (ps :: q :: pss)) ([], [])) with (last (map row_of (q :: pss)) ([], [])). apply IH. }
  rewrite El. unfold row_of at 1.
  assert (Ein : In e (ps :: pss)). { rewrite Ee. clear. revert ps. induction pss as [|q pss IH]; intros ps; [now left|]. right. apply IH. }
  assert (Le : length e = nsize sh). { rewrite (W2 e Ein). exact Lp. }
  set (xa := {| shape := [nsize sh]; data := map fst e |}). set (za := {| shape := [nsize sh]; data := map snd e |}).
  assert (V1 : wf xa) by (unfold wf, size; cbn; rewrite map_length, Le; lia). assert (V2 : wf za) by (unfold wf, size; cbn; rewrite map_length, Le; lia).
  destruct (rev_follow_near dir rtol eps L sigma HLQ He Hr Hs Hrs H n s (Fresh xa) (Fresh za) (rev ys) [nsize sh] (get xa) (get za) Hn) as (N' & s'' & qs & qss & F' & Ru' & Lq & Pq).
  { now rewrite rev_length. } { cbn. auto. } { exact V1. } { exact V2. } { exact (starts_same xa za eq_refl). } { cbn. lia. } { now apply steps_rev. } { exact HH. }
  exists N', s'', (map row_of (qs :: qss)). split; [exact F'|]. destruct (near_widths dir n _ _ _ _ Ru') as (W1' & W2'). rewrite rev_length in W1'. split; [now rewrite map_length|].
  assert (Eq : qs = e).
  { apply (nth_ext _ _ (0, 0)%Q (0, 0)%Q); [rewrite Lq, Le; cbn; lia|]. intros i Hi. rewrite Lq in Hi. cbn in Hi. specialize (Pq [i]). cbn [offset nsize] in Pq.
    replace (i * 1 + 0)%nat with i in Pq by lia. rewrite Pq by (repeat constructor; lia). unfold get. cbn [offset nsize shape data xa za]. replace (i * 1 + 0)%nat with i by lia.
    rewrite (nth_map' fst _ _ _ (0, 0)%Q), (nth_map' snd _ _ _ (0, 0)%Q) by (rewrite Le; lia). now destruct (nth i e (0, 0)%Q). }
  assert (Rb := near_run_rev dir L HLQ _ n ys _ Hn Ru).
  intros k i Hk Hi. cbv zeta.
  assert (L0R : 0 <= Q2R L) by (apply Qle_Rle in L0; rewrite Q2R_0 in L0; exact L0). assert (S0R : 0 <= Q2R sigma) by (apply Qle_Rle in Hs; rewrite Q2R_0 in Hs; exact Hs).
  assert (HHR : Q2R H * Q2R L <= / 4) by (apply Qle_Rle in HH; rewrite Q2R_mult in HH; unfold Q2R in HH at 3; cbn in HH; lra).
  assert (KK : 0 <= 3 / 2 * Q2R L * Q2R sigma) by (apply Rmult_le_pos; lra).
  assert (R1 := near_rrun u v dir HE n Hn _ _ _ i Ru' ltac:(intros rs Hq; rewrite (W2' rs Hq), Lq; cbn; lia)).
  assert (R2 := near_rrun u v dir HE n Hn _ _ _ i Rb ltac:(intros rs Hq; apply in_rev in Hq; rewrite (W2 rs Hq), Lp; exact Hi)).
  rewrite kappa_R in R1, R2.
  destruct (rev (ps :: pss)) as [|e' t'] eqn:Er. { apply (f_equal (@length _)) in Er. rewrite rev_length in Er. discriminate. }
  assert (Ee' : e' = e). { rewrite Ee. assert (E2 : ps :: pss = rev (e' :: t')) by (rewrite <- Er; symmetry; apply rev_involutive). rewrite E2. cbn [rev]. now rewrite last_last. }
  cbn [map] in R1, R2.
  assert (A := two_runs u v n Hn (Q2R L) HL L0R H HHR _ _ (rev ys) KK KK (steps_rev _ _ _ Sv) _ _ _ _ 0 R2 R1).
  specialize (A ltac:(rewrite Eq, Ee'; unfold apart, toR; cbn [fst snd]; split; unfold Rminus; rewrite Rplus_opp_r, Rabs_R0; lra) k ltac:(rewrite rev_length; exact Hk)).
  change (toR (nth i qs (0%Q, 0%Q)) :: map (fun ps0 => toR (nth i ps0 (0%Q, 0%Q))) qss) with (map (fun ps0 => toR (nth i ps0 (0%Q, 0%Q))) (qs :: qss)) in A.
  change (toR (nth i e' (0%Q, 0%Q)) :: map (fun ps0 => toR (nth i ps0 (0%Q, 0%Q))) t') with (map (fun ps0 => toR (nth i ps0 (0%Q, 0%Q))) (e' :: t')) in A.
  rewrite <- Er in A. rewrite (nth_map' _ _ _ _ []) in A by (rewrite rev_length, W1; exact Hk). rewrite (nth_map' _ _ _ _ []) in A by (rewrite W1'; exact Hk).
  rewrite rev_nth in A by (rewrite W1; exact Hk). rewrite W1 in A. replace (length ys - S k)%nat with (length ys - 1 - k)%nat in A by lia.
  rewrite (nth_map' row_of _ _ _ []) by (rewrite W1'; exact Hk). rewrite (nth_map' row_of _ _ _ []) by (rewrite W1; lia).
  assert (Wk : length (nth k (qs :: qss) []) = nsize sh) by (rewrite <- Le, <- Eq; apply W2', nth_In; rewrite W1'; exact Hk).
  assert (Wj : length (nth (length ys - 1 - k) (ps :: pss) []) = nsize sh) by (rewrite <- Lp; apply W2, nth_In; rewrite W1; lia).
  unfold row_of. cbn [fst snd]. rewrite (nth_map' fst _ _ _ (0%Q, 0%Q)) by lia. rewrite (nth_map' snd _ _ _ (0%Q, 0%Q)) by lia.
  rewrite (nth_map' fst _ _ _ (0%Q, 0%Q)) by lia. rewrite (nth_map' snd _ _ _ (0%Q, 0%Q)) by lia.
  unfold apart, toR in A. cbn [fst snd] in A. unfold growth in A.
  replace (24 / 7 * (Q2R L * Q2R sigma) * Q2R (way k (rev ys))) with (0 + 8 / 7 * (3 / 2 * Q2R L * Q2R sigma + 3 / 2 * Q2R L * Q2R sigma) * Q2R (way k (rev ys))) by field. exact A.
Qed.

(** a start that is not found again *)
Lemma back_elsewhere : let curved := fun x z y : Q => (/ (1 + x * x), 0)%Q in let one_point := fun q => Fresh {| shape := [1%nat]; data := [q] |} in
  ~ forall rtol eps fuel n x z y y' s' rows s'' rows' xe ze, (0 < rtol)%Q -> ~ (eps == 0)%Q -> (0 < n)%nat ->
  rev_follow curved rtol eps fuel n (fun _ => []) (one_point x) (one_point z) [y; y'] = Some (Ok (s', rows)) -> nth 1 rows ([], []) = ([xe], [ze]) ->
  rev_follow curved rtol eps fuel n (fun _ => []) (one_point xe) (one_point ze) [y'; y] = Some (Ok (s'', rows')) ->
  exists xb zb, nth 1 rows' ([], []) = ([xb], [zb]) /\ (xb == x)%Q.
Proof.
  cbv zeta. intros C. set (curved := fun x z y : Q => (/ (1 + x * x), 0)%Q) in *.
  assert (E1 : match rev_follow curved 1 1 1 1 (fun _ => []) (Fresh {| shape := [1%nat]; data := [0%Q] |}) (Fresh {| shape := [1%nat]; data := [0%Q] |}) [0; 1]%Q with Some (Ok (_, rows)) => nth 1 rows ([], []) = ([18 # 23], [0])%Q | _ => False end) by (vm_compute; reflexivity).
  destruct (rev_follow curved 1 1 1 1 (fun _ => []) (Fresh {| shape := [1%nat]; data := [0%Q] |}) (Fresh {| shape := [1%nat]; data := [0%Q] |}) [0; 1]%Q) as [[[s' rows]|]|] eqn:F1 in E1; [|destruct E1|destruct E1].
  assert (E2 : match rev_follow curved 1 1 1 1 (fun _ => []) (Fresh {| shape := [1%nat]; data := [18 # 23]%Q |}) (Fresh {| shape := [1%nat]; data := [0%Q] |}) [1; 0]%Q with Some (Ok (_, rows)) => match nth 1 rows ([], []) with ([q], [_]) => Qeq_bool q 0 = false | _ => False end | _ => False end) by (vm_compute; reflexivity).
  destruct (rev_follow curved 1 1 1 1 (fun _ => []) (Fresh {| shape := [1%nat]; data := [18 # 23]%Q |}) (Fresh {| shape := [1%nat]; data := [0%Q] |}) [1; 0]%Q) as [[[s'' rows']|]|] eqn:F2 in E2; [|destruct E2|destruct E2].
  destruct (C 1%Q 1%Q 1%nat 1%nat 0%Q 0%Q 0%Q 1%Q s' rows s'' rows' (18 # 23)%Q 0%Q ltac:(reflexivity) ltac:(discriminate) ltac:(lia) F1 E1 F2) as (xb & zb & E & B).
  rewrite E in E2. apply Qeq_bool_iff in B. rewrite B in E2. discriminate E2.
Qed.
