(** StructuredPoloidalGrid.findIndex. *)
From Coq Require Import List ZArith QArith Qround Lia Lqa Bool.
From Verif Require Import Prelude PreludeFacts PolModel PolSpec.
Import ListNotations.
Open Scope Q_scope.

(** ** amin, amax *)
Lemma fmax2_cases a b : fmax2 a b = a \/ fmax2 a b = b \/ fmax2 a b = NaN.
Proof. unfold fmax2. destruct a, b; try (now right; right); destruct (flt _ _); auto. Qed.
Lemma fmin2_cases a b : fmin2 a b = a \/ fmin2 a b = b \/ fmin2 a b = NaN.
Proof. unfold fmin2. destruct a, b; try (now right; right); destruct (flt _ _); auto. Qed.

Lemma fold_pick (op : fl -> fl -> fl) (P : fl -> Prop) : P NaN -> (forall a b, op a b = a \/ op a b = b \/ op a b = NaN) ->
  forall l a, P a -> Forall P l -> P (fold_left op l a).
Proof.
  intros PN Hop l. induction l as [|b l IH]; intros a Ha Hl; [exact Ha|]. cbn. inversion Hl; subst. apply IH; [|assumption].
  destruct (Hop a b) as [E|[E|E]]; rewrite E; assumption.
Qed.
Lemma famax_pick (P : fl -> Prop) l m : P NaN -> Forall P l -> famax l = Ok m -> P m.
Proof. intros PN Hl. destruct l as [|a l]; [discriminate|]. intros [= <-]. inversion Hl; subst. apply fold_pick; auto using fmax2_cases. Qed.
Lemma famin_pick (P : fl -> Prop) l m : P NaN -> Forall P l -> famin l = Ok m -> P m.
Proof. intros PN Hl. destruct l as [|a l]; [discriminate|]. intros [= <-]. inversion Hl; subst. apply fold_pick; auto using fmin2_cases. Qed.

Lemma flt_max a b t : flt (fmax2 a b) (Fin t) = true -> flt a (Fin t) = true /\ flt b (Fin t) = true.
Proof.
  unfold fmax2. destruct a as [a|s|], b as [b|s'|]; cbn; try discriminate.
  - destruct (Qlt_bool a b) eqn:E; cbn; intros H.
    + split; [|exact H]. apply Qlt_bool_iff in E. apply Qlt_bool_iff in H. apply Qlt_bool_iff. lra.
    + split; [exact H|]. apply Qlt_bool_false_iff in E. apply Qlt_bool_iff in H. apply Qlt_bool_iff. lra.
  - destruct s'; cbn; auto; intros; discriminate.
  - destruct s; cbn; auto; intros; discriminate.
  - destruct s, s'; cbn; auto; intros; discriminate.
Qed.

Lemma famax_all l m t : famax l = Ok m -> flt m (Fin t) = true -> Forall (fun a => flt a (Fin t) = true) l.
Proof.
  destruct l as [|a l]; [discriminate|]. intros [= <-]. revert a. induction l as [|b l IH]; intros a H.
  - repeat constructor. exact H.
  - cbn in H. specialize (IH _ H). inversion IH as [|? ? H1 H2]; subst. apply flt_max in H1. destruct H1. repeat constructor; assumption.
Qed.

Lemma famax_nan l m : famax l = Ok m -> In NaN l -> m = NaN.
Proof.
  destruct l as [|a l]; [discriminate|]. intros [= <-].
  assert (K : forall l, fold_left fmax2 l NaN = NaN) by (induction l0; cbn; auto).
  revert a. induction l as [|b l IH]; intros a H.
  - destruct H as [->|[]]. reflexivity.
  - cbn. destruct H as [->|[->|H]].
    + apply K.
    + assert (fmax2 a NaN = NaN) as -> by (destruct a; reflexivity). apply K.
    + apply IH. now right.
Qed.

Lemma famax_ok l : l <> [] -> exists m, famax l = Ok m.
Proof. destruct l; [easy|]. cbn. eauto. Qed.
Lemma famin_ok l : l <> [] -> exists m, famin l = Ok m.
Proof. destruct l; [easy|]. cbn. eauto. Qed.

Lemma flt_low q : flt (Fin q) (Fin (1#2)) = false -> 1#2 <= q.
Proof. cbn. apply Qlt_bool_false_iff. Qed.

Section F.
Variable nx nz : Z.
Variable splR splZ : nat -> nat -> Q -> Q -> Q.
Variable nearest : Q * Q -> Z.
Variable zneg : fl -> fl -> bool.
Hypothesis Hnx : (0 < nx)%Z.
Hypothesis Hnz : (0 < nz)%Z.
Hypothesis Hnear : forall t, (0 <= nearest t < nx * nz)%Z.

Notation low := low_x.
Notation high := (high_x nx).
Notation getC := (getCoordinate nx nz splR splZ).
Notation upd := (newton nx zneg).
Notation srch := (search nx nz splR splZ zneg).

(** index inside the radial range, or NaN *)
Definition in_range (x : fl) : Prop :=
  match x with
  | Fin q => q == 0 \/ q == inject_Z nx - 1 \/ (1#2 <= q /\ q <= inject_Z nx - (3#2))
  | Inf _ => False
  | NaN => True
  end.
Definition good (p : pt) : Prop :=
  in_range (px p) /\ (pmask p = false -> px p = NaN \/ low (px p) = true \/ high (px p) = true).

Lemma nx_pos : 0 <= inject_Z nx - 1.
Proof. assert (inject_Z 1 <= inject_Z nx) by (rewrite <- Zle_Qle; lia). change (inject_Z 1) with 1 in H. lra. Qed.

Lemma start_good t : good (start nx nz nearest t).
Proof.
  unfold start, good. cbn. specialize (Hnear t).
  assert (H : (0 <= nearest t / nz <= nx - 1)%Z).
  { split; [apply Z.div_pos; lia|]. assert (nearest t / nz < nx)%Z by (apply Z.div_lt_upper_bound; lia). lia. }
  set (x := (nearest t / nz)%Z) in *. split.
  - assert (C : (x = 0 \/ x = nx - 1 \/ (1 <= x <= nx - 2))%Z) by lia. destruct C as [C|[C|C]].
    + left. rewrite C. reflexivity.
    + right. left. rewrite C. unfold Z.sub. rewrite inject_Z_plus, inject_Z_opp. reflexivity.
    + right. right. assert (inject_Z 1 <= inject_Z x) by (rewrite <- Zle_Qle; lia).
      assert (inject_Z x <= inject_Z (nx - 2)) by (rewrite <- Zle_Qle; lia).
      unfold Z.sub in H1. rewrite inject_Z_plus, inject_Z_opp in H1. change (inject_Z 1) with 1 in H0. change (inject_Z 2) with 2 in H1. lra.
  - intros E. right. apply negb_false_iff, orb_true_iff in E. exact E.
Qed.

Lemma masked_step a v : fsub a (fmul (mval false) v) = NaN \/ (exists q q', a = Fin q /\ fsub a (fmul (mval false) v) = Fin q' /\ q' == q)
  \/ (exists s, a = Inf s).
Proof.
  destruct a as [q|s|]; [|right; right; eauto|left; reflexivity].
  destruct v as [v|s|]; cbn; auto. right. left. do 2 eexists. split; [reflexivity|]. split; [reflexivity|]. ring.
Qed.

Lemma low_compat p q : p == q -> low (Fin p) = low (Fin q).
Proof. intros E. cbn. unfold Qlt_bool. now rewrite E. Qed.
Lemma high_compat p q : p == q -> high (Fin p) = high (Fin q).
Proof. intros E. unfold high_x. cbn. unfold Qlt_bool. now rewrite E. Qed.

Lemma upd_good ur p t pos a b : good p -> good (upd ur p t pos a b).
Proof.
  intros [G1 G2]. unfold newton.
  set (x := fsub (px p) _). set (z := fsub (pz p) _).
  assert (M : pmask p = false -> low x = false -> high x = false -> x = NaN).
  { intros Em. unfold x. rewrite Em. intros L H. specialize (G2 Em).
    match goal with |- fsub _ (fmul _ ?v) = _ => destruct (masked_step (px p) v) as [K|[(q & q' & K1 & K2 & K3)|(s & K)]] end.
    - exact K.
    - rewrite K2 in L, H. destruct G2 as [G|[G|G]].
      + congruence.
      + rewrite K1 in G. rewrite (low_compat _ _ K3) in L. congruence.
      + rewrite K1 in G. rewrite (high_compat _ _ K3) in H. congruence.
    - rewrite K in G1. contradiction. }
  clearbody x z. unfold good. cbn [px pmask]. destruct (low x) eqn:L.
  - destruct (high (Fin 0)) eqn:H.
    + split; [right; left; reflexivity|]. intros _. right. 
      destruct (Qlt_le_dec (inject_Z nx - 1) (1#2)) as [C|C].
      * left. cbn. now apply Qlt_bool_iff.
      * right. unfold high_x. cbn. apply Qlt_bool_iff. lra.
    + split; [left; reflexivity|]. intros _. right. left. reflexivity.
  - destruct (high x) eqn:H.
    + split; [right; left; reflexivity|]. intros _. right. right. unfold high_x. cbn. apply Qlt_bool_iff. lra.
    + split.
      * destruct x as [q|s|]; cbn in *; [|destruct s; unfold high_x in H; cbn in H; discriminate|exact I].
        right. right. unfold high_x in H. cbn in H. apply Qlt_bool_false_iff in L. apply Qlt_bool_false_iff in H. split; assumption.
      * intros Em. left. now apply M.
Qed.

(** range check never fails *)
Lemma range_ok pts : Forall good pts -> pts <> [] -> forall d e,
  getC (index_of pts) d e = Ok (map (fun p => (eval nz splR d e (px p) (pz p), eval nz splZ d e (px p) (pz p))) pts).
Proof.
  intros G Hne d e. unfold getCoordinate.
  assert (R : Forall in_range (map fst (index_of pts))).
  { unfold index_of. rewrite map_map. cbn. apply Forall_map. eapply Forall_impl; [|exact G]. now intros p [H _]. }
  assert (N : map fst (index_of pts) <> []) by (destruct pts; [easy|discriminate]).
  destruct (famin_ok _ N) as [lo Elo]. destruct (famax_ok _ N) as [hi Ehi]. rewrite Elo, Ehi. cbn [bind].
  assert (Rlo : in_range lo) by (eapply famin_pick; [|exact R|exact Elo]; exact I).
  assert (Rhi : in_range hi) by (eapply famax_pick; [|exact R|exact Ehi]; exact I).
  pose proof nx_pos as HP.
  assert (F1 : flt lo (Fin 0) = false).
  { destruct lo as [q|s|]; cbn in *; [|contradiction|reflexivity]. apply Qlt_bool_false_iff. lra. }
  assert (F2 : flt (Fin (inject_Z nx - 1)) hi = false).
  { destruct hi as [q|s|]; cbn in *; [|contradiction|reflexivity]. apply Qlt_bool_false_iff. lra. }
  rewrite F1, F2. cbn [orb]. unfold index_of. rewrite map_map. reflexivity.
Qed.

Lemma empty_value d e : getC (index_of []) d e = Err ValueError.
Proof. reflexivity. Qed.

(** combine with mapped lists *)
Lemma combine_map_l {A B C} (f : A -> C) (l : list A) (m : list B) :
  combine (combine l m) (map f l) = map (fun '(a, b) => (a, b, f a)) (combine l m).
Proof. revert m. induction l as [|a l IH]; intros [|b m]; cbn; [reflexivity..|]. now rewrite IH. Qed.
Lemma combine_map_2 {A B C} (g : A * B -> C) (f : A -> C) (l : list A) (m : list B) :
  combine (map g (combine l m)) (map f l) = map (fun '(a, b) => (g (a, b), f a)) (combine l m).
Proof. revert m. induction l as [|a l IH]; intros [|b m]; cbn; [reflexivity..|]. now rewrite IH. Qed.
Lemma combine_map_g {A B C D} (g : A * B -> C) (f : A -> D) (l : list A) (m : list B) :
  combine (map g (combine l m)) (map f l) = map (fun ab => (g ab, f (fst ab))) (combine l m).
Proof. revert m. induction l as [|a l IH]; intros [|b m]; cbn; [reflexivity..|]. now rewrite IH. Qed.

Definition pos_of (d e : nat) (p : pt) : fl * fl := (eval nz splR d e (px p) (pz p), eval nz splZ d e (px p) (pz p)).
Definition mis (pt' : pt * (Q * Q)) : fl := mismatch (fst pt') (snd pt') (pos_of 0 0 (fst pt')).
Definition next (ur : Q) (pt' : pt * (Q * Q)) : pt :=
  upd ur (fst pt') (snd pt') (pos_of 0 0 (fst pt')) (pos_of 1 0 (fst pt')) (pos_of 0 1 (fst pt')).

Lemma search_step fuel tol ts cnt ur extra pts : Forall good pts -> pts <> [] -> length pts = length ts ->
  exists val, famax (map mis (combine pts ts)) = Ok val /\
  srch (S fuel) tol ts cnt ur extra pts =
    let close := flt val (Fin tol) in
    let extra' := if close then (extra + 1)%Z else extra in
    if (close && (3 <? extra')%Z)%bool then Some (Ok pts)
    else if (negb close && negb (extra =? 0)%Z)%bool then Some (Err RuntimeError)
    else if (cnt + 1 =? 1000)%Z then Some (Err RuntimeError)
    else srch fuel tol ts (cnt + 1) (relax (cnt + 1) ur) extra' (map (next (relax (cnt + 1) ur)) (combine pts ts)).
Proof.
  intros G N L. destruct (famax_ok (map mis (combine pts ts))) as [val Ev].
  { destruct pts; [easy|]. destruct ts; [discriminate|]. discriminate. }
  exists val. split; [exact Ev|].
  assert (E1 : map (fun '(p, t, q) => mismatch p t q) (combine (combine pts ts) (map (pos_of 0 0) pts)) = map mis (combine pts ts)).
  { rewrite combine_map_l, map_map. apply map_ext. now intros [p t]. }
  assert (E2 : map (fun '(p, t, q, a, b) => upd (relax (cnt + 1) ur) p t q a b)
      (combine (combine (combine (combine pts ts) (map (pos_of 0 0) pts)) (map (pos_of 1 0) pts)) (map (pos_of 0 1) pts))
      = map (next (relax (cnt + 1) ur)) (combine pts ts)).
  { rewrite combine_map_l. rewrite !combine_map_g, map_map. apply map_ext. now intros [p t]. }
  cbn [search]. rewrite !(range_ok pts G N). cbn [bind].
  change (map (fun p => (eval nz splR 0 0 (px p) (pz p), eval nz splZ 0 0 (px p) (pz p))) pts) with (map (pos_of 0 0) pts).
  change (map (fun p => (eval nz splR 1 0 (px p) (pz p), eval nz splZ 1 0 (px p) (pz p))) pts) with (map (pos_of 1 0) pts).
  change (map (fun p => (eval nz splR 0 1 (px p) (pz p), eval nz splZ 0 1 (px p) (pz p))) pts) with (map (pos_of 0 1) pts).
  rewrite E1, Ev. cbn [bind]. cbv zeta. rewrite E2. reflexivity.
Qed.

Lemma next_good ur pts ts : Forall good pts -> Forall good (map (next ur) (combine pts ts)).
Proof.
  intros G. apply Forall_map, Forall_forall. intros [p t] H. apply in_combine_l in H. rewrite Forall_forall in G. apply upd_good. now apply G.
Qed.
Lemma next_len ur (pts : list pt) (ts : list (Q * Q)) : length pts = length ts -> length (map (next ur) (combine pts ts)) = length ts.
Proof. intros H. rewrite map_length, combine_length. lia. Qed.
Lemma next_ne ur (pts : list pt) (ts : list (Q * Q)) : length pts = length ts -> pts <> [] -> map (next ur) (combine pts ts) <> [].
Proof. destruct pts, ts; cbn; easy. Qed.

(** a returned state is good and within tolerance *)
Lemma search_result fuel : forall tol ts cnt ur extra pts out, Forall good pts -> pts <> [] -> length pts = length ts ->
  srch fuel tol ts cnt ur extra pts = Some (Ok out) ->
  Forall good out /\ length out = length ts /\ Forall (fun pt' => flt (mis pt') (Fin tol) = true) (combine out ts).
Proof.
  induction fuel as [|fuel IH]; intros tol ts cnt ur extra pts out G N L; [discriminate|].
  destruct (search_step fuel tol ts cnt ur extra pts G N L) as (val & Ev & ->). cbv zeta.
  destruct (flt val (Fin tol)) eqn:C; cbn [andb negb].
  - destruct (3 <? extra + 1)%Z.
    + intros [= <-]. split; [exact G|]. split; [exact L|]. 
      pose proof (famax_all _ _ _ Ev C) as K. apply Forall_map in K. exact K.
    + destruct (cnt + 1 =? 1000)%Z; [discriminate|]. apply IH; auto using next_good, next_len, next_ne.
  - destruct (negb (extra =? 0)%Z); [discriminate|]. destruct (cnt + 1 =? 1000)%Z; [discriminate|].
    apply IH; auto using next_good, next_len, next_ne.
Qed.

Lemma search_terminates fuel : forall tol ts cnt ur extra pts, Forall good pts -> pts <> [] -> length pts = length ts ->
  (0 <= cnt < 1000)%Z -> (1000 - cnt <= Z.of_nat fuel)%Z ->
  (exists out, srch fuel tol ts cnt ur extra pts = Some (Ok out)) \/ srch fuel tol ts cnt ur extra pts = Some (Err RuntimeError).
Proof.
  induction fuel as [|fuel IH]; intros tol ts cnt ur extra pts G N L Hc Hf; [lia|].
  destruct (search_step fuel tol ts cnt ur extra pts G N L) as (val & Ev & ->). cbv zeta.
  destruct (flt val (Fin tol)); cbn [andb negb].
  - destruct (3 <? extra + 1)%Z; [left; eauto|]. destruct (Z.eqb_spec (cnt + 1) 1000); [now right|].
    apply IH; auto using next_good, next_len, next_ne; lia.
  - destruct (negb (extra =? 0)%Z); [now right|]. destruct (Z.eqb_spec (cnt + 1) 1000); [now right|].
    apply IH; auto using next_good, next_len, next_ne; lia.
Qed.

Lemma starts_good ts : Forall good (map (start nx nz nearest) ts).
Proof. apply Forall_map, Forall_forall. intros. apply start_good. Qed.

Lemma mismatch_true p t tol : pmask p = true -> flt (mis (p, t)) (Fin tol) = true ->
  exists x z, px p = Fin x /\ pz p = Fin z /\
    (let zi := qrem z (inject_Z nz) + inject_Z nz in dist2 (splR 0%nat 0%nat x zi, splZ 0%nat 0%nat x zi) t < tol).
Proof.
  intros Hm. unfold mis, mismatch, pos_of. cbn [fst snd]. rewrite Hm.
  destruct (px p) as [x| |], (pz p) as [z| |]; try discriminate.
  cbn. intros H. apply Qlt_bool_iff in H. do 2 eexists. split; [reflexivity|]. split; [reflexivity|].
  unfold dist2. cbn [fst snd]. eapply Qle_lt_trans; [|exact H]. apply Qle_lteq. right. ring.
Qed.

Lemma mismatch_nan p t tol : px p = NaN -> flt (mis (p, t)) (Fin tol) = false.
Proof. intros E. unfold mis, mismatch, pos_of. cbn [fst snd]. rewrite E. destruct (pmask p); reflexivity. Qed.

Lemma mark_good p t tol : good p -> flt (mis (p, t)) (Fin tol) = true ->
  good_index nx nz splR splZ tol t (mark nx p).
Proof.
  intros [G1 G2] H. unfold mark.
  destruct (low (px p)) eqn:L.
  - destruct (high (Fin (-(1)))); [apply outer_mark|apply inner_mark].
  - destruct (high (px p)) eqn:Hh; [apply outer_mark|].
    destruct (pmask p) eqn:Em.
    + destruct (mismatch_true p t tol Em H) as (x & z & Ex & Ez & D). rewrite Ex, Ez.
      rewrite Ex in L, Hh. cbn in L, Hh. unfold high_x in Hh. cbn in Hh.
      apply Qlt_bool_false_iff in L. apply Qlt_bool_false_iff in Hh. now apply interior.
    + destruct (G2 eq_refl) as [K|[K|K]]; [|congruence|congruence]. rewrite (mismatch_nan p t tol K) in H. discriminate.
Qed.

Lemma find_result fuel ts tol l : findIndex nx nz splR splZ nearest zneg fuel ts tol = Some (Ok l) ->
  Forall2 (good_index nx nz splR splZ tol) ts l.
Proof.
  unfold findIndex. destruct (search _ _ _ _ _ _ _ _ _ _ _ _) as [[out|e]|] eqn:E; [|discriminate|discriminate]. intros [= <-].
  destruct ts as [|t0 ts'] eqn:Et. { destruct fuel; discriminate. }
  rewrite <- Et in *. assert (N : map (start nx nz nearest) ts <> []) by (subst; discriminate).
  destruct (search_result _ _ _ _ _ _ _ _ (starts_good ts) N (map_length _ _) E) as (G & L & F).
  clear E N Et t0 ts'. revert ts L F. induction G as [|p out Gp G IH]; intros [|t ts] L F; try discriminate; cbn; constructor.
  - inversion F; subst. now apply mark_good.
  - apply IH; [now injection L|]. now inversion F.
Qed.

Lemma find_terminates fuel ts tol : (1000 <= fuel)%nat -> ts <> [] ->
  (exists l, findIndex nx nz splR splZ nearest zneg fuel ts tol = Some (Ok l)) \/
  findIndex nx nz splR splZ nearest zneg fuel ts tol = Some (Err RuntimeError).
Proof.
  intros Hf N. unfold findIndex.
  destruct (search_terminates fuel tol ts 0 1 0 (map (start nx nz nearest) ts) (starts_good ts)) as [[out ->]| ->];
    [destruct ts; [easy|discriminate]|apply map_length|lia|lia|left; eauto|now right].
Qed.

(** NaN stays *)
Lemma upd_nan ur p t pos a b : px p = NaN -> px (upd ur p t pos a b) = NaN.
Proof. intros E. unfold newton. rewrite E. cbn. reflexivity. Qed.

Lemma nan_fails fuel : forall tol ts cnt ur extra pts p t, Forall good pts -> length pts = length ts ->
  In (p, t) (combine pts ts) -> px p = NaN -> forall out, srch fuel tol ts cnt ur extra pts <> Some (Ok out).
Proof.
  induction fuel as [|fuel IH]; intros tol ts cnt ur extra pts p t G L Hin Hp out; [discriminate|].
  assert (N : pts <> []) by (intros ->; contradiction).
  destruct (search_step fuel tol ts cnt ur extra pts G N L) as (val & Ev & ->). cbv zeta.
  assert (V : val = NaN).
  { eapply famax_nan; [exact Ev|]. apply in_map_iff. exists (p, t). split; [|exact Hin].
    unfold mis, mismatch, pos_of. cbn [fst snd]. rewrite Hp. destruct (pmask p); reflexivity. }
  rewrite V. cbn. destruct (negb (extra =? 0)%Z); [discriminate|]. destruct (cnt + 1 =? 1000)%Z; [discriminate|].
  apply In_nth_error in Hin. destruct Hin as [i Hi].
  assert (Hi' : nth_error (combine (map (next (relax (cnt + 1) ur)) (combine pts ts)) ts) i = Some (next (relax (cnt + 1) ur) (p, t), t)).
  { clear -Hi. revert pts ts Hi. induction i as [|i IH]; intros [|p' pts] [|t' ts]; cbn; try discriminate.
    - intros [= -> ->]. reflexivity.
    - apply IH. }
  eapply IH; [now apply next_good|now apply next_len|eapply nth_error_In; exact Hi'|]. now apply upd_nan.
Qed.

(** the determinant of the derivatives at a start point *)
Definition det_at (x z : Q) : Q :=
  let zi := qrem z (inject_Z nz) + inject_Z nz in
  splR 1%nat 0%nat x zi * splZ 0%nat 1%nat x zi - splR 0%nat 1%nat x zi * splZ 1%nat 0%nat x zi.

Lemma singular_fails fuel ts tol t : In t ts ->
  let i := (nearest t / nz)%Z in
  (i = 0 \/ i = nx - 1)%Z -> det_at (inject_Z i) (inject_Z (nearest t - i * nz)) == 0 ->
  forall l, findIndex nx nz splR splZ nearest zneg fuel ts tol <> Some (Ok l).
Proof.
  intros Hin i Hi D l. unfold findIndex.
  assert (N : map (start nx nz nearest) ts <> []) by (destruct ts; [easy|discriminate]).
  assert (L : length (map (start nx nz nearest) ts) = length ts) by apply map_length.
  assert (NF : forall out, srch fuel tol ts 0 1 0 (map (start nx nz nearest) ts) <> Some (Ok out)).
  { intros out. destruct fuel as [|fuel]; [discriminate|].
    destruct (search_step fuel tol ts 0 1 0 _ (starts_good ts) N L) as (val & Ev & ->). cbv zeta. cbn [Z.add].
    apply In_nth_error in Hin. destruct Hin as [k Hk].
    assert (Hk' : nth_error (combine (map (next 1) (combine (map (start nx nz nearest) ts) ts)) ts) k = Some (next 1 (start nx nz nearest t, t), t)).
    { clear -Hk. revert k Hk. induction ts as [|t' ts IH]; intros [|k]; cbn; try discriminate.
      - intros [= ->]. reflexivity.
      - apply IH. }
    assert (X : px (next 1 (start nx nz nearest t, t)) = NaN).
    { unfold next, newton. cbn [fst snd].
      assert (Em : pmask (start nx nz nearest t) = false).
      { unfold start. fold i. cbn [pmask]. apply negb_false_iff, orb_true_iff. destruct Hi as [-> | ->].
        - left. reflexivity.
        - right. unfold high_x. cbn. apply Qlt_bool_iff. unfold Z.sub. rewrite inject_Z_plus, inject_Z_opp. change (inject_Z 1) with 1. lra. }
      rewrite Em. unfold start at 2 3 4 5 6 7 8 9 10 11 12. cbn [px pz]. fold i.
      unfold pos_of, start. cbn [px pz eval fst snd]. fold i. cbn [fmul fsub fopp fadd].
      cbn [fdiv].
      match goal with |- context [qzero ?d] => assert (Z0 : qzero d = true) end.
      { unfold qzero. apply Qeq_bool_iff. rewrite <- D. unfold det_at. cbv zeta. ring. }
      rewrite Z0. match goal with |- context [if qzero ?e then NaN else _] => destruct (qzero e) end; reflexivity. }
    destruct (flt val (Fin tol)); cbn [andb negb]; cbn.
    - intros C. eapply (nan_fails fuel); [| | |exact X|exact C].
      + apply next_good. apply starts_good.
      + now apply next_len.
      + eapply nth_error_In. exact Hk'.
    - intros C. eapply (nan_fails fuel); [| | |exact X|exact C].
      + apply next_good. apply starts_good.
      + now apply next_len.
      + eapply nth_error_In. exact Hk'. }
  destruct (search _ _ _ _ _ _ _ _ _ _ _ _) as [[out|e]|] eqn:E; try discriminate. now destruct (NF out).
Qed.
End F.

Lemma find_empty nx nz splR splZ nearest zneg fuel tol :
  findIndex nx nz splR splZ nearest zneg (S fuel) [] tol = Some (Err ValueError).
Proof. reflexivity. Qed.
