(** Proofs about smooth_metric. *)
From Coq Require Import String List ZArith QArith Bool Lia.
From Verif Require Import Prelude PreludeFacts SmoothMetricModel.
Import ListNotations.
Open Scope string_scope.

Lemma window_bounds nz : (1 <= nz)%nat -> Z.odd (window nz) = true /\ (1 <= window nz <= Z.of_nat nz)%Z /\ (window nz <= Z.of_nat nz / 2 + 2)%Z /\ (Z.of_nat nz / 2 <= window nz)%Z.
Proof.
  intros H. unfold window. set (m := ((Z.of_nat nz + 1) / 2 / 2)%Z).
  pose proof (Z.div_mod (Z.of_nat nz + 1) 2) as D1. pose proof (Z.mod_pos_bound (Z.of_nat nz + 1) 2) as B1.
  pose proof (Z.div_mod ((Z.of_nat nz + 1) / 2) 2) as D2. pose proof (Z.mod_pos_bound ((Z.of_nat nz + 1) / 2) 2) as B2. fold m in D2.
  pose proof (Z.div_mod (Z.of_nat nz) 2) as D3. pose proof (Z.mod_pos_bound (Z.of_nat nz) 2) as B3.
  split; [|lia]. rewrite Z.odd_add, Z.mul_comm, Z.odd_mul. reflexivity.
Qed.
Lemma window_seven nz : (7 < window nz)%Z <-> (15 <= nz)%nat.
Proof.
  unfold window. set (m := ((Z.of_nat nz + 1) / 2 / 2)%Z).
  pose proof (Z.div_mod (Z.of_nat nz + 1) 2) as D1. pose proof (Z.mod_pos_bound (Z.of_nat nz + 1) 2) as B1.
  pose proof (Z.div_mod ((Z.of_nat nz + 1) / 2) 2) as D2. pose proof (Z.mod_pos_bound ((Z.of_nat nz + 1) / 2) 2) as B2. fold m in D2. lia.
Qed.

Lemma mapM_ok {A B} (f : A -> res B) (g : A -> B) l : (forall a, In a l -> f a = Ok (g a)) -> mapM f l = Ok (map g l).
Proof.
  induction l as [|a l IH]; intros H; [reflexivity|]. cbn [mapM map]. rewrite H by now left. cbn [bind]. rewrite IH by (intros; apply H; now right). reflexivity.
Qed.
Lemma mapM_head_err {A B} (f : A -> res B) a l e : f a = Err e -> mapM f (a :: l) = Err e.
Proof. intros H. cbn [mapM]. now rewrite H. Qed.

Section Proofs.
Variable np_int : bool.
Variable savgol : list Q -> Z -> Z -> list Q.
Variable nx ny nz : nat.
Notation fil := (savgol_filter np_int savgol nz).
Notation all := (smooth_all np_int savgol nx ny nz).
Notation sm := (smooth_metric np_int savgol nx ny nz).

(** what a variable becomes *)
Definition smoothed (order : Z) (v : var) : var := fun x y z => nth z (savgol (map (v x y) (seq 0 nz)) (window nz) order) 0%Q.

Definition accepted (order : Z) : Prop := np_int = true /\ (1 <= nz)%nat /\ (order < window nz)%Z.

Lemma filter_ok order (v : var) x y : accepted order -> fil (map (v x y) (seq 0 nz)) order = Ok (savgol (map (v x y) (seq 0 nz)) (window nz) order).
Proof.
  intros (H1 & H2 & H3). unfold savgol_filter. rewrite H1. cbn [negb]. destruct (Z.leb_spec (window nz) order); [lia|].
  rewrite map_length, seq_length. destruct (window_bounds nz H2) as (_ & B & _). destruct (Z.ltb_spec (Z.of_nat nz) (window nz)); [lia|]. reflexivity.
Qed.

Definition upd (order : Z) (v s : var) (x y : nat) : var := fun x' y' z' => if ((x' =? x) && (y' =? y))%nat%bool then smoothed order v x y z' else s x' y' z'.
Lemma smooth_line_ok order v s x y : accepted order -> smooth_line np_int savgol nz v s order x y = Ok (upd order v s x y).
Proof. intros H. unfold smooth_line. rewrite filter_ok by exact H. reflexivity. Qed.

Lemma nth_combine_map (vs ss : list var) (g : var * var -> var) m d : length ss = length vs -> (m < length vs)%nat ->
  nth m (map g (combine vs ss)) d = g (nth m vs zeros3, nth m ss zeros3).
Proof.
  intros L H. rewrite (nth_indep _ d (g (zeros3, zeros3))) by (rewrite map_length, combine_length; lia).
  rewrite map_nth. now rewrite combine_nth.
Qed.

Lemma smooth_all_ok order vs : accepted order -> exists ss, all vs order = Ok ss /\ length ss = length vs /\
  forall m x y z, (m < length vs)%nat -> (x < nx)%nat -> (y < ny)%nat -> nth m ss zeros3 x y z = smoothed order (nth m vs zeros3) x y z.
Proof.
  intros H. unfold smooth_all.
  set (inner := fun (y : nat) (ss : list var) (x : nat) => mapM (fun p => smooth_line np_int savgol nz (fst p) (snd p) order x y) (combine vs ss)).
  set (Inv := fun (ys : list nat) (ss : list var) => length ss = length vs /\ forall m x y z, (m < length vs)%nat -> (x < nx)%nat -> In y ys -> nth m ss zeros3 x y z = smoothed order (nth m vs zeros3) x y z).
  destruct (foldM_inv Inv (fun ss y => foldM (inner y) (seq 0 nx) ss) (seq 0 ny) (map (fun _ => zeros3) vs)) as (ss & E & I).
  - split; [apply map_length|]. intros m x y z _ _ [].
  - intros pre y post ss _ [L I].
    set (Inv2 := fun (xs : list nat) (s2 : list var) => length s2 = length vs /\ forall m x y' z, (m < length vs)%nat -> (x < nx)%nat -> In y' pre \/ (y' = y /\ In x xs) -> nth m s2 zeros3 x y' z = smoothed order (nth m vs zeros3) x y' z).
    destruct (foldM_inv Inv2 (inner y) (seq 0 nx) ss) as (s2 & E2 & I2).
    + split; [exact L|]. intros m x y' z Hm Hx [Hy|[_ []]]. now apply I.
    + intros xs x xpost s2 _ [L2 J]. unfold inner. rewrite (mapM_ok _ (fun p => upd order (fst p) (snd p) x y)) by (intros; now apply smooth_line_ok).
      eexists; split; [reflexivity|]. split; [rewrite map_length, combine_length; lia|].
      intros m x' y' z Hm Hx' Hy. rewrite nth_combine_map by (lia || assumption). cbn [fst snd]. unfold upd.
      destruct (Nat.eqb_spec x' x) as [->|Nx]; destruct (Nat.eqb_spec y' y) as [->|Ny]; cbn [andb].
      * reflexivity.
      * apply J; [assumption|assumption|]. destruct Hy as [Hy|[Hy _]]; [now left|contradiction].
      * apply J; [assumption|assumption|]. destruct Hy as [Hy|[_ Hy]]; [now left|]. apply in_app_or in Hy. destruct Hy as [Hy|[->|[]]]; [now right|contradiction].
      * apply J; [assumption|assumption|]. destruct Hy as [Hy|[Hy _]]; [now left|contradiction].
    + exists s2. split; [exact E2|]. destruct I2 as [L2 I2]. split; [exact L2|]. intros m x y' z Hm Hx Hy. apply I2; [assumption|assumption|].
      apply in_app_or in Hy. destruct Hy as [Hy|[->|[]]]; [now left|right]. split; [reflexivity|apply in_seq; lia].
  - exists ss. destruct I as [L I]. split; [exact E|]. split; [exact L|]. intros m x y z Hm Hx Hy. apply I; [assumption|assumption|apply in_seq; lia].
Qed.

Lemma smooth_all_err order v vs e : (0 < nx)%nat -> (0 < ny)%nat -> (forall x y, fil (map (v x y) (seq 0 nz)) order = Err e) -> all (v :: vs) order = Err e.
Proof.
  intros Hx Hy H. unfold smooth_all. destruct ny as [|ny']; [lia|]. destruct nx as [|nx']; [lia|]. cbn [seq foldM map combine mapM].
  unfold smooth_line at 1. cbn [fst snd]. rewrite H. reflexivity.
Qed.

(** ** the whole function *)
Definition has (f : file) (smooth : bool) : Prop := forall k, In k (names smooth) -> exists v, f k = Some v.
Definition get (f : file) (k : string) : var := match f k with Some v => v | None => zeros3 end.
Lemma reads_ok f smooth : has f smooth -> mapM (read f) (names smooth) = Ok (map (get f) (names smooth)).
Proof. intros H. apply mapM_ok. intros k Hk. unfold read, get. destruct (H k Hk) as [v ->]. reflexivity. Qed.

Definition written (smooth : bool) : list string := "J" :: (if smooth then ["g11"; "g_11"; "g13"; "g_13"; "g33"; "g_33"] else []).

Lemma fold_write (f : file) (l : list (string * var)) k : NoDup (map fst l) ->
  fold_left (fun f p => write f (fst p) (snd p)) l f k = match find (fun p => String.eqb (fst p) k) l with Some p => Some (snd p) | None => f k end.
Proof.
  revert f. induction l as [|p l IH]; intros f ND; [reflexivity|]. cbn [fold_left find]. inversion ND as [|? ? NI ND']. subst. rewrite IH by exact ND'.
  destruct (String.eqb_spec (fst p) k) as [E|E].
  - destruct (find _ l) as [p'|] eqn:F.
    + exfalso. apply find_some in F. destruct F as [I F]. apply String.eqb_eq in F. apply NI. rewrite E, <- F. now apply in_map.
    + unfold write. rewrite E. now rewrite String.eqb_refl.
  - destruct (find _ l); [reflexivity|]. unfold write. destruct (String.eqb_spec k (fst p)); [congruence|reflexivity].
Qed.

Lemma combine_skip_names smooth (ss : list var) : length ss = length (names smooth) -> map fst (skipn 3 (combine (names smooth) ss)) = written smooth.
Proof.
  intros L. destruct smooth; cbn in L; do 4 (destruct ss as [|? ss]; [discriminate|]); try (do 6 (destruct ss as [|? ss]; [discriminate|])); reflexivity.
Qed.
Lemma written_NoDup smooth : NoDup (written smooth).
Proof. destruct smooth; cbn; repeat (apply NoDup_cons; [cbn; intuition discriminate|]); apply NoDup_nil. Qed.

Lemma find_names smooth (ss : list var) k : length ss = length (names smooth) ->
  match find (fun p => String.eqb (fst p) k) (skipn 3 (combine (names smooth) ss)) with
  | Some p => In k (written smooth) /\ exists m, (m < length (names smooth))%nat /\ nth m (names smooth) "" = k /\ snd p = nth m ss zeros3
  | None => ~ In k (written smooth)
  end.
Proof.
  intros L. destruct (find _ _) as [p|] eqn:F.
  - apply find_some in F. destruct F as [I E]. apply String.eqb_eq in E. split.
    + rewrite <- (combine_skip_names smooth ss L), <- E. now apply in_map.
    + assert (I2 : In p (combine (names smooth) ss)) by (rewrite <- (firstn_skipn 3 (combine (names smooth) ss)); apply in_or_app; now right).
      destruct (In_nth _ _ ("", zeros3) I2) as (m & Hm & N). rewrite combine_length in Hm. rewrite combine_nth in N by lia. exists m. split; [lia|]. subst p. cbn [fst snd] in *. now split.
  - rewrite <- (combine_skip_names smooth ss L). intros I. apply in_map_iff in I. destruct I as (p & E & I). apply (find_none _ _ F) in I. apply String.eqb_neq in I. contradiction.
Qed.

Lemma metric_ok f w r smooth order : has f smooth -> accepted order -> exists f' out, sm f w r smooth order = Ok (f', out) /\
  (forall k, In k (written smooth) -> w = true -> exists v, f' k = Some v /\ forall x y z, (x < nx)%nat -> (y < ny)%nat -> v x y z = smoothed order (get f k) x y z) /\
  (forall k, ~ In k (written smooth) \/ w = false -> f' k = f k) /\
  (if r then exists a b c, out = Some [a; b; c; get f "bxcvx"; get f "bxcvy"; get f "bxcvz"] /\
     forall x y z, (x < nx)%nat -> (y < ny)%nat -> a x y z = smoothed order (get f "bxcvx") x y z /\ b x y z = smoothed order (get f "bxcvy") x y z /\ c x y z = smoothed order (get f "bxcvz") x y z
   else out = None).
Proof.
  intros Hf Ha. unfold smooth_metric. rewrite reads_ok by exact Hf. cbn [bind].
  destruct (smooth_all_ok order (map (get f) (names smooth)) Ha) as (ss & E & L & V). rewrite E. cbn [bind]. rewrite map_length in L, V.
  eexists _, _. split; [reflexivity|].
  assert (V' : forall m x y z, (m < length (names smooth))%nat -> (x < nx)%nat -> (y < ny)%nat -> nth m ss zeros3 x y z = smoothed order (get f (nth m (names smooth) "")) x y z).
  { intros m x y z Hm Hx Hy. rewrite V by assumption. rewrite (nth_indep _ zeros3 (get f "")) by (rewrite map_length; exact Hm). now rewrite map_nth. }
  split; [|split].
  - intros k Hk ->. rewrite fold_write by (rewrite combine_skip_names by exact L; apply written_NoDup).
    pose proof (find_names smooth ss k L) as F. destruct (find _ _) as [p|]; [|contradiction]. destruct F as (_ & m & Hm & Nk & ->).
    exists (nth m ss zeros3). split; [reflexivity|]. intros x y z Hx Hy. rewrite V' by assumption. now rewrite Nk.
  - intros k Hk. destruct w; [|reflexivity]. destruct Hk as [Hk|]; [|discriminate]. rewrite fold_write by (rewrite combine_skip_names by exact L; apply written_NoDup).
    pose proof (find_names smooth ss k L) as F. destruct (find _ _) as [p|]; [destruct F; contradiction|reflexivity].
  - destruct r; [|reflexivity]. exists (nth 0 ss zeros3), (nth 2 ss zeros3), (nth 1 ss zeros3). split; [destruct smooth; reflexivity|].
    assert (4 <= length (names smooth))%nat by (destruct smooth; cbn; lia).
    intros x y z Hx Hy. rewrite !V' by (assumption || lia). destruct smooth; now repeat split.
Qed.

Lemma metric_err f w r smooth order : has f smooth -> (0 < nx)%nat -> (0 < ny)%nat -> ~ accepted order ->
  sm f w r smooth order = Err (if np_int then ValueError else OtherError).
Proof.
  intros Hf Hx Hy Ha. unfold smooth_metric. rewrite reads_ok by exact Hf. cbn [bind].
  assert (E : exists v vs, map (get f) (names smooth) = v :: vs) by (destruct smooth; cbn; eauto). destruct E as (v & vs & ->).
  rewrite (smooth_all_err order v vs (if np_int then ValueError else OtherError) Hx Hy); [reflexivity|].
  intros x y. unfold savgol_filter. destruct np_int eqn:P; [|reflexivity]. cbn [negb].
  destruct (Z.leb_spec (window nz) order); [reflexivity|]. rewrite map_length, seq_length. destruct (Z.ltb_spec (Z.of_nat nz) (window nz)) as [|G]; [reflexivity|].
  exfalso. apply Ha. split; [exact P|]. split; [|lia]. destruct nz; [|lia]. exfalso. cbn in G. lia.
Qed.
End Proofs.

(** ** Order 0 on lines of three points: the mean *)
Definition mean3 (l : list Q) (w o : Z) : list Q := match l with [a; b; c] => repeat (Qred ((a + b + c) / 3)) 3 | _ => l end.
Definition w_file : file := fun k =>
  if String.eqb k "g11" then Some (fun _ _ z => nth z [1; 2; 4] 0)%Q
  else if String.eqb k "g_11" then Some (fun _ _ z => nth z [1; 1 # 2; 1 # 4] 0)%Q
  else if existsb (String.eqb k) (names true) then Some zeros3 else None.
Lemma w_has : has w_file true.
Proof. intros k Hk. cbn in Hk. repeat (destruct Hk as [<-|Hk]; [eexists; reflexivity|]). destruct Hk. Qed.
Lemma w_inverse : exists f' out a b, smooth_metric true mean3 1 1 3 w_file true false true 0 = Ok (f', out) /\ f' "g11" = Some a /\ f' "g_11" = Some b /\
  (forall z, (z < 3)%nat -> get w_file "g11" 0 0 z * get w_file "g_11" 0 0 z == 1)%Q /\ (a 0 0 1 * b 0 0 1 == 49 # 36)%nat%Q.
Proof.
  destruct (metric_ok true mean3 1 1 3 w_file true false true 0 w_has) as (f' & out & E & W & _); [repeat split; lia|].
  destruct (W "g11") as (a & Ea & Va); [cbn; tauto|reflexivity|]. destruct (W "g_11") as (b & Eb & Vb); [cbn; tauto|reflexivity|].
  exists f', out, a, b. split; [exact E|]. split; [exact Ea|]. split; [exact Eb|]. split.
  - intros z Hz. destruct z as [|[|[|z]]]; [reflexivity|reflexivity|reflexivity|lia].
  - rewrite Va, Vb by lia. vm_compute. reflexivity.
Qed.
