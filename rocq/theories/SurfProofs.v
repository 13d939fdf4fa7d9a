(** Proofs about make_surfaces, write_Bfield_to_vtk, plot_streamlines and AnimateVectorField. *)
From Coq Require Import String List ZArith QArith Qfield Lia Lqa Bool.
From Verif Require Import Prelude PreludeFacts GridModel MapsModel TracerModel TracerSpec TracerProofs PoincareProofs VtkModel SurfModel.
Import ListNotations.
Open Scope list_scope.
Open Scope Q_scope.

Lemma amax_spec l m : amax l = Ok m -> In m l /\ forall a, In a l -> a <= m.
Proof.
  destruct l as [|a t]; [discriminate|]. cbn. intros E. injection E as E.
  assert (K : forall t a m, fold_left (fun m b => if Qlt_bool m b then b else m) t a = m -> (m = a \/ In m t) /\ a <= m /\ forall b, In b t -> b <= m).
  { clear. induction t as [|b t IH]; cbn; intros a m E; [subst; split; [now left|split; [lra|intros b []]]|].
    apply IH in E. destruct E as (E1 & E2 & E3). destruct (Qlt_bool a b) eqn:C.
    - apply Qlt_bool_iff in C. split; [destruct E1; subst; tauto|]. split; [lra|]. intros c [<-|Hc]; [exact E2|now apply E3].
    - apply Qlt_bool_false_iff in C. split; [destruct E1; subst; tauto|]. split; [exact E2|]. intros c [<-|Hc]; [lra|now apply E3]. }
  apply K in E. destruct E as (E1 & E2 & E3). split; [destruct E1; subst; tauto|]. intros b [<-|Hb]; [exact E2|now apply E3].
Qed.
Lemma amax_ok l : l <> [] -> exists m, amax l = Ok m.
Proof. destruct l; [contradiction|]. intros _. eexists. reflexivity. Qed.

Lemma mapM_inv {A B} (f : A -> res B) l r : mapM f l = Ok r -> length r = length l /\ forall k a d d', nth_error l k = Some a -> f (nth k l d') = Ok (nth k r d).
Proof.
  revert r. induction l as [|a l IH]; cbn; intros r E.
  - injection E as <-. split; [reflexivity|]. intros [|k] b d d' H; discriminate.
  - destruct (f a) as [b|] eqn:Ef; cbn in E; [|discriminate]. destruct (mapM f l) as [t|] eqn:Et; cbn in E; [|discriminate]. injection E as <-.
    destruct (IH t eq_refl) as (L & N). split; [cbn; lia|]. intros [|k] c d d' H; cbn in H |- *; [exact Ef|eapply N; exact H].
Qed.

Lemma revolve_head yperiod slices revs : slices <> [] -> hd 0 (revolve yperiod slices revs) = hd 0 slices.
Proof.
  intros N. unfold revolve. enough (K : forall l acc, acc <> [] -> hd 0 (fold_left (fun acc n => acc ++ map (fun y => inject_Z (Z.of_nat n) * yperiod + y) (firstn (length slices) acc)) l acc) = hd 0 acc) by now apply K.
  induction l as [|n l IH]; cbn [fold_left]; intros acc Na; [reflexivity|]. rewrite IH; destruct acc; try contradiction; try discriminate. reflexivity.
Qed.
Lemma phi_revolve g yarray revs L : o_Ly g = Some L -> o_ny g = Some (length yarray) -> phi_values g yarray revs = Ok (revolve L yarray revs).
Proof.
  intros E1 E2. unfold phi_values, revolve. rewrite E1, E2. cbn [attr bind]. generalize yarray at 2 4. generalize (seq 1 (revs - 1)).
  induction l as [|n l IH]; intros acc; cbn; [reflexivity|apply IH].
Qed.

(** the loop over the slices *)
Lemma planes (F : nat -> res (Q -> Q -> Q)) m0 m2 (v : (Q -> Q -> Q) -> Z -> Z -> Q) a0 m psi :
  foldM (fun psi y => let* f := F y in put_plane psi y m0 m2 (v f)) (seq 0 m) a0 = Ok psi ->
  n0 psi = n0 a0 /\ n1 psi = n1 a0 /\ n2 psi = n2 a0 /\
  forall y, (y < m)%nat -> exists f, F y = Ok f /\ (fits m0 (n0 a0) && fits m2 (n2 a0))%bool = true /\ forall i k, at3 psi i (Z.of_nat y) k = v f (pick m0 i) (pick m2 k).
Proof.
  revert psi. induction m as [|m IH]; intros psi E.
  - cbn in E. injection E as <-. repeat split. intros y Hy. lia.
  - rewrite seq_S, foldM_app in E. destruct (foldM _ (seq 0 m) a0) as [p|] eqn:Ep; cbn in E; [|discriminate].
    destruct (IH p eq_refl) as (S0 & S1 & S2 & H). destruct (F m) as [f|] eqn:Ef; cbn in E; [|discriminate].
    destruct (put_plane p m m0 m2 (v f)) as [q|] eqn:Eq; cbn in E; [|discriminate]. injection E as <-.
    unfold put_plane in Eq. destruct (negb (m <? n1 p)%nat); [discriminate|]. destruct (fits m0 (n0 p) && fits m2 (n2 p))%bool eqn:Ft; cbn in Eq; [|discriminate].
    injection Eq as <-. cbn. repeat split; try assumption. rewrite S0, S2 in Ft. intros y Hy. destruct (Nat.eq_dec y m) as [->|N].
    + exists f. repeat split; [exact Ef|exact Ft|]. intros i k. now rewrite Z.eqb_refl.
    + destruct (H y ltac:(lia)) as (f' & E1 & E2 & E3). exists f'. repeat split; [exact E1|exact E2|]. intros i k.
      replace (Z.of_nat y =? Z.of_nat m)%Z with false by (symmetry; apply Z.eqb_neq; lia). apply E3.
Qed.
Lemma planes_ok (F : nat -> res (Q -> Q -> Q)) m0 m2 (v : (Q -> Q -> Q) -> Z -> Z -> Q) a0 m :
  (forall y, (y < m)%nat -> exists f, F y = Ok f) -> (m <= n1 a0)%nat -> m0 = n0 a0 -> m2 = n2 a0 ->
  exists psi, foldM (fun psi y => let* f := F y in put_plane psi y m0 m2 (v f)) (seq 0 m) a0 = Ok psi.
Proof.
  induction m as [|m IH]; intros HF Hm E0 E2; [eexists; reflexivity|].
  destruct IH as (p & Ep); [intros y Hy; apply HF; lia|lia|exact E0|exact E2|].
  rewrite seq_S, foldM_app, Ep. cbn. destruct (HF m ltac:(lia)) as (f & ->). cbn. unfold put_plane.
  destruct (planes F m0 m2 v a0 m p Ep) as (-> & -> & -> & _). replace (m <? n1 a0)%nat with true by (symmetry; apply Nat.ltb_lt; lia). cbn.
  unfold fits. rewrite E0, E2, !Nat.eqb_refl. cbn. eexists. reflexivity.
Qed.
Lemma pick_in have i : (0 <= i < Z.of_nat have)%Z -> pick have i = i.
Proof. intros H. unfold pick. destruct (have =? 1)%nat eqn:E; [apply Nat.eqb_eq in E; lia|reflexivity]. Qed.

Lemma nth_list_prod {A B} (a : list A) (b : list B) n s da db : (n < length a)%nat -> (s < length b)%nat ->
  nth (n * length b + s) (list_prod a b) (da, db) = (nth n a da, nth s b db).
Proof.
  revert n. induction a as [|x a IH]; cbn; intros n Hn Hs; [lia|]. destruct n as [|n].
  - rewrite app_nth1 by (rewrite map_length; cbn; lia). cbn. now rewrite (nth_map' (fun y => (x, y)) b s (da, db) db) by exact Hs.
  - rewrite app_nth2 by (rewrite map_length; cbn; lia). rewrite map_length. replace (S n * length b + s - length b)%nat with (n * length b + s)%nat by (cbn; lia). apply IH; lia.
Qed.

Lemma linspace_nth stop n s : (s < n)%nat -> (n <> 1)%nat -> nth s (linspace stop n true) 0 == inject_Z (Z.of_nat s) / inject_Z (Z.of_nat n - 1) * stop.
Proof.
  intros Hs Hn. unfold linspace. rewrite (nth_map' _ _ s 0 0%nat) by (rewrite seq_length; exact Hs). rewrite seq_nth by exact Hs. cbn [Nat.add].
  destruct (Z.of_nat n - 1 =? 0)%Z eqn:E; [apply Z.eqb_eq in E; lia|].
  assert (~ inject_Z (Z.of_nat n - 1) == 0) by (unfold Qeq; cbn; apply Z.eqb_neq in E; lia). now field.
Qed.

Section Surfaces.
Variable odeint : list Q -> list Q -> list (list Q).
Variable limit : nat.
Variable griddata : list (Q * Q) -> list Q -> res (Q -> Q -> Q).
Hypothesis Hl : (0 < limit)%nat.
Variable flow : Q * Q -> Q -> Q -> Q * Q.
Hypothesis Hp : pointwise odeint flow.

(** the run up to the interpolation *)
Lemma surfaces_traced xc m zc (yarray : list Q) L nsurfaces revs : nsurfaces <> 1%nat -> (1 <= revs)%nat -> (2 <= revs * length yarray)%nat ->
  let xpos := map (fun d => xc + d) (linspace ((1 # 2) * m) nsurfaces true) in
  let ny := length yarray in
  exists r p, follow odeint limit {| shape := [nsurfaces]; data := xpos |} {| shape := [1%nat]; data := [zc] |} (revolve L yarray revs) = Ok r /\
    reshape [revs; ny; nsurfaces; 2%nat] (data r) = Ok p /\
    forall n y s c, (n < revs)%nat -> (y < ny)%nat -> (s < nsurfaces)%nat -> (c < 2)%nat ->
      nth (((n * ny + y) * nsurfaces + s) * 2 + c) (data p) 0 = component c (flow (nth s xpos 0, zc) (hd 0 yarray) (nth (n * ny + y) (revolve L yarray revs) 0)).
Proof.
  intros Hn Hr H2 xpos ny. assert (Hy : yarray <> []) by (intros ->; cbn in H2; lia).
  destruct (revolve_spec L yarray revs Hr) as (Lr & _).
  set (x := {| shape := [nsurfaces]; data := xpos |}). set (z := {| shape := [1%nat]; data := [zc] |}).
  assert (Wx : wf x) by (unfold wf, size; cbn; unfold xpos, linspace; rewrite !map_length, seq_length; lia).
  assert (Wz : wf z) by reflexivity.
  assert (St : starts x z [nsurfaces] (get x) (fun _ => get z [0%nat])).
  { apply (starts_z x z); cbn; [intros E; injection E as E; lia|unfold size; cbn; lia|reflexivity|lia]. }
  destruct (follow_pointwise odeint limit flow x z (revolve L yarray revs) [nsurfaces] (get x) (fun _ => get z [0%nat]) Hl Hp ltac:(lia) Wx Wz St) as (r & Er & Sr & Wr & Gr).
  assert (Lp : length (data r) = (revs * (ny * (nsurfaces * 2)))%nat) by (unfold wf, size in Wr; rewrite Wr, Sr, Lr; cbn; unfold ny; lia).
  exists r, {| shape := [revs; ny; nsurfaces; 2%nat]; data := data r |}. split; [exact Er|]. split.
  - unfold reshape. replace (nsize [revs; ny; nsurfaces; 2%nat] =? length (data r))%nat with true; [reflexivity|]. symmetry. apply Nat.eqb_eq. rewrite Lp. cbn. lia.
  - intros n y s c Hn' Hy' Hs Hc. cbn [data]. specialize (Gr (n * ny + y)%nat [s] c). rewrite revolve_head in Gr by exact Hy.
    unfold get in Gr at 1. rewrite Sr in Gr. cbn [app offset nsize] in Gr.
    replace ((n * ny + y) * (nsurfaces * (2 * 1)) + (s * (2 * 1) + (c * 1 + 0)))%nat with (((n * ny + y) * nsurfaces + s) * 2 + c)%nat in Gr by lia.
    rewrite Gr; [|rewrite Lr; fold ny; nia|constructor; [exact Hs|constructor]|exact Hc].
    unfold get at 1 2. cbn [shape data offset nsize x z]. replace (s * 1 + 0)%nat with s by lia. reflexivity.
Qed.

Lemma surfaces_spec g xc zc xarray yarray zarray x3 L nsurfaces revs psi m :
  o_xcentre g = Some xc -> o_zcentre g = Some zc -> o_xarray g = Some xarray -> o_yarray g = Some yarray -> o_zarray g = Some zarray ->
  o_x_3d g = Some x3 -> o_ny g = Some (length yarray) -> o_Ly g = Some L -> amax xarray = Ok m ->
  (1 <= revs)%nat -> (2 <= revs * length yarray)%nat -> n0 x3 = length xarray -> n2 x3 = length zarray ->
  make_surfaces odeint limit griddata g nsurfaces revs = Ok psi ->
  nsurfaces <> 1%nat /\ n0 psi = n0 x3 /\ n1 psi = n1 x3 /\ n2 psi = n2 x3 /\
  forall y, (y < length yarray)%nat -> exists P v f, griddata P v = Ok f /\ length P = (revs * nsurfaces)%nat /\ length v = (revs * nsurfaces)%nat /\
    (forall n s, (n < revs)%nat -> (s < nsurfaces)%nat -> exists x t,
       x == xc + inject_Z (Z.of_nat s) / inject_Z (Z.of_nat nsurfaces - 1) * ((1 # 2) * m) /\ t == nth y yarray 0 + inject_Z (Z.of_nat n) * L /\
       nth (n * nsurfaces + s) P (0, 0) = flow (x, zc) (hd 0 yarray) t /\
       nth (n * nsurfaces + s) v 0 == inject_Z (Z.of_nat s) / inject_Z (Z.of_nat nsurfaces - 1)) /\
    forall i k, (i < length xarray)%nat -> (k < length zarray)%nat -> at3 psi (Z.of_nat i) (Z.of_nat y) (Z.of_nat k) = f (nth i xarray 0) (nth k zarray 0).
Proof.
  intros E1 E2 E3 E4 E5 E6 E7 E8 Em Hr H2 D0 D2 E. unfold make_surfaces in E. rewrite E1, E3 in E. cbn [attr bind] in E. rewrite Em in E. cbn [bind] in E.
  rewrite E2, E4 in E. cbn [attr bind] in E. rewrite (phi_revolve g yarray revs L E8 E7) in E. cbn [bind] in E.
  assert (N1 : nsurfaces <> 1%nat).
  { intros ->. destruct (follow odeint limit _ _ _) as [r|]; cbn [bind] in E; [|discriminate]. rewrite E7 in E. cbn [attr bind] in E.
    destruct (reshape _ _) as [p|]; cbn in E; discriminate. }
  destruct (surfaces_traced xc m zc yarray L nsurfaces revs N1 Hr H2) as (r & p & Er & Ep & H). rewrite Er in E. cbn [bind] in E. rewrite E7 in E. cbn [attr bind] in E.
  rewrite Ep in E. cbn [bind] in E. destruct (mapM (psi_of nsurfaces) (seq 0 nsurfaces)) as [psis|] eqn:Eps; cbn [bind] in E; [|discriminate].
  rewrite E5, E6 in E. cbn [attr bind] in E. cbv zeta in E.
  apply (planes (fun y => griddata _ _) _ _ (fun f i k => f (entry xarray i) (entry zarray k))) in E. cbn [n0 n1 n2] in E. destruct E as (S0 & S1 & S2 & E).
  split; [exact N1|]. split; [exact S0|]. split; [exact S1|]. split; [exact S2|]. intros y Hy. destruct (E y Hy) as (f & Ef & _ & Hf).
  eexists _, _, f. split; [exact Ef|]. split; [rewrite map_length, prod_length, !seq_length; reflexivity|]. split; [rewrite map_length, prod_length, !seq_length; reflexivity|].
  assert (Np : forall n s, (n < revs)%nat -> (s < nsurfaces)%nat -> nth (n * nsurfaces + s) (list_prod (seq 0 revs) (seq 0 nsurfaces)) (0%nat, 0%nat) = (n, s)).
  { intros n s Hn Hs. pose proof (nth_list_prod (seq 0 revs) (seq 0 nsurfaces) n s 0%nat 0%nat) as K. rewrite !seq_length in K. rewrite K by assumption. now rewrite !seq_nth by assumption. }
  split.
  - intros n s Hn Hs. assert (Ln : (n * nsurfaces + s < length (list_prod (seq 0 revs) (seq 0 nsurfaces)))%nat) by (rewrite prod_length, !seq_length; nia).
    exists (nth s (map (fun d => xc + d) (linspace ((1 # 2) * m) nsurfaces true)) 0), (nth (n * length yarray + y) (revolve L yarray revs) 0).
    split; [|split; [|split]].
    + rewrite (nth_map' _ _ s 0 0) by (unfold linspace; now rewrite map_length, seq_length). rewrite linspace_nth by assumption. reflexivity.
    + rewrite (proj2 (revolve_spec L yarray revs Hr)) by assumption. ring.
    + rewrite (nth_map' _ _ _ (0, 0) (0%nat, 0%nat)) by exact Ln. rewrite Np by assumption. cbn [fst snd].
      rewrite !H by (assumption || lia). cbn [component]. now destruct (flow _ _ _).
    + rewrite (nth_map' _ _ _ 0 (0%nat, 0%nat)) by exact Ln. rewrite Np by assumption. cbn [fst snd].
      destruct (mapM_inv _ _ _ Eps) as (_ & K). assert (Ns : nth_error (seq 0 nsurfaces) s = Some s).
      { rewrite nth_error_nth' with (d := 0%nat) by (rewrite seq_length; exact Hs). now rewrite seq_nth by exact Hs. }
      specialize (K s s 0 0%nat Ns). rewrite seq_nth in K by exact Hs. cbn [Nat.add] in K. unfold psi_of in K.
      destruct (nsurfaces =? 1)%nat; [discriminate|]. injection K as <-. reflexivity.
  - intros i k Hi Hk. rewrite Hf. rewrite !pick_in by lia. unfold entry. now rewrite !Nat2Z.id.
Qed.

Lemma surfaces_ok g xc zc xarray yarray zarray x3 L nsurfaces revs :
  o_xcentre g = Some xc -> o_zcentre g = Some zc -> o_xarray g = Some xarray -> o_yarray g = Some yarray -> o_zarray g = Some zarray ->
  o_x_3d g = Some x3 -> o_ny g = Some (length yarray) -> o_Ly g = Some L -> xarray <> [] ->
  (1 <= revs)%nat -> (2 <= revs * length yarray)%nat -> n0 x3 = length xarray -> n1 x3 = length yarray -> n2 x3 = length zarray -> nsurfaces <> 1%nat ->
  (forall P v, length P = length v -> exists f, griddata P v = Ok f) -> exists psi, make_surfaces odeint limit griddata g nsurfaces revs = Ok psi.
Proof.
  intros E1 E2 E3 E4 E5 E6 E7 E8 Hx Hr H2 D0 D1 D2 N1 HG. destruct (amax_ok xarray Hx) as (m & Em). unfold make_surfaces. rewrite E1, E3. cbn [attr bind]. rewrite Em. cbn [bind].
  rewrite E2, E4. cbn [attr bind]. rewrite (phi_revolve g yarray revs L E8 E7). cbn [bind].
  destruct (surfaces_traced xc m zc yarray L nsurfaces revs N1 Hr H2) as (r & p & Er & Ep & H). rewrite Er. cbn [bind]. rewrite E7. cbn [attr bind].
  rewrite Ep. cbn [bind]. assert (exists psis, mapM (psi_of nsurfaces) (seq 0 nsurfaces) = Ok psis) as (psis & ->).
  { clear - N1. induction (seq 0 nsurfaces) as [|s l IH]; [eexists; reflexivity|]. cbn. unfold psi_of at 1. destruct (nsurfaces =? 1)%nat eqn:E; [apply Nat.eqb_eq in E; contradiction|].
    destruct IH as (t & ->). eexists. reflexivity. }
  cbn [bind]. rewrite E5, E6. cbn [attr bind]. cbv zeta.
  apply (planes_ok (fun y => griddata _ _) _ _ (fun f i k => f (entry xarray i) (entry zarray k))); cbn [n0 n1 n2]; try lia.
  intros y Hy. apply HG. now rewrite !map_length.
Qed.

Lemma one_surface g xc zc xarray yarray L revs :
  o_xcentre g = Some xc -> o_zcentre g = Some zc -> o_xarray g = Some xarray -> o_yarray g = Some yarray -> o_ny g = Some (length yarray) -> o_Ly g = Some L -> xarray <> [] ->
  (1 <= revs)%nat -> (2 <= revs * length yarray)%nat -> make_surfaces odeint limit griddata g 1 revs = Err ZeroDivisionError.
Proof.
  intros E1 E2 E3 E4 E7 E8 Hx Hr H2. destruct (amax_ok xarray Hx) as (m & Em). unfold make_surfaces. rewrite E1, E3. cbn [attr bind]. rewrite Em. cbn [bind].
  rewrite E2, E4. cbn [attr bind]. rewrite (phi_revolve g yarray revs L E8 E7). cbn [bind].
  destruct (revolve_spec L yarray revs Hr) as (Lr & _).
  set (x := {| shape := [1%nat]; data := _ |}). set (z := {| shape := [1%nat]; data := [zc] |}).
  destruct (follow_pointwise odeint limit flow x z (revolve L yarray revs) [1%nat] (get x) (get z) Hl Hp ltac:(lia) eq_refl eq_refl (starts_same x z eq_refl)) as (r & Er & Sr & Wr & _).
  rewrite Er. cbn [bind]. rewrite E7. cbn [attr bind]. unfold reshape.
  assert (Lp : length (data r) = (revs * (length yarray * 2))%nat) by (unfold wf, size in Wr; rewrite Wr, Sr, Lr; cbn; lia).
  replace (nsize [revs; length yarray; 1%nat; 2%nat] =? length (data r))%nat with true by (symmetry; apply Nat.eqb_eq; rewrite Lp; cbn; lia). reflexivity.
Qed.
End Surfaces.

Lemma slice_T_ok a y : (- Z.of_nat (n1 a) <= y < Z.of_nat (n1 a))%Z -> slice_T a y = Ok (fun r c => at3 a c (y mod Z.of_nat (n1 a))%Z r).
Proof.
  intros H. unfold slice_T. replace ((- Z.of_nat (n1 a) <=? y) && (y <? Z.of_nat (n1 a)))%Z%bool with true by (symmetry; apply andb_true_iff; split; [apply Z.leb_le|apply Z.ltb_lt]; lia).
  destruct (y <? 0)%Z eqn:C; [apply Z.ltb_lt in C|apply Z.ltb_ge in C].
  - replace (y mod Z.of_nat (n1 a))%Z with (y + Z.of_nat (n1 a))%Z; [reflexivity|]. apply (Z.mod_unique y _ (-1)); lia.
  - rewrite Z.mod_small by lia. reflexivity.
Qed.
Lemma slice_T_err a y : ~ (- Z.of_nat (n1 a) <= y < Z.of_nat (n1 a))%Z -> slice_T a y = Err IndexError.
Proof.
  intros H. unfold slice_T. destruct ((- Z.of_nat (n1 a) <=? y) && (y <? Z.of_nat (n1 a)))%Z%bool eqn:C; [|reflexivity].
  apply andb_true_iff in C. destruct C as (C1 & C2). apply Z.leb_le in C1. apply Z.ltb_lt in C2. lia.
Qed.
Lemma entries_in a v : In v (entries a) <-> exists i j k, (0 <= i < Z.of_nat (n0 a))%Z /\ (0 <= j < Z.of_nat (n1 a))%Z /\ (0 <= k < Z.of_nat (n2 a))%Z /\ v = at3 a i j k.
Proof.
  unfold entries. rewrite in_flat_map. split.
  - intros (i & Hi & H). apply in_flat_map in H. destruct H as (j & Hj & H). apply in_map_iff in H. destruct H as (k & <- & Hk). apply in_zrange in Hi, Hj, Hk. exists i, j, k. tauto.
  - intros (i & j & k & Hi & Hj & Hk & ->). exists i. split; [now apply in_zrange|]. apply in_flat_map. exists j. split; [now apply in_zrange|]. apply in_map_iff. exists k. split; [reflexivity|now apply in_zrange].
Qed.

Section Streams.
Variable sqrt : Q -> Q.
Lemma streams_spec g f y width xarray zarray bx bz by_ bm : o_xarray g = Some xarray -> o_zarray g = Some zarray -> o_bx f = Some bx -> o_bz f = Some bz -> o_by f = Some by_ -> o_b_mag f = Some bm ->
  n1 bz = n1 bx -> n0 bm = n0 bx -> n1 bm = n1 bx -> n2 bm = n2 bx -> (0 < n0 bx)%nat -> (0 < n2 bx)%nat -> (- Z.of_nat (n1 bx) <= y < Z.of_nat (n1 bx))%Z ->
  let j := (y mod Z.of_nat (n1 bx))%Z in
  let w i j k := sqrt (at3 bm i j k * at3 bm i j k - at3 by_ i j k * at3 by_ i j k) in
  exists s, plot_streamlines sqrt true g f y width = Ok s /\ s_x s = xarray /\ s_z s = zarray /\
    (forall r c, s_u s r c = at3 bx c j r /\ s_v s r c = at3 bz c j r) /\
    match width with
    | None => forall r c, s_width s r c = 1
    | Some q => exists m, (exists i l k, (0 <= i < Z.of_nat (n0 bx))%Z /\ (0 <= l < Z.of_nat (n1 bx))%Z /\ (0 <= k < Z.of_nat (n2 bx))%Z /\ m = w i l k) /\
        (forall i l k, (0 <= i < Z.of_nat (n0 bx))%Z -> (0 <= l < Z.of_nat (n1 bx))%Z -> (0 <= k < Z.of_nat (n2 bx))%Z -> w i l k <= m) /\
        forall r c, s_width s r c = q * (w c j r / m)
    end.
Proof.
  intros E1 E2 E3 E4 E5 E6 D1 D2 D3 D4 P0 P2 Hy j w. unfold plot_streamlines. cbn [negb]. destruct width as [q|].
  - rewrite E5, E6. cbn [attr bind]. set (a := {| n0 := n0 bm; n1 := n1 bm; n2 := n2 bm; at3 := _ |}).
    rewrite (slice_T_ok a y) by (cbn; lia). cbn [bind].
    assert (Ne : In (at3 a 0 0 0) (entries a)) by (apply entries_in; exists 0%Z, 0%Z, 0%Z; cbn; repeat split; lia).
    destruct (amax_ok (entries a)) as (m & Em); [intros C; rewrite C in Ne; destruct Ne|]. rewrite Em. cbn [bind]. rewrite E1, E2, E3, E4. cbn [attr bind].
    rewrite (slice_T_ok bx y Hy), (slice_T_ok bz y) by lia. cbn [bind]. rewrite D1. eexists. split; [reflexivity|]. cbn. split; [reflexivity|]. split; [reflexivity|].
    split; [split; reflexivity|]. apply amax_spec in Em. destruct Em as (I & U). exists m. split.
    + apply entries_in in I. destruct I as (i & l & k & Hi & Hj & Hk & ->). cbn in Hi, Hj, Hk. exists i, l, k. rewrite D2 in Hi. rewrite D3 in Hj. rewrite D4 in Hk. repeat split; tauto.
    + split.
      * intros i l k Hi Hj Hk. apply U. apply entries_in. exists i, l, k. cbn. rewrite D2, D3, D4. repeat split; lia.
      * intros r c. rewrite D3. reflexivity.
  - cbn [bind]. rewrite E1, E2, E3, E4. cbn [attr bind]. rewrite (slice_T_ok bx y Hy), (slice_T_ok bz y) by lia. cbn [bind]. rewrite D1. eexists. split; [reflexivity|]. cbn. repeat split.
Qed.
End Streams.

Lemma mapM_ok {A B} (f : A -> res B) (h : A -> B) l : (forall a, In a l -> f a = Ok (h a)) -> mapM f l = Ok (map h l).
Proof. induction l as [|a l IH]; cbn; intros H; [reflexivity|]. rewrite (H a) by now left. cbn. rewrite IH by (intros; apply H; now right). reflexivity. Qed.
Lemma animated U V : (0 < n0 U)%nat -> (n0 U <= n0 V)%nat ->
  exists frames, animate true U V = Ok frames /\ length frames = S (n0 U) /\
    forall k, (k <= n0 U)%nat -> forall r c, let n := Z.of_nat (k - 1) in
      fst (nth k frames (fun _ _ => 0, fun _ _ => 0)) r c = at3 U n c r /\ snd (nth k frames (fun _ _ => 0, fun _ _ => 0)) r c = at3 V n c r.
Proof.
  intros H0 HV. unfold animate. cbn [negb].
  assert (K : forall n, (n < n0 U)%nat -> quiver U V n = Ok ((fun r c => at3 U (Z.of_nat n) c r), (fun r c => at3 V (Z.of_nat n) c r))).
  { intros n Hn. unfold quiver, frame. replace (n <? n0 U)%nat with true by (symmetry; apply Nat.ltb_lt; lia). replace (n <? n0 V)%nat with true by (symmetry; apply Nat.ltb_lt; lia). reflexivity. }
  rewrite (K 0%nat H0). cbn [bind]. rewrite (mapM_ok (quiver U V) (fun n => ((fun r c => at3 U (Z.of_nat n) c r), (fun r c => at3 V (Z.of_nat n) c r)))) by (intros n Hn; apply in_seq in Hn; apply K; lia). cbn [bind].
  eexists. split; [reflexivity|]. split; [cbn; now rewrite map_length, seq_length|]. intros [|k] Hk r c; cbv zeta; [split; reflexivity|].
  cbn [nth]. rewrite (nth_map' _ _ k _ 0%nat) by (rewrite seq_length; lia). rewrite seq_nth by lia. cbn. rewrite Nat.sub_0_r. split; reflexivity.
Qed.
