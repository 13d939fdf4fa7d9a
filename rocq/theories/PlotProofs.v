(** Proofs about plot.py. *)
From Coq Require Import String List ZArith QArith Qround Qfield Lia Lqa Bool.
From Verif Require Import Prelude PreludeFacts NamingModel NamingSpec GridModel GridSpec GridProofs MapsModel MapsSpec MapsMain TracerModel TracerSpec TracerProofs PoincareProofs
  PlotModel PlotSpec.
Import ListNotations.
Open Scope Q_scope.

Lemma filter_flat {A} (f : A -> bool) l : flat_map (fun x => if f x then [x] else []) l = filter f l.
Proof. induction l as [|a l IH]; cbn; [reflexivity|]. rewrite IH. now destruct (f a). Qed.
Lemma map_flat {A B} (h : A -> B) (f : A -> bool) l : flat_map (fun x => if f x then [h x] else []) l = map h (filter f l).
Proof. induction l as [|a l IH]; cbn; [reflexivity|]. rewrite IH. now destruct (f a). Qed.
Lemma flat_map_map {A B C} (f : B -> C) (g : A -> list B) l : flat_map (fun x => map f (g x)) l = map f (flat_map g l).
Proof. induction l as [|a l IH]; cbn; [reflexivity|]. now rewrite IH, map_app. Qed.

Lemma NoDup_flat {A B} (f : A -> list B) l : NoDup l -> (forall a, NoDup (f a)) -> (forall a b x, In x (f a) -> In x (f b) -> a = b) -> NoDup (flat_map f l).
Proof.
  intros H Hf Hd. induction H as [|a l Ha H IH]; [constructor|]. cbn.
  assert (D : forall x, In x (f a) -> ~ In x (flat_map f l)).
  { intros x Hx Hx'. apply in_flat_map in Hx'. destruct Hx' as (b & Hb & Hxb). apply Ha. now rewrite (Hd a b x Hx Hxb). }
  revert D. generalize (f a) (Hf a). intros m Hm. induction Hm as [|c m Hc Hm IHm]; intros D; [exact IH|]. cbn. constructor.
  - rewrite in_app_iff. intros [K|K]; [auto|]. apply (D c); [now left|exact K].
  - apply IHm. intros x Hx. apply D. now right.
Qed.

Lemma ravel_shows st lb nb nx nz R Zc keep (chosen : Z -> Z -> Prop) : (forall x z, keep x z = true <-> chosen x z) ->
  shows {| pts := ravel nx nz R Zc keep; style := st; label := lb; number := nb |} nx nz R Zc chosen.
Proof.
  intros Hk. exists (flat_map (fun x => map (fun z => (x, z)) (filter (keep x) (zrange 0 (Z.of_nat nz)))) (zrange 0 (Z.of_nat nx))).
  split; [|split].
  - apply NoDup_flat.
    + apply NoDup_zrange.
    + intros a. apply FinFun.Injective_map_NoDup; [|apply NoDup_filter, NoDup_zrange]. intros u v E. now injection E.
    + intros a b x Hx Hx'. apply in_map_iff in Hx. destruct Hx as (u & <- & _). apply in_map_iff in Hx'. destruct Hx' as (v & E & _). now injection E.
  - intros x z. rewrite in_flat_map. split.
    + intros (x' & Hx & H). apply in_map_iff in H. destruct H as (z' & E & H). injection E as -> ->. apply filter_In in H. destruct H as [H Hc].
      apply in_zrange in Hx, H. repeat split; try lia. now apply Hk.
    + intros (Hx & Hz & Hc). exists x. split; [apply in_zrange; lia|]. apply in_map. apply filter_In. split; [apply in_zrange; lia|]. now apply Hk.
  - cbn [pts]. unfold ravel. rewrite <- flat_map_map. apply flat_map_ext. intros x. rewrite map_map. cbn. apply map_flat.
Qed.

Section Maps.
Context {G : Type}.
Variable pR pZ : G -> arr2.
Variable pnx pnz : G -> nat.

Lemma plane_ok (g : grid G) d k y a : (- ny g <= y < ny g)%Z -> d k = Some (VArr a) -> plane G g d k y = Ok (fun x z => a x (y mod ny g)%Z z 0%Z).
Proof.
  intros H E. unfold plane. rewrite E. destruct (Z.leb_spec (- ny g) y); [|lia]. destruct (Z.ltb_spec y (ny g)); [|lia]. cbn [andb].
  replace (y mod ny g)%Z with (if (y <? 0)%Z then (y + ny g)%Z else y); [reflexivity|].
  destruct (Z.ltb_spec y 0).
  - apply Z.mod_unique_pos with (-1)%Z; lia.
  - symmetry. apply Z.mod_small. lia.
Qed.

Lemma map_shown forward (g : grid G) d y p yn aR aZ ax p0 rest : well_formed g -> (- ny g <= y < ny g)%Z -> poloidal_grids g = p0 :: rest ->
  getPoloidalGrid g (inject_Z (y + step forward)) = Ok (Some p, yn) ->
  d (prefix forward ++ "_R")%string = Some (VArr aR) -> d (prefix forward ++ "_Z")%string = Some (VArr aZ) -> d (prefix forward ++ "_xt_prime")%string = Some (VArr ax) ->
  let j := (y mod ny g)%Z in
  let R := fun x z => aR x j z 0%Z in let Zc := fun x z => aZ x j z 0%Z in
  exists s1 s2 s3 s4, plot_map G pR pZ pnx pnz true forward g d y = Ok [s1; s2; s3; s4] /\
    shows s1 (pnx p) (pnz p) (pR p) (pZ p) (fun _ _ => True) /\ shows s2 (pnx p0) (pnz p0) R Zc (fun _ _ => True) /\
    shows s3 (pnx p0) (pnz p0) R Zc (fun x z => ax x j z 0%Z < 0) /\
    shows s4 (pnx p0) (pnz p0) R Zc (fun x z => inject_Z (Z.of_nat (pnx p0)) - (1 # 2) < ax x j z 0%Z) /\
    style s1 = "bx"%string /\ style s2 = "ro"%string /\ style s3 = "ko"%string /\ style s4 = "bo"%string /\
    label s1 = "Grid points on slice {0}"%string /\ number s1 = Some (y + step forward)%Z /\
    label s2 = (if forward then "Forward map from slice {0}" else "Backward map from slice {0}")%string /\ number s2 = Some y /\
    label s3 = "Inner boundary points"%string /\ label s4 = "Outer boundary points"%string.
Proof.
  intros Wg Hy H0 Hn HR HZ Hx j R Zc. unfold plot_map. cbn [available bind]. rewrite H0.
  destruct (int_total g y Wg) as (q & yq & Eq). rewrite Eq. cbn [bind].
  replace (if forward then (y + 1)%Z else (y - 1)%Z) with (y + step forward)%Z by (destruct forward; cbn; lia). rewrite Hn. cbn [bind fst].
  change (if forward then "forward"%string else "backward"%string) with (prefix forward).
  rewrite (plane_ok g d _ y aR Hy HR). cbn [bind]. rewrite (plane_ok g d _ y aZ Hy HZ). cbn [bind]. rewrite (plane_ok g d _ y ax Hy Hx). cbn [bind].
  do 4 eexists. split; [reflexivity|]. fold j.
  split; [apply ravel_shows; intros; tauto|]. split; [apply ravel_shows; intros; tauto|].
  split; [apply ravel_shows; intros; apply Qlt_bool_iff|]. split; [apply ravel_shows; intros; apply Qlt_bool_iff|].
  cbn [style label number]. tauto.
Qed.

Lemma map_no_slice forward (g : grid G) d y yn : well_formed g -> getPoloidalGrid g (inject_Z (y + step forward)) = Ok (None, yn) ->
  plot_map G pR pZ pnx pnz true forward g d y = Err OtherError.
Proof.
  intros Wg Hn. unfold plot_map. cbn [available bind]. destruct (poloidal_grids g) as [|p0 rest] eqn:E.
  - destruct Wg as [W1 W2]. rewrite E in W1. cbn in W1. lia.
  - destruct (int_total g y Wg) as (q & yq & Eq). rewrite Eq. cbn [bind].
    replace (if forward then (y + 1)%Z else (y - 1)%Z) with (y + step forward)%Z by (destruct forward; cbn; lia). rewrite Hn. reflexivity.
Qed.

Lemma map_no_row forward (g : grid G) d y p yn a : well_formed g -> ~ (- ny g <= y < ny g)%Z -> getPoloidalGrid g (inject_Z (y + step forward)) = Ok (Some p, yn) ->
  d (prefix forward ++ "_R")%string = Some (VArr a) -> plot_map G pR pZ pnx pnz true forward g d y = Err IndexError.
Proof.
  intros Wg Hy Hn HR. unfold plot_map. cbn [available bind]. destruct (poloidal_grids g) as [|p0 rest] eqn:E; [reflexivity|].
  destruct (int_total g y Wg) as (q & yq & Eq). rewrite Eq. cbn [bind].
  replace (if forward then (y + 1)%Z else (y - 1)%Z) with (y + step forward)%Z by (destruct forward; cbn; lia). rewrite Hn. cbn [bind fst].
  change (if forward then "forward"%string else "backward"%string) with (prefix forward). unfold plane at 1. rewrite HR.
  destruct (Z.leb_spec (- ny g) y); destruct (Z.ltb_spec y (ny g)); try lia; reflexivity.
Qed.
End Maps.

(** ** clicks *)
Open Scope list_scope.
Lemma foldM_ok_app {A B} (f : B -> A -> res B) l1 l2 b c : foldM f l1 b = Ok c -> foldM f (l1 ++ l2) b = foldM f l2 c.
Proof.
  revert b. induction l1 as [|a l1 IH]; intros b E; cbn in *; [now injection E as ->|]. destruct (f b a) as [b'|e]; cbn in *; [now apply IH|discriminate].
Qed.
Lemma clicks_total trace tr es : (forall p, trace p = Ok (tr p)) -> forall b, exists c, foldM (onclick trace) es b = Ok c.
Proof.
  intros H. induction es as [|[[p|] bt] es IH]; intros b; cbn; [now eexists| |apply IH].
  destruct bt; cbn; rewrite ?H; cbn; apply IH.
Qed.
Lemma kept_clicks trace tr es : (forall p, trace p = Ok (tr p)) -> Forall keeps es -> forall b, foldM (onclick trace) es b = Ok (b ++ concat (map (added tr) es)).
Proof.
  intros H HF. induction HF as [|[o bt] es He HF IH]; intros b; cbn; [now rewrite app_nil_r|].
  destruct o as [p|]; cbn.
  - destruct He as [He|He]; [discriminate|]. cbn in He. subst bt. rewrite H. cbn. rewrite IH. now rewrite app_assoc.
  - apply IH.
Qed.
Lemma clicks_spec trace tr before p bt after : (forall p, trace p = Ok (tr p)) -> bt <> Right -> Forall keeps after ->
  clicks trace (before ++ (Some p, bt) :: after) = Ok ((match bt with Left => tr p | _ => [] end) ++ concat (map (added tr) after)).
Proof.
  intros H Hb HF. unfold clicks. destruct (clicks_total trace tr before H []) as (c & E). rewrite (foldM_ok_app _ _ _ _ _ E). cbn.
  destruct bt; [| |contradiction]; cbn; rewrite ?H; cbn; rewrite (kept_clicks trace tr after H HF); reflexivity.
Qed.
