(** follow_field_lines of the web tracer as a whole, and the exceptions of the tracers. *)
From Coq Require Import List QArith ZArith Lia Bool.
From Verif Require Import Prelude PreludeFacts TracerModel TracerSpec TracerProofs CacheProofs.
Import ListNotations.

Section W.
Variable trace : list Q -> list Q -> list Q -> list (list Q).
Variable fails : nat -> nat -> bool.
Variable flow : Q * Q -> Q -> Q -> Q * Q.
Hypothesis P : forall a b y, trace a b y = map (fun t => flat_points (map (fun p => flow p (hd 0 y) t) (combine a b))) y.
Lemma web_follow_cases cfg chunk retry x z ys sh fx fz : (1 <= chunk)%nat -> (2 <= length ys)%nat -> wf x -> wf z -> starts x z sh fx fz ->
  (exists r, web_follow trace fails cfg chunk retry x z ys = Ok r /\ shape r = length ys :: sh ++ [2%nat] /\ wf r /\
    forall k idx c, (k < length ys)%nat -> valid sh idx -> (c < 2)%nat -> get r (k :: idx ++ [c]) = component c (flow (fx idx, fz idx) (hd 0 ys) (nth k ys 0))) \/
  exists xs zs e, length xs = nsize sh /\ length zs = nsize sh /\ web_follow trace fails cfg chunk retry x z ys = Err e /\ web_rows trace fails (negb cfg && (chunk <? nsize sh)%nat) chunk retry xs zs ys = Err e.
Proof.
  intros Hc Hy Wx Wz H. destruct (starts_match x z sh fx fz Wx Wz H) as (x' & z' & E & Sx & Sz & Lx & Lz & N).
  unfold web_follow. destruct (Nat.ltb_spec (length ys) 2); [lia|]. rewrite E. cbn [bind]. unfold size. rewrite Sx.
  destruct (web_rows trace fails (negb cfg && (chunk <? nsize sh)%nat) chunk retry (data x') (data z') ys) as [rows0|e] eqn:ER; [|right; exists (data x'), (data z'), e; repeat split; assumption].
  left. cbn [bind]. rewrite (web_rows_pointwise trace fails flow _ chunk retry (data x') (data z') ys rows0 Hc ltac:(congruence) P ER). clear ER rows0.
  set (pts := combine (data x') (data z')) in *. set (rows := map _ ys).
  assert (Lp : length pts = nsize sh) by (unfold pts; rewrite combine_length; lia).
  assert (Lr : length rows = length ys) by (unfold rows; apply map_length).
  assert (W : forall r, In r rows -> length r = (2 * nsize sh)%nat).
  { intros r Hr. apply in_map_iff in Hr. destruct Hr as (y & <- & _). rewrite flat_points_length, map_length. lia. }
  unfold reshape. assert (Sz2 : nsize (length ys :: sh ++ [2%nat]) = length (concat rows)).
  { rewrite (concat_rows_length rows (2 * nsize sh) W), Lr. cbn [nsize]. rewrite nsize_app. cbn. lia. }
  rewrite Sz2, Nat.eqb_refl. eexists. split; [reflexivity|]. split; [reflexivity|]. split; [unfold wf, size; cbn [shape data]; now rewrite Sz2|].
  intros k idx c Hk Hi Hc'. unfold get. cbn [shape data]. rewrite offset_result by exact Hi.
  pose proof (offset_lt sh idx Hi) as Ho.
  rewrite (nth_concat_rows rows) by (try exact W; lia).
  unfold rows. rewrite (nth_map' _ ys k [] 0) by exact Hk. rewrite flat_points_nth by (try exact Hc'; rewrite map_length; lia).
  rewrite (nth_map' _ pts (offset sh idx) (0, 0) (0, 0)) by lia. unfold pts. rewrite N by exact Hi. reflexivity.
Qed.
End W.
Section F.
Variable trace : list Q -> list Q -> list Q -> list (list Q).
Variable fails : nat -> nat -> bool.
(** no chunk fails at once *)
Lemma web_rows_fine pooled chunk retry xs zs ys : (forall j, (j < length (combine (chunks chunk xs) (chunks chunk zs)))%nat -> fails j 0%nat = false) -> (1 <= retry)%nat -> (1 <= chunk)%nat -> xs <> [] -> length xs = length zs ->
  exists rows, web_rows trace fails pooled chunk retry xs zs ys = Ok rows.
Proof.
  intros F Hr Hc Hx L. unfold web_rows. set (cs := combine (chunks chunk xs) (chunks chunk zs)).
  assert (G : forall l, (forall j, In j l -> fails j 0%nat = false) -> foldM (fun retry j => get_chunk fails j 0 retry) l retry = Ok retry).
  { intros l. induction l as [|j l IH]; intros Hl; [reflexivity|]. cbn [foldM]. destruct retry as [|r]; [lia|]. cbn [get_chunk]. rewrite (Hl j) by now left. apply IH. intros; apply Hl. now right. }
  assert (G' : forall l, (forall j, In j l -> fails j 0%nat = false) -> foldM (fun retry j => if fails j 0%nat then Err OtherError else Ok retry) l retry = Ok retry).
  { intros l. induction l as [|j l IH]; intros Hl; [reflexivity|]. cbn [foldM]. rewrite (Hl j) by now left. apply IH. intros; apply Hl. now right. }
  assert (Hs : forall j, In j (seq 0 (length cs)) -> fails j 0%nat = false) by (intros j Hj; apply in_seq in Hj; apply F; fold cs; lia).
  replace (if pooled then _ else _) with (Ok retry) by (destruct pooled; [now rewrite G|now rewrite G']). cbn [bind].
  destruct cs eqn:E; [exfalso|eauto]. unfold cs, chunks in E. destruct xs as [|a xs], zs as [|b zs]; try discriminate. contradiction.
Qed.
Lemma get_chunk_err j a retry e : get_chunk fails j a retry = Err e -> e = if (retry =? 0)%nat then ValueError else OtherError.
Proof.
  revert a. induction retry as [|r IH]; intros a; cbn [get_chunk Nat.eqb]; [intros [= <-]; reflexivity|].
  destruct (fails j a); [|discriminate]. destruct r as [|r]; [intros [= <-]; reflexivity|]. intros H. exact (IH _ H).
Qed.
Lemma get_chunk_left j a retry r : get_chunk fails j a retry = Ok r -> (1 <= r)%nat.
Proof.
  revert a. induction retry as [|r' IH]; intros a; cbn [get_chunk]; [discriminate|]. destruct (fails j a); [|intros [= <-]; lia].
  destruct r' as [|r']; [discriminate|]. exact (IH _).
Qed.
Lemma web_rows_err pooled chunk retry xs zs ys e : (1 <= retry)%nat -> (1 <= chunk)%nat -> xs <> [] -> length xs = length zs ->
  web_rows trace fails pooled chunk retry xs zs ys = Err e -> e = OtherError.
Proof.
  intros Hr Hc Hx L. unfold web_rows. set (cs := combine (chunks chunk xs) (chunks chunk zs)).
  assert (G : forall l k, (1 <= k)%nat -> foldM (fun retry j => get_chunk fails j 0 retry) l k = Err e -> e = OtherError).
  { intros l. induction l as [|j l IH]; intros k Hk; [discriminate|]. cbn [foldM]. destruct (get_chunk fails j 0 k) eqn:E.
    - cbn [bind]. apply IH. exact (get_chunk_left _ _ _ _ E).
    - cbn [bind]. intros [= <-]. rewrite (get_chunk_err _ _ _ _ E). destruct k; [lia|reflexivity]. }
  assert (G' : forall l (k : nat), foldM (fun retry j => if fails j 0%nat then Err OtherError else Ok retry) l k = Err e -> e = OtherError).
  { intros l. induction l as [|j l IH]; intros k; [discriminate|]. cbn [foldM]. destruct (fails j 0%nat); [intros [= <-]; reflexivity|]. cbn [bind]. apply IH. }
  destruct (if pooled then _ else _) eqn:E.
  - cbn [bind]. destruct cs eqn:E'; [exfalso|discriminate]. unfold cs, chunks in E'. destruct xs as [|x0 xs], zs as [|z0 zs]; try discriminate. contradiction.
  - cbn [bind]. intros [= <-]. destruct pooled; [exact (G _ _ Hr E)|exact (G' _ _ E)].
Qed.
Lemma web_follow_refused cfg chunk retry x z ys : (length ys < 2)%nat \/ (shape x <> shape z /\ size x <> 1%nat /\ size z <> 1%nat) ->
  web_follow trace fails cfg chunk retry x z ys = Err ValueError.
Proof.
  intros H. unfold web_follow. destruct (Nat.ltb_spec (length ys) 2); [reflexivity|]. destruct H as [H|(H1 & H2 & H3)]; [lia|].
  unfold match_shapes. destruct (shape_eqb (shape x) (shape z)) eqn:E; [apply list_eq_eqb in E; contradiction|].
  destruct (Nat.eqb_spec (size x) 1); [contradiction|]. destruct (Nat.eqb_spec (size z) 1); [contradiction|]. reflexivity.
Qed.
Lemma web_rows_none pooled chunk retry ys : web_rows trace fails pooled chunk retry [] [] ys = Err ValueError.
Proof. unfold web_rows. cbn. now destruct pooled. Qed.
Lemma web_rows_no_retry chunk xs zs ys : (1 <= chunk)%nat -> web_rows trace fails true chunk 0 xs zs ys = Err ValueError.
Proof. intros Hc. unfold web_rows. destruct (combine (chunks chunk xs) (chunks chunk zs)) as [|c cs]; reflexivity. Qed.
End F.
Lemma web_pool_err trace fails chunk retry xs zs ys : (1 <= chunk)%nat -> (1 <= retry)%nat -> xs <> [] -> length xs = length zs ->
  let n := number_of_chunks chunk (length xs) in
  ((exists counts, length counts = n /\ (forall j, (j < n)%nat -> failures fails j (nth j counts 0%nat)) /\ (nsum counts < retry)%nat) /\
   web_rows trace fails true chunk retry xs zs ys = Ok (concat_axis1 (length ys) (map (fun c => trace (fst c) (snd c) ys) (combine (chunks chunk xs) (chunks chunk zs))))) \/
  (~ (exists counts, length counts = n /\ (forall j, (j < n)%nat -> failures fails j (nth j counts 0%nat)) /\ (nsum counts < retry)%nat) /\
   web_rows trace fails true chunk retry xs zs ys = Err OtherError).
Proof.
  intros Hc Hr Hx L n. destruct (web_pool trace fails chunk retry xs zs ys Hc Hr Hx L) as [H|(N & e & E)]; [left; exact H|right]. split; [exact N|].
  rewrite E. f_equal. exact (web_rows_err trace fails true chunk retry xs zs ys e Hr Hc Hx L E).
Qed.
Lemma web_follow_all trace fails flow cfg chunk retry x z ys sh fx fz : (1 <= chunk)%nat -> (1 <= retry)%nat -> (2 <= length ys)%nat -> wf x -> wf z -> starts x z sh fx fz -> (0 < nsize sh)%nat ->
  (forall a b y, trace a b y = map (fun t => flat_points (map (fun p => flow p (hd 0 y) t) (combine a b))) y) ->
  (exists r, web_follow trace fails cfg chunk retry x z ys = Ok r /\ shape r = length ys :: sh ++ [2%nat] /\ wf r /\
    forall k idx c, (k < length ys)%nat -> valid sh idx -> (c < 2)%nat -> get r (k :: idx ++ [c]) = component c (flow (fx idx, fz idx) (hd 0 ys) (nth k ys 0))) \/
  (exists j, fails j 0%nat = true) /\ web_follow trace fails cfg chunk retry x z ys = Err OtherError.
Proof.
  intros Hc Hr Hy Wx Wz St Hn P. destruct (web_follow_cases trace fails flow P cfg chunk retry x z ys sh fx fz Hc Hy Wx Wz St) as [H|(xs & zs & e & Lx & Lz & E & ER)]; [left; exact H|right].
  assert (Nx : xs <> []) by (intros ->; cbn in Lx; lia).
  pose proof (web_rows_err trace fails _ chunk retry xs zs ys e Hr Hc Nx ltac:(congruence) ER). subst e. split; [|exact E].
  assert (D : forall n, (exists j, (j < n)%nat /\ fails j 0%nat = true) \/ forall j, (j < n)%nat -> fails j 0%nat = false).
  { induction n as [|n [(j & Hj & F)|IH]]; [right; lia|left; exists j; split; [lia|exact F]|]. destruct (fails n 0%nat) eqn:F; [left; exists n; split; [lia|exact F]|].
    right. intros j Hj. destruct (Nat.eq_dec j n) as [->|]; [exact F|apply IH; lia]. }
  destruct (D (length (combine (chunks chunk xs) (chunks chunk zs)))) as [(j & _ & F)|F]; [eauto|exfalso].
  destruct (web_rows_fine trace fails (negb cfg && (chunk <? nsize sh)%nat) chunk retry xs zs ys F Hr Hc Nx ltac:(congruence)) as (rows & K). congruence.
Qed.
Lemma slices_refused yperiod nplot y_slices e : choose_slices yperiod nplot y_slices = Err e ->
  e = ValueError /\ match y_slices with Some l => l = [] \/ exists y, In y l /\ (y < 0 \/ yperiod < y) | None => match nplot with Some n => (n < 0)%Z | None => True end end.
Proof.
  unfold choose_slices. destruct y_slices as [l|].
  - destruct l as [|a l']; [cbn; intros [= <-]; auto|]. cbn [orb]. generalize (a :: l'). clear a l'. intros l.
    destruct (forallb _ l) eqn:E; [discriminate|]. cbn [negb]. intros [= <-]. split; [reflexivity|right].
    induction l as [|a l IH]; [discriminate|]. cbn [forallb] in E. apply andb_false_iff in E. destruct E as [E|E].
    + exists a. split; [now left|]. apply andb_false_iff in E. destruct E as [E|E]; [left|right]; apply Qnot_le_lt; intros K; apply Qle_bool_iff in K; congruence.
    + destruct (IH E) as (y & Hy & B). exists y. split; [now right|exact B].
  - destruct nplot as [n|]; [|intros [= <-]; auto]. destruct (Z.ltb_spec n 0); [intros [= <-]; auto|discriminate].
Qed.
