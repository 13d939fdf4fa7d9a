(** Proofs about CachingFieldTracer and FieldTracerWeb. *)
From Coq Require Import String List ZArith QArith Lia Lqa Bool.
From Verif Require Import Prelude PreludeFacts TracerModel TracerSpec TracerProofs.
Import ListNotations.
Open Scope Q_scope.

(** ** Caching *)
Notation call := (nda * nda * list Q)%type.
(** the same exception, or the same numbers *)
Definition same_numbers (a b : res nda) : Prop :=
  match a, b with Ok r, Ok r' => data r = data r' | Err e, Err e' => e = e' | _, _ => False end.

Section C.
Variable str : Q -> string.
Variable digest : string -> string.
Variable tracer : nda -> nda -> list Q -> res nda.
Notation key := (key str digest). Notation cached_follow := (cached_follow str digest tracer).
Definition ask (c : call) : res nda := tracer (fst (fst c)) (snd (fst c)) (snd c).
Definition ckey (c : call) : string := key (fst (fst c)) (snd (fst c)) (snd c).
(** a sequence of calls on the same files *)
Fixpoint run_calls (fs : files) (cs : list call) : list (res nda) :=
  match cs with
  | [] => []
  | c :: t => let r := cached_follow fs (fst (fst c)) (snd (fst c)) (snd c) in fst r :: run_calls (snd r) t
  end.

Lemma find_file_some k fs d : find_file k fs = Some d -> In (k, d) fs.
Proof. induction fs as [|[k' d'] fs IH]; cbn; [discriminate|]. destruct (String.eqb_spec k k') as [->|]; [intros [= ->]; now left|right; auto]. Qed.

Lemma cached_history (all : list call) :
  (forall c, In c all -> forall r, ask c = Ok r -> shape r = guess_shape (fst (fst c)) (snd c) /\ wf r) ->
  (forall c c', In c all -> In c' all -> ckey c = ckey c' -> same_numbers (ask c) (ask c')) ->
  forall cs fs, incl cs all -> (forall k d, In (k, d) fs -> exists c r, In c all /\ ckey c = k /\ ask c = Ok r /\ data r = d) ->
  run_calls fs cs = map ask cs.
Proof.
  intros HS HK. induction cs as [|[[x z] ys] cs IH]; intros fs Hi Hf; [reflexivity|]. cbn [run_calls map fst snd].
  assert (Hc : In (x, z, ys) all) by (apply Hi; now left). assert (Hi' : incl cs all) by (intros a Ha; apply Hi; now right).
  unfold TracerModel.cached_follow. destruct (find_file (key x z ys) fs) as [d|] eqn:E.
  - cbn [fst snd]. apply find_file_some in E. destruct (Hf _ _ E) as (c & r & Hc' & Hk & Ha & Hd).
    pose proof (HK c (x, z, ys) Hc' Hc Hk) as SN. rewrite Ha in SN. unfold same_numbers in SN.
    destruct (ask (x, z, ys)) as [r'|e] eqn:A; [|destruct SN]. destruct (HS _ Hc r' A) as [S1 W1]. cbn [fst snd] in S1.
    f_equal; [|now apply IH]. unfold reshape. rewrite <- S1. unfold wf, size in W1. rewrite <- W1, <- SN, Hd, Nat.eqb_refl. destruct r'. cbn in *. congruence.
  - destruct (tracer x z ys) as [r|e] eqn:A; cbn [fst snd]; assert (A' : ask (x, z, ys) = tracer x z ys) by reflexivity; rewrite A', A.
    + destruct (HS _ Hc r ltac:(rewrite A'; exact A)) as [S1 W1]. cbn [fst snd] in S1.
      rewrite (proj2 (list_eq_eqb (shape r) (guess_shape x ys)) S1). f_equal. apply IH; [exact Hi'|].
      intros k d [[= <- <-]|Hin]; [|now apply Hf]. exists (x, z, ys), r. repeat split; try assumption.
    + f_equal. now apply IH.
Qed.
End C.

(** the default tracer meets the conditions if the keys are distinct *)
Lemma follow_shape odeint limit x z ys r : shape x = shape z -> follow odeint limit x z ys = Ok r -> shape r = guess_shape x ys /\ wf r.
Proof.
  intros S. unfold follow. destruct (_ <? _)%nat; [discriminate|]. unfold match_shapes. rewrite (proj2 (list_eq_eqb (shape x) (shape z)) S). cbn [bind].
  destruct (_ && _)%bool; [discriminate|]. unfold reshape. destruct (Nat.eqb_spec (nsize (length ys :: shape x ++ [2%nat])) (length (concat (trace_rows odeint limit (data x) (data z) ys)))) as [E|]; [|discriminate].
  intros [= <-]. split; [reflexivity|]. unfold wf, size. cbn [shape data]. now rewrite E.
Qed.
Lemma follow_numbers odeint limit x z x' z' ys : shape x = shape z -> shape x' = shape z' -> wf x -> wf x' -> wf z -> wf z' ->
  data x = data x' -> data z = data z' -> same_numbers (follow odeint limit x z ys) (follow odeint limit x' z' ys).
Proof.
  intros S S' Wx Wx' Wz Wz' Dx Dz. unfold follow. destruct (_ <? _)%nat; [reflexivity|]. unfold match_shapes.
  rewrite (proj2 (list_eq_eqb (shape x) (shape z)) S), (proj2 (list_eq_eqb (shape x') (shape z')) S'). cbn [bind]. rewrite <- S, <- S'.
  replace ((length (shape x) =? 1)%nat && negb (length (shape x) =? 1)%nat)%bool with false by (destruct (length (shape x) =? 1)%nat; reflexivity).
  replace ((length (shape x') =? 1)%nat && negb (length (shape x') =? 1)%nat)%bool with false by (destruct (length (shape x') =? 1)%nat; reflexivity).
  rewrite <- Dx, <- Dz. unfold reshape. cbn [nsize]. rewrite !nsize_app. unfold wf, size in *. rewrite <- Wx, <- Wx', Dx.
  destruct (_ =? _)%nat; reflexivity.
Qed.

(** ** The web tracer *)
Section W.
Variable trace : list Q -> list Q -> list Q -> list (list Q).
Variable fails : nat -> nat -> bool.
Notation get_chunk := (get_chunk fails). Notation web_rows := (web_rows trace fails).

Lemma get_chunk_iff j : forall retry a r', get_chunk j a retry = Ok r' <->
  exists c, (forall i, (i < c)%nat -> fails j (a + i) = true) /\ fails j (a + c) = false /\ (c < retry)%nat /\ r' = (retry - c)%nat.
Proof.
  induction retry as [|r IH]; intros a r'; cbn [TracerModel.get_chunk].
  - split; [discriminate|]. intros (c & _ & _ & H & _). lia.
  - destruct (fails j a) eqn:F.
    + destruct r as [|r0] eqn:Er.
      * split; [discriminate|]. intros (c & H1 & H2 & H3 & _). assert (c = 0)%nat as -> by lia. rewrite Nat.add_0_r in H2. congruence.
      * rewrite <- Er in *. change (get_chunk j (S a) r = Ok r' <-> exists c, (forall i, (i < c)%nat -> fails j (a + i) = true) /\ fails j (a + c) = false /\ (c < S r)%nat /\ r' = (S r - c)%nat).
        rewrite IH. split.
        -- intros (c & H1 & H2 & H3 & H4). exists (S c). split.
           ++ intros i Hi. destruct i as [|i]; [rewrite Nat.add_0_r; exact F|]. replace (a + S i)%nat with (S a + i)%nat by lia. apply H1. lia.
           ++ replace (a + S c)%nat with (S a + c)%nat by lia. repeat split; [exact H2|lia|lia].
        -- intros (c & H1 & H2 & H3 & H4). destruct c as [|c]; [rewrite Nat.add_0_r in H2; congruence|]. exists c. split.
           ++ intros i Hi. replace (S a + i)%nat with (a + S i)%nat by lia. apply H1. lia.
           ++ replace (S a + c)%nat with (a + S c)%nat by lia. repeat split; [exact H2|lia|lia].
    + split.
      * intros [= <-]. exists 0%nat. rewrite Nat.add_0_r. repeat split; [intros i Hi; lia|exact F|lia].
      * intros (c & H1 & H2 & H3 & ->). destruct c as [|c]; [now rewrite Nat.sub_0_r|]. specialize (H1 0%nat ltac:(lia)). rewrite Nat.add_0_r in H1. congruence.
Qed.
Lemma get_all_iff n : forall s retry, (1 <= retry)%nat ->
  ((exists r', foldM (fun retry j => get_chunk j 0 retry) (seq s n) retry = Ok r') <->
   exists counts, length counts = n /\ (forall i, (i < n)%nat -> failures fails (s + i) (nth i counts 0%nat)) /\ (nsum counts < retry)%nat).
Proof.
  induction n as [|n IH]; intros s retry Hr; cbn [seq foldM].
  - split; [intros _; exists []; split; [reflexivity|]; split; [intros; lia|cbn; lia]|intros _; eauto].
  - split.
    + intros [r' H]. destruct (get_chunk s 0 retry) as [r1|e] eqn:E; [|discriminate]. cbn [bind] in H. apply get_chunk_iff in E. destruct E as (c & H1 & H2 & H3 & ->).
      destruct (proj1 (IH (S s) (retry - c)%nat ltac:(lia)) (ex_intro _ r' H)) as (cs & C1 & C2 & C3).
      exists (c :: cs). split; [cbn; now rewrite C1|]. split; [|cbn; lia]. intros i Hi. destruct i as [|i].
      * rewrite Nat.add_0_r. split; [exact H1|exact H2].
      * replace (s + S i)%nat with (S s + i)%nat by lia. apply C2. lia.
    + intros (cs & C1 & C2 & C3). destruct cs as [|c cs]; [discriminate|]. cbn in C3. destruct (C2 0%nat ltac:(lia)) as [F1 F2]. rewrite Nat.add_0_r in F1, F2. cbn in F1, F2.
      assert (E : get_chunk s 0 retry = Ok (retry - c)%nat) by (apply get_chunk_iff; exists c; repeat split; [exact F1|exact F2|lia]).
      rewrite E. cbn [bind]. apply (IH (S s) (retry - c)%nat ltac:(lia)). exists cs. split; [now injection C1|]. split; [|lia].
      intros i Hi. replace (S s + i)%nat with (s + S i)%nat by lia. apply (C2 (S i)). lia.
Qed.
Lemma chunks_points chunk : (1 <= chunk)%nat -> forall n xs zs, length xs = length zs -> (length xs <= n)%nat ->
  concat (map (fun c => combine (fst c) (snd c)) (combine (chunks_from n chunk xs) (chunks_from n chunk zs))) = combine xs zs.
Proof.
  intros Hc. induction n as [|n IH]; intros xs zs L Hn.
  - destruct xs; [reflexivity|cbn in Hn; lia].
  - cbn [chunks_from]. destruct xs as [|x xs], zs as [|z zs]; try discriminate; [reflexivity|]. cbn [combine map concat fst snd].
    rewrite IH by (rewrite !skipn_length; cbn [length] in *; lia). rewrite <- firstn_combine, <- skipn_combine by exact L. apply firstn_skipn.
Qed.
Definition number_of_chunks (chunk n : nat) : nat := ((n + chunk - 1) / chunk)%nat.
Lemma chunks_count chunk : (1 <= chunk)%nat -> forall n l, (length l <= n)%nat -> length (chunks_from n chunk l) = number_of_chunks chunk (length l).
Proof.
  intros Hc. unfold number_of_chunks. induction n as [|n IH]; intros l Hl; [destruct l; [|cbn in Hl; lia]; cbn; symmetry; apply Nat.div_small; lia|].
  cbn [chunks_from]. destruct l as [|a l]; [cbn; symmetry; apply Nat.div_small; lia|].
  cbn [length]. rewrite IH by (rewrite skipn_length; cbn [length] in *; lia). rewrite skipn_length. cbn [length].
  destruct (Nat.le_gt_cases (S (length l)) chunk) as [C|C].
  - replace (S (length l) - chunk)%nat with 0%nat by lia. rewrite (Nat.div_small (0 + chunk - 1)) by lia. apply (Nat.div_unique _ chunk 1 (S (length l) - 1)); lia.
  - replace (S (length l) + chunk - 1)%nat with (S (length l) - chunk + chunk - 1 + 1 * chunk)%nat by lia. rewrite Nat.div_add by lia. lia.
Qed.

Lemma web_pool chunk retry xs zs ys : (1 <= chunk)%nat -> (1 <= retry)%nat -> xs <> [] -> length xs = length zs ->
  let n := number_of_chunks chunk (length xs) in
  ((exists counts, length counts = n /\ (forall j, (j < n)%nat -> failures fails j (nth j counts 0%nat)) /\ (nsum counts < retry)%nat) /\
   web_rows true chunk retry xs zs ys = Ok (concat_axis1 (length ys) (map (fun c => trace (fst c) (snd c) ys) (combine (chunks chunk xs) (chunks chunk zs))))) \/
  (~ (exists counts, length counts = n /\ (forall j, (j < n)%nat -> failures fails j (nth j counts 0%nat)) /\ (nsum counts < retry)%nat) /\
   exists e, web_rows true chunk retry xs zs ys = Err e).
Proof.
  intros Hc Hr Hx L n. unfold TracerModel.web_rows. set (cs := combine (chunks chunk xs) (chunks chunk zs)).
  assert (Lc : length cs = n).
  { unfold cs, chunks. rewrite combine_length, !chunks_count by lia. rewrite <- L. apply Nat.min_id. }
  assert (Nc : cs <> []).
  { intros E. rewrite E in Lc. cbn in Lc. destruct xs as [|x xs]; [contradiction|]. unfold n, number_of_chunks in Lc. cbn [length] in Lc.
    assert (1 <= (S (length xs) + chunk - 1) / chunk)%nat; [apply Nat.div_le_lower_bound; lia|lia]. }
  rewrite Lc. pose proof (get_all_iff n 0 retry Hr) as G. cbn [Nat.add] in G.
  destruct (foldM (fun retry j => get_chunk j 0 retry) (seq 0 n) retry) as [r'|e].
  - left. split; [apply G; eauto|]. cbn [bind]. destruct cs; [contradiction|reflexivity].
  - right. split; [|cbn [bind]; eauto]. intros C. destruct (proj2 G C) as [r' H]. discriminate.
Qed.
Lemma web_no_retries chunk xs zs ys : (1 <= chunk)%nat -> exists e, web_rows true chunk 0 xs zs ys = Err e.
Proof.
  intros Hc. unfold TracerModel.web_rows. destruct (combine (chunks chunk xs) (chunks chunk zs)) as [|c cs]; cbn; eauto.
Qed.
Lemma web_no_pool chunk retry xs zs ys : fails 0 0 = true -> xs <> [] -> length xs = length zs -> (1 <= chunk)%nat ->
  web_rows false chunk retry xs zs ys = Err OtherError.
Proof.
  intros F Hx L Hc. unfold TracerModel.web_rows. destruct xs as [|x xs], zs as [|z zs]; try discriminate; [contradiction|].
  unfold chunks. cbn [length chunks_from combine seq foldM]. now rewrite F.
Qed.
Lemma web_rows_pointwise flow pooled chunk retry xs zs ys rows : (1 <= chunk)%nat -> length xs = length zs ->
  (forall a b y, trace a b y = map (fun t => flat_points (map (fun p => flow p (hd 0 y) t) (combine a b))) y) ->
  web_rows pooled chunk retry xs zs ys = Ok rows -> rows = map (fun t => flat_points (map (fun p => flow p (hd 0 ys) t) (combine xs zs))) ys.
Proof.
  intros Hc L P. unfold TracerModel.web_rows. set (cs := combine (chunks chunk xs) (chunks chunk zs)).
  set (g := if pooled then _ else _). destruct g; [|discriminate]. cbn [bind].
  assert (E : concat_axis1 (length ys) (map (fun c => trace (fst c) (snd c) ys) cs) = map (fun t => flat_points (map (fun p => flow p (hd 0 ys) t) (combine xs zs))) ys).
  { rewrite (map_ext (fun c => trace (fst c) (snd c) ys) (fun c => map (fun t => flat_points (map (fun p => flow p (hd 0 ys) t) (combine (fst c) (snd c)))) ys)) by (intros; apply P).
    rewrite (concat_axis1_map ys (fun c t => flat_points (map (fun p => flow p (hd 0 ys) t) (combine (fst c) (snd c))))). apply map_ext. intros t.
    rewrite <- (chunks_points chunk Hc (length xs) xs zs L ltac:(lia)). unfold cs, chunks. rewrite <- L.
    set (l := combine _ _). clear. induction l as [|c l IH]; [reflexivity|]. cbn [flat_map map concat]. now rewrite map_app, flat_points_app, IH. }
  destruct cs; [discriminate|]. intros [= <-]. exact E.
Qed.
End W.

Lemma cached_field_tracer str digest odeint limit (cs : list call) :
  (forall c, In c cs -> shape (fst (fst c)) = shape (snd (fst c)) /\ wf (fst (fst c)) /\ wf (snd (fst c))) ->
  (forall c c', In c cs -> In c' cs -> ckey str digest c = ckey str digest c' -> data (fst (fst c)) = data (fst (fst c')) /\ data (snd (fst c)) = data (snd (fst c')) /\ snd c = snd c') ->
  run_calls str digest (follow odeint limit) [] cs = map (ask (follow odeint limit)) cs.
Proof.
  intros H1 H2. apply (cached_history str digest (follow odeint limit) cs); [| |apply incl_refl|intros k d []].
  - intros [[x z] ys] Hc r E. cbn [fst snd] in *. destruct (H1 _ Hc) as (S & _ & _). exact (follow_shape odeint limit x z ys r S E).
  - intros [[x z] ys] [[x' z'] ys'] Hc Hc' K. destruct (H2 _ _ Hc Hc' K) as (D1 & D2 & D3). destruct (H1 _ Hc) as (S & W1 & W2). destruct (H1 _ Hc') as (S' & W1' & W2').
    cbn [fst snd] in *. subst ys'. unfold ask. cbn [fst snd]. now apply follow_numbers.
Qed.
