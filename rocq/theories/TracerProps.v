(** Properties C45 to C51. *)
From Coq Require Import String List ZArith QArith Lia Lqa Permutation.
From Verif Require Import Prelude PreludeFacts TracerModel TracerSpec TracerProofs PoincareProofs CacheProofs RevModel RevSpec RevProofs RevFollow EmcModel EmcProofs TracerWitness WebProofs.
Import ListNotations.
Open Scope Q_scope.

(** C45: if odeint integrates points independently, every start point of any shape
    and for any chunk limit gets its own trace, at [y, ..., (x, z)]; *)
Theorem C45_own_trace odeint limit flow x z ys sh fx fz : (0 < limit)%nat -> pointwise odeint flow -> (2 <= length ys)%nat -> wf x -> wf z -> starts x z sh fx fz ->
  exists r, follow odeint limit x z ys = Ok r /\ shape r = length ys :: sh ++ [2%nat] /\ wf r /\
    forall k idx c, (k < length ys)%nat -> valid sh idx -> (c < 2)%nat ->
      get r (k :: idx ++ [c]) = component c (flow (fx idx, fz idx) (hd 0 ys) (nth k ys 0)).
Proof. exact (follow_pointwise odeint limit flow x z ys sh fx fz). Qed.
Print Assumptions C45_own_trace.
(** for any odeint, the result consists of its rows on consecutive chunks of the
    points of fewer than twice the limit; *)
Theorem C45_chunks odeint limit x z ys sh fx fz : (0 < limit)%nat -> rectangular odeint -> (2 <= length ys)%nat -> wf x -> wf z -> starts x z sh fx fz ->
  exists r cs, follow odeint limit x z ys = Ok r /\ shape r = length ys :: sh ++ [2%nat] /\ wf r /\ (exists pts, chunking limit pts cs /\ length pts = nsize sh /\
      (forall idx, valid sh idx -> nth (offset sh idx) pts (0, 0) = (fx idx, fz idx))) /\
    data r = concat (concat_axis1 (length ys) (map (fun c => odeint (flat_points c) ys) cs)).
Proof. exact (follow_chunked odeint limit x z ys sh fx fz). Qed.
Print Assumptions C45_chunks.
(** and arrays of different shapes, neither of them a single number, are refused. *)
Theorem C45_refused odeint limit x z ys : rectangular odeint -> (0 < limit)%nat -> wf x -> wf z -> (2 <= length ys)%nat ->
  shape x <> shape z -> size x <> 1%nat -> size z <> 1%nat -> follow odeint limit x z ys = Err ValueError.
Proof. exact (follow_errors odeint limit x z ys). Qed.
Print Assumptions C45_refused.
Example C45_example : pointwise w_odeint w_flow /\ starts (arr [2%nat; 3%nat] [1; 2; 3; 4; 5; 6]) (arr [1%nat] [7]) [2%nat; 3%nat] (get (arr [2%nat; 3%nat] [1; 2; 3; 4; 5; 6])) (fun _ => 7) /\
  match follow w_odeint 2 (arr [2%nat; 3%nat] [1; 2; 3; 4; 5; 6]) (arr [1%nat] [7]) [0; 1] with
  | Ok r => get r [1; 1; 1; 1]%nat == 12 /\ get r [1; 1; 1; 0]%nat == 5
  | Err _ => False
  end.
Proof. split; [exact w_pointwise|]. split; [|vm_compute; split; reflexivity]. apply (starts_z (arr [2%nat; 3%nat] [1; 2; 3; 4; 5; 6]) (arr [1%nat] [7])); cbn; try discriminate; try reflexivity. lia. Qed.
(** A number given as an array with more dimensions than the other one is not
    accepted, although it is a scalar of the same kind. *)
Theorem C45_extra_dimensions_refuted : ~ forall odeint limit x z ys, (0 < limit)%nat -> (2 <= length ys)%nat -> wf x -> wf z -> size z = 1%nat ->
  exists r, follow odeint limit x z ys = Ok r.
Proof.
  exact (fun H => match H w_odeint 1000%nat (arr [3%nat] [1; 2; 3]) (arr [1%nat; 1%nat] [5]) [0; 1] ltac:(lia) ltac:(cbn; lia) (proj1 (w_extra_dims 1000 w_odeint)) (proj1 (proj2 (w_extra_dims 1000 w_odeint))) eq_refl with
    | ex_intro _ r E => ltac:(rewrite (proj2 (proj2 (proj2 (w_extra_dims 1000 w_odeint)))) in E; discriminate) end).
Qed.
Print Assumptions C45_extra_dimensions_refuted.

(** C46: FieldTracerReversible, any field.  Arrays it works on hold the final
    positions afterwards, all others are unchanged; *)
Theorem C46_arrays_after dir rtol eps fuel n s x z ys s' rows : rev_follow dir rtol eps fuel n s x z ys = Some (Ok (s', rows)) ->
  length rows = length ys /\
  (s' (work_x s x z), s' (work_z s x z)) = last rows ([], []) /\
  forall m, Caller m <> work_x s x z -> Caller m <> work_z s x z -> s' (Caller m) = s (Caller m).
Proof. exact (rev_arrays dir rtol eps fuel n s x z ys s' rows). Qed.
Print Assumptions C46_arrays_after.
(** so nothing of the caller's is changed if the start positions are not arrays. *)
Theorem C46_copied_partial dir rtol eps fuel n s a b ys s' rows : rev_follow dir rtol eps fuel n s (Fresh a) (Fresh b) ys = Some (Ok (s', rows)) ->
  forall m, s' (Caller m) = s (Caller m).
Proof. exact (fun H m => proj2 (proj2 (rev_arrays dir rtol eps fuel n s (Fresh a) (Fresh b) ys s' rows H)) m ltac:(discriminate) ltac:(discriminate)). Qed.
Print Assumptions C46_copied_partial.
(** The property is false for arrays; *)
Theorem C46_overwritten_refuted : ~ forall dir rtol eps fuel n s x z ys s' rows m, rev_follow dir rtol eps fuel n s x z ys = Some (Ok (s', rows)) -> s' (Caller m) = s (Caller m).
Proof. exact (fun H => match w_mutated with ex_intro _ s' (ex_intro _ rows (conj E (conj N _))) => N (H _ _ _ _ _ _ _ _ _ _ _ 1%nat E) end). Qed.
Print Assumptions C46_overwritten_refuted.
Example C46_example : exists s' rows, rev_follow w_dir (1 # 100000000) (1 # 100000) 2 4 w_store (Fresh (arr [1%nat] [2])) (Ref 1 [2%nat]) [0; 1] = Some (Ok (s', rows)) /\
  s' (Caller 1) = [7; 7].
Proof. exact w_mutated_scalar. Qed.
(** and one array as both x and z makes the iteration run forever. *)
Theorem C46_same_array_refuted fuel : rev_follow w_dir (1 # 100000000) (1 # 100000) fuel 1 (fun _ => [1]) (Ref 0 [1%nat]) (Ref 0 [1%nat]) [0; 1] = None.
Proof. exact (w_alias fuel). Qed.
Print Assumptions C46_same_array_refuted.
(** Refused with ValueError: fewer than two y values, and no start points; shapes that do not match as for FieldTracer. *)
Theorem C46_refused dir rtol eps fuel n s x z ys : ((length ys < 2)%nat -> rev_follow dir rtol eps fuel n s x z ys = Some (Err ValueError)) /\
  (forall e, (2 <= length ys)%nat -> match_shapes (arg_nda s x) (arg_nda s z) = Err e -> rev_follow dir rtol eps fuel n s x z ys = Some (Err e)) /\
  (let none := Fresh {| shape := [0%nat]; data := [] |} in
   (2 <= length ys)%nat -> (1 <= fuel)%nat -> (1 <= n)%nat -> rev_follow dir rtol eps fuel n s none none ys = Some (Err ValueError)).
Proof. exact (rev_refused dir rtol eps fuel n s x z ys). Qed.
Print Assumptions C46_refused.

(** C47: the implicit rule is symmetric, for any field and any number of steps; *)
Theorem C47_reversed dir ys p q : chain dir ys p q -> chain dir (rev ys) q p.
Proof. exact (chain_rev dir ys p q). Qed.
Print Assumptions C47_reversed.
(** for fields affine in x and z the code solves it exactly; *)
Theorem C47_solves_rule dir rtol eps F fuel n s x z ys sh fx fz : is_affine F dir -> affine_ok F -> ~ eps == 0 -> 0 < rtol ->
  (2 <= fuel)%nat -> (0 < n)%nat -> (2 <= length ys)%nat -> ~ aliased x z ->
  wf (arg_nda s x) -> wf (arg_nda s z) -> starts (arg_nda s x) (arg_nda s z) sh fx fz -> (0 < nsize sh)%nat -> solvable F n ys ->
  exists s' ps pss, rev_follow dir rtol eps fuel n s x z ys = Some (Ok (s', map row_of (ps :: pss))) /\ run dir n ys (ps :: pss) /\
    length ps = nsize sh /\ (forall idx, valid sh idx -> nth (offset sh idx) ps (0, 0) = (fx idx, fz idx)).
Proof. exact (fun HF HP He Hr => rev_follow_affine dir rtol eps F HF HP He Hr fuel n s x z ys sh fx fz). Qed.
Print Assumptions C47_solves_rule.
(** tracing back from the end points returns the same rows in reverse order, down to
    the start points; *)
Theorem C47_round_trip dir rtol eps F fuel n s x z ys sh fx fz : is_affine F dir -> affine_ok F -> ~ eps == 0 -> 0 < rtol ->
  (2 <= fuel)%nat -> (0 < n)%nat -> (2 <= length ys)%nat -> ~ aliased x z ->
  wf (arg_nda s x) -> wf (arg_nda s z) -> starts (arg_nda s x) (arg_nda s z) sh fx fz -> (0 < nsize sh)%nat -> solvable F n ys ->
  exists s' rows, rev_follow dir rtol eps fuel n s x z ys = Some (Ok (s', rows)) /\ length rows = length ys /\
    let '(xe, ze) := last rows ([], []) in
    exists s'' rows', rev_follow dir rtol eps fuel n s (Fresh {| shape := [nsize sh]; data := xe |}) (Fresh {| shape := [nsize sh]; data := ze |}) (rev ys) = Some (Ok (s'', rows'))
      /\ Forall2 row_eq rows' (rev rows).
Proof. exact (rev_follow_round_trip dir rtol eps F fuel n s x z ys sh fx fz). Qed.
Print Assumptions C47_round_trip.
(** and on a sheared slab every row lies on the exact field lines. *)
Theorem C47_slab By Bz xc Bzp rtol eps fuel n s x z ys sh fx fz : ~ By == 0 -> ~ eps == 0 -> 0 < rtol -> (2 <= fuel)%nat -> (0 < n)%nat -> (2 <= length ys)%nat -> ~ aliased x z ->
  wf (arg_nda s x) -> wf (arg_nda s z) -> starts (arg_nda s x) (arg_nda s z) sh fx fz -> (0 < nsize sh)%nat ->
  exists s' rows, rev_follow (slab_dir By Bz xc Bzp) rtol eps fuel n s x z ys = Some (Ok (s', rows)) /\ length rows = length ys /\
    forall k idx, (k < length ys)%nat -> valid sh idx ->
      nth (offset sh idx) (fst (nth k rows ([], []))) 0 == fx idx /\
      nth (offset sh idx) (snd (nth k rows ([], []))) 0 == fz idx + (Bz + (fx idx - xc) * Bzp) / By * (nth k ys 0 - nth 0 ys 0).
Proof. exact (rev_slab By Bz xc Bzp rtol eps fuel n s x z ys sh fx fz). Qed.
Print Assumptions C47_slab.
Example C47_example : is_affine w_F w_dir /\ affine_ok w_F /\ solvable w_F 4 [0; 1; 3] /\ ~ aliased (Ref 0 [2%nat]) (Ref 1 [2%nat]) /\
  wf (arg_nda w_store (Ref 0 [2%nat])) /\ wf (arg_nda w_store (Ref 1 [2%nat])).
Proof. split; [exact w_affine|]. split; [exact w_affine_ok|]. split; [exact (w_solvable 4 [0; 1; 3])|]. split; [discriminate|]. split; reflexivity. Qed.
(** A singular step is never left. *)
Theorem C47_singular_step_refuted fuel : rev_follow w_grow (1 # 100000000) (1 # 100000) fuel 1 w_store (Fresh (arr [1%nat] [1])) (Fresh (arr [1%nat] [0])) [0; 1] = None.
Proof. exact (w_singular fuel). Qed.
Print Assumptions C47_singular_step_refuted.

(** C48 *)
Theorem C48_samples odeint limit flow x z yperiod nplot y_slices revs nover slices sh fx fz :
  (0 < limit)%nat -> pointwise odeint flow -> wf x -> wf z -> starts x z sh fx fz ->
  choose_slices yperiod nplot y_slices = Ok slices -> (1 <= revs)%Z -> (1 <= nover)%Z -> (2 <= Z.to_nat revs * length slices)%nat ->
  exists r, trace_poincare odeint limit x z yperiod nplot y_slices revs nover = Ok (r, slices) /\
    shape r = Z.to_nat revs :: length slices :: sh ++ [2%nat] /\ wf r /\
    forall n k, (n < Z.to_nat revs)%nat -> (k < length slices)%nat ->
      exists y, y == nth k slices 0 + inject_Z (Z.of_nat n) * yperiod /\ forall idx c, valid sh idx -> (c < 2)%nat ->
        get r (n :: k :: idx ++ [c]) = component c (flow (fx idx, fz idx) (nth 0 slices 0) y).
Proof. exact (poincare_ok odeint limit flow x z yperiod nplot y_slices revs nover slices sh fx fz). Qed.
Print Assumptions C48_samples.
(** given slices are sorted and lie in the period; default slices are evenly spaced *)
Theorem C48_given_slices yperiod nplot l s : choose_slices yperiod nplot (Some l) = Ok s ->
  Permutation s l /\ nondecreasing s /\ l <> [] /\ forall y, In y s -> 0 <= y <= yperiod.
Proof.
  exact (fun H => match choose_given yperiod nplot l s H with conj E (conj N R) =>
    conj (eq_ind_r (fun s => Permutation s l) (qsort_perm l) E) (conj (eq_ind_r nondecreasing (qsort_nondec l) E) (conj N R)) end).
Qed.
Print Assumptions C48_given_slices.
Theorem C48_even_slices yperiod n k : (k < n)%nat -> choose_slices yperiod (Some (Z.of_nat n)) None = Ok (even_slices yperiod n) /\
  length (even_slices yperiod n) = n /\ nth k (even_slices yperiod n) 0 == inject_Z (Z.of_nat k) * yperiod / inject_Z (Z.of_nat n).
Proof. exact (fun H => conj (even_chosen yperiod n) (conj (even_length yperiod n) (even_nth yperiod n k H))). Qed.
Print Assumptions C48_even_slices.
(** slices are refused with ValueError, and only empty lists, slices outside of the period and missing or negative
    numbers are *)
Theorem C48_refused yperiod nplot y_slices e : choose_slices yperiod nplot y_slices = Err e ->
  e = ValueError /\ match y_slices with Some l => l = [] \/ exists y, In y l /\ (y < 0 \/ yperiod < y) | None => match nplot with Some n => (n < 0)%Z | None => True end end.
Proof. exact (slices_refused yperiod nplot y_slices e). Qed.
Print Assumptions C48_refused.
(** the integrator gets y values in increasing order, whatever the over-sampling *)
Theorem C48_increasing yperiod slices revs nover : (1 <= revs)%nat -> (1 <= nover)%nat -> nondecreasing slices -> (forall y, In y slices -> 0 <= y <= yperiod) ->
  nondecreasing (oversample (revolve yperiod slices revs) nover).
Proof. exact (fun Hr Hn Hs Hy => oversample_nondec _ nover Hn (revolve_nondec yperiod slices revs Hr Hs Hy)). Qed.
Print Assumptions C48_increasing.
Example C48_example : match trace_poincare w_odeint 1000 (arr [1%nat] [1]) (arr [1%nat] [5]) 4 None (Some [3; 1]) 2 5 with
  | Ok (r, s) => s = [1; 3] /\ shape r = [2; 2; 1; 2]%nat /\ get r [1; 1; 0; 1]%nat == 11
  | Err _ => False
  end.
Proof. vm_compute. repeat split. Qed.
(** One revolution with one slice is refused. *)
Theorem C48_single_sample_refuted odeint limit x z yperiod nplot y_slices revs nover slices : choose_slices yperiod nplot y_slices = Ok slices ->
  (Z.to_nat revs * length slices < 2)%nat -> trace_poincare odeint limit x z yperiod nplot y_slices revs nover = Err ValueError.
Proof. exact (poincare_single odeint limit x z yperiod nplot y_slices revs nover slices). Qed.
Print Assumptions C48_single_sample_refuted.
Example C48_single_example : choose_slices 4 (Some 1%Z) None = Ok [0 * (4 / 1)].
Proof. reflexivity. Qed.

(** C49: with the pool, for every schedule of failures: all chunks in input order if
    the failures number less than the retries, an exception otherwise; *)
Theorem C49_retries trace fails chunk retry xs zs ys : (1 <= chunk)%nat -> (1 <= retry)%nat -> xs <> [] -> length xs = length zs ->
  let n := number_of_chunks chunk (length xs) in
  ((exists counts, length counts = n /\ (forall j, (j < n)%nat -> failures fails j (nth j counts 0%nat)) /\ (nsum counts < retry)%nat) /\
   web_rows trace fails true chunk retry xs zs ys = Ok (concat_axis1 (length ys) (map (fun c => trace (fst c) (snd c) ys) (combine (chunks chunk xs) (chunks chunk zs))))) \/
  (~ (exists counts, length counts = n /\ (forall j, (j < n)%nat -> failures fails j (nth j counts 0%nat)) /\ (nsum counts < retry)%nat) /\
   web_rows trace fails true chunk retry xs zs ys = Err OtherError).
Proof. exact (web_pool_err trace fails chunk retry xs zs ys). Qed.
Print Assumptions C49_retries.
(** a result contains every point's own trace, in order. *)
Theorem C49_own_trace trace fails flow pooled chunk retry xs zs ys rows : (1 <= chunk)%nat -> length xs = length zs ->
  (forall a b y, trace a b y = map (fun t => flat_points (map (fun p => flow p (hd 0 y) t) (combine a b))) y) ->
  web_rows trace fails pooled chunk retry xs zs ys = Ok rows -> rows = map (fun t => flat_points (map (fun p => flow p (hd 0 ys) t) (combine xs zs))) ys.
Proof. exact (web_rows_pointwise trace fails flow pooled chunk retry xs zs ys rows). Qed.
Print Assumptions C49_own_trace.
(** follow_field_lines as a whole: every line's points at every y, or the failure of a call; *)
Theorem C49_follow trace fails flow cfg chunk retry x z ys sh fx fz : (1 <= chunk)%nat -> (1 <= retry)%nat -> (2 <= length ys)%nat -> wf x -> wf z -> starts x z sh fx fz -> (0 < nsize sh)%nat ->
  (forall a b y, trace a b y = map (fun t => flat_points (map (fun p => flow p (hd 0 y) t) (combine a b))) y) ->
  (exists r, web_follow trace fails cfg chunk retry x z ys = Ok r /\ shape r = length ys :: sh ++ [2%nat] /\ wf r /\
    forall k idx c, (k < length ys)%nat -> valid sh idx -> (c < 2)%nat -> get r (k :: idx ++ [c]) = component c (flow (fx idx, fz idx) (hd 0 ys) (nth k ys 0))) \/
  (exists j, fails j 0%nat = true) /\ web_follow trace fails cfg chunk retry x z ys = Err OtherError.
Proof. exact (web_follow_all trace fails flow cfg chunk retry x z ys sh fx fz). Qed.
Print Assumptions C49_follow.
(** the calls that are refused. *)
Theorem C49_refused trace fails cfg chunk retry x z ys : (length ys < 2)%nat \/ (shape x <> shape z /\ size x <> 1%nat /\ size z <> 1%nat) ->
  web_follow trace fails cfg chunk retry x z ys = Err ValueError.
Proof. exact (web_follow_refused trace fails cfg chunk retry x z ys). Qed.
Print Assumptions C49_refused.
Theorem C49_no_points trace fails pooled chunk retry ys : web_rows trace fails pooled chunk retry [] [] ys = Err ValueError.
Proof. exact (web_rows_none trace fails pooled chunk retry ys). Qed.
Print Assumptions C49_no_points.
(** Without retries the pool's results are never fetched. *)
Theorem C49_no_retry_refuted trace fails chunk xs zs ys : (1 <= chunk)%nat -> web_rows trace fails true chunk 0 xs zs ys = Err ValueError.
Proof. exact (web_rows_no_retry trace fails chunk xs zs ys). Qed.
Print Assumptions C49_no_retry_refuted.
Example C49_follow_example : let trace := fun a b y => map (fun t => flat_points (map (fun p => (fst p + t, snd p)) (combine a b))) y in
  match web_follow trace (fun _ _ => false) false 2 3 (arr [3%nat] [1; 2; 3]) (arr [1%nat] [7]) [0; 5] with Ok r => get r [1; 2; 0]%nat == 8 | Err _ => False end.
Proof. vm_compute. reflexivity. Qed.
Example C49_example : let fails := fun j a => ((j =? 1) && (a <? 2))%nat%bool in
  web_rows (fun xs _ ys => map (fun y => map (fun x => x + y) xs) ys) fails true 2 3 [1; 2; 3; 4; 5] [1; 2; 3; 4; 5] [0] = Ok [[1 + 0; 2 + 0; 3 + 0; 4 + 0; 5 + 0]] /\
  web_rows (fun xs _ ys => map (fun y => map (fun x => x + y) xs) ys) fails true 2 2 [1; 2; 3; 4; 5] [1; 2; 3; 4; 5] [0] = Err OtherError.
Proof. split; reflexivity. Qed.
(** Without the pool (a configuration is given, or there is a single chunk) nothing
    is tried again, whatever the retry count. *)
Theorem C49_no_pool_refuted trace fails chunk retry xs zs ys : fails 0%nat 0%nat = true -> xs <> [] -> length xs = length zs -> (1 <= chunk)%nat ->
  web_rows trace fails false chunk retry xs zs ys = Err OtherError.
Proof. exact (web_no_pool trace fails chunk retry xs zs ys). Qed.
Print Assumptions C49_no_pool_refuted.

(** C50, what holds: for every history of calls, if the tracer returns arrays of the
    expected shape and calls with equal file names have equal results. *)
Theorem C50_histories_partial str digest tracer (all : list (nda * nda * list Q)) :
  (forall c, In c all -> forall r, ask tracer c = Ok r -> shape r = guess_shape (fst (fst c)) (snd c) /\ wf r) ->
  (forall c c', In c all -> In c' all -> ckey str digest c = ckey str digest c' -> same_numbers (ask tracer c) (ask tracer c')) ->
  forall cs, incl cs all -> run_calls str digest tracer [] cs = map (ask tracer) cs.
Proof. exact (fun HS HK cs Hi => cached_history str digest tracer all HS HK cs [] Hi (fun k d H => match H with end)). Qed.
Print Assumptions C50_histories_partial.
(** FieldTracer meets the conditions for x and z of equal shape and distinct names. *)
Theorem C50_field_tracer_partial str digest odeint limit (cs : list (nda * nda * list Q)) :
  (forall c, In c cs -> shape (fst (fst c)) = shape (snd (fst c)) /\ wf (fst (fst c)) /\ wf (snd (fst c))) ->
  (forall c c', In c cs -> In c' cs -> ckey str digest c = ckey str digest c' -> data (fst (fst c)) = data (fst (fst c')) /\ data (snd (fst c)) = data (snd (fst c')) /\ snd c = snd c') ->
  run_calls str digest (follow odeint limit) [] cs = map (ask (follow odeint limit)) cs.
Proof. exact (cached_field_tracer str digest odeint limit cs). Qed.
Print Assumptions C50_field_tracer_partial.
Example C50_example : run_calls (fun q => if Qeq_bool q 1 then "1.0" else if Qeq_bool q 2 then "2.0" else "0.0")%string (fun s => s) (follow w_odeint 1000) [] [w_call 1 2; w_call 2 1; w_call 1 2]
  = map (ask (follow w_odeint 1000)) [w_call 1 2; w_call 2 1; w_call 1 2].
Proof. vm_compute. reflexivity. Qed.
(** The names of different calls can be equal, for every digest: x = 1, z = 12 and
    x = 1.01, z = 2 are written the same way. *)
Theorem C50_collision_refuted str digest : (str 1 = "1.0" -> str 12 = "12.0" -> str (101 # 100) = "1.01" -> str 2 = "2.0" ->
  run_calls str digest (follow w_odeint 1000) [] [w_call 1 12; w_call (101 # 100) 2] <> map (ask (follow w_odeint 1000)) [w_call 1 12; w_call (101 # 100) 2])%string.
Proof. exact (w_collision str digest). Qed.
Print Assumptions C50_collision_refuted.
(** Another tracer, or other keyword arguments, get the first one's numbers. *)
Theorem C50_shared_file_refuted str digest t1 t2 x z ys r fs : t1 x z ys = Ok r -> find_file (key str digest x z ys) fs = None ->
  fst (cached_follow str digest t2 (snd (cached_follow str digest t1 fs x z ys)) x z ys) = reshape (guess_shape x ys) (data r).
Proof. exact (w_shared str digest t1 t2 x z ys r fs). Qed.
Print Assumptions C50_shared_file_refuted.
(** A single x with several z works without the cache and never with it. *)
Theorem C50_scalar_refuted str digest : let x := arr [1%nat] [1] in let z := arr [2%nat] [5; 6] in
  is_ok (follow w_odeint 1000 x z [0; 1]) = true /\
  run_calls str digest (follow w_odeint 1000) [] [(x, z, [0; 1]); (x, z, [0; 1])] = [Err AssertionError; Err ValueError].
Proof. exact (w_scalar str digest). Qed.
Print Assumptions C50_scalar_refuted.

(** C51: the loops end for every angle and a period of positive length, at an angle
    in the stored range, an integer number of periods away. *)
Theorem C51_ends pmin pmax phi : pmin < pmax -> exists fuel0, forall fuel, (fuel0 <= fuel)%nat -> exists phi' n, wrap_phi fuel pmin pmax phi = Some (phi', n).
Proof. exact (wrap_ends pmin pmax phi). Qed.
Print Assumptions C51_ends.
Theorem C51_in_range fuel pmin pmax phi phi' n : pmin <= pmax -> wrap_phi fuel pmin pmax phi = Some (phi', n) ->
  phi' == phi + inject_Z n * (pmax - pmin) /\ pmin <= phi' <= pmax.
Proof. exact (wrap_spec fuel pmin pmax phi phi' n). Qed.
Print Assumptions C51_in_range.
Example C51_example : wrap_phi 10 0 1 (-(7 # 2)) = Some (-(7 # 2) + (1 - 0) + (1 - 0) + (1 - 0) + (1 - 0), 4%Z) /\ wrap_phi 10 0 1 (5 # 2) = Some ((5 # 2) - (1 - 0) - (1 - 0), (-2)%Z).
Proof. split; reflexivity. Qed.
(** With a single stored angle the loops never end; *)
Theorem C51_single_angle_refuted p phi fuel : ~ phi == p -> wrap_phi fuel p p phi = None.
Proof. exact (wrap_never p phi fuel). Qed.
Print Assumptions C51_single_angle_refuted.
(** Cells: positions found by the iteration are reproduced within the tolerance, in
    parallelograms exactly; *)
Theorem C51_cell_tolerance least_squares rz grid nz ij ab : rz_to_ab_cell least_squares rz grid nz ij = Ok ab ->
  (let '(A, a, b, c) := corners grid nz ij in ab = least_squares a b c (psub2 rz A)) \/
  let r := ab_to_rz ab grid nz ij in (fst rz - fst r) * (fst rz - fst r) + (snd rz - snd r) * (snd rz - snd r) < 1 # 10000000000000.
Proof. exact (cell_tolerance least_squares rz grid nz ij ab). Qed.
Print Assumptions C51_cell_tolerance.
(** The iteration: every step solves the equations linearised at the point before, a singular one raises; the first of the steps
    that comes within the tolerance is the answer, after a hundred steps least squares is asked. *)
Theorem C51_newton_step rz0 a b c al be : (newton_step rz0 a b c (al, be) = None <->
    (fst a + be * fst c) * (snd b + al * snd c) - (fst b + al * fst c) * (snd a + be * snd c) == 0) /\
  forall ab', newton_step rz0 a b c (al, be) = Some ab' -> let u := fst ab' - al in let v := snd ab' - be in
    let f := (fst rz0 - al * fst a - be * fst b - al * be * fst c, snd rz0 - al * snd a - be * snd b - al * be * snd c) in
    u * (fst a + be * fst c) + v * (fst b + al * fst c) == fst f /\ u * (snd a + be * snd c) + v * (snd b + al * snd c) == snd f.
Proof. split; [exact (newton_singular rz0 a b c al be)|]. intros ab' H. exact (EmcProofs.newton_solves rz0 a b c (al, be) ab' H). Qed.
Print Assumptions C51_newton_step.
Theorem C51_iterations least_squares rz grid nz ij (u : nat -> pt) m : (m <= 100)%nat ->
  let '(A, a, b, c) := corners grid nz ij in
  let step := newton_step (psub2 rz A) a b c in
  let miss2 ab := let r := ab_to_rz ab grid nz ij in (fst rz - fst r) * (fst rz - fst r) + (snd rz - snd r) * (snd rz - snd r) in
  u 0%nat = (1#2, 1#2) -> (forall k, (k < m)%nat -> step (u k) = Some (u (S k))) ->
  (forall k, (k < m)%nat -> (1 # 10000000000000) <= miss2 (u (S k))) ->
  (m = 100%nat -> rz_to_ab_cell least_squares rz grid nz ij = Ok (least_squares a b c (psub2 rz A))) /\
  ((m < 100)%nat -> step (u m) = None -> rz_to_ab_cell least_squares rz grid nz ij = Err OtherError) /\
  (forall ab, (m < 100)%nat -> step (u m) = Some ab -> miss2 ab < 1 # 10000000000000 -> rz_to_ab_cell least_squares rz grid nz ij = Ok ab).
Proof. exact (iterations least_squares rz grid nz ij u m). Qed.
Print Assumptions C51_iterations.
Theorem C51_parallelogram least_squares rz grid nz ij : (let '(A, a, b, c) := corners grid nz ij in fst c == 0 /\ snd c == 0 /\ ~ fst a * snd b - fst b * snd a == 0) ->
  exists ab, rz_to_ab_cell least_squares rz grid nz ij = Ok ab /\ fst (ab_to_rz ab grid nz ij) == fst rz /\ snd (ab_to_rz ab grid nz ij) == snd rz.
Proof. exact (cell_parallelogram least_squares rz grid nz ij). Qed.
Print Assumptions C51_parallelogram.
Example C51_cell_example : let grid := fun i j => (inject_Z i + 2 * inject_Z j, inject_Z i - inject_Z j) in
  match rz_to_ab_cell (fun _ _ _ _ => (0, 0)) (5, 0) grid 3 4 with Ok ab => fst (ab_to_rz ab grid 3 4) == 5 /\ snd (ab_to_rz ab grid 3 4) == 0 /\ fst ab == 2 # 3 /\ snd ab == 2 # 3 | Err _ => False end.
Proof. vm_compute. repeat split. Qed.
(** the unit square of cell coordinates is the cell between its four grid points, the
    edges being straight; *)
Theorem C51_cell_edges grid nz i j t : (0 <= j < nz)%Z -> let ij := (i * nz + j)%Z in
  let same p q := fst p == fst q /\ snd p == snd q in
  let between p q := (fst p + t * (fst q - fst p), snd p + t * (snd q - snd p)) in
  same (ab_to_rz (t, 0) grid nz ij) (between (grid i j) (grid i (j + 1)%Z)) /\
  same (ab_to_rz (t, 1) grid nz ij) (between (grid (i + 1)%Z j) (grid (i + 1)%Z (j + 1)%Z)) /\
  same (ab_to_rz (0, t) grid nz ij) (between (grid i j) (grid (i + 1)%Z j)) /\
  same (ab_to_rz (1, t) grid nz ij) (between (grid i (j + 1)%Z) (grid (i + 1)%Z (j + 1)%Z)).
Proof. exact (cell_corner_points grid nz i j t). Qed.
Print Assumptions C51_cell_edges.
(** Lines: within one period the start point's cell coordinates are kept; *)
Theorem C51_one_period cell locate place pmin pmax m0 ms rz c0 : locate (fst m0) rz = Ok c0 -> (forall m, In m ms -> snd m = snd m0) ->
  follow_point cell locate place pmin pmax (m0 :: ms) rz = Ok (rz :: map (fun m => place (fst m) c0) ms).
Proof. exact (follow_point_period cell locate place pmin pmax m0 ms rz c0). Qed.
Print Assumptions C51_one_period.
(** but crossing the end of a period has no effect on the result: it is the same
    formula (with the crossings' only trace a possible exception), *)
Theorem C51_crossing_ignored cell locate place pmin pmax meshes rz out : follow_point cell locate place pmin pmax meshes rz = Ok out ->
  exists m0 ms c0, meshes = m0 :: ms /\ locate (fst m0) rz = Ok c0 /\ out = rz :: map (fun m => place (fst m) c0) ms.
Proof. exact (follow_point_actual cell locate place pmin pmax meshes rz out). Qed.
Print Assumptions C51_crossing_ignored.
(** so that a line on widening meshes comes out at half its radius; *)
Theorem C51_crossing_refuted : wrap_phi 5 0 1 0 = Some (0, 0%Z) /\ wrap_phi 5 0 1 (3 # 2) = Some (1 # 2, (-1)%Z) /\
  exists p q, w_after (1, 0) = Ok p /\ follow_point (Q * Q) w_locate w_place 0 1 [(0, 0%Z); (1 # 2, (-1)%Z)] (1, 0) = Ok [(1, 0); q] /\
    fst p == 3 /\ fst q == 3 # 2.
Proof. exact w_discards. Qed.
Print Assumptions C51_crossing_refuted.
(** and zero-dimensional start positions always raise: TypeError once the first point has been found. *)
Theorem C51_scalar_refuted cell locate place pmin pmax meshes rz rest : emc_follow cell locate place pmin pmax [] meshes (rz :: rest) =
  Err (match meshes with [] => IndexError | m0 :: _ => match locate (fst m0) rz with Ok _ => TypeError | Err e => e end end).
Proof. exact (emc_scalar cell locate place pmin pmax meshes rz rest). Qed.
Print Assumptions C51_scalar_refuted.
