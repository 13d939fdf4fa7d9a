(** Proofs about progress.py. *)
From Coq Require Import List ZArith QArith Qround Qabs Ascii Lia Lqa Bool.
From Verif Require Import Prelude PreludeFacts ProgressModel ProgressSpec.
Import ListNotations.
Open Scope Z_scope.

(** ** Rounding *)
Lemma Qfloor_bound q : (inject_Z (Qfloor q) <= q < inject_Z (Qfloor q) + 1)%Q.
Proof. assert (A := Qfloor_le q). assert (B := Qlt_floor q). rewrite inject_Z_plus in B. change (inject_Z 1) with 1%Q in B. split; assumption. Qed.
Lemma round_even_near q : (Qabs (inject_Z (round_even q) - q) <= 1 # 2)%Q.
Proof.
  assert (B := Qfloor_bound q). unfold round_even. set (f := Qfloor q) in *. cbv zeta. apply Qabs_Qle_condition.
  destruct (Qcompare_spec (q - inject_Z f) (1 # 2)) as [E|E|E]; [destruct (Z.even f)| |]; rewrite ?inject_Z_plus; change (inject_Z 1) with 1%Q; lra.
Qed.
Lemma round_even_comp a b : (a == b)%Q -> round_even a = round_even b.
Proof. intros E. unfold round_even. rewrite (Qfloor_comp _ _ E). set (f := Qfloor b). cbv zeta. rewrite (Qcompare_comp (a - inject_Z f)%Q (b - inject_Z f)%Q ltac:(rewrite E; reflexivity) (1 # 2)%Q (1 # 2)%Q (Qeq_refl _)); reflexivity. Qed.
Lemma round_even_Z n : round_even (inject_Z n) = n.
Proof.
  unfold round_even. rewrite Qfloor_Z. cbv zeta. destruct (Qcompare_spec (inject_Z n - inject_Z n) (1 # 2)) as [E|E|E]; [exfalso; lra|reflexivity|exfalso; lra].
Qed.
Lemma round_even_shift q k : round_even (q + inject_Z (2 * k)) = round_even q + 2 * k.
Proof.
  unfold round_even. rewrite Qfloor_plus_Z. cbv zeta. set (f := Qfloor q).
  rewrite (Qcompare_comp (q + inject_Z (2 * k) - inject_Z (f + 2 * k))%Q (q - inject_Z f)%Q ltac:(rewrite inject_Z_plus; ring) (1 # 2)%Q (1 # 2)%Q (Qeq_refl _)).
  replace (Z.even (f + 2 * k)) with (Z.even f) by (rewrite Z.even_add_mul_2; reflexivity). destruct (Qcompare _ _); [destruct (Z.even f)| |]; lia.
Qed.
Lemma round_even_mono a b : (a <= b)%Q -> round_even a <= round_even b.
Proof.
  intros H. assert (A := Qfloor_bound a). assert (B := Qfloor_bound b). assert (F : Qfloor a <= Qfloor b) by (apply Qfloor_resp_le, H).
  unfold round_even. set (f := Qfloor a) in *. set (g := Qfloor b) in *. cbv zeta. destruct (Z.eq_dec f g) as [E|N].
  - rewrite <- E in *. destruct (Qcompare_spec (a - inject_Z f) (1 # 2)); destruct (Qcompare_spec (b - inject_Z f) (1 # 2)); try (exfalso; lra); destruct (Z.even f); lia.
  - destruct (Qcompare_spec (a - inject_Z f) (1 # 2)); destruct (Qcompare_spec (b - inject_Z g) (1 # 2)); destruct (Z.even f), (Z.even g); lia.
Qed.
Lemma round_even_range q n : 0 <= n -> (0 <= q <= inject_Z n)%Q -> 0 <= round_even q <= n.
Proof.
  intros Hn [H0 H1]. split.
  - change 0 with (round_even (inject_Z 0)) at 1. apply round_even_mono. exact H0.
  - rewrite <- (round_even_Z n). apply round_even_mono. exact H1.
Qed.

(** ** Reading digits *)
Lemma unit_digit d : 0 <= d < 10 -> unit_of (digit d) = None /\ Z.of_nat (nat_of_ascii (digit d)) - 48 = d.
Proof. intros H. assert (C : d = 0 \/ d = 1 \/ d = 2 \/ d = 3 \/ d = 4 \/ d = 5 \/ d = 6 \/ d = 7 \/ d = 8 \/ d = 9) by lia. repeat (destruct C as [->|C]; [split; reflexivity|]). subst d. split; reflexivity. Qed.
Lemma read_digit d a t : 0 <= d < 10 -> read_char (a, t) (digit d) = (10 * a + d, t).
Proof. intros H. destruct (unit_digit d H) as [E1 E2]. unfold read_char. rewrite E1, E2. reflexivity. Qed.
Lemma read_dec_loop fuel : forall n tail t, 0 <= n < 2 ^ Z.of_nat fuel -> (0 < fuel)%nat ->
  fold_left read_char (dec_loop fuel n tail) (0, t) = fold_left read_char tail (n, t).
Proof.
  induction fuel as [|f IH]; intros n tail t Hn Hf; [lia|]. cbn [dec_loop]. cbv zeta. destruct (Z.ltb_spec n 10) as [A|A].
  - cbn [fold_left]. rewrite read_digit by (apply Z.mod_pos_bound; lia). rewrite Z.mod_small by lia. f_equal.
  - assert (P : 2 ^ Z.of_nat (S f) = 2 * 2 ^ Z.of_nat f) by (rewrite Nat2Z.inj_succ, Z.pow_succ_r by lia; reflexivity).
    destruct f as [|f]; [cbn in Hn; lia|].
    rewrite IH; [|split; [apply Z.div_pos; lia|apply Z.div_lt_upper_bound; lia]|lia]. cbn [fold_left]. rewrite read_digit by (apply Z.mod_pos_bound; lia).
    assert (D := Z.div_mod n 10 ltac:(lia)). repeat f_equal. lia.
Qed.
Lemma read_dec n t : 0 <= n -> fold_left read_char (dec n) (0, t) = (n, t).
Proof.
  intros H. unfold dec. rewrite read_dec_loop; [reflexivity| |lia]. split; [exact H|]. rewrite Nat2Z.inj_succ, Z2Nat.id by apply Z.log2_nonneg.
  destruct (Z.eq_dec n 0) as [->|N]; [reflexivity|]. apply (Z.log2_spec n). lia.
Qed.
Lemma read_pad2 n t : 0 <= n -> fold_left read_char (pad2 n) (0, t) = (n, t).
Proof.
  intros H. unfold pad2. cbv zeta. destruct (Z.ltb_spec n 0); [lia|]. rewrite Z.abs_eq by exact H. cbn [length app].
  destruct (0 + length (dec n) <? 2)%nat; [cbn [fold_left]; change (read_char (0, t) "0"%char) with (0, t)|]; apply read_dec; exact H.
Qed.
Lemma read_unit n t c u : unit_of c = Some u -> read_char (n, t) c = (0, t + n * u).
Proof. intros H. unfold read_char. rewrite H. reflexivity. Qed.

(** ** format_time *)
Lemma format_step_read name val ret out secs T : unit_of name = Some val -> 0 < val -> (0 <= secs)%Q -> fold_left read_char ret (0, 0) = (0, T) ->
  exists ret' out' secs' k, format_step (ret, out, secs) (name, val) = (ret', out', secs') /\ (0 <= secs')%Q /\
    fold_left read_char ret' (0, 0) = (0, T + k * val) /\ (secs == secs' + inject_Z (k * val))%Q.
Proof.
  intros Hu Hv Hs HT. unfold format_step. destruct (out || Qle_bool (inject_Z val) secs) eqn:E.
  - set (cur := Qfloor (secs / inject_Z val)). assert (Hv' : (0 < inject_Z val)%Q) by (change 0%Q with (inject_Z 0); rewrite <- Zlt_Qlt; exact Hv).
    assert (B := Qfloor_bound (secs / inject_Z val)). fold cur in B.
    assert (D : (secs == secs / inject_Z val * inject_Z val)%Q) by (field; lra). set (q := (secs / inject_Z val)%Q) in *.
    assert (Hc : 0 <= cur). { unfold cur. change 0 with (Qfloor (inject_Z 0)). apply Qfloor_resp_le. unfold q. apply Qle_shift_div_l; [exact Hv'|]. change (inject_Z 0) with 0%Q. lra. }
    exists (ret ++ pad2 cur ++ [name]), true, (secs - inject_Z (cur * val))%Q, cur. split; [reflexivity|]. split; [|split].
    + rewrite inject_Z_mult. clearbody q cur. nra.
    + rewrite !fold_left_app, HT, read_pad2 by exact Hc. cbn [fold_left]. rewrite (read_unit _ _ _ _ Hu). reflexivity.
    + ring.
  - exists ret, out, secs, 0. split; [apply orb_false_iff in E as [-> _]; reflexivity|]. split; [exact Hs|]. split; [rewrite HT; f_equal; lia|]. change (0 * val) with 0. change (inject_Z 0) with 0%Q. ring.
Qed.
Lemma format_read q : (0 <= q)%Q -> read_time (format_time q) = round_even q.
Proof.
  intros Hq. unfold format_time. cbn [rev app fold_left]. change (60 * 60 * 24) with 86400.
  destruct (format_step_read "d" 86400 [] false q 0 eq_refl ltac:(lia) Hq eq_refl) as (r1 & o1 & s1 & k1 & E1 & H1 & T1 & S1). rewrite E1.
  destruct (format_step_read "h" 3600 r1 o1 s1 _ eq_refl ltac:(lia) H1 T1) as (r2 & o2 & s2 & k2 & E2 & H2 & T2 & S2). rewrite E2.
  destruct (format_step_read "m" 60 r2 o2 s2 _ eq_refl ltac:(lia) H2 T2) as (r3 & o3 & s3 & k3 & E3 & H3 & T3 & S3). rewrite E3.
  unfold read_time. rewrite !fold_left_app, T3. unfold pad2f. rewrite read_pad2.
  - cbn [fold_left]. rewrite (read_unit _ _ "s"%char 1 eq_refl). cbn [snd].
    rewrite (round_even_comp q (s3 + inject_Z (2 * (k1 * 43200 + k2 * 1800 + k3 * 30)))).
    + rewrite round_even_shift. lia.
    + rewrite S1, S2, S3. replace (2 * (k1 * 43200 + k2 * 1800 + k3 * 30)) with (k1 * 86400 + k2 * 3600 + k3 * 60) by lia. rewrite !inject_Z_plus. ring.
  - rewrite <- (round_even_Z 0). apply round_even_mono. exact H3.
Qed.

Lemma format_step_Z name val ret out secs n : 0 < val -> 0 <= n -> (secs == inject_Z n)%Q -> exists secs', 
  format_step (ret, out, secs) (name, val) = (if out || (val <=? n) then ret ++ pad2 (n / val) ++ [name] else ret, out || (val <=? n), secs') /\
  (secs' == inject_Z (if out || (val <=? n) then n mod val else n))%Q.
Proof.
  intros Hv Hn Hs. unfold format_step. assert (E : Qle_bool (inject_Z val) secs = (val <=? n)).
  { rewrite <- Qle_bool_Z. destruct (Qle_bool (inject_Z val) secs) eqn:A, (Qle_bool (inject_Z val) (inject_Z n)) eqn:B; try reflexivity.
    - apply Qle_bool_iff in A. apply Qle_bool_false_iff in B. lra.
    - apply Qle_bool_iff in B. apply Qle_bool_false_iff in A. lra. }
  rewrite E. destruct (out || (val <=? n)).
  - rewrite (Qfloor_comp _ _ (Qdiv_comp _ _ Hs (inject_Z val) (inject_Z val) (Qeq_refl _))), Qfloor_div by exact Hv. eexists. split; [reflexivity|].
    rewrite Hs. assert (D := Z.div_mod n val ltac:(lia)). replace (n mod val) with (n - n / val * val) by lia. unfold Z.sub. rewrite inject_Z_plus, inject_Z_opp. ring.
  - exists secs. split; [reflexivity|exact Hs].
Qed.
Lemma format_whole n : 0 <= n ->
  format_time (inject_Z n) =
    (if 86400 <=? n then pad2 (n / 86400) ++ ["d"%char] else []) ++
    (if 3600 <=? n then pad2 (n mod 86400 / 3600) ++ ["h"%char] else []) ++
    (if 60 <=? n then pad2 (n mod 3600 / 60) ++ ["m"%char] else []) ++ pad2 (n mod 60) ++ ["s"%char].
Proof.
  intros Hn. unfold format_time. cbn [rev app fold_left]. change (60 * 60 * 24) with 86400.
  destruct (format_step_Z "d" 86400 [] false (inject_Z n) n ltac:(lia) Hn ltac:(reflexivity)) as (s1 & E1 & S1). rewrite E1. cbn [orb] in *.
  assert (M := Z.mod_pos_bound n 86400 ltac:(lia)).
  set (n1 := if 86400 <=? n then n mod 86400 else n) in *. assert (H1 : 0 <= n1) by (unfold n1; destruct (Z.leb_spec 86400 n); lia).
  destruct (format_step_Z "h" 3600 (if 86400 <=? n then [] ++ pad2 (n / 86400) ++ ["d"%char] else []) (86400 <=? n) s1 n1 ltac:(lia) H1 S1) as (s2 & E2 & S2). rewrite E2.
  assert (O2 : (86400 <=? n) || (3600 <=? n1) = (3600 <=? n)).
  { unfold n1. destruct (Z.leb_spec 86400 n); cbn [orb]; [|reflexivity]. destruct (Z.leb_spec 3600 n); [reflexivity|lia]. }
  rewrite O2 in *. assert (M1 := Z.mod_pos_bound n1 3600 ltac:(lia)). set (n2 := if 3600 <=? n then n1 mod 3600 else n1) in *. assert (H2 : 0 <= n2) by (unfold n2; destruct (Z.leb_spec 3600 n); lia).
  match type of E2 with _ = (?r, _, _) => set (ret2 := r) in * end.
  destruct (format_step_Z "m" 60 ret2 (3600 <=? n) s2 n2 ltac:(lia) H2 S2) as (s3 & E3 & S3). rewrite E3.
  assert (N1 : n1 = n mod 86400). { unfold n1. destruct (Z.leb_spec 86400 n); [reflexivity|]. rewrite Z.mod_small; lia. }
  assert (N2 : n2 = n mod 3600).
  { unfold n2. rewrite N1. assert (X : (n mod 86400) mod 3600 = n mod 3600) by (symmetry; apply Znumtheory.Zmod_div_mod; [lia|lia|exists 24; lia]).
    destruct (Z.leb_spec 3600 n); [exact X|]. rewrite <- X. rewrite (Z.mod_small (n mod 86400)); [reflexivity|]. rewrite Z.mod_small by lia. lia. }
  assert (O3 : (3600 <=? n) || (60 <=? n2) = (60 <=? n)).
  { destruct (Z.leb_spec 3600 n); cbn [orb]; [destruct (Z.leb_spec 60 n); [reflexivity|lia]|]. rewrite N2, Z.mod_small by lia. reflexivity. }
  rewrite O3 in *. assert (N3 : (if 60 <=? n then n2 mod 60 else n2) = n mod 60).
  { rewrite N2. assert (X : (n mod 3600) mod 60 = n mod 60) by (symmetry; apply Znumtheory.Zmod_div_mod; [lia|lia|exists 60; lia]).
    destruct (Z.leb_spec 60 n); [exact X|]. rewrite !Z.mod_small by lia. reflexivity. }
  rewrite N3 in S3. unfold pad2f. rewrite (round_even_comp _ _ S3), round_even_Z.
  unfold ret2. rewrite N1, N2. destruct (86400 <=? n), (3600 <=? n), (60 <=? n); cbn [app]; rewrite <- ?app_assoc; reflexivity.
Qed.

(** ** Bars *)
Lemma checked_range p : (0 <= fst (checked p) <= 1)%Q.
Proof.
  unfold checked. destruct (match p with PInt z => (inject_Z z, NoStatus) | PFloat q => (q, NoStatus) | POther => (0%Q, StError) end) as [v s].
  destruct (Qlt_bool v 0) eqn:A; [cbn; lra|]. apply Qlt_bool_false_iff in A. destruct (Qle_bool 1 v) eqn:B; [cbn; lra|]. apply Qle_bool_false_iff in B. cbn [fst]. lra.
Qed.
Lemma bar_ok p n ascii_ : 0 <= n -> let b := bar (update_progress p n ascii_) in
  Z.of_nat (length b) = n /\ filled (if ascii_ then Chr "#" else Block) b (Z.to_nat (round_even (inject_Z n * fst (checked p)))) /\
  (0 <= percent (update_progress p n ascii_) <= 100)%Q.
Proof.
  intros Hn. assert (C := checked_range p). unfold update_progress. destruct (checked p) as [v s]. cbn [fst] in *. cbn [bar percent].
  assert (R : 0 <= round_even (inject_Z n * v) <= n).
  { apply round_even_range; [exact Hn|]. assert (0 <= inject_Z n)%Q by (change 0%Q with (inject_Z 0); rewrite <- Zle_Qle; exact Hn). split; nra. }
  split; [rewrite app_length, !repeat_length; lia|]. split; [|lra]. eexists. split; [reflexivity|]. apply Forall_forall. intros x Hx. apply repeat_spec in Hx. exact Hx.
Qed.
Lemma bar_mono n a b : 0 <= n -> (fst (checked a) <= fst (checked b))%Q ->
  round_even (inject_Z n * fst (checked a)) <= round_even (inject_Z n * fst (checked b)).
Proof. intros Hn H. apply round_even_mono. assert (0 <= inject_Z n)%Q by (change 0%Q with (inject_Z 0); rewrite <- Zle_Qle; exact Hn). nra. Qed.
Lemma zoidberg_width p n ascii_ : Z.of_nat (length (bar (update_zoidberg p n ascii_))) = Z.max 40 n + 8.
Proof.
  assert (C := checked_range p). unfold update_zoidberg. destruct (checked p) as [v s]. cbn [fst] in *.
  set (N := if n <? 40 then 40 else n). assert (EN : N = Z.max 40 n) by (unfold N; destruct (Z.ltb_spec n 40); lia). clearbody N.
  set (odd := negb _). cbv zeta. set (zb := claw odd ++ face ascii_ ++ claw (negb odd)).
  assert (Lz : length zb = 16%nat) by (unfold zb; destruct odd, ascii_; reflexivity). rewrite Lz.
  change (Qtrunc (inject_Z (Z.of_nat 16) / 2)) with 8. cbn [bar]. rewrite !app_length, !repeat_length, Lz.
  assert (R : 0 <= round_even (inject_Z (N - 8) * v) <= N - 8).
  { apply round_even_range; [lia|]. assert (0 <= inject_Z (N - 8))%Q by (change 0%Q with (inject_Z 0); rewrite <- Zle_Qle; lia). split; nra. }
  lia.
Qed.
Lemma zoidberg_shape p n ascii_ : let N := Z.max 40 n in
  let left := if Z.odd (Qfloor (fst (checked p) * inject_Z N)) then ["("; "\"; "/"; ")"]%char else ["("; "|"; ")"]%char in
  let right := if Z.odd (Qfloor (fst (checked p) * inject_Z N)) then ["("; "|"; ")"]%char else ["("; "\"; "/"; ")"]%char in
  exists s, bar (update_zoidberg p n ascii_) =
    repeat (if ascii_ then Chr "#" else Block) (Z.to_nat s) ++ map Chr left ++ face ascii_ ++ map Chr right ++ repeat (Chr "-") (Z.to_nat (N - 8 - s)) /\
    0 <= s <= N - 8 /\ (Qabs (inject_Z s - inject_Z (N - 8) * fst (checked p)) <= 1 # 2)%Q.
Proof.
  cbv zeta. assert (C := checked_range p). unfold update_zoidberg. destruct (checked p) as [v s0]. cbn [fst] in *.
  assert (EN : (if n <? 40 then 40 else n) = Z.max 40 n) by (destruct (Z.ltb_spec n 40); lia). rewrite EN. set (N := Z.max 40 n). assert (HN : 40 <= N) by lia. clearbody N. cbv zeta.
  set (odd := negb _).
  assert (EO : odd = Z.odd (Qfloor (v * inject_Z N))).
  { unfold odd. rewrite Zmod_odd. unfold Qtrunc.
    assert (0 <= v * inject_Z N)%Q. { assert (0 <= inject_Z N)%Q by (change 0%Q with (inject_Z 0); rewrite <- Zle_Qle; lia). nra. }
    destruct (Qle_bool 0 (v * inject_Z N)) eqn:E; [|assert (Qle_bool 0 (v * inject_Z N) = true) by (now apply Qle_bool_iff); congruence].
    destruct (Z.odd _); reflexivity. }
  rewrite <- EO. set (zb := claw odd ++ face ascii_ ++ claw (negb odd)).
  assert (Lz : length zb = 16%nat) by (unfold zb; destruct odd, ascii_; reflexivity). rewrite Lz.
  change (Qtrunc (inject_Z (Z.of_nat 16) / 2)) with 8. cbn [bar].
  exists (round_even (inject_Z (N - 8) * v)). split; [|split].
  - replace (N - round_even (inject_Z (N - 8) * v) - 8) with (N - 8 - round_even (inject_Z (N - 8) * v)) by lia. f_equal. unfold zb. rewrite <- !app_assoc. unfold claw. destruct odd; reflexivity.
  - apply round_even_range; [lia|]. assert (0 <= inject_Z (N - 8))%Q by (change 0%Q with (inject_Z 0); rewrite <- Zle_Qle; lia). split; nra.
  - apply round_even_near.
Qed.
Lemma times_ok needed prog a b : (0 <= needed)%Q -> (0 < prog <= 1)%Q -> progress_times needed prog = (a, b) ->
  a = needed /\ exists r, b = Some r /\ (0 <= r)%Q /\ (needed == prog * (a + r))%Q.
Proof.
  intros Hn Hp. unfold progress_times. destruct (Qeq_bool prog 0) eqn:E; [apply Qeq_bool_iff in E; lra|]. intros [= <- <-]. split; [reflexivity|].
  exists (needed / prog - needed)%Q. split; [reflexivity|]. split; [|field; lra].
  assert (X : (needed / prog * prog == needed)%Q) by (field; lra). set (y := (needed / prog)%Q) in *. clearbody y. nra.
Qed.
Lemma checked_inside q : (0 <= q < 1)%Q -> checked (PFloat q) = (q, NoStatus).
Proof.
  intros H. unfold checked. destruct (Qlt_bool q 0) eqn:A; [apply Qlt_bool_iff in A; lra|]. destruct (Qle_bool 1 q) eqn:B; [apply Qle_bool_iff in B; lra|]. reflexivity.
Qed.
Lemma checked_outside q z : ((q < 0)%Q -> checked (PFloat q) = (0%Q, StHalt)) /\ ((1 <= q)%Q -> checked (PFloat q) = (1%Q, StDone)) /\
  (z < 0 -> checked (PInt z) = (0%Q, StHalt)) /\ (1 <= z -> checked (PInt z) = (1%Q, StDone)) /\ checked POther = (0%Q, StError).
Proof.
  assert (L : forall q, (q < 0)%Q -> (let '(p, s) := if Qlt_bool q 0 then (0%Q, StHalt) else (q, NoStatus) in if Qle_bool 1 p then (1%Q, StDone) else (p, s)) = (0%Q, StHalt)).
  { intros x H. apply Qlt_bool_iff in H. rewrite H. reflexivity. }
  assert (G : forall q, (1 <= q)%Q -> (let '(p, s) := if Qlt_bool q 0 then (0%Q, StHalt) else (q, NoStatus) in if Qle_bool 1 p then (1%Q, StDone) else (p, s)) = (1%Q, StDone)).
  { intros x H. destruct (Qlt_bool x 0) eqn:A; [apply Qlt_bool_iff in A; lra|]. apply Qle_bool_iff in H. rewrite H. reflexivity. }
  split; [apply L|]. split; [apply G|]. split; [|split; [|reflexivity]].
  - intros H. apply L. change 0%Q with (inject_Z 0). rewrite <- Zlt_Qlt. exact H.
  - intros H. apply G. change 1%Q with (inject_Z 1). rewrite <- Zle_Qle. exact H.
Qed.

(** two digits *)
Definition two (n : Z) : list ascii := [ascii_of_nat (48 + Z.to_nat (n / 10)); ascii_of_nat (48 + Z.to_nat (n mod 10))].
Lemma pad2_two n : 0 <= n < 100 -> pad2 n = two n.
Proof.
  intros H.
  assert (E : forallb (fun k => if list_eq_dec ascii_dec (pad2 (Z.of_nat k)) (two (Z.of_nat k)) then true else false) (seq 0 100) = true) by (vm_compute; reflexivity).
  rewrite forallb_forall in E. specialize (E (Z.to_nat n)). rewrite in_seq in E. specialize (E ltac:(lia)). rewrite Z2Nat.id in E by lia.
  destruct (list_eq_dec ascii_dec (pad2 n) (two n)); [assumption|discriminate].
Qed.

Lemma percent_ok p n a : (percent (update_progress p n a) == 100 * fst (checked p))%Q /\ stat (update_progress p n a) = snd (checked p) /\
  (percent (update_zoidberg p n a) == 100 * fst (checked p))%Q /\ stat (update_zoidberg p n a) = snd (checked p).
Proof.
  unfold update_progress, update_zoidberg. destruct (checked p) as [q s]. cbn [percent stat fst snd].
  repeat split; ring.
Qed.
Lemma round_even_tie n : Z.Even (round_even (inject_Z n + (1 # 2))).
Proof.
  unfold round_even. cbv zeta.
  assert (F : Qfloor (inject_Z n + (1 # 2)) = n).
  { unfold Qfloor, Qplus, inject_Z. cbn [Qnum Qden]. change (Z.pos (1 * 2)) with 2.
    symmetry. apply (Z.div_unique _ _ _ 1); lia. }
  rewrite F.
  assert (E : (inject_Z n + (1 # 2) - inject_Z n ?= 1 # 2)%Q = Eq) by (apply Qeq_alt; ring).
  rewrite E. destruct (Z.even n) eqn:En; apply Z.even_spec; [exact En|].
  rewrite Z.even_add, En. reflexivity.
Qed.
