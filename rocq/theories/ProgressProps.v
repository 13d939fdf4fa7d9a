(** Properties C65 and C71. *)
From Coq Require Import List ZArith QArith Qabs Qround Ascii.
From Verif Require Import Prelude ProgressModel ProgressSpec ProgressProofs.
Import ListNotations.
Open Scope Z_scope.

(** C65: a time in whole seconds is printed as days, hours, minutes and seconds,
    from the largest unit that is not zero on; *)
Theorem C65_whole n : 0 <= n ->
  format_time (inject_Z n) =
    (if 86400 <=? n then pad2 (n / 86400) ++ ["d"%char] else []) ++
    (if 3600 <=? n then pad2 (n mod 86400 / 3600) ++ ["h"%char] else []) ++
    (if 60 <=? n then pad2 (n mod 3600 / 60) ++ ["m"%char] else []) ++ pad2 (n mod 60) ++ ["s"%char].
Proof. exact (format_whole n). Qed.
Print Assumptions C65_whole.
(** with two digits for each part below 100. *)
Theorem C65_two_digits n : 0 <= n < 100 ->
  pad2 n = [ascii_of_nat (48 + Z.to_nat (n / 10)); ascii_of_nat (48 + Z.to_nat (n mod 10))].
Proof. exact (pad2_two n). Qed.
Print Assumptions C65_two_digits.
(** reading the printed text gives the time back: exactly if it is whole, and
    rounded to the nearest second (a tie to the even one) otherwise. *)
Theorem C65_read_back q : (0 <= q)%Q -> read_time (format_time q) = round_even q.
Proof. exact (format_read q). Qed.
Print Assumptions C65_read_back.
Theorem C65_rounding q n : (Qabs (inject_Z (round_even q) - q) <= 1 # 2)%Q /\ round_even (inject_Z n) = n.
Proof. exact (conj (round_even_near q) (round_even_Z n)). Qed.
Print Assumptions C65_rounding.
Theorem C65_ties n : Z.Even (round_even (inject_Z n + (1 # 2))).
Proof. exact (round_even_tie n). Qed.
Print Assumptions C65_ties.
Example C65_example : format_time (inject_Z 93784) = ["0"; "1"; "d"; "0"; "2"; "h"; "0"; "3"; "m"; "0"; "4"; "s"]%char /\
  format_time (inject_Z 86400) = ["0"; "1"; "d"; "0"; "0"; "h"; "0"; "0"; "m"; "0"; "0"; "s"]%char /\
  format_time (inject_Z 61) = ["0"; "1"; "m"; "0"; "1"; "s"]%char.
Proof. vm_compute. split; [|split]; reflexivity. Qed.
(** C65, false for other times: the part in seconds can be 60. *)
Theorem C65_sixty_seconds_refuted : format_time (597 # 10) = ["6"; "0"; "s"]%char /\ format_time (35996 # 10) = ["5"; "9"; "m"; "6"; "0"; "s"]%char.
Proof. exact (conj eq_refl eq_refl). Qed.
Print Assumptions C65_sixty_seconds_refuted.

(** C71: the bar has the requested length whatever is passed as progress; its filled
    part is in front, never longer than the bar and as long as progress says; *)
Theorem C71_bar p n ascii_ : 0 <= n -> let b := bar (update_progress p n ascii_) in
  Z.of_nat (length b) = n /\ filled (if ascii_ then Chr "#" else Block) b (Z.to_nat (round_even (inject_Z n * fst (checked p)))) /\
  (0 <= percent (update_progress p n ascii_) <= 100)%Q.
Proof. exact (bar_ok p n ascii_). Qed.
Print Assumptions C71_bar.
(** the percentage is that of the progress, the status that of the checks; *)
Theorem C71_percent p n ascii_ :
  (percent (update_progress p n ascii_) == 100 * fst (checked p))%Q /\ stat (update_progress p n ascii_) = snd (checked p) /\
  (percent (update_zoidberg p n ascii_) == 100 * fst (checked p))%Q /\ stat (update_zoidberg p n ascii_) = snd (checked p).
Proof. exact (percent_ok p n ascii_). Qed.
Print Assumptions C71_percent.
Theorem C71_monotone n a b : 0 <= n -> (fst (checked a) <= fst (checked b))%Q ->
  round_even (inject_Z n * fst (checked a)) <= round_even (inject_Z n * fst (checked b)).
Proof. exact (bar_mono n a b). Qed.
Print Assumptions C71_monotone.
(** values that are no numbers or out of range count as 0 or 1; *)
Theorem C71_checked q : (0 <= q < 1)%Q -> checked (PFloat q) = (q, NoStatus).
Proof. exact (checked_inside q). Qed.
Print Assumptions C71_checked.
Theorem C71_clamped q z : ((q < 0)%Q -> checked (PFloat q) = (0%Q, StHalt)) /\ ((1 <= q)%Q -> checked (PFloat q) = (1%Q, StDone)) /\
  (z < 0 -> checked (PInt z) = (0%Q, StHalt)) /\ (1 <= z -> checked (PInt z) = (1%Q, StDone)) /\ checked POther = (0%Q, StError).
Proof. exact (checked_outside q z). Qed.
Print Assumptions C71_clamped.
(** the width of the other kind of bar does not change with the progress; *)
Theorem C71_zoidberg p n ascii_ : Z.of_nat (length (bar (update_zoidberg p n ascii_))) = Z.max 40 n + 8.
Proof. exact (zoidberg_width p n ascii_). Qed.
Print Assumptions C71_zoidberg.
(** its figure moves in front of the rest of the bar as far as progress says, waving the claws in turn; *)
Theorem C71_claws p n ascii_ : let N := Z.max 40 n in
  let left := if Z.odd (Qfloor (fst (checked p) * inject_Z N)) then ["("; "\"; "/"; ")"]%char else ["("; "|"; ")"]%char in
  let right := if Z.odd (Qfloor (fst (checked p) * inject_Z N)) then ["("; "|"; ")"]%char else ["("; "\"; "/"; ")"]%char in
  exists s, bar (update_zoidberg p n ascii_) =
    repeat (if ascii_ then Chr "#" else Block) (Z.to_nat s) ++ map Chr left ++ face ascii_ ++ map Chr right ++ repeat (Chr "-") (Z.to_nat (N - 8 - s)) /\
    0 <= s <= N - 8 /\ (Qabs (inject_Z s - inject_Z (N - 8) * fst (checked p)) <= 1 # 2)%Q.
Proof. exact (zoidberg_shape p n ascii_). Qed.
Print Assumptions C71_claws.
(** and the remaining time shown is not negative and makes the elapsed time the
    completed share of the whole. *)
Theorem C71_remaining needed prog a b : (0 <= needed)%Q -> (0 < prog <= 1)%Q -> progress_times needed prog = (a, b) ->
  a = needed /\ exists r, b = Some r /\ (0 <= r)%Q /\ (needed == prog * (a + r))%Q.
Proof. exact (times_ok needed prog a b). Qed.
Print Assumptions C71_remaining.
Example C71_example : bar (update_progress (PFloat (1 # 4)) 10 true) = repeat (Chr "#") 2 ++ repeat (Chr "-") 8 /\
  bar (update_progress (PInt 7) 4 false) = repeat Block 4 /\ length (bar (update_zoidberg (PFloat (1 # 2)) 10 true)) = 48%nat.
Proof. vm_compute. split; [|split]; reflexivity. Qed.
