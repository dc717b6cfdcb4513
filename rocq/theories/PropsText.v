(* Properties C37 (number literals) and C39 (line numbers). *)
From Verif Require Import Base ModelArray ModelText ProofsBase ProofsInt ProofsArray ProofsText.

(* ---- C37 ---- *)
(* [numeral radix s n]: the characters s are digits of the radix, underscores
   allowed after the first digit, and n is the number they denote. A token
   carries an i64 or a big integer; [denotes] asks for the number and for the
   canonical choice between the two. *)
Definition denotes (t : tok) (n : Z) : Prop :=
  match t with
  | TNum (NInt i) => i = n /\ - 2 ^ 63 <= n < 2 ^ 63
  | TNum (NBig b) => b = n /\ ~ (- 2 ^ 63 <= n < 2 ^ 63)
  | _ => False
  end.
Lemma to_nreal_denotes n : denotes (TNum (to_nreal n)) n.
Proof.
  unfold to_nreal. destruct (in_i64 n) eqn:E.
  - split; [reflexivity|]. apply in_i64_spec. exact E.
  - split; [reflexivity|]. intros H. apply in_i64_spec in H. congruence.
Qed.
(* [stops_decimal rest]: what follows is no digit, underscore, exponent or
   imaginary suffix and no point before a digit. A lone 0 followed by x or b
   starts another literal. *)
Theorem C37_decimal : forall s n rest, numeral 10 s n -> stops_decimal rest ->
  (s = [48] -> match rest with x :: _ => x <> 120 /\ x <> 98 | [] => True end) ->
  exists t, read_number (s ++ rest) = Ok (t, rest) /\ denotes t n.
Proof.
  intros s n rest Hs Hr Hx. exists (TNum (to_nreal n)).
  split; [exact (read_number_decimal s n rest Hs Hr Hx)|apply to_nreal_denotes].
Qed.
Print Assumptions C37_decimal.
Theorem C37_hexadecimal : forall s n rest, numeral 16 s n -> stops_hex rest ->
  exists t, read_number (48 :: 120 :: s ++ rest) = Ok (t, rest) /\ denotes t n.
Proof.
  intros s n rest Hs Hr. exists (TNum (to_nreal n)).
  split; [exact (read_number_hex s n rest Hs Hr)|apply to_nreal_denotes].
Qed.
Print Assumptions C37_hexadecimal.
(* Full statement: for every binary numeral. Only values of an i64 are read
   correctly. *)
Theorem C37_binary_partial : forall s n rest, numeral 2 s n -> stops_bin rest -> n < 2 ^ 63 ->
  exists t, read_number (48 :: 98 :: s ++ rest) = Ok (t, rest) /\ denotes t n.
Proof.
  intros s n rest Hs Hr Hn. exists (TNum (to_nreal n)).
  split; [exact (read_number_bin s n rest Hs Hr Hn)|apply to_nreal_denotes].
Qed.
Print Assumptions C37_binary_partial.
Lemma numeral_zeros k n s : numeral 2 s n -> numeral 2 (s ++ repeat 48 k) (n * 2 ^ Z.of_nat k).
Proof.
  revert s n; induction k as [|k IH]; intros s n H; cbn [repeat].
  - rewrite app_nil_r, Z.mul_1_r. exact H.
  - replace (s ++ 48 :: repeat 48 k) with ((s ++ [48]) ++ repeat 48 k) by (rewrite <- app_assoc; reflexivity).
    replace (n * 2 ^ Z.of_nat (S k)) with ((n * 2 + 0) * 2 ^ Z.of_nat k)
      by (rewrite Nat2Z.inj_succ, Z.pow_succ_r by lia; lia).
    apply IH. apply num_digit; [exact H|]. apply (dig_num 2 0); lia.
Qed.
(* 0b1000...0 with 63 zeros is read as a negative number, with 64 it crashes *)
Theorem C37_binary_refuted : exists s n s' n',
  numeral 2 s n /\ read_number (48 :: 98 :: s) = Ok (TNum (NInt (- n)), []) /\ 0 < n /\
  numeral 2 s' n' /\ read_number (48 :: 98 :: s') = Panic.
Proof.
  exists ([49] ++ repeat 48 63), (1 * 2 ^ Z.of_nat 63), ([49] ++ repeat 48 64), (1 * 2 ^ Z.of_nat 64).
  assert (H1 : numeral 2 [49] 1) by (apply num_one; apply (dig_num 2 1); lia).
  split; [apply numeral_zeros; exact H1|]. split; [vm_compute; reflexivity|]. split; [reflexivity|].
  split; [apply numeral_zeros; exact H1|]. vm_compute. reflexivity.
Qed.
Print Assumptions C37_binary_refuted.
(* octal: 017 (fifteen) is read as seventeen; 0o17 is read as 0 and leaves o17 *)
Theorem C37_octal_refuted : exists s n, numeral 8 s n /\
  read_number (48 :: s) = Ok (TNum (NInt 17), []) /\ n <> 17 /\
  read_number (48 :: 111 :: s) = Ok (TNum (NInt 0), 111 :: s).
Proof.
  exists [49; 55], 15. split.
  - change [49; 55] with ([49] ++ [55]). change 15 with (1 * 8 + 7).
    apply num_digit; [apply num_one; apply (dig_num 8 1); lia|apply (dig_num 8 7); lia].
  - split; [vm_compute; reflexivity|]. split; [lia|vm_compute; reflexivity].
Qed.
Print Assumptions C37_octal_refuted.
(* 1_234.times, 0xFf_f followed by a space, 0b10_1 at the end of the text *)
Example C37_ex :
  numeral 10 [49; 95; 50; 51; 52] 1234 /\ stops_decimal [46; 116] /\
  read_number ([49; 95; 50; 51; 52] ++ [46; 116]) = Ok (TNum (NInt 1234), [46; 116]) /\
  numeral 16 [70; 102; 95; 102] 4095 /\ stops_hex [32] /\ numeral 2 [49; 48; 95; 49] 5 /\ stops_bin [] /\
  read_number [48; 98; 49; 48; 95; 49] = Ok (TNum (NInt 5), []).
Proof.
  repeat match goal with |- _ /\ _ => split end; try (vm_compute; reflexivity); try (cbn; intuition lia).
  - change [49; 95; 50; 51; 52] with (((([49] ++ [95]) ++ [50]) ++ [51]) ++ [52]).
    change 1234 with (((1 * 10 + 2) * 10 + 3) * 10 + 4).
    apply num_digit; [apply num_digit; [apply num_digit; [apply num_underscore, num_one; apply (dig_num 10 1); lia
      |apply (dig_num 10 2); lia]|apply (dig_num 10 3); lia]|apply (dig_num 10 4); lia].
  - change [70; 102; 95; 102] with ((([70] ++ [102]) ++ [95]) ++ [102]).
    change 4095 with ((15 * 16 + 15) * 16 + 15).
    apply num_digit; [apply num_underscore; apply num_digit; [apply num_one; apply (dig_up 16 15); lia
      |apply (dig_low 16 15); lia]|apply (dig_low 16 15); lia].
  - change [49; 48; 95; 49] with ((([49] ++ [48]) ++ [95]) ++ [49]). change 5 with ((1 * 2 + 0) * 2 + 1).
    apply num_digit; [apply num_underscore; apply num_digit; [apply num_one; apply (dig_num 2 1); lia
      |apply (dig_num 2 0); lia]|apply (dig_num 2 1); lia].
Qed.

(* ---- C39 ---- *)
(* one plus the number of newline bytes before the position, by a count of its
   own *)
Definition true_line (code : list Z) (pos : Z) : Z :=
  1 + Z.of_nat (count_occ Z.eq_dec (firstn (Z.to_nat pos) code) 10).
Lemma count_nl_occ l : count_nl l = Z.of_nat (count_occ Z.eq_dec l 10).
Proof.
  induction l as [|x l IH]; [reflexivity|]. cbn [count_nl count_occ]. rewrite IH. unfold NL.
  destruct (Z.eqb_spec x 10), (Z.eq_dec x 10); lia.
Qed.
(* Full statement: for every position of the text. Holds when the position's
   line is ended by a newline, or when it is the first line. *)
Theorem C39_error_line_partial : forall code loc0 loc1, 0 <= loc0 <= loc1 -> loc0 < zlen code ->
  In 10 (skipn (Z.to_nat loc0) code) \/ ~ In 10 (firstn (Z.to_nat loc0) code) ->
  reported_line code loc0 loc1 = true_line code loc0.
Proof.
  intros code loc0 loc1 H Hl Hin. unfold true_line.
  change (firstn (Z.to_nat loc0) code) with (zfirst loc0 code) in *. rewrite <- count_nl_occ.
  destruct (in_dec Z.eq_dec NL (zskip loc0 code)) as [Hi|Hi].
  - apply reported_terminated; assumption.
  - destruct Hin as [Hin|Hin]; [contradiction|].
    destruct (reported_unterminated code loc0 loc1 H Hl Hi) as (t & e & E).
    unfold reported_line. rewrite E. cbn [l_no].
    assert (E0 : count_nl (zfirst loc0 code) = 0).
    { rewrite count_nl_occ. apply count_occ_not_In with (eq_dec := Z.eq_dec) in Hin. lia. }
    lia.
Qed.
Print Assumptions C39_error_line_partial.
(* every error in a last line without final newline is reported as line 1 *)
Lemma C39_l_last_line : forall code loc0 loc1, 0 <= loc0 <= loc1 -> loc0 < zlen code ->
  ~ In 10 (skipn (Z.to_nat loc0) code) -> In 10 (firstn (Z.to_nat loc0) code) ->
  reported_line code loc0 loc1 = 1 /\ 1 < true_line code loc0.
Proof.
  intros code loc0 loc1 H Hl Hi Hin.
  destruct (reported_unterminated code loc0 loc1 H Hl Hi) as (t & e & E).
  unfold reported_line. rewrite E. cbn [l_no]. split; [reflexivity|].
  unfold true_line. apply (count_occ_In Z.eq_dec) in Hin. lia.
Qed.
Theorem C39_last_line_refuted : exists code loc, 0 <= loc < zlen code /\
  reported_line code loc loc <> true_line code loc.
Proof.
  exists [97; 10; 98], 2. split; [vm_compute; split; congruence|].
  vm_compute. congruence.
Qed.
Print Assumptions C39_last_line_refuted.
(* __LINE__ *)
Theorem C39_line_keyword : forall code pos c, 0 <= pos -> nth_error code (Z.to_nat pos) = Some c -> c <> 10 ->
  get_line code pos = Ok (true_line code pos).
Proof.
  intros code pos c Hp Hn Hc. rewrite (get_line_ok code pos c Hp Hn Hc). f_equal. unfold true_line.
  rewrite <- count_nl_occ. reflexivity.
Qed.
Print Assumptions C39_line_keyword.
(* "a\nb\nc": the b is on line 2; the c, too, is said to be on line 1 *)
Example C39_ex :
  let code := [97; 10; 98; 10; 99] in
  reported_line code 2 2 = 2 /\ true_line code 2 = 2 /\ In 10 (skipn (Z.to_nat 2) code) /\
  reported_line code 4 4 = 1 /\ true_line code 4 = 3 /\ ~ In 10 (skipn (Z.to_nat 4) code) /\
  In 10 (firstn (Z.to_nat 4) code) /\ get_line code 4 = Ok 3.
Proof. vm_compute. intuition congruence. Qed.
