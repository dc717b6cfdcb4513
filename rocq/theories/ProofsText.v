(* Lemmas about line numbers and number literals. *)
From Verif Require Import Base ModelArray ModelText ProofsBase ProofsInt ProofsArray.
Ltac Zify.zify_post_hook ::= Z.div_mod_to_equations.

(* ---- lines ---- *)
Lemma zfirst_nonpos {A} k (l : list A) : k <= 0 -> zfirst k l = [].
Proof. intros H. unfold zfirst. replace (Z.to_nat k) with O by lia. reflexivity. Qed.
Lemma zskip_nonpos {A} k (l : list A) : k <= 0 -> zskip k l = l.
Proof. intros H. unfold zskip. replace (Z.to_nat k) with O by lia. reflexivity. Qed.
Lemma zfirst_cons {A} k (x : A) l : 0 < k -> zfirst k (x :: l) = x :: zfirst (k - 1) l.
Proof. intros H. unfold zfirst. replace (Z.to_nat k) with (S (Z.to_nat (k - 1))) by lia. reflexivity. Qed.
Lemma zskip_cons {A} k (x : A) l : 0 < k -> zskip k (x :: l) = zskip (k - 1) l.
Proof. intros H. unfold zskip. replace (Z.to_nat k) with (S (Z.to_nat (k - 1))) by lia. reflexivity. Qed.

Section LINES.
  Variables loc0 loc1 : Z.
  Hypothesis Hloc : loc0 <= loc1.
  Let keep := fun l => (loc0 <=? l_end l) && (l_top l <=? loc1).

  Lemma first_kept code : forall pos idx top, top <= loc0 -> In NL (zskip (loc0 - pos) code) ->
    exists l rest, filter keep (fst (mk_lines idx top (nl_positions pos code))) = l :: rest /\
      l_no l = idx + 1 + count_nl (zfirst (loc0 - pos) code).
  Proof using Hloc.
    induction code as [|b code IH]; intros pos idx top Ht Hin.
    - unfold zskip in Hin. rewrite skipn_nil in Hin. destruct Hin.
    - cbn [nl_positions]. destruct (Z.lt_ge_cases pos loc0) as [H|H].
      + rewrite zskip_cons in Hin by lia. rewrite zfirst_cons by lia.
        replace (loc0 - pos - 1) with (loc0 - (pos + 1)) in * by lia.
        destruct (Z.eqb_spec b NL) as [->|Hb].
        * cbn [mk_lines]. destruct (IH (pos + 1) (idx + 1) (pos + 1)) as (l & rest & E & En); [lia|assumption|].
          destruct (mk_lines (idx + 1) (pos + 1) (nl_positions (pos + 1) code)) as [ls t].
          cbn [fst filter] in *. unfold keep at 1. cbn [l_end l_top].
          destruct (Z.leb_spec loc0 pos); [lia|]. cbn [andb].
          exists l, rest. split; [exact E|]. rewrite En. cbn [count_nl]. rewrite Z.eqb_refl. lia.
        * destruct (IH (pos + 1) idx top Ht Hin) as (l & rest & E & En).
          exists l, rest. split; [exact E|]. rewrite En. cbn [count_nl].
          destruct (Z.eqb_spec b NL); [contradiction|]. lia.
      + rewrite zskip_nonpos in Hin by lia. rewrite zfirst_nonpos by lia.
        destruct (Z.eqb_spec b NL) as [->|Hb].
        * cbn [mk_lines]. destruct (mk_lines (idx + 1) (pos + 1) (nl_positions (pos + 1) code)) as [ls t].
          cbn [fst filter]. unfold keep at 1. cbn [l_end l_top].
          destruct (Z.leb_spec loc0 pos); [|lia]. destruct (Z.leb_spec top loc1); [|lia]. cbn [andb].
          eexists _, _. split; [reflexivity|]. cbn. lia.
        * destruct Hin as [E|Hin]; [congruence|].
          destruct (IH (pos + 1) idx top Ht) as (l & rest & E & En); [rewrite zskip_nonpos by lia; exact Hin|].
          exists l, rest. split; [exact E|]. rewrite En, zfirst_nonpos by lia. reflexivity.
  Qed.

  Lemma none_kept code : forall pos idx top, ~ In NL (zskip (loc0 - pos) code) -> top <= pos -> pos <= loc0 ->
    filter keep (fst (mk_lines idx top (nl_positions pos code))) = [] /\
    snd (mk_lines idx top (nl_positions pos code)) <= Z.max pos loc0.
  Proof using.
    induction code as [|b code IH]; intros pos idx top Hin Ht Hp.
    - cbn. split; [reflexivity|lia].
    - cbn [nl_positions]. destruct (Z.eq_dec pos loc0) as [->|Hne].
      + assert (Hall : forall code p i t, ~ In NL code -> nl_positions p code = [] /\ mk_lines i t [] = ([], t)).
        { induction code0 as [|c r IHr]; intros p i t Hc; [split; reflexivity|]. cbn [nl_positions].
          destruct (Z.eqb_spec c NL) as [->|_]; [exfalso; apply Hc; left; reflexivity|].
          apply IHr. intros H. apply Hc. right. exact H. }
        rewrite Z.sub_diag, zskip_nonpos in Hin by lia.
        destruct (Hall (b :: code) loc0 idx top Hin) as [E1 E2]. cbn [nl_positions] in E1. rewrite E1, E2.
        cbn. split; [reflexivity|lia].
      + rewrite zskip_cons in Hin by lia. replace (loc0 - pos - 1) with (loc0 - (pos + 1)) in Hin by lia.
        destruct (Z.eqb_spec b NL) as [->|Hb].
        * cbn [mk_lines]. destruct (IH (pos + 1) (idx + 1) (pos + 1) Hin) as [E1 E2]; [lia|lia|].
          destruct (mk_lines (idx + 1) (pos + 1) (nl_positions (pos + 1) code)) as [ls t]. cbn [fst snd filter] in *.
          unfold keep at 1. cbn [l_end l_top]. destruct (Z.leb_spec loc0 pos); [lia|]. cbn [andb]. split; [exact E1|lia].
        * destruct (IH (pos + 1) idx top Hin) as [E1 E2]; [lia|lia|]. split; [exact E1|lia].
  Qed.
End LINES.

Lemma reported_terminated code loc0 loc1 : 0 <= loc0 <= loc1 -> In NL (zskip loc0 code) ->
  reported_line code loc0 loc1 = 1 + count_nl (zfirst loc0 code).
Proof.
  intros H Hin. unfold reported_line, get_lines.
  destruct (first_kept loc0 loc1 (proj2 H) code 0 0 0) as (l & rest & E & En);
    [lia|rewrite Z.sub_0_r; assumption|].
  destruct (mk_lines 0 0 (nl_positions 0 code)) as [all t]. cbn [fst] in E. rewrite E.
  rewrite Z.sub_0_r in En.
  destruct ((t <? zlen code) && (loc0 <=? zlen code - 1) && (t <=? loc1)); cbn [app]; rewrite En; lia.
Qed.
Lemma reported_unterminated code loc0 loc1 : 0 <= loc0 <= loc1 -> loc0 < zlen code -> ~ In NL (zskip loc0 code) ->
  exists t e, get_lines code loc0 loc1 = [{| l_no := 1; l_top := t; l_end := e |}].
Proof.
  intros H Hl Hin. unfold get_lines.
  destruct (none_kept loc0 loc1 code 0 0 0) as [E1 E2]; [rewrite Z.sub_0_r; assumption|lia|lia|].
  destruct (mk_lines 0 0 (nl_positions 0 code)) as [all t]. cbn [fst snd] in E1, E2. rewrite E1.
  destruct (Z.ltb_spec t (zlen code)); [|lia]. destruct (Z.leb_spec loc0 (zlen code - 1)); [|lia].
  destruct (Z.leb_spec t loc1); [|lia]. cbn [andb app]. eexists _, _. reflexivity.
Qed.
Lemma count_nl_app a b : count_nl (a ++ b) = count_nl a + count_nl b.
Proof. induction a as [|x a IH]; cbn [app count_nl]; [reflexivity|]. rewrite IH. lia. Qed.
Lemma count_nl_nonneg a : 0 <= count_nl a.
Proof. induction a as [|x a IH]; cbn [count_nl]; [lia|]. destruct (x =? NL); lia. Qed.
Lemma get_line_ok code pos c : 0 <= pos -> nth_error code (Z.to_nat pos) = Some c -> c <> NL ->
  get_line code pos = Ok (1 + count_nl (zfirst pos code)).
Proof.
  intros Hp Hn Hc. unfold get_line.
  assert (Hl : (Z.to_nat pos < length code)%nat) by (apply nth_error_Some; congruence).
  destruct (Z.leb_spec (zlen code) pos) as [H|H]; [unfold zlen in H; lia|].
  f_equal. unfold zfirst. replace (Z.to_nat (pos + 1)) with (Z.to_nat pos + 1)%nat by lia.
  assert (E : forall n (l : list Z) x, nth_error l n = Some x -> firstn (n + 1) l = firstn n l ++ [x]).
  { induction n as [|n IH]; intros [|y l] x Hx; cbn in *; try discriminate; [congruence|].
    f_equal. apply IH. exact Hx. }
  rewrite (E _ _ _ Hn), count_nl_app. cbn [count_nl]. destruct (Z.eqb_spec c NL); [contradiction|]. lia.
Qed.

(* ---- number literals ---- *)
Inductive digit (radix : Z) : Z -> Z -> Prop :=
  | dig_num d : 0 <= d <= 9 -> d < radix -> digit radix (48 + d) d
  | dig_low d : 10 <= d < radix -> digit radix (87 + d) d
  | dig_up d : 10 <= d < radix -> digit radix (55 + d) d.
Inductive numeral (radix : Z) : chars -> Z -> Prop :=
  | num_one c d : digit radix c d -> numeral radix [c] d
  | num_digit s n c d : numeral radix s n -> digit radix c d -> numeral radix (s ++ [c]) (n * radix + d)
  | num_underscore s n : numeral radix s n -> numeral radix (s ++ [95]) n.

Lemma digit_of_ok radix c d : radix <= 36 -> digit radix c d -> digit_of c = d /\ 0 <= d < radix /\ c <> 95.
Proof.
  intros Hr H. unfold digit_of. inversion H; subst;
    repeat match goal with |- context [?a <=? ?b] => destruct (Z.leb_spec a b) end; cbn [andb]; repeat split; try lia.
Qed.
Lemma parse_digits_app radix s1 : forall acc s2, parse_digits radix acc (s1 ++ s2) =
  match parse_digits radix acc s1 with Some a => parse_digits radix a s2 | None => None end.
Proof.
  induction s1 as [|c s IH]; intros acc s2; [reflexivity|]. cbn [app parse_digits].
  destruct (c =? ch_us); [apply IH|]. destruct (digit_of c <? radix); [apply IH|reflexivity].
Qed.
Lemma numeral_parse radix s n : radix <= 36 -> numeral radix s n ->
  parse_digits radix 0 s = Some n /\ 0 <= n /\
  exists c s' d, s = c :: s' /\ digit radix c d /\ Forall (fun x => x = 95 \/ exists d, digit radix x d) s'.
Proof.
  intros Hr. induction 1 as [c d Hd|s n c d Hs IH Hd|s n Hs IH].
  - destruct (digit_of_ok _ _ _ Hr Hd) as (E & Hb & Hn). cbn [parse_digits].
    destruct (Z.eqb_spec c ch_us) as [Ec|_]; [unfold ch_us in Ec; contradiction|].
    rewrite E. destruct (Z.ltb_spec d radix); [|lia]. split; [f_equal; lia|]. split; [lia|].
    exists c, [], d. auto.
  - destruct IH as (E & Hn0 & c0 & s' & d0 & -> & Hc0 & HF).
    destruct (digit_of_ok _ _ _ Hr Hd) as (Ed & Hb & Hn).
    rewrite parse_digits_app, E. cbn [parse_digits].
    destruct (Z.eqb_spec c ch_us) as [Ec|_]; [unfold ch_us in Ec; contradiction|].
    rewrite Ed. destruct (Z.ltb_spec d radix); [|lia]. split; [reflexivity|]. split; [nia|].
    exists c0, (s' ++ [c]), d0. split; [reflexivity|]. split; [assumption|].
    apply Forall_app. split; [assumption|]. constructor; [right; exists d; assumption|constructor].
  - destruct IH as (E & Hn0 & c0 & s' & d0 & -> & Hc0 & HF).
    rewrite parse_digits_app, E. split; [reflexivity|]. split; [assumption|].
    exists c0, (s' ++ [95]), d0. split; [reflexivity|]. split; [assumption|].
    apply Forall_app. split; [assumption|]. constructor; [left; reflexivity|constructor].
Qed.

Lemma parse_bytes_ok radix c s n d : radix <= 36 -> digit radix c d -> parse_digits radix 0 (c :: s) = Some n ->
  parse_bytes (c :: s) radix = Some n.
Proof.
  intros Hr Hd E. unfold parse_bytes. destruct (digit_of_ok _ _ _ Hr Hd) as (_ & _ & Hc).
  destruct (Z.eqb_spec c ch_us) as [Ec|_]; [unfold ch_us in Ec; contradiction|]. exact E.
Qed.
Definition no_us (s : chars) : chars := filter (fun c => negb (c =? ch_us)) s.
Lemma parse_no_us radix s : forall acc, parse_digits radix acc (no_us s) = parse_digits radix acc s.
Proof.
  induction s as [|c s IH]; intros acc; [reflexivity|]. cbn [no_us filter parse_digits].
  destruct (c =? ch_us) eqn:E; cbn [negb]; [apply IH|]. cbn [parse_digits]. rewrite E.
  destruct (digit_of c <? radix); [apply IH|reflexivity].
Qed.

(* what may follow an integer literal without being read as part of it *)
Definition stops_decimal (rest : chars) : Prop :=
  match rest with
  | [] => True
  | c :: r => ~ (48 <= c <= 57) /\ c <> 95 /\ c <> 101 /\ c <> 69 /\ c <> 105 /\
              (c = 46 -> match r with y :: _ => ~ (48 <= y <= 57) | [] => True end)
  end.
Lemma is_num_spec c : is_num c = true <-> 48 <= c <= 57.
Proof. unfold is_num. rewrite Bool.andb_true_iff, !Z.leb_le. reflexivity. Qed.
Lemma is_num_digit c d : digit 10 c d -> is_num c = true.
Proof. intros H. apply is_num_spec. inversion H; subst; lia. Qed.

Lemma dec_loop_stop fuel acc rest : stops_decimal rest -> dec_loop (S fuel) acc false rest = Some (acc, false, rest).
Proof.
  intros H. destruct rest as [|c r]; [reflexivity|]. cbn in H. destruct H as (H1 & H2 & _ & _ & _ & H3).
  cbn [dec_loop consume_numeric consume negb].
  destruct (is_num c) eqn:E; [apply is_num_spec in E; contradiction|].
  destruct (Z.eqb_spec c ch_us) as [Ec|_]; [unfold ch_us in Ec; contradiction|].
  destruct r as [|y r]; [reflexivity|].
  destruct (Z.eqb_spec c ch_dot) as [Ed|_]; [|reflexivity]. cbn [andb].
  destruct (is_num y) eqn:Ey; [|reflexivity]. apply is_num_spec in Ey. exfalso. exact (H3 Ed Ey).
Qed.
Lemma dec_loop_ok s : forall acc fuel rest, Forall (fun x => x = 95 \/ exists d, digit 10 x d) s ->
  stops_decimal rest -> (length s < fuel)%nat ->
  dec_loop fuel acc false (s ++ rest) = Some (acc ++ no_us s, false, rest).
Proof.
  induction s as [|c s IH]; intros acc fuel rest HF Hr Hf.
  - destruct fuel; [cbn in Hf; lia|]. cbn [app no_us filter]. rewrite app_nil_r. apply dec_loop_stop. exact Hr.
  - inversion HF as [|? ? Hc HF']; subst. destruct fuel as [|fuel]; [cbn in Hf; lia|].
    cbn [app dec_loop consume_numeric consume no_us filter].
    destruct Hc as [->|(d & Hd)].
    + cbn [is_num andb]. change (is_num 95) with false. change (95 =? ch_us) with true. cbn [negb].
      apply IH; [assumption|assumption|cbn in Hf; lia].
    + rewrite (is_num_digit _ _ Hd). destruct (digit_of_ok 10 c d ltac:(lia) Hd) as (_ & _ & Hn).
      destruct (Z.eqb_spec c ch_us) as [Ec|_]; [unfold ch_us in Ec; contradiction|]. cbn [negb].
      rewrite IH by (try assumption; cbn in Hf; lia). rewrite <- app_assoc. reflexivity.
Qed.
Lemma consume_stop rest c : stops_decimal rest -> c = 101 \/ c = 69 \/ c = 105 -> consume c rest = None.
Proof.
  intros H Hc. destruct rest as [|x r]; [reflexivity|]. cbn in H |- *.
  destruct (Z.eqb_spec x c); [|reflexivity]. exfalso. intuition congruence.
Qed.
Lemma read_decimal_ok s n rest : numeral 10 s n -> stops_decimal rest ->
  exists c s', s = c :: s' /\ is_num c = true /\ Forall (fun x => x = 95 \/ exists d, digit 10 x d) s' /\
  read_decimal c (s' ++ rest) = Ok (TNum (to_nreal n), rest).
Proof.
  intros Hs Hr. destruct (numeral_parse 10 s n ltac:(lia) Hs) as (E & _ & c & s' & d & -> & Hd & HF).
  exists c, s'. split; [reflexivity|]. split; [exact (is_num_digit _ _ Hd)|]. split; [exact HF|].
  unfold read_decimal. rewrite dec_loop_ok; [|assumption|assumption|rewrite app_length; lia].
  unfold consume2. rewrite !consume_stop by (auto; assumption). cbn [rbind].
  assert (P : parse_bytes ([c] ++ no_us s') 10 = Some n).
  { cbn [app]. apply (parse_bytes_ok 10 c (no_us s') n d); [lia|assumption|].
    rewrite <- E, <- (parse_no_us 10 (c :: s')). f_equal. cbn [no_us filter].
    destruct (digit_of_ok 10 c d ltac:(lia) Hd) as (_ & _ & Hn).
    destruct (Z.eqb_spec c ch_us) as [Ec|_]; [unfold ch_us in Ec; contradiction|]. reflexivity. }
  rewrite P. cbn [rbind]. rewrite consume_stop by auto. reflexivity.
Qed.
Lemma consume_not c s rest : Forall (fun x => x = 95 \/ exists d, digit 10 x d) s -> stops_decimal rest ->
  c = 120 \/ c = 98 -> (s = [] -> match rest with x :: _ => x <> c | [] => True end) -> consume c (s ++ rest) = None.
Proof.
  intros HF Hr Hc H. destruct s as [|x s].
  - cbn [app]. specialize (H eq_refl). destruct rest as [|y r]; [reflexivity|]. cbn.
    destruct (Z.eqb_spec y c); [contradiction|reflexivity].
  - inversion HF as [|? ? Hx _]; subst. cbn [app consume].
    assert (Hne : x <> c).
    { destruct Hx as [->|(d & Hd)]; [lia|]. apply is_num_digit, is_num_spec in Hd. lia. }
    destruct (Z.eqb_spec x c); [contradiction|reflexivity].
Qed.
Lemma read_number_decimal s n rest : numeral 10 s n -> stops_decimal rest ->
  (s = [48] -> match rest with x :: _ => x <> 120 /\ x <> 98 | [] => True end) ->
  read_number (s ++ rest) = Ok (TNum (to_nreal n), rest).
Proof.
  intros Hs Hr Hx. destruct (read_decimal_ok s n rest Hs Hr) as (c & s' & -> & Hc & HF & E).
  cbn [app read_number]. rewrite Hc. cbn [negb].
  destruct (Z.eqb_spec c ch_0) as [Ec|_]; [|exact E]. unfold ch_0 in Ec. subst c.
  rewrite !consume_not; auto.
  - intros ->. specialize (Hx eq_refl). destruct rest; [exact I|]. apply Hx.
  - intros ->. specialize (Hx eq_refl). destruct rest; [exact I|]. apply Hx.
Qed.

(* ---- hexadecimal ---- *)
Definition stops_hex (rest : chars) : Prop :=
  match rest with
  | [] => True
  | c :: _ => ~ (48 <= c <= 57) /\ ~ (97 <= c <= 102) /\ ~ (65 <= c <= 70) /\ c <> 95
  end.
Lemma is_hex_spec c : is_hex c = true <-> (48 <= c <= 57 \/ 97 <= c <= 102 \/ 65 <= c <= 70).
Proof. unfold is_hex. rewrite !Bool.orb_true_iff, !Bool.andb_true_iff, !Z.leb_le. lia. Qed.
Lemma is_hex_digit c d : digit 16 c d -> is_hex c = true.
Proof. intros H. apply is_hex_spec. inversion H; subst; lia. Qed.
Lemma span_hex_ok s rest : Forall (fun x => x = 95 \/ exists d, digit 16 x d) s -> stops_hex rest ->
  span_hex (s ++ rest) = (s, rest).
Proof.
  induction 1 as [|x s Hx _ IH]; intros Hr.
  - cbn [app]. destruct rest as [|c r]; [reflexivity|]. cbn in Hr |- *.
    destruct (is_hex c) eqn:E; [apply is_hex_spec in E; exfalso; lia|].
    destruct (Z.eqb_spec c ch_us) as [Ec|_]; [unfold ch_us in Ec; exfalso; lia|]. reflexivity.
  - cbn [app span_hex]. rewrite IH by assumption.
    assert (E : is_hex x || (x =? ch_us) = true).
    { destruct Hx as [->|(d & Hd)]; [reflexivity|]. rewrite (is_hex_digit _ _ Hd). reflexivity. }
    rewrite E. reflexivity.
Qed.
Lemma read_number_hex s n rest : numeral 16 s n -> stops_hex rest ->
  read_number (48 :: 120 :: s ++ rest) = Ok (TNum (to_nreal n), rest).
Proof.
  intros Hs Hr. destruct (numeral_parse 16 s n ltac:(lia) Hs) as (E & _ & c & s' & d & -> & Hd & HF).
  change (read_number (48 :: 120 :: (c :: s') ++ rest)) with (read_hex ((c :: s') ++ rest)).
  unfold read_hex. cbn [app]. rewrite (is_hex_digit _ _ Hd).
  change (c :: s' ++ rest) with ((c :: s') ++ rest). rewrite span_hex_ok; [| |assumption].
  - rewrite (parse_bytes_ok 16 c s' n d); [reflexivity|lia|assumption|assumption].
  - constructor; [right; exists d; assumption|assumption].
Qed.

(* ---- binary ---- *)
Definition stops_bin (rest : chars) : Prop :=
  match rest with [] => True | c :: _ => c <> 48 /\ c <> 49 /\ c <> 95 end.
Lemma bin_digit c d : digit 2 c d -> is_bin c = true /\ d = c - 48.
Proof.
  intros H. unfold is_bin. inversion H; subst; lia.
Qed.
Lemma bin_loop_mono s : forall v n, Forall (fun x => x = 95 \/ exists d, digit 2 x d) s -> 0 <= v ->
  parse_digits 2 v s = Some n -> v <= n.
Proof.
  induction s as [|c s IH]; intros v n HF Hv E; [injection E as ->; lia|].
  inversion HF as [|? ? Hc HF']; subst. cbn [parse_digits] in E.
  destruct Hc as [->|(d & Hd)].
  - change (95 =? ch_us) with true in E. cbn iota in E. apply (IH v n); assumption.
  - destruct (digit_of_ok 2 c d ltac:(lia) Hd) as (Ed & Hb & Hn).
    destruct (Z.eqb_spec c ch_us) as [Ec|_]; [unfold ch_us in Ec; contradiction|].
    rewrite Ed in E. destruct (Z.ltb_spec d 2); [|discriminate].
    apply IH in E; [lia|assumption|lia].
Qed.
Lemma bin_loop_ok s rest : forall v n, Forall (fun x => x = 95 \/ exists d, digit 2 x d) s -> stops_bin rest -> 0 <= v ->
  parse_digits 2 v s = Some n -> n < 2 ^ 64 -> bin_loop v (s ++ rest) = Ok (n, rest).
Proof.
  induction s as [|c s IH]; intros v n HF Hr Hv E Hn.
  - injection E as ->. cbn [app]. destruct rest as [|c r]; [reflexivity|]. cbn in Hr |- *.
    unfold is_bin. destruct (Z.eqb_spec c 48); [lia|]. destruct (Z.eqb_spec c 49); [lia|].
    destruct (Z.eqb_spec c ch_us) as [Ec|_]; [unfold ch_us in Ec; lia|]. reflexivity.
  - inversion HF as [|? ? Hc HF']; subst. cbn [app bin_loop parse_digits] in *.
    destruct Hc as [->|(d & Hd)].
    + change (is_bin 95) with false. change (95 =? ch_us) with true in *. cbn iota in *.
      apply IH; assumption.
    + destruct (digit_of_ok 2 c d ltac:(lia) Hd) as (Ed & Hb & Hne).
      destruct (bin_digit _ _ Hd) as [Ebin Edc]. rewrite Ebin, <- Edc.
      destruct (Z.eqb_spec c ch_us) as [Ec|_]; [unfold ch_us in Ec; contradiction|].
      rewrite Ed in E. destruct (Z.ltb_spec d 2); [|discriminate].
      assert (Hle : v * 2 + d <= n) by (apply (bin_loop_mono s); [assumption|lia|assumption]).
      unfold in_u64. destruct (Z.leb_spec 0 (v * 2 + d)); [|lia].
      destruct (Z.ltb_spec (v * 2 + d) (2 ^ 64)); [|lia]. cbn [andb].
      apply IH; try assumption.
Qed.
Lemma read_number_bin s n rest : numeral 2 s n -> stops_bin rest -> n < 2 ^ 63 ->
  read_number (48 :: 98 :: s ++ rest) = Ok (TNum (to_nreal n), rest).
Proof.
  intros Hs Hr Hn. destruct (numeral_parse 2 s n ltac:(lia) Hs) as (E & H0 & c & s' & d & -> & Hd & HF).
  change (read_number (48 :: 98 :: (c :: s') ++ rest)) with (read_bin ((c :: s') ++ rest)).
  unfold read_bin. cbn [app]. destruct (bin_digit _ _ Hd) as [Ebin Edc]. rewrite Ebin.
  destruct (digit_of_ok 2 c d ltac:(lia) Hd) as (Ed & Hb & Hne).
  cbn [parse_digits] in E. destruct (Z.eqb_spec c ch_us) as [Ec|_]; [unfold ch_us in Ec; contradiction|].
  rewrite Ed in E. destruct (Z.ltb_spec d 2); [|discriminate].
  rewrite (bin_loop_ok s' rest (c - 48) n); [|assumption|assumption|lia| |lia].
  - cbn [rbind]. unfold to_nreal. rewrite i64_id by lia.
    assert (Ei : in_i64 n = true) by (apply in_i64_spec; lia). rewrite Ei. reflexivity.
  - rewrite <- E. f_equal. lia.
Qed.
