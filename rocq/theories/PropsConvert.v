(* C104: conversions to integers, and of integers to text *)
From Coq Require Import Floats.SpecFloat.
From Verif Require Import Base ModelValue ModelFloat ModelInt ModelArray ModelText ModelFormat ModelConvert SpecFormat ProofsValue PropsFormat.

(* ---- the vocabulary ---- *)
(* text that is a decimal number: an optional sign and at least one digit *)
Inductive numeral : chars -> Z -> Prop :=
| N_plain ds n : ds <> [] -> positional Dec ds n -> numeral ds n
| N_plus ds n : ds <> [] -> positional Dec ds n -> numeral (43 :: ds) n
| N_minus ds n : ds <> [] -> positional Dec ds n -> numeral (45 :: ds) (- n).
Definition is_i64 (n : Z) : Prop := - 2 ^ 63 <= n < 2 ^ 63.
(* the float is the fraction num / den *)
Definition is_ratio (b num den : Z) : Prop :=
  0 < den /\
  match sf_of_bits b with
  | S754_zero _ => num = 0
  | S754_finite s m e => exists up down, 0 <= up /\ 0 <= down /\ e = up - down /\ num * 2 ^ down = (if s then - Zpos m else Zpos m) * 2 ^ up * den
  | _ => False
  end.
Definition floor_of (num den n : Z) : Prop := n * den <= num < (n + 1) * den.
(* towards zero *)
Definition trunc_of (num den n : Z) : Prop := if 0 <=? num then floor_of num den n else floor_of (- num) den (- n).

(* ---- reading digits ---- *)
Lemma goes_positional0 ds n : positional Dec ds n -> goes_on Dec 0 ds n.
Proof. intros H. rewrite <- (app_nil_r ds). eapply positional_goes; [exact H|constructor]. Qed.
Lemma positional_nonneg ds n : positional Dec ds n -> 0 <= n.
Proof. intros H. apply goes_positional0 in H. apply goes_ge in H; lia. Qed.
Lemma parse_reads (neg : bool) a s : forall ds m, goes_on Dec a ds m -> ds = s -> 0 <= a ->
  let sg := fun n => if neg then - n else n in
  is_i64 (sg a) -> parse_digits neg (sg a) s = if in_i64 (sg m) then Some (sg m) else None.
Proof.
  intros ds m G. revert s. induction G as [n|n c d ds m H1 H2 H IH]; intros s <- Ha; cbv zeta; intros Hi.
  - cbn [parse_digits]. unfold is_i64, in_i64 in *. destruct ((- 2 ^ 63 <=? (if neg then - n else n)) && _) eqn:E; [reflexivity|lia].
  - apply dec_digit in H1. destruct H1 as (H1 & ->). cbn [parse_digits base] in *. replace ((48 <=? c) && (c <=? 57)) with true by lia.
    assert (Hg : n * 10 + (c - 48) <= m) by (eapply goes_ge; [exact H|lia]).
    replace ((if neg then - n else n) * 10) with (if neg then - (n * 10) else n * 10) by (destruct neg; lia).
    destruct (in_i64 (if neg then - (n * 10) else n * 10)) eqn:E1.
    + replace (if neg then (if neg then - (n * 10) else n * 10) - (c - 48) else (if neg then - (n * 10) else n * 10) + (c - 48)) with (if neg then - (n * 10 + (c - 48)) else n * 10 + (c - 48)) by (destruct neg; lia).
      destruct (in_i64 (if neg then - (n * 10 + (c - 48)) else n * 10 + (c - 48))) eqn:E2.
      * apply (IH ds eq_refl); [lia|]. unfold in_i64 in E2. unfold is_i64. lia.
      * unfold in_i64 in *. destruct neg; match goal with |- _ = if ?b then _ else _ => replace b with false by lia end; reflexivity.
    + unfold in_i64 in *. destruct neg; match goal with |- _ = if ?b then _ else _ => replace b with false by lia end; reflexivity.
Qed.
Lemma parse_some (neg : bool) s : forall a n, parse_digits neg (if neg then - a else a) s = Some n -> 0 <= a ->
  exists m, goes_on Dec a s m /\ n = (if neg then - m else m).
Proof.
  induction s as [|c s IH]; intros a n H Ha; cbn [parse_digits] in H.
  - injection H as <-. exists a. split; [constructor|reflexivity].
  - destruct ((48 <=? c) && (c <=? 57)) eqn:E; [|discriminate]. destruct (in_i64 _); [|discriminate]. destruct (in_i64 _); [|discriminate].
    replace (if neg then (if neg then - a else a) * 10 - (c - 48) else (if neg then - a else a) * 10 + (c - 48)) with (if neg then - (a * 10 + (c - 48)) else a * 10 + (c - 48)) in H by (destruct neg; lia).
    destruct (IH _ _ H ltac:(lia)) as (m & G & ->). exists m. split; [|reflexivity]. apply (O_more Dec a c (c - 48)); [apply S_digit; lia|cbn; lia|exact G].
Qed.
Lemma parse0_reads (neg : bool) ds n : positional Dec ds n -> parse_digits neg 0 ds = if in_i64 (if neg then - n else n) then Some (if neg then - n else n) else None.
Proof.
  intros H. pose proof (parse_reads neg 0 ds ds n (goes_positional0 _ _ H) eq_refl ltac:(lia)) as P. cbv beta zeta in P.
  replace (if neg then - 0 else 0) with 0 in P by (destruct neg; reflexivity). apply P. unfold is_i64. lia.
Qed.
Lemma parse0_some (neg : bool) ds n : parse_digits neg 0 ds = Some n -> exists m, positional Dec ds m /\ n = if neg then - m else m.
Proof.
  intros H. destruct (parse_some neg ds 0 n) as (m & G & E); [destruct neg; exact H|lia|]. exists m. split; [|exact E].
  exact (goes_positional Dec 0 ds m G [] (P_none Dec)).
Qed.
Lemma positional_head ds n c r : positional Dec ds n -> ds = c :: r -> 48 <= c <= 57.
Proof. intros H ->. apply goes_positional0 in H. inversion H; subst. match goal with D : stands_for _ _ _ |- _ => apply dec_digit in D end. lia. Qed.
Lemma parse_numeral s n : numeral s n -> i64_from_str s = if in_i64 n then Some n else None.
Proof.
  intros [ds m Hd P|ds m Hd P|ds m Hd P].
  - destruct ds as [|c r]; [congruence|]. pose proof (positional_head _ _ _ _ P eq_refl) as Hc. cbn [i64_from_str]. replace ((c =? 43) || (c =? 45)) with false by lia.
    exact (parse0_reads false _ _ P).
  - destruct ds as [|c r]; [congruence|]. exact (parse0_reads false _ _ P).
  - destruct ds as [|c r]; [congruence|]. exact (parse0_reads true _ _ P).
Qed.
Lemma parse_is_numeral s n : i64_from_str s = Some n -> numeral s n.
Proof.
  unfold i64_from_str. destruct s as [|c r]; [discriminate|]. destruct ((c =? 43) || (c =? 45)) eqn:E.
  - destruct r as [|c2 r]; [discriminate|]. intros H. apply parse0_some in H. destruct H as (m & P & ->). destruct (c =? 45) eqn:E2.
    + replace c with 45 by lia. apply N_minus; [discriminate|exact P].
    + replace c with 43 by lia. apply N_plus; [discriminate|exact P].
  - intros H. apply parse0_some in H. destruct H as (m & P & ->). apply N_plain; [discriminate|exact P].
Qed.
Lemma in_i64_true n : is_i64 n -> in_i64 n = true.
Proof. unfold is_i64, in_i64. lia. Qed.
Lemma in_i64_is n : in_i64 n = true -> is_i64 n.
Proof. unfold is_i64, in_i64. lia. Qed.
Lemma parse_spec s : (exists n, numeral s n /\ is_i64 n /\ i64_from_str s = Some n) \/ ((forall n, numeral s n -> ~ is_i64 n) /\ i64_from_str s = None).
Proof.
  destruct (i64_from_str s) as [n|] eqn:E.
  - left. exists n. pose proof (parse_is_numeral _ _ E) as N. split; [exact N|]. rewrite (parse_numeral _ _ N) in E. split; [|reflexivity]. destruct (in_i64 n) eqn:I; [apply in_i64_is; exact I|discriminate].
  - right. split; [|reflexivity]. intros n N I. rewrite (parse_numeral _ _ N), (in_i64_true _ I) in E. discriminate.
Qed.

(* The text of a 64-bit integer, and nothing else, is read as this integer by String#to_i and by Integer();
   for all other text the former gives 0 and the latter raises an ArgumentError.  Ruby's text with
   something behind the number, blanks, _ and prefixes: C104_to_i_refuted, C104_integer_refuted *)
Theorem C104_read : forall (text : Z -> option chars) id s, text id = Some s ->
  (forall n, numeral s n -> is_i64 n -> string_to_i s = bignum n /\ kernel_integer text (Heap (HObj id)) = Ok (bignum n)) /\
  ((forall n, numeral s n -> ~ is_i64 n) -> string_to_i s = bignum 0 /\ kernel_integer text (Heap (HObj id)) = Err ArgErr).
Proof.
  intros text id s T. unfold string_to_i, kernel_integer. cbn [unpack]. rewrite T. split.
  - intros n N I. rewrite (parse_numeral _ _ N), (in_i64_true _ I), integer_bignum by exact I. auto.
  - intros N. destruct (parse_spec s) as [(n & N1 & I & _)|[_ E]]; [destruct (N n N1 I)|]. rewrite E. auto.
Qed.
Print Assumptions C104_read.
Example C104_read_example : numeral [45; 48; 52; 50] (-42) /\ is_i64 (-42) /\ numeral [43; 55] 7 /\ string_to_i [45; 48; 52; 50] = bignum (-42) /\
  kernel_integer (fun _ => Some [43; 55]) (Heap (HObj 3)) = Ok (bignum 7) /\
  string_to_i [45; 57; 50; 50; 51; 51; 55; 50; 48; 51; 54; 56; 53; 52; 55; 55; 53; 56; 48; 56] = bignum (- 2 ^ 63) /\
  kernel_integer (fun _ => Some [45]) (Heap (HObj 3)) = Err ArgErr.
Proof.
  split; [|split; [unfold is_i64; lia|]; split; [|vm_compute; auto]].
  - apply (N_minus [48; 52; 50] 42); [discriminate|]. apply (P_more Dec [48; 52] 4 50 2); [|exact (S_digit Dec 50 ltac:(lia))|cbn; lia].
    apply (P_more Dec [48] 0 52 4); [|exact (S_digit Dec 52 ltac:(lia))|cbn; lia]. apply (P_more Dec [] 0 48 0); [constructor|exact (S_digit Dec 48 ltac:(lia))|cbn; lia].
  - apply (N_plus [55] 7); [discriminate|]. apply (P_more Dec [] 0 55 7); [constructor|exact (S_digit Dec 55 ltac:(lia))|cbn; lia].
Qed.

(* ---- writing ---- *)
Lemma int_digits n : 0 <= n -> digits_of Dec n (udigits (S (Z.to_nat (Z.log2 n))) 10 false n []).
Proof.
  intros Hn. assert (Hb : n < base Dec ^ Z.of_nat (S (Z.to_nat (Z.log2 n)))).
  { pose proof (Z.log2_nonneg n). rewrite Nat2Z.inj_succ, Z2Nat.id by lia. cbn [base]. destruct (Z.eq_dec n 0) as [->|N0]; [reflexivity|].
    apply Z.lt_le_trans with (2 ^ Z.succ (Z.log2 n)); [apply Z.log2_spec; lia|]. apply Z.pow_le_mono_l. lia. }
  change 10 with (base Dec). change false with (upper Dec). set (f := S _) in *.
  assert (F : (0 < f)%nat) by (unfold f; lia).
  split; [|split].
  - exact (goes_positional Dec 0 _ n (udigits_goes Dec ltac:(discriminate) f n [] n ltac:(lia) F (O_none Dec n)) [] (P_none Dec)).
  - destruct (udigits_head Dec ltac:(discriminate) f n [] ltac:(lia) F) as (c & r & -> & _). discriminate.
  - destruct (udigits_head Dec ltac:(discriminate) f n [] ltac:(lia) F) as (c & r & -> & H). cbn. intros E. destruct (H E) as (_ & ->). congruence.
Qed.
Lemma to_s_text n : integer_to_s (bignum n) = Ok (int_text n).
Proof.
  unfold integer_to_s, to_real. destruct (bignum_cases n) as [[H ->]|[H ->]]; [|reflexivity].
  pose proof (int_of_bignum n) as B. unfold int_of in B. destruct (bignum_cases n) as [[_ E]|[X _]]; [|lia]. rewrite E in B.
  destruct (unpack (fixnum n)) as [[]|] eqn:U; try discriminate B; try (injection B as ->; reflexivity).
  destruct o; try discriminate B. injection B as ->. reflexivity.
Qed.
(* to_s gives the usual text of an integer of any size: a minus sign if it is negative, and its digits without superfluous zeros;
   what it gives for 64-bit integers is read back as the integer *)
Theorem C104_to_s : forall n, exists ds, integer_to_s (bignum n) = Ok ((if n <? 0 then [45] else []) ++ ds) /\ digits_of Dec (Z.abs n) ds /\
  (is_i64 n -> string_to_i ((if n <? 0 then [45] else []) ++ ds) = bignum n).
Proof.
  intros n. exists (udigits (S (Z.to_nat (Z.log2 (Z.abs n)))) 10 false (Z.abs n) []). pose proof (int_digits (Z.abs n) ltac:(lia)) as D.
  split; [apply to_s_text|]. split; [exact D|]. intros I. destruct D as (P & N & _).
  assert (NU : numeral ((if n <? 0 then [45] else []) ++ udigits (S (Z.to_nat (Z.log2 (Z.abs n)))) 10 false (Z.abs n) []) n).
  { set (ds := udigits _ _ _ _ _) in *. clearbody ds. destruct (Z.ltb_spec n 0) as [L|L].
    - pose proof (N_minus ds _ N P) as X. replace (- Z.abs n) with n in X by lia. exact X.
    - pose proof (N_plain ds _ N P) as X. replace (Z.abs n) with n in X by lia. exact X. }
  exact (proj1 (proj1 (C104_read (fun _ => Some _) 0 _ eq_refl) n NU I)).
Qed.
Print Assumptions C104_to_s.
Example C104_to_s_example : integer_to_s (bignum (- 2 ^ 64)) = Ok [45; 49; 56; 52; 52; 54; 55; 52; 52; 48; 55; 51; 55; 48; 57; 53; 53; 49; 54; 49; 54] /\ integer_to_s (bignum 0) = Ok [48].
Proof. vm_compute. auto. Qed.

(* ---- floats ---- *)
Lemma sat_id z : is_i64 z -> sat_i64 z = z.
Proof. unfold is_i64, sat_i64. lia. Qed.
Lemma floor_ratio num den a down up : 0 < den -> 0 <= up -> 0 <= down -> num * 2 ^ down = a * 2 ^ up * den -> floor_of num den ((a * 2 ^ up) / 2 ^ down).
Proof.
  intros Hd Hu Hw E. assert (P : 0 < 2 ^ down) by (apply Z.pow_pos_nonneg; lia). set (x := a * 2 ^ up) in *. set (q := x / 2 ^ down).
  pose proof (Z.div_mod x (2 ^ down) ltac:(lia)) as D. pose proof (Z.mod_pos_bound x (2 ^ down) P) as B. fold q in D. clearbody q x. set (w := 2 ^ down) in *. clearbody w.
  unfold floor_of. split.
  - apply (Z.mul_le_mono_pos_r _ _ w P). rewrite E. replace (q * den * w) with (q * w * den) by ring. apply Z.mul_le_mono_nonneg_r; lia.
  - apply (Z.mul_lt_mono_pos_r w _ _ P). rewrite E. replace ((q + 1) * den * w) with ((q + 1) * w * den) by ring. apply Z.mul_lt_mono_pos_r; lia.
Qed.
Lemma pow_split m e up down : 0 <= up -> 0 <= down -> e = up - down -> (m * 2 ^ up) / 2 ^ down = if 0 <=? e then m * 2 ^ e else m / 2 ^ (- e).
Proof.
  intros Hu Hw E. destruct (Z.leb_spec 0 e) as [L|L].
  - replace up with (e + down) by lia. rewrite Z.pow_add_r, Z.mul_assoc by lia. apply Z.div_mul. assert (0 < 2 ^ down) by (apply Z.pow_pos_nonneg; lia). lia.
  - replace down with (- e + up) by lia. rewrite Z.pow_add_r by lia. assert (0 < 2 ^ up) by (apply Z.pow_pos_nonneg; lia). assert (0 < 2 ^ (- e)) by (apply Z.pow_pos_nonneg; lia). apply Z.div_mul_cancel_r; lia.
Qed.
Lemma floor_unique num den n m : 0 < den -> floor_of num den n -> floor_of num den m -> n = m.
Proof.
  unfold floor_of. intros Hd [A B] [C D]. assert (n < m + 1) by (apply (Z.mul_lt_mono_pos_r den); lia). assert (m < n + 1) by (apply (Z.mul_lt_mono_pos_r den); lia). lia.
Qed.
Lemma floor_calc b num den n : is_ratio b num den -> floor_of num den n -> f64_floor_Z (sf_of_bits b) = Some n.
Proof.
  intros [Hd R] F. destruct (sf_of_bits b) as [s|s| |s m e]; try easy.
  - subst num. cbn. f_equal. apply (floor_unique 0 den); [exact Hd| |exact F]. unfold floor_of. lia.
  - destruct R as (up & down & Hu & Hw & E & R). cbn [f64_floor_Z]. f_equal. rewrite <- (pow_split _ e up down) by assumption. apply (floor_unique num den); [exact Hd| |exact F]. apply floor_ratio; assumption.
Qed.
Lemma trunc_calc b num den n : is_ratio b num den -> trunc_of num den n -> f64_trunc_Z (sf_of_bits b) = Some n.
Proof.
  intros [Hd R] F. unfold trunc_of in F. destruct (sf_of_bits b) as [s|s| |s m e]; try easy.
  - subst num. cbn in *. f_equal. apply (floor_unique 0 den); [exact Hd| |exact F]. unfold floor_of. lia.
  - destruct R as (up & down & Hu & Hw & E & R). cbn [f64_trunc_Z]. f_equal. rewrite <- (pow_split _ e up down) by assumption.
    assert (P : 0 < 2 ^ down) by (apply Z.pow_pos_nonneg; lia). assert (Q : 0 < Zpos m * 2 ^ up * den) by (apply Z.mul_pos_pos; [apply Z.mul_pos_pos; [lia|apply Z.pow_pos_nonneg; lia]|lia]).
    destruct s.
    + assert (R1 : - num * 2 ^ down = Zpos m * 2 ^ up * den) by lia. assert (N : num < 0) by (apply (Z.mul_lt_mono_pos_r (2 ^ down)); lia). replace (0 <=? num) with false in F by lia.
      assert (X : Zpos m * 2 ^ up / 2 ^ down = - n) by (apply (floor_unique (- num) den); [exact Hd|apply floor_ratio; assumption|exact F]). lia.
    + assert (N : 0 < num) by (apply (Z.mul_lt_mono_pos_r (2 ^ down)); lia). replace (0 <=? num) with true in F by lia.
      apply (floor_unique num den); [exact Hd|apply floor_ratio; assumption|exact F].
Qed.
Lemma as_i64 b num den n : is_ratio b num den -> trunc_of num den n -> is_i64 n -> f64_as_i64 b = n.
Proof.
  intros R F I. pose proof (trunc_calc _ _ _ _ R F) as T. unfold f64_as_i64. destruct R as [_ R]. destruct (sf_of_bits b); try easy; rewrite T; apply sat_id; exact I.
Qed.
Lemma floor_as_i64 b num den n : is_ratio b num den -> floor_of num den n -> is_i64 n -> f64_floor_as_i64 b = n.
Proof.
  intros R F I. pose proof (floor_calc _ _ _ _ R F) as T. unfold f64_floor_as_i64. destruct R as [_ R]. destruct (sf_of_bits b); try easy; rewrite T; apply sat_id; exact I.
Qed.
(* Float#to_i (also Integer()) drops the fraction and floor rounds down, exactly, when the result is a 64-bit integer.  Other floats: C104_float_refuted *)
Theorem C104_float_partial : forall (text : Z -> option chars) v b num den n, as_float v = Some b -> is_ratio b num den -> is_i64 n ->
  (trunc_of num den n -> float_to_i v = Ok (bignum n)) /\
  (trunc_of num den n -> unpack v = Some (RFloat b) -> kernel_integer text v = Ok (bignum n)) /\
  (floor_of num den n -> float_floor v = Ok (bignum n)).
Proof.
  intros text v b num den n V R I. unfold float_to_i, float_floor, kernel_integer. rewrite V. split; [|split].
  - intros T. rewrite (as_i64 _ _ _ _ R T I), integer_bignum by exact I. reflexivity.
  - intros T U. rewrite U, (as_i64 _ _ _ _ R T I), integer_bignum by exact I. reflexivity.
  - intros T. rewrite (floor_as_i64 _ _ _ _ R T I), integer_bignum by exact I. reflexivity.
Qed.
Print Assumptions C104_float_partial.
(* -2.5 = -5/2 *)
Example C104_float_example : let v := float 0xC004000000000000 in as_float v = Some 0xC004000000000000 /\ unpack v = Some (RFloat 0xC004000000000000) /\
  is_ratio 0xC004000000000000 (-5) 2 /\ trunc_of (-5) 2 (-2) /\ floor_of (-5) 2 (-3) /\ float_to_i v = Ok (bignum (-2)) /\ float_floor v = Ok (bignum (-3)).
Proof.
  cbv zeta. split; [vm_compute; reflexivity|]. split; [vm_compute; reflexivity|]. split.
  - split; [lia|]. replace (sf_of_bits 0xC004000000000000) with (S754_finite true 5629499534213120 (-51)) by (vm_compute; reflexivity). exists 0, 51. split; [lia|]. split; [lia|]. split; reflexivity.
  - split; [unfold trunc_of, floor_of; cbn; lia|]. split; [unfold floor_of; lia|]. vm_compute. auto.
Qed.
(* Integer() gives an immediate integer back.  Others: C104_integer_refuted *)
Theorem C104_integer_partial : forall text n, - 2 ^ 62 <= n < 2 ^ 62 -> kernel_integer text (bignum n) = Ok (bignum n).
Proof.
  intros text n H. unfold kernel_integer.
  pose proof (int_of_bignum n) as B. destruct (bignum_cases n) as [[_ E]|[X _]]; [|lia]. rewrite E in *. unfold int_of in B.
  destruct (unpack (fixnum n)) as [[]|] eqn:U; try discriminate B; [|destruct o; try discriminate B].
  - injection B as ->. rewrite <- E, integer_bignum by lia. reflexivity.
  - unfold fixnum in U. cbn [unpack] in U. destruct (as_fixnum _); [discriminate|]. destruct (as_flonum_word _); [discriminate|]. destruct (is_packed_symbol _); [discriminate|]. repeat (destruct (_ =? _); [discriminate|]). discriminate.
Qed.
Print Assumptions C104_integer_partial.
Example C104_integer_example : kernel_integer (fun _ => None) (bignum (-7)) = Ok (bignum (-7)).
Proof. reflexivity. Qed.

(* ---- where it fails ---- *)
(* digits with something else behind them, blanks before them, or _ among them: "12ab".to_i, " 42".to_i, "1_000".to_i give 0 *)
Theorem C104_to_i_refuted : exists ds n, ds <> [] /\ positional Dec ds n /\ string_to_i (ds ++ [97; 98]) <> bignum n /\ string_to_i (ds ++ [97; 98]) = bignum 0 /\
  string_to_i (32 :: ds) = bignum 0 /\ string_to_i ([49; 95] ++ ds) = bignum 0.
Proof.
  exists [49; 50], 12. split; [discriminate|]. split; [|vm_compute; repeat split; discriminate].
  apply (P_more Dec [49] 1 50 2); [|exact (S_digit Dec 50 ltac:(lia))|cbn; lia]. apply (P_more Dec [] 0 49 1); [constructor|exact (S_digit Dec 49 ltac:(lia))|cbn; lia].
Qed.
(* (2**63).to_s.to_i is 0, and Integer((2**63).to_s) raises *)
Theorem C104_big_refuted : exists n s, integer_to_s (bignum n) = Ok s /\ string_to_i s <> bignum n /\ string_to_i s = bignum 0 /\ kernel_integer (fun _ => Some s) (Heap (HObj 0)) = Err ArgErr.
Proof. exists (2 ^ 63). eexists. split; [vm_compute; reflexivity|]. vm_compute. repeat split; discriminate. Qed.
(* Integer(2**62) is a TypeError, and so is Integer(2**64) *)
Theorem C104_integer_refuted : exists n, is_i64 n /\ forall text, kernel_integer text (bignum n) = Err TypeErr /\ kernel_integer text (bignum (2 ^ 64)) = Err TypeErr.
Proof. exists (2 ^ 62). split; [unfold is_i64; lia|]. intros text. vm_compute. auto. Qed.
(* 2.0**64 becomes 2**63 - 1, NaN becomes 0, infinities become 64-bit integers: no FloatDomainError *)
Theorem C104_float_refuted : exists b n, is_ratio b n 1 /\ as_float (float b) = Some b /\ float_to_i (float b) = Ok (bignum (2 ^ 63 - 1)) /\ n <> 2 ^ 63 - 1 /\ float_floor (float b) = Ok (bignum (2 ^ 63 - 1)) /\
  exists nan inf, f64_is_nan nan = true /\ f64_is_infinite inf = true /\ float_to_i (float nan) = Ok (bignum 0) /\ float_to_i (float inf) = Ok (bignum (- 2 ^ 63)).
Proof.
  exists 0x43F0000000000000, (2 ^ 64). split.
  { split; [lia|]. replace (sf_of_bits 0x43F0000000000000) with (S754_finite false 4503599627370496 12) by (vm_compute; reflexivity). exists 12, 0. repeat split; lia. }
  split; [vm_compute; reflexivity|]. split; [vm_compute; reflexivity|]. split; [lia|]. split; [vm_compute; reflexivity|]. exists 0x7FF8000000000000, 0xFFF0000000000000. vm_compute. auto.
Qed.
Print Assumptions C104_to_i_refuted.
Print Assumptions C104_big_refuted.
Print Assumptions C104_integer_refuted.
Print Assumptions C104_float_refuted.
