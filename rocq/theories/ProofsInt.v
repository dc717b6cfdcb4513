(* Refinement of the integer operators to Z. *)
From Verif Require Import Base ProofsBase ModelValue ProofsValue ModelFloat ModelInt.
Ltac Zify.zify_post_hook ::= Z.div_mod_to_equations.

Lemma in_i63_spec n : in_i63 n = true <-> - 2 ^ 62 <= n < 2 ^ 62.
Proof. unfold in_i63. lia. Qed.
Lemma in_i64_spec n : in_i64 n = true <-> - 2 ^ 63 <= n < 2 ^ 63.
Proof. unfold in_i64. lia. Qed.

Lemma bignum_fix n : in_i63 n = true -> bignum n = Imm (u64 (2 * n) + 1).
Proof.
  intros H. apply in_i63_spec in H. destruct (bignum_cases n) as [[_ ->]|[? _]]; [|lia].
  apply fixnum_word; lia.
Qed.
Lemma bignum_big n : in_i63 n = false -> bignum n = Heap (HBig n).
Proof.
  intros H. destruct (bignum_cases n) as [[H' _]|[_ ->]]; [|reflexivity].
  apply in_i63_spec in H'. congruence.
Qed.
Lemma fixnum_bignum n : - 2 ^ 62 <= n < 2 ^ 62 -> fixnum n = bignum n.
Proof. intros H. destruct (bignum_cases n) as [[_ ->]|[? _]]; [reflexivity|lia]. Qed.

Lemma as_flonum_bignum n : as_flonum (bignum n) = None.
Proof.
  destruct (in_i63 n) eqn:E.
  - rewrite bignum_fix by exact E. cbn [as_flonum]. unfold as_flonum_word. rewrite land_3.
    replace ((u64 (2 * n) + 1) mod 4 =? 2) with false by (unfold u64; lia). reflexivity.
  - rewrite bignum_big by exact E. reflexivity.
Qed.

Definition real_of (n : Z) : real := if in_i63 n then RlInt n else RlBig n.
Lemma unpack_bignum n : unpack (bignum n) =
  Some (if in_i63 n then RInteger n else RObject (HBig n)).
Proof.
  destruct (in_i63 n) eqn:E.
  - apply in_i63_spec in E. rewrite <- fixnum_bignum by lia. apply unpack_fixnum; lia.
  - rewrite bignum_big by exact E. reflexivity.
Qed.
Lemma to_real_bignum n : to_real (bignum n) = Some (real_of n).
Proof.
  unfold to_real, real_of. rewrite unpack_bignum. destruct (in_i63 n); reflexivity.
Qed.

Lemma into_val_real_integer n : into_val (real_integer n) = bignum n.
Proof.
  unfold real_integer. destruct (in_i64 n) eqn:E; [|reflexivity].
  cbn. apply in_i64_spec in E. apply integer_bignum; lia.
Qed.
Lemma checked_integer n : match checked n with Some i => integer i | None => bignum n end = bignum n.
Proof.
  unfold checked. destruct (in_i64 n) eqn:E; [|reflexivity].
  apply in_i64_spec in E. apply integer_bignum; lia.
Qed.

Lemma real_op_of op fop a b : into_val (real_op op fop (real_of a) (real_of b)) = bignum (op a b).
Proof.
  unfold real_of. destruct (in_i63 a), (in_i63 b); cbn [real_op];
    try apply into_val_real_integer.
  rewrite <- (checked_integer (op a b)). destruct (checked (op a b)); reflexivity.
Qed.

Lemma numeric_op_bignum op fop a b :
  numeric_op op fop (bignum a) (bignum b) = Ok (bignum (op a b)).
Proof. unfold numeric_op. rewrite !to_real_bignum, real_op_of. reflexivity. Qed.

Lemma i64_twice n : - 2 ^ 62 <= n < 2 ^ 62 -> i64 (u64 (2 * n) + 1 - 1) = 2 * n.
Proof.
  intros H. replace (u64 (2 * n) + 1 - 1) with (u64 (2 * n)) by lia.
  rewrite i64_u64. apply i64_id. lia.
Qed.

Definition lin (op : Z -> Z -> Z) := forall a b, op (2 * a) (2 * b) = 2 * op a b.

Lemma invoke_op_bignum op fop a b : lin op ->
  invoke_op op fop (bignum a) (bignum b) = Ok (bignum (op a b)).
Proof.
  intros Hlin. unfold invoke_op.
  rewrite !as_fixnum_bignum, !as_flonum_bignum.
  destruct (in_i63 a) eqn:Ea.
  2:{ apply numeric_op_bignum. }
  destruct (in_i63 b) eqn:Eb.
  2:{ pose proof (numeric_op_bignum op fop a b) as HN.
      rewrite (bignum_fix a Ea) in *. exact HN. }
  rewrite (bignum_fix a Ea), (bignum_fix b Eb).
  apply in_i63_spec in Ea, Eb. rewrite !i64_twice by lia.
  unfold checked. rewrite Hlin.
  destruct (in_i64 (2 * op a b)) eqn:E; [|reflexivity].
  apply in_i64_spec in E. f_equal.
  rewrite Z.shiftr_div_pow2 by lia.
  replace (2 * op a b / 2 ^ 1) with (op a b) by lia.
  apply fixnum_bignum. lia.
Qed.

Lemma invoke_op_i_bignum op fop a i : lin op -> - 2 ^ 31 <= i < 2 ^ 31 ->
  invoke_op_i op fop (bignum a) i = Ok (bignum (op a i)).
Proof.
  intros Hlin Hi. unfold invoke_op_i.
  destruct (in_i63 a) eqn:Ea.
  - rewrite (bignum_fix a Ea). apply in_i63_spec in Ea.
    assert (as_fixnum (Imm (u64 (2 * a) + 1)) = Some a) as HF.
    { rewrite <- fixnum_word by lia. apply as_fixnum_fixnum. lia. }
    cbn [as_fixnum] in HF. destruct (is_fnum (u64 (2 * a) + 1)); [|discriminate].
    assert (as_fnum (u64 (2 * a) + 1) = a) as -> by congruence.
    rewrite i64_twice by lia. rewrite Z.shiftl_mul_pow2 by lia.
    replace (i * 2 ^ 1) with (2 * i) by lia. rewrite i64_id by lia.
    rewrite Hlin. unfold checked.
    destruct (in_i64 (2 * op a i)) eqn:E; [|reflexivity].
    apply in_i64_spec in E. f_equal. rewrite <- fixnum_bignum by lia.
    rewrite fixnum_word by lia. reflexivity.
  - pose proof (numeric_op_bignum op fop a i) as HN.
    rewrite fixnum_bignum by lia. rewrite (bignum_big a Ea) in *. exact HN.
Qed.

Lemma lin_add : lin Z.add. Proof. intros a b. lia. Qed.
Lemma lin_sub : lin Z.sub. Proof. intros a b. lia. Qed.

Lemma invoke_add_bignum a b : invoke_add (bignum a) (bignum b) = Ok (bignum (a + b)).
Proof. apply invoke_op_bignum, lin_add. Qed.
Lemma invoke_sub_bignum a b : invoke_sub (bignum a) (bignum b) = Ok (bignum (a - b)).
Proof. apply invoke_op_bignum, lin_sub. Qed.
Lemma invoke_mul_bignum a b : invoke_mul (bignum a) (bignum b) = Ok (bignum (a * b)).
Proof.
  unfold invoke_mul. rewrite !as_fixnum_bignum, !as_flonum_bignum.
  destruct (in_i63 a) eqn:Ea; [|apply numeric_op_bignum].
  destruct (in_i63 b) eqn:Eb; [|apply numeric_op_bignum].
  rewrite <- (checked_integer (a * b)). destruct (checked (a * b)); reflexivity.
Qed.
Lemma invoke_addi_bignum a i : - 2 ^ 31 <= i < 2 ^ 31 ->
  invoke_addi (bignum a) i = Ok (bignum (a + i)).
Proof. apply invoke_op_i_bignum, lin_add. Qed.
Lemma invoke_subi_bignum a i : - 2 ^ 31 <= i < 2 ^ 31 ->
  invoke_subi (bignum a) i = Ok (bignum (a - i)).
Proof. apply invoke_op_i_bignum, lin_sub. Qed.
Lemma invoke_neg_bignum a : invoke_neg (bignum a) = Ok (bignum (- a)).
Proof.
  unfold invoke_neg, int_minus. rewrite unpack_bignum, to_real_bignum. unfold real_of.
  destruct (in_i63 a) eqn:E; [|reflexivity].
  apply in_i63_spec in E. unfold checked.
  replace (in_i64 (- a)) with true by (unfold in_i64; lia).
  rewrite integer_bignum by lia. reflexivity.
Qed.

(* ---- division ---- *)
Lemma real_of_zero b : real_is_zero (real_of b) = (b =? 0).
Proof. unfold real_of. destruct (in_i63 b); reflexivity. Qed.

Lemma numeric_div_bignum a b : in_i63 a = false \/ in_i63 b = false -> b <> 0 ->
  numeric_div (bignum a) (bignum b) = Ok (bignum (a / b)).
Proof.
  intros Hab Hb. unfold numeric_div. rewrite !to_real_bignum, real_of_zero.
  apply Z.eqb_neq in Hb. rewrite Hb. unfold real_of.
  destruct (in_i63 a) eqn:Ea, (in_i63 b) eqn:Eb; cbn [real_div]; rewrite ?Hb; cbn [rbind];
    try (rewrite into_val_real_integer; reflexivity).
  destruct Hab; discriminate.
Qed.

Lemma div_i63 a b : - 2 ^ 62 <= a < 2 ^ 62 -> - 2 ^ 62 <= b < 2 ^ 62 -> b <> 0 ->
  - 2 ^ 62 <= a / b <= 2 ^ 62.
Proof. intros Ha Hb Hz. nia. Qed.

Lemma invoke_div_bignum a b : b <> 0 -> invoke_div (bignum a) (bignum b) = Ok (bignum (a / b)).
Proof.
  intros Hb. unfold invoke_div. rewrite !as_fixnum_bignum, !as_flonum_bignum.
  destruct (in_i63 a) eqn:Ea; [|apply numeric_div_bignum; auto].
  destruct (in_i63 b) eqn:Eb; [|apply numeric_div_bignum; auto].
  apply in_i63_spec in Ea, Eb.
  pose proof (div_i63 a b Ea Eb Hb) as Hq.
  apply Z.eqb_neq in Hb. rewrite Hb. unfold checked.
  replace (in_i64 (a / b)) with true by (unfold in_i64; lia).
  rewrite integer_bignum by lia. reflexivity.
Qed.
Lemma invoke_div_zero a : invoke_div (bignum a) (bignum 0) = Err ZeroDiv.
Proof.
  unfold invoke_div. rewrite !as_fixnum_bignum, !as_flonum_bignum.
  destruct (in_i63 a) eqn:Ea; [reflexivity|].
  unfold numeric_div. rewrite !to_real_bignum. reflexivity.
Qed.

Lemma mod_i63 a b : - 2 ^ 62 <= a < 2 ^ 62 -> - 2 ^ 62 <= b < 2 ^ 62 -> b <> 0 ->
  - 2 ^ 62 <= a mod b <= 2 ^ 62.
Proof.
  intros Ha Hb Hz. destruct (Z.ltb_spec b 0).
  - pose proof (Z.mod_neg_bound a b). lia.
  - pose proof (Z.mod_pos_bound a b). lia.
Qed.
Lemma invoke_rem_bignum a b : b <> 0 -> invoke_rem (bignum a) (bignum b) = Ok (bignum (a mod b)).
Proof.
  intros Hb. unfold invoke_rem, rem_fixnum, rem_bignum.
  rewrite !as_fixnum_bignum, !as_float_bignum, !as_bignum_bignum.
  pose proof Hb as Hb'. apply Z.eqb_neq in Hb.
  destruct (in_i63 a) eqn:Ea, (in_i63 b) eqn:Eb; rewrite Hb; try reflexivity.
  apply in_i63_spec in Ea, Eb. pose proof (mod_i63 a b Ea Eb Hb').
  rewrite integer_bignum by lia. reflexivity.
Qed.
Lemma invoke_rem_zero a : invoke_rem (bignum a) (bignum 0) = Err ZeroDiv.
Proof.
  unfold invoke_rem, rem_fixnum, rem_bignum.
  rewrite !as_fixnum_bignum, !as_float_bignum, !as_bignum_bignum.
  destruct (in_i63 a); reflexivity.
Qed.

(* ---- power ---- *)
Lemma invoke_exp_bignum powf a n : 0 <= n < 2 ^ 32 ->
  invoke_exp powf (bignum a) (bignum n) = Ok (bignum (a ^ n)).
Proof.
  intros Hn. unfold invoke_exp, exp_fixnum, exp_bignum.
  rewrite !as_fixnum_bignum, !as_float_bignum, !as_bignum_bignum.
  replace (in_i63 n) with true by (unfold in_i63; lia).
  replace (in_u32 n) with true by (unfold in_u32; lia).
  destruct (in_i63 a); [|reflexivity].
  rewrite <- (checked_integer (a ^ n)). destruct (checked (a ^ n)); reflexivity.
Qed.

(* ---- bitwise ---- *)
(* n fits in k+1 bits of two's complement iff all bits from k on are equal *)
Lemma i63_high_bits n : in_i63 n = true <-> forall i, 62 <= i -> Z.testbit n i = (n <? 0).
Proof.
  rewrite in_i63_spec. split.
  - intros H i Hi. destruct (Z.ltb_spec n 0).
    + rewrite <- (Z.lnot_involutive n), Z.lnot_spec by lia.
      rewrite (testbit_small (Z.lnot n) 62 i); [reflexivity| |lia].
      unfold Z.lnot. lia.
    + apply (testbit_small n 62 i); lia.
  - intros H.
    assert (Hs : forall m, (forall i, 62 <= i -> Z.testbit m i = false) -> 0 <= m -> m < 2 ^ 62).
    { intros m Hm H0. destruct (Z.ltb_spec m (2 ^ 62)); [assumption|].
      assert (62 <= Z.log2 m) by (apply Z.log2_le_pow2; lia).
      specialize (Hm (Z.log2 m) ltac:(lia)). rewrite Z.bit_log2 in Hm by lia. discriminate. }
    destruct (Z.ltb_spec n 0) as [Hn|Hn].
    + assert (Z.lnot n < 2 ^ 62).
      { apply Hs; [|unfold Z.lnot; lia]. intros i Hi. rewrite Z.lnot_spec by lia.
        rewrite H by lia. reflexivity. }
      unfold Z.lnot in *. lia.
    + specialize (Hs n H Hn). lia.
Qed.

Definition bitwise (op : Z -> Z -> Z) (bop : bool -> bool -> bool) :=
  (forall a b i, 0 <= i -> Z.testbit (op a b) i = bop (Z.testbit a i) (Z.testbit b i)) /\
  (forall a b, (op a b <? 0) = bop (a <? 0) (b <? 0)).
Lemma bitwise_i63 op bop a b : bitwise op bop -> in_i63 a = true -> in_i63 b = true ->
  in_i63 (op a b) = true.
Proof.
  intros (H1 & H2) Ha Hb. rewrite i63_high_bits in *. intros i Hi.
  rewrite H1, H2, Ha, Hb by lia. reflexivity.
Qed.
Lemma land_bitwise : bitwise Z.land andb.
Proof.
  split; [intros; apply Z.land_spec|]. intros a b.
  pose proof (Z.land_neg a b). lia.
Qed.
Lemma lor_bitwise : bitwise Z.lor orb.
Proof.
  split; [intros; apply Z.lor_spec|]. intros a b.
  pose proof (Z.lor_neg a b). lia.
Qed.
Lemma lxor_bitwise : bitwise Z.lxor xorb.
Proof.
  split; [intros; apply Z.lxor_spec|]. intros a b.
  pose proof (Z.lxor_nonneg a b). destruct (Z.ltb_spec (Z.lxor a b) 0), (Z.ltb_spec a 0), (Z.ltb_spec b 0); cbn; try reflexivity; lia.
Qed.

Lemma integer_op_bignum op bop a b : bitwise op bop -> in_i63 a = true -> in_i63 b = true ->
  integer (op a b) = bignum (op a b).
Proof.
  intros H Ha Hb. pose proof (bitwise_i63 op bop a b H Ha Hb) as E.
  apply in_i63_spec in E. apply integer_bignum. lia.
Qed.

Lemma int_bit_bignum op bop a b : bitwise op bop ->
  int_bit op (bignum a) (bignum b) = Ok (bignum (op a b)).
Proof.
  intros H. unfold int_bit. rewrite !as_fixnum_bignum, !as_bignum_bignum.
  destruct (in_i63 a) eqn:Ea, (in_i63 b) eqn:Eb; try reflexivity.
  rewrite (integer_op_bignum op bop) by assumption. reflexivity.
Qed.
Lemma invoke_bitand_bignum a b : invoke_bitand (bignum a) (bignum b) = Ok (bignum (Z.land a b)).
Proof.
  unfold invoke_bitand. rewrite !as_fixnum_bignum, !unpack_bignum.
  destruct (in_i63 a) eqn:Ea; [destruct (in_i63 b) eqn:Eb|].
  - rewrite (integer_op_bignum _ _ a b land_bitwise) by assumption. reflexivity.
  - apply (int_bit_bignum _ _ _ _ land_bitwise).
  - destruct (in_i63 b); apply (int_bit_bignum _ _ _ _ land_bitwise).
Qed.
Lemma invoke_bitor_bignum a b : invoke_bitor (bignum a) (bignum b) = Ok (bignum (Z.lor a b)).
Proof.
  unfold invoke_bitor. rewrite !as_fixnum_bignum, !unpack_bignum.
  destruct (in_i63 a) eqn:Ea; [destruct (in_i63 b) eqn:Eb|].
  - rewrite (integer_op_bignum _ _ a b lor_bitwise) by assumption. reflexivity.
  - apply (int_bit_bignum _ _ _ _ lor_bitwise).
  - destruct (in_i63 b); apply (int_bit_bignum _ _ _ _ lor_bitwise).
Qed.
Lemma invoke_bitxor_fix a b : in_i63 a = true -> in_i63 b = true ->
  invoke_bitxor (bignum a) (bignum b) = Ok (bignum (Z.lxor a b)).
Proof.
  intros Ha Hb. unfold invoke_bitxor. rewrite !unpack_bignum, Ha, Hb.
  rewrite (integer_op_bignum _ _ a b lxor_bitwise) by assumption. reflexivity.
Qed.
Lemma invoke_bitnot_fix a : in_i63 a = true ->
  invoke_bitnot (bignum a) = Ok (bignum (Z.lnot a)).
Proof.
  intros Ha. unfold invoke_bitnot. rewrite unpack_bignum, Ha.
  apply in_i63_spec in Ha. rewrite integer_bignum by (unfold Z.lnot; lia). reflexivity.
Qed.
Lemma invoke_bitxor_big a b : in_i63 a = false \/ in_i63 b = false ->
  invoke_bitxor (bignum a) (bignum b) = Err NoMethodErr.
Proof.
  intros H. unfold invoke_bitxor. rewrite !unpack_bignum.
  destruct (in_i63 a), (in_i63 b); try reflexivity. destruct H; discriminate.
Qed.
Lemma invoke_bitnot_big a : in_i63 a = false -> invoke_bitnot (bignum a) = Err NoMethodErr.
Proof. intros H. unfold invoke_bitnot. rewrite unpack_bignum, H. reflexivity. Qed.

(* ---- shifts ---- *)
Lemma shl_sub_ok a k : in_i63 a = true -> 0 <= k ->
  (64 <= k \/ - 2 ^ 63 <= a * 2 ^ k < 2 ^ 63) ->
  shl_fixnum_sub a k = bignum (a * 2 ^ k).
Proof.
  intros Ha Hk H. unfold shl_fixnum_sub. rewrite Z.shiftl_mul_pow2 by lia.
  destruct (k <? 2 ^ 32 - 1); [|reflexivity].
  destruct (Z.ltb_spec k 64); [|reflexivity].
  destruct H as [H|H]; [lia|]. rewrite i64_id by lia. apply integer_bignum. lia.
Qed.
Lemma shr_i63 a k : - 2 ^ 62 <= a < 2 ^ 62 -> 0 <= k -> - 2 ^ 62 <= a / 2 ^ k < 2 ^ 62.
Proof.
  intros Ha Hk. assert (0 < 2 ^ k) by (apply Z.pow_pos_nonneg; lia).
  split.
  - apply Z.div_le_lower_bound; nia.
  - apply Z.div_lt_upper_bound; nia.
Qed.
Lemma shr_small_zero a k : 0 <= a < 2 ^ 62 -> 64 <= k -> a / 2 ^ k = 0.
Proof.
  intros Ha Hk. apply Z.div_small. split; [lia|].
  apply Z.lt_le_trans with (2 ^ 64); [lia|]. apply Z.pow_le_mono_r; lia.
Qed.
Lemma shr_sub_ok a k : in_i63 a = true -> 0 <= k ->
  (k < 64 \/ 0 <= a \/ 2 ^ 32 - 1 <= k) ->
  shr_fixnum_sub a k = bignum (a / 2 ^ k).
Proof.
  intros Ha Hk H. apply in_i63_spec in Ha. unfold shr_fixnum_sub.
  rewrite Z.shiftr_div_pow2 by lia.
  destruct (Z.ltb_spec k (2 ^ 32 - 1)); [|reflexivity].
  pose proof (shr_i63 a k Ha Hk).
  destruct (Z.ltb_spec k 64).
  - apply integer_bignum; lia.
  - destruct H as [H|[H|H]]; try lia. rewrite shr_small_zero by lia. reflexivity.
Qed.

(* Shifts of [a] by [k] that the code computes exactly. *)
Definition shl_safe (a k : Z) : Prop :=
  in_i63 a = false \/ 64 <= k \/ - 2 ^ 63 <= a * 2 ^ k < 2 ^ 63.
Definition shr_safe (a k : Z) : Prop :=
  in_i63 a = false \/ k < 64 \/ 0 <= a \/ 2 ^ 32 - 1 <= k.

Lemma invoke_shl_ok a k : 0 <= k < 2 ^ 62 -> shl_safe a k ->
  invoke_shl (bignum a) (bignum k) = Ok (bignum (a * 2 ^ k)).
Proof.
  intros Hk Hs. unfold invoke_shl, int_shl.
  rewrite !as_fixnum_bignum, !as_bignum_bignum.
  replace (in_i63 k) with true by (unfold in_i63; lia).
  destruct (in_i63 a) eqn:Ea.
  - unfold shl_fixnum. replace (0 <=? k) with true by lia.
    rewrite shl_sub_ok; [reflexivity|assumption|lia|].
    destruct Hs as [?|[?|?]]; [congruence|auto|auto].
  - replace (0 <=? k) with true by lia. rewrite Z.shiftl_mul_pow2 by lia. reflexivity.
Qed.
Lemma invoke_shr_ok a k : 0 <= k < 2 ^ 62 -> shr_safe a k ->
  invoke_shr (bignum a) (bignum k) = Ok (bignum (a / 2 ^ k)).
Proof.
  intros Hk Hs. unfold invoke_shr, int_shr.
  rewrite !as_fixnum_bignum, !as_bignum_bignum.
  replace (in_i63 k) with true by (unfold in_i63; lia).
  destruct (in_i63 a) eqn:Ea.
  - unfold shr_fixnum. replace (0 <=? k) with true by lia.
    rewrite shr_sub_ok; [reflexivity|assumption|lia|].
    destruct Hs as [?|[?|[?|?]]]; [congruence|auto|auto|auto].
  - replace (0 <=? k) with true by lia. rewrite Z.shiftr_div_pow2 by lia. reflexivity.
Qed.
(* a negative count is the other shift by its absolute value *)
Lemma invoke_shift_reverse a k : - 2 ^ 62 < k < 0 ->
  invoke_shl (bignum a) (bignum k) = invoke_shr (bignum a) (bignum (- k)) /\
  invoke_shr (bignum a) (bignum k) = invoke_shl (bignum a) (bignum (- k)).
Proof.
  intros Hk. unfold invoke_shl, invoke_shr, int_shl, int_shr.
  rewrite !as_fixnum_bignum, !as_bignum_bignum.
  replace (in_i63 k) with true by (unfold in_i63; lia).
  replace (in_i63 (- k)) with true by (unfold in_i63; lia).
  unfold shl_fixnum, shr_fixnum.
  replace (0 <=? k) with false by lia. replace (0 <=? - k) with true by lia.
  destruct (in_i63 a); auto.
Qed.

(* ---- comparison ---- *)
Lemma cmp_fix_big a b : in_i63 a = true -> in_i63 b = false ->
  (if 0 <? b then Some Lt else Some Gt) = Some (a ?= b).
Proof.
  intros Ha Hb. apply in_i63_spec in Ha.
  assert (~ (- 2 ^ 62 <= b < 2 ^ 62)) by (rewrite <- in_i63_spec; congruence).
  destruct (Z.ltb_spec 0 b), (Z.compare_spec a b); try reflexivity; lia.
Qed.
Lemma cmp_big_fix a b : in_i63 a = false -> in_i63 b = true ->
  (if 0 <? a then Some Gt else Some Lt) = Some (a ?= b).
Proof.
  intros Ha Hb. apply in_i63_spec in Hb.
  assert (~ (- 2 ^ 62 <= a < 2 ^ 62)) by (rewrite <- in_i63_spec; congruence).
  destruct (Z.ltb_spec 0 a), (Z.compare_spec a b); try reflexivity; lia.
Qed.
Lemma cmp_fixnum_bignum a b : in_i63 a = true -> cmp_fixnum a (bignum b) = Some (a ?= b).
Proof.
  intros Ha. unfold cmp_fixnum. rewrite as_fixnum_bignum, as_float_bignum, as_bignum_bignum.
  destruct (in_i63 b) eqn:Eb; [reflexivity|]. apply cmp_fix_big; assumption.
Qed.
Lemma cmp_bignum_bignum a b : in_i63 a = false -> cmp_bignum a (bignum b) = Some (a ?= b).
Proof.
  intros Ha. unfold cmp_bignum. rewrite as_fixnum_bignum, as_float_bignum, as_bignum_bignum.
  destruct (in_i63 b) eqn:Eb; [|reflexivity]. apply cmp_big_fix; assumption.
Qed.
Lemma into_val_real_of b : into_val (real_of b) = bignum b.
Proof.
  unfold real_of. destruct (in_i63 b) eqn:E; [|reflexivity].
  apply in_i63_spec in E. cbn. apply integer_bignum. lia.
Qed.
Lemma real_cmp_of a b : real_cmp (real_of a) (real_of b) = Some (a ?= b).
Proof.
  unfold real_of at 1. destruct (in_i63 a) eqn:Ea; cbn [real_cmp]; rewrite into_val_real_of.
  - apply cmp_fixnum_bignum; assumption.
  - apply cmp_bignum_bignum; assumption.
Qed.
Lemma to_bool_vbool b : to_bool (vbool b) = b.
Proof. destruct b; reflexivity. Qed.

(* mathematical meaning of the four operators *)
Definition cop_Z (op : cop) (a b : Z) : bool :=
  match op with Ge => b <=? a | Gt' => b <? a | Le => a <=? b | Lt' => a <? b end.
Lemma cop_ord_Z op a b : cop_ord op (Some (a ?= b)) = cop_Z op a b.
Proof. destruct op; cbn; destruct (Z.compare_spec a b); lia. Qed.

Lemma eval_cmp2_bignum op a b : eval_cmp2 op (bignum b) (bignum a) = Ok (cop_Z op a b).
Proof.
  unfold eval_cmp2, numeric_cmp.
  rewrite !as_fixnum_bignum, !as_flonum_bignum, !to_real_bignum, real_cmp_of.
  destruct (in_i63 a), (in_i63 b); cbn [rbind]; rewrite ?to_bool_vbool, cop_ord_Z; reflexivity.
Qed.
Lemma eval_cmp_i_bignum op a i : - 2 ^ 31 <= i < 2 ^ 31 ->
  eval_cmp_i op (bignum a) i = Ok (cop_Z op a i).
Proof.
  intros Hi. unfold eval_cmp_i, numeric_cmp. rewrite fixnum_bignum by lia.
  rewrite !as_fixnum_bignum, !as_flonum_bignum, !to_real_bignum, real_cmp_of.
  destruct (in_i63 a); cbn [rbind]; rewrite ?to_bool_vbool, cop_ord_Z; reflexivity.
Qed.
Lemma invoke_compare_bignum a b :
  invoke_compare (bignum b) (bignum a) =
  Ok (bignum (match a ?= b with Lt => -1 | Eq => 0 | Gt => 1 end)).
Proof.
  unfold invoke_compare. rewrite !as_fixnum_bignum, as_float_bignum, as_bignum_bignum.
  destruct (in_i63 a) eqn:Ea.
  - rewrite cmp_fixnum_bignum by assumption. destruct (a ?= b); reflexivity.
  - rewrite cmp_bignum_bignum by assumption. destruct (a ?= b); reflexivity.
Qed.
Lemma eval_eq2_bignum a b : eval_eq2 (bignum b) (bignum a) = (a =? b).
Proof.
  destruct (in_i63 a) eqn:Ea, (in_i63 b) eqn:Eb.
  - pose proof (as_fixnum_bignum a) as Fa. pose proof (as_fixnum_bignum b) as Fb.
    rewrite Ea in Fa. rewrite Eb in Fb. rewrite bignum_fix in * by assumption.
    rewrite bignum_fix in * by assumption.
    unfold eval_eq2. rewrite Fa, Fb. reflexivity.
  - rewrite (bignum_fix a Ea), (bignum_big b Eb). cbn.
    destruct (Z.eqb_spec a b); congruence.
  - rewrite (bignum_big a Ea), (bignum_fix b Eb). cbn.
    destruct (Z.eqb_spec a b); congruence.
  - rewrite (bignum_big a Ea), (bignum_big b Eb). reflexivity.
Qed.
Lemma int_eq_bignum a b : int_eq (bignum a) (bignum b) = Ok (vbool (a =? b)).
Proof.
  unfold int_eq. rewrite !to_real_bignum. unfold real_of.
  destruct (in_i63 a) eqn:Ea, (in_i63 b) eqn:Eb; cbn [real_eq]; try reflexivity;
  destruct (Z.eqb_spec a b); try congruence; reflexivity.
Qed.
Lemma eval_eqi_bignum a i : - 2 ^ 31 <= i < 2 ^ 31 -> eval_eqi (bignum a) i = Ok (a =? i).
Proof.
  intros Hi. unfold eval_eqi.
  rewrite as_fixnum_bignum, as_flonum_bignum, unpack_bignum.
  destruct (in_i63 a) eqn:Ea; [reflexivity|].
  rewrite integer_bignum by lia. rewrite int_eq_bignum. cbn [rbind].
  rewrite to_bool_vbool. reflexivity.
Qed.

(* ---- bit reference ---- *)
Lemma land1_bit a k : 0 <= k -> Z.land (Z.shiftr a k) 1 = Z.b2z (Z.testbit a k).
Proof.
  intros Hk. rewrite land_1, <- Z.bit0_mod, Z.shiftr_spec by lia.
  f_equal.
Qed.
Lemma coerce_bignum_fix n : in_i63 n = true -> coerce_to_fixnum (bignum n) = Ok n.
Proof. intros H. unfold coerce_to_fixnum. rewrite unpack_bignum, H. reflexivity. Qed.
Lemma b2z_integer b : integer (Z.b2z b) = bignum (Z.b2z b).
Proof. destruct b; reflexivity. Qed.
Lemma int_index_ok a k : in_i63 k = true ->
  (k <= 63 \/ 0 <= a \/ in_i63 a = false) ->
  int_index (bignum a) (bignum k) = Ok (bignum (if k <? 0 then 0 else Z.b2z (Z.testbit a k))).
Proof.
  intros Hk H. unfold int_index.
  rewrite !as_fixnum_bignum, !as_bignum_bignum, Hk, coerce_bignum_fix by assumption.
  cbn [rbind]. destruct (in_i63 a) eqn:Ea.
  - destruct (Z.ltb_spec k 0); [reflexivity|]. cbn [orb].
    destruct (Z.ltb_spec 63 k).
    + destruct H as [H|[H|H]]; try lia; try discriminate.
      apply in_i63_spec in Ea. rewrite (testbit_small a 62 k) by lia. reflexivity.
    + rewrite land1_bit by lia. rewrite b2z_integer. reflexivity.
  - destruct (Z.ltb_spec k 0); [reflexivity|]. rewrite land1_bit by lia. reflexivity.
Qed.
Lemma get_index_imm_eq a k : 0 <= k < 2 ^ 32 ->
  get_index_imm_int (bignum a) k = int_index (bignum a) (bignum k).
Proof.
  intros Hk. unfold get_index_imm_int. rewrite as_fixnum_bignum.
  destruct (in_i63 a) eqn:Ea.
  - unfold int_index. rewrite !as_fixnum_bignum, !as_bignum_bignum, Ea.
    assert (in_i63 k = true) as E by (unfold in_i63; lia). rewrite E, coerce_bignum_fix by assumption.
    cbn [rbind]. replace (k <? 0) with false by lia. reflexivity.
  - rewrite integer_bignum by lia. reflexivity.
Qed.

(* ---- bit_length ---- *)
(* least k >= 0 with -2^k <= n < 2^k, computed independently *)
Definition is_bit_length (n k : Z) : Prop :=
  0 <= k /\ - 2 ^ k <= n < 2 ^ k /\ forall j, 0 <= j < k -> ~ (- 2 ^ j <= n < 2 ^ j).

Definition bl (n : Z) : Z :=
  let m := if n <? 0 then Z.lnot n else n in if m =? 0 then 0 else Z.log2 m + 1.
Lemma bl_spec n : is_bit_length n (bl n).
Proof.
  unfold is_bit_length, bl.
  set (m := if n <? 0 then Z.lnot n else n).
  assert (Hm : 0 <= m /\ forall k, 0 <= k -> (- 2 ^ k <= n < 2 ^ k <-> m < 2 ^ k)).
  { unfold m, Z.lnot. destruct (Z.ltb_spec n 0); split; intros; try lia;
      assert (0 < 2 ^ k) by (apply Z.pow_pos_nonneg; lia); lia. }
  destruct Hm as (H0 & Hm). clearbody m.
  destruct (Z.eqb_spec m 0) as [->|Hz].
  - split; [lia|]. split; [apply Hm; lia|]. intros; lia.
  - pose proof (Z.log2_spec m ltac:(lia)) as (Hl1 & Hl2). pose proof (Z.log2_nonneg m).
    split; [lia|]. split. { apply Hm; [lia|]. rewrite <- Z.add_1_r in Hl2. exact Hl2. }
    intros j Hj. rewrite Hm by lia.
    assert (2 ^ j <= 2 ^ Z.log2 m) by (apply Z.pow_le_mono_r; lia). lia.
Qed.

Lemma find_from_spec (p : Z -> bool) all : forall n x, 
  (exists y, x <= y < x + Z.of_nat n /\ p (all - y) = true /\ forall z, x <= z < y -> p (all - z) = false) ->
  exists y, find_from p all x n = y /\ x <= y < x + Z.of_nat n /\ p (all - y) = true /\
    forall z, x <= z < y -> p (all - z) = false.
Proof.
  induction n as [|n IH]; intros x (y & Hy & Hp & Hz).
  { lia. }
  cbn [find_from]. destruct (p (all - x)) eqn:E.
  - exists x. repeat split; try lia; auto.
  - assert (x <> y) by (intros ->; congruence).
    destruct (IH (x + 1)) as (y' & E' & Hy' & Hp' & Hz').
    { exists y. repeat split; try lia; auto. intros z Hz1. apply Hz. lia. }
    exists y'. repeat split; try lia; auto.
    intros z Hz1. destruct (Z.eq_dec z x) as [->|]; [assumption|]. apply Hz'. lia.
Qed.

Lemma bl_big b : in_i63 b = false -> Z.log2 (Z.abs b) < 2 ^ 32 - 64 ->
  bit_length (bignum b) = Ok (bignum (bl b)).
Proof.
  intros Hb Hlog. unfold bit_length. rewrite as_fixnum_bignum, as_bignum_bignum, Hb.
  assert (Hb' : ~ (- 2 ^ 62 <= b < 2 ^ 62)) by (rewrite <- in_i63_spec; congruence).
  set (p := if negb (b <? 0) then fun k => Z.testbit b k else fun k => negb (Z.testbit b k)).
  set (all := (big_bits b + 63) / 64 * 64).
  set (m := if b <? 0 then Z.lnot b else b).
  assert (Hm : 2 ^ 62 <= m) by (unfold m, Z.lnot; destruct (Z.ltb_spec b 0); lia).
  assert (Hp : forall k, 0 <= k -> p k = Z.testbit m k).
  { intros k Hk. unfold p, m. destruct (b <? 0); cbn [negb]; [rewrite Z.lnot_spec by lia|]; reflexivity. }
  assert (Hbl : bl b = Z.log2 m + 1).
  { unfold bl. fold m. replace (m =? 0) with false by lia. reflexivity. }
  assert (Hall : Z.log2 m < all /\ 0 <= all < 2 ^ 32).
  { assert (Hbb : big_bits b = Z.log2 (Z.abs b) + 1).
    { unfold big_bits. replace (b =? 0) with false by lia. reflexivity. }
    assert (Z.log2 m <= Z.log2 (Z.abs b)).
    { apply Z.log2_le_mono. unfold m, Z.lnot. destruct (Z.ltb_spec b 0); lia. }
    pose proof (Z.log2_nonneg (Z.abs b)).
    unfold all. rewrite Hbb. clear - H H0 Hlog. lia. }
  destruct Hall as (Hall & Hall2).
  assert (H62 : 62 <= Z.log2 m) by (apply Z.log2_le_pow2; lia).
  destruct (find_from_spec p all (Z.to_nat all) 0) as (y & Ey & Hy & Hpy & Hz).
  { exists (all - Z.log2 m). repeat split; try lia.
    - replace (all - (all - Z.log2 m)) with (Z.log2 m) by lia.
      rewrite Hp by lia. apply Z.bit_log2. lia.
    - intros z Hz. rewrite Hp by lia. apply Z.bits_above_log2; lia. }
  rewrite Ey.
  assert (y = all - Z.log2 m) as ->.
  { destruct (Z.lt_trichotomy y (all - Z.log2 m)) as [H|[H|H]]; [|assumption|].
    - rewrite Hp in Hpy by lia. rewrite Z.bits_above_log2 in Hpy by lia. discriminate.
    - specialize (Hz (all - Z.log2 m) ltac:(lia)).
      replace (all - (all - Z.log2 m)) with (Z.log2 m) in Hz by lia.
      rewrite Hp in Hz by lia. rewrite Z.bit_log2 in Hz by lia. discriminate. }
  rewrite Hbl. rewrite integer_bignum.
  - do 2 f_equal. unfold u32. rewrite (Z.mod_small all), (Z.mod_small (all - _)) by lia.
    rewrite Z.mod_small by lia. lia.
  - unfold u32. pose proof (Z.mod_pos_bound (all mod 2 ^ 32 - (all - Z.log2 m) mod 2 ^ 32 + 1) (2 ^ 32)). lia.
Qed.
Lemma bl_fix i : in_i63 i = true -> bit_length (bignum i) = Ok (bignum (bl i)).
Proof.
  intros H. unfold bit_length. rewrite as_fixnum_bignum, H. apply in_i63_spec in H.
  unfold leading_ones64, leading_zeros64, bl.
  assert (HL : forall m, 0 < m < 2 ^ 62 -> 0 <= Z.log2 m < 62).
  { intros m Hm. split; [apply Z.log2_nonneg|]. apply Z.log2_lt_pow2; lia. }
  destruct (Z.leb_spec 0 i) as [Hi|Hi].
  - replace (i <? 0) with false by lia. destruct (Z.eqb_spec i 0); [reflexivity|].
    specialize (HL i ltac:(lia)). rewrite integer_bignum by lia. do 2 f_equal. lia.
  - replace (i <? 0) with true by lia. destruct (Z.eqb_spec (Z.lnot i) 0); [reflexivity|].
    specialize (HL (Z.lnot i) ltac:(unfold Z.lnot in *; lia)). rewrite integer_bignum by lia.
    do 2 f_equal. lia.
Qed.
Lemma bit_length_ok n : Z.log2 (Z.abs n) < 2 ^ 32 - 64 ->
  exists k, bit_length (bignum n) = Ok (bignum k) /\ is_bit_length n k.
Proof.
  intros H. exists (bl n). split; [|apply bl_spec].
  destruct (in_i63 n) eqn:E; [apply bl_fix|apply bl_big]; assumption.
Qed.

(* ---- misc unary ---- *)
Lemma int_abs_bignum n : int_abs (bignum n) = Ok (bignum (Z.abs n)).
Proof.
  unfold int_abs. rewrite as_fixnum_bignum, as_bignum_bignum.
  destruct (in_i63 n) eqn:E; [|reflexivity]. apply in_i63_spec in E.
  rewrite integer_bignum by lia. reflexivity.
Qed.
Lemma int_next_bignum n : int_next (bignum n) = Ok (bignum (n + 1)).
Proof.
  unfold int_next. rewrite as_fixnum_bignum, as_bignum_bignum.
  destruct (in_i63 n); [|reflexivity].
  rewrite <- (checked_integer (n + 1)). destruct (checked (n + 1)); reflexivity.
Qed.
Lemma int_pred_bignum n : int_pred (bignum n) = Ok (bignum (n - 1)).
Proof.
  unfold int_pred. rewrite as_fixnum_bignum, as_bignum_bignum.
  destruct (in_i63 n); [|reflexivity].
  rewrite <- (checked_integer (n - 1)). destruct (checked (n - 1)); reflexivity.
Qed.
Lemma int_even_bignum n : int_even (bignum n) = Ok (vbool (n mod 2 =? 0)).
Proof.
  unfold int_even. rewrite as_fixnum_bignum, as_bignum_bignum.
  assert (Z.even n = (n mod 2 =? 0)) as E by (rewrite Zmod_even; destruct (Z.even n); reflexivity).
  destruct (in_i63 n); rewrite <- E; reflexivity.
Qed.
Lemma int_odd_bignum n : int_odd (bignum n) = Ok (vbool (n mod 2 =? 1)).
Proof.
  unfold int_odd. rewrite as_fixnum_bignum, as_bignum_bignum.
  assert (Z.odd n = (n mod 2 =? 1)) as E by (rewrite Zmod_odd; destruct (Z.odd n); reflexivity).
  destruct (in_i63 n); rewrite <- E; reflexivity.
Qed.
