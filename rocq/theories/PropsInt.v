(* Properties C05-C13, C45-C47: integer arithmetic. Integers of any size are
   given to the operations as [bignum n], the value the interpreter builds for
   n (C01: an immediate word exactly on -2^62..2^62-1, a heap object elsewhere). *)
From Verif Require Import Base ModelValue ModelFloat ModelInt ProofsValue ProofsInt ProofsGcd ProofsFloat.
From Verif Require ProofsEqual.
From Coq Require Import Floats.SpecFloat.

(* ---- C05 ---- *)
Theorem C05_add_sub_mul_exact : forall a b : Z,
  invoke_add (bignum a) (bignum b) = Ok (bignum (a + b)) /\
  invoke_sub (bignum a) (bignum b) = Ok (bignum (a - b)) /\
  invoke_mul (bignum a) (bignum b) = Ok (bignum (a * b)).
Proof.
  exact (fun a b => conj (invoke_add_bignum a b) (conj (invoke_sub_bignum a b) (invoke_mul_bignum a b))).
Qed.
Print Assumptions C05_add_sub_mul_exact.
Theorem C05_immediate_operand : forall a i : Z, - 2 ^ 31 <= i < 2 ^ 31 ->
  invoke_addi (bignum a) i = Ok (bignum (a + i)) /\
  invoke_subi (bignum a) i = Ok (bignum (a - i)).
Proof. exact (fun a i H => conj (invoke_addi_bignum a i H) (invoke_subi_bignum a i H)). Qed.
Print Assumptions C05_immediate_operand.
Theorem C05_unary : forall n : Z,
  invoke_neg (bignum n) = Ok (bignum (- n)) /\
  int_abs (bignum n) = Ok (bignum (Z.abs n)) /\
  int_next (bignum n) = Ok (bignum (n + 1)) /\
  int_pred (bignum n) = Ok (bignum (n - 1)) /\
  int_even (bignum n) = Ok (vbool (n mod 2 =? 0)) /\
  int_odd (bignum n) = Ok (vbool (n mod 2 =? 1)).
Proof.
  exact (fun n => conj (invoke_neg_bignum n) (conj (int_abs_bignum n) (conj (int_next_bignum n)
    (conj (int_pred_bignum n) (conj (int_even_bignum n) (int_odd_bignum n)))))).
Qed.
Print Assumptions C05_unary.
(* small+small overflowing into big, big+small falling back into small *)
Example C05_ex :
  invoke_add (bignum (2 ^ 62 - 1)) (bignum 1) = Ok (Heap (HBig (2 ^ 62))) /\
  invoke_add (bignum (2 ^ 62)) (bignum (-1)) = Ok (fixnum (2 ^ 62 - 1)) /\
  invoke_mul (bignum (2 ^ 40)) (bignum (2 ^ 40)) = Ok (Heap (HBig (2 ^ 80))) /\
  invoke_subi (bignum (- 2 ^ 62)) 1 = Ok (Heap (HBig (- 2 ^ 62 - 1))) /\
  - 2 ^ 31 <= 1 < 2 ^ 31.
Proof. vm_compute. intuition congruence. Qed.

(* ---- C06 ---- *)
(* floored division, characterised without / and mod *)
Definition floored (a b q r : Z) : Prop := a = b * q + r /\ (0 <= r < b \/ b < r <= 0).
Lemma floored_div a b : b <> 0 -> floored a b (a / b) (a mod b).
Proof.
  intros Hb. split; [apply Z.div_mod; assumption|].
  destruct (Z.lt_trichotomy b 0) as [H|[H|H]]; [right; apply Z.mod_neg_bound|contradiction|left; apply Z.mod_pos_bound]; assumption.
Qed.
Theorem C06_floored_division : forall a b : Z, b <> 0 -> exists q r,
  invoke_div (bignum a) (bignum b) = Ok (bignum q) /\
  invoke_rem (bignum a) (bignum b) = Ok (bignum r) /\ floored a b q r.
Proof.
  exact (fun a b H => ex_intro _ (a / b) (ex_intro _ (a mod b)
    (conj (invoke_div_bignum a b H) (conj (invoke_rem_bignum a b H) (floored_div a b H))))).
Qed.
Print Assumptions C06_floored_division.
Theorem C06_zero_division : forall a : Z,
  invoke_div (bignum a) (bignum 0) = Err ZeroDiv /\ invoke_rem (bignum a) (bignum 0) = Err ZeroDiv.
Proof. exact (fun a => conj (invoke_div_zero a) (invoke_rem_zero a)). Qed.
Print Assumptions C06_zero_division.
Example C06_ex : invoke_div (bignum (-7)) (bignum 2) = Ok (fixnum (-4)) /\
  invoke_rem (bignum (-7)) (bignum 2) = Ok (fixnum 1) /\
  invoke_div (bignum (- 2 ^ 62)) (bignum (-1)) = Ok (Heap (HBig (2 ^ 62))) /\
  invoke_rem (bignum (2 ^ 70 + 3)) (bignum (- 2 ^ 69)) = Ok (Heap (HBig (3 - 2 ^ 69))) /\
  floored (-7) 2 (-4) 1 /\ -1 <> 0.
Proof. vm_compute. intuition congruence. Qed.

(* ---- C07 ---- *)
(* repeated multiplication, independent of the library power *)
Definition iterated_product (a : Z) (n : Z) : Z := Z.of_nat 1 * fold_right Z.mul 1 (repeat a (Z.to_nat n)).
Lemma iterated_product_pow a n : 0 <= n -> a ^ n = iterated_product a n.
Proof.
  intros Hn. unfold iterated_product. rewrite Z.mul_1_l. rewrite <- (Z2Nat.id n) at 1 by exact Hn.
  induction (Z.to_nat n) as [|k IH]; [reflexivity|].
  rewrite Nat2Z.inj_succ, Z.pow_succ_r by apply Nat2Z.is_nonneg. cbn [repeat fold_right]. rewrite IH. reflexivity.
Qed.
Lemma exp_product powf a n : 0 <= n < 2 ^ 32 ->
  invoke_exp powf (bignum a) (bignum n) = Ok (bignum (iterated_product a n)).
Proof. intros H. rewrite invoke_exp_bignum, iterated_product_pow by (try apply H; exact H). reflexivity. Qed.
Theorem C07_power_exact : forall powf (a n : Z), 0 <= n < 2 ^ 32 ->
  invoke_exp powf (bignum a) (bignum n) = Ok (bignum (iterated_product a n)).
Proof. exact exp_product. Qed.
Print Assumptions C07_power_exact.
Example C07_ex : invoke_exp (fun _ _ => 0) (bignum (-3)) (bignum 5) = Ok (fixnum (-243)) /\
  invoke_exp (fun _ _ => 0) (bignum 2) (bignum 100) = Ok (Heap (HBig 1267650600228229401496703205376)) /\
  0 <= 100 < 2 ^ 32.
Proof. vm_compute. intuition congruence. Qed.

(* ---- C08 ---- *)
(* Full statement: &, |, ^ and ~ act bitwise for all integers. & and | do; ^
   and ~ raise NoMethodError as soon as an operand is a big integer. *)
Definition bitwise_result (f : bool -> bool -> bool) (a b : Z) (r : res value) : Prop :=
  exists c, r = Ok (bignum c) /\ forall i, 0 <= i -> Z.testbit c i = f (Z.testbit a i) (Z.testbit b i).
Lemma C08_l_and a b : bitwise_result andb a b (invoke_bitand (bignum a) (bignum b)).
Proof. exists (Z.land a b). split; [apply invoke_bitand_bignum|]. intros. apply Z.land_spec. Qed.
Lemma C08_l_or a b : bitwise_result orb a b (invoke_bitor (bignum a) (bignum b)).
Proof. exists (Z.lor a b). split; [apply invoke_bitor_bignum|]. intros. apply Z.lor_spec. Qed.
Lemma C08_l_xor a b : - 2 ^ 62 <= a < 2 ^ 62 -> - 2 ^ 62 <= b < 2 ^ 62 ->
  bitwise_result xorb a b (invoke_bitxor (bignum a) (bignum b)).
Proof.
  intros Ha Hb. apply in_i63_spec in Ha, Hb.
  exists (Z.lxor a b). split; [apply invoke_bitxor_fix; assumption|]. intros. apply Z.lxor_spec.
Qed.
Lemma C08_l_not a : - 2 ^ 62 <= a < 2 ^ 62 ->
  bitwise_result (fun x _ => negb x) a 0 (invoke_bitnot (bignum a)).
Proof.
  intros Ha. apply in_i63_spec in Ha.
  exists (Z.lnot a). split; [apply invoke_bitnot_fix; assumption|]. intros. apply Z.lnot_spec. assumption.
Qed.
Theorem C08_and_or_bitwise : forall a b : Z,
  bitwise_result andb a b (invoke_bitand (bignum a) (bignum b)) /\
  bitwise_result orb a b (invoke_bitor (bignum a) (bignum b)).
Proof. exact (fun a b => conj (C08_l_and a b) (C08_l_or a b)). Qed.
Print Assumptions C08_and_or_bitwise.
Theorem C08_xor_not_bitwise_partial : forall a b : Z,
  - 2 ^ 62 <= a < 2 ^ 62 -> - 2 ^ 62 <= b < 2 ^ 62 ->
  bitwise_result xorb a b (invoke_bitxor (bignum a) (bignum b)) /\
  bitwise_result (fun x _ => negb x) a 0 (invoke_bitnot (bignum a)).
Proof. exact (fun a b Ha Hb => conj (C08_l_xor a b Ha Hb) (C08_l_not a Ha)). Qed.
Print Assumptions C08_xor_not_bitwise_partial.
Lemma C08_l_xor_big a b : ~ (- 2 ^ 62 <= a < 2 ^ 62) \/ ~ (- 2 ^ 62 <= b < 2 ^ 62) ->
  invoke_bitxor (bignum a) (bignum b) = Err NoMethodErr.
Proof.
  intros H. apply invoke_bitxor_big.
  destruct H as [H|H]; [left|right]; apply not_true_is_false; intros E; apply in_i63_spec in E; contradiction.
Qed.
Lemma C08_l_not_big a : ~ (- 2 ^ 62 <= a < 2 ^ 62) -> invoke_bitnot (bignum a) = Err NoMethodErr.
Proof.
  intros H. apply invoke_bitnot_big. apply not_true_is_false; intros E; apply in_i63_spec in E; contradiction.
Qed.
(* outside the small range ^ and ~ always fail, so the bound above is exact *)
Theorem C08_xor_not_big_refuted : forall a b : Z, ~ (- 2 ^ 62 <= a < 2 ^ 62) ->
  invoke_bitxor (bignum a) (bignum b) = Err NoMethodErr /\
  invoke_bitnot (bignum a) = Err NoMethodErr.
Proof. exact (fun a b H => conj (C08_l_xor_big a b (or_introl H)) (C08_l_not_big a H)). Qed.
Print Assumptions C08_xor_not_big_refuted.
Example C08_ex : invoke_bitand (bignum (-1)) (bignum (2 ^ 70 + 1)) = Ok (Heap (HBig (2 ^ 70 + 1))) /\
  invoke_bitand (bignum (2 ^ 70 + 1)) (bignum 255) = Ok (fixnum 1) /\
  invoke_bitor (bignum (- 2 ^ 70)) (bignum 5) = Ok (Heap (HBig (- 2 ^ 70 + 5))) /\
  invoke_bitxor (bignum (-3)) (bignum 5) = Ok (fixnum (-8)) /\
  invoke_bitnot (bignum (- 2 ^ 62)) = Ok (fixnum (2 ^ 62 - 1)) /\
  ~ (- 2 ^ 62 <= 2 ^ 62 < 2 ^ 62).
Proof. vm_compute. intuition congruence. Qed.

(* ---- C09 ---- *)
(* Full statement: for all a and k >= 0, a << k is a*2^k and a >> k is
   floor(a/2^k). It fails for a small a shifted left by fewer than 64 bits with
   a result outside 64 bits, and for a negative small a shifted right by 64 or
   more; the two hypotheses below exclude exactly these. *)
Theorem C09_shift_left_partial : forall a k : Z, 0 <= k < 2 ^ 62 ->
  ~ (- 2 ^ 62 <= a < 2 ^ 62) \/ 64 <= k \/ - 2 ^ 63 <= a * 2 ^ k < 2 ^ 63 ->
  invoke_shl (bignum a) (bignum k) = Ok (bignum (a * 2 ^ k)).
Proof.
  intros a k Hk H. apply (invoke_shl_ok a k Hk).
  destruct H as [H|[H|H]]; [left|right; left|right; right]; try assumption.
  apply not_true_is_false; intros E; apply in_i63_spec in E; contradiction.
Qed.
Print Assumptions C09_shift_left_partial.
Theorem C09_shift_right_partial : forall a k : Z, 0 <= k < 2 ^ 62 ->
  ~ (- 2 ^ 62 <= a < 2 ^ 62) \/ k < 64 \/ 0 <= a \/ 2 ^ 32 - 1 <= k ->
  invoke_shr (bignum a) (bignum k) = Ok (bignum (a / 2 ^ k)).
Proof.
  intros a k Hk H. apply (invoke_shr_ok a k Hk).
  destruct H as [H|[H|[H|H]]]; [left|right; left|right; right; left|right; right; right]; try assumption.
  apply not_true_is_false; intros E; apply in_i63_spec in E; contradiction.
Qed.
Print Assumptions C09_shift_right_partial.
Theorem C09_negative_count_reverses : forall a k : Z, - 2 ^ 62 < k < 0 ->
  invoke_shl (bignum a) (bignum k) = invoke_shr (bignum a) (bignum (- k)) /\
  invoke_shr (bignum a) (bignum k) = invoke_shl (bignum a) (bignum (- k)).
Proof. exact invoke_shift_reverse. Qed.
Print Assumptions C09_negative_count_reverses.
(* 1 << 63 is negative, 3 << 62 is negative, -1 >> 64 is 0 *)
Theorem C09_shift_refuted :
  (exists a k : Z, 0 <= k /\ invoke_shl (bignum a) (bignum k) <> Ok (bignum (a * 2 ^ k))) /\
  (exists a k : Z, 0 <= k /\ invoke_shr (bignum a) (bignum k) <> Ok (bignum (a / 2 ^ k))).
Proof.
  split; [exists 1, 63|exists (-1), 64]; (split; [discriminate|vm_compute; discriminate]).
Qed.
Print Assumptions C09_shift_refuted.
Example C09_ex : invoke_shl (bignum 5) (bignum 60) = Ok (Heap (HBig (5 * 2 ^ 60))) /\
  invoke_shl (bignum 1) (bignum 63) = Ok (Heap (HBig (- 2 ^ 63))) /\
  invoke_shl (bignum 3) (bignum 100) = Ok (Heap (HBig (3 * 2 ^ 100))) /\
  invoke_shr (bignum (-5)) (bignum 1) = Ok (fixnum (-3)) /\
  invoke_shr (bignum (2 ^ 80)) (bignum 70) = Ok (fixnum 1024) /\
  invoke_shl (bignum (2 ^ 80)) (bignum (-70)) = Ok (fixnum 1024) /\
  (0 <= 60 < 2 ^ 62 /\ - 2 ^ 63 <= 5 * 2 ^ 60 < 2 ^ 63).
Proof. vm_compute. intuition congruence. Qed.

(* ---- C10 ---- *)
(* [eval_cmp2 op rhs lhs] is the comparison `lhs op rhs` of the VM, [eval_cmp_i]
   the one with an immediate right operand, [invoke_compare] is <=>, [eval_eq2]
   and [int_eq] are == (VM fast path and method). *)
Theorem C10_comparison : forall (op : cop) (a b : Z),
  eval_cmp2 op (bignum b) (bignum a) =
    Ok (match op with Ge => b <=? a | Gt' => b <? a | Le => a <=? b | Lt' => a <? b end).
Proof. exact eval_cmp2_bignum. Qed.
Print Assumptions C10_comparison.
Theorem C10_comparison_immediate : forall (op : cop) (a i : Z), - 2 ^ 31 <= i < 2 ^ 31 ->
  eval_cmp_i op (bignum a) i =
    Ok (match op with Ge => i <=? a | Gt' => i <? a | Le => a <=? i | Lt' => a <? i end) /\
  eval_eqi (bignum a) i = Ok (a =? i).
Proof. exact (fun op a i H => conj (eval_cmp_i_bignum op a i H) (eval_eqi_bignum a i H)). Qed.
Print Assumptions C10_comparison_immediate.
Theorem C10_spaceship_equality : forall a b : Z,
  invoke_compare (bignum b) (bignum a) = Ok (bignum (if a <? b then -1 else if a =? b then 0 else 1)) /\
  eval_eq2 (bignum b) (bignum a) = (a =? b) /\
  int_eq (bignum a) (bignum b) = Ok (vbool (a =? b)).
Proof.
  intros a b. split; [|exact (conj (eval_eq2_bignum a b) (int_eq_bignum a b))].
  rewrite invoke_compare_bignum. destruct (Z.compare_spec a b) as [->|H|H].
  - rewrite Z.ltb_irrefl, Z.eqb_refl. reflexivity.
  - apply Z.ltb_lt in H. rewrite H. reflexivity.
  - destruct (Z.ltb_spec a b); [exfalso; apply (Z.lt_asymm a b); assumption|].
    destruct (Z.eqb_spec a b) as [->|_]; [exfalso; apply (Z.lt_irrefl b); assumption|reflexivity].
Qed.
Print Assumptions C10_spaceship_equality.
Example C10_ex : eval_cmp2 Gt' (bignum (-1)) (bignum (2 ^ 70)) = Ok true /\
  invoke_compare (bignum 3) (bignum (- 2 ^ 70)) = Ok (fixnum (-1)) /\
  eval_eq2 (bignum (2 ^ 62)) (bignum (2 ^ 62)) = true /\
  eval_cmp_i Le (bignum (2 ^ 62)) 5 = Ok false /\ - 2 ^ 31 <= 5 < 2 ^ 31.
Proof. vm_compute. intuition congruence. Qed.

(* ---- C11 ---- *)
(* The result value is Ok in every case: the loop of the small-integer gcd
   terminates within its fuel and no overflow panic is reached. *)
Theorem C11_gcd : forall a b : Z, exists g,
  int_gcd (bignum a) (bignum b) = Ok (bignum g) /\
  0 <= g /\ (g | a) /\ (g | b) /\ forall d, (d | a) -> (d | b) -> (d | g).
Proof. exact int_gcd_ok. Qed.
Print Assumptions C11_gcd.
Theorem C11_lcm : forall a b : Z, exists l,
  int_lcm (bignum a) (bignum b) = Ok (bignum l) /\
  0 <= l /\ (a | l) /\ (b | l) /\ forall m, (a | m) -> (b | m) -> (l | m).
Proof. exact int_lcm_ok. Qed.
Print Assumptions C11_lcm.
Example C11_ex : int_gcd (bignum 48) (bignum (-36)) = Ok (fixnum 12) /\
  int_gcd (bignum (- 2 ^ 62)) (bignum (- 2 ^ 62)) = Ok (Heap (HBig (2 ^ 62))) /\
  int_lcm (bignum (- 2 ^ 62)) (bignum 3) = Ok (Heap (HBig (3 * 2 ^ 62))) /\
  int_lcm (bignum 4) (bignum 6) = Ok (fixnum 12) /\
  int_gcd (bignum (2 ^ 80)) (bignum 6) = Ok (fixnum 2).
Proof. vm_compute. auto. Qed.

(* ---- C12 ---- *)
(* Full statement: n[i] is bit i of n for every i >= 0. Fails for a negative
   small n and i > 63 (0 instead of 1) and for big indices on negative n. *)
Theorem C12_bit_reference_partial : forall n i : Z, 0 <= i < 2 ^ 62 ->
  (i <= 63 \/ 0 <= n \/ ~ (- 2 ^ 62 <= n < 2 ^ 62)) ->
  int_index (bignum n) (bignum i) = Ok (bignum (Z.b2z (Z.testbit n i))).
Proof.
  intros n i Hi H.
  assert (E : in_i63 i = true).
  { apply in_i63_spec. split; [apply Z.le_trans with 0; [discriminate|]|]; apply Hi. }
  rewrite int_index_ok; [destruct (Z.ltb_spec i 0) as [L|_]; [|reflexivity]|exact E|].
  - exfalso. apply (Z.lt_irrefl 0). apply Z.le_lt_trans with i; [apply Hi|exact L].
  - destruct H as [H|[H|H]]; [left; exact H|right; left; exact H|right; right].
    apply not_true_is_false; intros E'; apply in_i63_spec in E'; contradiction.
Qed.
Print Assumptions C12_bit_reference_partial.
Theorem C12_bit_reference_imm_agrees : forall n i : Z, 0 <= i < 2 ^ 32 ->
  get_index_imm_int (bignum n) i = int_index (bignum n) (bignum i).
Proof. exact get_index_imm_eq. Qed.
Print Assumptions C12_bit_reference_imm_agrees.
Theorem C12_bit_reference_refuted : exists n i : Z, 0 <= i < 2 ^ 62 /\
  int_index (bignum n) (bignum i) <> Ok (bignum (Z.b2z (Z.testbit n i))).
Proof. exists (-1), 64. split; [split; [discriminate|reflexivity]|vm_compute; discriminate]. Qed.
Print Assumptions C12_bit_reference_refuted.
Theorem C12_bit_length : forall n : Z, Z.log2 (Z.abs n) < 2 ^ 32 - 64 -> exists k,
  bit_length (bignum n) = Ok (bignum k) /\
  0 <= k /\ - 2 ^ k <= n < 2 ^ k /\ forall j, 0 <= j < k -> ~ (- 2 ^ j <= n < 2 ^ j).
Proof. exact bit_length_ok. Qed.
Print Assumptions C12_bit_length.
Example C12_ex : int_index (bignum (-2)) (bignum 0) = Ok (fixnum 0) /\
  int_index (bignum (-2)) (bignum 63) = Ok (fixnum 1) /\
  int_index (bignum (2 ^ 100)) (bignum 100) = Ok (fixnum 1) /\
  bit_length (bignum (- 2 ^ 70)) = Ok (fixnum 70) /\
  bit_length (bignum 255) = Ok (fixnum 8) /\
  0 <= 63 < 2 ^ 62 /\ Z.log2 (Z.abs (- 2 ^ 70)) < 2 ^ 32 - 64.
Proof. vm_compute. intuition congruence. Qed.

(* ---- C13 ---- *)
(* [counts r l]: the method does not fail and its block is called with exactly
   the integers of l, in order, and then the iteration stops. [prog a s n] is
   a, a+s, ..., a+(n-1)s. *)
Theorem C13_times : forall n : Z, counts (int_times (bignum n)) (prog 0 1 (Z.to_nat n)).
Proof. exact times_ok. Qed.
Print Assumptions C13_times.
Definition small (n : Z) : Prop := - 2 ^ 62 <= n < 2 ^ 62.
Lemma small_i63 n : small n -> in_i63 n = true. Proof. apply in_i63_spec. Qed.
(* Full statement: for all integers. A big receiver panics (see below). *)
Theorem C13_upto_downto_partial : forall a b : Z, small a -> small b ->
  counts (int_upto (bignum a) (bignum b)) (prog a 1 (Z.to_nat (b - a + 1))) /\
  counts (int_downto (bignum a) (bignum b)) (prog a (-1) (Z.to_nat (a - b + 1))).
Proof.
  exact (fun a b Ha Hb => conj (upto_ok a b (small_i63 a Ha) (small_i63 b Hb))
                               (downto_ok a b (small_i63 a Ha) (small_i63 b Hb))).
Qed.
Print Assumptions C13_upto_downto_partial.
Lemma C13_l_step a l s : small a -> small l -> small s -> s <> 0 -> exists n,
  counts (int_step (bignum a) (bignum l) (Some (bignum s))) (prog a s n) /\
  forall i, 0 <= i -> (i < Z.of_nat n <-> if 0 <? s then a + i * s <= l else l <= a + i * s).
Proof.
  intros Ha Hl Hs H0. exists (step_count a l s).
  split; [apply step_ok; try apply small_i63; assumption|].
  intros i Hi. destruct (Z.ltb_spec 0 s) as [H|H].
  - apply step_count_pos; assumption.
  - apply step_count_neg; [|assumption]. apply Z.le_neq. split; assumption.
Qed.
(* the terms yielded are those not beyond the limit, in progression order *)
Theorem C13_step_partial : forall a l s : Z, small a -> small l -> small s -> s <> 0 -> exists n,
  counts (int_step (bignum a) (bignum l) (Some (bignum s))) (prog a s n) /\
  forall i, 0 <= i -> (i < Z.of_nat n <-> if 0 <? s then a + i * s <= l else l <= a + i * s).
Proof. exact C13_l_step. Qed.
Print Assumptions C13_step_partial.
Theorem C13_step_default_partial : forall a l : Z, small a -> small l ->
  counts (int_step (bignum a) (bignum l) None) (prog a 1 (Z.to_nat (l - a + 1))).
Proof. exact (fun a l Ha Hl => step_default_ok a l (small_i63 a Ha) (small_i63 l Hl)). Qed.
Print Assumptions C13_step_default_partial.
Theorem C13_big_receiver_refuted : exists a b : Z,
  int_upto (bignum a) (bignum b) = Panic /\ int_downto (bignum a) (bignum b) = Panic /\
  int_step (bignum a) (bignum b) None = Panic.
Proof. exists (2 ^ 62), 5. vm_compute. auto. Qed.
Print Assumptions C13_big_receiver_refuted.
Example C13_ex : prog 3 2 4 = [3; 5; 7; 9] /\ step_count 3 10 2 = 4%nat /\ step_count 3 (-3) (-3) = 3%nat /\
  small 3 /\ small (-3) /\ prog 0 1 (Z.to_nat 3) = [0; 1; 2] /\ prog 5 (-1) (Z.to_nat (5 - 3 + 1)) = [5; 4; 3].
Proof. vm_compute. intuition congruence. Qed.

(* ---- C45 ---- *)
(* Full statement: for n >= 0 and base >= 2, n.digits(base) is the list of the
   base-b digits of n, least significant first. Holds when no digit is zero;
   in general the list stops at the first zero digit. *)
Theorem C45_digits_partial : forall base l, 2 <= base < 2 ^ 62 -> l <> [] ->
  Forall (fun d => 0 < d < base) l -> of_digits base l < 2 ^ 62 ->
  int_digits (bignum (of_digits base l)) (Some (bignum base)) = Ok (map bignum l).
Proof. exact digits_ok. Qed.
Print Assumptions C45_digits_partial.
Theorem C45_digits_refuted : exists base l, 2 <= base /\ l <> [] /\ last l 0 <> 0 /\
  Forall (fun d => 0 <= d < base) l /\
  int_digits (bignum (of_digits base l)) (Some (bignum base)) <> Ok (map bignum l).
Proof.
  exists 10, [5; 0; 1]. split; [discriminate|]. split; [discriminate|]. split; [discriminate|].
  split; [|vm_compute; discriminate].
  repeat (apply Forall_cons; [split; [discriminate|reflexivity]|]). apply Forall_nil.
Qed.
Print Assumptions C45_digits_refuted.
Example C45_ex : of_digits 10 [3; 2; 1] = 123 /\
  int_digits (bignum 123) None = Ok [fixnum 3; fixnum 2; fixnum 1] /\
  int_digits (bignum 105) None = Ok [fixnum 5] /\
  Forall (fun d => 0 < d < 10) [3; 2; 1].
Proof. vm_compute. repeat split; try reflexivity. repeat constructor. Qed.

(* ---- C46 ---- *)
(* Full statement: a.div(b) is the floored quotient. It is computed through
   64-bit floats, so it is not; a concrete small-integer counterexample. *)
Theorem C46_integer_div_refuted : exists a b : Z, small a /\ small b /\ b <> 0 /\
  exists q, int_quotient (bignum a) (bignum b) = Ok (bignum q) /\
  invoke_div (bignum a) (bignum b) = Ok (bignum (q + 1)).
Proof.
  exists (2 ^ 53 + 1), 1. repeat split; try discriminate.
  exists (2 ^ 53). vm_compute. auto.
Qed.
Print Assumptions C46_integer_div_refuted.
Theorem C46_integer_div_zero : forall a : Z, int_quotient (bignum a) (bignum 0) = Err ZeroDiv.
Proof.
  intros a. unfold int_quotient. rewrite !to_real_bignum. reflexivity.
Qed.
Print Assumptions C46_integer_div_zero.
(* Missing: dividends from 2^53 on, divisors above 2^53. *)
Theorem C46_integer_div_partial : forall a b : Z, b <> 0 -> Z.abs a < 2 ^ 53 -> Z.abs b <= 2 ^ 53 -> exists q r,
  int_quotient (bignum a) (bignum b) = Ok (bignum q) /\ invoke_div (bignum a) (bignum b) = Ok (bignum q) /\ floored a b q r.
Proof.
  intros a b Hb Ba Bb. exists (a / b), (a mod b). split; [|split; [apply invoke_div_bignum; exact Hb|apply floored_div; exact Hb]].
  unfold int_quotient. rewrite !to_real_bignum. unfold real_quotient.
  assert (R : forall n, real_to_f64 (real_of n) = f64_of_Z n) by (intros n; unfold real_of; destruct (in_i63 n); reflexivity).
  assert (NZ : real_is_zero (real_of b) = false) by (unfold real_of; destruct (in_i63 b); cbn; apply Z.eqb_neq; exact Hb).
  rewrite NZ, !R, fdiv_floor by assumption. cbn -[bignum integer]. f_equal. apply into_val_real_integer.
Qed.
Print Assumptions C46_integer_div_partial.
Example C46_ex : int_quotient (bignum (-7)) (bignum 2) = Ok (fixnum (-4)) /\
  int_quotient (bignum (2 ^ 53 - 1)) (bignum (- 2 ^ 53)) = Ok (fixnum (-1)).
Proof. vm_compute. split; reflexivity. Qed.

(* ---- C47 ---- *)
(* Full statement: == between numbers is an equivalence. Integer/Float
   comparison rounds the integer to a float, so it is not transitive. *)
Theorem C47_numeric_equality_refuted : exists (a b : Z) (f : Z), a <> b /\
  eval_eq2 (float f) (bignum a) = true /\ eval_eq2 (bignum b) (float f) = true /\
  eval_eq2 (bignum b) (bignum a) = false.
Proof.
  exists (2 ^ 53 + 1), (2 ^ 53), 0x4340000000000000. repeat split; try discriminate; vm_compute; reflexivity.
Qed.
Print Assumptions C47_numeric_equality_refuted.
(* Missing: integers beyond 2^53. *)
Theorem C47_numeric_equality_partial : forall (a b : Z) (v : value), Z.abs a <= 2 ^ 53 -> Z.abs b <= 2 ^ 53 ->
  eval_eq2 v (bignum a) = true -> eval_eq2 (bignum b) v = true -> a = b.
Proof.
  intros a b v Ha Hb. pose proof (as_fixnum_bignum a) as Fa. pose proof (as_fixnum_bignum b) as Fb.
  pose proof (as_flonum_bignum b) as Lb.
  assert (Ia : in_i63 a = true) by (apply in_i63_spec; lia). assert (Ib : in_i63 b = true) by (apply in_i63_spec; lia).
  rewrite Ia in Fa. rewrite Ib in Fb. rewrite (bignum_fix a Ia) in *. rewrite (bignum_fix b Ib) in *.
  unfold eval_eq2. rewrite Fa, Fb, Lb. destruct v as [w|h]; [|discriminate].
  destruct (as_fixnum (Imm w)) as [i|] eqn:Fv.
  - intros H1 H2. apply Z.eqb_eq in H1, H2. congruence.
  - destruct (as_flonum (Imm w)) as [f|] eqn:Lv.
    + apply f64_of_Z_inj_eq; assumption.
    + intros H1 _. apply Z.eqb_eq in H1. rewrite H1 in Fa. congruence.
Qed.
Print Assumptions C47_numeric_equality_partial.
(* == gives the same both ways round. *)
Theorem C47_symmetric : forall v w : value, eval_eq2 v w = eval_eq2 w v.
Proof.
  intros [v|v] [w|w]; try reflexivity; cbn [eval_eq2].
  - pose proof (as_flonum_fixnum_disjoint v) as Dv. pose proof (as_flonum_fixnum_disjoint w) as Dw. cbn [as_flonum].
    destruct (as_fixnum (Imm v)), (as_fixnum (Imm w)); try rewrite Dv by discriminate; try rewrite Dw by discriminate;
      destruct (as_flonum_word v), (as_flonum_word w); auto using Z.eqb_sym, ProofsEqual.feq_sym.
  - destruct v, w; cbn; auto using Z.eqb_sym, ProofsEqual.feq_sym.
Qed.
Print Assumptions C47_symmetric.
Example C47_symmetric_ex : eval_eq2 (bignum (2 ^ 300)) (float (f64_of_Z (2 ^ 300))) = true /\
  eval_eq2 (float (f64_of_Z 3)) (bignum 3) = true.
Proof. vm_compute. split; reflexivity. Qed.
(* An integer from 2^62 on is an object and a float below 2^256 is not, so they
   are never equal, though greater ones can be. *)
Theorem C47_big_refuted : exists a : Z, feq (f64_of_Z a) (f64_of_Z a) = true /\
  sf_of_bits (f64_of_Z a) = S754_finite false (2 ^ 52) 28 /\ a = 2 ^ 52 * 2 ^ 28 /\
  eval_eq2 (bignum a) (float (f64_of_Z a)) = false /\
  eval_eq2 (bignum (a * 2 ^ 220)) (float (f64_of_Z (a * 2 ^ 220))) = true.
Proof. exists (2 ^ 80). repeat split; vm_compute; reflexivity. Qed.
Print Assumptions C47_big_refuted.
Example C47_ex : eval_eq2 (float 0x4008000000000000) (bignum 3) = true /\ eval_eq2 (bignum 3) (float 0x4008000000000000) = true.
Proof. vm_compute. auto. Qed.
