(* Properties C01-C04: boxing of values. *)
From Verif Require Import Base ModelValue ProofsValue.

(* C01. [int_of v] is the integer read back from v by unpack; the value made
   from n reads back as n, is immediate exactly on -2^62..2^62-1, and two
   integers have the same representation only if they are equal. *)
Theorem C01_integer_roundtrip : forall n : Z,
  int_of (bignum n) = Some n /\
  ((exists w, bignum n = Imm w) <-> - 2 ^ 62 <= n < 2 ^ 62) /\
  (forall m, bignum n = bignum m <-> n = m).
Proof. exact (fun n => conj (int_of_bignum n) (conj (bignum_immediate n) (bignum_inj n))). Qed.
Print Assumptions C01_integer_roundtrip.

(* The i64 constructor agrees with the arbitrary-size one. *)
Theorem C01_machine_integer : forall n : Z, - 2 ^ 63 <= n < 2 ^ 63 -> integer n = bignum n.
Proof. exact integer_bignum. Qed.
Print Assumptions C01_machine_integer.
Example C01_ex : int_of (bignum (- 2 ^ 62)) = Some (- 2 ^ 62) /\
  bignum (2 ^ 62) = Heap (HBig (2 ^ 62)) /\ bignum (-1) = Imm (2 ^ 64 - 1) /\
  - 2 ^ 63 <= 2 ^ 62 < 2 ^ 63.
Proof. vm_compute. intuition congruence. Qed.

(* C02. Full statement: every pattern 0 <= b < 2^64 reads back as itself.
   It fails for -0.0 (which becomes +0.0) and for the single pattern
   0x3000000000000000 (2^-255), which is read back as 0.0. All others hold. *)
Theorem C02_float_roundtrip_partial : forall b : Z,
  0 <= b < 2 ^ 64 -> b <> 2 ^ 63 -> b <> 0x3000000000000000 ->
  as_float (float b) = Some b /\ unpack (float b) = Some (RFloat b).
Proof. exact (fun b H H1 H2 => conj (as_float_float b H H1 H2) (unpack_float b H H1 H2)). Qed.
Print Assumptions C02_float_roundtrip_partial.
Theorem C02_float_roundtrip_refuted : exists b b' : Z,
  0 <= b < 2 ^ 64 /\ b <> 0 /\ as_float (float b) = Some 0 /\
  0 <= b' < 2 ^ 64 /\ b' <> b /\ b' <> 0 /\ as_float (float b') = Some 0.
Proof. exists (2 ^ 63), 0x3000000000000000. vm_compute. intuition congruence. Qed.
Print Assumptions C02_float_roundtrip_refuted.
(* 1.5 (immediate), 1e300-ish (heap), NaN (heap) *)
Example C02_ex : as_float (float 0x3FF8000000000000) = Some 0x3FF8000000000000 /\
  float 0x7E37E43C8800759C = Heap (HFloat 0x7E37E43C8800759C) /\
  as_float (float 0x7FF8000000000001) = Some 0x7FF8000000000001.
Proof. vm_compute. auto. Qed.

(* C03. Distinct kinds/contents get distinct words; every immediate is
   recognised as one and an 8-aligned address never is. *)
Theorem C03_immediates_disjoint : forall r1 r2 : rv, rv_ok r1 -> rv_ok r2 ->
  pack r1 = pack r2 -> r1 = r2.
Proof. exact pack_inj. Qed.
Print Assumptions C03_immediates_disjoint.
Theorem C03_unpack_pack : forall r, rv_ok r -> unpack (pack r) = Some r.
Proof. exact unpack_pack. Qed.
Print Assumptions C03_unpack_pack.
Theorem C03_immediate_not_reference : forall r w, rv_ok r -> pack r = Imm w ->
  is_packed_word w = true /\ w mod 8 <> 0.
Proof.
  exact (fun r w H E => conj (pack_word_packed r w H E) (packed_not_aligned w (pack_word_packed r w H E))).
Qed.
Print Assumptions C03_immediate_not_reference.
Theorem C03_address_not_immediate : forall w, w mod 8 = 0 -> is_packed_word w = false.
Proof. exact aligned_not_packed. Qed.
Print Assumptions C03_address_not_immediate.
Example C03_ex : rv_ok (RInteger (-5)) /\ rv_ok (RSymbol 0) /\ rv_ok (RFloat 0) /\
  pack (RSymbol 0) = Imm 0x0c /\ pack RNil = Imm 0x24.
Proof. vm_compute. intuition congruence. Qed.

(* C04 *)
Theorem C04_truthiness : forall r, rv_ok r ->
  to_bool (pack r) = match r with RNil | RFalse | RUninit => false | _ => true end.
Proof. exact to_bool_pack'. Qed.
Print Assumptions C04_truthiness.
Theorem C04_words : forall w, 0 <= w < 2 ^ 64 ->
  (to_bool_word w = false <-> w = 0x04 \/ w = 0x14 \/ w = 0x24 \/ w = 0x34).
Proof. exact to_bool_word_spec. Qed.
Print Assumptions C04_words.
Theorem C04_references_truthy : forall w, 0 < w < 2 ^ 64 -> w mod 8 = 0 -> to_bool_word w = true.
Proof. exact to_bool_aligned. Qed.
Print Assumptions C04_references_truthy.
Example C04_ex : to_bool (pack (RInteger 0)) = true /\ to_bool (pack (RFloat 0)) = true /\
  to_bool (pack RNil) = false /\ to_bool_word 0x7f0000000040 = true.
Proof. vm_compute. auto. Qed.
