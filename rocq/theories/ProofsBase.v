(* Lemmas on machine words. *)
From Verif Require Import Base.
Ltac Zify.zify_post_hook ::= Z.div_mod_to_equations.

Lemma testbit_small b k n : 0 <= b < 2 ^ k -> 0 <= k <= n -> Z.testbit b n = false.
Proof.
  intros Hb Hn. apply Z.testbit_false; [lia|].
  rewrite Z.div_small; [reflexivity|].
  split; [lia|]. eapply Z.lt_le_trans; [apply Hb|]. apply Z.pow_le_mono_r; lia.
Qed.

Lemma land_mul_small a b k : 0 <= k -> 0 <= b < 2 ^ k -> Z.land (a * 2 ^ k) b = 0.
Proof.
  intros Hk Hb. apply Z.bits_inj'. intros n Hn.
  rewrite Z.land_spec, Z.bits_0.
  destruct (Z.ltb_spec n k).
  - rewrite Z.mul_pow2_bits_low by lia. reflexivity.
  - rewrite (testbit_small b k n) by lia. apply andb_false_r.
Qed.

Lemma lor_mul_add a b k : 0 <= k -> 0 <= b < 2 ^ k -> Z.lor (a * 2 ^ k) b = a * 2 ^ k + b.
Proof.
  intros Hk Hb. pose proof (land_mul_small a b k Hk Hb) as H0.
  rewrite Z.add_nocarry_lxor by exact H0.
  symmetry. apply Z.lxor_lor. exact H0.
Qed.

Lemma land_ones_mod a k : 0 <= k -> Z.land a (2 ^ k - 1) = a mod 2 ^ k.
Proof. intros. rewrite <- Z.land_ones by lia. rewrite Z.ones_equiv. f_equal. Qed.

(* Clearing the low k bits of a word with the complement mask. *)
Lemma land_not64_low u k : 0 <= k < 64 -> 0 <= u < 2 ^ 64 ->
  Z.land u (not64 (2 ^ k - 1)) = u - u mod 2 ^ k.
Proof.
  intros Hk Hu.
  assert (E : u - u mod 2 ^ k = (u / 2 ^ k) * 2 ^ k).
  { pose proof (Z.div_mod u (2 ^ k) ltac:(apply Z.pow_nonzero; lia)). lia. }
  rewrite E. clear E.
  apply Z.bits_inj'. intros n Hn. rewrite Z.land_spec.
  assert (Hm : not64 (2 ^ k - 1) = (2 ^ (64 - k) - 1) * 2 ^ k).
  { unfold not64. rewrite Z.mul_sub_distr_r, <- Z.pow_add_r by lia.
    replace (64 - k + k) with 64 by lia. lia. }
  rewrite Hm. clear Hm.
  destruct (Z.ltb_spec n k).
  - rewrite !Z.mul_pow2_bits_low by lia. apply andb_false_r.
  - rewrite !Z.mul_pow2_bits by lia.
    rewrite Z.div_pow2_bits by lia. replace (n - k + k) with n by lia.
    destruct (Z.ltb_spec n 64).
    + replace (2 ^ (64 - k) - 1) with (Z.ones (64 - k)) by (rewrite Z.ones_equiv; lia).
      rewrite Z.ones_spec_low by lia. apply andb_true_r.
    + rewrite (testbit_small u 64 n) by lia. reflexivity.
Qed.

Lemma u64_range z : 0 <= u64 z < 2 ^ 64.
Proof. unfold u64. apply Z.mod_pos_bound. lia. Qed.
Lemma u64_id z : 0 <= z < 2 ^ 64 -> u64 z = z.
Proof. intros. unfold u64. apply Z.mod_small. lia. Qed.
Lemma i64_range z : - 2 ^ 63 <= i64 z < 2 ^ 63.
Proof. unfold i64. pose proof (Z.mod_pos_bound z (2 ^ 64) ltac:(lia)).
  destruct (Z.ltb_spec (z mod 2 ^ 64) (2 ^ 63)); lia. Qed.
Lemma i64_id z : - 2 ^ 63 <= z < 2 ^ 63 -> i64 z = z.
Proof. intros. unfold i64.
  destruct (Z.ltb_spec (z mod 2 ^ 64) (2 ^ 63)); lia. Qed.
Lemma i64_congr z : exists k, i64 z = z + k * 2 ^ 64.
Proof. unfold i64.
  destruct (Z.ltb_spec (z mod 2 ^ 64) (2 ^ 63)).
  - exists (- (z / 2 ^ 64)). lia.
  - exists (- (z / 2 ^ 64) - 1). lia. Qed.
Lemma i64_u64 z : i64 (u64 z) = i64 z.
Proof. unfold i64, u64. rewrite Z.mod_mod by lia. reflexivity. Qed.
Lemma u64_i64 z : u64 (i64 z) = u64 z.
Proof. destruct (i64_congr z) as [k ->]. unfold u64.
  rewrite Z_mod_plus_full. reflexivity. Qed.

Lemma land_1 w : Z.land w 1 = w mod 2.
Proof. change 1 with (2 ^ 1 - 1). rewrite land_ones_mod by lia. reflexivity. Qed.
Lemma land_3 w : Z.land w 3 = w mod 4.
Proof. change 3 with (2 ^ 2 - 1). rewrite land_ones_mod by lia. reflexivity. Qed.
Lemma land_7 w : Z.land w 7 = w mod 8.
Proof. change 7 with (2 ^ 3 - 1). rewrite land_ones_mod by lia. reflexivity. Qed.
Lemma land_ff w : Z.land w 255 = w mod 256.
Proof. change 255 with (2 ^ 8 - 1). rewrite land_ones_mod by lia. reflexivity. Qed.
Lemma lor_even_1 a : Z.lor (2 * a) 1 = 2 * a + 1.
Proof. rewrite (Z.mul_comm 2 a). change 2 with (2 ^ 1). rewrite lor_mul_add by lia. reflexivity. Qed.
