(* Frames: words and the layout of the stack. *)
From Verif Require Import Base ModelValue ModelArray ModelFrame SpecFrame.
Ltac Zify.zify_post_hook ::= Z.div_mod_to_equations.

(* ---- words ---- *)
Lemma lor1 a : Z.lor (2 * a) 1 = 2 * a + 1.
Proof.
  symmetry. rewrite Z.add_nocarry_lxor, Z.lxor_lor; try reflexivity; apply Z.bits_inj'; intros n Hn;
    rewrite Z.land_spec, Z.bits_0; destruct n as [|p|p]; try lia;
    try (rewrite (Z.testbit_even_0 a); reflexivity);
    replace (Z.testbit 1 (Z.pos p)) with false by (destruct p; reflexivity); apply andb_false_r.
Qed.
Lemma enc_eq p : enc p = 8 * p + 1.
Proof. unfold enc. replace (8 * p) with (2 * (4 * p)) by lia. rewrite lor1. lia. Qed.
Lemma land_even w : 0 <= w < 2 ^ 64 -> Z.land w (2 ^ 64 - 2) = 2 * (w / 2).
Proof.
  intros H. replace (2 * (w / 2)) with (Z.shiftl (Z.shiftr w 1) 1)
    by (rewrite Z.shiftl_mul_pow2, Z.shiftr_div_pow2 by lia; change (2 ^ 1) with 2; lia).
  apply Z.bits_inj'. intros n Hn. rewrite Z.land_spec, Z.shiftl_spec by lia.
  replace (2 ^ 64 - 2) with (Z.shiftl (Z.ones 63) 1) by reflexivity. rewrite Z.shiftl_spec by lia.
  destruct (Z.eq_dec n 0) as [->|N0].
  { rewrite (Z.testbit_neg_r _ (0 - 1)), (Z.testbit_neg_r (Z.shiftr w 1)) by lia. apply andb_false_r. }
  rewrite Z.shiftr_spec by lia. replace (n - 1 + 1) with n by lia.
  destruct (Z.lt_ge_cases (n - 1) 63) as [C|C].
  - rewrite Z.ones_spec_low by lia. apply andb_true_r.
  - rewrite Z.ones_spec_high by lia. rewrite andb_false_r. symmetry.
    destruct (Z.eq_dec w 0) as [->|W]; [apply Z.testbit_0_l|].
    apply Z.bits_above_log2; [lia|]. assert (Z.log2 w < 64) by (apply Z.log2_lt_pow2; lia). lia.
Qed.
Lemma dec_enc p : 0 < p < 2 ^ 60 -> dec (enc p) = Some p.
Proof.
  intros H. unfold dec. rewrite enc_eq, land_even by lia.
  replace (2 * ((8 * p + 1) / 2)) with (8 * p) by lia.
  destruct (Z.eqb_spec (8 * p) 0); [lia|]. f_equal. lia.
Qed.
Lemma dec_enc0 : dec (enc 0) = None.
Proof. reflexivity. Qed.

Lemma lor_disj a b n : 0 <= n -> 0 <= b < 2 ^ n -> Z.lor (Z.shiftl a n) b = a * 2 ^ n + b.
Proof.
  intros Hn Hb. rewrite <- Z.shiftl_mul_pow2 by lia. symmetry.
  assert (D : Z.land (Z.shiftl a n) b = 0).
  { apply Z.bits_inj'. intros k Hk. rewrite Z.land_spec, Z.bits_0.
    destruct (Z.lt_ge_cases k n) as [C|C].
    - rewrite Z.shiftl_spec_low by lia. reflexivity.
    - replace (Z.testbit b k) with false; [apply andb_false_r|]. symmetry.
      destruct (Z.eq_dec b 0) as [->|B0]; [apply Z.testbit_0_l|].
      apply Z.bits_above_log2; [lia|]. assert (Z.log2 b < n) by (apply Z.log2_lt_pow2; lia). lia. }
  rewrite Z.add_nocarry_lxor by exact D. rewrite Z.lxor_lor by exact D. reflexivity.
Qed.
Definition flag_low (ruby use : bool) : Z := 1 + (if ruby then 128 else 0) + (if use then 0 else 4).
Lemma ruby_flag_eq u n : ruby_flag u n = n * 2 ^ 32 + flag_low true u.
Proof.
  unfold ruby_flag, FLG_IS_RUBY, FLG_DISCARD, flag_low. rewrite <- !Z.lor_assoc.
  destruct u; rewrite lor_disj by (cbn; lia); cbn; lia.
Qed.
Lemma native_flag_eq n : native_flag n = n * 2 ^ 32 + flag_low false true.
Proof. unfold native_flag, flag_low. rewrite lor_disj by lia. cbn. lia. Qed.
Lemma flag_shift n r u : Z.shiftr (n * 2 ^ 32 + flag_low r u) 32 = n.
Proof. rewrite Z.shiftr_div_pow2 by lia. unfold flag_low. destruct r, u; lia. Qed.
Lemma flag_land n r u k : 0 <= k < 2 ^ 32 -> Z.land (n * 2 ^ 32 + flag_low r u) k = Z.land (flag_low r u) k.
Proof.
  intros H. rewrite <- (lor_disj n (flag_low r u) 32) by (unfold flag_low; destruct r, u; lia).
  rewrite Z.land_lor_distr_l. replace (Z.land (Z.shiftl n 32) k) with 0; [apply Z.lor_0_l|].
  symmetry. apply Z.bits_inj'. intros i Hi. rewrite Z.land_spec, Z.bits_0.
  destruct (Z.lt_ge_cases i 32) as [C|C].
  - rewrite Z.shiftl_spec_low by lia. reflexivity.
  - replace (Z.testbit k i) with false; [apply andb_false_r|]. symmetry.
    destruct (Z.eq_dec k 0) as [->|]; [apply Z.testbit_0_l|].
    apply Z.bits_above_log2; [lia|]. assert (Z.log2 k < 32) by (apply Z.log2_lt_pow2; lia). lia.
Qed.

Lemma fixword_eq n : 0 <= n < 2 ^ 62 -> fixword n = 2 * n + 1.
Proof.
  intros H. unfold fixword, u64. rewrite Z.shiftl_mul_pow2 by lia. change (2 ^ 1) with 2.
  rewrite Z.mod_small by lia. replace (n * 2) with (2 * n) by lia. apply lor1.
Qed.
Lemma as_fnum_odd n : - 2 ^ 62 <= n < 2 ^ 62 -> as_fnum ((2 * n + 1) mod 2 ^ 64) = n.
Proof.
  intros H. unfold as_fnum, i64. rewrite Z.mod_mod by lia. rewrite Z.shiftr_div_pow2 by lia.
  destruct (Z.ltb_spec ((2 * n + 1) mod 2 ^ 64) (2 ^ 63)); change (2 ^ 1) with 2; lia.
Qed.
Lemma fix_roundtrip n : 0 <= n < 2 ^ 62 -> as_fnum (fixword n) = n.
Proof. intros H. rewrite fixword_eq by lia. rewrite <- (as_fnum_odd n) at 2 by lia. rewrite Z.mod_small by lia. reflexivity. Qed.
Lemma iseq_word_eq i : 0 < i < 2 ^ 60 -> iseq_word i = fixword i.
Proof.
  intros H. unfold iseq_word, fixword, i64. rewrite Z.mod_small by lia.
  destruct (Z.ltb_spec (8 * i) (2 ^ 63)); [|lia]. rewrite (Z.shiftr_div_pow2 _ 3) by lia.
  replace (8 * i / 2 ^ 3) with i by (change (2 ^ 3) with 8; lia). reflexivity.
Qed.

(* ---- block references ---- *)
Lemma fixword_mod x : fixword x = (2 * x + 1) mod 2 ^ 64.
Proof.
  unfold fixword, u64. rewrite Z.shiftl_mul_pow2 by lia. change (2 ^ 1) with 2.
  replace (x * 2 mod 2 ^ 64) with (2 * (x mod 2 ^ 63)) by lia. rewrite lor1. lia.
Qed.
Lemma odd_is_fnum w : w mod 2 = 1 -> is_fnum w = true.
Proof. intros H. unfold is_fnum. change 1 with (Z.ones 1) at 1. rewrite Z.land_ones by lia. apply Z.eqb_eq. exact H. Qed.
Lemma even_is_fnum w : w mod 2 = 0 -> is_fnum w = false.
Proof. intros H. unfold is_fnum. change 1 with (Z.ones 1) at 1. rewrite Z.land_ones by lia. change (2 ^ 1) with 2. apply Z.eqb_neq. lia. Qed.
Lemma fixword_is_fnum x : is_fnum (fixword x) = true.
Proof. apply odd_is_fnum. rewrite fixword_mod. lia. Qed.
(* the number read back: 63 bits, sign-extended *)
Lemma as_fnum_fixword x :
  as_fnum (fixword x) = (let y := x mod 2 ^ 63 in if y <? 2 ^ 62 then y else y - 2 ^ 63).
Proof.
  rewrite fixword_mod. unfold as_fnum, i64. rewrite Z.mod_mod, Z.shiftr_div_pow2 by lia. change (2 ^ 1) with 2. cbv zeta.
  destruct (Z.ltb_spec ((2 * x + 1) mod 2 ^ 64) (2 ^ 63)); destruct (Z.ltb_spec (x mod 2 ^ 63) (2 ^ 62)); lia.
Qed.
Lemma word_blk_block m f : 0 < m < 2 ^ 32 -> 0 <= f < 2 ^ 32 ->
  word_blk (blk_word (Some (KBlock m f))) = Ok (Some (KBlock m f)) <-> m < 2 ^ 30 \/ 3 * 2 ^ 30 <= m.
Proof.
  intros Hm Hf. unfold word_blk, blk_word. rewrite fixword_is_fnum, as_fnum_fixword. cbv zeta.
  unfold i64, u64. rewrite Z.shiftl_mul_pow2 by lia. rewrite (Z.mod_small (m * 2 ^ 32)) by lia.
  rewrite !(Z.mod_small (m * 2 ^ 32 + f) (2 ^ 64)) by lia. rewrite !Z.shiftr_div_pow2 by lia. unfold u32, fnid_from.
  assert (Q : (m * 2 ^ 32 + f) / 2 ^ 32 = m) by lia.
  destruct (Z.ltb_spec (m * 2 ^ 32 + f) (2 ^ 63)).
  - rewrite (Z.mod_small _ (2 ^ 63)) by lia. destruct (Z.ltb_spec (m * 2 ^ 32 + f) (2 ^ 62)).
    + destruct (Z.eqb_spec (m * 2 ^ 32 + f) 0); [lia|]. rewrite !(Z.mod_small (m * 2 ^ 32 + f) (2 ^ 64)) by lia. rewrite Q, (Z.mod_small m) by lia.
      destruct (Z.eqb_spec m 0); [lia|]. cbn [rbind]. replace ((m * 2 ^ 32 + f) mod 2 ^ 32) with f by lia. split; [lia|reflexivity].
    + split; [|lia]. destruct (Z.eqb_spec (m * 2 ^ 32 + f - 2 ^ 63) 0); [discriminate|].
      replace ((m * 2 ^ 32 + f - 2 ^ 63) mod 2 ^ 64 / 2 ^ 32 mod 2 ^ 32) with (m + 2 ^ 31) by lia.
      destruct (Z.eqb_spec (m + 2 ^ 31) 0); cbn [rbind]; [discriminate|]. intros H1. assert (m + 2 ^ 31 = m) by congruence. lia.
  - replace ((m * 2 ^ 32 + f - 2 ^ 64) mod 2 ^ 63) with (m * 2 ^ 32 + f - 2 ^ 63) by lia.
    destruct (Z.ltb_spec (m * 2 ^ 32 + f - 2 ^ 63) (2 ^ 62)).
    + split; [|lia]. destruct (Z.eqb_spec (m * 2 ^ 32 + f - 2 ^ 63) 0); [discriminate|].
      replace ((m * 2 ^ 32 + f - 2 ^ 63) mod 2 ^ 64 / 2 ^ 32 mod 2 ^ 32) with (m - 2 ^ 31) by lia.
      destruct (Z.eqb_spec (m - 2 ^ 31) 0); cbn [rbind]; [discriminate|]. intros H1. assert (m - 2 ^ 31 = m) by congruence. lia.
    + destruct (Z.eqb_spec (m * 2 ^ 32 + f - 2 ^ 63 - 2 ^ 63) 0); [lia|].
      replace ((m * 2 ^ 32 + f - 2 ^ 63 - 2 ^ 63) mod 2 ^ 64) with (m * 2 ^ 32 + f) by lia. rewrite Q, (Z.mod_small m) by lia.
      destruct (Z.eqb_spec m 0); [lia|]. cbn [rbind]. replace ((m * 2 ^ 32 + f) mod 2 ^ 32) with f by lia. split; [lia|reflexivity].
Qed.
Lemma word_blk_sym id : 0 < id < 2 ^ 32 -> word_blk (blk_word (Some (KSym id))) = Ok (Some (KSym id)).
Proof.
  intros H. unfold word_blk, blk_word, TAG_SYMBOL. rewrite lor_disj by lia. rewrite even_is_fnum by lia.
  unfold is_packed_symbol, as_packed_symbol, TAG_SYMBOL. change 255 with (Z.ones 8). rewrite Z.land_ones by lia.
  change (2 ^ 8) with 256. destruct (Z.eqb_spec ((id * 2 ^ 32 + 12) mod 256) 12); [|lia].
  rewrite Z.shiftr_div_pow2 by lia. unfold u32. do 3 f_equal. lia.
Qed.
Lemma word_blk_proc a : 0 < a < 2 ^ 61 -> word_blk (blk_word (Some (KProc a))) = Ok (Some (KProc a)).
Proof.
  intros H. unfold word_blk, blk_word. rewrite even_is_fnum by lia.
  unfold is_packed_symbol, TAG_SYMBOL. change 255 with (Z.ones 8). rewrite Z.land_ones by lia. change (2 ^ 8) with 256.
  destruct (Z.eqb_spec (8 * a mod 256) 12); [lia|]. do 3 f_equal. lia.
Qed.
