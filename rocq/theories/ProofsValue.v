(* Proofs about the value representation. *)
From Verif Require Import Base ProofsBase ModelValue.
Ltac Zify.zify_post_hook ::= Z.div_mod_to_equations.

(* ---- integers ---- *)
Lemma is_i63_spec n : - 2 ^ 63 <= n < 2 ^ 63 -> is_i63 n = in_i63 n.
Proof.
  intros Hn. unfold is_i63, in_i63.
  rewrite land_1, !Z.shiftr_div_pow2 by lia.
  assert (Hx : forall a b, Z.lxor a b mod 2 = (a + b) mod 2).
  { intros a b. rewrite !Zmod_odd.
    assert (Z.odd (Z.lxor a b) = Z.odd (a + b)) as ->; [|reflexivity].
    rewrite Z.odd_add. rewrite <- !Z.bit0_odd, Z.lxor_spec. reflexivity. }
  rewrite Hx. clear Hx. unfold u64. lia.
Qed.

Lemma fixnum_word n : - 2 ^ 62 <= n < 2 ^ 62 -> fixnum n = Imm (u64 (2 * n) + 1).
Proof.
  intros Hn. unfold fixnum. rewrite Z.shiftl_mul_pow2 by lia.
  replace (n * 2 ^ 1) with (2 * n) by lia. f_equal.
  unfold u64.
  assert (exists h, (2 * n) mod 2 ^ 64 = 2 * h) as [h ->].
  { exists (n mod 2 ^ 63). lia. }
  apply lor_even_1.
Qed.

Lemma as_fixnum_fixnum n : - 2 ^ 62 <= n < 2 ^ 62 -> as_fixnum (fixnum n) = Some n.
Proof.
  intros Hn. rewrite fixnum_word by lia. cbn [as_fixnum].
  unfold is_fnum, as_fnum. rewrite land_1.
  assert (E : (u64 (2 * n) + 1) mod 2 = 1) by (unfold u64; lia).
  rewrite E. cbn [Z.eqb Pos.eqb]. f_equal.
  rewrite Z.shiftr_div_pow2 by lia.
  unfold i64, u64. clear E.
  destruct (Z.ltb_spec (((2 * n) mod 2 ^ 64 + 1) mod 2 ^ 64) (2 ^ 63)); lia.
Qed.

Lemma unpack_fixnum n : - 2 ^ 62 <= n < 2 ^ 62 -> unpack (fixnum n) = Some (RInteger n).
Proof.
  intros Hn. pose proof (as_fixnum_fixnum n Hn) as H.
  rewrite fixnum_word in * by lia. cbn [unpack]. rewrite H. reflexivity.
Qed.

(* The number a value denotes, read back through unpack (value.rs:158, 1255). *)
Definition int_of (v : value) : option Z :=
  match unpack v with
  | Some (RInteger i) => Some i
  | Some (RObject (HBig n)) => Some n
  | _ => None
  end.

Lemma integer_cases n : - 2 ^ 63 <= n < 2 ^ 63 ->
  (- 2 ^ 62 <= n < 2 ^ 62 /\ integer n = fixnum n) \/
  (~ (- 2 ^ 62 <= n < 2 ^ 62) /\ integer n = Heap (HBig n)).
Proof.
  intros Hn. unfold integer. rewrite is_i63_spec by lia.
  destruct (in_i63 n) eqn:E; unfold in_i63 in E; [left|right]; split; try reflexivity; lia.
Qed.

Lemma bignum_cases n :
  (- 2 ^ 62 <= n < 2 ^ 62 /\ bignum n = fixnum n) \/
  (~ (- 2 ^ 62 <= n < 2 ^ 62) /\ bignum n = Heap (HBig n)).
Proof.
  unfold bignum. destruct (in_i64 n) eqn:E; unfold in_i64 in E.
  - apply integer_cases; lia.
  - right. split; [lia|reflexivity].
Qed.

Lemma integer_bignum n : - 2 ^ 63 <= n < 2 ^ 63 -> integer n = bignum n.
Proof. intros. unfold bignum. replace (in_i64 n) with true by (unfold in_i64; lia). reflexivity. Qed.

Lemma int_of_bignum n : int_of (bignum n) = Some n.
Proof.
  unfold int_of. destruct (bignum_cases n) as [[H ->]|[H ->]].
  - rewrite unpack_fixnum by lia. reflexivity.
  - reflexivity.
Qed.

Lemma bignum_inj a b : bignum a = bignum b <-> a = b.
Proof.
  split; [|congruence]. intros H.
  assert (Some a = Some b) by (rewrite <- (int_of_bignum a), <- (int_of_bignum b), H; reflexivity).
  congruence.
Qed.

Lemma bignum_immediate n : (exists w, bignum n = Imm w) <-> - 2 ^ 62 <= n < 2 ^ 62.
Proof.
  destruct (bignum_cases n) as [[H ->]|[H ->]]; split; intros X; try lia.
  - unfold fixnum. eauto.
  - destruct X. discriminate.
Qed.

Lemma as_fixnum_bignum n : as_fixnum (bignum n) =
  if in_i63 n then Some n else None.
Proof.
  unfold in_i63. destruct (bignum_cases n) as [[H ->]|[H ->]].
  - rewrite as_fixnum_fixnum by lia.
    replace ((- 2 ^ 62 <=? n) && (n <? 2 ^ 62)) with true by lia. reflexivity.
  - replace ((- 2 ^ 62 <=? n) && (n <? 2 ^ 62)) with false by lia. reflexivity.
Qed.

Lemma as_bignum_bignum n : as_bignum (bignum n) =
  if in_i63 n then None else Some n.
Proof.
  unfold in_i63. destruct (bignum_cases n) as [[H ->]|[H ->]].
  - replace ((- 2 ^ 62 <=? n) && (n <? 2 ^ 62)) with true by lia. reflexivity.
  - replace ((- 2 ^ 62 <=? n) && (n <? 2 ^ 62)) with false by lia. reflexivity.
Qed.

Lemma as_float_bignum n : as_float (bignum n) = None.
Proof.
  destruct (bignum_cases n) as [[H ->]|[H ->]]; [|reflexivity].
  rewrite fixnum_word by lia. unfold as_float. cbn [as_flonum].
  unfold as_flonum_word. rewrite land_3.
  replace ((u64 (2 * n) + 1) mod 4 =? 2) with false by (unfold u64; lia). reflexivity.
Qed.

(* ---- floats ---- *)
(* Splitting a pattern into sign, three exponent bits and the rest. *)
Definition fsign (b : Z) := b / 2 ^ 63.
Definition fexp3 (b : Z) := (b / 2 ^ 60) mod 8.
Definition flow (b : Z) := b mod 2 ^ 60.

Lemma fsplit b : 0 <= b < 2 ^ 64 -> b = fsign b * 2 ^ 63 + fexp3 b * 2 ^ 60 + flow b.
Proof. intros. unfold fsign, fexp3, flow. lia. Qed.

Lemma mask_clear s e m : 0 <= s <= 1 -> 0 <= e < 8 -> 0 <= m < 2 ^ 60 ->
  Z.lor (Z.land (s * 2 ^ 63 + e * 2 ^ 60 + m) FLOAT_MASK1) FLOAT_MASK2
  = s * 2 ^ 63 + 2 ^ 62 + (e mod 2) * 2 ^ 60 + m.
Proof.
  intros Hs He Hm.
  assert (Hmask : FLOAT_MASK1 = 9 * 2 ^ 60 + (2 ^ 60 - 1)) by reflexivity.
  assert (Hmask2 : FLOAT_MASK2 = 4 * 2 ^ 60) by reflexivity.
  rewrite Hmask, Hmask2.
  replace (s * 2 ^ 63 + e * 2 ^ 60 + m) with ((8 * s + e) * 2 ^ 60 + m) by lia.
  replace (s * 2 ^ 63 + 2 ^ 62 + e mod 2 * 2 ^ 60 + m) with ((8 * s + 4 + e mod 2) * 2 ^ 60 + m) by lia.
  assert (Hh : Z.lor (Z.land (8 * s + e) 9) 4 = 8 * s + 4 + e mod 2).
  { assert (s = 0 \/ s = 1) as [->| ->] by lia;
    assert (e = 0 \/ e = 1 \/ e = 2 \/ e = 3 \/ e = 4 \/ e = 5 \/ e = 6 \/ e = 7) as
      [->|[->|[->|[->|[->|[->|[->| ->]]]]]]] by lia; reflexivity. }
  rewrite <- Hh. rewrite <- (lor_mul_add (8 * s + e) m 60), <- (lor_mul_add 9 (2 ^ 60 - 1) 60),
    <- (lor_mul_add (Z.lor (Z.land (8 * s + e) 9) 4) m 60) by lia.
  rewrite <- !Z.shiftl_mul_pow2 by lia.
  apply Z.bits_inj'. intros n Hn.
  rewrite ?Z.lor_spec, ?Z.land_spec, ?Z.lor_spec.
  destruct (Z.ltb_spec n 60).
  - rewrite !Z.shiftl_spec_low by lia.
    replace (2 ^ 60 - 1) with (Z.ones 60) by reflexivity.
    rewrite Z.ones_spec_low by lia. cbn. rewrite andb_true_r, orb_false_r. reflexivity.
  - rewrite !Z.shiftl_spec by lia.
    rewrite (testbit_small m 60 n) by lia.
    rewrite (testbit_small (2 ^ 60 - 1) 60 n) by lia.
    rewrite !orb_false_r, Z.lor_spec, Z.land_spec. reflexivity.
Qed.

Lemma rotl3_split x : 0 <= x < 2 ^ 64 ->
  rotl64 x 3 = (x mod 2 ^ 61) * 8 + x / 2 ^ 61.
Proof.
  intros Hx. unfold rotl64. rewrite Z.shiftl_mul_pow2, Z.shiftr_div_pow2 by lia.
  replace (64 - 3) with 61 by lia. unfold u64.
  replace ((x * 2 ^ 3) mod 2 ^ 64) with ((x mod 2 ^ 61) * 2 ^ 3) by lia.
  rewrite lor_mul_add by lia. lia.
Qed.

Lemma rotr3_split x : 0 <= x < 2 ^ 64 ->
  rotr64 x 3 = (x mod 8) * 2 ^ 61 + x / 8.
Proof.
  intros Hx. unfold rotr64. rewrite Z.shiftl_mul_pow2, Z.shiftr_div_pow2 by lia.
  replace (64 - 3) with 61 by lia. unfold u64.
  replace ((x * 2 ^ 61) mod 2 ^ 64) with ((x mod 8) * 2 ^ 61) by lia.
  rewrite Z.lor_comm, lor_mul_add by lia. lia.
Qed.

Lemma float_word s e m : 0 <= s <= 1 -> e = 3 \/ e = 4 -> 0 <= m < 2 ^ 60 ->
  rotl64 (Z.lor (Z.land (s * 2 ^ 63 + e * 2 ^ 60 + m) FLOAT_MASK1) FLOAT_MASK2) 3
  = (e mod 2) * 2 ^ 63 + m * 8 + s * 4 + 2.
Proof.
  intros Hs He Hm. rewrite mask_clear by lia.
  rewrite rotl3_split by lia.
  destruct He as [-> | ->].
  - change (3 mod 2) with 1. lia.
  - change (4 mod 2) with 0. lia.
Qed.

Lemma unpack_float_word s e0 m : 0 <= s <= 1 -> 0 <= e0 <= 1 -> 0 <= m < 2 ^ 60 ->
  e0 * 2 ^ 63 + m * 8 + s * 4 + 2 <> ZERO ->
  as_flonum_word (e0 * 2 ^ 63 + m * 8 + s * 4 + 2)
  = Some (s * 2 ^ 63 + (4 - e0) * 2 ^ 60 + m).
Proof.
  intros Hs He Hm HZ. unfold as_flonum_word. rewrite land_3.
  replace ((e0 * 2 ^ 63 + m * 8 + s * 4 + 2) mod 4 =? 2) with true by lia.
  destruct (Z.eqb_spec (e0 * 2 ^ 63 + m * 8 + s * 4 + 2) ZERO) as [E|_]; [contradiction|].
  f_equal. rewrite land_1, Z.shiftr_div_pow2 by lia.
  change (not64 3) with (not64 (2 ^ 2 - 1)). rewrite land_not64_low by lia.
  set (u := e0 * 2 ^ 63 + m * 8 + s * 4 + 2).
  assert (Hb : 2 - (u / 2 ^ 63) mod 2 = 2 - e0) by (unfold u; lia).
  rewrite Hb.
  assert (Hl : u - u mod 2 ^ 2 = (e0 * 2 ^ 61 + m * 2 + s) * 2 ^ 2) by (unfold u; lia).
  rewrite Hl, lor_mul_add by lia.
  rewrite rotr3_split by lia. lia.
Qed.

Lemma f64_is_zero_spec b : 0 <= b < 2 ^ 64 -> f64_is_zero b = ((b =? 0) || (b =? 2 ^ 63)).
Proof. intros. unfold f64_is_zero. rewrite land_ones_mod by lia. lia. Qed.

(* The pattern whose packed form collides with the word used for zero. *)
Definition collide_bits : Z := 0x3000000000000000.

Definition float_of (v : value) : option Z :=
  match unpack v with Some (RFloat b) => Some b | _ => None end.

Lemma float_word_not_fix w : w mod 4 = 2 -> as_fixnum (Imm w) = None.
Proof. intros H. cbn [as_fixnum]. unfold is_fnum. rewrite land_1.
  replace (w mod 2 =? 1) with false by lia. reflexivity. Qed.

Lemma unpack_float b : 0 <= b < 2 ^ 64 -> b <> 2 ^ 63 -> b <> collide_bits ->
  unpack (float b) = Some (RFloat b).
Proof.
  intros Hb Hnz Hc. unfold float. rewrite f64_is_zero_spec by lia.
  destruct (Z.eqb_spec b 0) as [->|H0].
  { reflexivity. }
  destruct (Z.eqb_spec b (2 ^ 63)) as [?|_]; [contradiction|]. cbn [orb].
  rewrite land_7, Z.shiftr_div_pow2 by lia. fold (fexp3 b).
  assert (Hs : 0 <= fsign b <= 1) by (unfold fsign; lia).
  assert (He : 0 <= fexp3 b < 8) by (unfold fexp3; lia).
  assert (Hm : 0 <= flow b < 2 ^ 60) by (unfold flow; lia).
  pose proof (fsplit b Hb) as Hsp.
  destruct (Z.eqb_spec (Z.land (fexp3 b + 1) 6) 4) as [H4|H4]; [|reflexivity].
  assert (He34 : fexp3 b = 3 \/ fexp3 b = 4).
  { assert (fexp3 b = 0 \/ fexp3 b = 1 \/ fexp3 b = 2 \/ fexp3 b = 3 \/ fexp3 b = 4 \/
            fexp3 b = 5 \/ fexp3 b = 6 \/ fexp3 b = 7) as
      [E|[E|[E|[E|[E|[E|[E|E]]]]]]] by lia; rewrite E in H4; cbn in H4; try discriminate; lia. }
  rewrite Hsp at 1. rewrite float_word by lia.
  cbn [unpack]. rewrite float_word_not_fix by lia.
  rewrite unpack_float_word; try lia.
  - do 2 f_equal. rewrite Hsp at 4. lia.
  - unfold ZERO. change (Z.lor (Z.shiftl 8 60) 2) with (2 ^ 63 + 2).
    intros E. apply Hc. unfold collide_bits. rewrite Hsp.
    assert (fexp3 b mod 2 = 1 /\ flow b = 0 /\ fsign b = 0) as (E1 & E2 & E3) by lia.
    rewrite E2, E3. assert (fexp3 b = 3) as -> by lia. reflexivity.
Qed.

Lemma unpack_float_negzero : unpack (float (2 ^ 63)) = Some (RFloat 0).
Proof. vm_compute. reflexivity. Qed.
Lemma unpack_float_collide : unpack (float collide_bits) = Some (RFloat 0).
Proof. vm_compute. reflexivity. Qed.

(* ---- symbols and constants ---- *)
Lemma symbol_word id : 0 <= id -> symbol id = Imm (id * 2 ^ 32 + 12).
Proof. intros. unfold symbol, TAG_SYMBOL. rewrite Z.shiftl_mul_pow2 by lia.
  rewrite lor_mul_add by lia. reflexivity. Qed.

Lemma unpack_symbol id : 0 <= id < 2 ^ 32 -> unpack (symbol id) = Some (RSymbol id).
Proof.
  intros H. rewrite symbol_word by lia. cbn [unpack as_fixnum].
  unfold is_fnum. rewrite land_1.
  replace ((id * 2 ^ 32 + 12) mod 2 =? 1) with false by lia.
  unfold as_flonum_word. rewrite land_3.
  replace ((id * 2 ^ 32 + 12) mod 4 =? 2) with false by lia.
  unfold is_packed_symbol, as_packed_symbol, TAG_SYMBOL. rewrite land_ff.
  replace ((id * 2 ^ 32 + 12) mod 256 =? 12) with true by lia.
  do 2 f_equal. unfold u32. rewrite Z.shiftr_div_pow2 by lia. lia.
Qed.

(* Well-formed descriptions of values: what user code can hold. *)
Definition rv_ok (r : rv) : Prop :=
  match r with
  | RInteger i => - 2 ^ 62 <= i < 2 ^ 62
  | RFloat b => 0 <= b < 2 ^ 64 /\ b <> 2 ^ 63 /\ b <> collide_bits
  | RSymbol id => 0 <= id < 2 ^ 32
  | RObject (HFloat _) => False
  | _ => True
  end.

Lemma unpack_pack r : rv_ok r -> unpack (pack r) = Some r.
Proof.
  destruct r as [| | | |i|b|id|o]; cbn [rv_ok pack]; intros H; try reflexivity.
  - destruct (integer_cases i ltac:(lia)) as [[_ ->]|[? _]]; [|lia]. apply unpack_fixnum; lia.
  - apply unpack_float; tauto.
  - apply unpack_symbol; lia.
  - destruct o; [reflexivity|contradiction|reflexivity].
Qed.

Lemma pack_inj r1 r2 : rv_ok r1 -> rv_ok r2 -> pack r1 = pack r2 -> r1 = r2.
Proof.
  intros H1 H2 E. apply unpack_pack in H1. apply unpack_pack in H2.
  rewrite E, H2 in H1. congruence.
Qed.

Lemma fixnum_odd n : exists w, fixnum n = Imm w /\ w mod 2 = 1.
Proof.
  unfold fixnum. eexists. split; [reflexivity|].
  rewrite <- Z.bit0_mod, Z.lor_spec. cbn. rewrite orb_true_r. reflexivity.
Qed.

Lemma float_immediate b w : 0 <= b < 2 ^ 64 -> float b = Imm w -> w mod 4 = 2 /\ 0 <= w < 2 ^ 64.
Proof.
  intros Hb. unfold float.
  destruct (f64_is_zero b). { intros E. injection E as <-. vm_compute. intuition congruence. }
  rewrite land_7, Z.shiftr_div_pow2 by lia. fold (fexp3 b).
  assert (Hs : 0 <= fsign b <= 1) by (unfold fsign; lia).
  assert (He : 0 <= fexp3 b < 8) by (unfold fexp3; lia).
  assert (Hm : 0 <= flow b < 2 ^ 60) by (unfold flow; lia).
  destruct (Z.eqb_spec (Z.land (fexp3 b + 1) 6) 4) as [H4|H4]; [|discriminate].
  intros E. injection E as E. rewrite (fsplit b Hb) in E.
  rewrite mask_clear in E by lia. rewrite rotl3_split in E by lia. lia.
Qed.

Lemma pack_word_packed r w : rv_ok r -> pack r = Imm w -> is_packed_word w = true.
Proof.
  unfold is_packed_word. rewrite land_7.
  destruct r as [| | | |i|b|id|o]; cbn [rv_ok pack]; intros H E;
    try (injection E as <-; reflexivity); try discriminate.
  - destruct (integer_cases i ltac:(lia)) as [[_ E2]|[? _]]; [|lia].
    rewrite E2 in E. destruct (fixnum_odd i) as (w' & E3 & H3). rewrite E3 in E. injection E as <-. lia.
  - destruct H as (Hb & _ & _). apply float_immediate in E; lia.
  - rewrite symbol_word in E by lia. injection E as <-. lia.
Qed.

(* ---- truthiness ---- *)
Lemma byte_forall (P : Z -> bool) :
  forallb P (map Z.of_nat (seq 0 256)) = true -> forall l, 0 <= l < 256 -> P l = true.
Proof.
  intros HF l Hl. rewrite forallb_forall in HF. apply HF.
  apply in_map_iff. exists (Z.to_nat l). rewrite in_seq. clear HF. lia.
Qed.

Definition bmask (l : Z) : Z := Z.lor (Z.land l 207) 48.
Lemma bmask_range l : 0 <= l < 256 -> 0 <= bmask l < 256.
Proof.
  intros Hl. pose proof (byte_forall (fun l => (0 <=? bmask l) && (bmask l <? 256))
    ltac:(vm_compute; reflexivity) l Hl) as H. cbv beta in H.
  apply andb_true_iff in H as [H1 H2].
  apply Z.leb_le in H1. apply Z.ltb_lt in H2. auto.
Qed.
Lemma bmask_52 l : 0 <= l < 256 ->
  (bmask l =? 0x34) = ((l =? 0x04) || (l =? 0x14) || (l =? 0x24) || (l =? 0x34)).
Proof.
  intros Hl. pose proof (byte_forall (fun l => Bool.eqb (bmask l =? 0x34)
    ((l =? 0x04) || (l =? 0x14) || (l =? 0x24) || (l =? 0x34)))
    ltac:(vm_compute; reflexivity) l Hl) as H. cbv beta in H.
  apply eqb_prop in H. exact H.
Qed.

Lemma bool_mask_split h l : 0 <= h < 2 ^ 56 -> 0 <= l < 256 ->
  Z.lor (Z.land (h * 2 ^ 8 + l) BOOL_MASK2) BOOL_MASK1 = h * 2 ^ 8 + bmask l.
Proof.
  intros Hh Hl. pose proof (bmask_range l Hl) as Hq.
  rewrite <- (lor_mul_add h l 8) by lia.
  rewrite <- (lor_mul_add h (bmask l) 8) by lia.
  rewrite <- !Z.shiftl_mul_pow2 by lia.
  apply Z.bits_inj'. intros n Hn. unfold bmask.
  change BOOL_MASK2 with (Z.lor (Z.shiftl (2 ^ 56 - 1) 8) 0xcf).
  change BOOL_MASK1 with 0x30.
  repeat first [rewrite Z.lor_spec | rewrite Z.land_spec].
  destruct (Z.ltb_spec n 8).
  - rewrite !Z.shiftl_spec_low by lia. reflexivity.
  - rewrite !Z.shiftl_spec by lia.
    rewrite (testbit_small l 8 n), (testbit_small 207 8 n), (testbit_small 48 8 n) by lia.
    cbn [orb andb]. rewrite !orb_false_r.
    destruct (Z.ltb_spec n 64).
    + change (2 ^ 56 - 1) with (Z.ones 56). rewrite Z.ones_spec_low by lia. apply andb_true_r.
    + rewrite (testbit_small h 56 (n - 8)) by lia. reflexivity.
Qed.

Lemma to_bool_word_spec w : 0 <= w < 2 ^ 64 ->
  to_bool_word w = false <-> w = 0x04 \/ w = 0x14 \/ w = 0x24 \/ w = 0x34.
Proof.
  intros Hw. unfold to_bool_word.
  assert (Hh : exists h l, 0 <= l < 256 /\ 0 <= h < 2 ^ 56 /\ w = h * 2 ^ 8 + l).
  { exists (w / 256), (w mod 256). lia. }
  destruct Hh as (h & l & Hl & Hh & ->).
  rewrite bool_mask_split by lia.
  pose proof (bmask_range l Hl) as Hq. pose proof (bmask_52 l Hl) as H5.
  set (q := bmask l) in *. clearbody q.
  rewrite negb_false_iff, Z.eqb_eq.
  destruct (Z.eqb_spec q 0x34); destruct (Z.eqb_spec l 0x04); destruct (Z.eqb_spec l 0x14);
   destruct (Z.eqb_spec l 0x24); destruct (Z.eqb_spec l 0x34); cbn in H5; try discriminate; lia.
Qed.

Definition falsy_rv (r : rv) : bool :=
  match r with RNil | RFalse | RUninit => true | _ => false end.

Lemma pack_imm_range r w : rv_ok r -> pack r = Imm w -> 0 <= w < 2 ^ 64.
Proof.
  destruct r as [| | | |i|b|id|o]; cbn [rv_ok pack]; intros H E;
    try discriminate.
  1,2,3,4: injection E as <-; cbv; intuition congruence.
  - destruct (integer_cases i ltac:(lia)) as [[_ E2]|[? _]]; [|lia].
    rewrite E2, fixnum_word in E by lia.
    assert (w = u64 (2 * i) + 1) as -> by congruence.
    unfold u64. assert (exists h, (2 * i) mod 2 ^ 64 = 2 * h /\ 0 <= h < 2 ^ 63) as (h & -> & Hh)
      by (exists (i mod 2 ^ 63); lia). lia.
  - destruct H as (Hb & _ & _). apply float_immediate in E; lia.
  - rewrite symbol_word in E by lia. injection E as <-. lia.
Qed.

Lemma to_bool_pack r : rv_ok r -> to_bool (pack r) = negb (falsy_rv r).
Proof.
  intros H. destruct (pack r) as [w|o] eqn:E.
  - cbn [to_bool]. pose proof (pack_imm_range r w H E) as Hw.
    pose proof (to_bool_word_spec w Hw) as HS.
    destruct r as [| | | |i|b|id|o]; cbn [falsy_rv negb];
      try (cbn in E; injection E as <-; reflexivity); try discriminate.
    all: destruct (to_bool_word w) eqn:Eb; [reflexivity|exfalso];
         destruct HS as [HS _]; specialize (HS eq_refl).
    + cbn [pack rv_ok] in *. destruct (integer_cases i ltac:(lia)) as [[_ E2]|[? _]]; [|lia].
      rewrite E2 in E. destruct (fixnum_odd i) as (w' & E3 & H3). rewrite E3 in E. injection E as <-. lia.
    + cbn [pack rv_ok] in *. destruct H as (Hb & _ & _). apply float_immediate in E; lia.
    + cbn [pack rv_ok] in *. rewrite symbol_word in E by lia. injection E as <-. lia.
  - destruct r; try reflexivity; discriminate.
Qed.

Lemma to_bool_aligned w : 0 < w < 2 ^ 64 -> w mod 8 = 0 -> to_bool_word w = true.
Proof.
  intros Hw Ha. destruct (to_bool_word w) eqn:E; [reflexivity|].
  apply to_bool_word_spec in E; lia.
Qed.

Lemma as_float_float b : 0 <= b < 2 ^ 64 -> b <> 2 ^ 63 -> b <> collide_bits ->
  as_float (float b) = Some b.
Proof.
  intros Hb H1 H2. pose proof (unpack_float b Hb H1 H2) as H.
  destruct (float b) as [w|[n|b'|i]] eqn:E.
  - cbn [unpack as_fixnum as_float as_flonum] in *. unfold as_float. cbn [as_flonum].
    destruct (is_fnum w); [discriminate|].
    destruct (as_flonum_word w); [congruence|].
    destruct (is_packed_symbol w); [discriminate|].
    repeat match type of H with context [if ?c then _ else _] => destruct c; try discriminate end.
  - discriminate.
  - cbn in *. congruence.
  - discriminate.
Qed.

Lemma as_flonum_fixnum_disjoint w : as_fixnum (Imm w) <> None -> as_flonum_word w = None.
Proof.
  cbn [as_fixnum]. unfold is_fnum, as_flonum_word. rewrite land_1, land_3.
  destruct (Z.eqb_spec (w mod 2) 1); [|congruence].
  intros _. replace (w mod 4 =? 2) with false by lia. reflexivity.
Qed.

Lemma aligned_not_packed w : w mod 8 = 0 -> is_packed_word w = false.
Proof. intros H. unfold is_packed_word. rewrite land_7, H. reflexivity. Qed.
Lemma packed_not_aligned w : is_packed_word w = true -> w mod 8 <> 0.
Proof. intros H E. rewrite aligned_not_packed in H by exact E. discriminate. Qed.
Lemma to_bool_pack' r : rv_ok r ->
  to_bool (pack r) = match r with RNil | RFalse | RUninit => false | _ => true end.
Proof. intros H. rewrite to_bool_pack by exact H. destruct r; reflexivity. Qed.
