(* gcd, lcm, iterators, digits. *)
From Verif Require Import Base ProofsBase ModelValue ProofsValue ModelFloat ModelInt ProofsInt.
Ltac Zify.zify_post_hook ::= Z.div_mod_to_equations.

(* ---- trailing zeros ---- *)
Lemma pos_tz_spec p : exists q, Z.odd q = true /\ Zpos p = q * 2 ^ (pos_tz p) /\ 0 < q /\ 0 <= pos_tz p.
Proof.
  induction p as [p _|p IH|]; cbn [pos_tz].
  - exists (Zpos p~1). repeat split; try reflexivity; lia.
  - destruct IH as (q & Ho & E & H0 & Ht). exists q. repeat split; try assumption; try lia.
    rewrite Z.pow_add_r by lia. rewrite Pos2Z.inj_xO, E. lia.
  - exists 1. repeat split; try reflexivity; lia.
Qed.
Lemma tz_spec z : z <> 0 -> exists q, Z.odd q = true /\ z = q * 2 ^ (tz z) /\ 0 <= tz z.
Proof.
  intros Hz. destruct z as [|p|p]; [congruence| |]; destruct (pos_tz_spec p) as (q & Ho & E & H0 & Ht).
  - exists q. auto.
  - exists (- q). repeat split.
    + rewrite Z.odd_opp. assumption.
    + cbn [tz]. rewrite Z.mul_opp_l, <- E. reflexivity.
    + exact Ht.
Qed.
Lemma tz_bits z : z <> 0 -> Z.testbit z (tz z) = true /\ forall j, 0 <= j < tz z -> Z.testbit z j = false.
Proof.
  intros Hz. destruct (tz_spec z Hz) as (q & Ho & E & Ht). split.
  - rewrite E at 1. rewrite <- Z.shiftl_mul_pow2, Z.shiftl_spec by lia.
    replace (tz z - tz z) with 0 by lia. rewrite Z.bit0_odd. assumption.
  - intros j Hj. rewrite E. rewrite <- Z.shiftl_mul_pow2 by lia. apply Z.shiftl_spec_low. lia.
Qed.
Lemma tz_unique z k : z <> 0 -> 0 <= k -> Z.testbit z k = true ->
  (forall j, 0 <= j < k -> Z.testbit z j = false) -> tz z = k.
Proof.
  intros Hz Hk H1 H2. destruct (tz_bits z Hz) as (B1 & B2).
  destruct (tz_spec z Hz) as (_ & _ & _ & Ht).
  destruct (Z.lt_trichotomy (tz z) k) as [H|[H|H]]; [|assumption|].
  - rewrite H2 in B1 by lia. discriminate.
  - rewrite B2 in H1 by lia. discriminate.
Qed.
Lemma tz_lor a b : a <> 0 -> b <> 0 -> tz (Z.lor a b) = Z.min (tz a) (tz b).
Proof.
  intros Ha Hb. destruct (tz_bits a Ha) as (A1 & A2). destruct (tz_bits b Hb) as (B1 & B2).
  destruct (tz_spec a Ha) as (_ & _ & _ & Hta). destruct (tz_spec b Hb) as (_ & _ & _ & Htb).
  apply tz_unique.
  - intros E. apply Z.lor_eq_0_iff in E. tauto.
  - lia.
  - rewrite Z.lor_spec. destruct (Z.min_spec (tz a) (tz b)) as [(_ & ->)|(_ & ->)].
    + rewrite A1. reflexivity.
    + rewrite B1. apply orb_true_r.
  - intros j Hj. rewrite Z.lor_spec, A2, B2 by lia. reflexivity.
Qed.

(* ---- gcd with powers of two ---- *)
Lemma odd_divisor_coprime_2 q : Z.odd q = true -> Z.gcd q 2 = 1.
Proof.
  intros H. apply Z.bezout_1_gcd. unfold Z.Bezout.
  apply Z.odd_spec in H. destruct H as (k & ->). exists 1, (- k). lia.
Qed.
Lemma odd_div_odd q n : Z.odd n = true -> (q | n) -> Z.odd q = true.
Proof.
  intros H (k & ->). rewrite Z.odd_mul in H. apply andb_true_iff in H. tauto.
Qed.
Lemma gcd_double_odd x n : Z.odd n = true -> Z.gcd (2 * x) n = Z.gcd x n.
Proof.
  intros Hn. apply Z.gcd_unique.
  - apply Z.gcd_nonneg.
  - apply Z.divide_mul_r. apply Z.gcd_divide_l.
  - apply Z.gcd_divide_r.
  - intros q Hq1 Hq2. apply Z.gcd_greatest; [|assumption].
    apply (Z.gauss q 2 x); [assumption|].
    apply odd_divisor_coprime_2. apply (odd_div_odd q n); assumption.
Qed.
Lemma gcd_pow2_odd k x n : 0 <= k -> Z.odd n = true -> Z.gcd (x * 2 ^ k) n = Z.gcd x n.
Proof.
  intros Hk Hn. pattern k. apply natlike_ind; [|intros j Hj IH|assumption].
  - f_equal. lia.
  - rewrite Z.pow_succ_r by lia. replace (x * (2 * 2 ^ j)) with (2 * (x * 2 ^ j)) by lia.
    rewrite gcd_double_odd by assumption. exact IH.
Qed.

Lemma shiftr_tz m q : 0 <= tz m -> m = q * 2 ^ tz m -> Z.shiftr m (tz m) = q.
Proof.
  intros Ht E. rewrite Z.shiftr_div_pow2 by lia.
  assert (0 < 2 ^ tz m) by (apply Z.pow_pos_nonneg; lia).
  set (k := tz m) in *. clearbody k. subst m. apply Z.div_mul. lia.
Qed.

Lemma gcd_sub_r a b : Z.gcd (a - b) b = Z.gcd a b.
Proof. replace (a - b) with (a + (-1) * b) by lia.
  rewrite Z.gcd_comm, Z.gcd_add_mult_diag_r, Z.gcd_comm. reflexivity. Qed.
Lemma even_sub_odd a b : Z.odd a = true -> Z.odd b = true -> Z.even (a - b) = true.
Proof. intros Ha Hb. rewrite Z.even_sub, <- !Z.negb_odd, Ha, Hb. reflexivity. Qed.

Lemma gcd_loop_even : forall fuel m n, 0 <= m -> 0 < n -> Z.odd n = true ->
  Z.even m = true -> m * n < 2 ^ (Z.of_nat fuel) -> gcd_loop fuel m n = Some (Z.gcd m n).
Proof.
  induction fuel as [|fuel IH]; intros m n Hm Hn Hodd Hev Hb; cbn [gcd_loop].
  - change (2 ^ Z.of_nat 0) with 1 in Hb.
    destruct (Z.eqb_spec m 0) as [->|Hz]; [|nia].
    rewrite Z.gcd_0_l, Z.abs_eq by lia. reflexivity.
  - destruct (Z.eqb_spec m 0) as [->|Hz].
    { rewrite Z.gcd_0_l, Z.abs_eq by lia. reflexivity. }
    destruct (tz_spec m Hz) as (q & Hq & E & Ht).
    rewrite (shiftr_tz m q Ht E).
    assert (HG : Z.gcd m n = Z.gcd q n) by (rewrite E; apply gcd_pow2_odd; assumption).
    assert (Hqpos : 0 < q).
    { assert (0 < 2 ^ tz m) by (apply Z.pow_pos_nonneg; lia). nia. }
    assert (Hhalf : 2 * q <= m).
    { assert (tz m <> 0).
      { intros E0. rewrite E0 in E. assert (m = q) by lia. subst q.
        rewrite <- Z.negb_odd, Hq in Hev. discriminate. }
      assert (2 ^ 1 <= 2 ^ tz m) by (apply Z.pow_le_mono_r; lia). nia. }
    rewrite Nat2Z.inj_succ, Z.pow_succ_r in Hb by lia.
    rewrite HG. rewrite Z.gtb_ltb. destruct (Z.ltb_spec q n).
    + rewrite IH; try lia; try assumption.
      * rewrite gcd_sub_r, Z.gcd_comm. reflexivity.
      * apply even_sub_odd; assumption.
      * nia.
    + rewrite IH; try lia; try assumption.
      * rewrite gcd_sub_r. reflexivity.
      * apply even_sub_odd; assumption.
      * nia.
Qed.

Lemma gcd_loop_odd f m n : 126 <= Z.of_nat f -> 0 < m < 2 ^ 63 -> 0 < n < 2 ^ 63 -> Z.odd n = true ->
  gcd_loop (S f) m n = Some (Z.gcd m n).
Proof.
  intros Hf Hm Hn Hodd.
  cbn [gcd_loop].
  assert (Hz : m <> 0) by lia. apply Z.eqb_neq in Hz as Hz'. rewrite Hz'.
  destruct (tz_spec m Hz) as (q & Hq & E & Ht).
  rewrite (shiftr_tz m q Ht E).
  assert (HG : Z.gcd m n = Z.gcd q n) by (rewrite E; apply gcd_pow2_odd; assumption).
  assert (Hqpos : 0 < q <= m).
  { assert (0 < 2 ^ tz m) by (apply Z.pow_pos_nonneg; lia). nia. }
  assert (HB : 2 ^ 126 <= 2 ^ Z.of_nat f) by (apply Z.pow_le_mono_r; lia).
  assert (HC : q * n < 2 ^ Z.of_nat f).
  { apply Z.lt_le_trans with (2 ^ 126); [|exact HB].
    change (2 ^ 126) with (2 ^ 63 * 2 ^ 63). apply Z.mul_lt_mono_nonneg; lia. }
  clear HB. set (B := 2 ^ Z.of_nat f) in *. 
  rewrite HG, Z.gtb_ltb. destruct (Z.ltb_spec q n).
  - rewrite gcd_loop_even; [|lia|lia|assumption|apply even_sub_odd; assumption|fold B; nia].
    rewrite gcd_sub_r, Z.gcd_comm. reflexivity.
  - rewrite gcd_loop_even; [|lia|lia|assumption|apply even_sub_odd; assumption|fold B; nia].
    rewrite gcd_sub_r. reflexivity.
Qed.
Lemma gcd_loop_spec m n : 0 < m < 2 ^ 63 -> 0 < n < 2 ^ 63 -> Z.odd n = true ->
  gcd_loop GCD_FUEL m n = Some (Z.gcd m n).
Proof. intros. apply gcd_loop_odd; auto. lia. Qed.

Lemma gcd_split0 qa qb ta tb : Z.odd qa = true -> Z.odd qb = true -> 0 <= ta -> 0 <= tb -> 
  Z.gcd (qa * 2 ^ ta) (qb * 2 ^ tb) = Z.gcd qa qb * 2 ^ Z.min ta tb.
Proof.
  intros Hqa Hqb Hta Htb.
  destruct (Z.min_spec ta tb) as [(H & ->)|(H & ->)].
  - replace (qb * 2 ^ tb) with (2 ^ ta * (qb * 2 ^ (tb - ta))).
    2: { replace tb with (ta + (tb - ta)) at 2 by lia. rewrite Z.pow_add_r by lia. lia. }
    rewrite (Z.mul_comm qa).
    rewrite Z.gcd_mul_mono_l_nonneg by (apply Z.pow_nonneg; lia).
    rewrite (Z.gcd_comm qa (qb * _)), gcd_pow2_odd by (try assumption; lia).
    rewrite (Z.gcd_comm qb qa). lia.
  - replace (qa * 2 ^ ta) with (2 ^ tb * (qa * 2 ^ (ta - tb))).
    2: { replace ta with (tb + (ta - tb)) at 2 by lia. rewrite Z.pow_add_r by lia. lia. }
    rewrite (Z.mul_comm qb).
    rewrite Z.gcd_mul_mono_l_nonneg by (apply Z.pow_nonneg; lia).
    rewrite gcd_pow2_odd by (try assumption; lia). lia.
Qed.
Lemma gcd_split a b : a <> 0 -> b <> 0 -> forall qb, Z.odd qb = true -> b = qb * 2 ^ tz b ->
  Z.gcd a b = Z.gcd a qb * 2 ^ Z.min (tz a) (tz b).
Proof.
  intros Ha Hb qb Hqb Eb. destruct (tz_spec a Ha) as (qa & Hqa & Ea & Hta).
  destruct (tz_spec b Hb) as (_ & _ & _ & Htb).
  assert (HG : Z.gcd a qb = Z.gcd qa qb) by (rewrite Ea; apply gcd_pow2_odd; assumption).
  rewrite HG.
  set (ta := tz a) in *. set (tb := tz b) in *. clearbody ta tb. subst a b.
  apply gcd_split0; assumption.
Qed.
Lemma tz_abs z : tz (Z.abs z) = tz z.
Proof. destruct z; reflexivity. Qed.
Lemma gcd_le_l a b : a <> 0 -> Z.gcd a b <= Z.abs a.
Proof.
  intros Ha. apply Z.divide_pos_le; [lia|]. apply Z.divide_abs_r. apply Z.gcd_divide_l.
Qed.

Lemma safe_gcd_spec a b : - 2 ^ 63 < a < 2 ^ 63 -> - 2 ^ 63 < b < 2 ^ 63 ->
  safe_gcd a b = Ok (bignum (Z.gcd a b)).
Proof.
  intros Ha Hb. unfold safe_gcd.
  destruct (Z.eqb_spec a 0) as [->|Ha0].
  { cbn [orb]. rewrite Z.lor_0_l, Z.gcd_0_l. unfold abs64, checked.
    replace (in_i64 (Z.abs b)) with true by (unfold in_i64; lia). cbn [rbind].
    rewrite integer_bignum by lia. reflexivity. }
  destruct (Z.eqb_spec b 0) as [->|Hb0].
  { cbn [orb]. rewrite Z.lor_0_r, Z.gcd_0_r. unfold abs64, checked.
    replace (in_i64 (Z.abs a)) with true by (unfold in_i64; lia). cbn [rbind].
    rewrite integer_bignum by lia. reflexivity. }
  cbn [orb]. replace (a =? - 2 ^ 63) with false by lia. replace (b =? - 2 ^ 63) with false by lia.
  cbn [orb].
  destruct (tz_spec (Z.abs b) ltac:(lia)) as (qb & Hqb & Eb & Htb).
  rewrite (shiftr_tz (Z.abs b) qb Htb Eb).
  assert (0 < 2 ^ tz (Z.abs b)) by (apply Z.pow_pos_nonneg; lia).
  assert (0 < qb <= Z.abs b) by nia.
  rewrite gcd_loop_spec by (try assumption; lia).
  rewrite tz_lor by assumption.
  assert (Htmin : 0 <= Z.min (tz a) (tz b)).
  { destruct (tz_spec a Ha0) as (_ & _ & _ & ?). destruct (tz_spec b Hb0) as (_ & _ & _ & ?). lia. }
  rewrite Z.shiftl_mul_pow2 by lia.
  pose proof (gcd_split (Z.abs a) (Z.abs b) ltac:(lia) ltac:(lia) qb Hqb Eb) as HS.
  rewrite !tz_abs in HS. rewrite <- HS.
  rewrite Z.gcd_abs_l, Z.gcd_abs_r.
  pose proof (Z.gcd_nonneg a b). pose proof (gcd_le_l a b Ha0).
  rewrite i64_id by lia. rewrite integer_bignum by lia. reflexivity.
Qed.

Lemma odd_div_pow2 q k : 0 <= k -> Z.odd q = true -> (q | 2 ^ k) -> Z.abs q = 1.
Proof.
  intros Hk Hq Hd. assert (Z.gcd (1 * 2 ^ k) q = Z.gcd 1 q) as E by (apply gcd_pow2_odd; assumption).
  rewrite Z.mul_1_l, Z.gcd_1_l in E.
  assert (Z.gcd (2 ^ k) q = Z.abs q).
  { rewrite Z.gcd_comm. destruct Hd as (c & ->). rewrite Z.mul_comm.
    apply Z.gcd_unique; [lia|apply Z.divide_abs_l; reflexivity| |].
    - apply Z.divide_abs_l. apply Z.divide_factor_l.
    - intros x Hx _. apply Z.divide_abs_r. exact Hx. }
  lia.
Qed.

Lemma lcm_not_min a b g : g <> 0 -> g = Z.gcd a b -> Z.abs a < 2 ^ 63 -> Z.abs b < 2 ^ 63 ->
  Z.abs (a * (b / g)) <> 2 ^ 63.
Proof.
  intros Hg Eg Ha Hb E.
  assert (Hab : a = g * (a / g) /\ b = g * (b / g)).
  { subst g. pose proof (Z.gcd_divide_l a b) as (x & Hx). pose proof (Z.gcd_divide_r a b) as (y & Hy).
    split; [rewrite Hx at 1 3|rewrite Hy at 1 3]; rewrite Z.div_mul by assumption; lia. }
  destruct Hab as (Ea & Eb).
  assert (Hcop : Z.gcd (a / g) (b / g) = 1) by (apply Z.gcd_div_gcd; assumption).
  set (a' := a / g) in *. set (b' := b / g) in *. clearbody a' b'.
  assert (Hpow : (b' | 2 ^ 63) /\ (a' | 2 ^ 63)).
  { rewrite <- E. rewrite !Z.divide_abs_r. rewrite Ea. split.
    - apply Z.divide_factor_r.
    - apply Z.divide_mul_l. apply Z.divide_factor_r. }
  destruct Hpow as (Hb' & Ha').
  destruct (Z.odd b') eqn:Ob.
  - pose proof (odd_div_pow2 b' 63 ltac:(lia) Ob Hb'). rewrite Z.abs_mul in E. nia.
  - destruct (Z.odd a') eqn:Oa.
    + pose proof (odd_div_pow2 a' 63 ltac:(lia) Oa Ha').
      rewrite Ea in E. rewrite !Z.abs_mul in E. rewrite Eb, Z.abs_mul in Hb. nia.
    + assert ((2 | 1)).
      { rewrite <- Hcop. apply Z.gcd_greatest.
        - rewrite <- Z.negb_even in Oa. apply negb_false_iff in Oa.
          apply Z.even_spec in Oa. destruct Oa as (k & ->). apply Z.divide_factor_l.
        - rewrite <- Z.negb_even in Ob. apply negb_false_iff in Ob.
          apply Z.even_spec in Ob. destruct Ob as (k & ->). apply Z.divide_factor_l. }
      apply Z.divide_pos_le in H; lia.
Qed.

Lemma safe_lcm_spec a b : - 2 ^ 63 < a < 2 ^ 63 -> - 2 ^ 63 < b < 2 ^ 63 ->
  safe_lcm a b = Ok (bignum (Z.lcm a b)).
Proof.
  intros Ha Hb. unfold safe_lcm.
  destruct ((a =? 0) && (b =? 0)) eqn:E0.
  { assert (a = 0) as -> by lia. reflexivity. }
  rewrite safe_gcd_spec by lia. cbn [rbind].
  set (g := Z.gcd a b).
  assert (Hg : g <> 0).
  { unfold g. intros E. apply Z.gcd_eq_0 in E. lia. }
  assert (Hq : Z.quot b g = b / g).
  { pose proof (Z.gcd_divide_r a b) as (y & Hy). fold g in Hy. rewrite Hy.
    rewrite Z.quot_mul, Z.div_mul by assumption. reflexivity. }
  rewrite as_fixnum_bignum, as_bignum_bignum.
  change (Z.lcm a b) with (Z.abs (a * (b / g))).
  destruct (in_i63 g) eqn:Eg; rewrite Hq; replace (g =? 0) with false by lia; [|reflexivity].
  unfold checked. destruct (in_i64 (a * (b / g))) eqn:E; [|reflexivity].
  apply in_i64_spec in E.
  pose proof (lcm_not_min a b g Hg eq_refl ltac:(lia) ltac:(lia)).
  unfold abs64, checked. replace (in_i64 (Z.abs (a * (b / g)))) with true by (unfold in_i64; lia).
  cbn [rbind]. rewrite integer_bignum by lia. reflexivity.
Qed.

Lemma int_gcd_bignum a b : int_gcd (bignum a) (bignum b) = Ok (bignum (Z.gcd a b)).
Proof.
  unfold int_gcd. rewrite !as_fixnum_bignum, !as_bignum_bignum.
  destruct (in_i63 a) eqn:Ea, (in_i63 b) eqn:Eb; try reflexivity.
  apply in_i63_spec in Ea, Eb. apply safe_gcd_spec; lia.
Qed.
Lemma int_lcm_bignum a b : int_lcm (bignum a) (bignum b) = Ok (bignum (Z.lcm a b)).
Proof.
  unfold int_lcm. rewrite !as_fixnum_bignum, !as_bignum_bignum.
  destruct (in_i63 a) eqn:Ea, (in_i63 b) eqn:Eb; try reflexivity.
  apply in_i63_spec in Ea, Eb. apply safe_lcm_spec; lia.
Qed.

(* Characterisations of gcd and lcm, stated without Z.gcd/Z.lcm. *)
Definition is_gcd (a b g : Z) : Prop :=
  0 <= g /\ (g | a) /\ (g | b) /\ forall d, (d | a) -> (d | b) -> (d | g).
Definition is_lcm (a b l : Z) : Prop :=
  0 <= l /\ (a | l) /\ (b | l) /\ forall m, (a | m) -> (b | m) -> (l | m).
Lemma int_gcd_ok a b : exists g, int_gcd (bignum a) (bignum b) = Ok (bignum g) /\ is_gcd a b g.
Proof.
  exists (Z.gcd a b). split; [apply int_gcd_bignum|].
  repeat split.
  - apply Z.gcd_nonneg.
  - apply Z.gcd_divide_l.
  - apply Z.gcd_divide_r.
  - intros. apply Z.gcd_greatest; assumption.
Qed.
Lemma int_lcm_ok a b : exists l, int_lcm (bignum a) (bignum b) = Ok (bignum l) /\ is_lcm a b l.
Proof.
  exists (Z.lcm a b). split; [apply int_lcm_bignum|].
  repeat split.
  - apply Z.lcm_nonneg.
  - apply Z.divide_lcm_l.
  - apply Z.divide_lcm_r.
  - intros. apply Z.lcm_least; assumption.
Qed.

(* ---- iterators ---- *)
(* the arithmetic progression a, a+s, ..., n terms *)
Definition prog (a s : Z) (n : nat) : list Z := map (fun i => a + Z.of_nat i * s) (seq 0 n).
Lemma prog_S a s n : prog a s (S n) = a :: prog (a + s) s n.
Proof.
  unfold prog. cbn [seq map]. f_equal; [lia|].
  rewrite <- seq_shift, map_map. apply map_ext. intros i. lia.
Qed.

Lemma yields_det it l1 : yields it l1 -> forall l2, yields it l2 -> l1 = l2.
Proof.
  induction 1 as [it E|it v it' l E H IH]; intros l2 H2; inversion H2; subst; try congruence.
  rewrite E in H0. injection H0 as <- <-. f_equal. apply IH. assumption.
Qed.

Lemma yields_range : forall n a b, - 2 ^ 63 <= a -> b < 2 ^ 63 -> n = Z.to_nat (b - a) ->
  yields (ItRange a b) (map bignum (prog a 1 n)).
Proof.
  induction n as [|n IH]; intros a b Ha Hb Hn.
  - apply yields_done. cbn. replace (a <? b) with false by lia. reflexivity.
  - rewrite prog_S. cbn [map]. apply yields_item with (ItRange (a + 1) b).
    + cbn. replace (a <? b) with true by lia. rewrite integer_bignum by lia. reflexivity.
    + apply IH; lia.
Qed.
Lemma yields_big : forall n a b, n = Z.to_nat (b - a) ->
  yields (ItBig a b) (map bignum (prog a 1 n)).
Proof.
  induction n as [|n IH]; intros a b Hn.
  - apply yields_done. cbn. replace (a <? b) with false by lia. reflexivity.
  - rewrite prog_S. cbn [map]. apply yields_item with (ItBig (a + 1) b).
    + cbn. replace (a <? b) with true by lia. reflexivity.
    + apply IH; lia.
Qed.
Lemma yields_rangerev : forall n a b, - 2 ^ 63 <= a -> b < 2 ^ 63 -> n = Z.to_nat (b - a) ->
  yields (ItRangeRev a b) (map bignum (prog (b - 1) (-1) n)).
Proof.
  induction n as [|n IH]; intros a b Ha Hb Hn.
  - apply yields_done. cbn. replace (a <? b) with false by lia. reflexivity.
  - rewrite prog_S. cbn [map]. apply yields_item with (ItRangeRev a (b - 1)).
    + cbn. replace (a <? b) with true by lia. rewrite integer_bignum by lia. reflexivity.
    + replace (b - 1 + -1) with ((b - 1) - 1) by lia. apply IH; lia.
Qed.
Lemma yields_pos : forall n c l s, 0 < s < 2 ^ 62 -> - 2 ^ 62 <= c -> l < 2 ^ 62 ->
  n = Z.to_nat ((l - c) / s + 1) -> (l < c -> n = 0%nat) ->
  yields (ItPos c l s) (map bignum (prog c s n)).
Proof.
  induction n as [|n IH]; intros c l s Hs Hc Hl Hn Hz.
  - apply yields_done. cbn. destruct (Z.ltb_spec l c); [reflexivity|].
    assert (0 <= (l - c) / s) by (apply Z.div_pos; lia). lia.
  - assert (Hlc : c <= l) by (destruct (Z.leb_spec c l); [assumption|]; specialize (Hz ltac:(lia)); lia).
    rewrite prog_S. cbn [map]. apply yields_item with (ItPos (c + s) l s).
    + cbn. replace (l <? c) with false by lia. unfold checked.
      replace (in_i64 (c + s)) with true by (unfold in_i64; lia).
      rewrite integer_bignum by lia. reflexivity.
    + assert (Hd : (l - (c + s)) / s = (l - c) / s - 1).
      { replace (l - (c + s)) with ((l - c) + (-1) * s) by lia. rewrite Z.div_add by lia. lia. }
      assert (0 <= (l - c) / s) by (apply Z.div_pos; lia).
      apply IH; try lia.
      intros Hlt. assert ((l - c) / s = 0) by (apply Z.div_small; lia). lia.
Qed.
Lemma yields_neg : forall n c l s, 0 < s <= 2 ^ 62 -> c < 2 ^ 62 -> - 2 ^ 62 <= l ->
  n = Z.to_nat ((c - l) / s + 1) -> (c < l -> n = 0%nat) ->
  yields (ItNeg c l (- s)) (map bignum (prog c (- s) n)).
Proof.
  induction n as [|n IH]; intros c l s Hs Hc Hl Hn Hz.
  - apply yields_done. cbn. destruct (Z.ltb_spec c l); [reflexivity|].
    assert (0 <= (c - l) / s) by (apply Z.div_pos; lia). lia.
  - assert (Hlc : l <= c) by (destruct (Z.leb_spec l c); [assumption|]; specialize (Hz ltac:(lia)); lia).
    rewrite prog_S. cbn [map]. apply yields_item with (ItNeg (c + - s) l (- s)).
    + cbn. replace (c <? l) with false by lia. unfold checked.
      replace (in_i64 (c + - s)) with true by (unfold in_i64; lia).
      rewrite integer_bignum by lia. reflexivity.
    + assert (Hd : (c + - s - l) / s = (c - l) / s - 1).
      { replace (c + - s - l) with ((c - l) + (-1) * s) by lia. rewrite Z.div_add by lia. lia. }
      assert (0 <= (c - l) / s) by (apply Z.div_pos; lia).
      apply IH; try lia.
      intros Hlt. assert ((c - l) / s = 0) by (apply Z.div_small; lia). lia.
Qed.

(* [counts r l]: the method started normally and its block gets exactly l *)
Definition counts (r : res iter) (l : list Z) : Prop :=
  exists it, r = Ok it /\ yields it (map bignum l).

Lemma times_ok n : counts (int_times (bignum n)) (prog 0 1 (Z.to_nat n)).
Proof.
  unfold counts, int_times. rewrite as_fixnum_bignum, as_bignum_bignum.
  destruct (in_i63 n) eqn:E.
  - apply in_i63_spec in E. destruct (Z.ltb_spec n 1).
    + exists ItEmpty. split; [reflexivity|]. replace (Z.to_nat n) with 0%nat by lia.
      apply yields_done. reflexivity.
    + eexists. split; [reflexivity|]. apply yields_range; lia.
  - destruct (Z.ltb_spec 0 n); cbn [negb].
    + eexists. split; [reflexivity|]. apply yields_big; lia.
    + exists ItEmpty. split; [reflexivity|]. replace (Z.to_nat n) with 0%nat by lia.
      apply yields_done. reflexivity.
Qed.
Lemma upto_ok a b : in_i63 a = true -> in_i63 b = true ->
  counts (int_upto (bignum a) (bignum b)) (prog a 1 (Z.to_nat (b - a + 1))).
Proof.
  intros Ha Hb. unfold counts, int_upto. rewrite as_fixnum_bignum, Ha, coerce_bignum_fix by assumption.
  apply in_i63_spec in Ha, Hb. cbn [rbind]. unfold checked.
  destruct (Z.leb_spec a b).
  - replace (in_i64 (b + 1)) with true by (unfold in_i64; lia).
    eexists. split; [reflexivity|]. apply yields_range; lia.
  - exists ItEmpty. split; [reflexivity|]. replace (Z.to_nat (b - a + 1)) with 0%nat by lia.
    apply yields_done. reflexivity.
Qed.
Lemma downto_ok a b : in_i63 a = true -> in_i63 b = true ->
  counts (int_downto (bignum a) (bignum b)) (prog a (-1) (Z.to_nat (a - b + 1))).
Proof.
  intros Ha Hb. unfold counts, int_downto. rewrite as_fixnum_bignum, Ha, coerce_bignum_fix by assumption.
  apply in_i63_spec in Ha, Hb. cbn [rbind]. unfold checked. rewrite Z.geb_leb.
  destruct (Z.leb_spec b a).
  - replace (in_i64 (a + 1)) with true by (unfold in_i64; lia).
    eexists. split; [reflexivity|].
    pose proof (yields_rangerev (Z.to_nat (a - b + 1)) b (a + 1) ltac:(lia) ltac:(lia) ltac:(lia)) as H'.
    replace (a + 1 - 1) with a in H' by lia. exact H'.
  - exists ItEmpty. split; [reflexivity|]. replace (Z.to_nat (a - b + 1)) with 0%nat by lia.
    apply yields_done. reflexivity.
Qed.
(* number of terms of a step iteration *)
Definition step_count (a limit s : Z) : nat :=
  if s >? 0 then (if limit <? a then 0%nat else Z.to_nat ((limit - a) / s + 1))
  else (if a <? limit then 0%nat else Z.to_nat ((a - limit) / (- s) + 1)).
Lemma step_ok a l s : in_i63 a = true -> in_i63 l = true -> in_i63 s = true -> s <> 0 ->
  counts (int_step (bignum a) (bignum l) (Some (bignum s))) (prog a s (step_count a l s)).
Proof.
  intros Ha Hl Hs Hs0. unfold counts, int_step.
  rewrite as_fixnum_bignum, Ha, !coerce_bignum_fix by assumption.
  apply in_i63_spec in Ha, Hl, Hs. cbn [rbind]. replace (s =? 0) with false by lia. cbn [rbind].
  unfold step_count. rewrite Z.gtb_ltb. destruct (Z.ltb_spec 0 s).
  - eexists. split; [reflexivity|]. apply yields_pos; try lia;
      destruct (Z.ltb_spec l a); try lia.
  - eexists. split; [reflexivity|].
    pose proof (yields_neg (if a <? l then 0%nat else Z.to_nat ((a - l) / - s + 1)) a l (- s)) as HY.
    rewrite Z.opp_involutive in HY. apply HY; try lia;
      destruct (Z.ltb_spec a l); try lia.
Qed.
Lemma step_default_ok a l : in_i63 a = true -> in_i63 l = true ->
  counts (int_step (bignum a) (bignum l) None) (prog a 1 (Z.to_nat (l - a + 1))).
Proof.
  intros Ha Hl. unfold counts, int_step.
  rewrite as_fixnum_bignum, Ha, coerce_bignum_fix by assumption.
  apply in_i63_spec in Ha, Hl. cbn [rbind]. rewrite Z.gtb_ltb. replace (0 <? 1) with true by lia.
  eexists. split; [reflexivity|]. apply yields_pos; try lia.
Qed.
(* membership: the terms are exactly the progression points within the limit *)
Lemma prog_In a s n z : In z (prog a s n) <-> exists i, 0 <= i < Z.of_nat n /\ z = a + i * s.
Proof.
  unfold prog. rewrite in_map_iff. split.
  - intros (i & <- & Hi). apply in_seq in Hi. exists (Z.of_nat i). lia.
  - intros (i & Hi & ->). exists (Z.to_nat i). rewrite in_seq. split; [rewrite Z2Nat.id by lia; reflexivity|lia].
Qed.
Lemma step_count_pos a l s i : 0 < s -> 0 <= i -> (i < Z.of_nat (step_count a l s) <-> a + i * s <= l).
Proof.
  intros Hs Hi. unfold step_count. rewrite Z.gtb_ltb. replace (0 <? s) with true by lia.
  destruct (Z.ltb_spec l a).
  - split; [lia|nia].
  - assert (0 <= (l - a) / s) by (apply Z.div_pos; lia).
    rewrite Z2Nat.id by lia. split; intros Hx.
    + assert (i * s <= (l - a) / s * s) by nia.
      pose proof (Z.mul_div_le (l - a) s ltac:(lia)). nia.
    + assert (i <= (l - a) / s) by (apply Z.div_le_lower_bound; nia). lia.
Qed.
Lemma step_count_neg a l s i : s < 0 -> 0 <= i -> (i < Z.of_nat (step_count a l s) <-> l <= a + i * s).
Proof.
  intros Hs Hi. unfold step_count. rewrite Z.gtb_ltb. replace (0 <? s) with false by lia.
  destruct (Z.ltb_spec a l).
  - split; [lia|nia].
  - assert (0 <= (a - l) / - s) by (apply Z.div_pos; lia).
    rewrite Z2Nat.id by lia. split; intros Hx.
    + assert (i * - s <= (a - l) / - s * - s) by nia.
      pose proof (Z.mul_div_le (a - l) (- s) ltac:(lia)). nia.
    + assert (i <= (a - l) / - s) by (apply Z.div_le_lower_bound; nia). lia.
Qed.

(* ---- digits ---- *)
(* value of a little-endian digit list *)
Fixpoint of_digits (base : Z) (l : list Z) : Z :=
  match l with [] => 0 | d :: r => d + base * of_digits base r end.
Lemma digits_loop_ok base : 2 <= base -> forall l fuel,
  Forall (fun d => 0 < d < base) l -> (length l < fuel)%nat ->
  digits_loop fuel (of_digits base l) base = Some l.
Proof.
  intros Hb. induction l as [|d l IH]; intros fuel Hl Hf.
  - destruct fuel; [cbn in Hf; lia|]. cbn [digits_loop of_digits]. rewrite Z.rem_0_l by lia. reflexivity.
  - destruct fuel as [|fuel]; [cbn in Hf; lia|]. cbn [digits_loop of_digits length] in *.
    inversion Hl as [|? ? Hd Hl']; subst.
    assert (0 <= of_digits base l).
    { clear - Hl' Hb. induction Hl' as [|x r Hx _ IHr]; cbn; nia. }
    assert (Z.rem (d + base * of_digits base l) base = d) as ->.
    { rewrite Z.rem_mod_nonneg by nia.
      rewrite Z.mul_comm, Z.mod_add by lia. apply Z.mod_small. lia. }
    assert (Z.quot (d + base * of_digits base l) base = of_digits base l) as ->.
    { rewrite Z.quot_div_nonneg by nia.
      rewrite Z.mul_comm, Z.div_add by lia. rewrite Z.div_small by lia. lia. }
    replace (d =? 0) with false by lia. rewrite IH; [reflexivity|assumption|lia].
Qed.
Lemma of_digits_length base l : 2 <= base -> Forall (fun d => 0 < d < base) l ->
  2 ^ Z.of_nat (length l) - 1 <= of_digits base l.
Proof.
  intros Hb. induction 1 as [|d l Hd Hl IH]; cbn [length of_digits].
  - change (2 ^ Z.of_nat 0) with 1. lia.
  - rewrite Nat2Z.inj_succ, Z.pow_succ_r by lia.
    assert (0 < 2 ^ Z.of_nat (length l)) by (apply Z.pow_pos_nonneg; lia). nia.
Qed.
Lemma digits_ok base l : 2 <= base < 2 ^ 62 -> l <> [] -> Forall (fun d => 0 < d < base) l ->
  of_digits base l < 2 ^ 62 ->
  int_digits (bignum (of_digits base l)) (Some (bignum base)) = Ok (map bignum l).
Proof.
  intros Hb Hne Hl Hs. unfold int_digits.
  assert (in_i63 base = true) as Eb by (apply in_i63_spec; lia).
  rewrite coerce_bignum_fix by assumption. cbn [rbind].
  replace (base <? 0) with false by lia. replace (base =? 0) with false by lia. cbn [rbind].
  pose proof (of_digits_length base l ltac:(lia) Hl) as HL.
  assert (0 < 2 ^ Z.of_nat (length l)) by (apply Z.pow_pos_nonneg; lia).
  rewrite as_fixnum_bignum. replace (in_i63 (of_digits base l)) with true by (symmetry; apply in_i63_spec; lia).
  replace (of_digits base l <? 0) with false by lia.
  assert (Hlen : (length l <= 62)%nat).
  { destruct (Nat.leb_spec (length l) 62) as [|H1]; [assumption|].
    assert (2 ^ 63 <= 2 ^ Z.of_nat (length l)) by (apply Z.pow_le_mono_r; lia). lia. }
  rewrite digits_loop_ok by (try assumption; lia).
  destruct l as [|d l]; [congruence|].
  f_equal. apply map_ext_in. intros x Hx. apply integer_bignum.
  rewrite Forall_forall in Hl. specialize (Hl x Hx). lia.
Qed.
