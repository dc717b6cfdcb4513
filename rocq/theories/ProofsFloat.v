(** Lemmas for C46 and C47: rounding of integers and of quotients of integers to
    binary64, by the standard library's SpecFloat. *)
From Verif Require Import Base ModelFloat ModelValue ModelInt.
From Coq Require Import Floats.SpecFloat Lia.
Open Scope Z_scope.

Lemma digits_bounds p : 2 ^ (Zpos (digits2_pos p) - 1) <= Zpos p < 2 ^ Zpos (digits2_pos p).
Proof.
  induction p as [p IH|p IH|]; cbn [digits2_pos]; [| |cbn; lia].
  - rewrite Pos2Z.inj_succ. replace (Z.succ (Zpos (digits2_pos p)) - 1) with (Z.succ (Zpos (digits2_pos p) - 1)) by lia.
    rewrite !Z.pow_succ_r by lia. lia.
  - rewrite Pos2Z.inj_succ. replace (Z.succ (Zpos (digits2_pos p)) - 1) with (Z.succ (Zpos (digits2_pos p) - 1)) by lia.
    rewrite !Z.pow_succ_r by lia. lia.
Qed.
Lemma digits_is p d : 2 ^ (d - 1) <= Zpos p < 2 ^ d -> 1 <= d -> Zpos (digits2_pos p) = d.
Proof.
  intros H Hd. pose proof (digits_bounds p) as B. set (n := Zpos (digits2_pos p)) in *. assert (1 <= n) by (unfold n; lia).
  destruct (Z.lt_trichotomy n d) as [L|[L|L]]; [|exact L|].
  - assert (2 ^ n <= 2 ^ (d - 1)) by (apply Z.pow_le_mono_r; lia). lia.
  - assert (2 ^ d <= 2 ^ (n - 1)) by (apply Z.pow_le_mono_r; lia). lia.
Qed.

(** finite numbers with 53 digits keep their value as bit patterns *)
Definition canon (m : positive) (e : Z) : Prop := 2 ^ 52 <= Zpos m < 2 ^ 53 /\ -1074 <= e <= 971.
Lemma sf_bits s m e : canon m e -> sf_of_bits (bits_of_sf (S754_finite s m e)) = S754_finite s m e.
Proof.
  intros [H1 H2]. unfold bits_of_sf. destruct (Z.ltb_spec (Zpos m) (2 ^ 52)); [lia|].
  set (M := Zpos m - 2 ^ 52). set (E := e + 1075).
  assert (HM : 0 <= M < 2 ^ 52) by (unfold M; lia). assert (HE : 1 <= E <= 2046) by (unfold E; lia).
  set (S := if s then 2 ^ 11 else 0).
  assert (HS : sbit s = S * 2 ^ 52) by (destruct s; reflexivity).
  set (b := sbit s + E * 2 ^ 52 + M).
  assert (Eb : b = M + (S + E) * 2 ^ 52) by (unfold b; rewrite HS; ring).
  assert (DV : b / 2 ^ 52 = S + E) by (rewrite Eb, Z.div_add, (Z.div_small M) by lia; reflexivity).
  assert (R : b mod 2 ^ 52 = M) by (rewrite Eb, Z.mod_add by lia; apply Z.mod_small; lia).
  assert (D : (b / 2 ^ 52) mod 2 ^ 11 = E).
  { rewrite DV. unfold S. destruct s.
    - replace (2 ^ 11 + E) with (E + 1 * 2 ^ 11) by ring. rewrite Z.mod_add by lia. apply Z.mod_small. lia.
    - apply Z.mod_small. lia. }
  assert (T : Z.testbit b 63 = s).
  { rewrite Z.testbit_eqb by lia. replace (2 ^ 63) with (2 ^ 52 * 2 ^ 11) by reflexivity. rewrite <- Z.div_div by lia. rewrite DV. unfold S. destruct s.
    - replace (2 ^ 11 + E) with (E + 1 * 2 ^ 11) by ring. rewrite Z.div_add by lia. rewrite Z.div_small by lia. reflexivity.
    - rewrite Z.div_small by lia. reflexivity. }
  unfold sf_of_bits. rewrite T, D, R. destruct (Z.eqb_spec E 0); [lia|]. destruct (Z.eqb_spec E 2047); [lia|].
  replace (M + 2 ^ 52) with (Zpos m) by (unfold M; lia). f_equal. unfold E. lia.
Qed.
Lemma sf_bits_zero s : sf_of_bits (bits_of_sf (S754_zero s)) = S754_zero s.
Proof. destruct s; reflexivity. Qed.

(** [N / D] lies at [l] between [m] and [m + 1] *)
Definition located (N D m : Z) (l : location) : Prop :=
  exists r, N = D * m + r /\ 0 <= r < D /\
  match l with loc_Exact => r = 0 | loc_Inexact c => 0 < r /\ (2 * r ?= D) = c end.
Lemma round_near N D m l : 0 < D -> located N D m l ->
  2 * Z.abs (round_nearest_even m l * D - N) <= D /\ (m <= round_nearest_even m l <= m + 1).
Proof.
  intros HD (r & E & R & L). destruct l as [|[]]; cbn [round_nearest_even].
  - subst r. split; [|lia]. replace (m * D - N) with 0 by lia. cbn. lia.
  - destruct L as [L1 L2]. apply Z.compare_eq_iff in L2. destruct (Z.even m).
    + split; [|lia]. replace (m * D - N) with (- r) by lia. lia.
    + split; [|lia]. replace ((m + 1) * D - N) with (D - r) by lia. lia.
  - destruct L as [L1 L2]. rewrite Z.compare_lt_iff in L2. split; [|lia]. replace (m * D - N) with (- r) by lia. lia.
  - destruct L as [L1 L2]. rewrite Z.compare_gt_iff in L2. split; [|lia]. replace ((m + 1) * D - N) with (D - r) by lia. lia.
Qed.
Lemma located_shift N D m l : 0 < D -> 1 < m -> located N D m l ->
  let s := shr_1 (shr_record_of_loc m l) in shr_m s = m / 2 /\ located N (2 * D) (shr_m s) (loc_of_shr_record s).
Proof.
  intros HD Hm (r & E & R & L).
  assert (G : forall b l', m = 2 * (m / 2) + b -> 0 <= b <= 1 ->
     match l' with loc_Exact => D * b + r = 0 | loc_Inexact c => 0 < D * b + r /\ (2 * (D * b + r) ?= 2 * D) = c end ->
     located N (2 * D) (m / 2) l').
  { intros b l' Eb Hb Hl. exists (D * b + r). split; [rewrite Eb in E; lia|]. split; [nia|exact Hl]. }
  destruct m as [|p|p]; [lia| |lia]. destruct p as [p|p|]; [| |lia].
  - assert (Q : Zpos p~1 / 2 = Zpos p) by (symmetry; apply (Z.div_unique _ _ _ 1); lia). rewrite Q in *.
    destruct l as [|[]]; cbn; (split; [reflexivity|]); apply (G 1); try lia.
    + split; [lia|]. apply Z.compare_eq_iff. lia.
    + destruct L as [L1 L2]. split; [lia|]. apply Z.compare_gt_iff. lia.
    + destruct L as [L1 L2]. split; [lia|]. apply Z.compare_gt_iff. lia.
    + destruct L as [L1 L2]. split; [lia|]. apply Z.compare_gt_iff. lia.
  - assert (Q : Zpos p~0 / 2 = Zpos p) by (symmetry; apply (Z.div_unique _ _ _ 0); lia). rewrite Q in *.
    destruct l as [|[]]; cbn; (split; [reflexivity|]); apply (G 0); try lia.
    + destruct L as [L1 L2]. split; [lia|]. apply Z.compare_lt_iff. lia.
    + destruct L as [L1 L2]. split; [lia|]. apply Z.compare_lt_iff. lia.
    + destruct L as [L1 L2]. split; [lia|]. apply Z.compare_lt_iff. lia.
Qed.
Lemma shr_fexp_0 m e l : 2 ^ 52 <= m < 2 ^ 53 -> -1074 <= e -> shr_fexp prec emax m e l = (shr_record_of_loc m l, e).
Proof.
  intros Hm He. unfold shr_fexp. destruct m as [|p|p]; [lia| |lia]. unfold Zdigits2.
  rewrite (digits_is p 53) by lia. unfold fexp, SpecFloat.emin, prec, emax. replace (Z.max (53 + e - 53) (3 - 1024 - 53) - e) with 0 by lia. reflexivity.
Qed.
Lemma shr_fexp_1 m e l : 2 ^ 53 <= m < 2 ^ 54 -> -1074 <= e -> shr_fexp prec emax m e l = (shr_1 (shr_record_of_loc m l), e + 1).
Proof.
  intros Hm He. unfold shr_fexp. destruct m as [|p|p]; [lia| |lia]. unfold Zdigits2.
  rewrite (digits_is p 54) by lia. unfold fexp, SpecFloat.emin, prec, emax. replace (Z.max (54 + e - 53) (3 - 1024 - 53) - e) with 1 by lia. reflexivity.
Qed.
Lemma loc_roundtrip m l : shr_m (shr_record_of_loc m l) = m /\ loc_of_shr_record (shr_record_of_loc m l) = l.
Proof. destruct l as [|[]]; split; reflexivity. Qed.

(** rounding a number of 53 or 54 digits *)
Lemma aux_spec s N D mx ex lx : 0 < D -> located N D mx lx -> 2 ^ 52 <= mx < 2 ^ 54 -> -1074 <= ex <= 900 ->
  exists k m' m e, binary_round_aux prec emax s mx ex lx = S754_finite s m e /\ canon m e /\
    (k = 0 \/ k = 1) /\ 2 ^ (52 + k) <= mx < 2 ^ (53 + k) /\
    2 * Z.abs (m' * (D * 2 ^ k) - N) <= D * 2 ^ k /\
    (m' = Zpos m /\ e = ex + k \/ m' = 2 ^ 53 /\ Zpos m = 2 ^ 52 /\ e = ex + k + 1).
Proof.
  intros HD HL Hm He.
  assert (G : forall k D' m0 l0, (k = 0 \/ k = 1) -> D' = D * 2 ^ k -> located N D' m0 l0 -> 2 ^ 52 <= m0 < 2 ^ 53 ->
    exists m' m e, (let '(mrs'', e'') := shr_fexp prec emax (round_nearest_even m0 l0) (ex + k) loc_Exact in
       match shr_m mrs'' with Z0 => S754_zero s | Zpos m => if e'' <=? emax - prec then S754_finite s m e'' else S754_infinity s | Zneg _ => S754_nan end)
       = S754_finite s m e /\ canon m e /\ 2 * Z.abs (m' * D' - N) <= D' /\
    (m' = Zpos m /\ e = ex + k \/ m' = 2 ^ 53 /\ Zpos m = 2 ^ 52 /\ e = ex + k + 1)).
  { intros k D' m0 l0 Hk -> HL0 Hm0. destruct (round_near N (D * 2 ^ k) m0 l0) as [R1 R2]; [destruct Hk as [-> | ->]; lia|exact HL0|].
    set (m' := round_nearest_even m0 l0) in *. destruct (Z.eq_dec m' (2 ^ 53)) as [E|E].
    - assert (exists m, Zpos m = 2 ^ 52) as [m Em] by (exists (Z.to_pos (2 ^ 52)); reflexivity).
      exists m', m, (ex + k + 1). rewrite shr_fexp_1 by lia. rewrite E. 
      change (shr_m (shr_1 (shr_record_of_loc (2 ^ 53) loc_Exact))) with (2 ^ 52). rewrite <- Em. unfold emax, prec.
      destruct (Z.leb_spec (ex + k + 1) (1024 - 53)); [|lia]. split; [reflexivity|]. split; [split; lia|]. split; [rewrite <- E; exact R1|]. right. repeat split; lia.
    - rewrite shr_fexp_0 by lia. cbn [shr_record_of_loc shr_m]. destruct m' as [|m|m] eqn:EM; [lia| |lia]. exists (Zpos m), m, (ex + k).
      unfold emax, prec. destruct (Z.leb_spec (ex + k) (1024 - 53)); [|lia]. split; [reflexivity|]. split; [split; lia|]. split; [exact R1|]. left. split; lia. }
  unfold binary_round_aux. destruct (Z.lt_ge_cases mx (2 ^ 53)) as [L|L].
  - rewrite shr_fexp_0 by lia. destruct (loc_roundtrip mx lx) as [-> ->].
    destruct (G 0 D mx lx) as (m' & m & e & G1 & G2 & G3 & G4); [auto|lia|exact HL|lia|]. rewrite Z.add_0_r in G1.
    exists 0, m', m, e. rewrite Z.mul_1_r. split; [exact G1|]. split; [exact G2|]. split; [auto|]. split; [lia|]. split; [exact G3|exact G4].
  - rewrite shr_fexp_1 by lia. destruct (located_shift N D mx lx HD) as [S1 S2]; [lia|exact HL|].
    destruct (G 1 (2 * D) _ _ (or_intror eq_refl) ltac:(lia) S2) as (m' & m & e & G1 & G2 & G3 & G4).
    { rewrite S1. split; [apply Z.div_le_lower_bound; lia|apply Z.div_lt_upper_bound; lia]. }
    exists 1, m', m, e. split; [exact G1|]. split; [exact G2|]. split; [auto|]. split; [lia|]. split; [|exact G4].
    replace (D * 2 ^ 1) with (2 * D) by lia. exact G3.
Qed.

(** integers up to 2^53 are exact *)
Lemma of_Z_exact z : z <> 0 -> Z.abs z <= 2 ^ 53 ->
  exists m e, binary_normalize prec emax z 0 false = S754_finite (z <? 0) m e /\ 2 ^ 52 <= Zpos m < 2 ^ 53 /\ -52 <= e <= 1 /\
    Zpos m * 2 ^ (e + 52) = Z.abs z * 2 ^ 52 /\ (Z.abs z < 2 ^ 53 -> e <= 0).
Proof.
  intros Hz Hb.
  assert (G : forall s p, Zpos p <= 2 ^ 53 -> exists m e, binary_round prec emax s p 0 = S754_finite s m e /\ 2 ^ 52 <= Zpos m < 2 ^ 53 /\ -52 <= e <= 1 /\
    Zpos m * 2 ^ (e + 52) = Zpos p * 2 ^ 52 /\ (Zpos p < 2 ^ 53 -> e <= 0)).
  { intros s p Hp. destruct (Z.eq_dec (Zpos p) (2 ^ 53)) as [E|E].
    - assert (p = Z.to_pos (2 ^ 53)) as -> by (apply Pos2Z.inj; rewrite E; reflexivity).
      exists (Z.to_pos (2 ^ 52)), 1. split; [destruct s; vm_compute; reflexivity|]. split; [cbn; lia|]. split; [lia|]. split; [reflexivity|]. lia.
    - pose proof (digits_bounds p) as B. set (d := Zpos (digits2_pos p)) in *.
      assert (Hd : 1 <= d <= 53). { split; [unfold d; lia|]. destruct (Z.le_gt_cases d 53); [assumption|]. assert (2 ^ 53 <= 2 ^ (d - 1)) by (apply Z.pow_le_mono_r; lia). lia. }
      assert (SH : shl_align p 0 (fexp prec emax (Zpos (digits2_pos p) + 0)) = (Z.to_pos (Zpos p * 2 ^ (53 - d)), d - 53)).
      { unfold fexp, SpecFloat.emin, prec, emax. fold d. replace (Z.max (d + 0 - 53) (3 - 1024 - 53)) with (d - 53) by lia.
        unfold shl_align. rewrite Z.sub_0_r. destruct (d - 53) as [|q|q] eqn:Q.
        - replace (53 - d) with 0 by lia. rewrite Z.mul_1_r. reflexivity.
        - lia.
        - f_equal. apply Pos2Z.inj. rewrite shift_pos_correct, Z2Pos.id by nia. replace (53 - d) with (Zpos q) by lia. rewrite Zpower_pos_nat, Z.mul_comm. 
          f_equal. rewrite <- Zpower_pos_nat. reflexivity. }
      set (m := Z.to_pos (Zpos p * 2 ^ (53 - d))) in *.
      assert (Em : Zpos m = Zpos p * 2 ^ (53 - d)). { unfold m. rewrite Z2Pos.id; [reflexivity|]. assert (0 < 2 ^ (53 - d)) by (apply Z.pow_pos_nonneg; lia). nia. }
      assert (Hm : 2 ^ 52 <= Zpos m < 2 ^ 53).
      { rewrite Em. assert (0 < 2 ^ (53 - d)) by (apply Z.pow_pos_nonneg; lia).
        replace (2 ^ 52) with (2 ^ (d - 1) * 2 ^ (53 - d)) by (rewrite <- Z.pow_add_r by lia; f_equal; lia).
        replace (2 ^ 53) with (2 ^ d * 2 ^ (53 - d)) by (rewrite <- Z.pow_add_r by lia; f_equal; lia). nia. }
      exists m, (d - 53). unfold binary_round. rewrite SH. unfold binary_round_aux. rewrite shr_fexp_0 by lia. cbn [shr_record_of_loc shr_m loc_of_shr_record round_nearest_even].
      rewrite shr_fexp_0 by lia. cbn [shr_record_of_loc shr_m]. unfold emax, prec. destruct (Z.leb_spec (d - 53) (1024 - 53)); [|lia].
      split; [reflexivity|]. split; [exact Hm|]. split; [lia|]. split; [|lia]. rewrite Em, <- Z.mul_assoc, <- Z.pow_add_r by lia. f_equal. f_equal. lia. }
  destruct z as [|p|p]; [contradiction| |]; cbn [binary_normalize Z.abs] in *; apply G; exact Hb.
Qed.

Lemma div_loc D r N q : N = D * q + r -> 0 <= r < D -> located N D q (new_location D r).
Proof.
  intros E R. unfold new_location. destruct (Z.even D) eqn:EV.
  - unfold new_location_even. pose proof (Zeq_bool_if r 0) as Hr. destruct (Zeq_bool r 0); [exists 0; subst r; repeat split; lia|]. exists r. split; [exact E|]. split; [exact R|].
    split; [lia|]. destruct (2 * r ?= D); reflexivity.
  - unfold new_location_odd. pose proof (Zeq_bool_if r 0) as Hr. destruct (Zeq_bool r 0); [exists 0; subst r; repeat split; lia|]. exists r. split; [exact E|]. split; [exact R|].
    assert (OD : Z.odd D = true) by (rewrite <- Z.negb_even, EV; reflexivity). apply Z.odd_spec in OD. destruct OD as (h & OD).
    destruct (Z.compare_spec (2 * r + 1) D); (split; [lia|]).
    + apply Z.compare_lt_iff. lia.
    + apply Z.compare_lt_iff. lia.
    + apply Z.compare_gt_iff. lia.
Qed.

(** the floored quotient of two integers below 2^53 through binary64 *)
Lemma floor_near (A B T m' : Z) : 0 < A -> 0 < B -> 0 < T -> 2 * Z.abs (m' * B - A * T) <= B -> B < 2 * T ->
  m' / T = A / B /\ (- m') / T = (- A) / B.
Proof.
  intros HA HB HT H1 H2. split.
  - pose proof (Z.div_mod A B ltac:(lia)) as E. pose proof (Z.mod_pos_bound A B HB) as R. set (Q := A / B) in *. set (r := A mod B) in *. clearbody Q r.
    symmetry. apply (Z.div_unique_pos _ _ _ (m' - T * Q)); [|lia]. split.
    + assert (2 * (m' - T * Q) * B >= - B) by nia. nia.
    + assert (2 * (T * (Q + 1) - m') * B > 0) by nia. nia.
  - pose proof (Z.div_mod (- A) B ltac:(lia)) as E. pose proof (Z.mod_pos_bound (- A) B HB) as R. set (Q := (- A) / B) in *. set (r := (- A) mod B) in *. clearbody Q r.
    symmetry. apply (Z.div_unique_pos _ _ _ (- m' - T * Q)); [|lia]. split.
    + assert (2 * (- m' - T * Q) * B >= - B) by nia. nia.
    + assert (2 * (T * (Q + 1) + m') * B > 0) by nia. nia.
Qed.

Lemma f64_of_Z_sf z m e : z <> 0 -> binary_normalize prec emax z 0 false = S754_finite (z <? 0) m e -> canon m e ->
  sf_of_bits (f64_of_Z z) = S754_finite (z <? 0) m e.
Proof. intros _ E C. unfold f64_of_Z. rewrite E. apply sf_bits. exact C. Qed.
Lemma f64_of_0 : sf_of_bits (f64_of_Z 0) = S754_zero false.
Proof. reflexivity. Qed.

Lemma fdiv_floor a b : b <> 0 -> Z.abs a < 2 ^ 53 -> Z.abs b <= 2 ^ 53 ->
  f64_floor_Z (fdiv (f64_of_Z a) (f64_of_Z b)) = Some (a / b).
Proof.
  intros Hb Ba Bb. destruct (of_Z_exact b Hb Bb) as (m2 & e2 & E2 & M2 & R2 & V2 & _).
  pose proof (f64_of_Z_sf b m2 e2 Hb E2 ltac:(split; lia)) as S2.
  unfold fdiv. rewrite S2. destruct (Z.eq_dec a 0) as [->|Ha].
  { rewrite f64_of_0. cbn [SFdiv]. unfold f64_floor_Z. rewrite sf_bits_zero. rewrite Z.div_0_l by exact Hb. reflexivity. }
  destruct (of_Z_exact a Ha ltac:(lia)) as (m1 & e1 & E1 & M1 & R1 & V1 & L1). specialize (L1 Ba).
  rewrite (f64_of_Z_sf a m1 e1 Ha E1 ltac:(split; lia)). unfold SFdiv.
  set (s := xorb (a <? 0) (b <? 0)). set (A := Z.abs a) in *. set (B := Z.abs b) in *.
  assert (HA : 0 < A) by (unfold A; lia). assert (HB : 0 < B) by (unfold B; lia).
  assert (SB : SFdiv_core_binary prec emax (Zpos m1) e1 (Zpos m2) e2 =
     ((Zpos m1 * 2 ^ 53) / Zpos m2, e1 - e2 - 53, new_location (Zpos m2) ((Zpos m1 * 2 ^ 53) mod Zpos m2))).
  { unfold SFdiv_core_binary, Zdigits2. rewrite (digits_is m1 53), (digits_is m2 53) by lia. unfold fexp, SpecFloat.emin, prec, emax.
    replace (Z.min (Z.max (53 + e1 - (53 + e2) - 53) (3 - 1024 - 53)) (e1 - e2)) with (e1 - e2 - 53) by lia.
    replace (e1 - e2 - (e1 - e2 - 53)) with 53 by lia. rewrite Z.shiftl_mul_pow2 by lia. unfold Z.div, Z.modulo.
    destruct (Z.div_eucl (Zpos m1 * 2 ^ 53) (Zpos m2)). reflexivity. }
  rewrite SB. set (N := Zpos m1 * 2 ^ 53) in *. set (D := Zpos m2) in *. assert (HD : 0 < D) by (unfold D; lia).
  assert (DM := Z.div_mod N D ltac:(lia)). assert (MB := Z.mod_pos_bound N D HD).
  assert (QB : 2 ^ 52 <= N / D < 2 ^ 54).
  { split; [apply Z.div_le_lower_bound; unfold N; lia|apply Z.div_lt_upper_bound; unfold N; lia]. }
  destruct (aux_spec s N D (N / D) (e1 - e2 - 53) (new_location D (N mod D)) HD) as (k & m' & m & e & E & C & Hk & QK & NR & CASES);
    [apply div_loc; assumption|exact QB|lia|].
  rewrite E. unfold f64_floor_Z. rewrite (sf_bits s m e C). f_equal.
  (* in terms of A and B *)
  set (t := e2 - e1 + 53 - k). assert (Ht : 0 <= t) by (unfold t; lia).
  assert (HT : 0 < 2 ^ t) by (apply Z.pow_pos_nonneg; lia).
  assert (P1 : 0 < 2 ^ (e1 + 52)) by (apply Z.pow_pos_nonneg; lia). assert (P2 : 0 < 2 ^ (e2 + 52)) by (apply Z.pow_pos_nonneg; lia).
  assert (PK : 0 < 2 ^ k) by (apply Z.pow_pos_nonneg; lia).
  (* A * 2^t * 2^k * 2^(e1+52) = A * 2^53 * 2^(e2+52) *)
  assert (TK : 2 ^ t * 2 ^ k * 2 ^ (e1 + 52) = 2 ^ 53 * 2 ^ (e2 + 52)).
  { rewrite <- !Z.pow_add_r by lia. f_equal. unfold t. lia. }
  assert (AB : N * 2 ^ (e2 + 52) * B = D * 2 ^ (e2 + 52) * (A * 2 ^ t * 2 ^ k)).
  { assert (X1 : D * 2 ^ (e2 + 52) = B * 2 ^ 52) by exact V2. assert (X2 : Zpos m1 * 2 ^ (e1 + 52) = A * 2 ^ 52) by exact V1.
    rewrite X1. apply (Z.mul_reg_r _ _ (2 ^ (e1 + 52))); [lia|]. unfold N.
    transitivity (Zpos m1 * 2 ^ (e1 + 52) * (2 ^ 53 * 2 ^ (e2 + 52)) * B); [ring|]. rewrite X2, <- TK. ring. }
  assert (AB' : N * B = D * (A * 2 ^ t * 2 ^ k)) by (apply (Z.mul_reg_r _ _ (2 ^ (e2 + 52))); lia).
  assert (F1 : 2 * Z.abs (m' * B - A * 2 ^ t) <= B).
  { assert (Q : (m' * (D * 2 ^ k) - N) * B = (m' * B - A * 2 ^ t) * (D * 2 ^ k)) by (rewrite Z.mul_sub_distr_r, AB'; ring).
    assert (Q2 : Z.abs (m' * (D * 2 ^ k) - N) * B = Z.abs (m' * B - A * 2 ^ t) * (D * 2 ^ k)).
    { rewrite <- (Z.abs_eq B) at 1 by lia. rewrite <- Z.abs_mul, Q, Z.abs_mul. f_equal. apply Z.abs_eq. apply Z.mul_nonneg_nonneg; lia. }
    assert (Q3 : 0 < D * 2 ^ k) by (apply Z.mul_pos_pos; lia). apply (Z.mul_le_mono_pos_r _ _ (D * 2 ^ k)); [exact Q3|].
    rewrite <- Z.mul_assoc, <- Q2, Z.mul_assoc, (Z.mul_comm B). apply Z.mul_le_mono_nonneg_r; lia. }
  assert (F2 : B < 2 * 2 ^ t).
  { assert (X : 2 ^ (52 + k) * D <= N).
    { transitivity (N / D * D); [apply Z.mul_le_mono_nonneg_r; lia|]. lia. }
    rewrite Z.pow_add_r in X by lia.
    assert (Y : 2 ^ 52 * B <= A * 2 ^ t).
    { apply (Z.mul_le_mono_pos_r _ _ (D * 2 ^ k)); [apply Z.mul_pos_pos; lia|]. transitivity (N * B).
      - replace (2 ^ 52 * B * (D * 2 ^ k)) with (2 ^ 52 * 2 ^ k * D * B) by ring. apply Z.mul_le_mono_nonneg_r; lia.
      - rewrite AB'. apply Z.eq_le_incl. ring. }
    assert (Y2 : A * 2 ^ t < 2 ^ 53 * 2 ^ t) by (apply Z.mul_lt_mono_pos_r; lia). lia. }
  destruct (floor_near A B (2 ^ t) m' HA HB HT F1 F2) as [FP FN].
  assert (VAL : forall sg : Z, (if 0 <=? e then sg * Zpos m * 2 ^ e else (sg * Zpos m) / 2 ^ (- e)) = (sg * m') / 2 ^ t).
  { intros sg. destruct CASES as [[-> ->]|(-> & -> & ->)].
    - replace (e1 - e2 - 53 + k) with (- t) by (unfold t; lia). destruct (Z.leb_spec 0 (- t)).
      + replace t with 0 by lia. cbn [Z.opp]. change (2 ^ 0) with 1. rewrite Z.div_1_r. lia.
      + rewrite Z.opp_involutive. reflexivity.
    - replace (e1 - e2 - 53 + k + 1) with (1 - t) by (unfold t; lia). destruct (Z.leb_spec 0 (1 - t)).
      + destruct (Z.eq_dec t 0) as [T0|T0]; [rewrite T0; change (2 ^ 0) with 1; rewrite Z.div_1_r; change (2 ^ (1 - 0)) with 2; lia|].
        replace t with 1 by lia. change (2 ^ (1 - 1)) with 1. replace (sg * 2 ^ 53) with (sg * 2 ^ 52 * 2 ^ 1) by ring. rewrite Z.div_mul by lia. lia.
      + replace (- (1 - t)) with (t - 1) by lia. replace (sg * 2 ^ 53) with (sg * 2 ^ 52 * 2) by ring.
        assert (T1 : 2 ^ t = 2 ^ (t - 1) * 2) by (replace t with (Z.succ (t - 1)) at 1 by lia; rewrite Z.pow_succ_r by lia; ring). rewrite T1.
        rewrite Z.div_mul_cancel_r; [reflexivity| |lia]. apply Z.pow_nonzero; lia. }
  assert (SGN : (if s then Zneg m else Zpos m) = (if s then -1 else 1) * Zpos m) by (destruct s; lia). rewrite SGN, VAL.
  unfold s, A, B in *. destruct (Z.ltb_spec a 0), (Z.ltb_spec b 0); cbn [xorb].
  - rewrite Z.mul_1_l, FP, !Z.abs_neq by lia. apply Z.div_opp_opp. exact Hb.
  - replace (-1 * m') with (- m') by lia. rewrite FN, Z.abs_neq, Z.abs_eq, Z.opp_involutive by lia. reflexivity.
  - replace (-1 * m') with (- m') by lia. rewrite FN, Z.abs_eq, Z.abs_neq by lia. rewrite Z.div_opp_opp by exact Hb. reflexivity.
  - rewrite Z.mul_1_l, FP, !Z.abs_eq by lia. reflexivity.
Qed.

(** equal floats of integers up to 2^53 come from equal integers *)
Lemma finite_eq s1 m1 e1 s2 m2 e2 : SFcompare (S754_finite s1 m1 e1) (S754_finite s2 m2 e2) = Some Eq -> s1 = s2 /\ m1 = m2 /\ e1 = e2.
Proof.
  unfold SFcompare. destruct s1, s2; try discriminate.
  - destruct (Z.compare_spec e1 e2) as [->|H|H]; try discriminate. cbv iota. intros Q. injection Q as Q.
    destruct (Pos.compare_cont Eq m1 m2) eqn:W; try discriminate. apply Pos.compare_eq in W. subst. repeat split.
  - destruct (Z.compare_spec e1 e2) as [->|H|H]; try discriminate. cbv iota. intros Q. injection Q as Q.
    apply Pos.compare_eq in Q. subst. repeat split.
Qed.
Lemma f64_of_Z_inj_eq f a b : Z.abs a <= 2 ^ 53 -> Z.abs b <= 2 ^ 53 -> feq (f64_of_Z a) f = true -> feq (f64_of_Z b) f = true -> a = b.
Proof.
  intros Ha Hb. unfold feq, fcmp.
  assert (G : forall z, Z.abs z <= 2 ^ 53 -> match SFcompare (sf_of_bits (f64_of_Z z)) (sf_of_bits f) with Some Eq => true | _ => false end = true ->
    z = 0 /\ (exists s, sf_of_bits f = S754_zero s) \/
    exists m e, sf_of_bits f = S754_finite (z <? 0) m e /\ -52 <= e <= 1 /\ Zpos m * 2 ^ (e + 52) = Z.abs z * 2 ^ 52 /\ z <> 0).
  { intros z Hz H. destruct (Z.eq_dec z 0) as [->|Nz].
    - left. split; [reflexivity|]. rewrite f64_of_0 in H. destruct (sf_of_bits f) as [s|s| |s m e]; cbn in H; try (destruct s; discriminate); [eauto|discriminate].
    - right. destruct (of_Z_exact z Nz Hz) as (m & e & E & M & R & V & _). rewrite (f64_of_Z_sf z m e Nz E ltac:(split; lia)) in H.
      destruct (sf_of_bits f) as [s|s| |s m0 e0]; try (cbn in H; destruct s, (z <? 0); discriminate); try (cbn in H; discriminate).
      destruct (SFcompare (S754_finite (z <? 0) m e) (S754_finite s m0 e0)) as [[]|] eqn:Q; try discriminate.
      apply finite_eq in Q. destruct Q as (<- & <- & <-). exists m, e. auto. }
  intros H1 H2. apply (G a Ha) in H1. apply (G b Hb) in H2.
  destruct H1 as [[-> (s & S1)]|(m & e & S1 & R1 & V1 & N1)], H2 as [[-> (s' & S2)]|(m' & e' & S2 & R2 & V2 & N2)]; rewrite S1 in S2; try discriminate; [reflexivity|].
  injection S2 as Q <- <-. destruct (Z.ltb_spec a 0), (Z.ltb_spec b 0); try discriminate; lia.
Qed.
