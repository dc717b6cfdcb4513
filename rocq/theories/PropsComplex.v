(* Property C108: arithmetic with Complex numbers. *)
From Verif Require Import Base ProofsBase ModelValue ProofsValue ModelFloat ModelInt ProofsInt ProofsFloat ModelText ModelConvert ModelComplex SpecComplex.
Ltac Zify.zify_post_hook ::= Z.div_mod_to_equations.

(* r is a real with the integer value n *)
Definition rep (r : real) (n : Z) : Prop := r = RlBig n \/ (r = RlInt n /\ in_i64 n = true).
Lemma rep_of n : rep (real_of n) n.
Proof. unfold real_of. destruct (in_i63 n) eqn:E; [right|left; reflexivity]. split; [reflexivity|]. apply in_i63_spec in E. apply in_i64_spec. lia. Qed.
Lemma rep_integer n : rep (real_integer n) n.
Proof. unfold real_integer. destruct (in_i64 n) eqn:E; [right; auto|left; reflexivity]. Qed.
Lemma rep_val r n : rep r n -> into_val r = bignum n.
Proof. intros [->|[-> E]]; cbn; [reflexivity|]. apply in_i64_spec in E. apply integer_bignum. lia. Qed.
Lemma rep_op op fop r s a b : rep r a -> rep s b -> rep (real_op op fop r s) (op a b).
Proof.
  intros [->|[-> Ea]] [->|[-> Eb]]; cbn [real_op]; try apply rep_integer. unfold checked. destruct (in_i64 (op a b)) eqn:E; [right; auto|left; reflexivity].
Qed.
Lemma rep_neg r a : rep r a -> (in_i63 a = true \/ r = RlBig a) -> exists s, real_neg r = Ok s /\ rep s (- a).
Proof.
  intros [->|[-> E]] H; cbn; [eexists; split; [reflexivity|left; reflexivity]|]. destruct H as [H|H]; [|discriminate]. apply in_i63_spec in H. unfold checked.
  assert (E' : in_i64 (- a) = true) by (apply in_i64_spec; lia). rewrite E'. eexists. split; [reflexivity|right; auto].
Qed.
Lemma neg_of a : exists s, real_neg (real_of a) = Ok s /\ rep s (- a).
Proof. apply rep_neg; [apply rep_of|]. unfold real_of. destruct (in_i63 a); auto. Qed.
Lemma rep_div r s a b : rep r a -> rep s b -> 0 < b -> exists t, real_div r s = Ok t /\ rep t (a / b).
Proof.
  intros Ra Rb H. assert (N : (b =? 0) = false) by lia. destruct Ra as [->|[-> Ea]], Rb as [->|[-> Eb]]; cbn [real_div]; rewrite N; try (eexists; split; [reflexivity|apply rep_integer]).
  unfold checked. assert (E : in_i64 (a / b) = true). { apply in_i64_spec in Ea. apply in_i64_spec. split; [apply Z.div_le_lower_bound; nia|apply Z.div_lt_upper_bound; nia]. }
  rewrite E. eexists. split; [reflexivity|right; auto].
Qed.
Lemma rep_zero r a : rep r a -> real_is_zero r = (a =? 0).
Proof. intros [->|[-> _]]; reflexivity. Qed.
Lemma rep0 : rep (RlInt 0) 0.
Proof. right. split; reflexivity. Qed.
Lemma rep_inj r a b : rep r a -> rep r b -> a = b.
Proof. intros [->|[-> _]] [H|[H _]]; congruence. Qed.

Lemma parts_cx x : to_complex (cx x) = Ok (Some (real_of (fst x), real_of (snd x))).
Proof. unfold cx, to_complex. rewrite !to_real_bignum. reflexivity. Qed.
Lemma parts_small n : small n -> to_complex (int n) = Ok (Some (RlInt n, RlInt 0)).
Proof. intros H. unfold int, to_complex. rewrite unpack_bignum. apply in_i63_spec in H. rewrite H. reflexivity. Qed.
Lemma parts_big n : ~ small n -> to_complex (int n) = Ok None.
Proof. intros H. unfold int, to_complex. rewrite unpack_bignum. destruct (in_i63 n) eqn:E; [apply in_i63_spec in E; contradiction|reflexivity]. Qed.
Lemma small_rep n : small n -> rep (RlInt n) n.
Proof. intros H. right. split; [reflexivity|]. unfold small in H. apply in_i64_spec. lia. Qed.
#[local] Hint Resolve rep_of rep_op rep0 small_rep : core.
Lemma rep_cx r i a b x : rep r a -> rep i b -> x = (a, b) -> CX (into_val r) (into_val i) = cx x.
Proof. intros R I ->. unfold cx. cbn [fst snd]. rewrite (rep_val _ _ R), (rep_val _ _ I). reflexivity. Qed.
Ltac cxeq := f_equal; eapply rep_cx; [unfold radd, rsub, rmul, exp2; eauto 8|unfold radd, rsub, rmul, exp2; eauto 8|unfold gadd, gsub, gmul, gint; cbn [fst snd]; f_equal; ring].

Lemma with_cx {A} x y k : @with_parts A (cx x) (cx y) k = k (real_of (fst x)) (real_of (snd x)) (real_of (fst y)) (real_of (snd y)).
Proof. unfold with_parts. rewrite !parts_cx. reflexivity. Qed.

Lemma binop_cx f g h x r : binop f g h (cx x) r = g (cx x) r.
Proof. reflexivity. Qed.
Lemma binop_int f g h n x : binop f g h (int n) (cx x) = h (bignum n) (cx x).
Proof. unfold int, cx at 1, binop, is_num. rewrite to_real_bignum. reflexivity. Qed.

(* sums, differences and products are those of the integers *)
Theorem C108_arithmetic : forall x y,
  op_add (cx x) (cx y) = Ok (cx (gadd x y)) /\ op_sub (cx x) (cx y) = Ok (cx (gsub x y)) /\ op_mul (cx x) (cx y) = Ok (cx (gmul x y)).
Proof.
  intros x y. unfold op_add, op_sub, op_mul. rewrite !binop_cx.
  unfold complex_add, complex_sub, complex_mul. rewrite !with_cx. repeat split; cxeq.
Qed.
Example C108_arithmetic_example : op_mul (cx (2 ^ 62, -1)) (cx (3, 2 ^ 70)) = Ok (cx (3 * 2 ^ 62 + 2 ^ 70, 2 ^ 132 - 3)) /\ op_sub (cx (2 ^ 62, 5)) (cx (1, 7)) = Ok (CX (fixnum (2 ^ 62 - 1)) (fixnum (-2))).
Proof. split; vm_compute; reflexivity. Qed.
Print Assumptions C108_arithmetic.

(* so the laws of a ring hold for what the operators give *)
Theorem C108_ring : forall x y z, let a := cx x in let b := cx y in let c := cx z in
  op_add a b = op_add b a /\ op_mul a b = op_mul b a /\
  rbind (op_add a b) (fun s => op_add s c) = rbind (op_add b c) (fun s => op_add a s) /\
  rbind (op_mul a b) (fun p => op_mul p c) = rbind (op_mul b c) (fun p => op_mul a p) /\
  rbind (op_add b c) (fun s => op_mul a s) = rbind (op_mul a b) (fun p => rbind (op_mul a c) (fun q => op_add p q)) /\
  rbind (op_sub a b) (fun d => op_add d b) = Ok a.
Proof.
  assert (A : forall u v, op_add (cx u) (cx v) = Ok (cx (gadd u v))) by (intros; apply C108_arithmetic).
  assert (S : forall u v, op_sub (cx u) (cx v) = Ok (cx (gsub u v))) by (intros; apply C108_arithmetic).
  assert (M : forall u v, op_mul (cx u) (cx v) = Ok (cx (gmul u v))) by (intros; apply C108_arithmetic).
  intros [a1 a2] [b1 b2] [c1 c2] a b c. subst a b c. rewrite ?A, ?S, ?M. cbn [rbind]. rewrite ?A, ?S, ?M. cbn [rbind]. rewrite ?A, ?M.
  unfold gadd, gsub, gmul. cbn [fst snd]. repeat split; f_equal; f_equal; f_equal; ring.
Qed.
Example C108_ring_example : op_mul (cx (2, 3)) (cx (4, -5)) = Ok (cx (23, 2)).
Proof. vm_compute. reflexivity. Qed.
Print Assumptions C108_ring.

(* an Integer on the left or, if it is small, on the right *)
Theorem C108_mixed_partial : forall n x,
  op_add (int n) (cx x) = Ok (cx (gadd (gint n) x)) /\ op_sub (int n) (cx x) = Ok (cx (gsub (gint n) x)) /\ op_mul (int n) (cx x) = Ok (cx (gmul (gint n) x)) /\
  (small n -> op_add (cx x) (int n) = Ok (cx (gadd x (gint n))) /\ op_sub (cx x) (int n) = Ok (cx (gsub x (gint n))) /\ op_mul (cx x) (int n) = Ok (cx (gmul x (gint n)))).
Proof.
  intros n x. 
  unfold op_add, op_sub, op_mul. rewrite !binop_cx, !binop_int.
  split; [|split; [|split]].
  - unfold numeric_add. rewrite to_real_bignum, parts_cx. cbn [rbind]. cxeq.
  - unfold numeric_sub. rewrite to_real_bignum, parts_cx. cbn [rbind]. destruct (neg_of (snd x)) as (s & E & R). rewrite E. cbn [rbind]. cxeq.
  - unfold numeric_mul. rewrite to_real_bignum, parts_cx. cbn [rbind]. cxeq.
  - intros SM. unfold complex_add, complex_sub, complex_mul, with_parts. rewrite parts_cx, (parts_small n SM). cbn [rbind]. repeat split; cxeq.
Qed.
Example C108_mixed_example : op_sub (int (2 ^ 80)) (cx (1, - 2 ^ 63)) = Ok (cx (2 ^ 80 - 1, 2 ^ 63)) /\ small (2 ^ 62 - 1) /\ op_mul (cx (3, 4)) (int (-2)) = Ok (cx (-6, -8)).
Proof. split; [vm_compute; reflexivity|]. split; [unfold small; lia|vm_compute; reflexivity]. Qed.
Print Assumptions C108_mixed_partial.
(* a larger Integer on the right is refused by every operator *)
Theorem C108_mixed_refuted : exists n, forall x, op_add (cx x) (int n) = Err TypeErr /\ op_sub (cx x) (int n) = Err TypeErr /\ op_mul (cx x) (int n) = Err TypeErr /\ op_div (cx x) (int n) = Err TypeErr /\
  exists z, op_add (int n) (cx x) = Ok z.
Proof.
  exists (2 ^ 62). intros x. assert (B : to_complex (int (2 ^ 62)) = Ok None) by (apply parts_big; unfold small; lia).
  unfold op_add, op_sub, op_mul, op_div. rewrite !binop_cx.
  unfold complex_add, complex_sub, complex_mul, complex_div, with_parts. rewrite parts_cx, B. cbn [rbind]. repeat split. eexists. exact (proj1 (C108_mixed_partial (2 ^ 62) x)).
Qed.
Print Assumptions C108_mixed_refuted.

(* sums and differences with Float parts: part by part what + and - give *)
Lemma number_cases v : number v -> (exists n, v = bignum n) \/ (as_fixnum v = None /\ exists f, to_real v = Some (RlFloat f) /\ (as_flonum v = Some f \/ as_flonum v = None)).
Proof.
  intros [[n ->]|(b & B & ->)]; [left; eauto|right]. destruct (float b) as [w|o] eqn:E.
  - destruct (float_immediate b w B E) as [M _]. pose proof (float_word_not_fix w M) as F. split; [exact F|]. cbn [as_flonum].
    assert (L : exists f, as_flonum_word w = Some f). { unfold as_flonum_word. rewrite land_3. replace (w mod 4 =? 2) with true by lia. destruct (w =? ZERO); eauto. }
    destruct L as [f L]. exists f. split; [|left; exact L]. unfold to_real, unpack. rewrite F, L. reflexivity.
  - split; [reflexivity|]. assert (o = HFloat b). { revert E. unfold float. destruct (f64_is_zero b); [discriminate|]. cbn zeta. destruct (_ =? 4); [discriminate|congruence]. }
    subst o. exists b. split; [reflexivity|right; reflexivity].
Qed.
Lemma invoke_real op fop u v : lin op -> number u -> number v -> exists a b, to_real u = Some a /\ to_real v = Some b /\ invoke_op op fop u v = Ok (into_val (real_op op fop a b)).
Proof.
  intros L Nu Nv. apply number_cases in Nu, Nv.
  assert (NO : forall a b, to_real u = Some a -> to_real v = Some b -> numeric_op op fop u v = Ok (into_val (real_op op fop a b))) by (intros a b Ea Eb; unfold numeric_op; rewrite Ea, Eb; reflexivity).
  destruct Nu as [[n ->]|(Fu & f & Ru & Du)], Nv as [[m ->]|(Fv & g & Rv & Dv)].
  - exists (real_of n), (real_of m). rewrite !to_real_bignum, real_op_of. split; [reflexivity|]. split; [reflexivity|]. apply invoke_op_bignum. exact L.
  - exists (real_of n), (RlFloat g). rewrite to_real_bignum. split; [reflexivity|]. split; [exact Rv|]. specialize (NO _ _ (to_real_bignum n) Rv). unfold invoke_op. rewrite as_fixnum_bignum, as_flonum_bignum, Fv.
    unfold real_of in *. destruct (in_i63 n) eqn:E; [|exact NO]. rewrite (bignum_fix n E) in *. destruct Dv as [Dv|Dv]; rewrite Dv; [reflexivity|exact NO].
  - exists (RlFloat f), (real_of m). rewrite to_real_bignum. split; [exact Ru|]. split; [reflexivity|]. specialize (NO _ _ Ru (to_real_bignum m)). unfold invoke_op. rewrite Fu, as_flonum_bignum, as_fixnum_bignum.
    unfold real_of in *. destruct Du as [Du|Du]; rewrite Du; [|exact NO]. destruct (in_i63 m); [reflexivity|exact NO].
  - exists (RlFloat f), (RlFloat g). split; [exact Ru|]. split; [exact Rv|]. specialize (NO _ _ Ru Rv). unfold invoke_op. rewrite Fu, Fv. destruct Du as [Du|Du]; rewrite Du; [|exact NO]. destruct Dv as [Dv|Dv]; rewrite Dv; [reflexivity|exact NO].
Qed.
Theorem C108_parts : forall r1 i1 r2 i2, number r1 -> number i1 -> number r2 -> number i2 ->
  (exists r i, invoke_add r1 r2 = Ok r /\ invoke_add i1 i2 = Ok i /\ op_add (CX r1 i1) (CX r2 i2) = Ok (CX r i)) /\
  (exists r i, invoke_sub r1 r2 = Ok r /\ invoke_sub i1 i2 = Ok i /\ op_sub (CX r1 i1) (CX r2 i2) = Ok (CX r i)).
Proof.
  intros r1 i1 r2 i2 N1 N2 N3 N4. split.
  - destruct (invoke_real Z.add fadd r1 r2 lin_add N1 N3) as (a & c & Ea & Ec & E1). destruct (invoke_real Z.add fadd i1 i2 lin_add N2 N4) as (b & d & Eb & Ed & E2).
    exists (into_val (real_op Z.add fadd a c)), (into_val (real_op Z.add fadd b d)). split; [exact E1|]. split; [exact E2|]. unfold op_add, binop, complex_add, with_parts, to_complex. rewrite Ea, Eb, Ec, Ed. reflexivity.
  - destruct (invoke_real Z.sub fsub r1 r2 lin_sub N1 N3) as (a & c & Ea & Ec & E1). destruct (invoke_real Z.sub fsub i1 i2 lin_sub N2 N4) as (b & d & Eb & Ed & E2).
    exists (into_val (real_op Z.sub fsub a c)), (into_val (real_op Z.sub fsub b d)). split; [exact E1|]. split; [exact E2|]. unfold op_sub, binop, complex_sub, with_parts, to_complex. rewrite Ea, Eb, Ec, Ed. reflexivity.
Qed.
(* (1 + 1.5i) + (2 + 4.5i) = 3 + 6.0i *)
Example C108_parts_example : number (float 0x3ff8000000000000) /\ number (bignum 1) /\ op_add (CX (bignum 1) (float 0x3ff8000000000000)) (CX (bignum 2) (float 0x4012000000000000)) = Ok (CX (bignum 3) (float 0x4018000000000000)).
Proof. split; [right; eexists; split; [|reflexivity]; lia|]. split; [left; eauto|vm_compute; reflexivity]. Qed.
Print Assumptions C108_parts.

(* division: each part rounded down, so exact where the quotient is a Complex
   with Integer parts *)
Lemma div_parts x y : gnorm y <> 0 -> op_div (cx x) (cx y) = Ok (cx ((fst x * fst y + snd x * snd y) / gnorm y, (snd x * fst y - fst x * snd y) / gnorm y)).
Proof.
  intros NZ. assert (P : 0 < gnorm y) by (unfold gnorm in *; nia). unfold op_div. rewrite binop_cx. unfold complex_div. rewrite with_cx.
  assert (RN : rep (radd (exp2 (real_of (fst y))) (exp2 (real_of (snd y)))) (gnorm y)) by (unfold radd, exp2, rmul, gnorm; eauto).
  destruct (rep_div (radd (rmul (real_of (fst y)) (real_of (fst x))) (rmul (real_of (snd y)) (real_of (snd x)))) _ (fst y * fst x + snd y * snd x) _ ltac:(unfold radd, rmul; eauto 8) RN P) as (t & E & R). rewrite E. cbn [rbind].
  destruct (rep_div (rsub (rmul (real_of (fst y)) (real_of (snd x))) (rmul (real_of (fst x)) (real_of (snd y)))) _ (fst y * snd x - fst x * snd y) _ ltac:(unfold rsub, rmul; eauto 8) RN P) as (t' & E' & R'). rewrite E'. cbn [rbind]. f_equal. apply (rep_cx _ _ _ _ _ R R'). f_equal; f_equal; ring.
Qed.
Theorem C108_division_partial : forall q y, gnorm y <> 0 -> op_div (cx (gmul q y)) (cx y) = Ok (cx q).
Proof.
  intros q y NZ. rewrite div_parts by exact NZ. f_equal. f_equal. destruct q as [a b], y as [c d]. unfold gmul, gnorm in *. cbn [fst snd] in *. f_equal.
  - replace ((a * c - b * d) * c + (a * d + b * c) * d) with (a * (c * c + d * d)) by ring. apply Z.div_mul. exact NZ.
  - replace ((a * d + b * c) * c - (a * c - b * d) * d) with (b * (c * c + d * d)) by ring. apply Z.div_mul. exact NZ.
Qed.
Example C108_division_example : gnorm (2, 3) <> 0 /\ op_div (cx (14, -5)) (cx (2, 3)) = Ok (cx (1, -4)) /\ gmul (1, -4) (2, 3) = (14, -5).
Proof. split; [vm_compute; discriminate|]. split; vm_compute; reflexivity. Qed.
Print Assumptions C108_division_partial.
(* an Integer divided by a Complex: Floats; rounded down they are the exact parts rounded down *)
Lemma real_f64 r n : rep r n -> real_to_f64 r = f64_of_Z n.
Proof. intros [->|[-> _]]; reflexivity. Qed.
Theorem C108_int_division_partial : forall n y, gnorm y <> 0 -> Z.abs (n * fst y) < 2 ^ 53 -> Z.abs (n * snd y) < 2 ^ 53 -> gnorm y <= 2 ^ 53 ->
  exists a b, op_div (int n) (cx y) = Ok (CX (float a) (float b)) /\ ModelInt.f64_floor_Z a = Some ((n * fst y) / gnorm y) /\ ModelInt.f64_floor_Z b = Some ((- (n * snd y)) / gnorm y).
Proof.
  intros n y NZ H1 H2 H3. assert (P : 0 < gnorm y) by (unfold gnorm in *; nia).
  assert (RN : rep (radd (exp2 (real_of (fst y))) (exp2 (real_of (snd y)))) (gnorm y)) by (unfold radd, exp2, rmul, gnorm; eauto 8).
  destruct (neg_of n) as (s & E & R).
  assert (RA : rep (rmul (real_of n) (real_of (fst y))) (n * fst y)) by (unfold rmul; eauto 8).
  assert (RB : rep (rmul s (real_of (snd y))) (- (n * snd y))) by (replace (- (n * snd y)) with (- n * snd y) by ring; unfold rmul; eauto 8).
  exists (fdiv (f64_of_Z (n * fst y)) (f64_of_Z (gnorm y))), (fdiv (f64_of_Z (- (n * snd y))) (f64_of_Z (gnorm y))).
  split; [|split; apply fdiv_floor; lia].
  unfold op_div. rewrite binop_int. unfold numeric_div_complex. rewrite to_real_bignum, parts_cx. cbn [rbind]. cbv zeta.
  assert (Z0 : real_is_zero (radd (exp2 (real_of (fst y))) (exp2 (real_of (snd y)))) = false) by (destruct RN as [->|[-> _]]; cbn; lia).
  rewrite Z0, E. cbn [rbind]. unfold divide. rewrite (real_f64 _ _ RA), (real_f64 _ _ RB), (real_f64 _ _ RN). reflexivity.
Qed.
Example C108_int_division_example : exists a b, op_div (int 25) (cx (3, -4)) = Ok (CX (float a) (float b)) /\ ModelInt.f64_floor_Z a = Some 3 /\ ModelInt.f64_floor_Z b = Some 4.
Proof. apply (C108_int_division_partial 25 (3, -4)); vm_compute; congruence. Qed.
Print Assumptions C108_int_division_partial.
(* else the quotient is wrong; division by zero stops the interpreter; an Integer
   divided by a Complex has Float parts, which lose digits *)
Theorem C108_division_refuted : (exists x y q, gnorm y <> 0 /\ op_div (cx x) (cx y) = Ok (cx q) /\ gmul q y <> x) /\
  (exists x y, gnorm y = 0 /\ op_div (cx x) (cx y) = Panic) /\
  (exists n m, n <> m /\ op_div (int n) (cx (1, 0)) = op_div (int m) (cx (1, 0)) /\ exists z, op_div (int n) (cx (1, 0)) = Ok z).
Proof.
  split; [exists (1, 2), (3, 4), (0, 0); split; [vm_compute; discriminate|]; split; [vm_compute; reflexivity|vm_compute; discriminate]|].
  split; [exists (1, 2), (0, 0); split; vm_compute; reflexivity|]. exists (2 ^ 53), (2 ^ 53 + 1). split; [vm_compute; discriminate|]. split; [vm_compute; reflexivity|eexists; vm_compute; reflexivity].
Qed.
Print Assumptions C108_division_refuted.

(* equality of Complex numbers; == with an Integer literal on the right *)
Lemma real_eq_of a b : real_eq (real_of a) (real_of b) = (a =? b).
Proof.
  unfold real_of. destruct (in_i63 a) eqn:A, (in_i63 b) eqn:B; cbn [real_eq]; try reflexivity; symmetry; apply Z.eqb_neq; intros ->; congruence.
Qed.
Theorem C108_eq_partial : forall x y n,
  op_eq false (cx x) (cx y) = Ok ((fst x =? fst y) && (snd x =? snd y)) /\ op_eq true (cx x) (cx x) = Ok true /\
  complex_eq (cx x) (cx y) = Ok ((fst x =? fst y) && (snd x =? snd y)) /\
  (- 2 ^ 31 <= n < 2 ^ 31 -> op_eqi (cx x) n = Ok ((fst x =? n) && (snd x =? 0))).
Proof.
  intros x y n. split; [unfold op_eq, cx; rewrite !to_real_bignum, !real_eq_of; reflexivity|]. split; [reflexivity|]. split; [unfold complex_eq; rewrite with_cx, !real_eq_of; reflexivity|].
  intros H. unfold op_eqi, cx. fold (cx x). unfold complex_eq, with_parts. rewrite parts_cx. replace (CV (integer n)) with (int n) by (unfold int; rewrite integer_bignum by lia; reflexivity).
  rewrite (parts_small n) by (unfold small; lia). cbn [rbind]. assert (E : forall m, in_i63 m = true -> RlInt m = real_of m) by (intros m Hm; unfold real_of; rewrite Hm; reflexivity).
  rewrite (E n) by (apply in_i63_spec; lia). rewrite (E 0) by reflexivity. rewrite !real_eq_of. reflexivity.
Qed.
Example C108_eq_example : op_eq false (cx (2 ^ 70, 1)) (cx (2 ^ 70, 1)) = Ok true /\ op_eqi (cx (3, 0)) 3 = Ok true /\ op_eqi (cx (3, 1)) 3 = Ok false.
Proof. vm_compute. auto. Qed.
Print Assumptions C108_eq_partial.
(* Complex(n, 0) == n: true for a literal, false for the same number in a
   variable; n == Complex(n, 0) is never true; and the method == of Complex does
   not answer for what is no number *)
Theorem C108_eq_refuted : (exists n, op_eqi (cx (n, 0)) n = Ok true /\ op_eq false (cx (n, 0)) (int n) = Ok false /\ op_eq false (int n) (cx (n, 0)) = Ok false) /\ exists x, complex_eq (cx x) (CV nil) = Err TypeErr.
Proof. split; [exists 3; vm_compute; auto|exists (1, 2); vm_compute; reflexivity]. Qed.
Print Assumptions C108_eq_refuted.
(* <, <=, > and >= with a Complex on the left stop the interpreter *)
Theorem C108_order_refuted : exists op x n, op_cmp op (cx x) (int n) = Panic.
Proof. exists Lt', (1, 2), 3. reflexivity. Qed.
Print Assumptions C108_order_refuted.

(* making one and taking it apart *)
Theorem C108_parts_back_partial : forall a b, small a -> small b ->
  make_rect [int a; int b] = Ok (cx (a, b)) /\ make_rect [int a] = Ok (cx (a, 0)) /\ kernel_complex [int a; int b] None = Ok (cx (a, b)) /\ kernel_complex [int a] None = Ok (cx (a, 0)) /\ (forall t, kernel_complex [int a; int b] (Some t) = Ok (cx (a, b))).
Proof.
  assert (R : forall n, small n -> is_real (int n) = true) by (intros n H; unfold is_real, int; rewrite unpack_bignum; apply in_i63_spec in H; rewrite H; reflexivity).
  assert (Z0 : integer 0 = bignum 0) by (apply integer_bignum; lia).
  intros a b A B. pose proof (R a A) as Ra. pose proof (R b B) as Rb. pose proof (R 0 ltac:(unfold small; lia)) as R0. unfold make_rect, kernel_complex. rewrite Z0. change (CV (bignum 0)) with (int 0). rewrite !Ra, !Rb, !R0. cbn [negb orb part int]. repeat split; reflexivity.
Qed.
Theorem C108_not_real : forall x y z, is_real (CV x) = false -> make_rect [CV x] = Err TypeErr /\ make_rect [CV x; y] = Err TypeErr /\ (forall t, make_rect [CV t; CV x] = Err TypeErr) /\ kernel_complex [CV x] None = Err ArgErr /\ kernel_complex [CV x; z] None = Err ArgErr /\ kernel_complex [z; CV x] None = Err ArgErr /\ kernel_complex [CV x; z] (Some false) = Ok (CV nil) /\ kernel_complex [z; CV x] (Some false) = Ok (CV nil).
Proof.
  intros x y z H. unfold make_rect, kernel_complex. rewrite H. cbn [negb orb]. repeat split; try reflexivity; try (rewrite orb_true_r; reflexivity). intros t. destruct (is_real (CV t)); reflexivity.
Qed.
(* what rect and abs2 give, and the text *)
Theorem C108_rect_abs2 : forall x, complex_rect (cx x) = Ok (bignum (fst x), bignum (snd x)) /\ complex_abs2 (cx x) = Ok (bignum (gnorm x)).
Proof.
  intros x. unfold complex_rect, complex_abs2. rewrite parts_cx. cbn [rbind]. split; [rewrite (rep_val _ _ (rep_of (fst x))), (rep_val _ _ (rep_of (snd x))); reflexivity|].
  f_equal. apply rep_val. unfold radd, exp2, rmul, gnorm. eauto.
Qed.
Theorem C108_inspect_partial : forall x s t, integer_to_s (bignum (fst x)) = Ok s -> integer_to_s (bignum (snd x)) = Ok t ->
  complex_inspect (cx x) = Ok ([40] ++ s ++ (if snd x <? 0 then [] else [43]) ++ t ++ [105; 41]).
Proof.
  intros [a b] s t. unfold integer_to_s, complex_inspect, cx. cbn [fst snd]. rewrite !to_real_bignum.
  assert (T : forall n u, match real_of n with RlInt i => Ok (int_text i) | RlBig m => Ok (int_text m) | RlFloat _ => Err OtherErr end = Ok u -> real_text (real_of n) = Ok u) by (intros n u; unfold real_of; destruct (in_i63 n); auto).
  assert (T' : forall n u, match real_of n with RlBig m => Ok (int_text m) | RlInt i => Ok (int_text i) | RlFloat _ => Err OtherErr end = Ok u -> real_text (real_of n) = Ok u) by (intros n u; unfold real_of; destruct (in_i63 n); auto).
  intros S U. apply T in S. apply T in U. rewrite S, U. cbn [rbind].
  assert (N : is_negative (real_of b) = (b <? 0)). { unfold real_of. destruct (in_i63 b) eqn:E; [reflexivity|]. cbn [is_negative]. destruct (Z.eq_dec b 0) as [->|]; [discriminate E|]. lia. }
  rewrite N. reflexivity.
Qed.
Example C108_make_example : small 3 /\ make_rect [int 3; int (-4)] = Ok (cx (3, -4)) /\ complex_abs2 (cx (2 ^ 40, 1)) = Ok (bignum (2 ^ 80 + 1)) /\ is_real (CV nil) = false /\ complex_inspect (cx (3, -4)) = Ok [40; 51; 45; 52; 105; 41] /\ complex_inspect (cx (0, 0)) = Ok [40; 48; 43; 48; 105; 41] /\ integer_to_s (bignum 3) = Ok [51].
Proof. split; [unfold small; lia|]. vm_compute. auto 10. Qed.
Print Assumptions C108_parts_back_partial.
Print Assumptions C108_not_real.
Print Assumptions C108_rect_abs2.
Print Assumptions C108_inspect_partial.
(* a large Integer is no real number for Complex() and Complex.rect, though it is
   one for the arithmetic *)
Theorem C108_make_refuted : exists n, make_rect [int n] = Err TypeErr /\ kernel_complex [int n] None = Err ArgErr /\ exists z, op_add (cx (n - 1, 0)) (cx (1, 0)) = Ok z /\ z = cx (n, 0).
Proof. exists (2 ^ 62). split; [vm_compute; reflexivity|]. split; [vm_compute; reflexivity|]. eexists. split; [apply C108_arithmetic|]. vm_compute. reflexivity. Qed.
Print Assumptions C108_make_refuted.
