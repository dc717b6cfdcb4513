From Coq Require Import String Ascii ZArith List Bool Lia.
From Verif Require Import Base ProofsBase ModelText ModelParse ModelLexer ProofsText SpecLexer ProofsLexer ProofsLexer2 ProofsLexer3.
Import ListNotations.
Open Scope Z_scope.

(** * Escapes *)
Lemma hex_value_digit c d : hex_value c = Some d <-> digit 16 c d.
Proof.
  unfold hex_value, within. split.
  - destruct ((48 <=? c) && (c <=? 57)) eqn:A.
    { intros Q. injection Q as <-. replace c with (48 + (c - 48)) at 1 by lia. constructor; lia. }
    destruct ((97 <=? c) && (c <=? 102)) eqn:B.
    { intros Q. injection Q as <-. replace c with (87 + (c - 87)) at 1 by lia. constructor; lia. }
    destruct ((65 <=? c) && (c <=? 70)) eqn:C; [|discriminate].
    intros Q. injection Q as <-. replace c with (55 + (c - 55)) at 1 by lia. constructor; lia.
  - intros H. inversion H; subst.
    + yes_if. f_equal. lia.
    + no_if. yes_if. f_equal. lia.
    + no_if. no_if. yes_if. f_equal. lia.
Qed.
Lemma hex_cons n s v : hex_digits n s v -> forall c d, digit 16 c d -> hex_digits (S n) (c :: s) (d * 16 ^ Z.of_nat n + v).
Proof.
  induction 1 as [|n s v x y _ IH Hx]; intros c d Hc.
  - replace (d * 16 ^ Z.of_nat 0 + 0) with (0 * 16 + d) by (cbn; lia). apply (H_digit 0 [] 0); [constructor|exact Hc].
  - replace (d * 16 ^ Z.of_nat (S n) + (v * 16 + y)) with ((d * 16 ^ Z.of_nat n + v) * 16 + y)
      by (rewrite Nat2Z.inj_succ, Z.pow_succ_r by lia; lia).
    apply (H_digit (S n) (c :: s)); [apply IH; exact Hc|exact Hx].
Qed.
Lemma hexes_sound n : forall acc s v r, hexes n acc s = Some (v, r) ->
  exists h w, s = h ++ r /\ hex_digits n h w /\ v = acc * 16 ^ Z.of_nat n + w.
Proof.
  induction n as [|n IH]; intros acc s v r H.
  - injection H as <- <-. exists [], 0. split; [reflexivity|]. split; [constructor|]. cbn. lia.
  - cbn [hexes] in H. destruct s as [|c s]; [discriminate|]. destruct (hex_value c) as [d|] eqn:E; [|discriminate].
    apply hex_value_digit in E. apply IH in H. destruct H as (h & w & -> & D & ->).
    exists (c :: h), (d * 16 ^ Z.of_nat n + w). split; [reflexivity|]. split; [apply hex_cons; assumption|].
    rewrite Nat2Z.inj_succ, Z.pow_succ_r by lia. lia.
Qed.
Lemma hexes_snoc n : forall acc s, hexes (S n) acc s = match hexes n acc s with Some (v, r) => hexes 1 v r | None => None end.
Proof.
  induction n as [|n IH]; intros acc s; [reflexivity|].
  transitivity (match s with c :: r => match hex_value c with Some d => hexes (S n) (acc * 16 + d) r | None => None end | [] => None end).
  { reflexivity. }
  destruct s as [|c s]; [reflexivity|]. destruct (hex_value c) as [d|] eqn:E; [rewrite IH|]; cbn [hexes]; rewrite E; reflexivity.
Qed.
Lemma hexes_ok n h w : hex_digits n h w -> forall acc r, hexes n acc (h ++ r) = Some (acc * 16 ^ Z.of_nat n + w, r).
Proof.
  induction 1 as [|n s v x y _ IH Hx]; intros acc r.
  - cbn. do 2 f_equal. lia.
  - rewrite <- app_assoc, hexes_snoc, IH. cbn [app hexes]. apply hex_value_digit in Hx. rewrite Hx.
    rewrite Nat2Z.inj_succ, Z.pow_succ_r by lia. do 2 f_equal. lia.
Qed.
Lemma hex_bound n h w : hex_digits n h w -> 0 <= w < 16 ^ Z.of_nat n.
Proof.
  induction 1 as [|n s v x y _ IH Hx]; [cbn; lia|]. rewrite Nat2Z.inj_succ, Z.pow_succ_r by lia.
  assert (0 <= y < 16) by (inversion Hx; subst; lia). lia.
Qed.
Lemma mod8 k d : 0 <= d < 8 -> (k * 8) mod 256 + d = (k * 8 + d) mod 256.
Proof.
  intros H. pose proof (Z.div_mod (k * 8) 256 ltac:(lia)) as A. pose proof (Z.mod_pos_bound (k * 8) 256 ltac:(lia)) as B.
  apply (Z.mod_unique _ _ (k * 8 / 256)); [|lia]. left. split; [lia|].
  assert (C : (k * 8) mod 256 = 8 * (k mod 32)) by (rewrite (Z.mul_comm k); change 256 with (8 * 32); apply Z.mul_mod_distr_l; lia).
  pose proof (Z.mod_pos_bound k 32 ltac:(lia)). lia.
Qed.
Lemma oct_char c : ascii_octal c = true <-> octal c.
Proof. cls. lia. Qed.
Lemma octals_sound c s v r : octal c -> octals 2 (c - 48) s = (v, r) ->
  exists e, c :: s = e ++ r /\ e <> [] /\ Forall octal e /\ (length e <= 3)%nat /\ ((length e < 3)%nat -> ~ starts octal r) /\
    v = octal_value e mod 256.
Proof.
  intros Hc. cbn [octals]. assert (Bc : 0 <= c - 48 < 8) by (cls; lia).
  assert (ONE : octal_value [c] mod 256 = c - 48) by (cbn [octal_value length]; change (8 ^ Z.of_nat 0) with 1; rewrite Z.mod_small; lia).
  destruct s as [|c1 s].
  { intros Q. injection Q as <- <-. exists [c]. conj; try discriminate; try (cbn; lia). }
  destruct (ascii_octal c1) eqn:O1.
  2:{ intros Q. injection Q as <- <-. exists [c]. conj; try discriminate; try (cbn; lia).
      intros _ Q. apply oct_char in Q. congruence. }
  apply oct_char in O1. assert (B1 : 0 <= c1 - 48 < 8) by (cls; lia).
  assert (E1 : ((c - 48) * 8) mod 256 + (c1 - 48) = (c - 48) * 8 + (c1 - 48)) by (rewrite mod8 by lia; apply Z.mod_small; lia).
  rewrite E1.
  assert (TWO : octal_value [c; c1] mod 256 = (c - 48) * 8 + (c1 - 48)).
  { cbn [octal_value length]. change (8 ^ Z.of_nat 1) with 8. change (8 ^ Z.of_nat 0) with 1. rewrite Z.mod_small; lia. }
  destruct s as [|c2 s].
  { intros Q. injection Q as <- <-. exists [c; c1]. conj; try discriminate; try (cbn; lia). }
  destruct (ascii_octal c2) eqn:O2.
  2:{ intros Q. injection Q as <- <-. exists [c; c1]. conj; try discriminate; try (cbn; lia).
      intros _ Q. apply oct_char in Q. congruence. }
  apply oct_char in O2. assert (B2 : 0 <= c2 - 48 < 8) by (cls; lia).
  intros Q. injection Q as <- <-. exists [c; c1; c2]. conj; try discriminate; try (cbn; lia).
Qed.
Lemma read_escape_sound s x r : ~ starts newline s -> read_escape s = Some (x, r) -> exists e, s = e ++ r /\ escape e x r.
Proof.
  intros NN. unfold read_escape. destruct s as [|c s]; [discriminate|]. cbn in NN.
  destruct ((c =? 39) || (c =? 34) || (c =? 63) || (c =? 92)) eqn:E0.
  { intros Q. injection Q as <- <-. exists [c]. split; [reflexivity|]. unfold newline in NN.
    apply Esc_other; cls; cbn; lia. }
  repeat match goal with
  | |- (if c =? ?n then Some (?v, s) else _) = _ -> _ =>
      destruct (Z.eqb_spec c n) as [->|]; [intros Q; injection Q as <- <-; exists [n]; split; [reflexivity|]; apply Esc_named; cbn; auto 20|]
  end.
  destruct (Z.eqb_spec c 120) as [->|].
  { intros Q. apply hexes_sound in Q. destruct Q as (h & w & -> & D & ->). exists (120 :: h). split; [reflexivity|].
    rewrite Z.mul_0_l, Z.add_0_l. apply Esc_hex. exact D. }
  destruct (Z.eqb_spec c 117) as [->|].
  { destruct (hexes 4 0 s) as [[u r']|] eqn:H; [|discriminate]. apply hexes_sound in H. destruct H as (h & w & -> & D & ->).
    rewrite Z.mul_0_l, Z.add_0_l. destruct (scalar w) eqn:S; [|discriminate]. intros Q. injection Q as <- <-.
    exists (117 :: h). split; [reflexivity|]. apply Esc_unicode; [exact D|]. unfold scalar, within in S. lia. }
  destruct (ascii_octal c) eqn:O.
  { apply oct_char in O. intros Q. destruct (octals 2 (c - 48) s) as [v r'] eqn:E. injection Q as <- <-.
    apply octals_sound in E; [|exact O]. destruct E as (e & -> & A & B & C & D & ->). exists e. split; [reflexivity|].
    apply Esc_octal; assumption. }
  intros Q. injection Q as <- <-. exists [c]. split; [reflexivity|]. unfold newline in NN. apply Esc_other; auto.
  - intros H. apply oct_char in H. congruence.
  - cbn. lia.
Qed.
Lemma octals_ok c e r : e <> [] -> Forall octal e -> (length e <= 3)%nat -> ((length e < 3)%nat -> ~ starts octal r) ->
  forall s, c :: s = e ++ r -> octals 2 (c - 48) s = (octal_value e mod 256, r).
Proof.
  intros NE F L N s Q. destruct e as [|c' e]; [congruence|]. injection Q as -> ->. inversion F as [|? ? Hc F']; subst.
  destruct (octals 2 (c' - 48) (e ++ r)) as [v r'] eqn:E.
  destruct (octals_sound _ _ _ _ Hc E) as (e2 & Q & NE2 & F2 & L2 & N2 & ->).
  assert (LE : length (c' :: e) = length e2).
  { assert (AUX : forall a b ra rb, a ++ ra = b ++ rb -> Forall octal b -> (length b <= 3)%nat -> ((length a < 3)%nat -> ~ starts octal ra) -> (length b <= length a)%nat).
    { clear. intros a b ra rb. revert b. induction a as [|x a IH] using list_ind.
      - intros b Q F L N. destruct b as [|y b]; [lia|]. exfalso. inversion F; subst. cbn in Q. apply N; [cbn; lia|]. rewrite Q. cbn. assumption.
      - intros b Q F L N. destruct b as [|y b]; [cbn; lia|]. cbn in Q. injection Q as -> Q. inversion F; subst. cbn in *.
        destruct (le_lt_dec (length b) (length a)) as [H|H]; [lia|]. exfalso.
        assert (H' : (length b <= length a)%nat); [|lia]. clear IH.
        assert (NS : ~ starts octal ra) by (apply N; lia).
        assert (G : forall a b, a ++ ra = b ++ rb -> Forall octal b -> (length b <= length a)%nat).
        { induction a0 as [|z a0 IH0]; intros b0 Q0 F0; destruct b0 as [|w b0]; cbn; try lia.
          - exfalso. inversion F0; subst. apply NS. cbn in Q0. rewrite Q0. cbn. assumption.
          - cbn in Q0. injection Q0 as -> Q0. inversion F0; subst. specialize (IH0 b0 Q0 ltac:(assumption)). lia. }
        apply G; assumption. }
    apply Nat.le_antisymm.
    - apply (AUX _ _ r' r); auto.
    - apply (AUX _ _ r r'); auto. }
  destruct (app_same_length (c' :: e) e2 r r' Q LE) as [-> ->]. reflexivity.
Qed.
Lemma read_escape_ok e x r : escape e x r -> read_escape (e ++ r) = Some (x, r) /\ ~ starts newline (e ++ r).
Proof.
  intros [l c r' H|s v r' H|s v r' H S|s r' NE F L N|c r' A B C D E].
  - cbn in H. repeat (destruct H as [H|H]; [injection H as <- <-; split; [reflexivity|cbn; unfold newline; lia]|]). destruct H.
  - split; [|cbn; unfold newline; lia]. cbn [app]. unfold read_escape.
    cbn -[hexes]. rewrite (hexes_ok 2 s v H 0 r'). do 2 f_equal. 
  - split; [|cbn; unfold newline; lia]. cbn -[hexes]. rewrite (hexes_ok 4 s v H 0 r'). rewrite Z.mul_0_l, Z.add_0_l.
    pose proof (hex_bound _ _ _ H) as B. change (16 ^ Z.of_nat 4) with 65536 in B.
    replace (scalar v) with true by (unfold scalar, within; lia). reflexivity.
  - destruct s as [|c s]; [congruence|]. inversion F as [|? ? Hc _]; subst. split; [|cbn; cls; lia].
    cbn [app]. unfold read_escape. cls. repeat no_if. cls. unfold octal in Hc. yes_if.
    rewrite (octals_ok c (c :: s) r' NE F L N (s ++ r') eq_refl). reflexivity.
  - split; [|cbn; unfold newline; exact A]. cbn [app]. unfold read_escape.
    destruct ((c =? 39) || (c =? 34) || (c =? 63) || (c =? 92)); [reflexivity|]. cbn in E. cls. repeat no_if. reflexivity.
Qed.

(** * Strings *)
Lemma interpolates_iff s : interpolates s = true <-> starts_interpolation s.
Proof.
  unfold interpolates, peek_is, starts_interpolation, starts. destruct s as [|c s]; [split; [discriminate|intros []]|].
  cls. lia.
Qed.
Lemma consume_nl r : match consume 10 r with Some r' => r = 10 :: r' | None => ~ starts newline r end.
Proof.
  destruct (consume 10 r) eqn:E.
  - apply consume_some in E. exact E.
  - apply consume_none in E. intros Q. destruct r; cbn in Q; [exact Q|]. unfold newline in Q. subst. eapply E. reflexivity.
Qed.
Lemma starts_app_ne P a b b' : starts P (a ++ [b] ++ b') <-> starts P (a ++ [b]).
Proof. destruct a; cbn; tauto. Qed.
Lemma read_dq_sound fuel q : forall acc s, q <> 10 ->
  match read_dq fuel q acc s with
  | DDone v r => exists t w, s = t ++ q :: r /\ v = acc ++ w /\ in_quotes q t w (q :: r)
  | DOpen v r => exists t w, s = t ++ 35 :: r /\ v = acc ++ w /\ in_quotes q t w (35 :: r) /\ starts_interpolation r
  | DError => True
  end.
Proof.
  intros acc s NQ. revert acc s. induction fuel as [|n IH]; intros acc s; [exact I|]. cbn [read_dq].
  destruct s as [|c s]; [exact I|].
  destruct (c =? q) eqn:E1.
  { apply Z.eqb_eq in E1. subst. exists [], []. rewrite app_nil_r. conj. constructor. }
  apply Z.eqb_neq in E1. destruct (c =? 92) eqn:E2.
  { apply Z.eqb_eq in E2. subst. pose proof (consume_nl s) as NL. destruct (consume 10 s) as [r'|] eqn:C.
    - subst s. specialize (IH acc r'). destruct (read_dq n q acc r') as [v r|v r|]; [| |exact I].
      + destruct IH as (t & w & -> & -> & Q). exists (92 :: 10 :: t), w. conj. constructor. exact Q.
      + destruct IH as (t & w & -> & -> & Q & Q2). exists (92 :: 10 :: t), w. conj. constructor. exact Q.
    - destruct (read_escape s) as [[x r']|] eqn:RE; [|exact I]. apply read_escape_sound in RE; [|exact NL].
      destruct RE as (e & -> & RE). specialize (IH (acc ++ [x]) r'). destruct (read_dq n q (acc ++ [x]) r') as [v r|v r|]; [| |exact I].
      + destruct IH as (t & w & -> & -> & Q). exists (92 :: e ++ t), (x :: w). rewrite <- app_assoc. conj.
        * cbn. rewrite <- app_assoc. reflexivity.
        * constructor; assumption.
      + destruct IH as (t & w & -> & -> & Q & Q2). exists (92 :: e ++ t), (x :: w). rewrite <- app_assoc. conj.
        * cbn. rewrite <- app_assoc. reflexivity.
        * constructor; assumption. }
  apply Z.eqb_neq in E2. destruct (c =? 35) eqn:E3.
  { apply Z.eqb_eq in E3. subst. destruct (interpolates s) eqn:IN.
    - apply interpolates_iff in IN. exists [], []. rewrite app_nil_r. conj. constructor.
    - assert (NI : ~ starts_interpolation s) by (intros Q; apply interpolates_iff in Q; congruence).
      specialize (IH (acc ++ [35]) s). destruct (read_dq n q (acc ++ [35]) s) as [v r|v r|]; [| |exact I].
      + destruct IH as (t & w & -> & -> & Q). exists (35 :: t), (35 :: w). rewrite <- app_assoc. conj. constructor; assumption.
      + destruct IH as (t & w & -> & -> & Q & Q2). exists (35 :: t), (35 :: w). rewrite <- app_assoc. conj. constructor; assumption. }
  apply Z.eqb_neq in E3. specialize (IH (acc ++ [c]) s). destruct (read_dq n q (acc ++ [c]) s) as [v r|v r|]; [| |exact I].
  - destruct IH as (t & w & -> & -> & Q). exists (c :: t), (c :: w). rewrite <- app_assoc. conj. constructor; assumption.
  - destruct IH as (t & w & -> & -> & Q & Q2). exists (c :: t), (c :: w). rewrite <- app_assoc. conj. constructor; assumption.
Qed.
Lemma escape_ne e x r : escape e x r -> e <> [].
Proof. intros []; try discriminate. assumption. Qed.
Lemma read_dq_ok q t v rest : in_quotes q t v rest -> q <> 92 -> q <> 35 -> q <> 10 ->
  forall x r, rest = x :: r -> x = q \/ x = 35 /\ starts_interpolation r ->
  forall fuel acc, (length t < fuel)%nat ->
  read_dq fuel q acc (t ++ rest) = (if x =? q then DDone (acc ++ v) r else DOpen (acc ++ v) r).
Proof.
  intros Q N1 N2 N3 x r -> X. remember (x :: r) as rest eqn:ER. induction Q as [rest|c t s rest A B C _ IH|t s rest A _ IH|t s rest _ IH|e c t s rest A _ IH];
    intros fuel acc L; subst rest; cbn [length] in L; destruct fuel as [|n]; [lia| |lia| |lia| |lia| |lia|].
  - cbn [app read_dq]. rewrite app_nil_r. destruct (Z.eqb_spec x q) as [->|NE]; [reflexivity|].
    destruct X as [->|[-> X]]; [congruence|]. cbn -[interpolates]. apply interpolates_iff in X. rewrite X. reflexivity.
  - cbn [app read_dq]. apply Z.eqb_neq in A, B, C. rewrite A, B, C, IH by (auto; lia). rewrite <- app_assoc. reflexivity.
  - cbn [app read_dq]. replace (35 =? q) with false by (symmetry; apply Z.eqb_neq; auto). cbn -[interpolates read_dq].
    replace (interpolates (t ++ x :: r)) with false.
    2:{ symmetry. apply not_true_iff_false. intros Q. apply A, interpolates_iff. exact Q. }
    rewrite IH by (auto; lia). rewrite <- app_assoc. reflexivity.
  - cbn [app read_dq]. replace (92 =? q) with false by (symmetry; apply Z.eqb_neq; auto). cbn -[read_dq].
    rewrite IH by (auto; lia). reflexivity.
  - cbn [app read_dq]. replace (92 =? q) with false by (symmetry; apply Z.eqb_neq; auto).
    change (92 =? 92) with true. cbv iota.
    destruct (read_escape_ok _ _ _ A) as [RE NN]. rewrite <- app_assoc. pose proof (consume_nl (e ++ t ++ x :: r)) as CN.
    destruct (consume 10 (e ++ t ++ x :: r)); [exfalso; apply NN; rewrite CN; reflexivity|]. rewrite RE.
    rewrite app_length in L. rewrite IH by (auto; lia). rewrite <- app_assoc. reflexivity.
Qed.
Lemma read_sq_sound fuel : forall acc s v r, read_sq fuel acc s = Some (v, r) ->
  exists t w, s = t ++ 39 :: r /\ v = acc ++ w /\ in_single t w.
Proof.
  induction fuel as [|n IH]; intros acc s v r; [discriminate|]. cbn [read_sq].
  destruct s as [|c s]; [discriminate|].
  destruct (c =? 39) eqn:E1.
  { apply Z.eqb_eq in E1. subst. intros H. injection H as <- <-. exists [], []. rewrite app_nil_r. conj. constructor. }
  apply Z.eqb_neq in E1. destruct (c =? 92) eqn:E2.
  { apply Z.eqb_eq in E2. subst. pose proof (consume_nl s) as NL. destruct (consume 10 s) as [r'|] eqn:C.
    - subst s. intros H. destruct (IH _ _ _ _ H) as (t & w & -> & -> & Q). exists (92 :: 10 :: t), w. conj. constructor. exact Q.
    - destruct s as [|d s]; [discriminate|]. cbn in NL. unfold newline in NL.
      destruct (d =? 39) eqn:D1; [|destruct (d =? 92) eqn:D2].
      + apply Z.eqb_eq in D1. subst d. intros H. destruct (IH _ _ _ _ H) as (t & w & -> & -> & Q).
        exists (92 :: 39 :: t), (39 :: w). rewrite <- app_assoc. conj. constructor; assumption.
      + apply Z.eqb_eq in D2. subst d. intros H. destruct (IH _ _ _ _ H) as (t & w & -> & -> & Q).
        exists (92 :: 92 :: t), (92 :: w). rewrite <- app_assoc. conj. constructor; assumption.
      + apply Z.eqb_neq in D1, D2. intros H. destruct (IH _ _ _ _ H) as (t & w & -> & -> & Q).
        exists (92 :: d :: t), (92 :: d :: w). rewrite <- app_assoc. conj. constructor; assumption. }
  apply Z.eqb_neq in E2. intros H. destruct (IH _ _ _ _ H) as (t & w & -> & -> & Q).
  exists (c :: t), (c :: w). rewrite <- app_assoc. conj. constructor; assumption.
Qed.
Lemma read_sq_ok t v : in_single t v -> forall fuel acc r, (length t < fuel)%nat ->
  read_sq fuel acc (t ++ 39 :: r) = Some (acc ++ v, r).
Proof.
  induction 1 as [|c t s A B _ IH|t s _ IH|t s _ IH|t s _ IH|c t s A B C _ IH]; intros fuel acc r L;
    cbn [length] in L; destruct fuel as [|n]; [lia| |lia| |lia| |lia| |lia| |lia|]; cbn [app read_sq].
  - rewrite app_nil_r. reflexivity.
  - apply Z.eqb_neq in A, B. rewrite A, B, IH by lia. rewrite <- app_assoc. reflexivity.
  - cbn -[read_sq]. rewrite IH by lia. rewrite <- app_assoc. reflexivity.
  - cbn -[read_sq]. rewrite IH by lia. rewrite <- app_assoc. reflexivity.
  - cbn -[read_sq]. apply IH. lia.
  - change (92 =? 39) with false. change (92 =? 92) with true. cbv iota.
    pose proof (consume_nl (c :: t ++ 39 :: r)) as CN. destruct (consume 10 (c :: t ++ 39 :: r)) as [r'|].
    + injection CN as -> _. congruence.
    + apply Z.eqb_neq in A, B. rewrite A, B, IH by lia. rewrite <- app_assoc. reflexivity.
Qed.

(** * Variables *)
Lemma sum_digits_sound s : forall id v r, sum_digits id s = (v, r) ->
  exists t, s = t ++ r /\ Forall decimal t /\ ~ starts decimal r /\ v = id + fold_right (fun d n => (d - 48) + n) 0 t.
Proof.
  induction s as [|c s IH]; intros id v r; cbn [sum_digits].
  - intros H. injection H as <- <-. exists []. conj. cbn. lia.
  - destruct (ascii_digit c) eqn:D; intros H.
    + destruct (IH _ _ _ H) as (t & -> & F & N & ->). exists (c :: t). conj; [constructor; auto; cls; lia|cbn; lia].
    + injection H as <- <-. exists []. conj; [|cbn; lia]. cbn. cls. lia.
Qed.
Lemma sum_digits_ok t r : Forall decimal t -> ~ starts decimal r ->
  forall id, sum_digits id (t ++ r) = (id + fold_right (fun d n => (d - 48) + n) 0 t, r).
Proof.
  intros F N. induction F as [|c t Hc _ IH]; intros id; cbn [app sum_digits fold_right].
  - destruct r as [|c r]; cbn [sum_digits]; [f_equal; lia|]. cbn in N. cls. no_if. f_equal. lia.
  - cls. unfold ascii_digit, within. yes_if. rewrite IH. f_equal. lia.
Qed.
Section U.
Variable uni_alnum : Z -> bool.
Notation var_start := (var_start uni_alnum).
Notation read_var := (read_var uni_alnum).
Notation read_global := (read_global uni_alnum).
Lemma var_start_iff c : (alnum uni_alnum c || (c =? 95) || (c =? 38) || (c =? 39)) = true <-> var_start c.
Proof.
  unfold SpecLexer.var_start. cls. destruct (Z.ltb_spec c 128) as [L|L].
  - lia.
  - split; [intros H; right; split; [lia|]; destruct (uni_alnum c); [reflexivity|lia]|].
    intros [[? _]|[_ ->]]; [lia|reflexivity].
Qed.
Lemma read_var_sound before s x r : read_var before s = Ok (x, r) ->
  exists c t, s = c :: t ++ r /\ x = before ++ c :: t /\ var_start c /\ Forall word t /\ ~ starts word r.
Proof.
  unfold ModelLexer.read_var. destruct s as [|c s]; [discriminate|].
  destruct (alnum uni_alnum c || (c =? 95) || (c =? 38) || (c =? 39)) eqn:V; [|discriminate].
  apply var_start_iff in V. destruct (span ident_char s) as [b r'] eqn:SP. intros H. injection H as <- <-.
  apply span_word_sound in SP. destruct SP as (-> & F & N). exists c, b. conj.
Qed.
Lemma read_var_ok before c t r : var_start c -> Forall word t -> ~ starts word r ->
  read_var before (c :: t ++ r) = Ok (before ++ c :: t, r).
Proof.
  intros V F N. apply var_start_iff in V. unfold ModelLexer.read_var. rewrite V, span_word by assumption. reflexivity.
Qed.
Lemma read_var_no_panic before s : read_var before s <> Panic.
Proof. unfold ModelLexer.read_var. destruct s; [discriminate|]. destruct (_ || _); [|discriminate]. destruct (span _ _). discriminate. Qed.
End U.
