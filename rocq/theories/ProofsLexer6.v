From Coq Require Import String Ascii ZArith List Bool Lia.
From Verif Require Import Base ProofsBase ModelText ModelParse ModelLexer ProofsText SpecLexer ProofsLexer ProofsLexer2 ProofsLexer3 ProofsLexer4 ProofsLexer5.
Import ListNotations.
Open Scope Z_scope.

(** * Texts on which the lexer panics *)
Lemma bin_panic s : forall p v, numeral 2 p v -> 0 <= v -> ModelText.bin_loop v s = Panic ->
  exists t r n, p ++ s = t ++ r /\ numeral 2 t n /\ 2 ^ 64 <= n.
Proof.
  induction s as [|c s IH]; intros p v N P H; [discriminate|]. cbn [ModelText.bin_loop] in H. destruct (is_bin c) eqn:E.
  - assert (Bc : c = 48 \/ c = 49) by (unfold is_bin in E; lia).
    assert (D : digit 2 c (c - 48)). { replace c with (48 + (c - 48)) at 1 by lia. constructor; lia. }
    destruct (in_u64 (v * 2 + (c - 48))) eqn:U.
    + destruct (IH (p ++ [c]) _ (num_digit _ _ _ _ _ N D) ltac:(lia) H) as (t & r & n & Q & R). exists t, r, n.
      rewrite <- app_assoc in Q. auto.
    + exists (p ++ [c]), s, (v * 2 + (c - 48)). rewrite <- app_assoc. split; [reflexivity|]. split; [constructor; assumption|].
      unfold in_u64 in U. lia.
  - destruct (Z.eqb_spec c ch_us) as [->|NE]; [|discriminate].
    destruct (IH (p ++ [95]) _ (num_underscore _ _ _ N) P H) as (t & r & n & Q & R). exists t, r, n.
    rewrite <- app_assoc in Q. auto.
Qed.
Lemma read_bin_panic s : read_bin s = Panic -> exists t r n, s = t ++ r /\ numeral 2 t n /\ 2 ^ 64 <= n.
Proof.
  unfold read_bin. destruct s as [|c s]; [discriminate|]. destruct (is_bin c) eqn:E; [|discriminate].
  assert (Bc : c = 48 \/ c = 49) by (unfold is_bin in E; lia).
  assert (D : digit 2 c (c - 48)). { replace c with (48 + (c - 48)) at 1 by lia. constructor; lia. }
  destruct (ModelText.bin_loop (c - 48) s) as [[v r]| |] eqn:L; [discriminate|discriminate|]. intros _.
  exact (bin_panic s [c] (c - 48) (num_one _ _ _ D) ltac:(lia) L).
Qed.
Definition half_exponent (s : chars) : Prop :=
  exists p e sign, s = p ++ e :: sign /\ (e = 101 \/ e = 69) /\ (sign = [] \/ sign = [43] \/ sign = [45]).
Lemma read_decimal_panic c s : read_decimal c s = Panic -> half_exponent s.
Proof.
  rewrite read_decimal_eq. unfold dec_text. destruct (dec_loop (S (length s)) [c] false s) as [[[acc ff] r]|] eqn:E.
  2:{ exfalso. exact (dec_total (length s) s (S (length s)) _ _ (le_n _) (le_n _) E). }
  assert (SUF : exists p, s = p ++ r).
  { apply dec_sound in E. destruct E as [_ [(d & -> & _)|(d & y & d2 & _ & _ & -> & _)]]; [eauto|].
    exists (d ++ 46 :: y :: d2). rewrite <- app_assoc. reflexivity. }
  destruct SUF as [p ->]. destruct (consume2 ch_e ch_E r) as [r1|] eqn:X.
  - destruct (consume2_some _ _ X) as (e & He & ->).
    assert (K : forall sg r2 acc2, r1 = sg ++ r2 -> sg = [] \/ sg = [43] \/ sg = [45] ->
      (x <- match consume_numeric r2 with
            | None => match r2 with [] => Panic | _ => Err OtherErr end
            | Some (d, r3) => match exp_loop (S (length r3)) (acc2 ++ [d]) r3 with Some (acc3, r4) => Ok (acc3, true, r4) | None => Panic end
            end ;; dec_finish x) = Panic -> half_exponent (p ++ e :: r1)).
    { intros sg r2 acc2 -> S0 H. destruct (consume_numeric r2) as [[d r3]|] eqn:CN.
      - destruct (exp_loop (S (length r3)) (acc2 ++ [d]) r3) as [[acc3 r4]|] eqn:XL; [|exfalso; exact (exp_total r3 (S (length r3)) _ (le_n _) XL)].
        cbn [rbind dec_finish] in H. destruct (consume ch_i r4); discriminate.
      - destruct r2; [|discriminate]. rewrite app_nil_r. exists p, e, sg. auto. }
    destruct (consume ch_plus r1) as [r2|] eqn:C1.
    { apply consume_some in C1. subst. intros H. eapply (K [43]); [reflexivity|auto|exact H]. }
    destruct (consume ch_minus r1) as [r2|] eqn:C2.
    { apply consume_some in C2. subst. intros H. eapply (K [45]); [reflexivity|auto|exact H]. }
    intros H. eapply (K []); [reflexivity|auto|exact H].
  - cbn [rbind dec_finish]. destruct ff; cbn [rbind]; [destruct (consume ch_i r); discriminate|].
    destruct (parse_bytes acc 10); cbn [rbind]; [|discriminate]. destruct (consume ch_i r); discriminate.
Qed.
Definition long_binary (s : chars) : Prop :=
  exists p t r n, s = p ++ 48 :: 98 :: t ++ r /\ numeral 2 t n /\ 2 ^ 64 <= n.
Lemma half_app a s : half_exponent s -> half_exponent (a ++ s).
Proof. intros (p & e & sg & -> & H). exists (a ++ p), e, sg. rewrite <- app_assoc. auto. Qed.
Lemma long_app a s : long_binary s -> long_binary (a ++ s).
Proof. intros (p & t & r & n & -> & H). exists (a ++ p), t, r, n. rewrite <- app_assoc. auto. Qed.
Lemma read_hex_no_panic s : read_hex s <> Panic.
Proof.
  unfold read_hex. destruct s as [|c s]; [discriminate|]. destruct (is_hex c); [|discriminate].
  destruct (span_hex (c :: s)). destruct (parse_bytes _ _); discriminate.
Qed.
Lemma read_number_panic s : read_number s = Panic -> half_exponent s \/ long_binary s.
Proof.
  unfold read_number. destruct s as [|c s]; [discriminate|]. destruct (negb (is_num c)); [discriminate|].
  assert (DEC : read_decimal c s = Panic -> half_exponent (c :: s) \/ long_binary (c :: s)).
  { intros H. left. apply (half_app [c]), (read_decimal_panic c). exact H. }
  destruct (Z.eqb_spec c ch_0) as [->|]; [|exact DEC].
  destruct (consume ch_x s) as [r|] eqn:C1; [intros H; exfalso; exact (read_hex_no_panic _ H)|].
  destruct (consume ch_b s) as [r|] eqn:C2; [|exact DEC].
  apply consume_some in C2. subst s. intros H. apply read_bin_panic in H. destruct H as (t & r' & n & -> & H).
  right. exists [], t, r', n. auto.
Qed.

Section U.
Variables (uni_numeric uni_alnum : Z -> bool).
Notation read_one := (read_one uni_numeric uni_alnum).
Notation read_token := (read_token uni_numeric uni_alnum).
Notation tokenize := (tokenize uni_numeric uni_alnum).
Notation tokens := (tokens uni_numeric uni_alnum).
Notation next := (next uni_numeric uni_alnum).
Lemma rbind_panic {A B} (x : res A) (f : A -> res B) : (y <- x ;; f y) = Panic -> x = Panic \/ exists a, x = Ok a /\ f a = Panic.
Proof. destruct x; cbn; eauto. discriminate. Qed.
Lemma read_one_panic c s : read_one c s = Some Panic -> half_exponent (c :: s) \/ long_binary (c :: s).
Proof.
  unfold ModelLexer.read_one. destruct (_ || _); [discriminate|].
  destruct (numeric uni_numeric c).
  { intros H. injection H as H. unfold read_numlit in H. destruct (ascii_digit c).
    - apply rbind_panic in H. destruct H as [H|([? ?] & _ & H)]; [|discriminate]. apply read_number_panic, H.
    - left. apply (half_app [c]). destruct (read_decimal c s) eqn:E; try discriminate. exact (read_decimal_panic _ _ E). }
  destruct (ascii_punct c); [|discriminate].
  repeat match goal with
  | |- (if ?c =? 35 then _ else _) = _ -> _ => destruct (c =? 35); [discriminate|]
  | |- (if ?c =? 34 then _ else _) = _ -> _ => destruct (c =? 34); [destruct (read_dq _ _ _ _); discriminate|]
  | |- (if ?c =? 96 then _ else _) = _ -> _ => destruct (c =? 96); [destruct (read_dq _ _ _ _); discriminate|]
  | |- (if ?c =? 39 then _ else _) = _ -> _ => destruct (c =? 39); [destruct (read_sq _ _ _) as [[]|]; discriminate|]
  end.
  destruct (c =? 64).
  { destruct (consume 64 s); intros H; injection H as H; apply rbind_panic in H; destruct H as [H|([] & _ & H)]; try discriminate;
      exfalso; exact (read_var_no_panic _ _ _ H). }
  destruct (c =? 36).
  { unfold read_global. destruct (consume_numeric s) as [[d r]|].
    - destruct (d =? 48); [discriminate|]. destruct (sum_digits _ _). discriminate.
    - destruct s as [|d s]; [discriminate|]. destruct (ascii_punct d); [discriminate|]. intros H. injection H as H. apply rbind_panic in H.
      destruct H as [H|([] & _ & H)]; [|discriminate]. exfalso. exact (read_var_no_panic uni_alnum [36] (d :: s) H). }
  destruct (read_punct c s) as [[]|]; discriminate.
Qed.
Lemma read_token_panic s : read_token s = Panic -> half_exponent s \/ long_binary s.
Proof.
  unfold ModelLexer.read_token. unfold read_token2 at 1. destruct (skip_white s None) as [o r0] eqn:SW.
  destruct (skip_white_sound _ _ _ _ _ (le_n _) SW) as (w & -> & SO & [(BW & ->)|(w1 & w2 & -> & L1 & B2 & ->)]); [|discriminate].
  destruct r0 as [|c r0]; [discriminate|].
  destruct (read_one c r0) as [x|] eqn:RO.
  { intros H. apply rbind_panic in H. destruct H as [->|([? ?] & _ & H)]; [|discriminate].
    destruct (read_one_panic _ _ RO) as [H|H]; [left; apply half_app|right; apply long_app]; exact H. }
  destruct (goto_eol_sound r0) as (t & E & NI & G).
  unfold read_token2. destruct (skip_white (goto_eol r0) None) as [o r1] eqn:SW2.
  destruct (skip_white_sound _ _ _ _ _ (le_n _) SW2) as (w' & E' & SO' & [(BW' & ->)|(w1 & w2 & -> & L1 & B2 & ->)]); [|discriminate].
  destruct G as [G|G].
  - rewrite G in E'. destruct w'; [|discriminate]. destruct r1; [|discriminate]. discriminate.
  - rewrite E' in G. exfalso. exact (solid_no_newline uni_numeric uni_alnum _ SO' _ BW' G).
Qed.
Lemma next_suffix s k a b r : next s k a b r -> exists p, s = p ++ r.
Proof.
  intros [w k' t rest BW SP|w BW|w c BW C|w w' rest L B SO|w c w1 w2 rest BW C L N B SO].
  - exists (w ++ t). rewrite <- app_assoc. reflexivity.
  - exists w. rewrite app_nil_r. reflexivity.
  - exists (w ++ c). rewrite app_nil_r. reflexivity.
  - exists (w ++ 10 :: w'). rewrite <- app_assoc. reflexivity.
  - exists (w ++ c ++ w1 ++ 10 :: w2). repeat (rewrite <- app_assoc; cbn [app]). reflexivity.
Qed.
Lemma tokenize_panic n : forall s, (length s < n)%nat -> tokenize n s = Panic -> half_exponent s \/ long_binary s.
Proof.
  induction n as [|n IH]; intros s L; [lia|]. cbn [ModelLexer.tokenize]. intros H.
  apply rbind_panic in H. destruct H as [H|([[k a b] r] & R & H)]; [apply read_token_panic, H|].
  cbn [fst snd t_kind] in H. apply read_token_sound in R.
  assert (NE : k <> KEof) by (intros ->; discriminate).
  assert (T : tokenize n r = Panic). { destruct k; try congruence; apply rbind_panic in H; destruct H as [H|(? & _ & H)]; try discriminate; exact H. }
  pose proof (next_shorter _ _ _ _ _ _ _ R NE). destruct (next_suffix _ _ _ _ _ R) as [p ->].
  destruct (IH r ltac:(lia) T) as [Q|Q]; [left; apply half_app|right; apply long_app]; exact Q.
Qed.
Lemma tokens_panic s : tokens s = Panic -> half_exponent s \/ long_binary s.
Proof. apply tokenize_panic. lia. Qed.
End U.
