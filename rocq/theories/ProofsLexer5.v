From Coq Require Import String Ascii ZArith List Bool Lia.
From Verif Require Import Base ProofsBase ModelText ModelParse ModelLexer ProofsText SpecLexer ProofsLexer ProofsLexer2 ProofsLexer3 ProofsLexer4.
Import ListNotations.
Open Scope Z_scope.

Section U.
Variables (uni_numeric uni_alnum : Z -> bool).
Notation name_start := (name_start uni_numeric).
Notation spells_name := (spells_name uni_numeric).
Notation spells := (spells uni_numeric uni_alnum).
Notation next := (next uni_numeric uni_alnum).
Notation divides := (divides uni_numeric uni_alnum).
Notation var_start := (var_start uni_alnum).
Notation read_one := (read_one uni_numeric uni_alnum).
Notation read_global := (read_global uni_alnum).
Notation read_token := (read_token uni_numeric uni_alnum).
Notation read_token2 := (read_token2 uni_numeric uni_alnum).
Notation tokenize := (tokenize uni_numeric uni_alnum).
Notation tokens := (tokens uni_numeric uni_alnum).

Lemma read_global_sound s k r : read_global s = Ok (k, r) -> exists t, 36 :: s = t ++ r /\ spells k t r.
Proof.
  unfold ModelLexer.read_global, consume_numeric. destruct s as [|c s]; [discriminate|].
  destruct (is_num c) eqn:N.
  { apply is_num_iff in N. destruct (c =? 48) eqn:Z0.
    - apply Z.eqb_eq in Z0. subst. intros H. injection H as <- <-. exists [36; 48]. split; [reflexivity|]. apply S_gvar0.
    - apply Z.eqb_neq in Z0. destruct (sum_digits (c - 48) s) as [v r'] eqn:E. intros H. injection H as <- <-.
      apply sum_digits_sound in E. destruct E as (t & -> & F & NS & ->). exists (36 :: c :: t). split; [reflexivity|].
      match goal with |- spells (KSpecial ?z) _ _ => replace z with (100 + fold_right (fun d n => (d - 48) + n) 0 (c :: t)) by (cbn [fold_right]; lia) end.
      apply S_group; assumption. }
  assert (ND : ~ decimal c) by (intros Q; apply is_num_iff in Q; congruence).
  destruct (ascii_punct c) eqn:P.
  { intros H. injection H as <- <-. exists [36; c]. split; [reflexivity|].
    destruct (Z.eqb_spec c 38) as [->|N1]; [apply S_last_match|].
    destruct (Z.eqb_spec c 39) as [->|N2]; [apply S_after_match|].
    apply S_gvar_mark; auto. cls. lia. }
  destruct (ModelLexer.read_var uni_alnum [36] (c :: s)) as [[x r']| |] eqn:RV; [|discriminate|discriminate].
  intros H. injection H as <- <-. apply read_var_sound in RV. destruct RV as (c' & t & E & -> & V & F & NS).
  injection E as <- ->. exists (36 :: c :: t). split; [reflexivity|]. apply S_gvar; auto; cls; lia.
Qed.

Lemma read_one_sound c s k r : solid (c :: s) -> read_one c s = Some (Ok (k, r)) -> exists t, c :: s = t ++ r /\ spells k t r.
Proof.
  intros (SA & SB & SC). cbn in SA, SB. unfold ModelLexer.read_one.
  destruct (ascii_alpha c || (c =? 95)) eqn:A.
  { intros H. injection H as H. eapply read_name_sound; [|exact H]. left. cls. lia. }
  destruct (numeric uni_numeric c) eqn:N.
  { intros H. injection H as H. unfold read_numlit in H. destruct (ascii_digit c) eqn:D.
    - destruct (read_number (c :: s)) as [[n r']| |] eqn:RN; try discriminate. cbn in H. injection H as <- <-.
      apply read_number_sound in RN; [|cls; lia]. destruct RN as (t & E & SN). exists t. split; [exact E|]. apply S_number, SN.
    - destruct (read_decimal c s); discriminate. }
  destruct (ascii_punct c) eqn:P.
  - destruct (Z.eqb_spec c 35) as [->|N35]; [discriminate|].
    destruct (Z.eqb_spec c 34) as [->|N34].
    { intros H. pose proof (read_dq_sound (S (length s)) 34 [] s ltac:(lia)) as Q.
      destruct (read_dq (S (length s)) 34 [] s) as [v r'|v r'|]; [| |discriminate]; injection H as <- <-.
      - destruct Q as (t & w & -> & -> & Q). exists (34 :: t ++ [34]). split; [cbn; rewrite <- app_assoc; reflexivity|].
        apply S_string, Q.
      - destruct Q as (t & w & -> & -> & Q & Q2). exists (34 :: t ++ [35]). split; [cbn; rewrite <- app_assoc; reflexivity|].
        apply S_open_string; assumption. }
    destruct (Z.eqb_spec c 96) as [->|N96].
    { intros H. pose proof (read_dq_sound (S (length s)) 96 [] s ltac:(lia)) as Q.
      destruct (read_dq (S (length s)) 96 [] s) as [v r'|v r'|]; [| |discriminate]; injection H as <- <-.
      - destruct Q as (t & w & -> & -> & Q). exists (96 :: t ++ [96]). split; [cbn; rewrite <- app_assoc; reflexivity|].
        apply S_command, Q.
      - destruct Q as (t & w & -> & -> & Q & Q2). exists (96 :: t ++ [35]). split; [cbn; rewrite <- app_assoc; reflexivity|].
        apply S_open_command; assumption. }
    destruct (Z.eqb_spec c 39) as [->|N39].
    { intros H. destruct (read_sq (S (length s)) [] s) as [[v r']|] eqn:Q; [|discriminate]. injection H as <- <-.
      apply read_sq_sound in Q. destruct Q as (t & w & -> & -> & Q). exists (39 :: t ++ [39]).
      split; [cbn; rewrite <- app_assoc; reflexivity|]. apply S_single, Q. }
    destruct (Z.eqb_spec c 64) as [->|N64].
    { destruct (consume 64 s) as [s'|] eqn:C.
      - apply consume_some in C. subst s. destruct (ModelLexer.read_var uni_alnum [64; 64] s') as [[x r']| |] eqn:RV; try discriminate.
        intros H. injection H as <- <-. apply read_var_sound in RV. destruct RV as (c' & t & -> & -> & V & F & NS).
        exists (64 :: 64 :: c' :: t). split; [reflexivity|]. apply S_cvar; assumption.
      - destruct (ModelLexer.read_var uni_alnum [64] s) as [[x r']| |] eqn:RV; try discriminate.
        intros H. injection H as <- <-. apply read_var_sound in RV. destruct RV as (c' & t & -> & -> & V & F & NS).
        exists (64 :: c' :: t). split; [reflexivity|]. apply S_ivar; assumption. }
    destruct (Z.eqb_spec c 36) as [->|N36].
    { intros H. injection H as H. apply read_global_sound. exact H. }
    destruct (read_punct c s) as [[p r']|] eqn:RP; [|discriminate]. intros H. injection H as <- <-.
    destruct (read_punct_sound _ _ _ _ RP) as (t & E & L). exists t. split; [exact E|]. apply S_operator; [exact L|].
    intros -> Q. injection E as -> ->. destruct r' as [|d r']; [exact Q|]. cbn in Q. unfold newline in Q. subst. eapply SC. reflexivity.
  - intros H. injection H as H. eapply read_name_sound; [|exact H]. right. unfold odd_start. cls.
    destruct (Z.ltb_spec c 128); repeat match goal with |- _ /\ _ => split end; auto; try lia.
Qed.

Lemma spells_ne k t r : spells k t r -> t <> [].
Proof.
  intros H. assert (NM : forall t r, spells_name t r -> t <> []).
  { intros t0 r0 Q. destruct (spells_name_cons _ _ _ Q) as (c & t' & -> & _). discriminate. }
  destruct H; try discriminate; eauto.
  - destruct (spells_number_head _ _ _ H) as (c & t' & -> & _). discriminate.
  - destruct (operator_start _ _ (proj1 H)) as (c & t' & -> & _). discriminate.
Qed.
Lemma spells_not_eof k t r : spells k t r -> k <> KEof /\ k <> KLT.
Proof. intros H. destruct H; split; discriminate. Qed.
Lemma name_start_solid c s : name_start c -> solid (c :: s).
Proof.
  intros [H|H]; unfold solid, odd_start in *; cbn; cls; repeat split; try lia; intros r Q; injection Q as -> _; lia.
Qed.
Lemma solid_not c s : ~ blank c -> c <> 10 -> c <> 92 -> solid (c :: s).
Proof. intros A B C. repeat split; [exact A|exact B|]. intros r Q. injection Q as -> _. lia. Qed.
Lemma spells_solid k t r : spells k t r -> solid (t ++ r).
Proof.
  assert (NM : forall t r, spells_name t r -> solid (t ++ r)).
  { intros t0 r0 Q. destruct (spells_name_cons _ _ _ Q) as (c & t' & -> & Hc). apply name_start_solid, Hc. }
  intros H. destruct H; cbn [app codes]; auto; try (apply solid_not; cls; cbn; lia).
  - destruct (spells_number_head _ _ _ H) as (c & t' & -> & Hc). apply solid_not; cls; lia.
  - destruct (operator_start _ _ (proj1 H)) as (c & t' & -> & Hc). unfold op_start in Hc. cbn [app].
    repeat split; cbn; cls; try lia. intros r' Q. injection Q as -> Q.
    assert (t' = []).
    { destruct H as [IN _]. rewrite table_eq in IN. unfold table in IN. cbn in IN. repeat (destruct IN as [IN|IN]; [injection IN; congruence|]). destruct IN. }
    subst t'. apply H0; [reflexivity|]. cbn in Q. rewrite Q. reflexivity.
Qed.
Lemma read_one_name c s k t r : name_start c -> c :: s = t ++ r -> spells_name t r ->
  (exists k', In (t, k') keywords /\ k = KRes k') \/ (~ keyword t /\ starts upper t /\ k = KConst t) \/ (~ keyword t /\ ~ starts upper t /\ k = KIdent t) ->
  read_one c s = Some (Ok (k, r)).
Proof.
  intros Hc E SN K. assert (RN : read_name c s = (k, r)).
  { rewrite read_name_text, (name_text_ok uni_numeric uni_alnum c s t r SN E). f_equal.
    destruct K as [(k' & I & ->)|[(NK & U & ->)|(NK & U & ->)]].
    - rewrite (check_reserved_ok _ _ I). reflexivity.
    - rewrite (check_reserved_none _ NK). destruct t; [destruct U|]. injection E as -> _. cbn in U. apply upper_char in U. rewrite U. reflexivity.
    - rewrite (check_reserved_none _ NK). destruct (spells_name_cons _ _ _ SN) as (c' & t' & -> & _). injection E as -> _.
      replace (ascii_upper c') with false; [reflexivity|]. symmetry. apply not_true_iff_false. intros Q. apply U. cbn. apply upper_char, Q. }
  unfold ModelLexer.read_one. rewrite RN. destruct (ascii_alpha c || (c =? 95)) eqn:A; [reflexivity|].
  destruct Hc as [Hc|Hc]; [exfalso; cls; lia|]. unfold odd_start in Hc.
  replace (numeric uni_numeric c) with false.
  2:{ symmetry. cls. destruct (Z.ltb_spec c 128); [lia|]. apply Hc. lia. }
  replace (ascii_punct c) with false; [reflexivity|]. symmetry. cls. lia.
Qed.
Ltac no_alpha := match goal with |- context [ascii_alpha ?c || ?x] => replace (ascii_alpha c || x) with false by (symmetry; cls; lia) end.
Ltac no_numeric := match goal with |- context [numeric ?u ?c] => replace (numeric u c) with false by (symmetry; cls; destruct (Z.ltb_spec c 128); lia) end.
Ltac is_punct := match goal with |- context [ascii_punct ?c] => replace (ascii_punct c) with true by (symmetry; cls; lia) end.
Lemma read_one_ok k t r : spells k t r -> forall c s, c :: s = t ++ r -> read_one c s = Some (Ok (k, r)).
Proof.
  intros H. destruct H as [k t r SN I|t r SN NK U|t r SN NK U|n t r SN|p t r L B|c0 t r V F N|c0 t r V F N|c0 t r V A B C F N|r
    |c0 r A B C|r|r|c0 t r A B F N|t v r Q|t v r Q Q2|t v r Q|t v r Q Q2|t v r Q]; intros c s E.
  - destruct (spells_name_cons _ _ _ SN) as (c' & t' & -> & Hc). assert (c' = c) as -> by (injection E; auto).
    eapply read_one_name; eauto.
  - destruct (spells_name_cons _ _ _ SN) as (c' & t' & -> & Hc). assert (c' = c) as -> by (injection E; auto).
    eapply read_one_name; eauto.
  - destruct (spells_name_cons _ _ _ SN) as (c' & t' & -> & Hc). assert (c' = c) as -> by (injection E; auto).
    eapply read_one_name; eauto 6.
  - destruct (spells_number_head _ _ _ SN) as (c' & t' & -> & Hc). assert (c' = c) as -> by (injection E; auto).
    unfold ModelLexer.read_one. no_alpha. replace (numeric uni_numeric c) with true by (symmetry; cls; destruct (Z.ltb_spec c 128); lia).
    unfold read_numlit. replace (ascii_digit c) with true by (symmetry; cls; lia). rewrite E, (read_number_ok _ _ _ SN). reflexivity.
  - destruct (operator_start _ _ (proj1 L)) as (c' & t' & -> & Hc). assert (c' = c) as -> by (injection E; auto).
    unfold op_start in Hc. unfold ModelLexer.read_one. no_alpha. no_numeric. is_punct. do 6 no_if.
    rewrite (read_punct_ok _ _ _ _ _ L E). reflexivity.
  - injection E as -> ->. unfold ModelLexer.read_one. cbn -[ModelLexer.read_var consume].
    replace (consume 64 (c0 :: t ++ r)) with (@None chars).
    2:{ symmetry. apply consume_not'. cbn. intros ->. unfold SpecLexer.var_start in V. cls. lia. }
    rewrite read_var_ok by assumption. reflexivity.
  - injection E as -> ->. unfold ModelLexer.read_one. cbn -[ModelLexer.read_var]. rewrite read_var_ok by assumption. reflexivity.
  - injection E as -> ->. unfold ModelLexer.read_one. cbn -[ModelLexer.read_global]. f_equal. unfold ModelLexer.read_global, consume_numeric.
    replace (is_num c0) with false by (symmetry; apply not_true_iff_false; intros Q; apply is_num_iff in Q; auto).
    replace (ascii_punct c0) with false by (symmetry; cls; lia). rewrite read_var_ok by assumption. reflexivity.
  - injection E as -> ->. reflexivity.
  - injection E as -> ->. unfold ModelLexer.read_one. cbn -[ModelLexer.read_global]. f_equal. unfold ModelLexer.read_global, consume_numeric.
    replace (is_num c0) with false by (symmetry; apply not_true_iff_false; intros Q; apply is_num_iff in Q; cls; lia).
    is_punct. apply Z.eqb_neq in B, C. rewrite B, C. reflexivity.
  - injection E as -> ->. reflexivity.
  - injection E as -> ->. reflexivity.
  - injection E as -> ->. transitivity (Some (read_global (c0 :: t ++ r))); [reflexivity|]. f_equal. unfold ModelLexer.read_global, consume_numeric.
    rewrite (proj2 (is_num_iff c0) A). apply Z.eqb_neq in B. rewrite B, sum_digits_ok by assumption. cbn [fold_right].
    match goal with |- Ok (KSpecial ?a, _) = Ok (KSpecial ?b, _) => replace a with b by lia end. reflexivity.
  - cbn in E. rewrite <- app_assoc in E. injection E as -> ->. unfold ModelLexer.read_one. cbn -[read_dq length].
    rewrite (read_dq_ok 34 t v (34 :: r) Q ltac:(lia) ltac:(lia) ltac:(lia) 34 r eq_refl ltac:(auto)) by (rewrite app_length; lia). reflexivity.
  - cbn in E. rewrite <- app_assoc in E. injection E as -> ->. unfold ModelLexer.read_one. cbn -[read_dq length].
    rewrite (read_dq_ok 34 t v (35 :: r) Q ltac:(lia) ltac:(lia) ltac:(lia) 35 r eq_refl ltac:(auto)) by (rewrite app_length; lia). reflexivity.
  - cbn in E. rewrite <- app_assoc in E. injection E as -> ->. unfold ModelLexer.read_one. cbn -[read_dq length].
    rewrite (read_dq_ok 96 t v (96 :: r) Q ltac:(lia) ltac:(lia) ltac:(lia) 96 r eq_refl ltac:(auto)) by (rewrite app_length; lia). reflexivity.
  - cbn in E. rewrite <- app_assoc in E. injection E as -> ->. unfold ModelLexer.read_one. cbn -[read_dq length].
    rewrite (read_dq_ok 96 t v (35 :: r) Q ltac:(lia) ltac:(lia) ltac:(lia) 35 r eq_refl ltac:(auto)) by (rewrite app_length; lia). reflexivity.
  - cbn in E. rewrite <- app_assoc in E. injection E as -> ->. unfold ModelLexer.read_one. cbn -[read_sq length].
    rewrite (read_sq_ok t v Q) by (rewrite app_length; lia). reflexivity.
Qed.

(** * The first token, all tokens *)
Lemma solid_no_newline r : solid r -> forall w, blanks w -> ~ starts newline (w ++ r).
Proof.
  intros (_ & B & _) w H. destruct H; cbn; auto; cls; lia.
Qed.
Lemma goto_eol_id s : s = [] \/ starts newline s -> goto_eol s = s.
Proof. intros [->|H]; [reflexivity|]. destruct s; [destruct H|]. cbn in *. unfold newline in H. subst. reflexivity. Qed.
Lemma read_one_comment c s : read_one c s = None <-> c = 35.
Proof.
  split.
  - unfold ModelLexer.read_one. destruct (_ || _); [discriminate|]. destruct (numeric _ _); [discriminate|].
    destruct (ascii_punct c); [|discriminate]. destruct (Z.eqb_spec c 35); [auto|].
    repeat match goal with |- (if ?b then _ else _) = _ -> _ => destruct b; [discriminate|] end.
    destruct (read_punct c s) as [[]|]; discriminate.
  - intros ->. reflexivity.
Qed.
Lemma read_token_sound s k a b r : read_token s = Ok (mktoken k a b, r) -> next s k a b r.
Proof.
  unfold ModelLexer.read_token. unfold ModelLexer.read_token2 at 1. destruct (skip_white s None) as [o r0] eqn:SW.
  destruct (skip_white_sound _ _ _ _ _ (le_n _) SW) as (w & -> & SO & [(BW & ->)|(w1 & w2 & -> & L1 & B2 & ->)]).
  2:{ intros H. injection H as <- <- <- <-. rewrite <- app_assoc. cbn [app]. apply Next_line; assumption. }
  destruct r0 as [|c r0].
  { intros H. injection H as <- <- <- <-. rewrite app_nil_r. apply Next_end, BW. }
  destruct (read_one c r0) as [x|] eqn:RO.
  { destruct x as [[k' r']| |]; [|discriminate|discriminate]. cbn [rbind fst snd]. intros H. injection H as <- <- <- <-.
    destruct (read_one_sound _ _ _ _ SO RO) as (t & E & SP). rewrite E. apply Next_token; assumption. }
  apply read_one_comment in RO. subst c. destruct (goto_eol_sound r0) as (t & E & NI & G).
  unfold ModelLexer.read_token2. destruct (skip_white (goto_eol r0) None) as [o r1] eqn:SW2.
  destruct (skip_white_sound _ _ _ _ _ (le_n _) SW2) as (w' & E' & SO' & [(BW' & ->)|(w1 & w2 & -> & L1 & B2 & ->)]).
  - destruct G as [G|G].
    + rewrite G in E, E'. destruct w'; [|discriminate]. destruct r1; [|discriminate]. intros H. injection H as <- <- <- <-.
      rewrite app_nil_r in E. subst r0. apply Next_end_comment; [exact BW|]. exists t. auto.
    + rewrite E' in G. exfalso. exact (solid_no_newline _ SO' _ BW' G).
  - intros H. injection H as <- <- <- <-. rewrite E' in E |- *. rewrite E, <- app_assoc. cbn [app].
    change (35 :: t ++ w1 ++ 10 :: w2 ++ r1) with ((35 :: t) ++ w1 ++ 10 :: w2 ++ r1).
    apply Next_line_comment; auto.
    + exists t. auto.
    + destruct G as [G|G]; [rewrite G in E'; destruct w1; discriminate|]. rewrite E' in G. destruct w1; cbn in *; auto.
Qed.
Lemma skip_line_end w w' rest : lines_and_blanks w -> blanks w' -> solid rest ->
  skip_white (w ++ 10 :: w' ++ rest) None = (Some (w' ++ rest), rest).
Proof.
  intros L B S0. destruct (skip_lines _ L (10 :: w' ++ rest) None) as (stop & ->). cbn [skip_white]. change (10 =? 10) with true. cbv iota.
  rewrite skip_blanks, skip_solid by assumption. reflexivity.
Qed.
Lemma solid_nil : solid [].
Proof. repeat split; cbn; auto. discriminate. Qed.
Lemma read_token_ok s k a b r : next s k a b r -> read_token s = Ok (mktoken k a b, r).
Proof.
  unfold ModelLexer.read_token. intros [w k' t rest BW SP|w BW|w c BW C|w w' rest L B SO|w c w1 w2 rest BW C L N B SO];
    unfold ModelLexer.read_token2 at 1.
  - rewrite skip_blanks by assumption. rewrite skip_solid by (eapply spells_solid; eauto).
    destruct (t ++ rest) as [|c s'] eqn:E; [exfalso; destruct t; [apply spells_ne in SP; congruence|discriminate]|].
    rewrite (read_one_ok _ _ _ SP c s' (eq_sym E)). reflexivity.
  - rewrite <- (app_nil_r w), skip_blanks by assumption. reflexivity.
  - rewrite skip_blanks by assumption. destruct C as (t & -> & NI). rewrite skip_solid by (apply solid_not; cls; lia).
    rewrite (proj2 (read_one_comment 35 t) eq_refl). rewrite <- (app_nil_r t), goto_eol_ok by assumption. reflexivity.
  - rewrite skip_line_end by assumption. reflexivity.
  - rewrite skip_blanks by assumption. destruct C as (t & -> & NI). cbn [app]. rewrite skip_solid by (apply solid_not; cls; lia).
    rewrite (proj2 (read_one_comment 35 _) eq_refl). rewrite goto_eol_ok by assumption. rewrite goto_eol_id.
    + unfold ModelLexer.read_token2. rewrite skip_line_end by assumption. reflexivity.
    + right. destruct w1; [reflexivity|exact N].
Qed.
Lemma read_token_iff s k a b r : read_token s = Ok (mktoken k a b, r) <-> next s k a b r.
Proof. split; [apply read_token_sound|apply read_token_ok]. Qed.
Lemma next_shorter s k a b r : next s k a b r -> k <> KEof -> (length r < length s)%nat.
Proof.
  intros [w k' t rest BW SP|w BW|w c BW C|w w' rest L B SO|w c w1 w2 rest BW C L N B SO] NE; try congruence; repeat (rewrite app_length || cbn [length]); try lia.
  apply spells_ne in SP. destruct t; [congruence|]. cbn. lia.
Qed.
Lemma tokenize_sound fuel : forall s l, tokenize fuel s = Ok l -> divides s l.
Proof.
  induction fuel as [|n IH]; intros s l; [discriminate|]. cbn [ModelLexer.tokenize].
  destruct (read_token s) as [[[k a b] r]| |] eqn:R; [|discriminate|discriminate]. cbn [rbind fst snd t_kind].
  apply read_token_sound in R. intros H.
  assert (C : k = KEof /\ l = [mktoken k a b] \/ k <> KEof /\ exists l', tokenize n r = Ok l' /\ l = mktoken k a b :: l').
  { destruct k; try (right; split; [discriminate|]; destruct (tokenize n r) as [l'| |]; [|discriminate|discriminate];
      injection H as <-; eauto). left. injection H as <-. auto. }
  destruct C as [(-> & ->)|(NE & l' & T & ->)]; [eapply D_end; eauto|eapply D_next; eauto].
Qed.
Lemma tokenize_ok s l : divides s l -> forall fuel, (length s < fuel)%nat -> tokenize fuel s = Ok l.
Proof.
  induction 1 as [s a b r H|s k a b r l H NE _ IH]; intros fuel L; destruct fuel as [|n]; [lia| |lia|]; cbn [ModelLexer.tokenize];
    rewrite (read_token_ok _ _ _ _ _ H); cbn [rbind fst snd t_kind]; [reflexivity|].
  pose proof (next_shorter _ _ _ _ _ H NE). rewrite (IH n) by lia. destruct k; reflexivity || congruence.
Qed.
Lemma tokens_iff s l : tokens s = Ok l <-> divides s l.
Proof. split; [apply tokenize_sound|]. intros H. apply tokenize_ok; [exact H|lia]. Qed.
(** more fuel makes no difference, so the loop ends *)
Lemma tokenize_fuel n : forall s, (length s < n)%nat -> forall m, (length s < m)%nat -> tokenize n s = tokenize m s.
Proof.
  induction n as [|n IH]; intros s L m L'; [lia|]. destruct m as [|m]; [lia|]. cbn [ModelLexer.tokenize].
  destruct (read_token s) as [[[k a b] r]| |] eqn:R; [|reflexivity|reflexivity]. cbn [rbind fst snd t_kind].
  apply read_token_sound in R. pose proof (next_shorter _ _ _ _ _ R) as LT.
  destruct k; try reflexivity; rewrite (IH r ltac:(specialize (LT ltac:(discriminate)); lia) m ltac:(specialize (LT ltac:(discriminate)); lia)); reflexivity.
Qed.
End U.
