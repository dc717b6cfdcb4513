(** Lemmas about literals: reading functions against spellings. *)
From Coq Require Import String Ascii ZArith List Bool Lia.
From Verif Require Import Base ProofsBase ModelText ModelParse ModelLexer ModelQuote ProofsText SpecLexer SpecQuote ProofsLexer ProofsLexer2 ProofsLexer3 ProofsLexer4 ProofsLexer5 ProofsLexer6 ProofsLexer7.
Import ListNotations.
Open Scope Z_scope.

Lemma is_some_iff o c : is_some o c = true <-> o = Some c.
Proof. destruct o as [x|]; cbn; [|split; discriminate]. rewrite Z.eqb_eq. split; congruence. Qed.
Lemma is_some_not o c : o <> Some c -> is_some o c = false.
Proof. intros H. apply not_true_iff_false. rewrite is_some_iff. exact H. Qed.
Lemma is_some_false o c : is_some o c = false -> o <> Some c.
Proof. intros H Q. apply is_some_iff in Q. congruence. Qed.
Lemma next_line_id hp r : (length r <= length hp)%nat -> next_line hp r = r.
Proof. intros H. unfold next_line. destruct (Nat.ltb_spec (length hp) (length r)); [lia|reflexivity]. Qed.

(** * Double-quoted pieces *)
Definition reads (open term : option Z) (level : nat) (acc s : chars) (R : interp) : Prop :=
  match R with
  | IDone v r => exists t w, v = acc ++ w /\
      ((exists c, term = Some c /\ open <> Some c /\ s = t ++ c :: r /\ piece open term level t w 0 (c :: r)) \/
       (exists m, term = None /\ r = [] /\ s = t /\ piece open term level t w m []))
  | IOpen v m r => exists t w, s = t ++ 35 :: r /\ v = acc ++ w /\ open <> Some 35 /\ term <> Some 35 /\
      starts_interpolation r /\ piece open term level t w m (35 :: r)
  | IError => True
  end.
Lemma reads_step open term level level' acc x s p s' R : s = p ++ s' ->
  (forall t w m rest, s' = t ++ rest -> piece open term level' t w m rest -> piece open term level (p ++ t) (x ++ w) m rest) ->
  reads open term level' (acc ++ x) s' R -> reads open term level acc s R.
Proof.
  intros -> H. destruct R as [v r|v m r|]; cbn [reads]; [| |auto].
  - intros (t & w & -> & [(c & T & O & E & P)|(m & T & E0 & E & P)]); exists (p ++ t), (x ++ w); rewrite <- app_assoc; split; auto.
    + left. exists c. rewrite E, <- app_assoc. auto 10.
    + right. exists m. rewrite E. repeat split; auto. apply H; [rewrite app_nil_r; exact E|exact P].
  - intros (t & w & E & -> & O & T & S & P). exists (p ++ t), (x ++ w). rewrite E, <- !app_assoc. repeat split; auto.
Qed.
Lemma read_interp_sound fuel hp open term : forall level acc s, (length s <= length hp)%nat ->
  reads open term level acc s (read_interp fuel hp open term level acc s).
Proof.
  induction fuel as [|n IH]; intros level acc s L; [exact I|]. cbn [read_interp]. destruct s as [|c s].
  { destruct term as [q|]; [exact I|]. exists [], []. rewrite app_nil_r. split; [reflexivity|]. right. exists level. repeat split. constructor. }
  cbn [length] in L. destruct (is_some open c) eqn:EO.
  { apply is_some_iff in EO. apply (reads_step _ _ _ (S level) _ [c] _ [c] s); [reflexivity| |apply IH; lia].
    intros t w m rest _ P. apply P_open; assumption. }
  apply is_some_false in EO. destruct (is_some term c) eqn:ET.
  { apply is_some_iff in ET. destruct level as [|level].
    - exists [], []. rewrite app_nil_r. split; [reflexivity|]. left. exists c. repeat split; auto. constructor.
    - apply (reads_step _ _ _ level _ [c] _ [c] s); [reflexivity| |apply IH; lia]. intros t w m rest _ P. apply P_close; assumption. }
  apply is_some_false in ET. destruct (Z.eqb_spec c 92) as [->|N92].
  { pose proof (consume_nl s) as NL. destruct (consume 10 s) as [r'|] eqn:C.
    - subst s. cbn [length] in L. rewrite next_line_id by lia.
      apply (reads_step _ _ _ level _ [] _ [92; 10] r'); [reflexivity| |rewrite app_nil_r; apply IH; lia].
      intros t w m rest _ P. apply P_continued; assumption.
    - destruct (read_escape s) as [[x r']|] eqn:RE; [|exact I]. apply read_escape_sound in RE; [|exact NL].
      destruct RE as (e & -> & RE). rewrite app_length in L. apply (reads_step _ _ _ level _ [x] _ (92 :: e) r'); [reflexivity| |apply IH; lia].
      intros t w m rest -> P. cbn [app]. apply P_escape; assumption. }
  destruct (Z.eqb_spec c 35) as [->|N35].
  { destruct (interpolates s) eqn:IN.
    - apply interpolates_iff in IN. exists [], []. rewrite app_nil_r. repeat split; auto. constructor.
    - assert (NI : ~ starts_interpolation s) by (intros Q; apply interpolates_iff in Q; congruence).
      apply (reads_step _ _ _ level _ [35] _ [35] s); [reflexivity| |apply IH; lia].
      intros t w m rest -> P. apply P_hash; assumption. }
  destruct (Z.eqb_spec c 10) as [->|N10].
  - rewrite next_line_id by lia. apply (reads_step _ _ _ level _ [10] _ [10] s); [reflexivity| |apply IH; lia].
    intros t w m rest _ P. apply P_char; assumption || discriminate.
  - apply (reads_step _ _ _ level _ [c] _ [c] s); [reflexivity| |apply IH; lia].
    intros t w m rest _ P. apply P_char; assumption.
Qed.
Lemma read_interp_piece hp open term n t w m rest : piece open term n t w m rest -> (length (t ++ rest) <= length hp)%nat ->
  forall fuel acc, (length (t ++ rest) < fuel)%nat ->
  exists fuel', (length rest < fuel')%nat /\
    read_interp fuel hp open term n acc (t ++ rest) = read_interp fuel' hp open term m (acc ++ w) rest.
Proof.
  induction 1 as [n rest|c n t s m rest A B C D P IH|c n t s m rest A P IH|c n t s m rest A B P IH|n t s m rest A B C P IH
                 |n t s m rest A B P IH|e c n t s m rest A B C P IH]; intros HL fuel acc L.
  - exists fuel. rewrite app_nil_r. auto.
  - cbn [app length] in *. destruct fuel as [|f]; [lia|]. cbn [read_interp]. rewrite (is_some_not _ _ A), (is_some_not _ _ B).
    apply Z.eqb_neq in C, D. rewrite C, D. rewrite next_line_id by lia.
    destruct (IH ltac:(lia) f (acc ++ [c]) ltac:(lia)) as (f' & L' & E). exists f'. split; [exact L'|]. rewrite <- app_assoc in E. cbn [app] in E.
    destruct (Z.eqb_spec c 10) as [->|]; exact E.
  - cbn [app length] in *. destruct fuel as [|f]; [lia|]. cbn [read_interp]. rewrite (proj2 (is_some_iff _ _) A).
    destruct (IH ltac:(lia) f (acc ++ [c]) ltac:(lia)) as (f' & L' & E). exists f'. split; [exact L'|]. rewrite <- app_assoc in E. exact E.
  - cbn [app length] in *. destruct fuel as [|f]; [lia|]. cbn [read_interp]. rewrite (is_some_not _ _ A), (proj2 (is_some_iff _ _) B).
    destruct (IH ltac:(lia) f (acc ++ [c]) ltac:(lia)) as (f' & L' & E). exists f'. split; [exact L'|]. rewrite <- app_assoc in E. exact E.
  - cbn [app length] in *. destruct fuel as [|f]; [lia|]. cbn [read_interp]. rewrite (is_some_not _ _ A), (is_some_not _ _ B).
    change (35 =? 92) with false. change (35 =? 35) with true. cbv iota.
    replace (interpolates (t ++ rest)) with false by (symmetry; apply not_true_iff_false; rewrite interpolates_iff; exact C).
    destruct (IH ltac:(lia) f (acc ++ [35]) ltac:(lia)) as (f' & L' & E). exists f'. split; [exact L'|]. rewrite <- app_assoc in E. exact E.
  - cbn [app length] in *. destruct fuel as [|f]; [lia|]. cbn [read_interp]. rewrite (is_some_not _ _ A), (is_some_not _ _ B).
    change (92 =? 92) with true. cbv iota. rewrite consume_ok, next_line_id by lia. apply IH; lia.
  - cbn [app length] in *. rewrite <- app_assoc in *. rewrite app_length in HL, L. destruct fuel as [|f]; [lia|]. cbn [read_interp].
    rewrite (is_some_not _ _ A), (is_some_not _ _ B). change (92 =? 92) with true. cbv iota.
    destruct (read_escape_ok _ _ _ C) as [RE NN]. pose proof (consume_nl (e ++ t ++ rest)) as CN.
    destruct (consume 10 (e ++ t ++ rest)); [exfalso; apply NN; rewrite CN; reflexivity|]. rewrite RE.
    destruct (IH ltac:(lia) f (acc ++ [c]) ltac:(lia)) as (f' & L' & E). exists f'. split; [exact L'|]. rewrite <- app_assoc in E. exact E.
Qed.
Lemma read_interp_done hp open c n t w rest : piece open (Some c) n t w 0 (c :: rest) -> open <> Some c ->
  (length (t ++ c :: rest) <= length hp)%nat -> forall fuel, (length (t ++ c :: rest) < fuel)%nat ->
  read_interp fuel hp open (Some c) n [] (t ++ c :: rest) = IDone w rest.
Proof.
  intros P O HL fuel L. destruct (read_interp_piece hp _ _ _ _ _ _ _ P HL fuel [] L) as (f' & L' & ->).
  destruct f'; [cbn in L'; lia|]. cbn [read_interp app]. rewrite (is_some_not _ _ O). cbn [is_some]. rewrite Z.eqb_refl. reflexivity.
Qed.
Lemma read_interp_open hp open term n t w m rest : piece open term n t w m (35 :: rest) -> open <> Some 35 -> term <> Some 35 ->
  starts_interpolation rest ->
  (length (t ++ 35%Z :: rest) <= length hp)%nat -> forall fuel, (length (t ++ 35%Z :: rest) < fuel)%nat ->
  read_interp fuel hp open term n [] (t ++ 35 :: rest) = IOpen w m rest.
Proof.
  intros P O T S HL fuel L. destruct (read_interp_piece hp _ _ _ _ _ _ _ P HL fuel [] L) as (f' & L' & ->).
  destruct f'; [cbn in L'; lia|]. cbn [read_interp app]. rewrite (is_some_not _ _ O), (is_some_not _ _ T).
  change (35 =? 92) with false. change (35 =? 35) with true. cbv iota. apply interpolates_iff in S. rewrite S. reflexivity.
Qed.
Lemma read_interp_end hp open n t w m : piece open None n t w m [] -> (length t <= length hp)%nat ->
  forall fuel, (length t < fuel)%nat -> read_interp fuel hp open None n [] t = IDone w [].
Proof.
  intros P HL fuel L. rewrite <- (app_nil_r t) in HL, L |- *.
  destruct (read_interp_piece hp _ _ _ _ _ _ _ P HL fuel [] L) as (f' & L' & E). rewrite E.
  destruct f'; [cbn in L'; lia|]. reflexivity.
Qed.

(** * Plain pieces *)
Lemma plain_not_esc (open : option Z) (close : Z) : forall c, open <> Some c -> c <> close -> is_some open c = false /\ (c =? close) = false.
Proof. intros c A B. split; [apply is_some_not; exact A|apply Z.eqb_neq; exact B]. Qed.
Lemma read_single_sound fuel hp open close : forall level acc s v r, (length s <= length hp)%nat ->
  read_single fuel hp open close false level acc s = Some (v, r) ->
  open <> Some close /\ exists t w, s = t ++ close :: r /\ v = acc ++ w /\ plain open close level t w.
Proof.
  induction fuel as [|n IH]; intros level acc s v r L; [discriminate|]. cbn [read_single]. destruct s as [|c s]; [discriminate|].
  cbn [length] in L.
  assert (STEP : forall p x level' s', (length s' <= length hp)%nat -> c :: s = p ++ s' ->
     (forall t w, s' = t ++ close :: r -> plain open close level' t w -> plain open close level (p ++ t) (x ++ w)) ->
     read_single n hp open close false level' (acc ++ x) s' = Some (v, r) ->
     open <> Some close /\ exists t w, c :: s = t ++ close :: r /\ v = acc ++ w /\ plain open close level t w).
  { intros p x level' s' L' E H Q. destruct (IH _ _ _ _ _ L' Q) as (O & t & w & -> & -> & P). split; [exact O|]. exists (p ++ t), (x ++ w).
    rewrite E, <- !app_assoc. repeat split; auto. }
  destruct (is_some open c) eqn:EO.
  { apply is_some_iff in EO. apply (STEP [c] [c] (S level)); [lia|reflexivity|]. intros t w _ P. apply L_open; assumption. }
  apply is_some_false in EO. destruct (Z.eqb_spec c close) as [->|NC].
  { destruct level as [|level].
    - intros Q. injection Q as <- <-. split; [exact EO|]. exists [], []. rewrite app_nil_r. repeat split. constructor.
    - apply (STEP [close] [close] level); [lia|reflexivity|]. intros t w _ P. apply L_close; assumption. }
  destruct (Z.eqb_spec c 92) as [->|N92].
  { pose proof (consume_nl s) as NL. destruct (consume 10 s) as [r'|] eqn:C.
    - subst s. cbn [length] in L. rewrite next_line_id by lia. intros Q. apply (STEP [92; 10] [] level r'); [lia|reflexivity| |rewrite app_nil_r; exact Q].
      intros t w _ P. apply L_continued; auto.
    - destruct s as [|d s]; [discriminate|]. cbn in NL. unfold newline in NL. cbn [length] in L.
      destruct (Z.eqb_spec d 39) as [->|D1]; [|destruct (Z.eqb_spec d 92) as [->|D2]].
      + apply (STEP [92; 39] [39] level s); [lia|reflexivity|]. intros t w _ P. apply L_quote; auto.
      + apply (STEP [92; 92] [92] level s); [lia|reflexivity|]. intros t w _ P. apply L_backslash; auto.
      + apply (STEP [92; d] [92; d] level s); [lia|reflexivity|]. intros t w _ P. apply L_other; auto. }
  apply (STEP [c] [c] level s); [lia|reflexivity|]. intros t w _ P. apply L_char; auto.
Qed.
Lemma read_single_ok hp open close n t w : plain open close n t w -> open <> Some close -> forall r,
  (length (t ++ close :: r) <= length hp)%nat -> forall fuel acc, (length t < fuel)%nat ->
  read_single fuel hp open close false n acc (t ++ close :: r) = Some (acc ++ w, r).
Proof.
  intros P O r. induction P as [|c n t s A B C _ IH|c n t s A _ IH|n t s A _ IH|n t s A B _ IH|n t s A B _ IH|n t s A B _ IH|c n t s A B C D E _ IH];
    intros HL fuel acc L; (destruct fuel as [|f]; [cbn in L; lia|]); cbn [app length read_single] in *.
  - rewrite (is_some_not _ _ O), Z.eqb_refl, app_nil_r. reflexivity.
  - rewrite (is_some_not _ _ A). apply Z.eqb_neq in B, C. rewrite B, C, IH by lia. rewrite <- app_assoc. reflexivity.
  - rewrite (proj2 (is_some_iff _ _) A), IH by lia. rewrite <- app_assoc. reflexivity.
  - rewrite (is_some_not _ _ A), Z.eqb_refl, IH by lia. rewrite <- app_assoc. reflexivity.
  - rewrite (is_some_not _ _ A). replace (92 =? close) with false by (symmetry; apply Z.eqb_neq; auto). cbn -[read_single].
    rewrite IH by lia. rewrite <- app_assoc. reflexivity.
  - rewrite (is_some_not _ _ A). replace (92 =? close) with false by (symmetry; apply Z.eqb_neq; auto). cbn -[read_single].
    rewrite IH by lia. rewrite <- app_assoc. reflexivity.
  - rewrite (is_some_not _ _ A). replace (92 =? close) with false by (symmetry; apply Z.eqb_neq; auto). cbn -[read_single next_line].
    rewrite next_line_id by lia. apply IH; lia.
  - rewrite (is_some_not _ _ A). replace (92 =? close) with false by (symmetry; apply Z.eqb_neq; auto).
    change (92 =? 92) with true. cbv iota. pose proof (consume_nl (c :: t ++ close :: r)) as CN.
    destruct (consume 10 (c :: t ++ close :: r)) as [r'|]; [injection CN as -> _; congruence|].
    apply Z.eqb_neq in C, D. rewrite C, D, IH by lia. rewrite <- app_assoc. reflexivity.
Qed.

(** * Words *)
Lemma sep_iff c : (c =? 32) || (c =? 10) = true <-> separator c.
Proof. unfold separator. lia. Qed.
Lemma sep_not c : ~ separator c -> (c =? 32) || (c =? 10) = false.
Proof. intros H. apply not_true_iff_false. rewrite sep_iff. exact H. Qed.
Lemma words_nil_seps b : Forall separator b -> forall s, percent_words (b ++ s) = percent_words s.
Proof.
  unfold percent_words. induction 1 as [|c b H _ IH]; intros s; [reflexivity|]. cbn [app split_blank].
  apply sep_iff in H. rewrite H. cbn [filter]. apply IH.
Qed.
Lemma split_word w : Forall (fun c => ~ separator c) w -> forall cur s, split_blank cur (w ++ s) = split_blank (cur ++ w) s.
Proof.
  induction 1 as [|c w H _ IH]; intros cur s; [rewrite app_nil_r; reflexivity|]. cbn [app split_blank].
  rewrite (sep_not _ H), IH, <- app_assoc. reflexivity.
Qed.
Lemma percent_words_ok s ws : separated s ws -> percent_words s = ws.
Proof.
  induction 1 as [b Hb|b w s ws Hb Nw Hw Hs _ IH].
  - rewrite <- (app_nil_r b), words_nil_seps by exact Hb. reflexivity.
  - rewrite words_nil_seps by exact Hb. unfold percent_words. rewrite split_word by exact Hw. cbn [app].
    destruct s as [|c s]; [|destruct Hs as [|Hs]; [discriminate|]; cbn in Hs].
    + cbn in IH. subst ws. cbn. destruct w; [congruence|reflexivity].
    + cbn [split_blank]. pose proof (proj2 (sep_iff c) Hs) as Q. rewrite Q. cbn [filter]. destruct w as [|x w]; [congruence|].
      f_equal. rewrite <- IH. symmetry. apply (words_nil_seps [c]). auto.
Qed.
Lemma separated_total : forall n s, (length s <= n)%nat -> exists ws, separated s ws.
Proof.
  induction n as [|n IH]; intros s L.
  { destruct s; [|cbn in L; lia]. exists []. constructor. constructor. }
  destruct (span (fun c => (c =? 32) || (c =? 10)) s) as [b s1] eqn:E1. apply span_sound in E1. destruct E1 as (-> & Hb & N1).
  assert (Hb' : Forall separator b) by (revert Hb; apply Forall_impl; intros c; apply sep_iff).
  destruct (span (fun c => negb ((c =? 32) || (c =? 10))) s1) as [w s2] eqn:E2. apply span_sound in E2. destruct E2 as (-> & Hw & N2).
  assert (Hw' : Forall (fun c => ~ separator c) w).
  { revert Hw. apply Forall_impl. intros c Q. rewrite <- sep_iff. rewrite negb_true_iff in Q. congruence. }
  destruct w as [|c w].
  - cbn [app] in *. destruct s2 as [|d s2]; [exists []; rewrite app_nil_r; constructor; exact Hb'|]. cbn in N1, N2.
    exfalso. destruct ((d =? 32) || (d =? 10)); auto.
  - rewrite !app_length in L. cbn [length] in L. destruct (IH s2 ltac:(lia)) as [ws Hs]. exists ((c :: w) :: ws).
    apply Sep_word; [exact Hb'|discriminate|exact Hw'| |exact Hs].
    destruct s2 as [|d s2]; [left; reflexivity|right]. cbn in N2 |- *. apply sep_iff. destruct ((d =? 32) || (d =? 10)); [reflexivity|exfalso; auto].
Qed.
Lemma percent_words_iff s ws : percent_words s = ws <-> separated s ws.
Proof.
  split; [|apply percent_words_ok]. intros <-. destruct (separated_total (length s) s (le_n _)) as [ws H].
  rewrite (percent_words_ok _ _ H). exact H.
Qed.

(** * Percent literals *)
Lemma alnum_not d : ~ decimal d -> ~ lower d -> ~ upper d -> ascii_alnum d = false.
Proof. unfold ascii_alnum, ascii_alpha, ascii_upper, ascii_digit, within, decimal, lower, upper. lia. Qed.
Lemma delimited_ok d open close : delimited d open close ->
  ascii_alnum d = false /\ open <> Some close /\ (forall kind, ~ separator d -> delimiters kind d = Some (open, close)) /\
  (forall kind, match kind with Some k => ~ In k (codes "iIwW") | None => True end -> delimiters kind d = Some (open, close)) /\
  existsb (Z.eqb d) percent_kinds = false.
Proof.
  intros [o c H|d' A B C D].
  - cbn in H. repeat (destruct H as [H|H]; [injection H as <- <-; repeat split; intros; reflexivity || discriminate|]). destruct H.
  - split; [apply alnum_not; assumption|]. split; [discriminate|].
    assert (E : forall kind, delimiters kind d' = if (d' =? 32) || (d' =? 10) then
      match kind with Some k => if (k =? 105) || (k =? 73) || (k =? 119) || (k =? 87) then None else Some (None, d') | None => Some (None, d') end
      else Some (None, d')).
    { intros kind. cbn in D. unfold delimiters.
      replace (d' =? 40) with false by lia. replace (d' =? 123) with false by lia. replace (d' =? 91) with false by lia.
      replace (d' =? 60) with false by lia. reflexivity. }
    split; [|split].
    + intros kind S. rewrite E, (sep_not _ S). reflexivity.
    + intros kind K. rewrite E. destruct ((d' =? 32) || (d' =? 10)); [|reflexivity]. destruct kind as [k|]; [|reflexivity].
      cbn in K. replace ((k =? 105) || (k =? 73) || (k =? 119) || (k =? 87)) with false by lia. reflexivity.
    + unfold decimal, lower, upper in *. cbn. lia.
Qed.
Lemma delimiters_sound kind d open close : ascii_alnum d = false -> delimiters kind d = Some (open, close) -> delimited d open close.
Proof.
  intros A. unfold delimiters.
  destruct (Z.eqb_spec d 40) as [->|N1]; [intros Q; injection Q as <- <-; apply D_bracket; cbn; auto|].
  destruct (Z.eqb_spec d 123) as [->|N2]; [intros Q; injection Q as <- <-; apply D_bracket; cbn; auto|].
  destruct (Z.eqb_spec d 91) as [->|N3]; [intros Q; injection Q as <- <-; apply D_bracket; cbn; auto|].
  destruct (Z.eqb_spec d 60) as [->|N4]; [intros Q; injection Q as <- <-; apply D_bracket; cbn; auto 10|].
  assert (DM : delimited d None d).
  { unfold ascii_alnum, ascii_alpha, ascii_upper, ascii_digit, within in A.
    apply D_mark; unfold decimal, lower, upper; cbn; lia. }
  destruct ((d =? 32) || (d =? 10)).
  - destruct kind as [k|]; [|intros Q; injection Q as <- <-; exact DM].
    destruct ((k =? 105) || (k =? 73) || (k =? 119) || (k =? 87)); [discriminate|]. intros Q; injection Q as <- <-; exact DM.
  - intros Q; injection Q as <- <-; exact DM.
Qed.
