From Coq Require Import String Ascii ZArith List Bool Lia.
From Verif Require Import Base ModelText ModelParse ModelLexer ProofsText SpecLexer.
Import ListNotations.
Open Scope Z_scope.

Ltac cls := unfold numeric, alnum, ident_char, ascii_alpha, ascii_upper, ascii_digit, ascii_punct, ascii_white, ascii_octal,
  word, letter, lower, upper, decimal, mark, blank, newline, octal, within in *.
Ltac yes_if := match goal with |- context [if ?b then _ else _] => replace b with true by lia end.
Ltac no_if := match goal with |- context [if ?b then _ else _] => replace b with false by lia end.
Lemma starts_not (P : Z -> Prop) c r : ~ starts P (c :: r) <-> ~ P c.
Proof. reflexivity. Qed.
Lemma length_app' {A} (a b : list A) : length (a ++ b) = (length a + length b)%nat.
Proof. apply app_length. Qed.

(** * White space *)
Lemma skip_blanks w : blanks w -> forall r stop, skip_white (w ++ r) stop = skip_white r stop.
Proof.
  induction 1 as [|c s Hc _ IH|s _ IH]; intros r stop; [reflexivity| |].
  - cbn [app skip_white]. cls. destruct (Z.eqb_spec c 10); [lia|]. destruct (Z.eqb_spec c 92); [lia|].
    yes_if. apply IH.
  - cbn. apply IH.
Qed.
Lemma skip_solid r stop : solid r -> skip_white r stop = (stop, r).
Proof.
  intros (A & B & C). destruct r as [|c r]; [reflexivity|]. cbn [starts] in A, B. cbn [skip_white]. cls.
  destruct (Z.eqb_spec c 10); [lia|]. destruct (Z.eqb_spec c 92) as [->|].
  - destruct r as [|d r]; [reflexivity|]. destruct (Z.eqb_spec d 10) as [->|]; [|reflexivity].
    exfalso. exact (C r eq_refl).
  - no_if. reflexivity.
Qed.
Lemma skip_lines w : lines_and_blanks w -> forall r stop, exists stop', skip_white (w ++ r) stop = skip_white r stop'.
Proof.
  induction 1 as [s Hs|s t Hs _ IH]; intros r stop.
  - exists stop. apply skip_blanks, Hs.
  - rewrite <- app_assoc. rewrite skip_blanks by exact Hs. cbn [app skip_white]. change (10 =? 10) with true. cbn iota. apply IH.
Qed.
Lemma lab_blank c t : blank c -> lines_and_blanks t -> lines_and_blanks (c :: t).
Proof.
  intros Hc [s Hs|s t' Hs Ht].
  - apply LB_blanks. constructor; assumption.
  - apply (LB_line (c :: s)); [constructor; assumption|assumption].
Qed.
Lemma lab_cont t : lines_and_blanks t -> lines_and_blanks (92 :: 10 :: t).
Proof.
  intros [s Hs|s t' Hs Ht].
  - apply LB_blanks. constructor; assumption.
  - apply (LB_line (92 :: 10 :: s)); [constructor; assumption|assumption].
Qed.
Lemma skip_white_sound n : forall s stop o r, (length s <= n)%nat -> skip_white s stop = (o, r) ->
  exists w, s = w ++ r /\ solid r /\
    ((blanks w /\ o = stop) \/
     (exists w1 w2, w = w1 ++ 10 :: w2 /\ lines_and_blanks w1 /\ blanks w2 /\ o = Some (w2 ++ r))).
Proof.
  induction n as [|n IH]; intros s stop o r Hn H.
  - destruct s; [|cbn in Hn; lia]. injection H as <- <-. exists []. split; [reflexivity|]. split.
    + repeat split; cbn; auto; discriminate.
    + left. split; [constructor|reflexivity].
  - destruct s as [|c s].
    { injection H as <- <-. exists []. split; [reflexivity|]. split; [repeat split; cbn; auto; discriminate|].
      left. split; [constructor|reflexivity]. }
    cbn [length] in Hn. cbn [skip_white] in H.
    destruct (Z.eqb_spec c 10) as [->|N10].
    { apply IH in H; [|lia]. destruct H as (w & -> & S & [[B ->]|(w1 & w2 & -> & L & B & ->)]).
      - exists (10 :: w). split; [reflexivity|]. split; [exact S|]. right. exists [], w.
        split; [reflexivity|]. split; [apply LB_blanks; constructor|]. split; [exact B|reflexivity].
      - exists (10 :: w1 ++ 10 :: w2). split; [reflexivity|]. split; [exact S|]. right. exists (10 :: w1), w2.
        split; [reflexivity|]. split; [apply (LB_line []); [constructor|exact L]|]. split; [exact B|reflexivity]. }
    destruct (Z.eqb_spec c 92) as [->|N92].
    { destruct s as [|d s].
      { injection H as <- <-. exists []. split; [reflexivity|]. split; [|left; split; [constructor|reflexivity]].
        repeat split; cbn; cls; try lia. discriminate. }
      destruct (Z.eqb_spec d 10) as [->|Nd].
      - apply IH in H; [|cbn in Hn; lia]. destruct H as (w & -> & S & [[B ->]|(w1 & w2 & -> & L & B & ->)]).
        + exists (92 :: 10 :: w). split; [reflexivity|]. split; [exact S|]. left. split; [constructor; exact B|reflexivity].
        + exists (92 :: 10 :: w1 ++ 10 :: w2). split; [reflexivity|]. split; [exact S|]. right. exists (92 :: 10 :: w1), w2.
          split; [reflexivity|]. split; [apply lab_cont, L|]. split; [exact B|reflexivity].
      - injection H as <- <-. exists []. split; [reflexivity|]. split; [|left; split; [constructor|reflexivity]].
        repeat split; cbn; cls; try lia. intros r Q. injection Q as Q1 Q2. lia. }
    destruct (ascii_white c) eqn:W.
    { assert (Hb : blank c) by (cls; lia).
      apply IH in H; [|lia]. destruct H as (w & -> & S & [[B ->]|(w1 & w2 & -> & L & B & ->)]).
      - exists (c :: w). split; [reflexivity|]. split; [exact S|]. left. split; [constructor; assumption|reflexivity].
      - exists (c :: w1 ++ 10 :: w2). split; [reflexivity|]. split; [exact S|]. right. exists (c :: w1), w2.
        split; [reflexivity|]. split; [apply lab_blank; assumption|]. split; [exact B|reflexivity]. }
    injection H as <- <-. exists []. split; [reflexivity|]. split; [|left; split; [constructor|reflexivity]].
    repeat split; cbn; cls; try lia. intros r Q. injection Q as Q1 Q2. lia.
Qed.
Lemma goto_eol_sound s : exists t, s = t ++ goto_eol s /\ ~ In 10 t /\ (goto_eol s = [] \/ starts newline (goto_eol s)).
Proof.
  induction s as [|c s (t & A & B & C)].
  - exists []. cbn. auto.
  - cbn [goto_eol]. destruct (Z.eqb_spec c 10) as [->|N].
    + exists []. repeat split; auto. right. reflexivity.
    + exists (c :: t). cbn. split; [f_equal; exact A|]. split; [|exact C]. intros [Q|Q]; [lia|auto].
Qed.
Lemma goto_eol_ok t s : ~ In 10 t -> goto_eol (t ++ s) = goto_eol s.
Proof.
  induction t as [|c t IH]; intros H; [reflexivity|]. cbn [app goto_eol]. destruct (Z.eqb_spec c 10) as [->|N].
  - exfalso. apply H. left. reflexivity.
  - apply IH. intros Q. apply H. right. exact Q.
Qed.

(** * Loops over characters *)
Lemma span_sound f s : forall a b, span f s = (a, b) -> s = a ++ b /\ Forall (fun c => f c = true) a /\ ~ starts (fun c => f c = true) b.
Proof.
  induction s as [|c s IH]; intros a b H.
  - injection H as <- <-. cbn. auto.
  - cbn [span] in H. destruct (f c) eqn:E.
    + destruct (span f s) as [a' b'] eqn:Q. injection H as <- <-. destruct (IH _ _ eq_refl) as (A & B & C).
      split; [cbn; f_equal; exact A|]. split; [constructor; assumption|exact C].
    + injection H as <- <-. cbn. rewrite E. split; [reflexivity|]. split; [constructor|discriminate].
Qed.
Lemma span_ok f a b : Forall (fun c => f c = true) a -> ~ starts (fun c => f c = true) b -> span f (a ++ b) = (a, b).
Proof.
  intros Ha Hb. induction Ha as [|c a Hc _ IH].
  - cbn [app]. destruct b as [|c b]; [reflexivity|]. cbn in Hb |- *. destruct (f c); [exfalso; auto|reflexivity].
  - cbn [app span]. rewrite Hc, IH. reflexivity.
Qed.
Lemma word_char c : ident_char c = true <-> word c.
Proof. cls. lia. Qed.
Lemma words a : Forall (fun c => ident_char c = true) a <-> Forall word a.
Proof. split; apply Forall_impl; intros c; apply word_char. Qed.
Lemma starts_iff (P Q : Z -> Prop) s : (forall c, P c <-> Q c) -> starts P s <-> starts Q s.
Proof. intros H. destruct s; [reflexivity|apply H]. Qed.
Lemma span_word a b : Forall word a -> ~ starts word b -> span ident_char (a ++ b) = (a, b).
Proof.
  intros Ha Hb. apply span_ok; [apply words, Ha|]. rewrite starts_iff; [exact Hb|]. intros c. apply word_char.
Qed.
Lemma span_word_sound s a b : span ident_char s = (a, b) -> s = a ++ b /\ Forall word a /\ ~ starts word b.
Proof.
  intros H. apply span_sound in H. destruct H as (A & B & C). split; [exact A|]. split; [apply words, B|].
  rewrite <- starts_iff; [exact C|]. intros c. apply word_char.
Qed.
Lemma consume_ok c r : consume c (c :: r) = Some r.
Proof. cbn. rewrite Z.eqb_refl. reflexivity. Qed.
Lemma consume_some c s r : consume c s = Some r -> s = c :: r.
Proof. destruct s as [|x s]; [discriminate|]. cbn. destruct (Z.eqb_spec x c) as [->|]; [congruence|discriminate]. Qed.
Lemma consume_none c s : consume c s = None -> ~ starts (fun x => x = c) s.
Proof. destruct s as [|x s]; [cbn; auto|]. cbn. destruct (Z.eqb_spec x c); [discriminate|auto]. Qed.
Lemma consume_not' c s : ~ starts (fun x => x = c) s -> consume c s = None.
Proof. destruct s as [|x s]; [reflexivity|]. cbn. destruct (Z.eqb_spec x c); [contradiction|reflexivity]. Qed.

(** * Names and keywords *)
Lemma same_iff a : forall b, same a b = true <-> a = b.
Proof.
  induction a as [|x a IH]; intros [|y b]; cbn; try (split; [discriminate|discriminate]); try tauto.
  rewrite andb_true_iff, Z.eqb_eq, IH. split; [intros [-> ->]; reflexivity|intros Q; injection Q; auto].
Qed.
Lemma keywords_eq : reserved_names = keywords.
Proof. reflexivity. Qed.
Lemma lookup_some s l k : lookup s l = Some k -> In (s, k) l.
Proof.
  induction l as [|[n r] l IH]; [discriminate|]. cbn. destruct (same n s) eqn:E.
  - apply same_iff in E. subst. intros Q. injection Q as ->. left. reflexivity.
  - intros Q. right. auto.
Qed.
Lemma lookup_none s l : lookup s l = None -> forall k, ~ In (s, k) l.
Proof.
  induction l as [|[n r] l IH]; [intros _ k []|]. cbn. destruct (same n s) eqn:E; [discriminate|].
  intros Q k [Q'|Q']; [|exact (IH Q k Q')]. injection Q' as -> ->. rewrite (proj2 (same_iff s s) eq_refl) in E. discriminate.
Qed.
Lemma keywords_unique s k k' : In (s, k) keywords -> In (s, k') keywords -> k = k'.
Proof.
  assert (H : NoDup (map fst keywords)).
  { repeat (constructor; [cbn; intuition discriminate|]). constructor. }
  revert H. generalize keywords as l. induction l as [|[n r] l IH]; intros H A B; [destruct A|].
  cbn in H. inversion H as [|? ? N H']; subst. destruct A as [A|A], B as [B|B].
  - congruence.
  - injection A as -> ->. exfalso. apply N. apply (in_map fst) in B. exact B.
  - injection B as -> ->. exfalso. apply N. apply (in_map fst) in A. exact A.
  - auto.
Qed.
Lemma check_reserved_ok s k : In (s, k) keywords -> check_reserved s = Some k.
Proof.
  intros H. unfold check_reserved. rewrite keywords_eq. destruct (lookup s keywords) eqn:E.
  - apply lookup_some in E. f_equal. exact (keywords_unique _ _ _ E H).
  - exfalso. exact (lookup_none _ _ E k H).
Qed.
Lemma check_reserved_none s : ~ keyword s -> check_reserved s = None.
Proof.
  intros H. destruct (check_reserved s) eqn:E; [|reflexivity]. exfalso. apply H. exists r.
  unfold check_reserved in E. rewrite keywords_eq in E. exact (lookup_some _ _ _ E).
Qed.
Lemma upper_char c : ascii_upper c = true <-> upper c.
Proof. cls. lia. Qed.

Section U.
Variables (uni_numeric uni_alnum : Z -> bool).
Notation name_start := (name_start uni_numeric).
Notation spells_name := (spells_name uni_numeric).
Notation spells := (spells uni_numeric uni_alnum).
Notation var_start := (var_start uni_alnum).
Notation read_one := (read_one uni_numeric uni_alnum).

(** the name read from [c :: s] *)
Definition name_text (c : Z) (s : chars) : chars * chars :=
  let '(body, r) := span ident_char s in let '(suf, r) := suffix r in (c :: body ++ suf, r).
Lemma name_text_sound c s t r : name_start c -> name_text c s = (t, r) -> c :: s = t ++ r /\ spells_name t r.
Proof.
  intros Hc. unfold name_text. destruct (span ident_char s) as [body r1] eqn:E.
  destruct (span_word_sound _ _ _ E) as (-> & B & C). unfold suffix.
  destruct r1 as [|x y].
  - intros Q. injection Q as <- <-. rewrite app_nil_r. split; [rewrite app_nil_r; reflexivity|].
    apply N_plain; cbn; auto. intros [].
  - destruct (Z.eqb_spec x 33) as [->|Nx]; cbn [andb orb].
    + destruct y as [|d y]; cbn [peek_is negb orb].
      * intros Q. injection Q as <- <-. split; [cbn; rewrite app_nil_r; reflexivity|]. apply N_bang; auto.
      * destruct (Z.eqb_spec d 61) as [->|Nd]; cbn [negb orb].
        -- change (33 =? 63) with false. intros Q. injection Q as <- <-. rewrite app_nil_r. split; [reflexivity|].
           apply N_plain; auto; cbn; [lia|]. intros _. exists y. reflexivity.
        -- intros Q. injection Q as <- <-. split; [cbn; rewrite <- app_assoc; reflexivity|]. apply N_bang; auto.
    + destruct (Z.eqb_spec x 63) as [->|Nx'].
      * intros Q. injection Q as <- <-. split; [cbn; rewrite <- app_assoc; reflexivity|]. apply N_question; auto.
      * intros Q. injection Q as <- <-. rewrite app_nil_r. split; [reflexivity|].
        apply N_plain; auto. cbn. intros ->. lia.
Qed.
Lemma name_text_ok c s t r : spells_name t r -> c :: s = t ++ r -> name_text c s = (t, r).
Proof.
  intros H Q. unfold name_text. destruct H as [c' t r Hc Ht A B C|c' t r Hc Ht|c' t r Hc Ht A].
  - injection Q as -> ->. rewrite span_word by assumption. unfold suffix. destruct r as [|x y]; [rewrite app_nil_r; reflexivity|].
    cbn in B, C. destruct (Z.eqb_spec x 33) as [->|N].
    + destruct (C eq_refl) as (z & E). injection E as ->. cbn. rewrite app_nil_r. reflexivity.
    + destruct (Z.eqb_spec x 63); [contradiction|]. cbn. rewrite app_nil_r. reflexivity.
  - cbn in Q. rewrite <- app_assoc in Q. injection Q as -> ->. rewrite span_word; [|assumption|cbn; cls; lia].
    cbn. rewrite andb_false_r || idtac. reflexivity.
  - cbn in Q. rewrite <- app_assoc in Q. injection Q as -> ->. rewrite span_word; [|assumption|cbn; cls; lia].
    cbn. destruct r as [|d r]; [reflexivity|]. cbn in A |- *. destruct (Z.eqb_spec d 61); [contradiction|reflexivity].
Qed.
Lemma read_name_text c s : read_name c s = let '(t, r) := name_text c s in
  (match check_reserved t with Some k => KRes k | None => if ascii_upper c then KConst t else KIdent t end, r).
Proof. unfold read_name, name_text. destruct (span ident_char s) as [a b]. destruct (suffix b). reflexivity. Qed.
Lemma spells_name_cons t r : spells_name t r -> exists c t', t = c :: t' /\ name_start c.
Proof. intros [c t' r' H|c t' r' H|c t' r' H]; eauto. Qed.
Lemma read_name_sound c s k r : name_start c -> read_name c s = (k, r) -> exists t, c :: s = t ++ r /\ spells k t r.
Proof.
  intros Hc. rewrite read_name_text. destruct (name_text c s) as [t r'] eqn:E. intros Q.
  destruct (name_text_sound _ _ _ _ Hc E) as [A B]. destruct (spells_name_cons _ _ B) as (c' & t' & -> & _).
  injection A as <- A. injection Q as <- <-. exists (c :: t'). split; [cbn; f_equal; exact A|].
  destruct (check_reserved (c :: t')) as [k'|] eqn:K.
  - apply S_keyword; [exact B|]. exact (lookup_some _ _ _ K).
  - assert (NK : ~ keyword (c :: t')) by (intros [k' H]; exact (lookup_none _ _ K _ H)).
    destruct (ascii_upper c) eqn:U; [apply S_const|apply S_ident]; auto; cbn.
    + apply upper_char, U.
    + intros Q. apply upper_char in Q. congruence.
Qed.

End U.
