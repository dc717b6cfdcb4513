(** Lemmas about here documents. *)
From Coq Require Import String Ascii ZArith List Bool Lia.
From Verif Require Import Base ProofsBase ModelText ModelParse ModelLexer ModelQuote ProofsText SpecLexer SpecQuote ProofsLexer ProofsLexer2 ProofsLexer3 ProofsLexer4 ProofsLexer5 ProofsLexer6 ProofsLexer7 ProofsQuote ProofsQuote2.
Import ListNotations.
Open Scope Z_scope.

Section Here.
Variable uw : Z -> bool.
Notation white := (white uw). Notation trim_start := (trim_start uw). Notation here_lines := (here_lines uw).
Notation space := (space uw). Notation terminator := (terminator uw). Notation body := (body uw).
Lemma white_iff c : white c = true <-> space c.
Proof. unfold ModelQuote.white, SpecQuote.space, within. destruct (Z.ltb_spec c 128); destruct (uw c); lia. Qed.
Lemma trim_iff delim : ~ starts space delim -> forall line, trim_start line = delim <-> exists w, line = w ++ delim /\ Forall space w.
Proof.
  intros N line. split.
  - intros H. clear N. revert H. induction line as [|c line IH]; intros H; cbn in H.
    + exists []. subst. auto.
    + destruct (white c) eqn:W.
      * destruct (IH H) as (w & -> & F). exists (c :: w). split; [reflexivity|]. constructor; [apply white_iff; exact W|exact F].
      * exists []. subst. auto.
  - intros (w & -> & F). induction F as [|c w H _ IH]; cbn [app ModelQuote.trim_start].
    + destruct delim as [|c d]; [reflexivity|]. cbn [ModelQuote.trim_start]. destruct (white c) eqn:W; [|reflexivity].
      exfalso. apply N. apply white_iff. exact W.
    + apply white_iff in H. rewrite H. exact IH.
Qed.
Lemma word_not_space delim : Forall word delim -> ~ starts space delim.
Proof. intros W. destruct W as [|c d H _]; cbn; [auto|]. unfold SpecQuote.space, word, letter, lower, upper, decimal in *. lia. Qed.
Lemma terminator_iff (indent : bool) delim line : Forall word delim ->
  same (if indent then trim_start line else line) delim = true <-> terminator indent delim line.
Proof.
  intros W. rewrite same_iff. unfold SpecQuote.terminator. destruct indent; [|reflexivity].
  apply trim_iff. apply word_not_space. exact W.
Qed.
Lemma line_of l s : ~ In 10 l -> (s = [] \/ starts newline s) -> span (fun c => negb (c =? 10)) (l ++ s) = (l, s).
Proof.
  intros N H. apply span_ok.
  - apply Forall_forall. intros c I. destruct (Z.eqb_spec c 10); [subst; contradiction|reflexivity].
  - destruct H as [->|H]; [cbn; auto|]. destruct s as [|c s]; [cbn; auto|]. cbn in *. unfold newline in H. subst. discriminate.
Qed.
Lemma here_lines_ok indent delim s t after : Forall word delim -> body indent delim s t after ->
  forall fuel acc, (length s < fuel)%nat -> here_lines fuel indent delim acc s = Some (acc ++ t, after).
Proof.
  intros W [ls term e after' F N T E]. clear s t. clear after.
  assert (E' : (e = [] \/ starts newline e) /\ tl e = after') by (destruct E as [[-> ->]| ->]; cbn; auto; split; [right; reflexivity|reflexivity]).
  destruct E' as [E1 E2]. clear E. induction F as [|l ls [A B] _ IH]; intros fuel acc L; (destruct fuel as [|f]; [lia|]); cbn [ModelQuote.here_lines].
  - cbn [unlines map concat app]. rewrite line_of by assumption. apply terminator_iff in T; [|exact W]. rewrite T, E2, app_nil_r. reflexivity.
  - assert (Q : unlines (l :: ls) ++ term ++ e = l ++ 10 :: unlines ls ++ term ++ e).
    { unfold unlines. cbn [map concat]. rewrite <- !app_assoc. reflexivity. }
    rewrite Q in L |- *. rewrite line_of; [|exact A|right; reflexivity].
    replace (same (if indent then trim_start l else l) delim) with false.
    2:{ symmetry. apply not_true_iff_false. rewrite terminator_iff by exact W. exact B. }
    rewrite app_length in L. cbn [length] in L. rewrite IH by lia. f_equal. f_equal.
    unfold unlines. cbn [map concat]. rewrite <- !app_assoc. reflexivity.
Qed.
Lemma here_lines_sound indent delim (W : Forall word delim) fuel : forall acc s v after, here_lines fuel indent delim acc s = Some (v, after) ->
  exists t, v = acc ++ t /\ body indent delim s t after.
Proof.
  induction fuel as [|f IH]; intros acc s v after H; [discriminate|]. cbn [ModelQuote.here_lines] in H.
  destruct (span (fun c => negb (c =? 10)) s) as [line r] eqn:S. apply span_sound in S. destruct S as (-> & F & N).
  assert (NL : ~ In 10 line) by (intros I; eapply Forall_forall in F; [|exact I]; discriminate).
  assert (R : r = [] \/ starts newline r).
  { destruct r as [|c r]; [auto|]. right. cbn in *. unfold newline. destruct (Z.eqb_spec c 10); [assumption|exfalso; apply N; reflexivity]. }
  destruct (same (if indent then trim_start line else line) delim) eqn:T.
  - injection H as <- <-. exists []. rewrite app_nil_r. split; [reflexivity|]. apply terminator_iff in T; [|exact W].
    apply (Body uw indent delim [] line r (tl r)); auto. destruct R as [->|R]; [auto|]. right. destruct r; [destruct R|]. cbn in R. unfold newline in R. subst. reflexivity.
  - destruct r as [|c r]; [discriminate|]. destruct R as [R|R]; [discriminate|]. cbn in R. unfold newline in R. subst c.
    destruct (IH _ _ _ _ H) as (t & -> & B). exists (line ++ 10 :: t). split; [rewrite <- !app_assoc; reflexivity|].
    destruct B as [ls term e after' F' N' T' E].
    assert (Q : forall x, line ++ 10 :: unlines ls ++ x = unlines (line :: ls) ++ x).
    { intros x. unfold unlines. cbn [map concat]. rewrite <- !app_assoc. reflexivity. }
    rewrite Q. specialize (Q []). rewrite !app_nil_r in Q. rewrite Q. constructor; auto. constructor; [|exact F'].
    split; [exact NL|]. intros X. apply terminator_iff in X; [|exact W]. congruence.
Qed.
Lemma next_line_iff hp r d : next_line hp r = d <-> documents hp r d.
Proof.
  unfold next_line, documents. destruct (Nat.ltb_spec (length hp) (length r)).
  - split; [intros <-; split; [auto|lia]|]. intros [A _]. symmetry. auto.
  - split; [intros <-; split; [lia|auto]|]. intros [_ A]. symmetry. auto.
Qed.

Lemma quote_step s r d : word d -> s = d :: r ->
  consume 45 s = None /\ consume 126 s = None /\ consume 39 s = None /\ consume 34 s = None /\ consume 96 s = None.
Proof.
  intros W ->. unfold word, letter, lower, upper, decimal in W. cbn.
  replace (d =? 45) with false by lia. replace (d =? 126) with false by lia. replace (d =? 39) with false by lia.
  replace (d =? 34) with false by lia. replace (d =? 96) with false by lia. auto.
Qed.
(** the head, by cases *)
Definition head (s : chars) : bool * mode * option Z * chars :=
  let '(indent, s) :=
    match consume 45 s with
    | Some r => (true, r)
    | None => match consume 126 s with Some r => (true, r) | None => (false, s) end
    end in
  let '(m, quote, s) :=
    match consume 39 s with
    | Some r => (MSingle, Some 39, r)
    | None => match consume 34 s with
              | Some r => (MDouble, Some 34, r)
              | None => match consume 96 s with Some r => (MCommand, Some 96, r) | None => (MDouble, None, s) end
              end
    end in (indent, m, quote, s).
Definition tail (hp : chars) (indent : bool) (m : mode) (quote : option Z) (s : chars) : res here :=
  let '(delim, s) := span ident_char s in
  match delim with
  | [] => match s with [] => Panic | _ => Err OtherErr end
  | _ =>
      match (match quote with Some q => consume q s | None => Some s end) with
      | None => Err OtherErr
      | Some s =>
          match goto_eol s with
          | [] => Err OtherErr
          | _ :: r =>
              let r := next_line hp r in
              match here_lines (S (length r)) indent delim [] r with
              | Some (t, after) => Ok (mkhere m t s after)
              | None => Err OtherErr
              end
          end
      end
  end.
Lemma read_heredoc_eq hp s : read_heredoc uw hp s = let '(indent, m, quote, s) := head s in tail hp indent m quote s.
Proof.
  unfold read_heredoc, head, tail. destruct (match consume 45 s with Some r => _ | None => _ end) as [indent s1].
  destruct (match consume 39 s1 with Some r => _ | None => _ end) as [[m quote] s2]. reflexivity.
Qed.
Definition signs : list (chars * bool) := [([], false); (codes "-", true); (codes "~", true)].
Definition quotes : list (chars * mode) := [([], MDouble); (codes "'", MSingle); (codes """", MDouble); (codes "`", MCommand)].
Lemma head_sound s indent m quote s' : head s = (indent, m, quote, s') ->
  exists sign q, In (sign, indent) signs /\ In (q, m) quotes /\ s = sign ++ q ++ s' /\ quote = (match q with [] => None | c :: _ => Some c end) /\ (length q <= 1)%nat.
Proof.
  unfold head. intros H.
  assert (A : exists sign s1, In (sign, indent) signs /\ s = sign ++ s1 /\
    (match consume 39 s1 with
    | Some r => (MSingle, Some 39, r)
    | None => match consume 34 s1 with
              | Some r => (MDouble, Some 34, r)
              | None => match consume 96 s1 with Some r => (MCommand, Some 96, r) | None => (MDouble, None, s1) end
              end
    end) = (m, quote, s')).
  { destruct (consume 45 s) as [r|] eqn:E1; [apply consume_some in E1; subst s; exists (codes "-"), r|
      destruct (consume 126 s) as [r|] eqn:E2; [apply consume_some in E2; subst s; exists (codes "~"), r|exists [], s]];
      match type of H with context [let '(_, _) := ?x in _] => destruct x as [[m' q'] s''] eqn:Q end; injection H as <- <- <- <-;
      (split; [cbn; auto|split; [reflexivity|exact Q]]). }
  clear H. destruct A as (sign & s1 & I & -> & H). exists sign.
  destruct (consume 39 s1) as [r|] eqn:E1; [apply consume_some in E1; subst s1; injection H as <- <- <-; exists (codes "'"); cbn; repeat split; auto|].
  destruct (consume 34 s1) as [r|] eqn:E2; [apply consume_some in E2; subst s1; injection H as <- <- <-; exists (codes """"); cbn; repeat split; auto|].
  destruct (consume 96 s1) as [r|] eqn:E3; [apply consume_some in E3; subst s1; injection H as <- <- <-; exists (codes "`"); cbn; repeat split; auto|].
  injection H as <- <- <-. exists []. cbn. repeat split; auto.
Qed.
Lemma head_ok sign indent q m d r : In (sign, indent) signs -> In (q, m) quotes -> word d ->
  head (sign ++ q ++ d :: r) = (indent, m, match q with [] => None | c :: _ => Some c end, d :: r).
Proof.
  intros S Q W. destruct (quote_step (d :: r) r d W eq_refl) as (A & B & C & D & E).
  cbn in S, Q.
  destruct S as [S|[S|[S|[]]]]; injection S as <- <-; destruct Q as [Q|[Q|[Q|[Q|[]]]]]; injection Q as <- <-;
    unfold head; cbn [app]; try reflexivity; rewrite ?A, ?B, ?C, ?D, ?E; try reflexivity; cbn [consume]; rewrite ?C, ?D, ?E; try reflexivity.
  all: unfold codes; cbn [map app list_ascii_of_string]; cbn; try reflexivity.
  all: cbn in A, B, C, D, E; rewrite ?C, ?D, ?E; reflexivity.
Qed.

Lemma read_heredoc_iff hp s m t rest after : read_heredoc uw hp s = Ok (mkhere m t rest after) <->
  exists mark indent delim line behind docs, s = mark ++ rest /\ here_mark mark indent m delim rest /\
    rest = line ++ 10 :: behind /\ ~ In 10 line /\ documents hp behind docs /\ body indent delim docs t after.
Proof.
  rewrite read_heredoc_eq. split.
  - destruct (head s) as [[[indent m'] quote] s1] eqn:H. apply head_sound in H. destruct H as (sign & q & S & Q & -> & -> & LQ).
    unfold tail. destruct (span ident_char s1) as [delim s2] eqn:D. apply span_word_sound in D. destruct D as (-> & W & N).
    intros H.
    assert (X : delim <> [] /\ exists s3, s2 = q ++ s3 /\
       match goto_eol s3 with
          | [] => Err OtherErr
          | _ :: r =>
              let r := next_line hp r in
              match here_lines (Datatypes.S (length r)) indent delim [] r with
              | Some (t, after) => Ok (mkhere m' t s3 after)
              | None => Err OtherErr
              end
          end = Ok (mkhere m t rest after)).
    { destruct delim as [|d delim]; [destruct s2; discriminate|]. split; [discriminate|]. destruct q as [|c [|]]; [exists s2; split; [reflexivity|exact H]| |cbn in LQ; lia].
      destruct (consume c s2) as [s3|] eqn:C; [|discriminate]. apply consume_some in C. exists s3. split; [exact C|exact H]. }
    clear H. destruct X as (ND & s3 & -> & H). destruct (goto_eol_sound s3) as (line & E & NL & G). destruct (goto_eol s3) as [|c r] eqn:GE; [discriminate|].
    destruct G as [G|G]; [discriminate|]. cbn in G. unfold newline in G. subst c. cbv zeta in H.
    destruct (here_lines (Datatypes.S (length (next_line hp r))) indent delim [] (next_line hp r)) as [[t' after']|] eqn:HL; [|discriminate].
    injection H as <- <- <- <-. apply here_lines_sound in HL; [|exact W]. destruct HL as (t & -> & B).
    exists (sign ++ q ++ delim ++ q), indent, delim, line, r, (next_line hp r). split; [rewrite <- !app_assoc; reflexivity|].
    split; [constructor; auto; intros ->; exact N|]. split; [exact E|]. split; [exact NL|]. split; [apply next_line_iff; reflexivity|exact B].
  - intros (mark & indent & delim & line & behind & docs & -> & HM & E & NL & D & B).
    destruct HM as [sign indent q m delim rest S Q ND W NW]. apply next_line_iff in D.
    replace ((sign ++ q ++ delim ++ q) ++ rest) with (sign ++ q ++ delim ++ q ++ rest) by (rewrite <- !app_assoc; reflexivity).
    destruct delim as [|d delim]; [congruence|]. pose proof W as W'. inversion W' as [|? ? Wd _]; subst x l.
    cbn [app]. rewrite (head_ok sign indent q m d (delim ++ q ++ rest) S Q Wd). unfold tail.
    assert (SP : span ident_char (d :: delim ++ q ++ rest) = (d :: delim, q ++ rest)).
    { apply (span_word (d :: delim) (q ++ rest) W). cbn in Q. destruct Q as [Q|[Q|[Q|[Q|[]]]]]; injection Q as <- <-; [apply NW; reflexivity|..];
        cbn; unfold word, letter, lower, upper, decimal; lia. }
    rewrite SP.
    assert (CQ : match match q with [] => None | c :: _ => Some c end with Some c => consume c (q ++ rest) | None => Some (q ++ rest) end = Some rest).
    { cbn in Q. destruct Q as [Q|[Q|[Q|[Q|[]]]]]; injection Q as <- <-; reflexivity. }
    match goal with |- match ?x with _ => _ end = _ => replace x with (Some rest) by (symmetry; exact CQ) end.
    rewrite E at 1. rewrite goto_eol_ok by exact NL. rewrite goto_eol_id by (right; reflexivity). cbv zeta. rewrite D.
    rewrite (here_lines_ok _ _ _ _ _ W B) by lia. reflexivity.
Qed.

Section Parts.
Variables (u v : Z -> bool) (code : Type) (template : list chars -> chars -> res (code * chars)).
Hypothesis TK : takes template.
Lemma mark_not_white mark indent m delim rest : here_mark mark indent m delim rest ->
  match mark ++ rest with c :: _ => ascii_white c | [] => false end = false.
Proof.
  intros [sign i q m' d r S Q ND W _]. destruct d as [|d0 d]; [congruence|]. inversion W as [|? ? Wd _]; subst.
  cbn in S, Q. destruct S as [S|[S|[S|[]]]]; injection S as <- <-; try reflexivity. destruct Q as [Q|[Q|[Q|[Q|[]]]]]; injection Q as <- <-; try reflexivity.
  cbn. unfold word, letter, lower, upper, decimal in Wd. unfold ascii_white, within. lia.
Qed.
Notation denotes := (denotes template).
Lemma parse_heredoc_iff hp s l rest after : parse_heredoc u v code template uw hp s = Ok (l, rest, after) <->
  exists mark indent m delim line behind docs t, s = mark ++ rest /\ here_mark mark indent m delim rest /\
    rest = line ++ 10 :: behind /\ ~ In 10 line /\ documents hp behind docs /\ body indent delim docs t after /\ denotes m t l.
Proof.
  assert (READ : forall m t, (match m with
         | MSingle => Ok (LString t)
         | MDouble => document u v code template t
         | MCommand =>
             match read_interp (S (length t)) t None None 0 [] t with
             | IDone s _ => Ok (LCommand (LString s))
             | IOpen _ _ _ => Panic
             | IError => Err OtherErr
             end
         end = Ok l) <-> denotes m t l).
  { intros [| |] t; cbn [SpecQuote.denotes].
    - split; congruence.
    - apply document_iff. exact TK.
    - pose proof (read_interp_sound (S (length t)) t None None 0 [] t (le_n _)) as R.
      destruct (read_interp (S (length t)) t None None 0 [] t) as [w r0|w m r0|] eqn:E.
      + destruct R as (t0 & w0 & -> & [(c & Ec & _)|(m & Em & -> & -> & P)]); [discriminate|].
        pose proof (piece_level0 _ _ _ _ _ _ P eq_refl) as ->. split.
        * intros Q. injection Q as <-. exists w0. split; [exact P|reflexivity].
        * intros (s' & P' & ->). rewrite (read_interp_end _ _ _ _ _ _ P') in E by lia. injection E as <-. reflexivity.
      + split; [discriminate|]. intros (s' & P' & ->). rewrite (read_interp_end _ _ _ _ _ _ P') in E by lia. discriminate.
      + split; [discriminate|]. intros (s' & P' & ->). rewrite (read_interp_end _ _ _ _ _ _ P') in E by lia. discriminate. }
  split.
  - unfold parse_heredoc. destruct (match s with c :: _ => ascii_white c | [] => false end); [discriminate|].
    destruct (read_heredoc uw hp s) as [[m t r a]| |] eqn:H; [|discriminate|discriminate]. cbn [rbind h_text h_mode h_rest h_pos].
    intros Q. specialize (READ m t). unfold document in READ.
    match type of Q with rbind ?x _ = _ => destruct x as [l'| |] eqn:X; [|discriminate|discriminate] end.
    cbn [rbind] in Q. injection Q as <- <- <-. apply read_heredoc_iff in H.
    destruct H as (mark & indent & delim & line & behind & docs & A & B & C & D & E & F).
    exists mark, indent, m, delim, line, behind, docs, t. repeat (split; [assumption|]). apply READ. reflexivity.
  - intros (mark & indent & m & delim & line & behind & docs & t & A & B & C & D & E & F & G).
    assert (H : read_heredoc uw hp s = Ok (mkhere m t rest after)) by (apply read_heredoc_iff; exists mark, indent, delim, line, behind, docs; auto 10).
    unfold parse_heredoc. rewrite A at 1. rewrite (mark_not_white _ _ _ _ _ B), H. cbn [rbind h_text h_mode h_rest h_pos].
    apply READ in G. unfold document in G.
    destruct m; rewrite G; reflexivity.
Qed.
End Parts.
End Here.

(** the next line *)
Lemma skip_white_here_id : forall fuel hp s stop, (length s <= length hp)%nat -> (length s < fuel)%nat ->
  skip_white_here fuel hp s stop = skip_white s stop.
Proof.
  induction fuel as [|f IH]; intros hp s stop L F; [lia|]. destruct s as [|c s]; [reflexivity|]. cbn [length] in *. cbn [skip_white_here skip_white].
  destruct (c =? 10); [rewrite next_line_id by lia; apply IH; lia|]. destruct (c =? 92).
  - destruct s as [|d s]; [reflexivity|]. cbn [length] in *. destruct (d =? 10); [apply IH; lia|reflexivity].
  - destruct (ascii_white c); [apply IH; lia|reflexivity].
Qed.
Lemma skip_white_here_jump hp docs w : Forall blank w -> (length hp < length docs)%nat -> forall fuel stop, (length (w ++ 10%Z :: docs) < fuel)%nat ->
  skip_white_here fuel hp (w ++ 10 :: docs) stop = skip_white (10 :: hp) stop.
Proof.
  intros B L. induction B as [|c w H _ IH]; intros fuel stop F; (destruct fuel as [|f]; [lia|]); cbn [app length] in *; cbn [skip_white_here].
  - change (10 =? 10) with true. cbv iota. unfold next_line. destruct (Nat.ltb_spec (length hp) (length docs)); [|lia].
    rewrite skip_white_here_id by lia. reflexivity.
  - unfold blank in H. replace (c =? 10) with false by lia. replace (c =? 92) with false by lia.
    replace (ascii_white c) with true by (symmetry; unfold ascii_white, within; lia). apply IH. lia.
Qed.
