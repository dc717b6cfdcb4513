(** Properties C118-C121: percent literals, here documents, strings with interpolations
    and regular expressions. *)
From Coq Require Import String Ascii ZArith List Bool Lia.
From Verif Require Import Base ModelText ModelParse ModelLexer ModelQuote SpecLexer SpecQuote ProofsLexer ProofsLexer2 ProofsLexer3 ProofsLexer4 ProofsLexer5 ProofsLexer6 ProofsLexer7 ProofsQuote ProofsQuote2 ProofsQuote3.
Import ListNotations.
Open Scope Z_scope.

(** for the examples: a template that reads a name in braces *)
Inductive expr : Set := Local (x : chars) | Call (x : chars).
Definition braces (vars : list chars) (s : chars) : res (expr * chars) :=
  match s with
  | c :: r =>
      if c =? 123 then
        let '(x, r) := span ident_char r in
        match r with
        | d :: r => if d =? 125 then Ok (if existsb (same x) vars then Local x else Call x, r) else Err OtherErr
        | [] => Err OtherErr
        end
      else Err OtherErr
  | [] => Err OtherErr
  end.
Lemma braces_takes : takes braces.
Proof.
  intros vars [|c s] n r H; [discriminate|]. cbn [braces] in H. destruct (c =? 123); [|discriminate].
  destruct (span ident_char s) as [x s'] eqn:E. apply span_sound in E. destruct E as [-> _].
  destruct s' as [|d s']; [discriminate|]. destruct (d =? 125); [|discriminate]. injection H as <- <-.
  cbn [length]. rewrite app_length. cbn [length]. lia.
Qed.
Definition no_uni (c : Z) : bool := false.
Notation percent_of := (parse_percent no_uni no_uni expr braces []).
Notation string_of := (parse_quoted no_uni no_uni expr braces).
Notation heredoc_of := (parse_heredoc no_uni no_uni expr braces no_uni).
Notation regexp_of := (parse_regexp expr braces).
Definition pct (s : chars) : res (lit expr * chars) := percent_of s s.

(** * C118: percent literals *)
(** [x] comes behind the delimiter [d]; no here document is pending *)
Theorem C118_q : forall u v code template vars pending d x s rest, (length (113%Z :: d :: x) <= length pending)%nat ->
  parse_percent u v code template vars pending (113 :: d :: x) = Ok (LString s, rest) <->
  exists open close t, delimited d open close /\ x = t ++ close :: rest /\ plain open close 0 t s.
Proof.
  intros u v code template vars hp d x s r L. rewrite percent_single by (assumption || (cbn; auto)). split.
  - intros (open & close & t & s' & D & _ & E & P & Q). injection Q as ->. eauto 10.
  - intros (open & close & t & D & E & P). exists open, close, t, s. auto 10.
Qed.
Print Assumptions C118_q.
Example C118_q_ex : pct (codes "q(a(b)#{c}\'\n) d") = Ok (LString (codes "a(b)#{c}'\n"), codes " d").
Proof. vm_compute. reflexivity. Qed.
Theorem C118_w : forall u v code template vars pending d x ws rest, (length (119%Z :: d :: x) <= length pending)%nat ->
  parse_percent u v code template vars pending (119 :: d :: x) = Ok (LWords ws, rest) <->
  exists open close t s, delimited d open close /\ ~ separator d /\ x = t ++ close :: rest /\ plain open close 0 t s /\ separated s ws.
Proof.
  intros u v code template vars hp d x ws r L. rewrite percent_single by (assumption || (cbn; auto)). split.
  - intros (open & close & t & s & D & [K|N] & E & P & Q); [discriminate|]. injection Q as ->. exists open, close, t, s. repeat (split; [assumption|]). apply percent_words_iff. reflexivity.
  - intros (open & close & t & s & D & N & E & P & W). apply percent_words_iff in W. subst ws. exists open, close, t, s. auto 10.
Qed.
Print Assumptions C118_w.
Example C118_w_ex : pct (codes "w[ a [b]
  c] d") = Ok (LWords [codes "a"; codes "[b]"; codes "c"], codes " d").
Proof. vm_compute. reflexivity. Qed.
Theorem C118_i : forall u v code template vars pending d x ws rest, (length (105%Z :: d :: x) <= length pending)%nat ->
  parse_percent u v code template vars pending (105 :: d :: x) = Ok (LSymbols ws, rest) <->
  exists open close t s, delimited d open close /\ ~ separator d /\ x = t ++ close :: rest /\ plain open close 0 t s /\ separated s ws.
Proof.
  intros u v code template vars hp d x ws r L. rewrite percent_single by (assumption || (cbn; auto)). split.
  - intros (open & close & t & s & D & [K|N] & E & P & Q); [discriminate|]. injection Q as ->. exists open, close, t, s. repeat (split; [assumption|]). apply percent_words_iff. reflexivity.
  - intros (open & close & t & s & D & N & E & P & W). apply percent_words_iff in W. subst ws. exists open, close, t, s. auto 10.
Qed.
Print Assumptions C118_i.
Example C118_i_ex : pct (codes "i|a b|") = Ok (LSymbols [codes "a"; codes "b"], []).
Proof. vm_compute. reflexivity. Qed.
(** with or without the Q *)
Theorem C118_Q : forall u v code template vars pending pre d x s rest, In pre [[]; codes "Q"] ->
  (length (pre ++ d :: x) <= length pending)%nat -> ~ decimal d -> ~ lower d -> ~ upper d ->
  parse_percent u v code template vars pending (pre ++ d :: x) = Ok (LString s, rest) <->
  exists open close t, delimited d open close /\ x = t ++ close :: rest /\ piece open (Some close) 0 t s 0 (close :: rest).
Proof. intros u v code template vars hp pre d x s r P L A B C. apply percent_double; [exact P|exact L|apply alnum_not; assumption]. Qed.
Print Assumptions C118_Q.
Example C118_Q_ex : pct (codes "Q{a{\x41}#}b") = Ok (LString (codes "a{A}#"), codes "b") /\ pct (codes "<a\>>") = Ok (LString (codes "a>"), []).
Proof. vm_compute. split; reflexivity. Qed.
(** the text of `%w` has exactly one list of words *)
Theorem C118_words_unique : forall s, exists ws, separated s ws /\ forall ws', separated s ws' -> ws' = ws.
Proof.
  intros s. exists (percent_words s). split; [apply percent_words_iff; reflexivity|].
  intros ws' H. apply percent_words_iff in H. congruence.
Qed.
Print Assumptions C118_words_unique.
Example C118_words_unique_ex : separated (codes "a b") [codes "a"; codes "b"].
Proof. apply percent_words_iff. reflexivity. Qed.
(** The words of `%w` are separated by any white space in Ruby, and a delimiter after a
    backslash stands for itself. *)
Theorem C118_tab_refuted : ~ (forall a b, a <> [] -> b <> [] -> Forall lower a -> Forall lower b ->
  pct (codes "w(" ++ a ++ 9 :: b ++ codes ")") = Ok (LWords [a; b], [])).
Proof.
  intros H. specialize (H (codes "a") (codes "b") ltac:(discriminate) ltac:(discriminate)).
  assert (F : forall c, lower c -> Forall lower [c]) by (intros c L; constructor; [exact L|constructor]).
  specialize (H (F 97 ltac:(unfold lower; lia)) (F 98 ltac:(unfold lower; lia))). vm_compute in H. discriminate.
Qed.
Print Assumptions C118_tab_refuted.
Theorem C118_escaped_delimiter_refuted : ~ (forall t, Forall lower t -> pct (codes "q(" ++ t ++ codes "\))") = Ok (LString (t ++ codes ")"), [])).
Proof. intros H. specialize (H [] (Forall_nil _)). vm_compute in H. discriminate. Qed.
Print Assumptions C118_escaped_delimiter_refuted.
Theorem C118_escaped_blank_refuted : ~ (forall t, Forall lower t -> pct (codes "w(a\ " ++ t ++ codes ")") = Ok (LWords [codes "a " ++ t], [])).
Proof. intros H. specialize (H [98] ltac:(constructor; [unfold lower; lia|constructor])). vm_compute in H. discriminate. Qed.
Print Assumptions C118_escaped_blank_refuted.
(** `%W`, `%I`, `%s` and `%x` are read by the lexer and rejected by the parser: no such
    literal can be used *)
Theorem C118_kinds_refuted : forall u v code template vars pending k s, In k (codes "WIsx") ->
  parse_percent u v code template vars pending (k :: s) = Err OtherErr.
Proof.
  intros u v code template vars hp k s K.
  assert (K' : k = 87 \/ k = 73 \/ k = 115 \/ k = 120) by (cbn in K; lia). unfold parse_percent, read_percent.
  replace (existsb (Z.eqb k) percent_kinds) with true by (destruct K' as [->|[->|[->| ->]]]; reflexivity).
  destruct s as [|d s]; [reflexivity|]. destruct (ascii_alnum d); [reflexivity|]. unfold read_percent_body.
  destruct (delimiters (Some k) d) as [[open close]|]; [|reflexivity]. replace (k =? 81) with false by lia.
  destruct (read_single _ _ _ _ _ _ _ _) as [[t r]|]; [|reflexivity]. replace (k =? 113) with false by lia.
  replace (k =? 119) with false by lia. replace (k =? 105) with false by lia. replace (k =? 114) with false by lia. reflexivity.
Qed.
Print Assumptions C118_kinds_refuted.
Example C118_kinds_ex : pct (codes "W(a b)") = Err OtherErr.
Proof. vm_compute. reflexivity. Qed.
(** and the options of `%r` are not read *)
Theorem C118_regexp_option_refuted : ~ (forall t, Forall lower t -> pct (codes "r{" ++ t ++ codes "}i") = Ok (LRegexp [Text (t ++ codes "i")], [])).
Proof. intros H. specialize (H [] (Forall_nil _)). vm_compute in H. discriminate. Qed.
Print Assumptions C118_regexp_option_refuted.

(** * C120: strings with interpolations *)
(** A string literal is the texts and the codes in their order, up to its quote and
    through the literals that follow it directly; nothing else is read. *)
Theorem C120_string : forall u v code template, takes template -> forall vars s l rest,
  parse_quoted u v code template vars (34 :: s) = Ok (l, rest) <-> exists ps, quoted u v code template 34 vars s ps rest /\ l = literal ps.
Proof. exact parse_quoted_iff. Qed.
Print Assumptions C120_string.
Example C120_string_ex : takes braces /\
  string_of [codes "x"] (codes """a#{x}b\n#{y}"" ""c#"" 'd' + 1") =
    Ok (LParts [Text (codes "a"); Code (Local (codes "x")); Text (codes "b" ++ [10]); Code (Call (codes "y")); Text (codes "c#d")], codes " + 1").
Proof. split; [exact braces_takes|vm_compute; reflexivity]. Qed.
(** a literal has one reading *)
Theorem C120_unique : forall u v code template, takes template -> forall vars s ps rest ps' rest',
  quoted u v code template 34 vars s ps rest -> quoted u v code template 34 vars s ps' rest' -> ps = ps' /\ rest = rest'.
Proof.
  intros u v code template TK vars s ps r ps' r' A B.
  pose proof (proj2 (parse_quoted_iff u v code template TK vars s (literal ps) r) (ex_intro _ ps (conj A eq_refl))) as A'.
  pose proof (proj2 (parse_quoted_iff u v code template TK vars s (literal ps') r') (ex_intro _ ps' (conj B eq_refl))) as B'.
  rewrite A' in B'. injection B' as E ->. split; [|reflexivity].
  apply quoted_shape in A. apply quoted_shape in B. unfold literal in E.
  destruct A as [(t & ->)|(t & n & l & -> & _)]; destruct B as [(t' & ->)|(t' & n' & l' & -> & _)]; congruence.
Qed.
Print Assumptions C120_unique.
Example C120_unique_ex : exists ps rest, quoted no_uni no_uni expr braces 34 [] (codes "a#{y}b""c") ps rest.
Proof.
  pose proof (proj1 (parse_quoted_iff no_uni no_uni expr braces braces_takes [] (codes "a#{y}b""c") _ _) eq_refl) as (ps & Q & _). eauto.
Qed.
(** texts and codes alternate, and a text is first and last *)
Inductive alternate {code : Type} : list (part code) -> Prop :=
| Alt_one t : alternate [Text t]
| Alt_more t n l : alternate l -> alternate (Text t :: Code n :: l).
Theorem C120_alternate : forall u v code template q vars s ps rest, quoted u v code template q vars s ps rest -> alternate ps.
Proof. induction 1; constructor; assumption. Qed.
Print Assumptions C120_alternate.
Example C120_alternate_ex : alternate [Text (codes "a"); Code (Call (codes "y")); Text []].
Proof. repeat constructor. Qed.
(** percent literals that are delimited by a mark, not by brackets *)
Theorem C120_percent : forall u v code template, takes template -> forall vars pending pre d x ps rest, In pre [[]; codes "Q"] ->
  (length (pre ++ d :: x) <= length pending)%nat -> delimited d None d -> d <> 34 -> d <> 35 ->
  quoted u v code template d vars x ps rest -> (exists n, In (Code n) ps) ->
  parse_percent u v code template vars pending (pre ++ d :: x) = Ok (LParts ps, rest).
Proof. exact percent_parts. Qed.
Print Assumptions C120_percent.
Example C120_percent_ex : delimited 124 None 124 /\
  pct (codes "Q|a#{x}(b|c") = Ok (LParts [Text (codes "a"); Code (Call (codes "x")); Text (codes "(b")], codes "c").
Proof.
  split; [|vm_compute; reflexivity]. constructor; unfold decimal, lower, upper; try lia. cbn. lia.
Qed.
(** Between brackets the reading goes wrong behind an interpolation: brackets that
    open are not counted, and the number of open brackets stays that of the first
    interpolation. *)
Theorem C120_brackets_refuted : ~ (forall t, Forall lower t ->
  pct (codes "Q(#{x}(" ++ t ++ codes "))") = Ok (LParts [Text []; Code (Call (codes "x")); Text (codes "(" ++ t ++ codes ")")], [])).
Proof. intros H. specialize (H [] (Forall_nil _)). vm_compute in H. discriminate. Qed.
Print Assumptions C120_brackets_refuted.
Theorem C120_level_refuted : ~ (forall t, Forall lower t ->
  pct (codes "Q((#{x})#{y})" ++ t) = Ok (LParts [Text (codes "("); Code (Call (codes "x")); Text (codes ")"); Code (Call (codes "y")); Text []], t)).
Proof. intros H. specialize (H [] (Forall_nil _)). vm_compute in H. discriminate. Qed.
Print Assumptions C120_level_refuted.
(** A string in quotes that follows and has an interpolation is read up to the mark of
    the literal before it. *)
Theorem C120_adjacent_refuted : ~ (forall t, Forall lower t ->
  pct (codes "Q|#{x}|""" ++ t ++ codes "#{y}""") = Ok (LParts [Text []; Code (Call (codes "x")); Text t; Code (Call (codes "y")); Text []], [])).
Proof. intros H. specialize (H [] (Forall_nil _)). vm_compute in H. discriminate. Qed.
Print Assumptions C120_adjacent_refuted.

(** * C121: regular expressions *)
(** The engine gets the pattern as it is written, with the option behind it. *)
Theorem C121_regexp : forall code template, takes template -> forall vars s ps rest,
  pattern template vars s ps rest -> parse_regexp code template vars s = Ok (LRegexp ps, rest).
Proof. intros code template TK. exact (parse_regexp_ok no_uni no_uni code template TK). Qed.
Print Assumptions C121_regexp.
Lemma pattern_plain vars : pattern braces vars (codes "[a\]\d(\/)" ++ 47 :: codes "i" ++ codes " b") [Text (codes "[a\]\d(\/)" ++ [105])] (codes " b").
Proof.
  apply R_last; [|cbn; auto|discriminate].
  apply (V_open 0 (codes "a\]\d(\/)")). apply V_char; [cbn; lia|]. apply (V_escape 93); [cbn; lia|]. apply (V_escape 100); [cbn; lia|].
  apply V_char; [cbn; lia|]. apply (V_escape 47); [cbn; lia|]. apply V_char; [cbn; lia|]. constructor.
Qed.
Example C121_regexp_ex : regexp_of [] (codes "[a\]\d(\/)/i b") = Ok (LRegexp [Text (codes "[a\]\d(\/)i")], codes " b") /\
  regexp_of [] (codes "a\b#{x}#/ m") = Ok (LRegexp [Text (codes "a\b"); Code (Call (codes "x")); Text (codes "#-")], codes " m").
Proof. split; [exact (C121_regexp expr braces braces_takes [] _ _ _ (pattern_plain []))|vm_compute; reflexivity]. Qed.
(** the option is told to the engine in front of the pattern *)
Theorem C121_options : forall p o f, In (o, f) engine_flags -> create_regexp (p ++ [o]) = Ok (f ++ p).
Proof.
  intros p o f H. unfold create_regexp. rewrite rev_app_distr. cbn [rev app]. rewrite rev_involutive. cbn in H.
  repeat (destruct H as [H|H]; [injection H as <- <-; reflexivity|]). destruct H.
Qed.
Print Assumptions C121_options.
Example C121_options_ex : create_regexp (codes "ab-") = Ok (codes "(?m)ab").
Proof. exact (C121_options (codes "ab") 45 (codes "(?m)") ltac:(cbn; auto 10)). Qed.
(** every literal ends with an option the engine's caller knows *)
Theorem C121_option_known : forall o f, In (o, f) options -> exists g, In (f, g) engine_flags.
Proof.
  intros o f H. cbn in H. repeat (destruct H as [H|H]; [injection H as <- <-; cbn; eauto 10|]). destruct H.
Qed.
Print Assumptions C121_option_known.
Example C121_option_known_ex : In (codes "i", 105) options.
Proof. cbn. auto. Qed.
(** A number after a backslash is a group that was matched, in Ruby.  Only \1 is, and
    \2 to \7 are characters of these codes; so is \1 before a digit. *)
Theorem C121_group_refuted : ~ (forall n, 49 <= n <= 57 ->
  regexp_of [] ([92; n] ++ codes "/") = Ok (LRegexp [Text ([92; n] ++ codes "-")], [])).
Proof. intros H. specialize (H 50 ltac:(lia)). vm_compute in H. discriminate. Qed.
Print Assumptions C121_group_refuted.
Theorem C121_group_partial : forall n, n = 49 \/ n = 56 \/ n = 57 ->
  regexp_of [] ([92; n] ++ codes "/") = Ok (LRegexp [Text ([92; n] ++ codes "-")], []).
Proof. intros n [->|[->| ->]]; vm_compute; reflexivity. Qed.
Print Assumptions C121_group_partial.
(** Of several options only the first is read. *)
Theorem C121_options_refuted : ~ (forall t, Forall lower t -> exists f, regexp_of [] (t ++ codes "/im") = Ok (LRegexp [Text (t ++ f)], [])).
Proof. intros H. destruct (H [] (Forall_nil _)) as [f Q]. vm_compute in Q. discriminate. Qed.
Print Assumptions C121_options_refuted.
(** Inside brackets \b is the character 8; behind an interpolation that stands between
    brackets it is read as outside. *)
Theorem C121_class_refuted : ~ (forall vars, exists a b, regexp_of vars (codes "[#{x}\b]/") = Ok (LRegexp [Text a; Code b; Text (codes "\x08]-")], [])).
Proof. intros H. destruct (H []) as (a & b & Q). vm_compute in Q. discriminate. Qed.
Print Assumptions C121_class_refuted.

(** * C119: here documents *)
(** [s] is what follows `<<`; [pending] is what follows the documents that came before
    on the same line.  The literal is the lines up to the terminator, the line goes on
    behind the mark, and what is pending now follows the terminator's line. *)
Theorem C119_document : forall uni_white u v code template, takes template -> forall pending s l rest after,
  parse_heredoc u v code template uni_white pending s = Ok (l, rest, after) <->
  exists mark indent m delim line behind docs t, s = mark ++ rest /\ here_mark mark indent m delim rest /\
    rest = line ++ 10 :: behind /\ ~ In 10 line /\ documents pending behind docs /\ body uni_white indent delim docs t after /\
    denotes template m t l.
Proof. intros w u v code template TK. exact (parse_heredoc_iff w u v code template TK). Qed.
Print Assumptions C119_document.
Definition two : chars := codes "A, <<-'B')
1#{x}
A
2\n
  B
end".
Definition first : res (lit expr * chars * chars) := heredoc_of two two.
Example C119_document_ex : first = Ok (LParts [Text (codes "1"); Code (Call (codes "x")); Text [10]], codes ", <<-'B')
1#{x}
A
2\n
  B
end", codes "2\n
  B
end").
Proof. vm_compute. reflexivity. Qed.
(** The second document of a line starts behind the first. *)
Theorem C119_second : forall uni_white u v code template, takes template ->
  forall pending mark indent m delim line behind t l after,
  here_mark mark indent m delim (line ++ 10 :: behind) -> ~ In 10 line -> (length pending < length behind)%nat ->
  body uni_white indent delim pending t after -> denotes template m t l ->
  parse_heredoc u v code template uni_white pending (mark ++ line ++ 10 :: behind) = Ok (l, line ++ 10 :: behind, after).
Proof.
  intros w u v code template TK hp mark indent m delim line behind t l after HM N L B D.
  apply (parse_heredoc_iff w u v code template TK).
  exists mark, indent, m, delim, line, behind, hp, t. repeat (split; [reflexivity || assumption|]).
  split; [split; [reflexivity|lia]|]. split; assumption.
Qed.
Print Assumptions C119_second.
Example C119_second_ex : match first with
  | Ok (_, rest, pending) => heredoc_of pending (skipn 4 rest) = Ok (LString (codes "2\n" ++ [10]), skipn 8 rest, codes "end")
  | _ => False end.
Proof. vm_compute. reflexivity. Qed.
(** At the end of the line the text goes on behind the last document; when nothing is
    pending this is how blanks are skipped anyway (C88). *)
Theorem C119_goes_on : forall pending docs w stop n, Forall blank w -> (length pending < length docs)%nat -> (length (w ++ 10%Z :: docs) < n)%nat ->
  skip_white_here n pending (w ++ 10 :: docs) stop = skip_white (10 :: pending) stop.
Proof. intros hp docs w stop n B L F. apply skip_white_here_jump; assumption. Qed.
Print Assumptions C119_goes_on.
Example C119_goes_on_ex : skip_white_here 20 (codes "end") (codes "
2
B
end") None = (Some (codes "end"), codes "end").
Proof. vm_compute. reflexivity. Qed.
Theorem C119_nothing_pending : forall pending s stop n, (length s <= length pending)%nat -> (length s < n)%nat ->
  skip_white_here n pending s stop = skip_white s stop.
Proof. intros hp s stop n L F. apply skip_white_here_id; assumption. Qed.
Print Assumptions C119_nothing_pending.
Example C119_nothing_pending_ex : skip_white_here 5 (codes "a") (codes "b") None = skip_white (codes "b") None.
Proof. apply C119_nothing_pending; cbn; lia. Qed.
(** `<<~` takes the common indentation away, in Ruby. *)
Definition indented (t : chars) : chars := codes "~A" ++ 10 :: codes "  " ++ t ++ 10 :: codes "A".
Theorem C119_indentation_refuted : ~ (forall t s rest after, Forall lower t ->
  heredoc_of (indented t) (indented t) = Ok (LString s, rest, after) -> s = t ++ [10]).
Proof. intros H. specialize (H [] _ _ _ (Forall_nil _) eq_refl). discriminate. Qed.
Print Assumptions C119_indentation_refuted.
(** The code of a document knows no local variables, where that of a string does. *)
Definition inside (x : chars) : chars := codes "#{" ++ x ++ codes "}" ++ [10].
Theorem C119_locals_refuted : ~ (forall vars x l rest after, In x vars -> Forall lower x -> x <> [] ->
  heredoc_of (codes "A" ++ 10 :: inside x ++ codes "A") (codes "A" ++ 10 :: inside x ++ codes "A") = Ok (l, rest, after) ->
  string_of vars (codes """" ++ inside x ++ codes """") = Ok (l, [])).
Proof.
  intros H. specialize (H [codes "x"] (codes "x") _ _ _ (or_introl eq_refl) ltac:(constructor; [unfold lower; cbn; lia|constructor]) ltac:(discriminate) eq_refl).
  vm_compute in H. discriminate.
Qed.
Print Assumptions C119_locals_refuted.
(** A command document with an interpolation, and `<<` before the end of the text, stop
    the interpreter. *)
Theorem C119_panics_refuted : ~ (forall s, heredoc_of s s <> Panic).
Proof. intros H. apply (H []). vm_compute. reflexivity. Qed.
Print Assumptions C119_panics_refuted.
Definition marked (q : Z) : chars := q :: codes "A" ++ q :: 10 :: inside (codes "x") ++ codes "A".
Theorem C119_command_refuted : ~ (forall q, In q (codes "'""`") -> heredoc_of (marked q) (marked q) <> Panic).
Proof. intros H. apply (H 96); [cbn; auto|]. vm_compute. reflexivity. Qed.
Print Assumptions C119_command_refuted.
(** A line continued by a backslash goes on in the document, not behind it. *)
Theorem C119_continued_refuted : ~ (forall pending docs stop, (length pending < length docs)%nat ->
  snd (skip_white_here (S (S (S (length docs)))) pending (92 :: 10 :: docs) stop) = snd (skip_white pending stop)).
Proof. intros H. specialize (H (codes "a") (codes "bc") None ltac:(cbn; lia)). vm_compute in H. discriminate. Qed.
Print Assumptions C119_continued_refuted.
