(** Literals the parser asks the lexer for: percent literals, the parts of
    interpolated strings, regular expressions and here documents.
    ruruby-parse/src/parser/lexer.rs and parser/literals.rs.

    As in ModelLexer a position is the text left from there.  The field heredoc_pos,
    the place behind the here documents that belong to the current line, is the text
    [hp] left from that place: [heredoc_pos > pos] says that [hp] is shorter than
    what is left.  Initially (lexer.rs:52, 63) it is the start of the text. *)
From Coq Require Import String Ascii ZArith List Bool.
From Verif Require Import Base ModelText ModelParse ModelLexer.
Import ListNotations.
Open Scope Z_scope.

(** lexer.rs:794-796, 1168-1170: behind a line end the text goes on after the here documents *)
Definition next_line (hp r : chars) : chars := if (length hp <? length r)%nat then hp else r.
Definition is_some (o : option Z) (c : Z) : bool := match o with Some x => x =? c | None => false end.

(** lexer.rs:748-802 [read_interpolate] and the enum at 42-46.  Fuel: the number of
    characters. *)
Inductive interp : Set := IDone (s rest : chars) | IOpen (s : chars) (level : nat) (rest : chars) | IError.
Fixpoint read_interp (fuel : nat) (hp : chars) (open term : option Z) (level : nat) (acc s : chars) : interp :=
  match fuel with
  | O => IError
  | S fuel =>
      match s with
      | [] => match term with None => IDone acc [] | Some _ => IError end
      | c :: r =>
          if is_some open c then read_interp fuel hp open term (S level) (acc ++ [c]) r
          else if is_some term c then
            match level with
            | O => IDone acc r
            | S level => read_interp fuel hp open term level (acc ++ [c]) r
            end
          else if c =? 92 then
            match consume 10 r with
            | Some r' => read_interp fuel hp open term level acc (next_line hp r')
            | None => match read_escape r with
                      | Some (x, r') => read_interp fuel hp open term level (acc ++ [x]) r'
                      | None => IError
                      end
            end
          else if c =? 35 then
            if interpolates r then IOpen acc level r else read_interp fuel hp open term level (acc ++ [35]) r
          else if c =? 10 then read_interp fuel hp open term level (acc ++ [10]) (next_line hp r)
          else read_interp fuel hp open term level (acc ++ [c]) r
      end
  end.

(** lexer.rs:805-847 [read_string_literal_single]; [esc] is escape_backslash *)
Fixpoint read_single (fuel : nat) (hp : chars) (open : option Z) (term : Z) (esc : bool) (level : nat) (acc s : chars)
  : option (chars * chars) :=
  match fuel with
  | O => None
  | S fuel =>
      match s with
      | [] => None
      | c :: r =>
          if is_some open c then read_single fuel hp open term esc (S level) (acc ++ [c]) r
          else if c =? term then
            match level with
            | O => Some (acc, r)
            | S level => read_single fuel hp open term esc level (acc ++ [c]) r
            end
          else if c =? 92 then
            match consume 10 r with
            | Some r' => read_single fuel hp open term esc level acc (next_line hp r')
            | None =>
                match r with
                | [] => None
                | d :: r' =>
                    if d =? 39 then read_single fuel hp open term esc level (acc ++ [39]) r'
                    else if d =? 92 then
                      read_single fuel hp open term esc level (acc ++ (if esc then [92; 92] else [92])) r'
                    else read_single fuel hp open term esc level (acc ++ [92; d]) r'
                end
            end
          else read_single fuel hp open term esc level (acc ++ [c]) r
      end
  end.

(** lexer.rs:937-988 [get_percent_notation], after the `%`.  PNote is the token
    PercentNotation. *)
Inductive percent : Set :=
| PStr (s rest : chars) | POpen (s : chars) (term : Z) (level : nat) (rest : chars)
| PNote (kind : Z) (s rest : chars) | PError.
(** q Q x r w W s i I *)
Definition percent_kinds : chars := [113; 81; 120; 114; 119; 87; 115; 105; 73].
Definition ascii_alnum (c : Z) : bool := ascii_alpha c || ascii_digit c.
(** lexer.rs:952-964 *)
Definition delimiters (kind : option Z) (d : Z) : option (option Z * Z) :=
  if d =? 40 then Some (Some 40, 41)
  else if d =? 123 then Some (Some 123, 125)
  else if d =? 91 then Some (Some 91, 93)
  else if d =? 60 then Some (Some 60, 62)
  else if (d =? 32) || (d =? 10) then
    match kind with
    | Some k => if (k =? 105) || (k =? 73) || (k =? 119) || (k =? 87) then None else Some (None, d)
    | None => Some (None, d)
    end
  else Some (None, d).
Definition read_percent_body (hp : chars) (kind : option Z) (d : Z) (r : chars) : percent :=
  match delimiters kind d with
  | None => PError
  | Some (open, term) =>
      let double :=
        match read_interp (S (length r)) hp open (Some term) 0 [] r with
        | IDone s r => PStr s r | IOpen s level r => POpen s term level r | IError => PError
        end in
      match kind with
      | None => double
      | Some k =>
          if k =? 81 then double
          else match read_single (S (length r)) hp open term (k =? 114) 0 [] r with
               | Some (s, r) => if k =? 113 then PStr s r else PNote k s r
               | None => PError
               end
      end
  end.
Definition read_percent (hp s : chars) : percent :=
  match s with
  | [] => PError
  | c :: r =>
      if existsb (Z.eqb c) percent_kinds then
        match r with
        | [] => PError
        | d :: r => if ascii_alnum d then PError else read_percent_body hp (Some c) d r
        end
      else if negb (ascii_alnum c) then read_percent_body hp None c r
      else PError
  end.

(** literals.rs:91-97: [str::split] at each blank or line end, and the filter *)
Fixpoint split_blank (cur s : chars) : list chars :=
  match s with
  | [] => [cur]
  | c :: r => if (c =? 32) || (c =? 10) then cur :: split_blank [] r else split_blank (cur ++ [c]) r
  end.
Definition percent_words (s : chars) : list chars :=
  filter (fun w => match w with [] => false | _ => true end) (split_blank [] s).

(** nodes made of literals; the code of an interpolation is of any type *)
Inductive part (code : Type) : Type := Text (s : chars) | Code (n : code).
Arguments Text {code}. Arguments Code {code}.
Inductive lit (code : Type) : Type :=
| LString (s : chars) | LParts (l : list (part code)) | LWords (l : list chars) | LSymbols (l : list chars)
| LRegexp (l : list (part code)) | LCommand (l : lit code).
Arguments LString {code}. Arguments LParts {code}. Arguments LWords {code}. Arguments LSymbols {code}.
Arguments LRegexp {code}. Arguments LCommand {code}.

Section Parts.
Variables (uni_numeric uni_alnum : Z -> bool).
Variable code : Type.
(** literals.rs:288-307 [parse_template]: what follows `#`, up to the closing brace or
    the end of the variable's name, where the given local variables are known *)
Variable template : list chars -> chars -> res (code * chars).

(** literals.rs:52-72: the texts of adjacent string literals are appended; an adjacent
    literal that is opened by an interpolation is appended up to there.  Here documents
    are left out: a line end before the next literal ends the search.  Fuel: the
    number of characters. *)
Inductive adj : Set := AEnd (s rest : chars) | AOpen (s rest : chars).
Fixpoint adjacent (fuel : nat) (s rest : chars) : res adj :=
  match fuel with
  | O => Panic
  | S fuel =>
      x <- read_token uni_numeric uni_alnum rest ;;
      match t_kind (fst x) with
      | KStr next => adjacent fuel (s ++ next) (snd x)
      | KOpenStr next _ => Ok (AOpen (s ++ next) (snd x))
      | _ => Ok (AEnd s rest)
      end
  end.
(** literals.rs:35-81 [parse_interporated_string_literal] from a `#` on; [nodes] are
    those before it.  [term] and [level] stay what they were at the first
    interpolation, and brackets that open are not counted (45-47). *)
Fixpoint parts (fuel : nat) (vars : list chars) (term : option Z) (level : nat) (nodes : list (part code)) (s : chars)
  : res (list (part code) * chars) :=
  match fuel with
  | O => Panic
  | S fuel =>
      x <- template vars s ;;
      let nodes := nodes ++ [Code (fst x)] in
      match read_interp (S (length (snd x))) (snd x) None term level [] (snd x) with
      | IDone t r =>
          a <- adjacent (S (length r)) t r ;;
          match a with
          | AEnd t r => Ok (nodes ++ [Text t], r)
          | AOpen t r => parts fuel vars term level (nodes ++ [Text t]) r
          end
      | IOpen t _ r => parts fuel vars term level (nodes ++ [Text t]) r
      | IError => Err OtherErr
      end
  end.
Definition interpolated (vars : list chars) (term : option Z) (level : nat) (s rest : chars) : res (lit code * chars) :=
  x <- parts (S (length rest)) vars term level [Text s] rest ;; Ok (LParts (fst x), snd x).

(** literals.rs:15-33 [parse_string_literal] *)
Definition string_literal (vars : list chars) (s rest : chars) : res (lit code * chars) :=
  a <- adjacent (S (length rest)) s rest ;;
  match a with
  | AEnd s r => Ok (LString s, r)
  | AOpen s r => interpolated vars (Some 34) 0 s r
  end.
(** expression.rs:685-696: a token that starts a string or a command *)
Definition parse_quoted (vars : list chars) (s : chars) : res (lit code * chars) :=
  x <- read_token uni_numeric uni_alnum s ;;
  match t_kind (fst x) with
  | KStr t => string_literal vars t (snd x)
  | KOpenStr t _ => interpolated vars (Some 34) 0 t (snd x)
  | KCommand t => Ok (LCommand (LString t), snd x)
  | KOpenCommand t _ => y <- interpolated vars (Some 96) 0 t (snd x) ;; Ok (LCommand (fst y), snd y)
  | _ => Err OtherErr
  end.

(** literals.rs:83-120 [parse_percent_notation] *)
Definition parse_percent (vars : list chars) (hp s : chars) : res (lit code * chars) :=
  match read_percent hp s with
  | PStr s r => Ok (LString s, r)
  | POpen s term level r => interpolated vars (Some term) level s r
  | PNote k s r =>
      if k =? 119 then Ok (LWords (percent_words s), r)
      else if k =? 105 then Ok (LSymbols (percent_words s), r)
      else if k =? 114 then Ok (LRegexp [Text (s ++ [45])], r)
      else Err OtherErr
  | PError => Err OtherErr
  end.

(** lexer.rs:861-883 [check_postfix] *)
Definition postfix (s : chars) : Z * chars :=
  match s with
  | c :: r => if (c =? 105) || (c =? 109) || (c =? 120) || (c =? 111) then (c, r)
              else if (c =? 117) || (c =? 110) then (45, r) else (45, s)
  | [] => (45, [])
  end.
(** Rust's [{:02x}] of a byte *)
Definition hexdigit (d : Z) : Z := if d <? 10 then 48 + d else 87 + d.
(** lexer.rs:904-929: what is written for a backslash and the character [ch]; the
    comparison at 919 is the one of the source *)
Definition regexp_escape (char_class : Z) (ch : Z) (r : chars) : chars * chars :=
  if ch =? 97 then (str "\a", r)
  else if ch =? 98 then (if char_class =? 0 then str "\b" else str "\x08", r)
  else if ch =? 101 then (str "\x1b", r)
  else if ch =? 102 then (str "\f", r)
  else if ch =? 110 then (str "\n", r)
  else if ch =? 114 then (str "\r", r)
  else if ch =? 115 then (str "[[:space:]]", r)
  else if ch =? 116 then (str "\t", r)
  else if ch =? 118 then (str "\v", r)
  else if (ch <=? 49) && (ch <=? 57) && negb (match r with d :: _ => ascii_digit d | [] => false end) then ([92; ch], r)
  else if ascii_octal ch then
    let '(o, r') := octals 2 (ch - 48) r in ([92; 120; hexdigit (o / 16); hexdigit (o mod 16)], r')
  else ([92; ch], r).
(** lexer.rs:886-935 [read_regexp_sub]; the count of brackets is an i32 *)
Fixpoint read_regexp (fuel : nat) (char_class : Z) (acc s : chars) : interp :=
  match fuel with
  | O => IError
  | S fuel =>
      match s with
      | [] => IError
      | c :: r =>
          if c =? 47 then let '(p, r) := postfix r in IDone (acc ++ [p]) r
          else if c =? 91 then read_regexp fuel (char_class + 1) (acc ++ [91]) r
          else if c =? 93 then read_regexp fuel (char_class - 1) (acc ++ [93]) r
          else if c =? 92 then
            match r with
            | [] => IError
            | ch :: r => let '(t, r) := regexp_escape char_class ch r in read_regexp fuel char_class (acc ++ t) r
            end
          else if c =? 35 then
            if interpolates r then IOpen acc 0 r else read_regexp fuel char_class (acc ++ [35]) r
          else read_regexp fuel char_class (acc ++ [c]) r
      end
  end.
(** literals.rs:224-252 [parse_regexp], after the `/` *)
Fixpoint regexp_parts (fuel : nat) (vars : list chars) (nodes : list (part code)) (s : chars) : res (list (part code) * chars) :=
  match fuel with
  | O => Panic
  | S fuel =>
      match read_regexp (S (length s)) 0 [] s with
      | IDone t r => Ok (nodes ++ [Text t], r)
      | IOpen t _ r => x <- template vars r ;; regexp_parts fuel vars (nodes ++ [Text t; Code (fst x)]) (snd x)
      | IError => Err OtherErr
      end
  end.
Definition parse_regexp (vars : list chars) (s : chars) : res (lit code * chars) :=
  x <- regexp_parts (S (length s)) vars [] s ;; Ok (LRegexp (fst x), snd x).

(** ** Here documents *)
(** [str::trim_start]: white space is a property of characters; those that are not
    ASCII are a parameter *)
Variable uni_white : Z -> bool.
Definition white (c : Z) : bool := if c <? 128 then within 9 c 13 || (c =? 32) else uni_white c.
Fixpoint trim_start (s : chars) : chars :=
  match s with c :: r => if white c then trim_start r else s | [] => [] end.

(** lexer.rs:1080-1106: the lines up to the terminator; the text and what comes behind
    the terminator's line.  Fuel: the number of characters. *)
Fixpoint here_lines (fuel : nat) (indent : bool) (delim acc s : chars) : option (chars * chars) :=
  match fuel with
  | O => None
  | S fuel =>
      let '(line, r) := span (fun c => negb (c =? 10)) s in
      if same (if indent then trim_start line else line) delim then Some (acc, tl r)
      else match r with
           | [] => None
           | _ :: r => here_lines fuel indent delim (acc ++ line ++ [10]) r
           end
  end.
Inductive mode : Set := MSingle | MDouble | MCommand.
Record here : Set := mkhere { h_mode : mode; h_text : chars; h_rest : chars; h_pos : chars }.
(** lexer.rs:1032-1110 [read_heredocument], after `<<`.  [h_rest] is where the line
    goes on, [h_pos] the new heredoc_pos.  [error_unexpected] at the end of the text
    panics (lexer.rs:70-79). *)
Definition read_heredoc (hp s : chars) : res here :=
  let '(indent, s) :=
    match consume 45 s with
    | Some r => (true, r)
    | None => match consume 126 s with Some r => (true, r) | None => (false, s) end
    end in
  let '(m, quote, s) :=
    match consume 39 s with
    | Some r => (MSingle, Some 39, r)
    | None => match consume 34 s with
              | Some r => (MDouble, Some 34, r)
              | None => match consume 96 s with Some r => (MCommand, Some 96, r) | None => (MDouble, None, s) end
              end
    end in
  let '(delim, s) := span ident_char s in
  match delim with
  | [] => match s with [] => Panic | _ => Err OtherErr end
  | _ =>
      match (match quote with Some q => consume q s | None => Some s end) with
      | None => Err OtherErr
      | Some s =>
          match goto_eol s with
          | [] => Err OtherErr
          | _ :: r =>
              let r := next_line hp r in
              match here_lines (S (length r)) indent delim [] r with
              | Some (t, after) => Ok (mkhere m t s after)
              | None => Err OtherErr
              end
          end
      end
  end.
(** literals.rs:122-162 [parse_heredocument]: the literal, where the line goes on, and
    the new heredoc_pos.  The text is read by a parser of its own that has only the
    text of the document and no scopes (309-321), so it knows no local variable.  For
    an interpolation in a command the lexer gives an open command (lexer.rs:738-746),
    which the parser takes for impossible (literals.rs:157). *)
Definition parse_heredoc (hp s : chars) : res (lit code * chars * chars) :=
  if (match s with c :: _ => ascii_white c | [] => false end) then Err OtherErr
  else
    h <- read_heredoc hp s ;;
    let t := h_text h in
    let read := read_interp (S (length t)) t None None 0 [] t in
    l <- match h_mode h with
         | MSingle => Ok (LString t)
         | MDouble =>
             match read with
             | IDone s _ => Ok (LString s)
             | IOpen s level r => x <- interpolated [] None level s r ;; Ok (fst x)
             | IError => Err OtherErr
             end
         | MCommand =>
             match read with
             | IDone s _ => Ok (LCommand (LString s))
             | IOpen _ _ _ => Panic
             | IError => Err OtherErr
             end
         end ;;
    Ok (l, h_rest h, h_pos h).
End Parts.

(** lexer.rs:1166-1185 and 1264-1277: [skip_whitespace] with here documents: a line end
    jumps behind them, a continued line does not *)
Fixpoint skip_white_here (fuel : nat) (hp s : chars) (stop : option chars) : option chars * chars :=
  match fuel with
  | O => (stop, s)
  | S fuel =>
      match s with
      | c :: r =>
          if c =? 10 then let r := next_line hp r in skip_white_here fuel hp r (Some r)
          else if c =? 92 then
            match r with
            | d :: r' => if d =? 10 then skip_white_here fuel hp r' stop else (stop, s)
            | [] => (stop, s)
            end
          else if ascii_white c then skip_white_here fuel hp r stop
          else (stop, s)
      | [] => (stop, [])
      end
  end.

(** executor.rs:737-751 [create_regexp]: the pattern handed to the engine; the last
    character of the evaluated parts is the option *)
Definition create_regexp (arg : chars) : res chars :=
  match rev arg with
  | [] => Panic
  | o :: p =>
      let p := rev p in
      if o =? 105 then Ok (str "(?mi)" ++ p)
      else if o =? 109 then Ok (str "(?ms)" ++ p)
      else if o =? 120 then Ok (str "(?mx)" ++ p)
      else if o =? 111 then Ok (str "(?mo)" ++ p)
      else if o =? 45 then Ok (str "(?m)" ++ p)
      else Err OtherErr
  end.
