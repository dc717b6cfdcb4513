(** The lexer: ruruby-parse/src/parser/lexer.rs, from characters to tokens.

    The text is a list of code points.  A position is the text that is left from
    there; its byte offset is [offset].  Modelled: [read_token] with all it calls
    for names, variables, numbers (ModelText), operators, strings and commands, and
    [read_method_name].  Not modelled: regular expressions, percent literals,
    here-documents (so heredoc_pos stays 0) and character literals, which only the parser
    asks for.

    The Unicode tables of [char::is_numeric] and [char::is_alphanumeric] are
    parameters; they are only asked about characters that are not ASCII. *)
From Coq Require Import String Ascii ZArith List Bool.
From Verif Require Import Base ModelArray ModelText ModelParse.
Import ListNotations.
Open Scope Z_scope.

(** the code points of a text, for writing down constants *)
Fixpoint str (s : string) : chars :=
  match s with
  | EmptyString => []
  | String c r => Z.of_nat (nat_of_ascii c) :: str r
  end.
Fixpoint same (a b : chars) : bool :=
  match a, b with
  | [], [] => true
  | x :: a, y :: b => (x =? y) && same a b
  | _, _ => false
  end.

(** token.rs:41-62; the numbers are those of ModelText, the delimiter of an open
    string or command is the quote it was opened with *)
Inductive tkind : Set :=
| KEof | KIdent (s : chars) | KIvar (s : chars) | KGvar (s : chars) | KSpecial (id : Z) | KCvar (s : chars)
| KConst (s : chars) | KNum (n : ModelText.tok) | KStr (s : chars) | KCommand (s : chars) | KRes (r : reserved)
| KPunct (p : punct) | KOpenStr (s : chars) (level : Z) | KOpenCommand (s : chars) (level : Z) | KLT.

(** std: char::is_ascii_alphabetic, is_ascii_uppercase, is_ascii_digit,
    is_ascii_punctuation, is_ascii_whitespace *)
Definition within (a c b : Z) : bool := (a <=? c) && (c <=? b).
Definition ascii_upper (c : Z) : bool := within 65 c 90.
Definition ascii_alpha (c : Z) : bool := ascii_upper c || within 97 c 122.
Definition ascii_digit (c : Z) : bool := within 48 c 57.
Definition ascii_punct (c : Z) : bool := within 33 c 47 || within 58 c 64 || within 91 c 96 || within 123 c 126.
Definition ascii_white (c : Z) : bool := (c =? 9) || (c =? 10) || (c =? 12) || (c =? 13) || (c =? 32).
(** lexer.rs:1159 *)
Definition ident_char (c : Z) : bool := ascii_alpha c || ascii_digit c || (c =? 95).

(** std: char::len_utf8; lexer.rs:1130-1138: [pos] after the whole text is read
    down to what is left *)
Definition utf8_len (c : Z) : Z := if c <? 128 then 1 else if c <? 2048 then 2 else if c <? 65536 then 3 else 4.
Fixpoint bytes (s : chars) : Z := match s with [] => 0 | c :: r => utf8_len c + bytes r end.
Definition offset (code left : chars) : Z := bytes code - bytes left.
(** lexer.rs:1288-1291 [cur_loc] *)
Definition cur_loc (code start stop : chars) : Z * Z :=
  (offset code start, Z.max (offset code start) (offset code stop - 1)).

(** lexer.rs:1154-1165 [consume_ident], and other loops that take characters *)
Fixpoint span (f : Z -> bool) (s : chars) : chars * chars :=
  match s with
  | c :: r => if f c then let '(a, b) := span f r in (c :: a, b) else ([], s)
  | [] => ([], [])
  end.
(** lexer.rs:1113-1118 [peek] *)
Definition peek_is (c : Z) (s : chars) : bool := match s with x :: _ => x =? c | [] => false end.

(** token.rs:98-134 and lib.rs:40-51: the table is filled from the names below *)
Definition reserved_names : list (chars * reserved) :=
  [(str "BEGIN", rBEGIN); (str "END", rEND); (str "alias", rAlias); (str "and", rAnd); (str "begin", rBegin);
   (str "break", rBreak); (str "case", rCase); (str "class", rClass); (str "def", rDef); (str "defined?", rDefined);
   (str "do", rDo); (str "else", rElse); (str "elsif", rElsif); (str "end", rEnd); (str "ensure", rEnsure);
   (str "for", rFor); (str "if", rIf); (str "in", rIn); (str "module", rModule); (str "next", rNext);
   (str "or", rOr); (str "rescue", rRescue); (str "return", rReturn); (str "super", rSuper); (str "then", rThen);
   (str "until", rUntil); (str "unless", rUnless); (str "when", rWhen); (str "while", rWhile); (str "yield", rYield)].
Fixpoint lookup (s : chars) (l : list (chars * reserved)) : option reserved :=
  match l with
  | [] => None
  | (n, r) :: l => if same n s then Some r else lookup s l
  end.
Definition check_reserved (s : chars) : option reserved := lookup s reserved_names.

(** lexer.rs:1166-1185 and 1264-1277: skip_whitespace; the flag tells
    whether a newline was read, [stop] is the position after the last one.
    consume_newline comes first, then consume_cont_line, then
    consume_whitespace. *)
Fixpoint skip_white (s : chars) (stop : option chars) : option chars * chars :=
  match s with
  | c :: r =>
      if c =? 10 then skip_white r (Some r)
      else if c =? 92 then
        match r with
        | d :: r' => if d =? 10 then skip_white r' stop else (stop, s)
        | [] => (stop, s)
        end
      else if ascii_white c then skip_white r stop
      else (stop, s)
  | [] => (stop, [])
  end.
(** lexer.rs:1279-1286 *)
Fixpoint goto_eol (s : chars) : chars :=
  match s with c :: r => if c =? 10 then s else goto_eol r | [] => [] end.

(** lexer.rs:437-485 [read_identifier] for VarKind::Identifier, [c] having been
    read: `!` and `?` at the end belong to the name, except in `!=` *)
Definition suffix (r : chars) : chars * chars :=
  match r with
  | x :: y => if ((x =? 33) && negb (peek_is 61 y)) || (x =? 63) then ([x], y) else ([], r)
  | [] => ([], [])
  end.
Definition read_name (c : Z) (s : chars) : tkind * chars :=
  let '(body, r) := span ident_char s in
  let '(suf, r) := suffix r in
  let name := c :: body ++ suf in
  (match check_reserved name with
   | Some k => KRes k
   | None => if ascii_upper c then KConst name else KIdent name
   end, r).

(** lexer.rs:234-400: the arms of operators.  [consume] as in ModelText. *)
Definition or_else {A} (o : option A) (d : A) : A := match o with Some a => a | None => d end.
Definition read_punct (c : Z) (s : chars) : option (punct * chars) :=
  let yes p r := Some (p, r) in
  let one d p q := match consume d s with Some r => yes p r | None => yes q s end in
  if c =? 59 then yes pSemi s
  else if c =? 58 then one 58 pScope pColon
  else if c =? 44 then yes pComma s
  else if c =? 43 then one 61 (pAssignOp Add) pPlus
  else if c =? 45 then
    match consume 62 s with
    | Some r => yes pArrow r
    | None => one 61 (pAssignOp Sub) pMinus
    end
  else if c =? 42 then
    match consume 61 s with
    | Some r => yes (pAssignOp Mul) r
    | None => one 42 pDMul pMul
    end
  else if c =? 37 then one 61 (pAssignOp Rem) pRem
  else if c =? 47 then one 61 (pAssignOp Div) pDiv
  else if c =? 40 then yes pLParen s
  else if c =? 41 then yes pRParen s
  else if c =? 94 then one 61 (pAssignOp BitXor) pBitXor
  else if c =? 126 then yes pBitNot s
  else if c =? 91 then yes pLBracket s
  else if c =? 93 then yes pRBracket s
  else if c =? 123 then yes pLBrace s
  else if c =? 125 then yes pRBrace s
  else if c =? 46 then
    match consume 46 s with
    | Some r => match consume 46 r with Some r' => yes pRange3 r' | None => yes pRange2 r end
    | None => yes pDot s
    end
  else if c =? 63 then yes pQuestion s
  else if c =? 92 then yes pBackslash s
  else if c =? 61 then
    match consume 61 s with
    | Some r => match consume 61 r with Some r' => yes pTEq r' | None => yes pEq r end
    | None => match consume 62 s with
              | Some r => yes pFatArrow r
              | None => one 126 pMatch pAssign
              end
    end
  else if c =? 62 then
    match consume 61 s with
    | Some r => yes pGe r
    | None => match consume 62 s with
              | Some r => match consume 61 r with Some r' => yes (pAssignOp Shr) r' | None => yes pShr r end
              | None => yes pGt s
              end
    end
  else if c =? 60 then
    match consume 61 s with
    | Some r => match consume 62 r with Some r' => yes pCmp r' | None => yes pLe r end
    | None => match consume 60 s with
              | Some r => match consume 61 r with Some r' => yes (pAssignOp Shl) r' | None => yes pShl r end
              | None => yes pLt s
              end
    end
  else if c =? 33 then
    match consume 61 s with
    | Some r => yes pNe r
    | None => one 126 pUnmatch pNot
    end
  else if c =? 38 then
    match consume 38 s with
    | Some r => match consume 61 r with Some r' => yes (pAssignOp LAnd) r' | None => yes pLAnd r end
    | None => match consume 61 s with
              | Some r => yes (pAssignOp BitAnd) r
              | None => one 46 pSafeNav pBitAnd
              end
    end
  else if c =? 124 then
    match consume 124 s with
    | Some r => match consume 61 r with Some r' => yes (pAssignOp LOr) r' | None => yes pLOr r end
    | None => one 61 (pAssignOp BitOr) pBitOr
    end
  else None.

(** lexer.rs:1213-1230 [expect_hex], [n] times *)
Definition hex_value (c : Z) : option Z :=
  if within 48 c 57 then Some (c - 48)
  else if within 97 c 102 then Some (c - 87)
  else if within 65 c 70 then Some (c - 55)
  else None.
Fixpoint hexes (n : nat) (acc : Z) (s : chars) : option (Z * chars) :=
  match n with
  | O => Some (acc, s)
  | S n => match s with
           | c :: r => match hex_value c with Some d => hexes n (acc * 16 + d) r | None => None end
           | [] => None
           end
  end.
(** lexer.rs:1244-1253 [consume_tri_octal]: the product wraps in a u8, and the sum
    cannot overflow since the product is a multiple of 8 *)
Definition ascii_octal (c : Z) : bool := within 48 c 55.
Fixpoint octals (n : nat) (o : Z) (s : chars) : Z * chars :=
  match n with
  | O => (o, s)
  | S n => match s with
           | c :: r => if ascii_octal c then octals n ((o * 8) mod 256 + (c - 48)) r else (o, s)
           | [] => (o, s)
           end
  end.
(** std: char::from_u32 *)
Definition scalar (u : Z) : bool := within 0 u 55295 || within 57344 u 1114111.
(** lexer.rs:990-1030 [read_escaped_char]; None is an error.  The error for `\x`
    (1008) does not occur: two hex digits are a character. *)
Definition read_escape (s : chars) : option (Z * chars) :=
  match s with
  | [] => None
  | c :: r =>
      if (c =? 39) || (c =? 34) || (c =? 63) || (c =? 92) then Some (c, r)
      else if c =? 97 then Some (7, r)
      else if c =? 98 then Some (8, r)
      else if c =? 101 then Some (27, r)
      else if c =? 102 then Some (12, r)
      else if c =? 110 then Some (10, r)
      else if c =? 114 then Some (13, r)
      else if c =? 115 then Some (32, r)
      else if c =? 116 then Some (9, r)
      else if c =? 118 then Some (11, r)
      else if c =? 120 then hexes 2 0 r
      else if c =? 117 then
        match hexes 4 0 r with
        | Some (u, r') => if scalar u then Some (u, r') else None
        | None => None
        end
      else if ascii_octal c then Some (octals 2 (c - 48) r)
      else Some (c, r)
  end.
(** lexer.rs:748-802 [read_interpolate] with [open = None] and the terminator
    [q]; the level then stays 0.  Fuel: the number of characters. *)
Inductive dquoted : Set := DDone (s rest : chars) | DOpen (s rest : chars) | DError.
Definition interpolates (s : chars) : bool := peek_is 123 s || peek_is 36 s || peek_is 64 s.
Fixpoint read_dq (fuel : nat) (q : Z) (acc s : chars) : dquoted :=
  match fuel with
  | O => DError
  | S fuel =>
      match s with
      | [] => DError
      | c :: r =>
          if c =? q then DDone acc r
          else if c =? 92 then
            match consume 10 r with
            | Some r' => read_dq fuel q acc r'
            | None => match read_escape r with
                      | Some (x, r') => read_dq fuel q (acc ++ [x]) r'
                      | None => DError
                      end
            end
          else if c =? 35 then
            if interpolates r then DOpen acc r else read_dq fuel q (acc ++ [35]) r
          else read_dq fuel q (acc ++ [c]) r
      end
  end.
(** lexer.rs:805-847 [read_string_literal_single] with [open = None], the
    terminator `'` and [escape_backslash = false] *)
Fixpoint read_sq (fuel : nat) (acc s : chars) : option (chars * chars) :=
  match fuel with
  | O => None
  | S fuel =>
      match s with
      | [] => None
      | c :: r =>
          if c =? 39 then Some (acc, r)
          else if c =? 92 then
            match consume 10 r with
            | Some r' => read_sq fuel acc r'
            | None =>
                match r with
                | [] => None
                | d :: r' =>
                    if d =? 39 then read_sq fuel (acc ++ [39]) r'
                    else if d =? 92 then read_sq fuel (acc ++ [92]) r'
                    else read_sq fuel (acc ++ [92; d]) r'
                end
            end
          else read_sq fuel (acc ++ [c]) r
      end
  end.

Section Lexer.
(** std: char::is_numeric and char::is_alphanumeric of the characters that are not ASCII *)
Variables (uni_numeric uni_alnum : Z -> bool).
Definition numeric (c : Z) : bool := if c <? 128 then ascii_digit c else uni_numeric c.
Definition alnum (c : Z) : bool := if c <? 128 then ascii_alpha c || ascii_digit c else uni_alnum c.

(** lexer.rs:437-470 [read_identifier] for the other kinds; [before] is what of the
    token has been read *)
Definition read_var (before : chars) (s : chars) : res (chars * chars) :=
  match s with
  | c :: r =>
      if alnum c || (c =? 95) || (c =? 38) || (c =? 39) then
        let '(body, r) := span ident_char r in Ok (before ++ c :: body, r)
      else Err OtherErr
  | [] => Err OtherErr
  end.
(** lexer.rs:410-434 [read_global_var]; the id is a u32, whose overflow (of more
    than 400 million digits) is left out *)
Fixpoint sum_digits (id : Z) (s : chars) : Z * chars :=
  match s with
  | c :: r => if ascii_digit c then sum_digits (id + (c - 48)) r else (id, s)
  | [] => (id, s)
  end.
Definition read_global (s : chars) : res (tkind * chars) :=
  match consume_numeric s with
  | Some (c, r) =>
      if c =? 48 then Ok (KGvar [36; 48], r)
      else let '(id, r) := sum_digits (c - 48) r in Ok (KSpecial (id + 100), r)
  | None =>
      match s with
      | c :: r =>
          if ascii_punct c then
            Ok (if c =? 38 then KSpecial 0 else if c =? 39 then KSpecial 1 else KGvar [36; c], r)
          else x <- read_var [36] s ;; Ok (KGvar (fst x), snd x)
      | [] => Err OtherErr
      end
  end.
(** lexer.rs:604-673: a numeral of another script as first digit is kept in the
    text handed to the number parser, which refuses it *)
Definition read_numlit (c : Z) (r : chars) : res (tkind * chars) :=
  if ascii_digit c then x <- read_number (c :: r) ;; Ok (KNum (fst x), snd x)
  else match read_decimal c r with Panic => Panic | _ => Err OtherErr end.

(** lexer.rs:224-408: one token, [c] being its first character, and the rest of
    the text; [None] for `#` *)
Definition read_one (c : Z) (r : chars) : option (res (tkind * chars)) :=
  if ascii_alpha c || (c =? 95) then Some (Ok (read_name c r))
  else if numeric c then Some (read_numlit c r)
  else if ascii_punct c then
    if c =? 35 then None
    else if c =? 34 then
      Some (match read_dq (S (length r)) 34 [] r with
            | DDone s r => Ok (KStr s, r) | DOpen s r => Ok (KOpenStr s 0, r) | DError => Err OtherErr
            end)
    else if c =? 96 then
      Some (match read_dq (S (length r)) 96 [] r with
            | DDone s r => Ok (KCommand s, r) | DOpen s r => Ok (KOpenCommand s 0, r) | DError => Err OtherErr
            end)
    else if c =? 39 then
      Some (match read_sq (S (length r)) [] r with Some (s, r) => Ok (KStr s, r) | None => Err OtherErr end)
    else if c =? 64 then
      Some (match consume 64 r with
            | Some r => x <- read_var [64; 64] r ;; Ok (KCvar (fst x), snd x)
            | None => x <- read_var [64] r ;; Ok (KIvar (fst x), snd x)
            end)
    else if c =? 36 then Some (read_global r)
    else match read_punct c r with
         | Some (p, r) => Some (Ok (KPunct p, r))
         | None => Some (Err OtherErr)
         end
  else Some (Ok (read_name c r)).
(** lexer.rs:212-410 [read_token]: the kind, where the token starts and stops, and
    what is left.  After a comment the loop comes to a newline or the end, so it
    runs at most twice. *)
Record token : Set := mktoken { t_kind : tkind; t_start : chars; t_stop : chars }.
Definition read_token2 (again : chars -> res (token * chars)) (s : chars) : res (token * chars) :=
  match skip_white s None with
  | (Some stop, r) => Ok (mktoken KLT s stop, r)
  | (None, []) => Ok (mktoken KEof [] [], [])
  | (None, c :: r) =>
      match read_one c r with
      | None => again (goto_eol r)
      | Some x => y <- x ;; Ok (mktoken (fst y) (c :: r) (snd y), snd y)
      end
  end.
Definition read_token (s : chars) : res (token * chars) :=
  read_token2 (read_token2 (fun _ => Panic)) s.
(** lexer.rs:96-113 [tokenize], the loop over [get_token] (123-128) *)
Fixpoint tokenize (fuel : nat) (s : chars) : res (list token) :=
  match fuel with
  | O => Panic
  | S fuel =>
      x <- read_token s ;;
      match t_kind (fst x) with
      | KEof => Ok [fst x]
      | _ => l <- tokenize fuel (snd x) ;; Ok (fst x :: l)
      end
  end.
Definition tokens (s : chars) : res (list token) := tokenize (S (length s)) s.
End Lexer.

(** lexer.rs:501-568 [read_method_name], from the first character that is no white
    space; None is an error, and [error_unexpected] at the end of the text panics *)
Definition read_method_name (assign : bool) (s : chars) : res (chars * chars) :=
  let one c d r := match consume d r with Some r' => Ok ([c; d], r') | None => Ok ([c], r) end in
  match s with
  | [] => Err OtherErr
  | c :: r =>
      if ascii_alpha c || (c =? 95) then
        let '(body, r1) := span ident_char r in
        let '(suf, r2) :=
          match r1 with
          | x :: y =>
              if ((x =? 33) && negb (peek_is 61 y)) || (x =? 63) || (assign && (x =? 61) && negb (peek_is 62 y))
              then ([x], y) else ([], r1)
          | [] => ([], [])
          end in
        Ok (c :: body ++ suf, r2)
      else if (c =? 47) || (c =? 37) || (c =? 38) || (c =? 124) || (c =? 94) || (c =? 126) || (c =? 96) then Ok ([c], r)
      else if c =? 42 then one c 42 r
      else if (c =? 43) || (c =? 45) then one c 64 r
      else if c =? 60 then
        match consume 60 r with
        | Some r1 => Ok ([60; 60], r1)
        | None => match consume 61 r with
                  | Some r1 => match consume 62 r1 with Some r2 => Ok ([60; 61; 62], r2) | None => Ok ([60; 61], r1) end
                  | None => Ok ([60], r)
                  end
        end
      else if c =? 62 then
        match consume 62 r with
        | Some r1 => Ok ([62; 62], r1)
        | None => one 62 61 r
        end
      else if c =? 61 then
        match consume 61 r with
        | Some r1 => match consume 61 r1 with Some r2 => Ok ([61; 61; 61], r2) | None => Ok ([61; 61], r1) end
        | None => match consume 126 r with
                  | Some r1 => Ok ([61; 126], r1)
                  | None => match r with [] => Panic | _ => Err OtherErr end
                  end
        end
      else if c =? 33 then
        match consume 61 r with
        | Some r1 => Ok ([33; 61], r1)
        | None => one 33 126 r
        end
      else if c =? 91 then
        match consume 93 r with
        | Some r1 => match consume 61 r1 with Some r2 => Ok ([91; 93; 61], r2) | None => Ok ([91; 93], r1) end
        | None => Err OtherErr
        end
      else Err OtherErr
  end.
