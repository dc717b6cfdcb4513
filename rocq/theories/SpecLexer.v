(** How a text is divided into tokens, as relations between tokens and their
    spellings.  Only the alphabet of tokens is taken from the model; character
    classes, the tables of operators and keywords and the reading of escapes are
    written down here again. *)
From Coq Require Import String Ascii ZArith List Bool.
From Verif Require Import Base ModelText ModelParse ModelLexer ProofsText.
Import ListNotations.
Open Scope Z_scope.

(** a text between quotes as code points *)
Fixpoint codes (s : string) : chars :=
  match s with EmptyString => [] | String c r => Z.of_N (N_of_ascii c) :: codes r end.
(** what the text starts with *)
Definition starts (P : Z -> Prop) (s : chars) : Prop := match s with c :: _ => P c | [] => False end.

Definition lower (c : Z) : Prop := 97 <= c <= 122.
Definition upper (c : Z) : Prop := 65 <= c <= 90.
Definition decimal (c : Z) : Prop := 48 <= c <= 57.
Definition letter (c : Z) : Prop := lower c \/ upper c \/ c = 95.
Definition word (c : Z) : Prop := letter c \/ decimal c.
Definition newline (c : Z) : Prop := c = 10.
Definition blank (c : Z) : Prop := c = 9 \/ c = 12 \/ c = 13 \/ c = 32.
(** ASCII marks other than the underscore, by the rows of the table *)
Definition mark (c : Z) : Prop := 33 <= c <= 47 \/ 58 <= c <= 64 \/ 91 <= c <= 94 \/ c = 96 \/ 123 <= c <= 126.

(** ** White space, line ends, comments *)
(** no line end: blanks, and lines that are continued *)
Inductive blanks : chars -> Prop :=
| B_none : blanks []
| B_blank c s : blank c -> blanks s -> blanks (c :: s)
| B_continued s : blanks s -> blanks (92 :: 10 :: s).
(** also with line ends *)
Inductive lines_and_blanks : chars -> Prop :=
| LB_blanks s : blanks s -> lines_and_blanks s
| LB_line s t : blanks s -> lines_and_blanks t -> lines_and_blanks (s ++ 10 :: t).
(** a text that does not start with white space *)
Definition solid (s : chars) : Prop :=
  ~ starts blank s /\ ~ starts newline s /\ (forall r, s <> 92 :: 10 :: r).
Definition comment (s : chars) : Prop := exists t, s = 35 :: t /\ ~ In 10 t.

(** ** Keywords and operators *)
Definition keywords : list (chars * reserved) :=
  [(codes "BEGIN", rBEGIN); (codes "END", rEND); (codes "alias", rAlias); (codes "and", rAnd); (codes "begin", rBegin);
   (codes "break", rBreak); (codes "case", rCase); (codes "class", rClass); (codes "def", rDef);
   (codes "defined?", rDefined); (codes "do", rDo); (codes "else", rElse); (codes "elsif", rElsif); (codes "end", rEnd);
   (codes "ensure", rEnsure); (codes "for", rFor); (codes "if", rIf); (codes "in", rIn); (codes "module", rModule);
   (codes "next", rNext); (codes "or", rOr); (codes "rescue", rRescue); (codes "return", rReturn);
   (codes "super", rSuper); (codes "then", rThen); (codes "until", rUntil); (codes "unless", rUnless);
   (codes "when", rWhen); (codes "while", rWhile); (codes "yield", rYield)].
(** Ruby has [**=] also, C88_power_refuted *)
Definition operators : list (chars * punct) :=
  [(codes "(", pLParen); (codes ")", pRParen); (codes "[", pLBracket); (codes "]", pRBracket); (codes "{", pLBrace);
   (codes "}", pRBrace); (codes ";", pSemi); (codes ":", pColon); (codes "::", pScope); (codes ",", pComma);
   (codes ".", pDot); (codes "?", pQuestion); (codes "..", pRange2); (codes "...", pRange3);
   (codes "+", pPlus); (codes "-", pMinus); (codes "*", pMul); (codes "/", pDiv); (codes "%", pRem);
   (codes "**", pDMul); (codes ">>", pShr); (codes "<<", pShl); (codes "|", pBitOr); (codes "&", pBitAnd);
   (codes "^", pBitXor); (codes "~", pBitNot); (codes "!", pNot); (codes "=", pAssign);
   (codes "+=", pAssignOp Add); (codes "-=", pAssignOp Sub); (codes "*=", pAssignOp Mul); (codes "/=", pAssignOp Div);
   (codes "%=", pAssignOp Rem); (codes ">>=", pAssignOp Shr); (codes "<<=", pAssignOp Shl);
   (codes "|=", pAssignOp BitOr); (codes "&=", pAssignOp BitAnd); (codes "^=", pAssignOp BitXor);
   (codes "&&=", pAssignOp LAnd); (codes "||=", pAssignOp LOr);
   (codes "==", pEq); (codes "===", pTEq); (codes "!=", pNe); (codes ">", pGt); (codes ">=", pGe); (codes "<", pLt);
   (codes "<=", pLe); (codes "<=>", pCmp); (codes "&&", pLAnd); (codes "||", pLOr); (codes "=~", pMatch);
   (codes "!~", pUnmatch); (codes "&.", pSafeNav); (codes "\", pBackslash); (codes "->", pArrow); (codes "=>", pFatArrow)].
(** of the operators the text starts with, the longest *)
Definition longest_operator (t rest : chars) (p : punct) : Prop :=
  In (t, p) operators /\
  forall t' p' rest', In (t', p') operators -> t ++ rest = t' ++ rest' -> (length t' <= length t)%nat.

(** ** Numbers *)
Definition integer (n : Z) : nreal := if (- 2 ^ 63 <=? n) && (n <? 2 ^ 63) then NInt n else NBig n.
Definition digits (s : chars) : Prop := exists n, numeral 10 s n.
(** the text of a decimal number that is not an integer: a fraction, an exponent, or
    both *)
Inductive fraction : chars -> Prop :=
| F_none : fraction []
| F_some s : digits s -> fraction (46 :: s).
Inductive exponent : chars -> Prop :=
| E_none' : exponent []
| E_some e sign s : e = 101 \/ e = 69 -> sign = [] \/ sign = [43] \/ sign = [45] -> digits s ->
    exponent (e :: sign ++ s).
(** what such a text denotes is left to the number parser, which gets it without
    underscores and plus signs and with a small `e` *)
Definition cleaned (s : chars) : chars :=
  map (fun c => if c =? 69 then 101 else c) (filter (fun c => negb ((c =? 95) || (c =? 43))) s).
(** how a number may not go on *)
Definition no_digits (s : chars) : Prop := ~ starts (fun c => decimal c \/ c = 95) s.
Definition no_fraction (s : chars) : Prop := forall c r, decimal c -> s <> 46 :: c :: r.
Definition no_exponent (s : chars) : Prop := ~ starts (fun c => c = 101 \/ c = 69) s.
Definition no_i (s : chars) : Prop := ~ starts (fun c => c = 105) s.
(** [spells_decimal t n rest]: a decimal number; the text after it does not belong to it *)
Inductive spells_decimal : chars -> nreal -> chars -> Prop :=
| SD_int t n rest : numeral 10 t n -> no_digits rest -> no_fraction rest -> no_exponent rest ->
    (t = [48] -> ~ starts (fun c => c = 120 \/ c = 98) rest) ->
    spells_decimal t (integer n) rest
| SD_float t f e rest : digits t -> fraction f -> exponent e -> f ++ e <> [] ->
    no_digits rest -> (e = [] -> no_exponent rest) -> 
    spells_decimal (t ++ f ++ e) (NFloat (cleaned (t ++ f ++ e))) rest.
Inductive spells_number : chars -> ModelText.tok -> chars -> Prop :=
| SN_decimal t n rest : spells_decimal t n rest -> no_i rest -> spells_number t (ModelText.TNum n) rest
| SN_imaginary t n rest : spells_decimal t n (105 :: rest) -> spells_number (t ++ [105]) (TImag n) rest
| SN_hex t n rest : numeral 16 t n ->
    ~ starts (fun c => c = 95 \/ exists d, digit 16 c d) rest ->
    spells_number (48 :: 120 :: t) (ModelText.TNum (integer n)) rest
(* from 2^63 on the code gives another number, C37_binary_refuted *)
| SN_bin t n rest : numeral 2 t n -> n < 2 ^ 64 -> ~ starts (fun c => c = 95 \/ exists d, digit 2 c d) rest ->
    spells_number (48 :: 98 :: t) (ModelText.TNum (NInt (if n <? 2 ^ 63 then n else n - 2 ^ 64))) rest.

(** ** Strings *)
(** the letters of escapes *)
Definition named_escapes : list (Z * Z) :=
  [(97, 7); (98, 8); (101, 27); (102, 12); (110, 10); (114, 13); (115, 32); (116, 9); (118, 11)].
Definition octal (c : Z) : Prop := 48 <= c <= 55.
Fixpoint octal_value (s : chars) : Z := match s with [] => 0 | c :: r => (c - 48) * 8 ^ Z.of_nat (length r) + octal_value r end.
Inductive hex_digits : nat -> chars -> Z -> Prop :=
| H_none : hex_digits 0 [] 0
| H_digit n s v c d : hex_digits n s v -> digit 16 c d -> hex_digits (S n) (s ++ [c]) (v * 16 + d).
(** [escape e c rest]: after a backslash, [e] is the character [c], if followed
    by [rest]; an escape of octal digits takes up to three *)
Inductive escape : chars -> Z -> chars -> Prop :=
| Esc_named l c rest : In (l, c) named_escapes -> escape [l] c rest
| Esc_hex s v rest : hex_digits 2 s v -> escape (120 :: s) v rest
| Esc_unicode s v rest : hex_digits 4 s v -> ~ 55296 <= v <= 57343 -> escape (117 :: s) v rest
| Esc_octal s rest : s <> [] -> Forall octal s -> (length s <= 3)%nat ->
    ((length s < 3)%nat -> ~ starts octal rest) -> escape s (octal_value s mod 256) rest
| Esc_other c rest : c <> 10 -> c <> 120 -> c <> 117 -> ~ octal c -> ~ In c (map fst named_escapes) ->
    escape [c] c rest.
Definition starts_interpolation (s : chars) : Prop := starts (fun c => c = 123 \/ c = 36 \/ c = 64) s.
(** [in_quotes q t s rest]: between quotes [q], and before [rest], [t] denotes [s] *)
Inductive in_quotes (q : Z) : chars -> chars -> chars -> Prop :=
| Q_end rest : in_quotes q [] [] rest
| Q_char c t s rest : c <> q -> c <> 92 -> c <> 35 -> in_quotes q t s rest -> in_quotes q (c :: t) (c :: s) rest
| Q_hash t s rest : ~ starts_interpolation (t ++ rest) -> in_quotes q t s rest -> in_quotes q (35 :: t) (35 :: s) rest
| Q_continued t s rest : in_quotes q t s rest -> in_quotes q (92 :: 10 :: t) s rest
| Q_escape e c t s rest : escape e c (t ++ rest) -> in_quotes q t s rest -> in_quotes q (92 :: e ++ t) (c :: s) rest.
(** between single quotes *)
Inductive in_single : chars -> chars -> Prop :=
| I_end : in_single [] []
| I_char c t s : c <> 39 -> c <> 92 -> in_single t s -> in_single (c :: t) (c :: s)
| I_quote t s : in_single t s -> in_single (92 :: 39 :: t) (39 :: s)
| I_backslash t s : in_single t s -> in_single (92 :: 92 :: t) (92 :: s)
(* in Ruby this stands for itself, C88_single_refuted *)
| I_continued t s : in_single t s -> in_single (92 :: 10 :: t) s
| I_other c t s : c <> 39 -> c <> 92 -> c <> 10 -> in_single t s -> in_single (92 :: c :: t) (92 :: c :: s).

Section Spelling.
(** the numerals, and the letters and numerals, among the characters that are not ASCII *)
Variables (uni_numeric uni_alnum : Z -> bool).
(** Characters that are no letter, digit, mark or white space start a name, except
    foreign numerals.  A name goes on with ASCII letters, digits and underscores only. *)
Definition odd_start (c : Z) : Prop :=
  ~ word c /\ ~ mark c /\ ~ blank c /\ c <> 10 /\ (128 <= c -> uni_numeric c = false).
Definition name_start (c : Z) : Prop := letter c \/ odd_start c.
(** the name of a variable goes on after the sigil with one of these *)
Definition var_start (c : Z) : Prop :=
  c < 128 /\ (word c \/ c = 38 \/ c = 39) \/ 128 <= c /\ uni_alnum c = true.
(** [spells_name t rest] *)
Inductive spells_name : chars -> chars -> Prop :=
| N_plain c t rest : name_start c -> Forall word t ->
    ~ starts word rest -> ~ starts (fun c => c = 63) rest -> (starts (fun c => c = 33) rest -> exists r, rest = 33 :: 61 :: r) ->
    spells_name (c :: t) rest
| N_question c t rest : name_start c -> Forall word t -> spells_name (c :: t ++ [63]) rest
| N_bang c t rest : name_start c -> Forall word t -> ~ starts (fun c => c = 61) rest -> spells_name (c :: t ++ [33]) rest.
Definition keyword (t : chars) : Prop := exists k, In (t, k) keywords.

(** [spells k t rest]: the text [t], followed by [rest], is the token [k] *)
Inductive spells : tkind -> chars -> chars -> Prop :=
| S_keyword k t rest : spells_name t rest -> In (t, k) keywords -> spells (KRes k) t rest
| S_const t rest : spells_name t rest -> ~ keyword t -> starts upper t -> spells (KConst t) t rest
| S_ident t rest : spells_name t rest -> ~ keyword t -> ~ starts upper t -> spells (KIdent t) t rest
| S_number n t rest : spells_number t n rest -> spells (KNum n) t rest
| S_operator p t rest : longest_operator t rest p -> (t = [92] -> ~ starts newline rest) -> spells (KPunct p) t rest
| S_ivar c t rest : var_start c -> Forall word t -> ~ starts word rest -> spells (KIvar (64 :: c :: t)) (64 :: c :: t) rest
| S_cvar c t rest : var_start c -> Forall word t -> ~ starts word rest ->
    spells (KCvar (64 :: 64 :: c :: t)) (64 :: 64 :: c :: t) rest
| S_gvar c t rest : var_start c -> ~ decimal c -> ~ mark c -> c <> 95 -> Forall word t -> ~ starts word rest ->
    spells (KGvar (36 :: c :: t)) (36 :: c :: t) rest
| S_gvar0 rest : spells (KGvar (codes "$0")) (codes "$0") rest
(* an underscore is a whole name, C88_global_refuted *)
| S_gvar_mark c rest : mark c \/ c = 95 -> c <> 38 -> c <> 39 -> spells (KGvar [36; c]) [36; c] rest
| S_last_match rest : spells (KSpecial 0) (codes "$&") rest
| S_after_match rest : spells (KSpecial 1) (codes "$'") rest
(* the sum of the digits, C88_group_refuted *)
| S_group c t rest : decimal c -> c <> 48 -> Forall decimal t -> ~ starts decimal rest ->
    spells (KSpecial (100 + fold_right (fun d n => (d - 48) + n) 0 (c :: t))) (36 :: c :: t) rest
| S_string t s rest : in_quotes 34 t s (34 :: rest) -> spells (KStr s) (34 :: t ++ [34]) rest
| S_open_string t s rest : in_quotes 34 t s (35 :: rest) -> starts_interpolation rest ->
    spells (KOpenStr s 0) (34 :: t ++ [35]) rest
| S_command t s rest : in_quotes 96 t s (96 :: rest) -> spells (KCommand s) (96 :: t ++ [96]) rest
| S_open_command t s rest : in_quotes 96 t s (35 :: rest) -> starts_interpolation rest ->
    spells (KOpenCommand s 0) (96 :: t ++ [35]) rest
| S_single t s rest : in_single t s -> spells (KStr s) (39 :: t ++ [39]) rest.

(** [next s k start stop rest]: the first token of the text [s], the positions
    where it starts and stops, and the text after it.  Several line ends, with white
    space around them, are one token; a comment before it is left out. *)
Inductive next : chars -> tkind -> chars -> chars -> chars -> Prop :=
| Next_token w k t rest : blanks w -> spells k t rest -> next (w ++ t ++ rest) k (t ++ rest) rest rest
| Next_end w : blanks w -> next w KEof [] [] []
| Next_end_comment w c : blanks w -> comment c -> next (w ++ c) KEof [] [] []
| Next_line w w' rest : lines_and_blanks w -> blanks w' -> solid rest ->
    next (w ++ 10 :: w' ++ rest) KLT (w ++ 10 :: w' ++ rest) (w' ++ rest) rest
| Next_line_comment w c w1 w2 rest : blanks w -> comment c -> lines_and_blanks w1 -> starts newline (w1 ++ [10]) -> blanks w2 -> solid rest ->
    next (w ++ c ++ w1 ++ 10 :: w2 ++ rest) KLT (w1 ++ 10 :: w2 ++ rest) (w2 ++ rest) rest.

(** the tokens of a text *)
Inductive divides : chars -> list token -> Prop :=
| D_end s start stop rest : next s KEof start stop rest -> divides s [mktoken KEof start stop]
| D_next s k start stop rest l : next s k start stop rest -> k <> KEof -> divides rest l ->
    divides s (mktoken k start stop :: l).
End Spelling.

(** ** Where a token is *)
(** bytes of a text in UTF-8 *)
Definition utf8_width (c : Z) : Z := if c <? 128 then 1 else if c <? 2048 then 2 else if c <? 65536 then 3 else 4.
Definition width (s : chars) : Z := fold_right (fun c n => utf8_width c + n) 0 s.
(** first and last byte of a token *)
Definition location (code : chars) (k : token) : Z * Z := cur_loc code (t_start k) (t_stop k).

(** ** Names of methods, after `def` *)
Definition operator_methods : list chars :=
  [codes "/"; codes "%"; codes "&"; codes "|"; codes "^"; codes "~"; codes "`"; codes "*"; codes "**"; codes "+"; codes "+@";
   codes "-"; codes "-@"; codes "<"; codes "<<"; codes "<="; codes "<=>"; codes ">"; codes ">>"; codes ">="; codes "==";
   codes "==="; codes "=~"; codes "!"; codes "!="; codes "!~"; codes "[]"; codes "[]="].
(** [method_name assign t rest]: [assign] tells whether the name of a setter is allowed *)
Inductive method_name (assign : bool) : chars -> chars -> Prop :=
| M_plain c t rest : letter c -> Forall word t -> ~ starts word rest -> ~ starts (fun c => c = 63) rest ->
    (starts (fun c => c = 33) rest -> exists r, rest = 33 :: 61 :: r) ->
    (assign = true -> starts (fun c => c = 61) rest -> exists r, rest = 61 :: 62 :: r) ->
    method_name assign (c :: t) rest
| M_question c t rest : letter c -> Forall word t -> method_name assign (c :: t ++ [63]) rest
| M_bang c t rest : letter c -> Forall word t -> ~ starts (fun c => c = 61) rest -> method_name assign (c :: t ++ [33]) rest
| M_setter c t rest : letter c -> Forall word t -> assign = true -> ~ starts (fun c => c = 62) rest ->
    method_name assign (c :: t ++ [61]) rest
| M_operator t rest : In t operator_methods ->
    (forall t' rest', In t' operator_methods -> t ++ rest = t' ++ rest' -> (length t' <= length t)%nat) ->
    method_name assign t rest.
