(** From source text to trees: the tokens of the lexer (ModelLexer) as the parser
    (ModelParse) looks at them.

    The parser asks the lexer for one token after the other; here the whole text
    is divided first.  So a text with a character no token starts with is no program
    here, even if the parser would give up before it.  In places where the parser reads
    on with other functions of the lexer (regular expressions, percent literals,
    heredocs, symbols, the rest of an interpolated string) ModelParse is stuck; after a
    dot it calls [read_method_name] (C38_method_name). *)
From Coq Require Import String ZArith List Bool.
From Verif Require Import Base ModelText ModelParse ModelLexer.
Import ListNotations.
Open Scope Z_scope.

Section Source.
Variables (uni_numeric uni_alnum : Z -> bool).
(** ruruby-common/src/id_table.rs:88-91 [IdentId::get_id]: names are interned; the number parser of
    std gives a float for the text of a literal *)
Variables (name : chars -> Z) (float : chars -> Z).

(** expression.rs:620-636: what [parse_primary] looks at; a local variable, a
    method or one of the names with a meaning of their own.  __LINE__ and __FILE__ are
    not modelled. *)
Definition ident_tok (s : chars) : ModelParse.tok :=
  if same s (str "self") then TAtom aSelf
  else if same s (str "nil") then TAtom aNil
  else if same s (str "true") then TAtom aTrue
  else if same s (str "false") then TAtom aFalse
  else if same s (str "__LINE__") || same s (str "__FILE__") then TOther
  else TIdent (name s).
(** expression.rs:616-682 [parse_primary] *)
Definition tok_of (k : tkind) : ModelParse.tok :=
  match k with
  | KEof => TEof
  | KLT => TLT
  | KIdent s => ident_tok s
  | KIvar s => TIvar (name s)
  | KGvar s => TGvar (name s)
  | KCvar s => TCvar (name s)
  | KConst s => TConst (name s)
  | KNum (ModelText.TNum (NInt n)) => ModelParse.TNum KInt n
  | KNum (ModelText.TNum (NBig n)) => ModelParse.TNum KBig n
  | KNum (ModelText.TNum (NFloat s)) => ModelParse.TNum KFloat (float s)
  | KNum (TImag _) => TOther
  | KStr _ => TStr
  | KRes r => TRes r
  | KPunct p => TP p
  | KSpecial _ | KCommand _ | KOpenStr _ _ | KOpenCommand _ _ => TOther
  end.
(** lexer.rs:159-164 [trailing_space] *)
Definition white_first (s : chars) : bool := match s with c :: _ => ascii_white c | [] => false end.
(** The tokens with the answer of [trailing_space] before each of them.  After a
    line end the white space is consumed (lexer.rs:1267-1277), otherwise the lexer
    stands at the end of the token. *)
Fixpoint items (space : bool) (l : list token) : list item :=
  match l with
  | [] => []
  | k :: r =>
      (tok_of (t_kind k), space) ::
      items (match t_kind k with KLT => false | _ => white_first (t_stop k) end) r
  end.
(** the input of the parser for a text *)
Definition source (s : chars) : res (list item) :=
  l <- tokens uni_numeric uni_alnum s ;; Ok (items (white_first s) l).
End Source.
