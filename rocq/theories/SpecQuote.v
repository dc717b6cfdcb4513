(** What the literals of ModelQuote have to denote: relations between spellings and
    texts.  The escapes and the tokens are those of SpecLexer. *)
From Coq Require Import String Ascii ZArith List Bool.
From Verif Require Import Base ModelText ModelParse ModelLexer ModelQuote SpecLexer.
Import ListNotations.
Open Scope Z_scope.

(** [piece open close n t s m rest]: in a literal delimited by [close], or by a pair of
    brackets, [t] before [rest] denotes [s]; [n] brackets are open before it and [m]
    behind it. *)
Inductive piece (open close : option Z) : nat -> chars -> chars -> nat -> chars -> Prop :=
| P_end n rest : piece open close n [] [] n rest
| P_char c n t s m rest : open <> Some c -> close <> Some c -> c <> 92 -> c <> 35 ->
    piece open close n t s m rest -> piece open close n (c :: t) (c :: s) m rest
| P_open c n t s m rest : open = Some c -> piece open close (S n) t s m rest -> piece open close n (c :: t) (c :: s) m rest
| P_close c n t s m rest : open <> Some c -> close = Some c ->
    piece open close n t s m rest -> piece open close (S n) (c :: t) (c :: s) m rest
| P_hash n t s m rest : open <> Some 35 -> close <> Some 35 -> ~ starts_interpolation (t ++ rest) ->
    piece open close n t s m rest -> piece open close n (35 :: t) (35 :: s) m rest
| P_continued n t s m rest : open <> Some 92 -> close <> Some 92 ->
    piece open close n t s m rest -> piece open close n (92 :: 10 :: t) s m rest
| P_escape e c n t s m rest : open <> Some 92 -> close <> Some 92 -> escape e c (t ++ rest) ->
    piece open close n t s m rest -> piece open close n (92 :: e ++ t) (c :: s) m rest.

(** [plain open close n t s]: without escapes and interpolation but for a quote and a
    backslash after a backslash; all brackets are closed at the end *)
Inductive plain (open : option Z) (close : Z) : nat -> chars -> chars -> Prop :=
| L_end : plain open close 0 [] []
| L_char c n t s : open <> Some c -> c <> close -> c <> 92 -> plain open close n t s -> plain open close n (c :: t) (c :: s)
| L_open c n t s : open = Some c -> plain open close (S n) t s -> plain open close n (c :: t) (c :: s)
| L_close n t s : open <> Some close -> plain open close n t s -> plain open close (S n) (close :: t) (close :: s)
| L_quote n t s : open <> Some 92 -> close <> 92 -> plain open close n t s -> plain open close n (92 :: 39 :: t) (39 :: s)
| L_backslash n t s : open <> Some 92 -> close <> 92 -> plain open close n t s -> plain open close n (92 :: 92 :: t) (92 :: s)
(* in Ruby this stands for itself *)
| L_continued n t s : open <> Some 92 -> close <> 92 -> plain open close n t s -> plain open close n (92 :: 10 :: t) s
(* in Ruby a delimiter after a backslash stands for itself, C118_escaped_delimiter_refuted *)
| L_other c n t s : open <> Some 92 -> close <> 92 -> c <> 39 -> c <> 92 -> c <> 10 ->
    plain open close n t s -> plain open close n (92 :: c :: t) (92 :: c :: s).

(** the delimiters of percent literals: a pair of brackets, or twice the same mark *)
Definition brackets : list (Z * Z) := [(40, 41); (123, 125); (91, 93); (60, 62)].
Inductive delimited : Z -> option Z -> Z -> Prop :=
| D_bracket o c : In (o, c) brackets -> delimited o (Some o) c
| D_mark d : ~ decimal d -> ~ lower d -> ~ upper d -> ~ In d (map fst brackets) -> delimited d None d.

(** [separated s ws]: the words of [s] are [ws] *)
Definition separator (c : Z) : Prop := c = 32 \/ c = 10.
Inductive separated : chars -> list chars -> Prop :=
| Sep_end b : Forall separator b -> separated b []
| Sep_word b w s ws : Forall separator b -> w <> [] -> Forall (fun c => ~ separator c) w -> (s = [] \/ starts separator s) ->
    separated s ws -> separated (b ++ w ++ s) (w :: ws).

(** ** Strings with interpolations, and adjacent strings *)
Section Parts.
Variables (uni_numeric uni_alnum : Z -> bool) (code : Type).
(** the code read by the template *)
Variable template : list chars -> chars -> res (code * chars).
Inductive ending : Set := Closed (rest : chars) | Opened (rest : chars).
(** [follow s w e]: the string literals that follow have the text [w]; the last one is
    closed, or comes to an interpolation *)
Inductive follow : chars -> chars -> ending -> Prop :=
| F_none s k a b r : next uni_numeric uni_alnum s k a b r -> (forall v, k <> KStr v) -> (forall v l, k <> KOpenStr v l) ->
    follow s [] (Closed s)
| F_string s v a b r w e : next uni_numeric uni_alnum s (KStr v) a b r -> follow r w e -> follow s (v ++ w) e
| F_open s v l a b r : next uni_numeric uni_alnum s (KOpenStr v l) a b r -> follow s v (Opened r).
(** [quoted q vars s ps rest]: from inside a string delimited by [q] the text [s] has
    these parts, and [rest] is what comes after it *)
Inductive quoted (q : Z) (vars : list chars) : chars -> list (part code) -> chars -> Prop :=
| Q_last t s rest w r : piece None (Some q) 0 t s 0 (q :: rest) -> follow rest w (Closed r) ->
    quoted q vars (t ++ q :: rest) [Text (s ++ w)] r
| Q_code t s n x rest ps r : piece None (Some q) 0 t s 0 (35 :: x) -> starts_interpolation x ->
    template vars x = Ok (n, rest) -> quoted q vars rest ps r -> quoted q vars (t ++ 35 :: x) (Text s :: Code n :: ps) r
(* a string follows that has an interpolation; the two are one string *)
| Q_joined t s rest w x n rest' ps r : piece None (Some q) 0 t s 0 (q :: rest) -> follow rest w (Opened x) -> q = 34 ->
    template vars x = Ok (n, rest') -> quoted q vars rest' ps r -> quoted q vars (t ++ q :: rest) (Text (s ++ w) :: Code n :: ps) r.
(** the same in a text that ends without a delimiter *)
Inductive undelimited (vars : list chars) : chars -> list (part code) -> Prop :=
| U_last t s : piece None None 0 t s 0 [] -> undelimited vars t [Text s]
| U_code t s n x rest ps : piece None None 0 t s 0 (35 :: x) -> starts_interpolation x ->
    template vars x = Ok (n, rest) -> undelimited vars rest ps -> undelimited vars (t ++ 35 :: x) (Text s :: Code n :: ps).
End Parts.

(** ** Here documents *)
Definition unlines (ls : list chars) : chars := concat (map (fun l => l ++ [10]) ls).
Section Here.
Variable uni_white : Z -> bool.
Definition space (c : Z) : Prop := 9 <= c <= 13 \/ c = 32 \/ 128 <= c /\ uni_white c = true.
(** the line that ends a document *)
Definition terminator (indent : bool) (delim line : chars) : Prop :=
  if indent then exists w, line = w ++ delim /\ Forall space w else line = delim.
End Here.
(** [here_mark m indent mode delim rest]: what is written after `<<`, before [rest] *)
Inductive here_mark : chars -> bool -> mode -> chars -> chars -> Prop :=
| HM_mark sign indent quote mode delim rest :
    In (sign, indent) [([], false); (codes "-", true); (codes "~", true)] ->
    In (quote, mode) [([], MDouble); (codes "'", MSingle); (codes """", MDouble); (codes "`", MCommand)] ->
    delim <> [] -> Forall word delim -> (quote = [] -> ~ starts word rest) ->
    here_mark (sign ++ quote ++ delim ++ quote) indent mode delim rest.

(** ** Regular expressions *)
(** [verbatim n t rest]: in a pattern, with [n] brackets open and before [rest], [t]
    means to the engine what is written *)
Inductive verbatim : Z -> chars -> chars -> Prop :=
| V_end n rest : verbatim n [] rest
| V_char c n t rest : ~ In c (codes "/[]\#") -> verbatim n t rest -> verbatim n (c :: t) rest
| V_open n t rest : verbatim (n + 1) t rest -> verbatim n (91 :: t) rest
| V_close n t rest : verbatim (n - 1) t rest -> verbatim n (93 :: t) rest
| V_hash n t rest : ~ starts_interpolation (t ++ rest) -> verbatim n t rest -> verbatim n (35 :: t) rest
| V_boundary t rest : verbatim 0 t rest -> verbatim 0 (92 :: 98 :: t) rest
(* \e, \s and numbers: see the refutations *)
| V_escape c n t rest : ~ In c (codes "bes01234567") -> verbatim n t rest -> verbatim n (92 :: c :: t) rest
| V_first_group n t rest : ~ starts decimal (t ++ rest) -> verbatim n t rest -> verbatim n (92 :: 49 :: t) rest.
(** the options *)
Definition options : list (chars * Z) :=
  [([], 45); (codes "i", 105); (codes "m", 109); (codes "x", 120); (codes "o", 111); (codes "u", 45); (codes "n", 45)].
(** [pattern vars s ps rest]: from behind the first `/` the text [s] has these parts,
    the last one with its option, and [rest] comes behind *)
Inductive pattern {code : Type} (template : list chars -> chars -> res (code * chars)) (vars : list chars)
  : chars -> list (part code) -> chars -> Prop :=
| R_last t o f rest : verbatim 0 t (47 :: o ++ rest) -> In (o, f) options ->
    (o = [] -> ~ starts (fun c => In c (codes "imxoun")) rest) -> pattern template vars (t ++ 47 :: o ++ rest) [Text (t ++ [f])] rest
| R_code t x n rest ps r : verbatim 0 t (35 :: x) -> starts_interpolation x -> template vars x = Ok (n, rest) ->
    pattern template vars rest ps r -> pattern template vars (t ++ 35 :: x) (Text t :: Code n :: ps) r.
(** what the engine is told for an option: lines are matched separately in any case *)
Definition engine_flags : list (Z * chars) :=
  [(105, codes "(?mi)"); (109, codes "(?ms)"); (120, codes "(?mx)"); (111, codes "(?mo)"); (45, codes "(?m)")].
(** a string literal with one part is a plain string *)
Definition literal {code : Type} (ps : list (part code)) : lit code :=
  match ps with [Text s] => LString s | _ => LParts ps end.
(** templates take something off the text *)
Definition takes {code : Type} (template : list chars -> chars -> res (code * chars)) : Prop :=
  forall vars s n r, template vars s = Ok (n, r) -> (length r < length s)%nat.
(** [body s t after]: the lines of [s] before the terminator are [t], and [after] is
    what follows the terminator's line *)
Inductive body (uni_white : Z -> bool) (indent : bool) (delim : chars) : chars -> chars -> chars -> Prop :=
| Body ls term e after : Forall (fun l => ~ In 10 l /\ ~ terminator uni_white indent delim l) ls ->
    ~ In 10 term -> terminator uni_white indent delim term -> (e = [] /\ after = [] \/ e = 10 :: after) ->
    body uni_white indent delim (unlines ls ++ term ++ e) (unlines ls) after.
(** where the lines of the documents start: behind the line, or behind the documents
    that are pending *)
Definition documents (pending line_end : chars) (d : chars) : Prop :=
  ((length pending < length line_end)%nat -> d = pending) /\ ((length line_end <= length pending)%nat -> d = line_end).
(** what a document denotes.  In Ruby its code can use the local variables. *)
Definition denotes {code : Type} (template : list chars -> chars -> res (code * chars)) (m : mode) (t : chars) (l : lit code) : Prop :=
  match m with
  | MSingle => l = LString t
  | MDouble => exists ps, undelimited code template [] t ps /\ l = literal ps
  | MCommand => exists s, piece None None 0 t s 0 [] /\ l = LCommand (LString s)
  end.
