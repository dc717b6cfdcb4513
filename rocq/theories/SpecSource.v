(** How tokens are written as text. *)
From Coq Require Import String ZArith List Bool.
From Verif Require Import Base ModelText ModelParse ModelLexer SpecLexer SpecParse ProofsText.
Import ListNotations.
Open Scope Z_scope.

Section Spelled.
Variables (name float : chars -> Z).
Definition atoms : list (chars * atom) :=
  [(codes "self", aSelf); (codes "nil", aNil); (codes "true", aTrue); (codes "false", aFalse)].
(** names with a meaning of their own *)
Definition taken : list chars := [codes "__LINE__"; codes "__FILE__"] ++ map fst atoms.
Inductive plain_name : chars -> Prop :=
| PN c t suffix : letter c -> Forall word t -> suffix = [] \/ suffix = [63] \/ suffix = [33] ->
    plain_name (c :: t ++ suffix).
(** [spelled k t]: the text [t] can be written for the token [k] *)
Inductive spelled : ModelParse.tok -> chars -> Prop :=
| Sp_ident t : plain_name t -> ~ keyword t -> ~ starts upper t -> ~ In t taken -> spelled (TIdent (name t)) t
| Sp_atom t a : In (t, a) atoms -> spelled (TAtom a) t
| Sp_const t : plain_name t -> ~ keyword t -> starts upper t -> spelled (TConst (name t)) t
| Sp_ivar c t : letter c -> Forall word t -> spelled (TIvar (name (64 :: c :: t))) (64 :: c :: t)
| Sp_cvar c t : letter c -> Forall word t -> spelled (TCvar (name (64 :: 64 :: c :: t))) (64 :: 64 :: c :: t)
| Sp_gvar c t : lower c \/ upper c -> Forall word t -> spelled (TGvar (name (36 :: c :: t))) (36 :: c :: t)
| Sp_int t n : numeral 10 t n -> n < 2 ^ 63 -> spelled (ModelParse.TNum KInt n) t
| Sp_big t n : numeral 10 t n -> 2 ^ 63 <= n -> spelled (ModelParse.TNum KBig n) t
| Sp_float t f e : digits t -> fraction f -> exponent e -> f ++ e <> [] ->
    spelled (ModelParse.TNum KFloat (float (cleaned (t ++ f ++ e)))) (t ++ f ++ e)
| Sp_keyword t k : In (t, k) keywords -> spelled (TRes k) t
| Sp_operator t p : In (t, p) operators -> p <> pBackslash -> spelled (TP p) t.
End Spelled.

(** ** The text of tokens: a blank where there is white space, line ends as such *)
Section Render.
Variable spell : ModelParse.tok -> chars.
Definition written (t : ModelParse.tok) : chars := match t with TLT => [10] | _ => spell t end.
Fixpoint render (ts : list item) : chars :=
  match ts with
  | [] => []
  | (t, b) :: r => (if b then [32] else []) ++ written t ++ render r
  end.
End Render.
(** Where two tokens touch, the second is an opening parenthesis or bracket or a
    semicolon, or a number after a minus sign.  There is one line end between lines. *)
Definition joins (t : ModelParse.tok) (i : item) : Prop :=
  let '(t', b) := i in
  (t = TLT -> t' <> TLT) /\
  (t = TLT \/ t' = TLT \/ b = true \/ In t' [TP pLParen; TP pLBracket; TP pSemi] \/
   t = TP pMinus /\ exists k z, t' = ModelParse.TNum k z).
Fixpoint well_spaced (ts : list item) : Prop :=
  match ts with
  | [] => True
  | (t, _) :: r => match r with [] => True | i :: _ => joins t i end /\ well_spaced r
  end.
(** the tokens as a reader of the text sees them: a line end is white space, and the
    blanks that start a line do not count *)
Fixpoint seen (line_start : bool) (ts : list item) : list item :=
  match ts with
  | [] => []
  | (TLT, _) :: r => (TLT, true) :: seen true r
  | (t, b) :: r => (t, if line_start then false else b) :: seen false r
  end.
