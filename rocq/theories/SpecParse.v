(** How expressions are written in Ruby: the table of operators, with their
    precedence and associativity, as a relation between trees and token lists.
    Nothing here refers to the functions of the parser; only the alphabet of
    tokens, operators and literals is taken from ModelParse. *)
From Coq Require Import ZArith List Bool.
From Verif Require Import Base ModelParse.
Import ListNotations.
Open Scope Z_scope.

(** Expression trees.  There is no node for parentheses. *)
Inductive exp : Set :=
| XNum (k : numkind) (neg : bool) (z : Z) | XAtom (a : atom)
| XVar (id : Z) | XIvar (id : Z) | XGvar (id : Z) | XCvar (id : Z) | XConst (id : Z)
| XBin (b : bop) (l r : exp) | XUn (u : uop) (e : exp)
| XRange (excl : bool) (l r : exp) | XIf (c t e : exp) | XWhile (c b : exp) (op : bool)
| XRescue (b r : exp) | XAssign (l r : exp) | XOp (b : bop) (l r : exp) | XMul (l r : list exp)
| XIndex (e : exp) (args : list exp) | XSend (e : exp) (m : Z) (args : list exp) (safe : bool)
| XArr (l : list exp) | XSplat (e : exp) | XDef (e : exp) | XSeq (l : list exp).

(** The tree of a parsed node: parentheses around one expression are dropped, and
    a bare name is a call without arguments, except on the left of an assignment,
    where it is a variable. *)
Fixpoint tree (n : node) : exp :=
  let target n := match n with NIdent id => XVar id | _ => tree n end in
  match n with
  | NNum k neg z => XNum k neg z
  | NAtom a => XAtom a
  | NLvar id => XVar id
  | NIdent id => XSend (XAtom aSelf) id [] false
  | NIvar id => XIvar id
  | NGvar id => XGvar id
  | NCvar id => XCvar id
  | NConst id => XConst id
  | NBin b l r => XBin b (tree l) (tree r)
  | NUn u e => XUn u (tree e)
  | NRange x l r => XRange x (tree l) (tree r)
  | NIf c t e => XIf (tree c) (tree t) (tree e)
  | NWhile c b op => XWhile (tree c) (tree b) op
  | NRescue b r => XRescue (tree b) (tree r)
  | NMulAssign l r =>
      match map target l, map tree r with
      | [l], [r] => XAssign l r
      | l, r => XMul l r
      end
  | NAssignOp b l r => XOp b (target l) (tree r)
  | NIndex e l => XIndex (tree e) (map tree l)
  | NSend e m l safe => XSend (tree e) m (map tree l) safe
  | NArray l => XArr (map tree l)
  | NSplat e => XSplat (tree e)
  | NDefined e => XDef (tree e)
  | NComp l => match map tree l with [e] => e | l => XSeq l end
  end.

(** Ruby's table, loosest first:
      0  modifiers if unless while until rescue
      1  and or                          left
      2  = += ... , defined?             right
      3  ?:                              right
      4  .. ...                          not associative
      5  ||                              left
      6  &&                              left
      7  <=> == === != =~ !~             not associative
      8  < <= > >=                       left
      9  | ^                             left
     10  &                               left
     11  << >>                           left
     12  + -                             left
     13  * / %                           left
     14  unary -
     15  **                              right
     16  ! ~ unary +
     17  literals, variables, calls, indexing, parentheses *)
Definition left_op (p : punct) : option (nat * bop) :=
  match p with
  | pLOr => Some (5%nat, LOr) | pLAnd => Some (6%nat, LAnd)
  | pLt => Some (8%nat, Lt) | pLe => Some (8%nat, Le) | pGt => Some (8%nat, Gt) | pGe => Some (8%nat, Ge)
  | pBitOr => Some (9%nat, BitOr) | pBitXor => Some (9%nat, BitXor)
  | pBitAnd => Some (10%nat, BitAnd)
  | pShl => Some (11%nat, Shl) | pShr => Some (11%nat, Shr)
  | pPlus => Some (12%nat, Add) | pMinus => Some (12%nat, Sub)
  | pMul => Some (13%nat, Mul) | pDiv => Some (13%nat, Div) | pRem => Some (13%nat, Rem)
  | _ => None
  end.
Definition eq_op (p : punct) : option bop :=
  match p with pEq => Some Eq | pTEq => Some TEq | pNe => Some Ne | pMatch => Some Match | _ => None end.
Definition prefix_op (p : punct) : option uop :=
  match p with pNot => Some Not | pBitNot => Some BitNot | pPlus => Some Pos | _ => None end.
Definition range_op (p : punct) : option bool :=
  match p with pRange2 => Some false | pRange3 => Some true | _ => None end.
(** operators of the forms [x op= e]; [||=] and [&&=] are written out *)
Definition op_assign (b : bop) (l e : exp) : exp :=
  match b with LOr | LAnd => XBin b l (XAssign l e) | _ => XOp b l e end.

(** How a piece of text ends: with the bare name of a method or constant, after
    which a blank and an operand would start arguments; with a negative literal;
    with an assignment, which takes everything to its right. *)
Record ends : Set := mkends { e_name : bool; e_neg : bool; e_open : bool }.
Definition closed := mkends false false false.
Definition named := mkends true false false.
Definition opened (o : ends) := mkends (e_name o) (e_neg o) true.

Definition spaced (ts : list item) : bool := match ts with (_, b) :: _ => b | [] => false end.
(** After a bare name, these operators must not be written [x -y]. *)
Definition two_faced (p : punct) : bool :=
  match p with pColon | pPlus | pMinus | pMul | pDiv | pBitAnd | pRem | pShl => true | _ => false end.
Definition gap (o : ends) (p : punct) (b : bool) (ts : list item) : Prop :=
  e_name o = true -> two_faced p = true -> b = true -> spaced ts = true.
Definition num_first (ts : list item) : bool := match ts with (TNum _ _, _) :: _ => true | _ => false end.
(** a number directly after a sign belongs to it *)
Definition tight_num (ts : list item) : bool := match ts with (TNum _ _, false) :: _ => true | _ => false end.
Fixpoint minus_first (ts : list item) : bool :=
  match ts with (TLT, _) :: r => minus_first r | (TP pMinus, _) :: _ => true | _ => false end.
Definition paren_first (ts : list item) : bool := match ts with (TP pLParen, _) :: _ => true | _ => false end.
Definition blank_lines (l : list item) : Prop := Forall (fun i => fst i = TLT) l.
Definition terms (l : list item) : Prop := l <> [] /\ Forall (fun i => fst i = TLT \/ fst i = TP pSemi) l.
Definition sequence (es : list exp) : exp := match es with [e] => e | _ => XSeq es end.
Definition assignable (e : exp) (o : ends) : bool :=
  match e with
  | XIvar _ | XGvar _ | XCvar _ | XIndex _ _ => true
  | XConst _ => e_name o
  | _ => false
  end.

(** Local variables become known where they are assigned to, and are known from
    there on in the text. *)
Definition declare (id : Z) (lv : list Z) : list Z := if existsb (Z.eqb id) lv then lv else lv ++ [id].
Definition declared (l : exp) (lv : list Z) : list Z := match l with XVar id => declare id lv | _ => lv end.

(** [writes full lv p e ts o lv']: the tokens [ts] are the expression [e], written
    so that it can stand where precedence [p] is asked for; [lv] are the local
    variables known before the text and [lv'] those known after it, and [o] tells
    how the text ends.  Parentheses may be added anywhere, and an operand may
    start on a new line.

    With [full = false] some of Ruby's forms are left out; each of them is marked
    FULL, and shown in PropsParse to be parsed otherwise. *)
Section Writes.
Variable full : bool.
Inductive writes : list Z -> nat -> exp -> list item -> ends -> list Z -> Prop :=
| W_up v p e ts o v' : (p < 17)%nat -> writes v (S p) e ts o v' -> writes v p e ts o v'
| W_line v p e ts o v' b : writes v p e ts o v' -> writes v p e ((TLT, b) :: ts) o v'
(* literals and variables; a name that is not known is a call *)
| W_num v k z b : writes v 17 (XNum k false z) [(TNum k z, b)] closed v
| W_negative v k z b : writes v 17 (XNum k true z) [(TP pMinus, b); (TNum k z, false)] (mkends false true false) v
| W_atom v a b : writes v 17 (XAtom a) [(TAtom a, b)] closed v
| W_var v id b : In id v -> writes v 17 (XVar id) [(TIdent id, b)] closed v
| W_name v id b : ~ In id v -> writes v 17 (XSend (XAtom aSelf) id [] false) [(TIdent id, b)] named v
| W_ivar v id b : writes v 17 (XIvar id) [(TIvar id, b)] closed v
| W_gvar v id b : writes v 17 (XGvar id) [(TGvar id, b)] closed v
| W_cvar v id b : writes v 17 (XCvar id) [(TCvar id, b)] closed v
| W_const v id b : writes v 17 (XConst id) [(TConst id, b)] named v
(* parentheses, arrays, indexing, calls *)
| W_paren v es ts o v' b b' : statements v es ts o v' ->
    writes v 17 (sequence es) ((TP pLParen, b) :: ts ++ [(TP pRParen, b')]) closed v'
| W_array v es ts v' b b' : elements v es ts v' ->
    writes v 17 (XArr es) ((TP pLBracket, b) :: ts ++ [(TP pRBracket, b')]) closed v'
| W_index v e te o v1 es ts v' b b' : writes v 17 e te o v1 -> (e_name o = true -> b = false) -> elements v1 es ts v' ->
    writes v 17 (XIndex e es) (te ++ (TP pLBracket, b) :: ts ++ [(TP pRBracket, b')]) closed v'
| W_attr v e te o v' nl m b b' : writes v 17 e te o v' -> blank_lines nl ->
    writes v 17 (XSend e m [] false) (te ++ nl ++ [(TP pDot, b); (TIdent m, b')]) named v'
| W_call v e te o v1 nl m es ts v' b b' b'' : writes v 17 e te o v1 -> blank_lines nl -> arguments v1 es ts v' ->
    writes v 17 (XSend e m es false)
      (te ++ nl ++ (TP pDot, b) :: (TIdent m, b') :: (TP pLParen, false) :: ts ++ [(TP pRParen, b'')]) closed v'
| W_function v f es ts v' b b' : arguments v es ts v' ->
    writes v 17 (XSend (XAtom aSelf) f es false)
      ((TIdent f, b) :: (TP pLParen, false) :: ts ++ [(TP pRParen, b')]) closed v'
| W_defined_paren v e ts o v' b b' b'' : writes v 1 e ts o v' ->
    writes v 17 (XDef e) ((TRes rDefined, b) :: (TP pLParen, b') :: ts ++ [(TP pRParen, b'')]) closed v'
(* prefix operators and ** *)
| W_prefix v p u e ts o v' b : prefix_op p = Some u -> writes v 16 e ts o v' -> (u = Pos -> num_first ts = false) ->
    writes v 16 (XUn u e) ((TP p, b) :: ts) o v'
| W_prefix_minus v p u e ts o v' b : full = true ->                                         (* FULL: !-x *)
    prefix_op p = Some u -> writes v 14 e ts o v' -> minus_first ts = true ->
    writes v 16 (XUn u e) ((TP p, b) :: ts) o v'
| W_prefix_assign v p u l tl v1 r tr o v' b b' : full = true ->                             (* FULL: !x = y *)
    prefix_op p = Some u -> left_side v l tl v1 -> writes (declared l v1) 2 r tr o v' ->
    writes v 16 (XUn u (XAssign l r)) ((TP p, b) :: tl ++ (TP pAssign, b') :: tr) (opened o) v'
| W_power v l tl ol v1 r tr o v' b : writes v 16 l tl ol v1 -> e_neg ol = false -> writes v1 15 r tr o v' ->
    writes v 15 (XBin Exp l r) (tl ++ (TP pDMul, b) :: tr) o v'
| W_power_minus v l tl ol v1 r tr o v' b : full = true ->                                   (* FULL: x ** -y *)
    writes v 16 l tl ol v1 -> e_neg ol = false -> writes v1 14 r tr o v' -> minus_first tr = true ->
    writes v 15 (XBin Exp l r) (tl ++ (TP pDMul, b) :: tr) o v'
| W_minus v e ts o v' b : writes v 14 e ts o v' -> num_first ts = false ->
    writes v 14 (XUn Neg e) ((TP pMinus, b) :: ts) o v'
| W_minus_num v e ts o v' b : full = true ->                                                (* FULL: - 2.abs *)
    writes v 14 e ts o v' -> tight_num ts = false -> writes v 14 (XUn Neg e) ((TP pMinus, b) :: ts) o v'
| W_minus_power v k z r tr o v' b b' b'' : writes v 15 r tr o v' ->
    writes v 14 (XUn Neg (XBin Exp (XNum k false z) r))
      ((TP pMinus, b) :: (TNum k z, b') :: (TP pDMul, b'') :: tr) o v'
(* infix operators *)
| W_left v p op bo l tl ol v1 r tr o v' b : left_op op = Some (p, bo) ->
    writes v p l tl ol v1 -> e_open ol = false -> gap ol op b tr -> writes v1 (S p) r tr o v' ->
    writes v p (XBin bo l r) (tl ++ (TP op, b) :: tr) o v'
| W_equal v op bo l tl ol v1 r tr o v' b : eq_op op = Some bo ->
    writes v 8 l tl ol v1 -> e_open ol = false -> writes v1 8 r tr o v' ->
    writes v 7 (XBin bo l r) (tl ++ (TP op, b) :: tr) o v'
| W_unmatch v l tl ol v1 r tr o v' b : writes v 8 l tl ol v1 -> e_open ol = false -> writes v1 8 r tr o v' ->
    writes v 7 (XUn Not (XBin Match l r)) (tl ++ (TP pUnmatch, b) :: tr) o v'
| W_compare v l tl ol v1 r tr o v' b : writes v 8 l tl ol v1 -> e_open ol = false ->
    writes v1 (if full then 8 else 9) r tr o v' ->                                          (* FULL: x <=> y < z *)
    writes v 7 (XBin Cmp l r) (tl ++ (TP pCmp, b) :: tr) o v'
| W_range v op x l tl ol v1 r tr o v' b : range_op op = Some x ->
    writes v 5 l tl ol v1 -> e_open ol = false -> writes v1 5 r tr o v' ->
    writes v 4 (XRange x l r) (tl ++ (TP op, b) :: tr) o v'
| W_ternary v c tc oc v1 t tt ot v2 e te o v' b b' : writes v 4 c tc oc v1 -> e_open oc = false ->
    writes v1 2 t tt ot v2 -> gap ot pColon b' te -> writes v2 3 e te o v' ->
    writes v 3 (XIf c t e) (tc ++ (TP pQuestion, b) :: tt ++ (TP pColon, b') :: te) o v'
(* assignments; they can be the last operand of any operator up to unary minus *)
| W_assign v l tl v1 r tr o v' b : left_side v l tl v1 -> writes (declared l v1) 2 r tr o v' ->
    writes v 14 (XAssign l r) (tl ++ (TP pAssign, b) :: tr) (opened o) v'
| W_op_assign v bo l tl v1 r tr o v' b :
    left_side v l tl v1 ->
    writes (if full then declared l v1 else v1) 2 r tr o v' ->                              (* FULL: x ||= x *)
    writes v 14 (op_assign bo l r) (tl ++ (TP (pAssignOp bo), b) :: tr) (opened o) (declared l v')
| W_assign_rescue v l tl v1 r tr o v2 h th oh v' b b' : full = true ->                      (* FULL: x = y rescue z *)
    left_side v l tl v1 -> writes (declared l v1) 3 r tr o v2 -> writes v2 2 h th oh v' ->
    writes v 14 (XAssign l (XRescue r h)) (tl ++ (TP pAssign, b) :: tr ++ (TRes rRescue, b') :: th) (opened oh) v'
| W_defined v e ts o v' b : writes v 2 e ts o v' -> paren_first ts = false ->
    writes v 2 (XDef e) ((TRes rDefined, b) :: ts) o v'
(* and, or, modifiers *)
| W_and v l tl ol v1 r tr o v' b : writes v 1 l tl ol v1 -> writes v1 2 r tr o v' ->
    writes v 1 (XBin LAnd l r) (tl ++ (TRes rAnd, b) :: tr) o v'
| W_or v l tl ol v1 r tr o v' b : writes v 1 l tl ol v1 -> writes v1 2 r tr o v' ->
    writes v 1 (XBin LOr l r) (tl ++ (TRes rOr, b) :: tr) o v'
| W_if v s ts os v1 c tc o v' b : writes v 0 s ts os v1 -> writes v1 1 c tc o v' ->
    writes v 0 (XIf c s (XSeq [])) (ts ++ (TRes rIf, b) :: tc) o v'
| W_unless v s ts os v1 c tc o v' b : writes v 0 s ts os v1 -> writes v1 1 c tc o v' ->
    writes v 0 (XIf c (XSeq []) s) (ts ++ (TRes rUnless, b) :: tc) o v'
| W_while v s ts os v1 c tc o v' b : writes v 0 s ts os v1 -> writes v1 1 c tc o v' ->
    writes v 0 (XWhile c s true) (ts ++ (TRes rWhile, b) :: tc) o v'
| W_until v s ts os v1 c tc o v' b : writes v 0 s ts os v1 -> writes v1 1 c tc o v' ->
    writes v 0 (XWhile c s false) (ts ++ (TRes rUntil, b) :: tc) o v'
| W_rescue v s ts os v1 c tc o v' b : writes v 0 s ts os v1 -> e_open os = false ->
    (full = false -> e_name os = false) ->                                                  (* FULL: x.y rescue z *)
    writes v1 1 c tc o v' ->
    writes v 0 (XRescue s c) (ts ++ (TRes rRescue, b) :: tc) o v'
(** what can be assigned to *)
with left_side : list Z -> exp -> list item -> list Z -> Prop :=
| L_var v id b : left_side v (XVar id) [(TIdent id, b)] v
| L_old v l tl o v' : writes v 17 l tl o v' -> assignable l o = true ->
    (full = false -> minus_first tl = false) ->                                             (* FULL: -2.x = y *)
    left_side v l tl v'
| L_attr v e te o v' nl m b b' : writes v 17 e te o v' -> blank_lines nl ->
    (full = false -> minus_first te = false) ->                                             (* FULL: -2.x = y *)
    left_side v (XSend e m [] false) (te ++ nl ++ [(TP pDot, b); (TIdent m, b')]) v'
(** elements of an array or an index *)
with elements : list Z -> list exp -> list item -> list Z -> Prop :=
| E_none v : elements v [] [] v
| E_last v e ts o v' : writes v 2 e ts o v' -> elements v [e] ts v'
| E_next v e ts o v1 b es tss v' : writes v 2 e ts o v1 -> elements v1 es tss v' -> es <> [] ->
    elements v (e :: es) (ts ++ (TP pComma, b) :: tss) v'
(** arguments of a call *)
with arguments : list Z -> list exp -> list item -> list Z -> Prop :=
| A_none v : arguments v [] [] v
| A_last v e ts o v' : writes v 2 e ts o v' -> arguments v [e] ts v'
| A_next v e ts o v1 b es tss v' : writes v 2 e ts o v1 ->
    (full = false -> e_open o = false) ->                                                   (* FULL: f(x = 1, 2) *)
    arguments v1 es tss v' -> es <> [] ->
    arguments v (e :: es) (ts ++ (TP pComma, b) :: tss) v'
(** statements: expressions with line ends or semicolons after them *)
with statements : list Z -> list exp -> list item -> ends -> list Z -> Prop :=
| S_none v : statements v [] [] closed v
| S_last v e ts o v' : writes v 0 e ts o v' -> statements v [e] ts o v'
| S_next v e ts o v1 nl es tss o' v' : writes v 0 e ts o v1 -> terms nl -> statements v1 es tss o' v' ->
    statements v (e :: es) (ts ++ nl ++ tss) o' v'.
End Writes.

(** * Printing *)
(** Every token is written with a blank before it, except the bracket of an index,
    the parenthesis of a call and the digits of a negative literal. *)
Definition sp (t : tok) : item := (t, true).
Definition wrap (ts : list item) : list item := sp (TP pLParen) :: ts ++ [sp (TP pRParen)].
(** the text of an expression, with its own precedence and how it ends *)
Record text : Set := mktext { t_prec : nat; t_toks : list item; t_ends : ends }.
(** the text where precedence [p] is asked for: parentheses if it binds less
    tightly, or if [bad] *)
Definition put (p : nat) (bad : text -> bool) (x : text) : text :=
  if Nat.ltb (t_prec x) p || bad x then mktext 17 (wrap (t_toks x)) closed else x.
Definition never (x : text) := false.
Definition is_open (x : text) := e_open (t_ends x).
Definition is_neg (x : text) := e_neg (t_ends x).
Definition is_num (x : text) := num_first (t_toks x).
(** operator, precedence, precedence asked for on the left and on the right *)
Definition infix (b : bop) : punct * nat * nat * nat :=
  match b with
  | LOr => (pLOr, 5, 5, 6) | LAnd => (pLAnd, 6, 6, 7)
  | Eq => (pEq, 7, 8, 8) | TEq => (pTEq, 7, 8, 8) | Ne => (pNe, 7, 8, 8) | Match => (pMatch, 7, 8, 8)
  | Cmp => (pCmp, 7, 8, 9)                                  (* on the right 8 in Ruby: FULL in [writes] *)
  | Lt => (pLt, 8, 8, 9) | Le => (pLe, 8, 8, 9) | Gt => (pGt, 8, 8, 9) | Ge => (pGe, 8, 8, 9)
  | BitOr => (pBitOr, 9, 9, 10) | BitXor => (pBitXor, 9, 9, 10) | BitAnd => (pBitAnd, 10, 10, 11)
  | Shl => (pShl, 11, 11, 12) | Shr => (pShr, 11, 11, 12)
  | Add => (pPlus, 12, 12, 13) | Sub => (pMinus, 12, 12, 13)
  | Mul => (pMul, 13, 13, 14) | Div => (pDiv, 13, 13, 14) | Rem => (pRem, 13, 13, 14)
  | Exp => (pDMul, 15, 16, 15)
  end%nat.
Definition is_exp (b : bop) : bool := match b with Exp => true | _ => false end.
Definition before (u : uop) : punct := match u with Not => pNot | BitNot => pBitNot | Pos => pPlus | Neg => pMinus end.
(** texts with commas between them; [bad] for those that are not the last *)
Fixpoint commas (bad : text -> bool) (xs : list text) : list item :=
  match xs with
  | [] => []
  | x :: r => match r with
              | [] => t_toks (put 2 never x)
              | _ => t_toks (put 2 bad x) ++ sp (TP pComma) :: commas bad r
              end
  end.
(** texts with [t] between them *)
Fixpoint lines (t : tok) (xs : list text) : list item :=
  match xs with
  | [] => []
  | x :: r => match r with [] => t_toks x | _ => t_toks x ++ (t, false) :: lines t r end
  end.
Definition join (q : nat) (l : text) (t : tok) (r : text) : text :=
  mktext q (t_toks l ++ sp t :: t_toks r) (t_ends r).
Definition is_seq0 (e : exp) : bool := match e with XSeq [] => true | _ => false end.
Fixpoint show (e : exp) : text :=
  match e with
  | XNum k false z => mktext 17 [sp (TNum k z)] closed
  | XNum k true z => mktext 17 [sp (TP pMinus); (TNum k z, false)] (mkends false true false)
  | XAtom a => mktext 17 [sp (TAtom a)] closed
  | XVar id => mktext 17 [sp (TIdent id)] closed
  | XIvar id => mktext 17 [sp (TIvar id)] closed
  | XGvar id => mktext 17 [sp (TGvar id)] closed
  | XCvar id => mktext 17 [sp (TCvar id)] closed
  | XConst id => mktext 17 [sp (TConst id)] named
  | XBin b l r =>
      let '(op, q, pl, pr) := infix b in
      join q (put pl (fun x => is_open x || (is_exp b && is_neg x)) (show l)) (TP op) (put pr never (show r))
  | XUn Neg e' =>
      match e' with
      | XBin Exp (XNum k false z) r =>
          let x := put 15 never (show r) in
          mktext 14 (sp (TP pMinus) :: sp (TNum k z) :: sp (TP pDMul) :: t_toks x) (t_ends x)
      | _ => let x := put 14 is_num (show e') in mktext 14 (sp (TP pMinus) :: t_toks x) (t_ends x)
      end
  | XUn u e' =>
      let x := put 16 (match u with Pos => is_num | _ => never end) (show e') in
      mktext 16 (sp (TP (before u)) :: t_toks x) (t_ends x)
  | XRange x l r =>
      join 4 (put 5 is_open (show l)) (TP (if x then pRange3 else pRange2)) (put 5 never (show r))
  | XIf c t e =>
      if is_seq0 e then join 0 (show t) (TRes rIf) (put 1 never (show c))
      else if is_seq0 t then join 0 (show e) (TRes rUnless) (put 1 never (show c))
      else
        let x := put 3 never (show e) in
        mktext 3 (t_toks (put 4 is_open (show c)) ++ sp (TP pQuestion) :: t_toks (put 2 never (show t))
                  ++ sp (TP pColon) :: t_toks x) (t_ends x)
  | XWhile c b op => join 0 (show b) (TRes (if op then rWhile else rUntil)) (put 1 never (show c))
  | XRescue b r =>
      join 0 (put 0 (fun x => is_open x || e_name (t_ends x)) (show b)) (TRes rRescue) (put 1 never (show r))
  | XAssign l r =>
      let x := put 2 never (show r) in
      mktext 2 (t_toks (show l) ++ sp (TP pAssign) :: t_toks x) (opened (t_ends x))
  | XOp b l r =>
      let x := put 2 never (show r) in
      mktext 2 (t_toks (show l) ++ sp (TP (pAssignOp b)) :: t_toks x) (opened (t_ends x))
  | XIndex e es =>
      mktext 17 (t_toks (put 17 never (show e)) ++ (TP pLBracket, false) :: commas never (map show es)
                 ++ [sp (TP pRBracket)]) closed
  | XSend e m [] _ => mktext 17 (t_toks (put 17 never (show e)) ++ [sp (TP pDot); sp (TIdent m)]) named
  | XSend e m es _ =>
      mktext 17 (t_toks (put 17 never (show e)) ++ sp (TP pDot) :: sp (TIdent m) :: (TP pLParen, false)
                 :: commas is_open (map show es) ++ [sp (TP pRParen)]) closed
  | XArr es => mktext 17 (sp (TP pLBracket) :: commas never (map show es) ++ [sp (TP pRBracket)]) closed
  | XDef e => mktext 17 (sp (TRes rDefined) :: sp (TP pLParen) :: t_toks (put 1 never (show e)) ++ [sp (TP pRParen)]) closed
  | XSeq es => mktext 17 (wrap (lines (TP pSemi) (map show es))) closed
  | XMul _ _ | XSplat _ => mktext 17 [] closed
  end.
(** the text of a program, one statement on each line *)
Definition print (es : list exp) : list item := lines TLT (map show es).

(** The trees of expressions: variables that are read are known, the left side of
    an assignment can be assigned to and does not start with a minus sign; no
    splats, multiple assignments and safe navigation, and no sequence of one.  The
    result are the variables known after the text of the tree. *)
Definition is_logical (b : bop) : bool := match b with LOr | LAnd => true | _ => false end.
Definition next {A B} (o : option A) (f : A -> option B) : option B := match o with Some a => f a | None => None end.
Fixpoint printable (v : list Z) (e : exp) {struct e} : option (list Z) :=
  let each := fix each (v : list Z) (l : list exp) :=
                match l with [] => Some v | x :: r => next (printable v x) (fun v => each v r) end in
  let target v l := match l with
                    | XVar _ => Some v
                    | XIvar _ | XGvar _ | XCvar _ | XConst _ | XIndex _ _ | XSend _ _ [] false =>
                        if minus_first (t_toks (show l)) then None else printable v l
                    | _ => None
                    end in
  match e with
  | XNum _ _ _ | XAtom _ | XIvar _ | XGvar _ | XCvar _ | XConst _ => Some v
  | XVar id => if existsb (Z.eqb id) v then Some v else None
  | XBin _ l r | XRange _ l r | XRescue l r | XWhile r l _ => next (printable v l) (fun v => printable v r)
  | XUn _ e => printable v e
  | XIf c t e =>
      if is_seq0 e then next (printable v t) (fun v => printable v c)
      else if is_seq0 t then next (printable v e) (fun v => printable v c)
      else next (printable v c) (fun v => next (printable v t) (fun v => printable v e))
  | XAssign l r => next (target v l) (fun v => printable (declared l v) r)
  | XOp b l r => if is_logical b then None
                 else next (target v l) (fun v => next (printable v r) (fun v => Some (declared l v)))
  | XIndex e es => next (printable v e) (fun v => each v es)
  | XSend e _ es safe => if safe then None else next (printable v e) (fun v => each v es)
  | XArr es => each v es
  | XDef e => printable v e
  | XSeq es => match es with [_] => None | _ => each v es end
  | XMul _ _ | XSplat _ => None
  end.
Fixpoint printables (v : list Z) (l : list exp) : option (list Z) :=
  match l with [] => Some v | x :: r => next (printable v x) (fun v => printables v r) end.

(** Where a minus sign is not expected: directly after one of these tokens (line
    ends between them do not count), unless a number follows it. *)
Definition opener (t : tok) : bool :=
  match t with TP p => match p with pNot | pBitNot | pPlus | pDMul | pComma => true | _ => false end | _ => false end.
Fixpoint without_lines (l : list item) : list item :=
  match l with (TLT, _) :: r | (TP pSemi, _) :: r => without_lines r | _ => l end.
Definition no_bare_minus (l : list item) : bool :=
  match without_lines l with
  | (TP pMinus, _) :: r => match without_lines r with (TNum _ _, _) :: _ => true | _ => false end
  | _ => true
  end.
Fixpoint calm (l : list item) : bool :=
  match l with (t, _) :: r => (negb (opener t) || no_bare_minus r) && calm r | [] => true end.
