(** The expression parser: ruruby-parse/src/parser/expression.rs on the tokens
    of ruruby-parse/src/token.rs.

    The lexer is not part of this model: the input is the list of tokens it
    gives, each with a flag telling whether white space stands before it.  The
    lexer does not depend on the parser for the tokens modelled here, so saving
    and restoring its state (lexer.rs:195-202) is going back in the list; the
    one-token buffers (lexer.rs:123-156) hold tokens of that list (after going back,
    one of them may hold a later token, but it is emptied by [get] before it is
    looked at again).

    Not modelled ([PStuck]): blocks, lambdas, strings, symbols, hashes, regular
    expressions, heredocs, percent literals, block, splat and keyword arguments
    of calls, scoped constants, and everything that starts with a keyword except
    [defined?].  Source locations are left out, and so are the flags of nodes
    that say whether a literal is constant (node.rs:374-394).  Constants may be
    assigned (check_lhs outside of methods, expression.rs:983-998). *)
From Coq Require Import ZArith List Bool.
From Verif Require Import Base.
Import ListNotations.
Open Scope Z_scope.

(** node.rs:239-262 *)
Inductive bop : Set :=
| Add | Sub | Mul | Div | Rem | Exp | Shr | Shl | BitAnd | BitOr | BitXor
| Eq | Ne | TEq | Gt | Ge | Lt | Le | Cmp | LAnd | LOr | Match.
(** node.rs:302-307 *)
Inductive uop : Set := BitNot | Not | Pos | Neg.

(** token.rs:137-185 *)
Inductive punct : Set :=
| pLParen | pRParen | pLBracket | pRBracket | pLBrace | pRBrace | pSemi | pColon
| pScope | pComma | pDot | pQuestion | pRange2 | pRange3
| pPlus | pMinus | pMul | pDiv | pRem | pDMul | pShr | pShl | pBitOr | pBitAnd
| pBitXor | pBitNot | pNot | pAssign | pAssignOp (b : bop) | pEq | pTEq | pNe
| pGt | pGe | pLt | pLe | pCmp | pLAnd | pLOr | pMatch | pUnmatch | pSafeNav
| pBackslash | pArrow | pFatArrow.
(** token.rs:65-96 *)
Inductive reserved : Set :=
| rBEGIN | rEND | rAlias | rAnd | rBegin | rBreak | rCase | rClass | rDef
| rDefined | rDo | rElse | rElsif | rEnd | rEnsure | rFor | rIf | rIn | rModule
| rNext | rOr | rRescue | rReturn | rSuper | rThen | rUntil | rUnless | rWhen
| rWhile | rYield.
(** IntegerLit, BignumLit, FloatLit: the value is only carried through *)
Inductive numkind : Set := KInt | KBig | KFloat.
(** the identifiers [self], [nil], [true], [false] (expression.rs:622-625) *)
Inductive atom : Set := aSelf | aNil | aTrue | aFalse.
(** token.rs:41-62; names are numbers, [TOther] stands for the literals that
    are not modelled *)
Inductive tok : Set :=
| TEof | TLT | TIdent (id : Z) | TAtom (a : atom) | TIvar (id : Z) | TGvar (id : Z)
| TCvar (id : Z) | TConst (id : Z) | TNum (k : numkind) (z : Z) | TStr | TOther
| TRes (r : reserved) | TP (p : punct).
Definition item : Set := (tok * bool)%type.

(** node.rs:8-115; [NNum k neg z]: a number literal, negated or not;
    [NSend] without keyword arguments and block *)
Inductive node : Set :=
| NNum (k : numkind) (neg : bool) (z : Z) | NAtom (a : atom)
| NLvar (id : Z) | NIdent (id : Z) | NIvar (id : Z) | NGvar (id : Z) | NCvar (id : Z)
| NConst (id : Z)
| NBin (b : bop) (l r : node) | NUn (u : uop) (e : node)
| NRange (excl : bool) (l r : node) | NIf (c t e : node)
| NWhile (c b : node) (op : bool) | NRescue (b r : node)
| NMulAssign (l r : list node) | NAssignOp (b : bop) (l r : node)
| NIndex (e : node) (args : list node) | NSend (e : node) (m : Z) (args : list node) (safe : bool)
| NArray (l : list node) | NSplat (e : node) | NDefined (e : node) | NComp (l : list node).

(** parser.rs:22-34: the rest of the input, and the local variables in scope
    (ModelScope has the scopes; here only one).  The flags are
    suppress_acc_assign and suppress_mul_assign. *)
Record pst : Set := mkpst { p_in : list item; p_lv : list Z }.
Record flags : Set := mkflags { f_sa : bool; f_sm : bool }.
(** a result, a SyntaxError, a panic, something not modelled, out of fuel *)
Inductive pres (A : Type) : Type :=
| POk (a : A) (s : pst) | PErr | PPanic | PStuck | PFuel.
Arguments POk {A}. Arguments PErr {A}. Arguments PPanic {A}. Arguments PStuck {A}. Arguments PFuel {A}.
Definition pbind {A B} (r : pres A) (f : A -> pst -> pres B) : pres B :=
  match r with
  | POk a s => f a s | PErr => PErr | PPanic => PPanic | PStuck => PStuck | PFuel => PFuel
  end.
Notation "'do' a , s <- r ;; e" := (pbind r (fun a s => e)) (at level 200, a name, s name, right associativity).

(** token.rs:270-272 *)
Definition is_line_term (t : tok) : bool :=
  match t with TLT | TP pSemi => true | _ => false end.
(** token.rs:280-285 *)
Definition is_term (t : tok) : bool :=
  match t with TLT | TEof | TP pSemi => true | _ => false end.
(** token.rs:302-319 *)
Definition check_stmt_end (t : tok) : bool :=
  match t with
  | TEof => true
  | TRes r => match r with rElse | rElsif | rEnd | rWhen | rRescue | rEnsure => true | _ => false end
  | TP p => match p with pRParen | pRBrace | pRBracket => true | _ => false end
  | _ => false
  end.

(** lexer.rs:130-139, parser.rs:203-205 *)
Definition peek_no_term (l : list item) : tok := match l with [] => TEof | (t, _) :: _ => t end.
(** lexer.rs:141-156, parser.rs:198-200 *)
Fixpoint skip_lt (l : list item) : list item :=
  match l with
  | (t, b) :: r => if is_line_term t then skip_lt r else l
  | [] => []
  end.
Definition peek (l : list item) : tok := peek_no_term (skip_lt l).
(** parser.rs:230-241 *)
Definition get (s : pst) : pres tok :=
  match skip_lt (p_in s) with
  | (TEof, _) :: _ | [] => PErr
  | (t, _) :: r => POk t (mkpst r (p_lv s))
  end.
(** parser.rs:314-324: the loop; at the end of input nothing is left out *)
Fixpoint drop_terms (l : list item) : list item :=
  match l with
  | (TLT, _) :: r | (TP pSemi, _) :: r => drop_terms r
  | _ => l
  end.
(** parser.rs:340-348 *)
Definition expect_rparen (s : pst) : pres unit :=
  do t, s <- get s ;; match t with TP pRParen => POk tt s | _ => PErr end.
Definition expect_rbracket (s : pst) : pres unit :=
  do t, s <- get s ;; match t with TP pRBracket => POk tt s | _ => PErr end.

(** expression.rs:1000-1045: the next token, whether there is space before it
    ([trailing_space], lexer.rs:159-164) and whether there is space after it
    ([has_trailing_space], 175-185) *)
Definition is_command (l : list item) : bool :=
  match l with
  | [] => false
  | (t, true) :: r =>
      let space_after := match r with (_, b) :: _ => b | [] => false end in
      match t with
      | TLT => false
      | TP p =>
          match p with
          | pLParen | pLBracket | pScope | pArrow => true
          | pColon | pPlus | pMinus | pMul | pDiv | pBitAnd | pRem | pShl => negb space_after
          | _ => false
          end
      | TRes r =>
          match r with
          | rDo | rIf | rUnless | rWhile | rUntil | rAnd | rOr | rThen | rEnd => false
          | _ => true
          end
      | _ => true
      end
  | (t, false) :: _ =>
      match t with TGvar _ | TIvar _ | TStr | TNum _ _ => true | _ => false end
  end.
(** lexer.rs:167-172 *)
Definition trailing_lparen (l : list item) : bool :=
  match l with (TP pLParen, false) :: _ => true | _ => false end.

(** parser.rs:173-191, for one scope *)
Definition is_local_var (id : Z) (s : pst) : bool := existsb (Z.eqb id) (p_lv s).
(** expression.rs:983-998 [check_lhs], parser.rs:117-129 *)
Definition check_lhs (n : node) (s : pst) : pst :=
  match n with
  | NIdent id => if is_local_var id s then s else mkpst (p_in s) (p_lv s ++ [id])
  | _ => s
  end.
(** node.rs:507-517, 727-729 *)
Definition is_splat (n : node) : bool := match n with NSplat _ => true | _ => false end.
Definition new_mul_assign (l r : list node) : node :=
  if existsb is_splat r || ((length l =? 1)%nat && negb (length r =? 1)%nat)
  then NMulAssign l [NArray r] else NMulAssign l r.

(** The parsing functions.  A loop is a function of its own, with what it has
    collected so far. *)
Inductive lev : Set := lvLor | lvLand | lvComp | lvBitor | lvBitand | lvShift | lvAdd | lvMul.
Inductive nt : Set :=
| PStmt | PStmtL (n : node) | PExpr | PExprL (n : node) | PNot
| PArg | PArgAssign | PTernary | PRange
| PBin (l : lev) | PBinL (l : lev) (n : node) | PEq
| PUMinus | PExp | PUnary | PCall | PCallL (n : node) | PPrim (suppress_unparen_call : bool).
Inductive lt : Set :=
| LStmts (acc : list node) | LRhs (bracket : bool) (acc : list node)
| LArgs (paren : bool) (acc : list node) | LMlhs (acc : list node).

Section Bodies.
Variable rec : nt -> flags -> pst -> pres node.
Variable recl : lt -> flags -> pst -> pres (list node).

(** expression.rs:6-26 [parse_comp_stmt] *)
Definition stmts_body (acc : list node) (fl : flags) (s : pst) : pres (list node) :=
  if check_stmt_end (peek (p_in s)) then POk acc s
  else do n, s <- rec PStmt fl s ;;
       if is_term (peek_no_term (p_in s)) then recl (LStmts (acc ++ [n])) fl (mkpst (drop_terms (p_in s)) (p_lv s))
       else POk (acc ++ [n]) s.
Definition comp_stmt (fl : flags) (s : pst) : pres node :=
  do l, s <- recl (LStmts []) fl s ;; POk (NComp l) s.
(** expression.rs:28-82 [parse_stmt] *)
Definition stmt_body (fl : flags) (s : pst) : pres node :=
  do n, s <- rec PExpr fl s ;; rec (PStmtL n) fl s.
Definition stmt_loop (n : node) (fl : flags) (s : pst) : pres node :=
  match peek_no_term (p_in s) with
  | TRes rIf => do t, s <- get s ;; do c, s <- rec PExpr fl s ;; rec (PStmtL (NIf c n (NComp []))) fl s
  | TRes rUnless => do t, s <- get s ;; do c, s <- rec PExpr fl s ;; rec (PStmtL (NIf c (NComp []) n)) fl s
  | TRes rWhile => do t, s <- get s ;; do c, s <- rec PExpr fl s ;; rec (PStmtL (NWhile c n true)) fl s
  | TRes rUntil => do t, s <- get s ;; do c, s <- rec PExpr fl s ;; rec (PStmtL (NWhile c n false)) fl s
  | TRes rRescue => do t, s <- get s ;; do c, s <- rec PExpr fl s ;; rec (PStmtL (NRescue n c)) fl s
  | _ => POk n s
  end.
(** expression.rs:84-100 [parse_expr] *)
Definition expr_body (fl : flags) (s : pst) : pres node :=
  do n, s <- rec PNot fl s ;; rec (PExprL n) fl s.
Definition expr_loop (n : node) (fl : flags) (s : pst) : pres node :=
  match peek_no_term (p_in s) with
  | TRes rAnd => do t, s <- get s ;; do r, s <- rec PNot fl s ;; rec (PExprL (NBin LAnd n r)) fl s
  | TRes rOr => do t, s <- get s ;; do r, s <- rec PNot fl s ;; rec (PExprL (NBin LOr n r)) fl s
  | _ => POk n s
  end.
(** expression.rs:146-154 [parse_mul_assign_rhs_if_allowed] *)
Definition rhs_if_allowed (fl : flags) (s : pst) : pres (list node) :=
  if f_sm fl then do n, s <- rec PArg fl s ;; POk [n] s
  else recl (LRhs false []) (mkflags (f_sa fl) true) s.
(** expression.rs:115-142 [parse_mul_assign] *)
Definition mlhs_body (acc : list node) (fl : flags) (s : pst) : pres (list node) :=
  match peek_no_term (p_in s) with
  | TP pAssign => POk acc s
  | _ => do n, s <- rec PCall fl s ;;
         match peek_no_term (p_in s) with
         | TP pComma => do t, s <- get s ;; recl (LMlhs (acc ++ [n])) fl s
         | _ => POk (acc ++ [n]) s
         end
  end.
Definition mul_assign (n : node) (fl : flags) (s : pst) : pres node :=
  do l, s <- recl (LMlhs [n]) (mkflags true (f_sm fl)) s ;;
  match peek_no_term (p_in s) with
  | TP pAssign => do t, s <- get s ;; do r, s <- rhs_if_allowed fl s ;;
                  POk (new_mul_assign l r) (fold_left (fun s n => check_lhs n s) l s)
  | _ => PErr
  end.
(** expression.rs:102-113 [parse_not] *)
Definition not_body (fl : flags) (s : pst) : pres node :=
  do n, s <- rec PArg fl s ;;
  match peek_no_term (p_in s) with
  | TP pComma => do t, s <- get s ;; mul_assign n fl s
  | _ => POk n s
  end.
(** expression.rs:157-192 [parse_mul_assign_rhs], with the terminator `]` or
    none; the caller sets suppress_mul_assign *)
Definition is_rbracket (t : tok) : bool := match t with TP pRBracket => true | _ => false end.
Definition rhs_body (bracket : bool) (acc : list node) (fl : flags) (s : pst) : pres (list node) :=
  if bracket && is_rbracket (peek (p_in s)) then do t, s <- get s ;; POk acc s
  else
    do n, s <- match peek (p_in s) with
               | TP pMul => do t, s <- get s ;; do n, s <- rec PArg fl s ;; POk (NSplat n) s
               | _ => rec PArg fl s
               end ;;
    match peek (p_in s) with
    | TP pComma => do t, s <- get s ;; recl (LRhs bracket (acc ++ [n])) fl s
    | _ => if bracket then do t, s <- expect_rbracket s ;; POk (acc ++ [n]) s else POk (acc ++ [n]) s
    end.
(** expression.rs:194-206 [parse_arg] *)
Definition arg_body (fl : flags) (s : pst) : pres node :=
  match peek (p_in s) with
  | TRes rDefined =>
      do t, s1 <- get s ;;
      match peek_no_term (p_in s1) with
      | TP pLParen => rec PArgAssign fl s
      | _ => do n, s1 <- rec PArg fl s1 ;; POk (NDefined n) s1
      end
  | _ => rec PArgAssign fl s
  end.
(** expression.rs:455-475 [parse_assign_op], the operator being next *)
Definition assign_op (lhs : node) (op : bop) (fl : flags) (s : pst) : pres node :=
  do t, s <- get s ;;
  do r, s <- rec PArg fl s ;;
  let s := check_lhs lhs s in
  match op with
  | LOr | LAnd =>
      let lhs := match lhs with NIdent id => NLvar id | n => n end in
      POk (NBin op lhs (new_mul_assign [lhs] [r])) s
  | _ => POk (NAssignOp op lhs r) s
  end.
(** expression.rs:208-223 [parse_arg_assign] *)
Definition arg_assign_body (fl : flags) (s : pst) : pres node :=
  do lhs, s <- rec PTernary fl s ;;
  if is_line_term (peek_no_term (p_in s)) then POk lhs s
  else match peek_no_term (p_in s) with
       | TP pAssign =>
           do t, s <- get s ;;
           let s := check_lhs lhs s in
           do r, s <- recl (LRhs false []) (mkflags (f_sa fl) true) s ;; POk (new_mul_assign [lhs] r) s
       | TP (pAssignOp op) => assign_op lhs op fl s
       | _ => POk lhs s
       end.
(** expression.rs:225-240 [parse_arg_ternary] *)
Definition ternary_body (fl : flags) (s : pst) : pres node :=
  do c, s <- rec PRange fl s ;;
  match peek_no_term (p_in s) with
  | TP pQuestion =>
      do t, s <- get s ;;
      do th, s <- rec PArg fl s ;;
      match peek_no_term (p_in s) with
      | TP pColon => do t, s <- get s ;; do el, s <- rec PArg fl s ;; POk (NIf c th el) s
      | _ => PErr
      end
  | _ => POk c s
  end.
(** expression.rs:242-258 [parse_arg_range] *)
Definition range_body (fl : flags) (s : pst) : pres node :=
  do l, s <- rec (PBin lvLor) fl s ;;
  if is_line_term (peek_no_term (p_in s)) then POk l s
  else match peek (p_in s) with
       | TP pRange2 => do t, s <- get s ;; do r, s <- rec (PBin lvLor) fl s ;; POk (NRange false l r) s
       | TP pRange3 => do t, s <- get s ;; do r, s <- rec (PBin lvLor) fl s ;; POk (NRange true l r) s
       | _ => POk l s
       end.
(** The loops over left-associative operators: [parse_arg_logical_or] 260-267,
    [parse_arg_logical_and] 269-276, [parse_arg_comp] 303-329, [parse_arg_bitor]
    331-343, [parse_arg_bitand] 345-355, [parse_arg_shift] 357-369,
    [parse_arg_add] 371-385, [parse_arg_mul] 387-407: the function for the
    operands, the operators, and whether a line end is looked for first. *)
Definition operand (l : lev) : nt :=
  match l with
  | lvLor => PBin lvLand | lvLand => PEq | lvComp => PBin lvBitor | lvBitor => PBin lvBitand
  | lvBitand => PBin lvShift | lvShift => PBin lvAdd | lvAdd => PBin lvMul | lvMul => PUMinus
  end.
Definition operator (l : lev) (t : tok) : option bop :=
  match l, t with
  | lvLor, TP pLOr => Some LOr
  | lvLand, TP pLAnd => Some LAnd
  | lvComp, TP pGe => Some Ge
  | lvComp, TP pGt => Some Gt
  | lvComp, TP pLe => Some Le
  | lvComp, TP pLt => Some Lt
  | lvComp, TP pCmp => Some Cmp
  | lvBitor, TP pBitOr => Some BitOr
  | lvBitor, TP pBitXor => Some BitXor
  | lvBitand, TP pBitAnd => Some BitAnd
  | lvShift, TP pShl => Some Shl
  | lvShift, TP pShr => Some Shr
  | lvAdd, TP pPlus => Some Add
  | lvAdd, TP pMinus => Some Sub
  | lvMul, TP pMul => Some Mul
  | lvMul, TP pDiv => Some Div
  | lvMul, TP pRem => Some Rem
  | _, _ => None
  end.
Definition stops_at_line_end (l : lev) : bool := match l with lvComp | lvMul => true | _ => false end.
Definition bin_body (l : lev) (fl : flags) (s : pst) : pres node :=
  do n, s <- rec (operand l) fl s ;;
  if stops_at_line_end l && is_line_term (peek_no_term (p_in s)) then POk n s
  else rec (PBinL l n) fl s.
Definition bin_loop (l : lev) (n : node) (fl : flags) (s : pst) : pres node :=
  match operator l (peek_no_term (p_in s)) with
  | Some b => do t, s <- get s ;; do r, s <- rec (operand l) fl s ;; rec (PBinL l (NBin b n r)) fl s
  | None => POk n s
  end.
(** expression.rs:279-301 [parse_arg_eq] *)
Definition eq_body (fl : flags) (s : pst) : pres node :=
  do l, s <- rec (PBin lvComp) fl s ;;
  match peek_no_term (p_in s) with
  | TP pEq => do t, s <- get s ;; do r, s <- rec (PBin lvComp) fl s ;; POk (NBin Eq l r) s
  | TP pNe => do t, s <- get s ;; do r, s <- rec (PBin lvComp) fl s ;; POk (NBin Ne l r) s
  | TP pTEq => do t, s <- get s ;; do r, s <- rec (PBin lvComp) fl s ;; POk (NBin TEq l r) s
  | TP pMatch => do t, s <- get s ;; do r, s <- rec (PBin lvComp) fl s ;; POk (NBin Match l r) s
  | TP pUnmatch => do t, s <- get s ;; do r, s <- rec (PBin lvComp) fl s ;; POk (NUn Not (NBin Match l r)) s
  | _ => POk l s
  end.
(** expression.rs:440-451 [parse_accesory_assign] *)
Definition acc_assign (lhs : node) (fl : flags) (s : pst) : pres node :=
  if f_sa fl then POk lhs s
  else match peek_no_term (p_in s) with
       | TP pAssign =>
           do t, s <- get s ;;
           let s := check_lhs lhs s in
           do r, s <- rhs_if_allowed fl s ;; POk (new_mul_assign [lhs] r) s
       | TP (pAssignOp op) => assign_op lhs op fl s
       | _ => POk lhs s
       end.
(** expression.rs:409-438 [parse_unary_minus]; the variables in scope are not
    restored when going back, but a number declares none *)
Definition uminus_body (fl : flags) (s : pst) : pres node :=
  match peek (p_in s) with
  | TP pMinus =>
      do t, s1 <- get s ;;
      match peek_no_term (p_in s1) with
      | TNum _ _ =>
          do n, s2 <- rec (PPrim true) fl s1 ;;
          match peek_no_term (p_in s2) with
          | TP pDMul => do e, s3 <- rec PExp fl s1 ;; acc_assign (NUn Neg e) fl s3
          | _ => rec PExp fl s
          end
      | _ => do e, s2 <- rec PUMinus fl s1 ;; acc_assign (NUn Neg e) fl s2
      end
  | _ => do e, s1 <- rec PExp fl s ;; acc_assign e fl s1
  end.
(** expression.rs:477-485 [parse_exponent] *)
Definition exp_body (fl : flags) (s : pst) : pres node :=
  do l, s <- rec PUnary fl s ;;
  match peek_no_term (p_in s) with
  | TP pDMul => do t, s <- get s ;; do r, s <- rec PExp fl s ;; POk (NBin Exp l r) s
  | _ => POk l s
  end.
(** expression.rs:487-503 [parse_unary] *)
Definition unary_body (fl : flags) (s : pst) : pres node :=
  match peek (p_in s) with
  | TP pBitNot => do t, s <- get s ;; do e, s <- rec PUnary fl s ;; POk (NUn BitNot e) s
  | TP pNot => do t, s <- get s ;; do e, s <- rec PUnary fl s ;; POk (NUn Not e) s
  | TP pPlus => do t, s <- get s ;; do e, s <- rec PUnary fl s ;; POk (NUn Pos e) s
  | _ => rec PCall fl s
  end.
(** parser.rs:375-386 [parse_block]: no block *)
Definition no_block {A} (a : A) (s : pst) : pres A :=
  match peek_no_term (p_in s) with
  | TRes rDo | TP pLBrace => PStuck
  | _ => POk a s
  end.
(** expression.rs:823-898 [parse_arglist], with the terminator `)` or none *)
Definition is_rparen (t : tok) : bool := match t with TP pRParen => true | _ => false end.
Definition starts_special_arg (t : tok) : bool :=
  match t with TP p => match p with pRange3 | pMul | pDMul | pBitAnd => true | _ => false end | _ => false end.
Definition is_name (n : node) : bool := match n with NIdent _ | NLvar _ => true | _ => false end.
Definition is_colon (t : tok) : bool := match t with TP pColon => true | _ => false end.
Definition args_body (paren : bool) (acc : list node) (fl : flags) (s : pst) : pres (list node) :=
  if paren && is_rparen (peek (p_in s)) then do t, s <- get s ;; POk acc s
  else if starts_special_arg (peek (p_in s)) then PStuck
  else
    do n, s <- rec PArg fl s ;;
    if is_name n && is_colon (peek_no_term (p_in s)) then PStuck
    else match peek (p_in s) with
         | TP pFatArrow => PStuck
         | TP pComma => do t, s <- get s ;; recl (LArgs paren (acc ++ [n])) fl s
         | TP pRParen => if paren then do t, s <- get s ;; POk (acc ++ [n]) s else POk (acc ++ [n]) s
         | _ => POk (acc ++ [n]) s
         end.
(** expression.rs:803-818 [parse_arglist_block] *)
Definition args_block (paren : bool) (fl : flags) (s : pst) : pres (list node) :=
  do l, s <- recl (LArgs paren []) fl s ;; no_block l s.
(** lexer.rs:502-564 [read_method_name]: identifiers only; line ends are skipped *)
Fixpoint skip_newlines (l : list item) : list item :=
  match l with (TLT, _) :: r => skip_newlines r | _ => l end.
(** expression.rs:570-614 [parse_primary_method]; [m_call] is the name [call] *)
Definition m_call : Z := 0.
Definition primary_method (recv : node) (safe : bool) (fl : flags) (s : pst) : pres node :=
  match peek_no_term (p_in s) with
  | TP pLParen =>
      do t, s <- get s ;; do l, s <- args_block true fl s ;; POk (NSend recv m_call l false) s
  | _ =>
      match skip_newlines (p_in s) with
      | (TIdent id, _) :: r | (TConst id, _) :: r =>
          let s := mkpst r (p_lv s) in
          let recv' := match recv with NIdent f => NSend (NAtom aSelf) f [] false | n => n end in
          match peek_no_term (p_in s) with
          | TP pLParen => do t, s <- get s ;; do l, s <- args_block true fl s ;; POk (NSend recv' id l safe) s
          | _ => if is_command (p_in s)
                 then do l, s <- args_block false fl s ;; POk (NSend recv id l false) s
                 else no_block (NSend recv' id [] safe) s
          end
      | (TEof, _) :: _ | [] => PErr
      | _ => PStuck
      end
  end.
(** expression.rs:505-535 [parse_method_call] *)
Definition call_body (fl : flags) (s : pst) : pres node :=
  match peek (p_in s) with
  | TRes rYield => PStuck
  | _ => do n, s <- rec (PPrim false) fl s ;; rec (PCallL n) fl s
  end.
Definition call_loop (n : node) (fl : flags) (s : pst) : pres node :=
  match peek (p_in s) with
  | TP pDot => do t, s <- get s ;; do m, s <- primary_method n false fl s ;; rec (PCallL m) fl s
  | _ =>
      match peek_no_term (p_in s) with
      | TP pSafeNav => do t, s <- get s ;; do m, s <- primary_method n true fl s ;; rec (PCallL m) fl s
      | TP pScope => PStuck
      | TP pLBracket =>
          do t, s <- get s ;;
          do l, s <- recl (LRhs true []) (mkflags (f_sa fl) true) s ;; rec (PCallL (NIndex n l)) fl s
      | _ => POk n s
      end
  end.
(** expression.rs:616-801 [parse_primary]; parse_function_args 955-980,
    parse_command 942-953 *)
Definition prim_body (suppress : bool) (fl : flags) (s : pst) : pres node :=
  do t, s <- get s ;;
  match t with
  | TAtom a => POk (NAtom a) s
  | TIdent id =>
      if trailing_lparen (p_in s)
      then do t, s <- get s ;; do l, s <- args_block true fl s ;; POk (NSend (NAtom aSelf) id l false) s
      else if is_local_var id s then POk (NLvar id) s
      else match peek_no_term (p_in s) with
           | TP pComma => POk (NIdent id) s
           | TP pLBrace | TRes rDo => PStuck
           | _ => if negb suppress && is_command (p_in s)
                  then do l, s <- args_block false fl s ;; POk (NSend (NAtom aSelf) id l false) s
                  else POk (NIdent id) s
           end
  | TIvar id => POk (NIvar id) s
  | TCvar id => POk (NCvar id) s
  | TGvar id => POk (NGvar id) s
  | TConst id =>
      if trailing_lparen (p_in s)
      then do t, s <- get s ;; do l, s <- args_block true fl s ;; POk (NSend (NAtom aSelf) id l false) s
      else if negb suppress && is_command (p_in s)
      then do l, s <- args_block false fl s ;; POk (NSend (NAtom aSelf) id l false) s
      else POk (NConst id) s
  | TNum k z => POk (NNum k false z) s
  | TStr | TOther => PStuck
  | TP p =>
      match p with
      | pMinus => do t, s <- get s ;;
                  match t with TNum k z => POk (NNum k true z) s | _ => PPanic end   (* unreachable!() *)
      | pLParen => do n, s <- comp_stmt fl s ;; do t, s <- expect_rparen s ;; POk n s
      | pLBracket => do l, s <- recl (LRhs true []) (mkflags (f_sa fl) true) s ;; POk (NArray l) s
      | pLBrace | pColon | pArrow | pScope | pDiv | pRem | pQuestion | pShl => PStuck
      | _ => PErr
      end
  | TRes r =>
      match r with
      | rDefined =>
          match peek_no_term (p_in s) with
          | TP pLParen => do t, s <- get s ;; do n, s <- rec PExpr fl s ;; do t, s <- expect_rparen s ;; POk (NDefined n) s
          | _ => PErr
          end
      | rIf | rUnless | rFor | rWhile | rUntil | rCase | rDef | rClass | rModule | rReturn | rBreak | rNext
      | rBegin | rAlias | rSuper => PStuck
      | _ => PErr
      end
  | TEof | TLT => PErr
  end.

Definition body (k : nt) : flags -> pst -> pres node :=
  match k with
  | PStmt => stmt_body | PStmtL n => stmt_loop n | PExpr => expr_body | PExprL n => expr_loop n
  | PNot => not_body | PArg => arg_body | PArgAssign => arg_assign_body | PTernary => ternary_body
  | PRange => range_body | PBin l => bin_body l | PBinL l n => bin_loop l n | PEq => eq_body
  | PUMinus => uminus_body | PExp => exp_body | PUnary => unary_body | PCall => call_body
  | PCallL n => call_loop n | PPrim b => prim_body b
  end.
Definition bodyl (k : lt) : flags -> pst -> pres (list node) :=
  match k with
  | LStmts l => stmts_body l | LRhs b l => rhs_body b l | LArgs b l => args_body b l | LMlhs l => mlhs_body l
  end.
End Bodies.

(** The recursion, with fuel. *)
Fixpoint parse (n : nat) (k : nt) (fl : flags) (s : pst) : pres node :=
  match n with O => PFuel | S n' => body (parse n') (parsel n') k fl s end
with parsel (n : nat) (k : lt) (fl : flags) (s : pst) : pres (list node) :=
  match n with O => PFuel | S n' => bodyl (parse n') (parsel n') k fl s end.

(** parser.rs:61-82, 633-659: a program is statements up to the end of input *)
Definition parse_program (n : nat) (lv : list Z) (l : list item) : pres (list node) :=
  do r, s <- parsel n (LStmts []) (mkflags false false) (mkpst l lv) ;;
  match peek (p_in s) with TEof => POk r s | _ => PErr end.
