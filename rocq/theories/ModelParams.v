(** Formal parameters of methods, blocks and lambdas: parser.rs:470-622
    [parse_formal_params], define.rs:155-169 [parse_def_params], parser.rs:391-396
    (blocks), literals.rs:258-267 (lambdas).

    The default of a parameter is read by the parser of ModelParse.  [p_lv] holds
    the local variables of the enclosing scopes, then those of the scope of the
    parameters; [k] is the number of the former.  Not modelled: positions, and a
    token that the lexer cannot read ([loc] unwraps it, parser.rs:220-222). *)
From Coq Require Import ZArith List Bool.
From Verif Require Import Base ModelParse.
Import ListNotations.
Open Scope Z_scope.

(** node.rs:174-185 *)
Inductive param : Set :=
| FReq (id : Z) | FPost (id : Z) | FOpt (id : Z) (d : node) | FRest (id : Z) | FRestNone
| FKey (id : Z) (d : option node) | FKwRest (id : Z) | FBlock (id : Z) | FDelegate.
(** parser.rs:476-484 *)
Inductive kind : Set := kReq | kOpt | kRest | kPost | kKey | kKwRest.
(** the terminator: a parenthesis, a bar or none *)
Inductive closing : Set := cParen | cBar | cNone.
Definition is_close (c : closing) (t : tok) : bool :=
  match c, t with cParen, TP pRParen => true | cBar, TP pBitOr => true | _, _ => false end.
(** the name ["..."] (lvar_collector.rs:122-126) *)
Definition id_dots : Z := -1.
(** [state >= Kind::Rest] *)
Definition from_rest (st : kind) : bool := match st with kReq | kOpt => false | _ => true end.

(** parser.rs:353-358 *)
Definition expect_ident (s : pst) : pres Z :=
  do t, s <- get s ;; match t with TIdent id => POk id s | _ => PErr end.
(** parser.rs:340-348 *)
Definition expect_close (c : closing) (s : pst) : pres unit :=
  match c with
  | cNone => POk tt s
  | _ => do t, s <- get s ;; if is_close c t then POk tt s else PErr
  end.

Section Params.
Variable arg : pst -> pres node.
Variable c : closing.
Variable k : nat.
(** parser.rs:133-170, lvar_collector.rs:92-126 *)
Definition new_param (id : Z) (s : pst) : pres unit :=
  if existsb (Z.eqb id) (skipn k (p_lv s)) then PErr else POk tt (mkpst (p_in s) (p_lv s ++ [id])).
(** parser.rs:565-580: the default of a keyword parameter *)
Definition key_default (s : pst) : pres (option node) :=
  let next := peek_no_term (p_in s) in
  match next with
  | TP pComma | TLT => POk None s
  | _ => if is_close c next then POk None s else do n, s <- arg s ;; POk (Some n) s
  end.
(** parser.rs:494-613, one round: the parameter, the state after it, and whether
    the loop is left *)
Definition plain (id : Z) (st : kind) (s : pst) : pres (param * kind * bool) :=
  match peek_no_term (p_in s) with
  | TP pColon =>
      do t, s <- get s ;; do d, s <- key_default s ;;
      match st with
      | kKwRest => PErr
      | _ => do u, s <- new_param id s ;; POk (FKey id d, kKey, false) s
      end
  | _ =>
      match st with
      | kReq => do u, s <- new_param id s ;; POk (FReq id, kReq, false) s
      | kPost | kOpt | kRest => do u, s <- new_param id s ;; POk (FPost id, kPost, false) s
      | _ => PErr
      end
  end.
Definition ident_param (st : kind) (s : pst) : pres (param * kind * bool) :=
  do id, s <- expect_ident s ;;
  match peek (p_in s) with
  | TP pAssign =>
      do t, s <- get s ;; do d, s <- arg s ;;
      match st with
      | kReq | kOpt => do u, s <- new_param id s ;; POk (FOpt id d, kOpt, false) s
      | _ => PErr
      end
  | _ => plain id st s
  end.
Definition one_param (st : kind) (s : pst) : pres (param * kind * bool) :=
  match peek (p_in s) with
  | TP pRange3 =>
      do t, s <- get s ;;
      match st with
      | kReq => do u, s <- new_param id_dots s ;; POk (FDelegate, st, true) s
      | _ => PErr
      end
  | TP pBitAnd =>
      do t, s <- get s ;; do id, s <- expect_ident s ;; do u, s <- new_param id s ;; POk (FBlock id, st, true) s
  | TP pMul =>
      do t, s <- get s ;;
      if from_rest st then PErr
      else match peek (p_in s) with
           | TIdent _ => do id, s <- expect_ident s ;; do u, s <- new_param id s ;; POk (FRest id, kRest, false) s
           | _ => POk (FRestNone, kRest, false) s
           end
  | TP pDMul =>
      do t, s <- get s ;; do id, s <- expect_ident s ;;
      match st with
      | kKwRest => PErr
      | _ => do u, s <- new_param id s ;; POk (FKwRest id, kKwRest, false) s
      end
  | _ => ident_param st s
  end.
(** the loop, with fuel *)
Fixpoint params_loop (n : nat) (st : kind) (acc : list param) (s : pst) : pres (list param) :=
  match n with
  | O => PFuel
  | S n' =>
      do r, s <- one_param st s ;;
      let '(p, st', stop) := r in
      if stop then POk (acc ++ [p]) s
      else match peek_no_term (p_in s) with
           | TP pComma => do t, s <- get s ;; params_loop n' st' (acc ++ [p]) s
           | _ => POk (acc ++ [p]) s
           end
  end.
Definition formal_params (n : nat) (s : pst) : pres (list param) :=
  if is_close c (peek (p_in s)) then do t, s <- get s ;; POk [] s
  else do l, s <- params_loop n kReq [] s ;; do u, s <- expect_close c s ;; POk l s.
End Params.

(** parser.rs:470-622; [parse_arg] is [PArg] of ModelParse *)
Definition parse_params (n : nat) (c : closing) (k : nat) (fl : flags) (s : pst) : pres (list param) :=
  formal_params (parse n PArg fl) c k n s.
(** define.rs:155-169: the parameters of [def], from behind the name; a new scope *)
Definition def_params (n : nat) (fl : flags) (l : list item) : pres (list param) :=
  let s := mkpst l [] in
  if is_term (peek_no_term l) then POk [] (mkpst (drop_terms l) [])
  else
    match peek l with
    | TP pLParen =>
        do t, s <- get s ;; do ps, s <- parse_params n cParen 0 fl s ;; POk ps (mkpst (drop_terms (p_in s)) (p_lv s))
    | _ => do ps, s <- parse_params n cNone 0 fl s ;; POk ps (mkpst (drop_terms (p_in s)) (p_lv s))
    end.
(** parser.rs:391-396: the parameters of a block, from behind [do] or the brace *)
Definition block_params (n : nat) (fl : flags) (s : pst) : pres (list param) :=
  match peek (p_in s) with
  | TP pBitOr => do t, s <- get s ;; parse_params n cBar (length (p_lv s)) fl s
  | TP pLOr => do t, s <- get s ;; POk [] s
  | _ => POk [] s
  end.
