(** Statements of control: flow_control.rs:5-64 ([if], [unless], [while], [until])
    and 114-139 ([case]), with the statements between them (expression.rs:6-26).

    A statement that does not start with one of these words is read by the parser
    of ModelParse.  Not modelled ([PStuck]): such a statement as a part of an
    expression, or with something behind its [end] that goes on (a method call, an
    operator, a modifier); [for], [begin]; a block behind the condition. *)
From Coq Require Import ZArith List Bool.
From Verif Require Import Base ModelParse.
Import ListNotations.
Open Scope Z_scope.

(** node.rs:52-73, 224-228 *)
Inductive gprog : Set := GStop | GNext (x : gstm) (r : gprog)
with gstm : Set :=
| GExp (n : node)
| GIf (c : node) (t e : gprog)
| GWhile (c : node) (b : gprog) (positive : bool)
| GCase (c : option node) (w : gwhens) (e : gprog)
with gwhens : Set := GNoWhen | GWhen (vs : list node) (b : gprog) (w : gwhens).

Definition res_eq (a b : reserved) : {a = b} + {a <> b}.
Proof. decide equality. Defined.
Definition is_res (r : reserved) (t : tok) : bool :=
  match t with TRes q => if res_eq r q then true else false | _ => false end.
(** parser.rs:326-337 *)
Definition expect_reserved (r : reserved) (s : pst) : pres unit :=
  do t, s <- get s ;; if is_res r t then POk tt s else PErr.
(** parser.rs:314-324: whether there was a terminator *)
Definition consume_term (s : pst) : bool * pst :=
  if is_term (peek_no_term (p_in s)) then (true, mkpst (drop_terms (p_in s)) (p_lv s)) else (false, s).
(** parser.rs:453-460 *)
Definition parse_then (s : pst) : pres unit :=
  let '(b, s) := consume_term s in
  if b then if is_res rThen (peek (p_in s)) then do t, s <- get s ;; POk tt s else POk tt s
  else expect_reserved rThen s.
(** parser.rs:462-468 *)
Definition parse_do (s : pst) : pres unit :=
  let '(b, s) := consume_term s in if b then POk tt s else expect_reserved rDo s.
(** expression.rs:28-535: what the callers of [parse_primary] do behind [end].  At
    the end of a statement they return; a dot on a later line is a call *)
Definition statement_end (x : gstm) (s : pst) : pres gstm :=
  let t := peek_no_term (p_in s) in
  if (is_term t || check_stmt_end t) && negb (is_res rRescue t) && negb (match peek (p_in s) with TP pDot => true | _ => false end)
  then POk x s else PStuck.

Fixpoint comp (n : nat) (fl : flags) (s : pst) : pres gprog :=
  match n with
  | O => PFuel
  | S n =>
      if check_stmt_end (peek (p_in s)) then POk GStop s
      else
        do x, s <- stmt n fl s ;;
        if is_term (peek_no_term (p_in s))
        then do r, s <- comp n fl (mkpst (drop_terms (p_in s)) (p_lv s)) ;; POk (GNext x r) s
        else POk (GNext x GStop) s
  end
with stmt (n : nat) (fl : flags) (s : pst) : pres gstm :=
  match n with
  | O => PFuel
  | S n =>
      match peek (p_in s) with
      | TRes rIf =>
          do t, s <- get s ;; do x, s <- if_then n fl s ;; do u, s <- expect_reserved rEnd s ;; statement_end x s
      | TRes rUnless =>
          do t, s <- get s ;;
          do c, s <- parse n PExpr fl s ;; do u, s <- parse_then s ;; do th, s <- comp n fl s ;;
          do el, s <- (if is_res rElse (peek (p_in s)) then do t, s <- get s ;; comp n fl s else POk GStop s) ;;
          do u, s <- expect_reserved rEnd s ;; statement_end (GIf c el th) s
      | TRes rWhile =>
          do t, s <- get s ;;
          do c, s <- parse n PExpr fl s ;; do u, s <- parse_do s ;; do b, s <- comp n fl s ;;
          do u, s <- expect_reserved rEnd s ;; statement_end (GWhile c b true) s
      | TRes rUntil =>
          do t, s <- get s ;;
          do c, s <- parse n PExpr fl s ;; do u, s <- parse_do s ;; do b, s <- comp n fl s ;;
          do u, s <- expect_reserved rEnd s ;; statement_end (GWhile c b false) s
      | TRes rCase =>
          do t, s <- get s ;;
          let fl := mkflags (f_sa fl) false in
          do c, s <- (if is_res rWhen (peek (p_in s)) then POk None s else do c, s <- parse n PExpr fl s ;; POk (Some c) s) ;;
          let '(_, s) := consume_term s in
          do w, s <- whens n fl s ;;
          do el, s <- (if is_res rElse (peek (p_in s)) then do t, s <- get s ;; comp n fl s else POk GStop s) ;;
          do u, s <- expect_reserved rEnd s ;; statement_end (GCase c w el) s
      | _ => do x, s <- parse n PStmt fl s ;; POk (GExp x) s
      end
  end
(** [else_] of an [elsif] is the node of the [if] itself *)
with if_then (n : nat) (fl : flags) (s : pst) : pres gstm :=
  match n with
  | O => PFuel
  | S n =>
      do c, s <- parse n PExpr fl s ;; do u, s <- parse_then s ;; do th, s <- comp n fl s ;;
      do el, s <- (if is_res rElsif (peek (p_in s)) then do t, s <- get s ;; do x, s <- if_then n fl s ;; POk (GNext x GStop) s
                   else if is_res rElse (peek (p_in s)) then do t, s <- get s ;; comp n fl s
                   else POk GStop s) ;;
      POk (GIf c th el) s
  end
(** the values: expression.rs:157-192 without terminator *)
with whens (n : nat) (fl : flags) (s : pst) : pres gwhens :=
  match n with
  | O => PFuel
  | S n =>
      if is_res rWhen (peek (p_in s))
      then do t, s <- get s ;;
           do vs, s <- parsel n (LRhs false []) (mkflags (f_sa fl) true) s ;;
           do u, s <- parse_then s ;; do b, s <- comp n fl s ;; do w, s <- whens n fl s ;; POk (GWhen vs b w) s
      else POk GNoWhen s
  end.
(** parser.rs:61-82, 633-659 *)
Definition flow_program (n : nat) (lv : list Z) (l : list item) : pres gprog :=
  do r, s <- comp n (mkflags false false) (mkpst l lv) ;;
  match peek (p_in s) with TEof => POk r s | _ => PErr end.
