(** Model of literals: constant expressions that are built when code is generated and copied
    each time they are evaluated (codegen.rs, vm/iseq.rs, globals.rs ConstantValues). *)
From Coq Require Import ZArith List Bool.
Import ListNotations.

(** A value: one that cannot be changed (nil, true, false, numbers, symbols; two copies of a big
    number cannot be told apart), or a reference to an object. *)
Inductive lval : Set := VNum (w : Z) | VRef (a : nat).

(** The content of an object (rvalue.rs ObjKind).  Simplification: strings and arrays only; hash
    literals are made like arrays (codegen.rs:741-762), ranges and regexps cannot be changed.
    Addresses are places in a list that only grows. *)
Inductive cell : Set := CStr (s : list Z) | CArr (l : list lval).
Definition heap : Set := list cell.
Definition alloc (c : cell) (h : heap) : heap * lval := (h ++ [c], VRef (length h)).

(** ruruby-parse/src/node.rs:8-26: the nodes of literals.  [LVar]: any expression that is not a
    literal, here a variable of the program *)
Inductive lit : Set := LNum (w : Z) | LStr (s : list Z) | LArr (l : list lit) | LVar (i : nat).

(** node.rs:333-344 [is_const_expr] *)
Definition is_const_expr (n : lit) : bool :=
  match n with LNum _ | LStr _ => true | LArr _ | LVar _ => false end.

(** The instructions literals use: PUSH_VAL, CONST_VAL, CREATE_ARRAY, and one that reads a
    variable *)
Inductive linst : Set := IVal (w : Z) | IConst (id : nat) | ICreate (n : nat) | IGet (i : nat).

(** globals.rs:526-553: the heap and the table of ConstantValues *)
Record world : Set := mkworld { heap_of : heap; consts : list lval }.

(** codegen.rs:1777-1792 [const_expr]; arrays in constant arrays do not occur, see
    [is_const_expr] (node.rs:379) *)
Definition const_expr (n : lit) (h : heap) : heap * lval :=
  match n with
  | LNum w => (h, VNum w)
  | LStr s => alloc (CStr s) h
  | _ => (h, VNum 0)
  end.

(** codegen.rs:1805-1811 [const_array] *)
Fixpoint const_exprs (l : list lit) (h : heap) : heap * list lval :=
  match l with
  | [] => (h, [])
  | n :: l =>
      let (h, v) := const_expr n h in
      let (h, vs) := const_exprs l h in
      (h, v :: vs)
  end.
Definition const_array (l : list lit) (h : heap) : heap * lval :=
  let (h, vs) := const_exprs l h in alloc (CArr vs) h.

(** iseq.rs:211-218 [gen_const_val] with globals.rs:536-540 *)
Definition gen_const_val (v : lval) (h : heap) (w : world) : world * linst :=
  (mkworld h (consts w ++ [v]), IConst (length (consts w))).

(** codegen.rs:596-740 [gen] on literals whose value is used.  Simplification: a number that is
    not packed is also pushed directly (iseq.rs:220-236) *)
Fixpoint gen (n : lit) (w : world) : world * list linst :=
  match n with
  | LNum x => (w, [IVal x])
  | LVar i => (w, [IGet i])
  | LStr s =>
      let (h, v) := alloc (CStr s) (heap_of w) in
      let (w, i) := gen_const_val v h w in (w, [i])
  | LArr l =>
      if forallb is_const_expr l then
        match l with
        | [] => (w, [ICreate 0])
        | _ =>
            let (h, v) := const_array l (heap_of w) in
            let (w, i) := gen_const_val v h w in (w, [i])
        end
      else
        let (w, c) := (fix gens (l : list lit) (w : world) : world * list linst :=
          match l with
          | [] => (w, [])
          | n :: l =>
              let (w, c1) := gen n w in
              let (w, c2) := gens l w in (w, c1 ++ c2)
          end) l w in
        (w, c ++ [ICreate (length l)])
  end.

(** globals.rs:542-544 [ConstantValues::get] with value.rs:343-348 and rvalue.rs:560-593
    [shallow_dup]: the elements of the copy are those of the original *)
Definition shallow_dup (v : lval) (h : heap) : option (heap * lval) :=
  match v with
  | VNum w => Some (h, v)
  | VRef a => match nth_error h a with Some c => Some (alloc c h) | None => None end
  end.

(** opt_core.rs:389-405: CONST_VAL, CREATE_ARRAY (pop_args_to_array without splats); the stack
    has its top first.  [None]: outside the table or the stack. *)
Definition step (ct : list lval) (env : list lval) (i : linst) (s : heap * list lval)
  : option (heap * list lval) :=
  let (h, stk) := s in
  match i with
  | IVal w => Some (h, VNum w :: stk)
  | IGet k => match nth_error env k with Some v => Some (h, v :: stk) | None => None end
  | IConst id =>
      match nth_error ct id with
      | Some v => match shallow_dup v h with
                  | Some (h, v) => Some (h, v :: stk)
                  | None => None
                  end
      | None => None
      end
  | ICreate n =>
      if (length stk <? n)%nat then None
      else let (h, v) := alloc (CArr (rev (firstn n stk))) h in Some (h, v :: skipn n stk)
  end.

Fixpoint run (ct env : list lval) (c : list linst) (s : heap * list lval)
  : option (heap * list lval) :=
  match c with
  | [] => Some s
  | i :: c => match step ct env i s with Some s => run ct env c s | None => None end
  end.
