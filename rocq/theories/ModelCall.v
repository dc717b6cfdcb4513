(** Argument lists: how the parser collects them and what the code generator makes of
    calls, yield and super with them, as trees of [ModelCodegen].

    Not modelled: blocks written after a call (they are compiled to a sequence of their own, and
    may change the variables of the frame), [=>] in argument lists (an argument that is a hash),
    super without an argument list, which reads the parameters of the frame. *)
From Coq Require Import ZArith List Bool.
From Verif Require Import Base ModelValue ModelInst ModelCodegen.
Import ListNotations.
Open Scope Z_scope.

(** An argument as it is written: [x], [*x], [k: x], [**x], [&x], [...] *)
Inductive arg : Set :=
| APos (n : node) | ASplat (n : node) | AKey (id : Z) (n : node) | AHash (n : node)
| ABlock (n : node) | ADelegate.

(** node.rs:187-199 [ArgList] *)
Record arglist : Set := mkargs {
  al_args : list node;
  al_kw : list (Z * node);
  al_hash : list node;
  al_block : option node;
  al_delegate : bool
}.

(** expression.rs:826-895, one round of the loop; after [&x] a comma is an error (888-890) *)
Definition add_arg (a : arg) (l : arglist) : res arglist :=
  let '(mkargs args kw hs b d) := l in
  match b with
  | Some _ => Err OtherErr
  | None =>
      Ok match a with
         | APos n => mkargs (args ++ [n]) kw hs b d
         | ASplat n => mkargs (args ++ [NOp bSplat [n]]) kw hs b d
         | AKey id n => mkargs args (kw ++ [(id, n)]) hs b d
         | AHash n => mkargs args kw (hs ++ [n]) b d
         | ABlock n => mkargs args kw hs (Some n) d
         | ADelegate => mkargs args kw hs b true
         end
  end.
Fixpoint collect (l : list arg) (acc : arglist) : res arglist :=
  match l with
  | [] => Ok acc
  | a :: r => acc <- add_arg a acc ;; collect r acc
  end.
(** expression.rs:823-898 [parse_arglist] *)
Definition parse_args (l : list arg) : res arglist := collect l (mkargs [] [] [] None false).

(** node.rs:727-729 *)
Definition is_splat (n : node) : bool := match n with NOp bSplat _ => true | _ => false end.

Definition kw_nodes (kw : list (Z * node)) : list node :=
  flat_map (fun p => [NSym (fst p); snd p]) kw.
Definition opt_list {A} (o : option A) : list A := match o with Some x => [x] | None => [] end.

(** send.rs:16-77 [gen_send].  The instructions for the keyword arguments (42-48) are those
    of a hash literal, the ones for [**] (50-55) those of an array literal. *)
Definition call_tree (r : node) (id : Z) (l : arglist) (safe : bool) : node :=
  let kw := negb (length (al_kw l) =? 0)%nat in
  let hs := negb (length (al_hash l) =? 0)%nat in
  let splat := existsb is_splat (al_args l) in
  let amp := match al_block l with Some _ => true | None => false end in
  if negb amp && negb kw && negb splat && negb hs && negb (al_delegate l)
  then NSend r id (al_args l) safe
  else NOp (bCall id (Z.of_nat (length (al_args l))) kw amp (al_delegate l) hs splat)
         (r :: al_args l
          ++ (if kw then [NOp bHash (kw_nodes (al_kw l))] else [])
          ++ (if hs then [NArray (al_hash l)] else [])
          ++ opt_list (al_block l)).

(** codegen.rs:1373-1382 *)
Definition yield_tree (l : arglist) : node := NOp bYield (al_args l).

(** codegen.rs:1383-1405 with an argument list; 499-502 and 1395-1397: [unreachable!] *)
Definition super_tree (l : arglist) : res node :=
  match al_block l with
  | Some _ => Panic
  | None => Ok (NOp bSuper (NSelf :: al_args l))
  end.
