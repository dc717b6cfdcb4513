(** Lexical scope, independently of parser and code generator. *)
From Coq Require Import ZArith List Bool.
From Verif Require Import Base ModelCodegen ModelScope.
Import ListNotations.
Open Scope Z_scope.

(** [x] stands at place [k] of the table and at none before it. *)
Definition first_at (x : Z) (t : list Z) (k : nat) : Prop :=
  nth_error t k = Some x /\ forall j, (j < k)%nat -> nth_error t j <> Some x.

(** In a chain of frames, innermost first, [x] denotes slot [k] of frame [d]:
    no frame further in has a variable of that name. *)
Definition denotes (frames : list (list Z)) (x : Z) (d k : nat) : Prop :=
  exists t, nth_error frames d = Some t /\ first_at x t k /\
  forall e u, (e < d)%nat -> nth_error frames e = Some u -> ~ In x u.

(** Blocks and [for] bodies see the variables around them; a [def], a class body
    and a program do not *)
Definition sees_out (k : pkind) : bool :=
  match k with KEval | KClass | KMethodDef => false | KBlk | KFor => true end.
(** The frames code in the innermost context can see *)
Fixpoint visible (stk : list pctx) (ext : list (list Z)) : list (list Z) :=
  match stk with
  | [] => ext
  | c :: r => pc_table c :: if sees_out (pc_kind c) then visible r ext else []
  end.
