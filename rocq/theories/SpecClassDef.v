(* Vocabulary for C109. *)
From Verif Require Import Base ModelArray ModelGC ModelClass SpecClass.

(* what a program may do afterwards *)
Inductive later (site : Z -> Z) csite (P : op -> Prop) : world -> world -> Prop :=
| l_now w : later site csite P w w
| l_then w w1 o w2 : later site csite P w w1 -> P o -> op_ok o -> runs site csite o w1 w2 -> later site csite P w w2.
Definition any_op (o : op) : Prop := True.
(* the constant id of cur is not assigned *)
Definition leaves (cur id : Z) (o : op) : Prop := forall v, o <> SetConst cur id v.

(* a class and not a module; a module and not a class *)
Definition is_class_of (w : world) (s : Z) : Prop := exists m, mods w s = Some m /\ is_module m = false /\ included m = false.
Definition is_module_of (w : world) (s : Z) : Prop := exists m, mods w s = Some m /\ is_module m = true /\ included m = false.

(* the rest of the class graph is as before *)
Definition rest_same (w w' : world) : Prop :=
  (forall n x, mods w x <> None -> own_method w' n x = own_method w n x) /\
  (forall x l, mods w x <> None -> has_ancestors w x l -> has_ancestors w' x l).
(* c is new, without methods and constants, and the constant id of k is c: no
   other constant changed *)
Definition named_new (w w' : world) (k id c : Z) : Prop :=
  mods w c = None /\ (forall n, own_method w' n c = None) /\ (forall n, own_const w' n c = None) /\ own_const w' id k = Some c /\
  (forall i x, user_mod w x = true -> (i, x) <> (id, k) -> own_const w' i x = own_const w i x).
