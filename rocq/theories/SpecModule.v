(* Vocabulary for C110. *)
From Verif Require Import Base ModelArray ModelGC ModelClass SpecClass.

(* a is an ancestor of b *)
Definition above (w : world) (a b : Z) : Prop := exists l, has_ancestors w b l /\ In a l.
(* the part of a list before the first o *)
Fixpoint before (o : Z) (l : list Z) : list Z :=
  match l with
  | [] => []
  | a :: r => if a =? o then [] else a :: before o r
  end.
