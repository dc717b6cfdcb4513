(* Vocabulary for C101, on top of that of SpecClass: ancestor lists and the
   first definition among them. *)
From Verif Require Import Base ModelArray ModelGC ModelClass ModelReflect SpecClass.

(* What a call has to start: the first definition among the ancestors with the
   arguments given, else method_missing with the name in front, else an error *)
Definition to_missing (name : Z) (a : args) : args := mkArgs (ASym name :: a_pos a) (a_block a) (a_kw a).
Definition call_means (w : world) (l : list Z) (own : bool) (name : Z) (a : args) (r : res (call * world)) : Prop :=
  match first_own w name l with
  | Some f => exists w', r = Ok (mkCall f a, w')
  | None =>
      match first_own w METHOD_MISSING l with
      | Some m => exists w', r = Ok (mkCall m (to_missing name a), w')
      | None => r = Err (if own then NameErr else NoMethodErr)
      end
  end.
(* calls whose block and keyword arguments are not lost *)
Definition plain (w : world) (l : list Z) (name : Z) (a : args) : Prop := first_own w name l <> None \/ (a_block a = None /\ a_kw a = None).
(* a symbol or a string naming a method *)
Definition names (x : arg) (name : Z) : Prop := x = ASym name \/ x = AStr name.
(* the program goes on without defining that method again *)
Inductive later site csite (c new : Z) : world -> world -> Prop :=
| lt_here w : later site csite c new w w
| lt_step w o w1 w2 : op_ok o -> (forall g, o <> Define c new g) -> runs site csite o w w1 -> later site csite c new w1 w2 -> later site csite c new w w2.
