(* Vocabulary for C113, on top of that of SpecReflect. *)
From Verif Require Import Base ModelArray ModelGC ModelClass ModelReflect ModelMethodObj SpecClass SpecReflect.

(* v.name(a) as it has to be: what call_means says, with v as the receiver *)
Definition starts (w : world) (l : list Z) (own : bool) (name : Z) (v : arg) (a : args) (r : res (arg * call * world)) : Prop :=
  match r with
  | Ok (v', k, w') => v' = v /\ call_means w l own name a (Ok (k, w'))
  | Err e => call_means w l own name a (Err e)
  | Panic => False
  end.
(* the ancestor the definition comes from *)
Definition defined_in (w : world) (name : Z) (l : list Z) (r : Z) : Prop :=
  exists p q, l = p ++ r :: q /\ first_own w name p = None /\ own_method w name r <> None.
