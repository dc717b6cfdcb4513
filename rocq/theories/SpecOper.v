(* Vocabulary for C114: the method of an operator, the operands that have their
   operator built in, and what a call of the method has to do. *)
From Verif Require Import Base ModelArray ModelGC ModelClass ModelReflect ModelIdent ModelOper SpecClass.
From Coq Require Import String.

Definition op_text (o : bop) : string :=
  match o with
  | OAdd => "+" | OSub => "-" | OMul => "*" | ODiv => "/" | ORem => "%" | OExp => "**" | OShl => "<<" | OShr => ">>"
  | OAnd => "&" | OOr => "|" | OXor => "^" | OCmp => "<=>" | OGe => ">=" | OGt => ">" | OLe => "<=" | OLt => "<"
  end.
(* names are read with the table of identifiers: the preset ones have fixed numbers *)
Definition ids (e : env) : Prop := forall s n, In (s, n) presets -> get_id e s = n.
(* values: integers are integers, the two booleans are themselves *)
Definition sane (e : env) : Prop :=
  ids e /\ (forall i, kd e (num e i) = KFix) /\ kd e (bool_val e true) = KTrue /\ kd e (bool_val e false) = KFalse.
Definition ordering (o : bop) : bool := match o with OGe | OGt | OLe | OLt => true | _ => false end.
Definition immediate_number (k : kind) : Prop := k = KFix \/ k = KFlo.
Definition logical (o : bop) : Prop := o = OAnd \/ o = OOr \/ o = OXor.
Definition truth_value (k : kind) : Prop := k = KTrue \/ k = KFalse \/ k = KNil.
Definition falsy (k : kind) : Prop := k = KFalse \/ k = KNil.
(* the operands whose calculation is built in *)
Definition calculated (o : bop) (kv kx : kind) : Prop :=
  match o with
  | OAdd | OSub | OMul | ODiv | OGe | OGt | OLe | OLt => immediate_number kv /\ immediate_number kx
  | ORem | OExp | OCmp => immediate_number kv \/ kv = KFloat
  | OShl => (kv = KFix /\ kx = KFix) \/ kv = KArr
  | OShr | OAnd | OOr | OXor => kv = KFix /\ kx = KFix
  end.
Definition calculation (o : bop) : prim :=
  match o with
  | OAdd => PAdd | OSub => PSub | OMul => PMul | ODiv => PDiv | ORem => PRem | OExp => PExp | OShl => PShl | OShr => PShr
  | OAnd => PAnd | OOr => POr | OXor => PXor | OCmp => PCmp | OGe => PGe | OGt => PGt | OLe => PLe | OLt => PLt
  end.
(* what the program sees of the value the method of an ordering returns *)
Definition as_truth (e : env) (r r' : res arg) : Prop :=
  match r with
  | Ok y => (falsy (kd e y) /\ r' = Ok (bool_val e false)) \/ (~ falsy (kd e y) /\ r' = Ok (bool_val e true))
  | Err x => r' = Err x
  | Panic => r' = Panic
  end.
(* the call v.name(xs) made: the method found first among the ancestors l of the
   class of v, else method_missing, else the error *)
Definition called (e : env) (w : world) (l : list Z) (name : Z) (v : arg) (xs : list arg) (calls : list (arg * call)) (r : res arg) : Prop :=
  match first_own w name l with
  | Some f => calls = [(v, mkCall f (mkArgs xs None None))] /\ r = ans e v (mkCall f (mkArgs xs None None))
  | None =>
      match first_own w METHOD_MISSING l with
      | Some m => calls = [(v, mkCall m (mkArgs (ASym name :: xs) None None))] /\ r = ans e v (mkCall m (mkArgs (ASym name :: xs) None None))
      | None => calls = [] /\ r = Err (if is_self e v then NameErr else NoMethodErr)
      end
  end.
(* a receiver of a class with the ancestors l *)
Definition of_class (e : env) (w : world) (v : arg) (l : list Z) : Prop :=
  mods w (cls e v) <> None /\ has_ancestors w (cls e v) l /\ single w (cls e v) = false.
(* two objects that == compares by a method: no pair of built-in objects of one type *)
Definition compared (kv kx : kind) : Prop :=
  ~ In kv [KFix; KFlo; KTrue; KFalse; KNil; KSym] /\ ~ In kx [KFix; KFlo; KTrue; KFalse; KNil; KSym] /\
  ~ (In kv [KBig; KFloat] /\ In kx [KBig; KFloat]) /\ ~ (kv = kx /\ In kv [KCpx; KStr; KArr; KRange; KHash; KRe; KTime]).
