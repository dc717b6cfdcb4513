(* What raise and rescue should do. *)
From Coq Require Import String Ascii.
From Verif Require Import Base ModelText ModelClass SpecClass ModelRaise.
Local Open Scope Z_scope.

(* t is written in the class list of a clause, or in an array splatted there *)
Definition listed (exs : list exarg) (t : Z) : Prop := In (One t) exs \/ exists l, In (Splat l) exs /\ In t l.
(* no class of the list has had a module prepended, nor is it a module *)
Definition plain_list (w : world) (exs : list exarg) : Prop :=
  forall t, listed exs t -> mods w t <> None -> user_mod w t = true /\ module_p w t = false /\ prepended w t = false.
(* an ancestor of c (c itself included) is listed: what Module#=== of the listed
   classes says about an object of class c *)
Definition takes (w : world) (exs : list exarg) (c : Z) : Prop := exists t l, has_ancestors w c l /\ In t l /\ listed exs t.
(* the class of a value that is not itself a class, without singleton classes *)
Definition class_field (v : evalue) : Z := match v with EClass a => a | EExc _ c _ => c | EStr _ c _ => c | EOther _ c => c end.
Inductive plain_class (w : world) : Z -> Z -> Prop :=
| p_here c : mods w c <> None -> single w c = false -> plain_class w c c
| p_up c s r : mods w c <> None -> single w c = true -> eventually (fun f => superclass w f c = Ok (Some s)) -> plain_class w s r -> plain_class w c r.
Definition class_of (w : world) (v : evalue) (c : Z) : Prop := (forall a, v <> EClass a) /\ plain_class w (class_field v) c.

(* Ruby's exception classes: the superclass of each *)
Definition ruby_super (n : cname) : option cname :=
  match n with
  | NException | NMath => None
  | NStandardError | NScriptError | NSystemExit => Some NException
  | NNoMethodError => Some NNameError
  | NFrozenError => Some NRuntimeError
  | NSyntaxError | NLoadError => Some NScriptError
  | NStopIteration => Some NIndexError
  | NDomainError => Some NArgumentError
  | NArgumentError | NIndexError | NRegexpError | NTypeError | NFiberError | NNameError | NZeroDivisionError | NLocalJumpError | NRuntimeError | NRangeError => Some NStandardError
  end.
Inductive ruby_kind_of : cname -> cname -> Prop :=
| rk_refl n : ruby_kind_of n n
| rk_step n m k : ruby_super n = Some m -> ruby_kind_of m k -> ruby_kind_of n k.
(* the class of the errors the interpreter itself raises *)
Definition ruby_class (k : ekind) : cname :=
  match k with
  | KName => NNameError | KNoMethod => NNoMethodError | KArgument => NArgumentError | KIndex => NIndexError | KType => NTypeError
  | KRegexp => NRegexpError | KFiber => NFiberError | KLocalJump => NLocalJumpError | KStopIteration => NStopIteration | KRuntime => NRuntimeError
  | KLoadError => NLoadError | KRange => NRangeError | KZeroDivision => NZeroDivisionError | KDomainError => NDomainError
  end.

(* what a program can have done after the boot without giving the constants of
   the exception classes new values *)
Definition keeps (o : op) : Prop := match o with SetConst c i _ => c = OBJECT \/ c = MATH -> forall n, i <> cid n | _ => True end.
Inductive runs_all site csite : list op -> world -> world -> Prop :=
| r_nil w : runs_all site csite [] w w
| r_cons o l w w1 w2 : runs site csite o w w1 -> runs_all site csite l w1 w2 -> runs_all site csite (o :: l) w w2.
Inductive after_boot site csite : world -> Prop :=
| a_boot w : runs_all site csite boot world0 w -> after_boot site csite w
| a_step w o w' : after_boot site csite w -> op_ok o -> keeps o -> runs site csite o w w' -> after_boot site csite w'.
(* the class a constant names *)
Definition named (w : world) (n : cname) (c : Z) : Prop :=
  match n with
  | NDomainError => exists m, own_const w (cid NMath) OBJECT = Some m /\ own_const w (cid NDomainError) m = Some c
  | _ => own_const w (cid n) OBJECT = Some c
  end.
(* the first clause that takes the error, if any *)
Inductive first_taking (w : world) (std c : Z) : list (list exarg) -> option nat -> Prop :=
| f_none : first_taking w std c [] None
| f_here x r : takes w (match x with [] => [One std] | _ => x end) c -> first_taking w std c (x :: r) (Some O)
| f_later x r k : ~ takes w (match x with [] => [One std] | _ => x end) c -> first_taking w std c r k -> first_taking w std c (x :: r) (option_map S k).
(* the class of an error that does not come from raise, and those four kinds for
   which the program has no class, or one in another place *)
Definition error_class (e : errkind) : option cname :=
  match e with
  | ParseErr _ _ => Some NSyntaxError
  | RuntimeErr k _ => Some (ruby_class k)
  | SystemExit_ _ => Some NSystemExit
  | _ => None
  end.
Definition placed (n : cname) : Prop := n <> NLoadError /\ n <> NRangeError /\ n <> NStopIteration /\ n <> NDomainError.
(* e.message *)
Definition message_of (v : evalue) : option chars := match v with EExc _ _ m => Some m | _ => None end.
