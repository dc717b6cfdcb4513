(* Errors: raise, the exception classes, and which rescue clause takes an error.
   builtin/kernel.rs, builtin/exception.rs, builtin/math.rs, globals.rs,
   vm/executor.rs, codegen.rs, ruruby-common/src/error.rs.
   Classes live in the class worlds of ModelClass. Not modelled: back traces
   (err.info), the texts of the errors that raise and new report themselves
   (empty here), a user-defined initialize of an exception class, the expressions
   of the class lists (here already evaluated). *)
From Coq Require Import String Ascii.
From Verif Require Import Base ModelText ModelClass.
Local Open Scope Z_scope.

(* a literal of the program text *)
Definition text (s : string) : chars := map (fun c => Z.of_nat (nat_of_ascii c)) (list_ascii_of_string s).

(* the constants of exception.rs:3-69, and Math, DomainError (math.rs:3-11);
   LoadError and RangeError are only looked up (globals.rs:241, 259) *)
Inductive cname : Type :=
| NException | NStandardError | NArgumentError | NIndexError | NRegexpError | NTypeError | NFiberError
| NNameError | NNoMethodError | NZeroDivisionError | NStopIteration | NLocalJumpError | NRuntimeError | NFrozenError
| NScriptError | NSyntaxError | NSystemExit | NMath | NDomainError | NLoadError | NRangeError.
(* IdentId of the name *)
Definition cid (n : cname) : Z :=
  match n with
  | NException => 501 | NStandardError => 502 | NArgumentError => 503 | NIndexError => 504 | NRegexpError => 505
  | NTypeError => 506 | NFiberError => 507 | NNameError => 508 | NNoMethodError => 509 | NZeroDivisionError => 510
  | NStopIteration => 511 | NLocalJumpError => 512 | NRuntimeError => 513 | NFrozenError => 514 | NScriptError => 515
  | NSyntaxError => 516 | NSystemExit => 517 | NMath => 518 | NDomainError => 519 | NLoadError => 520 | NRangeError => 521
  end.

(* Object; BuiltinClass::exception and ::standard are the addresses the boot gives *)
Definition OBJECT : Z := 8.
Definition EXCEPTION : Z := 9.
Definition STANDARD : Z := 10.
Definition NAME_ERROR : Z := 16.
Definition RUNTIME : Z := 21.
Definition SCRIPT : Z := 23.
Definition MATH : Z := 26.
(* exception.rs:3-69 and math.rs:3-13: a class under another, then its constant.
   Only the classes of the errors are made, in the order of exception.rs; the
   other classes of the boot are left out (BasicObject too). *)
Definition under (sup a : Z) (n : cname) : list op := [NewClass (Some sup) OBJECT; SetConst OBJECT (cid n) a].
Definition boot : list op :=
  [NewClass None OBJECT]
  ++ under OBJECT EXCEPTION NException
  ++ under EXCEPTION STANDARD NStandardError
  ++ under STANDARD 11 NArgumentError
  ++ under STANDARD 12 NIndexError
  ++ under STANDARD 13 NRegexpError
  ++ under STANDARD 14 NTypeError
  ++ under STANDARD 15 NFiberError
  ++ under STANDARD NAME_ERROR NNameError
  ++ under NAME_ERROR 17 NNoMethodError
  ++ under STANDARD 18 NZeroDivisionError
  ++ under STANDARD 19 NStopIteration
  ++ under STANDARD 20 NLocalJumpError
  ++ under STANDARD RUNTIME NRuntimeError
  ++ under RUNTIME 22 NFrozenError
  ++ under EXCEPTION SCRIPT NScriptError
  ++ under SCRIPT 24 NSyntaxError
  ++ under EXCEPTION 25 NSystemExit
  ++ under OBJECT MATH NMath
  ++ [NewClass (Some STANDARD) OBJECT; SetConst MATH (cid NDomainError) 27].

(* error.rs:56-71 RuntimeErrKind *)
Inductive ekind : Type :=
| KName | KNoMethod | KArgument | KIndex | KType | KRegexp | KFiber | KLocalJump | KStopIteration | KRuntime | KLoadError | KRange | KZeroDivision | KDomainError.
(* error.rs:25-38 RubyErrorKind *)
Inductive errkind : Type :=
| ParseErr (eof : bool) (m : chars)
| RuntimeErr (k : ekind) (m : chars)
| Exception_ | MethodReturn | BlockReturn
| SystemExit_ (code : Z)
| Internal (m : chars)
| None_ (m : chars).
(* values, as far as raise and rescue look at them: a class; an exception object
   (ObjKind::EXCEPTION) with its id, its class field and its @message; a String
   with its class field; anything else, a module included *)
Inductive evalue : Type :=
| EClass (a : Z)
| EExc (id cls : Z) (m : chars)
| EStr (id cls : Z) (s : chars)
| EOther (id cls : Z).

(* error.rs:73-90 Debug for RuntimeErrKind *)
Definition kind_name (k : ekind) : chars :=
  text match k with
  | KName => "NameError" | KNoMethod => "NoMethodError" | KArgument => "ArgumentError" | KIndex => "IndexError"
  | KType => "TypeError" | KRegexp => "RegexpError" | KFiber => "FiberError" | KLocalJump => "LocalJumpError"
  | KStopIteration => "StopIteration" | KRuntime => "Runtime" | KLoadError => "LoadError" | KRange => "RangeError"
  | KZeroDivision => "ZeroDivisionError" | KDomainError => "Math::DomainError"
  end.
(* error.rs:149-166 message *)
Definition err_message (e : errkind) : chars :=
  match e with
  | ParseErr true _ => text "SyntaxError (Unexpected EOF)"
  | ParseErr false n => text "SyntaxError (" ++ n ++ text ")"
  | RuntimeErr k m => kind_name k ++ text " (" ++ m ++ text ")"
  | MethodReturn => text "LocalJumpError"
  | BlockReturn => text "LocalJumpError"
  | Exception_ => text "Exception"
  | SystemExit_ _ => text "SystemExit"
  | None_ m => m
  | Internal m => text "InternalError" ++ [10] ++ m
  end%list.

(* constants.rs:54-61 get_toplevel_constant; None is unreachable! *)
Definition get_toplevel_constant (w : world) (n : cname) : res Z :=
  r <- get_const w OBJECT (cid n) ;;
  match r with Some v => Ok v | None => Panic end.
(* rvalue.rs:764-775 new_exception: @message is message() of the error; id is
   the new cell *)
Definition new_exception (id cls : Z) (e : errkind) : evalue := EExc id cls (err_message e).
(* globals.rs:215-302 from_exception *)
Definition from_exception (w : world) (id : Z) (e : errkind) : res (option evalue) :=
  match e with
  | Exception_ => Ok None
  | ParseErr _ _ => c <- get_toplevel_constant w NSyntaxError ;; Ok (Some (new_exception id c e))
  | RuntimeErr k _ =>
      c <- match k with
           | KType => get_toplevel_constant w NTypeError
           | KArgument => get_toplevel_constant w NArgumentError
           | KNoMethod => get_toplevel_constant w NNoMethodError
           | KRuntime => get_toplevel_constant w NRuntimeError
           | KLoadError => get_toplevel_constant w NLoadError
           | KStopIteration => get_toplevel_constant w NStopIteration
           | KName => get_toplevel_constant w NNameError
           | KZeroDivision => get_toplevel_constant w NZeroDivisionError
           | KRange => get_toplevel_constant w NRangeError
           | KIndex => get_toplevel_constant w NIndexError
           | KRegexp => get_toplevel_constant w NRegexpError
           | KFiber => get_toplevel_constant w NFiberError
           | KLocalJump => get_toplevel_constant w NLocalJumpError
           | KDomainError =>
               math <- get_toplevel_constant w NMath ;;
               r <- get_const w math (cid NDomainError) ;;
               match r with Some v => Ok v | None => Panic end
           end ;;
      Ok (Some (new_exception id c e))
  | MethodReturn | BlockReturn => c <- get_toplevel_constant w NLocalJumpError ;; Ok (Some (new_exception id c e))
  | SystemExit_ _ => c <- get_toplevel_constant w NSystemExit ;; Ok (Some (new_exception id c e))
  | Internal _ | None_ _ => Ok (Some (new_exception id STANDARD e))
  end.

(* value.rs:451-464 is_exception_class *)
Fixpoint is_exception_class (w : world) (fuel : nat) (a : Z) : res bool :=
  match fuel with
  | O => Panic
  | S n =>
      if a =? EXCEPTION then Ok true
      else
        s <- superclass w fuel a ;;
        match s with None => Ok false | Some b => is_exception_class w n b end
  end.
(* exception.rs:75-89 exception_new: name is the name of the class. The Err side
   of the sum is an error on its way, with what globals.val is then *)
Definition rerr : Type := errkind * evalue.
Definition exception_new (id cls : Z) (name : chars) (args : list evalue) (gval : evalue) : evalue + rerr :=
  match args with
  | [] => inl (new_exception id cls (None_ name))
  | [EStr _ _ s] => inl (new_exception id cls (None_ s))
  | [_] => inr (RuntimeErr KType [], gval)
  | _ => inr (RuntimeErr KArgument [], gval)
  end.
(* kernel.rs:214-239 raise: new is what calling C.new does (exception_new, if
   the program has no new of its own); gval is globals.val *)
Definition raise (w : world) (fuel : nat) (new : Z -> evalue + rerr) (args : list evalue) (gval : evalue) : res rerr :=
  match args with
  | [] => Ok (None_ [], gval)
  | [a] =>
      match a with
      | EStr _ _ s => Ok (None_ s, gval)
      | EClass c =>
          b <- is_exception_class w fuel c ;;
          if b then match new c with inl v => Ok (Exception_, v) | inr e => Ok e end
          else Ok (RuntimeErr KType [], gval)
      | EExc _ _ _ => Ok (Exception_, a)
      | EOther _ _ => Ok (RuntimeErr KType [], gval)
      end
  | [_; EStr _ _ s] => Ok (None_ s, gval)
  | [_; _] => Ok (RuntimeErr KType [], gval)
  | _ => Ok (RuntimeErr KArgument [], gval)
  end.

(* rvalue.rs:805-814 real_class: the first class that is not a singleton *)
Fixpoint real_class (w : world) (fuel : nat) (c : Z) : res Z :=
  match fuel with
  | O => Panic
  | S n =>
      m <- get_mod w c ;;
      if is_singleton (exts w (m_ext m)) then
        s <- superclass w fuel c ;;
        match s with Some b => real_class w n b | None => Panic end
      else Ok c
  end.
(* an element of a class list: a value (by its id), or a splatted array *)
Inductive exarg : Type := One (a : Z) | Splat (l : list Z).
Definition has_id (x : exarg) (a : Z) : bool :=
  match x with One b => b =? a | Splat l => existsb (fun b => b =? a) l end.
(* executor.rs:631-659 eval_rescue *)
Fixpoint rescue_walk (w : world) (fuel : nat) (a : Z) (exs : list exarg) : res bool :=
  match fuel with
  | O => Panic
  | S n =>
      m <- get_mod w a ;;
      if negb (is_module m) && existsb (fun x => has_id x a) exs then Ok true
      else
        u <- upper w fuel a ;;
        match u with None => Ok false | Some b => rescue_walk w n b exs end
  end.
Definition eval_rescue (w : world) (fuel : nat) (v : evalue) (exs : list exarg) : res bool :=
  a <- match v with EClass a => Ok a | EExc _ c _ | EStr _ c _ | EOther _ c => real_class w fuel c end ;;
  rescue_walk w fuel a exs.

(* codegen.rs:1057-1101: the clauses are tried in order, an empty class list
   stands for StandardError (read from Object at that time, 1079-1080); when none
   takes the error it is thrown again (opt_core.rs:159-164). The result is the
   number of the clause that runs. *)
Fixpoint clauses (w : world) (fuel : nat) (v : evalue) (cs : list (list exarg)) : res (option nat) :=
  match cs with
  | [] => Ok None
  | c :: r =>
      exs <- match c with
             | [] => s <- get_toplevel_constant w NStandardError ;; Ok [One s]
             | _ => Ok c
             end ;;
      b <- eval_rescue w fuel v exs ;;
      if b then Ok (Some O) else k <- clauses w fuel v r ;; Ok (option_map S k)
  end.
(* executor.rs:424-453: an error arrives at a begin with rescue clauses (MethodReturn
   and BlockReturn do not come here: 395-420). id is the cell of the exception
   object, if one has to be made. Internal errors end the process (431-435) *)
Inductive handled : Type := Clause (k : nat) (v : evalue) | Rethrown (e : errkind) (gval : evalue).
Definition handle (w : world) (fuel : nat) (id : Z) (e : rerr) (cs : list (list exarg)) : res handled :=
  match fst e with
  | Internal _ => Panic
  | _ =>
      o <- from_exception w id (fst e) ;;
      let v := match o with Some v => v | None => snd e end in
      k <- clauses w fuel v cs ;;
      match k with Some i => Ok (Clause i v) | None => Ok (Rethrown Exception_ v) end
  end.
