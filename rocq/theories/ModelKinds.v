(* Which objects the marking of an object visits: value/rvalue.rs:448-492 and
   the implementations it calls. A value is a packed one (None) or the address of
   an object (value.rs:143-150). What a kind holds besides values is left out, and
   so are method tables, which hold no values. *)
From Verif Require Import Base.

Definition val : Set := option Z.
Fixpoint ptrs (l : list val) : list Z :=
  match l with [] => [] | Some a :: r => a :: ptrs r | None :: r => ptrs r end.

(* frame.rs:237-246: an environment with the outer ones, each its local
   variables; its receiver and block are in the words around them *)
Record env : Set := mkenv { e_self : val; e_blk : val; e_locals : list (list val) }.
Definition env_refs (e : env) : list val := concat (e_locals e).
(* value/class.rs:311-315, 671-684 *)
Inductive const_entry : Set := Autoload | Const (v : val).
Record class_info : Set := mkclass {
  upper : val;
  const_table : list (Z * const_entry);
  singleton_for : val;
  origin : val }.
(* class.rs:323-333, 688-695; Module (55-59) is a Value *)
Definition class_refs (c : class_info) : list val :=
  upper c :: map (fun p => match snd p with Const v => v | Autoload => None end) (const_table c) ++ [origin c].
(* vm/args.rs:183-199; the block is a proc object or holds no value (55-62) *)
Record args : Set := mkargs { elems : list val; kw_arg : val; block : val }.
Definition args_refs (a : args) : list val := elems a ++ [kw_arg a; block a].
(* coroutine.rs:17-79. [f_vm] is what the marking of the fiber's machine visits
   (ModelMark). *)
Inductive fiber_state : Set := Created | Running | Dead.
Inductive fiber_kind : Set := Fiber (e : env) | Enum (receiver : val) (a : args).
Record fiber_context : Set := mkfiber { state : fiber_state; f_vm : list val; f_kind : fiber_kind }.
Definition fiber_kind_refs (k : fiber_kind) : list val :=
  match k with Fiber e => env_refs e | Enum r a => r :: args_refs a end.
Definition fiber_refs (f : fiber_context) : list val :=
  match state f with Dead => [] | _ => f_vm f ++ fiber_kind_refs (f_kind f) end.

(* rvalue.rs:102-145, without INVALID: a free cell. The kinds with nothing to
   visit are one: ORDINARY, BIGNUM, FLOAT, STRING, REGEXP, TIME, EXCEPTION. *)
Inductive kind : Set :=
  | Plain
  | Complex (r i : val)
  | Module (c : class_info)
  | Array (l : list val)
  | Hash (l : list (val * val))
  | Range (first last : val)
  | Splat (v : val)
  | Proc (self : val) (outer : env)
  | Method (receiver : val) (owner : val)      (* an unbound method has no receiver *)
  | FiberObj (f : fiber_context)               (* FIBER, ENUMERATOR *)
  | Binding (e : env).
Record robj : Set := mkrobj { klass : val; var_table : option (list (Z * val)); kd : kind }.
(* rvalue.rs:453-490; array.rs:112-116, hash.rs:212-219, procobj.rs:20-25,
   globals/method.rs:619-625 *)
Definition kind_refs (k : kind) : list val :=
  match k with
  | Plain => []
  | Complex r i => [r; i]
  | Module c => class_refs c
  | Array l => l
  | Hash l => flat_map (fun p => [fst p; snd p]) l
  | Range a b => [a; b]
  | Splat v => [v]
  | Proc s e => s :: env_refs e
  | Method r _ => [r]
  | FiberObj f => fiber_refs f
  | Binding e => env_refs e
  end.
Definition obj_refs (o : robj) : list Z :=
  ptrs (klass o :: match var_table o with Some t => map snd t | None => [] end ++ kind_refs (kd o)).

(* globals.rs:13-35. [g_vm]: what the marking of the main fiber's machine
   visits. [g_builtins]: the classes of packed values and of the objects that the
   interpreter makes itself (globals.rs:481-490, builtin.rs:43-45). *)
Record globals : Set := mkglobals {
  const_values : list val;
  main_object : val;
  global_var : list (Z * val);
  case_keys : list val;
  g_vm : list val;
  g_val : val;
  g_builtins : list val }.
(* globals.rs:39-52 *)
Definition globals_refs (g : globals) : list Z :=
  ptrs (const_values g ++ [main_object g] ++ map snd (global_var g) ++ case_keys g ++ g_vm g ++ [g_val g]).
