(* Method objects, symbols as blocks and module_function: builtin/method.rs,
   builtin/unbound_method.rs, builtin/symbol.rs (to_proc), builtin/object.rs
   (method), builtin/module.rs (instance_method, module_function).
   On the worlds of ModelClass and the arguments of ModelReflect: a value is an
   argument, its class (get_class_for_method, globals.rs:130) is given beside
   it, fid numbers the definitions of methods. What a call comes to is a
   receiver and a method started with arguments.
   Not modelled: the memory of Method objects and their inspect. *)
From Verif Require Import Base ModelArray ModelGC ModelClass ModelReflect.

(* globals/method.rs:580-586 MethodObjInfo *)
Record mobj : Type := mkMobj { mo_name : Z; mo_recv : option arg; mo_fid : Z; mo_owner : Z }.
(* globals/method.rs:600-607 new, 609-616 new_unbound *)
Definition new_bound (name : Z) (recv : arg) (fid owner : Z) : mobj := mkMobj name (Some recv) fid owner.
Definition new_unbound (name fid owner : Z) : mobj := mkMobj name None fid owner.

(* object.rs:110-129 method: v has class c *)
Definition obj_method (w : world) (fuel : nat) (c : Z) (v x : arg) : res mobj :=
  match x with
  | ASym name =>
      r <- search_method w fuel name c ;;
      match r with
      | Some (fid, owner) => Ok (new_bound name v fid owner)
      | None => Err NameErr
      end
  | _ => Err TypeErr
  end.
(* module.rs:266-280 instance_method; ModelReflect.instance_method gives the
   definition and the owner *)
Definition module_instance_method (w : world) (fuel : nat) (c : Z) (x : arg) : res mobj :=
  name <- expect_name x ;;
  r <- instance_method w fuel c x ;;
  Ok (new_unbound name (fst r) (snd r)).

(* method.rs:13-18 call and []; executor/method.rs:286-298 eval_method_range *)
Definition method_call (m : mobj) (a : args) : res (arg * call) :=
  match mo_recv m with
  | Some v => Ok (v, mkCall (mo_fid m) a)
  | None => Panic
  end.
(* method.rs:20-25 unbind *)
Definition method_unbind (m : mobj) : mobj := new_unbound (mo_name m) (mo_fid m) (mo_owner m).
(* method.rs:27-32, unbound_method.rs:46-51 owner *)
Definition method_owner (m : mobj) : Z := mo_owner m.
(* unbound_method.rs:14-19 bind *)
Definition unbound_bind (m : mobj) (a : args) : res mobj :=
  match a_pos a with
  | [v] => Ok (new_bound (mo_name m) v (mo_fid m) (mo_owner m))
  | _ => Err ArgErr
  end.
(* unbound_method.rs:21-30 bind_call: new arguments of the right number *)
Definition unbound_bind_call (m : mobj) (a : args) : res (arg * call) :=
  match a_pos a with
  | v :: rest => Ok (v, mkCall (mo_fid m) (mkArgs rest None None))
  | [] => Err ArgErr
  end.
(* unbound_method.rs:32-37 clone, 39-44 name *)
Definition unbound_clone (m : mobj) : mobj := new_unbound (mo_name m) (mo_fid m) (mo_owner m).
Definition unbound_name (m : mobj) : arg := ASym (mo_name m).

Definition arg_same (x y : arg) : bool :=
  match x, y with
  | ASym a, ASym b => a =? b
  | AStr a, AStr b => a =? b
  | AVal a, AVal b => a =? b
  | _, _ => false
  end.
(* globals/method.rs:588-597: == of two Method objects that are not one object
   (value.rs:76 compares the ids first, 115-116 the contents). The receivers
   are compared as objects: here AStr and AVal number the objects *)
Definition mobj_eq (m1 m2 : mobj) : bool :=
  (mo_name m1 =? mo_name m2) && (mo_fid m1 =? mo_fid m2) &&
  match mo_recv m1, mo_recv m2 with
  | Some a, Some b => arg_same a b
  | _, _ => false
  end.

(* executor/method.rs:447-456 invoke_sym_proc (opt_core.rs:797: yield to the
   block &:name); cls: the class of a value; own: the receiver is self *)
Definition yield_sym (w : world) (fuel : nat) (cls : arg -> Z) (own : bool) (name : Z) (a : args) : res (arg * call * world) :=
  match a_pos a with
  | [] => Err ArgErr
  | v :: rest =>
      r <- invoke_send w fuel own (cls v) name (mkArgs rest (a_block a) (a_kw a)) ;;
      Ok (v, fst r, snd r)
  end.
(* how a builtin function runs its block on the elements: with the function of
   eval_block_map1 (executor/method.rs:197-216: most methods of Array, Hash and
   Enumerator) or with eval_block_each1_iter or eval_block_map1_iter (86-104,
   140-157: each and map of Range, times, upto, downto and step of Integer, two
   methods of String), which take no symbol: unimplemented!() *)
Inductive via : Type := ViaFn | ViaIter.
(* one element of an iteration with the block &:name; executor/method.rs:10-22
   eval_send and eval_send0 *)
Definition iterate_sym (how : via) (w : world) (fuel : nat) (cls : arg -> Z) (own : bool) (name : Z) (v : arg) : res (arg * call * world) :=
  match how with
  | ViaFn =>
      r <- invoke_send w fuel own (cls v) name (mkArgs [] None None) ;;
      Ok (v, fst r, snd r)
  | ViaIter => Panic
  end.
(* codegen.rs:50-77 gen_sym_to_proc_iseq, globals/method.rs:511-544: the proc
   {|x| x.name} with a call site of its own; symbol.rs:29-35 to_proc and
   executor.rs:943-957 create_proc for &block given as &:name. Called by
   push_block_frame_fast (arg_handler.rs:103-133): x is the first argument or
   nil, other arguments, the block and keyword arguments are dropped *)
Definition NILV : arg := AVal 4.
Definition call_sym_proc (w : world) (fuel : nat) (cls : arg -> Z) (slot : Z) (own : bool) (name : Z) (a : args) : res (arg * call * world) :=
  let x := match a_pos a with v :: _ => v | [] => NILV end in
  r <- call_site w fuel slot own (cls x) name (mkArgs [] None None) ;;
  Ok (x, fst r, snd r).

(* module.rs:352-366 module_function with names; s is the singleton class of
   the module c (get_singleton_class makes it: ModelObject) *)
Fixpoint module_function (w : world) (fuel : nat) (c s : Z) (xs : list arg) : res world :=
  match xs with
  | [] => Ok w
  | x :: r =>
      name <- expect_name x ;;
      f <- get_method_or_nomethod w fuel c name ;;
      w' <- add_method (snd f) s name (fst f) ;;
      module_function w' fuel c s r
  end.
