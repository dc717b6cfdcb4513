(* Asking about methods and calling them by name: builtin/object.rs (send,
   respond_to?, methods), builtin/module.rs (instance_methods, instance_method,
   method_defined?, alias_method, included_modules), builtin/basicobject.rs
   (alias, method_missing), vm/executor (call sites, method_missing).
   On the worlds of ModelClass: c is the class get_class_for_method gives for
   the receiver (globals.rs:130). Arguments are integers, symbols or strings
   that name a method; a block is its number, keyword arguments are the number
   of their hash. Not modelled: visibility (public, private and protected do
   nothing: module.rs:471-481), singleton_methods, module_function. *)
From Verif Require Import Base ModelArray ModelGC ModelClass.

Inductive arg : Type := ASym (name : Z) | AStr (name : Z) | AVal (v : Z).
(* vm/args.rs:82-86 Args2; the positional arguments are on the stack *)
Record args : Type := mkArgs { a_pos : list arg; a_block : option Z; a_kw : option Z }.
(* what a call comes to: a method started with arguments *)
Record call : Type := mkCall { c_fid : Z; c_args : args }.

(* the name method_missing, fixed at startup: ModelIdent gives it 26 *)
Definition METHOD_MISSING : Z := 26.

(* executor/method.rs:357-386 invoke_method_missing; own: the receiver is self *)
Definition invoke_method_missing (w : world) (fuel : nat) (own : bool) (c name : Z) (a : args) : res (call * world) :=
  r <- find_method w fuel c METHOD_MISSING ;;
  match fst r with
  | Some m => Ok (mkCall m (mkArgs (ASym name :: a_pos a) None None), snd r)
  | None => if own then Err NameErr else Err NoMethodErr
  end.
(* opt_core.rs:729-746 send: a call in the program, at its call site *)
Definition call_site (w : world) (fuel : nat) (slot : Z) (own : bool) (c name : Z) (a : args) : res (call * world) :=
  r <- find_method_inline w fuel slot c name ;;
  match fst r with
  | Some fid => Ok (mkCall fid a, snd r)
  | None => invoke_method_missing (snd r) fuel own c name a
  end.
(* executor/method.rs:418-429 invoke_send: operators and other calls without a site *)
Definition invoke_send (w : world) (fuel : nat) (own : bool) (c name : Z) (a : args) : res (call * world) :=
  r <- find_method w fuel c name ;;
  match fst r with
  | Some fid => Ok (mkCall fid a, snd r)
  | None => invoke_method_missing (snd r) fuel own c name a
  end.
(* class.rs:157-166, value.rs:1224-1231 get_method_or_nomethod *)
Definition get_method_or_nomethod (w : world) (fuel : nat) (c name : Z) : res (Z * world) :=
  r <- find_method w fuel c name ;;
  match fst r with Some f => Ok (f, snd r) | None => Err NoMethodErr end.
(* object.rs:183-197 send *)
Definition obj_send (w : world) (fuel : nat) (c : Z) (a : args) : res (call * world) :=
  match a_pos a with
  | [] => Err ArgErr
  | ASym name :: rest =>
      r <- get_method_or_nomethod w fuel c name ;;
      Ok (mkCall (fst r) (mkArgs rest (a_block a) None), snd r)
  | _ => Err ArgErr
  end.

(* value.rs:665-675 expect_string_or_symbol, 677-686 expect_symbol_or_string *)
Definition expect_name (x : arg) : res Z :=
  match x with ASym n => Ok n | AStr n => Ok n | AVal _ => Err TypeErr end.
(* object.rs:270-281 respond_to (with one argument; a second one is ignored) *)
Definition respond_to (w : world) (fuel : nat) (c : Z) (x : arg) : res (bool * world) :=
  name <- expect_name x ;;
  r <- find_method w fuel c name ;;
  Ok (match fst r with Some _ => true | None => false end, snd r).

(* an index map or set keeps the place of the first insertion *)
Fixpoint set_add (l : list Z) (k : Z) : list Z :=
  match l with
  | [] => [k]
  | x :: r => if x =? k then l else x :: set_add r k
  end.
Definition set_adds (l ks : list Z) : list Z := fold_left set_add ks l.
(* class.rs:536-538 method_names: the keys of the method table; ModelClass
   keeps the table as its insertions, newest first *)
Definition method_names (e : ext) : list Z := set_adds [] (rev (map fst (mtab e))).
(* module.rs:248-257, the loop of instance_methods *)
Fixpoint collect_names (w : world) (fuel : nat) (a : Z) (v : list Z) : res (list Z) :=
  match fuel with
  | O => Panic
  | S n =>
      m <- get_mod w a ;;
      let v1 := set_adds v (method_names (exts w (m_ext m))) in
      u <- upper w fuel a ;;
      match u with
      | None => Ok v1
      | Some b => collect_names w n b v1
      end
  end.
(* module.rs:237-264 instance_methods(inherited_too); object.rs:222-232
   methods(true) is the same on the class of the receiver *)
Definition instance_methods (w : world) (fuel : nat) (c : Z) (inherited : bool) : res (list Z) :=
  if inherited then collect_names w fuel c []
  else m <- get_mod w c ;; Ok (method_names (exts w (m_ext m))).
(* module.rs:286-298 method_defined; class.rs:214-216 search_method_no_inherit *)
Definition method_defined (w : world) (fuel : nat) (c : Z) (x : arg) (inherit : bool) : res bool :=
  name <- expect_name x ;;
  if inherit then r <- search_method w fuel name c ;; Ok (match r with Some _ => true | None => false end)
  else m <- get_mod w c ;; Ok (match assoc name (mtab (exts w (m_ext m))) with Some _ => true | None => false end).
(* module.rs:266-280 instance_method: the definition and the module it is in *)
Definition instance_method (w : world) (fuel : nat) (c : Z) (x : arg) : res (Z * Z) :=
  name <- expect_name x ;;
  r <- search_method w fuel name c ;;
  match r with Some fo => Ok fo | None => Err NameErr end.
(* basicobject.rs:14-40 alias_method, for method names (c: the class itself or
   the class of self); module.rs:460-469 module_alias_method *)
Definition alias_method (w : world) (fuel : nat) (c new org : Z) : res world :=
  r <- get_method_or_nomethod w fuel c org ;;
  add_method (snd r) c new (fst r).
(* module.rs:396-412 included_modules *)
Fixpoint included_modules (w : world) (fuel : nat) (a : Z) : res (list Z) :=
  match fuel with
  | O => Panic
  | S n =>
      m <- get_mod w a ;;
      o <- (if included m then match e_origin (exts w (m_ext m)) with Some o => Ok [o] | None => Panic end else Ok []) ;;
      u <- upper w fuel a ;;
      match u with
      | None => Ok o
      | Some b => rest <- included_modules w n b ;; Ok (o ++ rest)
      end
  end.
