(* What a program can get from an object it has, by calling methods, reading
   variables and constants, iterating and calling closures. *)
From Verif Require Import Base ModelKinds.

Definition store : Type := Z -> option robj.
Inductive gives (o : robj) : Z -> Prop :=
| G_class x : klass o = Some x -> gives o x                                                        (* o.class, calling a method *)
| G_ivar t n x : var_table o = Some t -> In (n, Some x) t -> gives o x                             (* @n *)
| G_real x i : kd o = Complex (Some x) i -> gives o x                                              (* o.real *)
| G_imaginary x r : kd o = Complex r (Some x) -> gives o x
| G_element l i x : kd o = Array l -> nth_error l i = Some (Some x) -> gives o x                   (* o[i] *)
| G_key l x v : kd o = Hash l -> In (Some x, v) l -> gives o x                                     (* o.keys *)
| G_value l k x : kd o = Hash l -> In (k, Some x) l -> gives o x                                   (* o[k] *)
| G_first x e : kd o = Range (Some x) e -> gives o x
| G_last x b : kd o = Range b (Some x) -> gives o x
| G_splat x : kd o = Splat (Some x) -> gives o x
| G_upper c x : kd o = Module c -> upper c = Some x -> gives o x                                   (* o.superclass, super *)
| G_constant c n x : kd o = Module c -> In (n, Const (Some x)) (const_table c) -> gives o x        (* o::N *)
| G_origin c x : kd o = Module c -> origin c = Some x -> gives o x                                 (* o.ancestors *)
| G_proc_self x e : kd o = Proc (Some x) e -> gives o x                                            (* o.call, self *)
| G_proc_var s e l x : kd o = Proc s e -> In l (e_locals e) -> In (Some x) l -> gives o x          (* o.call, a variable *)
| G_receiver x w : kd o = Method (Some x) w -> gives o x                                           (* o.call *)
| G_fiber_var f e l x : kd o = FiberObj f -> state f <> Dead -> f_kind f = Fiber e -> In l (e_locals e) -> In (Some x) l -> gives o x
| G_fiber_vm f x : kd o = FiberObj f -> state f <> Dead -> In (Some x) (f_vm f) -> gives o x       (* o.resume, o.next *)
| G_enum_receiver f x a : kd o = FiberObj f -> state f <> Dead -> f_kind f = Enum (Some x) a -> gives o x     (* o.next, o.each *)
| G_enum_arg f r a x : kd o = FiberObj f -> state f <> Dead -> f_kind f = Enum r a -> In (Some x) (elems a) -> gives o x
| G_enum_keyword f r a x : kd o = FiberObj f -> state f <> Dead -> f_kind f = Enum r a -> kw_arg a = Some x -> gives o x
| G_enum_block f r a x : kd o = FiberObj f -> state f <> Dead -> f_kind f = Enum r a -> block a = Some x -> gives o x
| G_binding_var e l x : kd o = Binding e -> In l (e_locals e) -> In (Some x) l -> gives o x.       (* o.local_variable_get *)
(* and more, which the code does not allow for *)
Inductive gives_too (o : robj) : Z -> Prop :=
| T_owner r x : kd o = Method r (Some x) -> gives_too o x                                          (* o.owner *)
| T_singleton c x : kd o = Module c -> singleton_for c = Some x -> gives_too o x                   (* o.inspect *)
| T_exhausted f x a : kd o = FiberObj f -> f_kind f = Enum (Some x) a -> gives_too o x             (* o.each, after the last o.next *)
| T_binding_self e x : kd o = Binding e -> e_self e = Some x -> gives_too o x                      (* eval("self", o) *)
| T_fiber_self f e x : kd o = FiberObj f -> state f <> Dead -> f_kind f = Fiber e -> e_self e = Some x -> gives_too o x
| T_block s e x : kd o = Proc s e -> e_blk e = Some x -> gives_too o x.                            (* o.call, yield *)

(* what it starts from *)
Inductive starts (g : globals) : Z -> Prop :=
| S_main x : main_object g = Some x -> starts g x
| S_global n x : In (n, Some x) (global_var g) -> starts g x
| S_literal x : In (Some x) (const_values g) -> starts g x
| S_running x : In (Some x) (g_vm g) -> starts g x
| S_error x : g_val g = Some x -> starts g x.
Inductive can_get (S : store) (g : globals) : Z -> Prop :=
| C_start x : starts g x -> can_get S g x
| C_next a o x : can_get S g a -> S a = Some o -> gives o x -> can_get S g x.
