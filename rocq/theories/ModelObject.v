(** Objects: their variables, copies, singleton classes, class variables and
    Struct.

    Sources: ruruby/src/value/rvalue.rs, value/value.rs, value/class.rs,
    builtin/object.rs, builtin/class.rs, builtin/module.rs,
    builtin/structobj.rs, vm/executor.rs, vm/executor/method.rs.

    An identifier is the list of its characters (C21: identifiers are interned
    injectively).  Objects live at addresses that are never used again; the
    garbage collector is in ModelGC.  Not modelled: prepend (ModelClass has
    it), constants, method caches (C26), visibility, names of classes.  A
    method written in Ruby is not run: its number stands for its result. *)
From Coq Require Import ZArith List Bool.
From Verif Require Import Base.
Import ListNotations.
Open Scope Z_scope.

Definition name : Set := list Z.
Fixpoint name_eqb (x y : name) : bool :=
  match x, y with
  | [], [] => true
  | a :: r, b :: s => (a =? b) && name_eqb r s
  | _, _ => false
  end.
(** The character @, and the prefix and postfix of id.rs [add_prefix],
    [add_postfix] *)
Definition c_at : Z := 64.
Definition c_eq : Z := 61.
Definition ivar_name (m : name) : name := c_at :: m.
Definition setter_name (m : name) : name := m ++ [c_eq].

(** value.rs: a packed word that is no symbol, a packed symbol, the address of
    an RValue *)
Inductive ov : Set := Pk (w : Z) | Sy (s : name) | Rf (a : Z).
(** value.rs:10 NIL_VALUE *)
Definition vnil : ov := Pk 36.

(** class.rs:310-315 [ClassInfo] *)
Record cinfo : Set := mkci { ci_up : option Z; ci_mod : bool; ci_inc : bool; ci_ext : Z }.
(** rvalue.rs:102-131 [ObjKind]: an ordinary object, a class or module, an
    array; [KVoid] is an object whose flag says Enumerator or Fiber and whose
    content is [other()] *)
Inductive kind : Set := KOrd | KMod (c : cinfo) | KArr (l : list ov) | KEnum | KVoid.
(** rvalue.rs:8-13 [RValue]; a missing table is an empty one *)
Record cell : Set := mkcell { o_class : Z; o_vars : list (name * ov); o_kind : kind }.
(** globals/method.rs:189-205 [MethodInfo]: attr_reader and attr_writer with
    the variable, the initialize of structobj.rs:65, a method in Ruby *)
Inductive meth : Set := MRd (x : name) | MWr (x : name) | MInit | MFn (f : Z).
(** class.rs:670-678 [ClassExt] *)
Record xt : Set := mkxt { x_meth : list (name * meth); x_single : bool; x_origin : option Z }.
(** [h_pk]: the class of a packed value (globals.rs:130-147), [h_class],
    [h_module]: Class and Module, [h_main]: the main object *)
Record heap : Type := mkheap {
  h_cells : Z -> option cell; h_exts : Z -> xt; h_next : Z; h_nexte : Z;
  h_pk : ov -> Z; h_class : Z; h_module : Z; h_main : Z }.

Definition upd {A} (f : Z -> A) (a : Z) (v : A) : Z -> A := fun b => if b =? a then v else f b.
Definition set_cell (h : heap) (a : Z) (c : cell) : heap :=
  mkheap (upd (h_cells h) a (Some c)) (h_exts h) (h_next h) (h_nexte h) (h_pk h) (h_class h) (h_module h) (h_main h).
Definition set_ext (h : heap) (e : Z) (x : xt) : heap :=
  mkheap (h_cells h) (upd (h_exts h) e x) (h_next h) (h_nexte h) (h_pk h) (h_class h) (h_module h) (h_main h).
(** a new RValue, [pack] *)
Definition alloc (h : heap) (c : cell) : Z * heap :=
  (h_next h, mkheap (upd (h_cells h) (h_next h) (Some c)) (h_exts h) (h_next h + 1) (h_nexte h) (h_pk h) (h_class h) (h_module h) (h_main h)).
(** class.rs:338-347 [ClassInfo::new]: a new [ClassExt] *)
Definition alloc_ext (h : heap) (x : xt) : Z * heap :=
  (h_nexte h, mkheap (h_cells h) (upd (h_exts h) (h_nexte h) x) (h_next h) (h_nexte h + 1) (h_pk h) (h_class h) (h_module h) (h_main h)).

(** value.rs:381-389 [rvalue], [rvalue_mut]: outside the objects the access is
    undefined *)
Definition get_cell (h : heap) (a : Z) : res cell :=
  match h_cells h a with Some c => Ok c | None => Panic end.
Definition rvalue (h : heap) (v : ov) : res (Z * cell) :=
  match v with Rf a => c <- get_cell h a ;; Ok (a, c) | _ => Panic end.
(** class.rs:27-33 [Deref] of [Module], value.rs:703-711 *)
Definition as_class (h : heap) (a : Z) : res cinfo :=
  c <- get_cell h a ;; match o_kind c with KMod ci => Ok ci | _ => Panic end.

(** ** Variables *)

(** FxHashMap [get] and [insert]; the order of the entries says nothing *)
Fixpoint tget {A} (t : list (name * A)) (x : name) : option A :=
  match t with
  | [] => None
  | (y, v) :: r => if name_eqb y x then Some v else tget r x
  end.
Fixpoint tset {A} (t : list (name * A)) (x : name) (v : A) : list (name * A) :=
  match t with
  | [] => [(x, v)]
  | (y, w) :: r => if name_eqb y x then (y, v) :: r else (y, w) :: tset r x v
  end.

(** rvalue.rs:822-849 [get_var], [set_var] on the cell at [a] *)
Definition get_var_at (h : heap) (a : Z) (x : name) : res (option ov) :=
  c <- get_cell h a ;; Ok (tget (o_vars c) x).
Definition set_var_at (h : heap) (a : Z) (x : name) (v : ov) : res heap :=
  c <- get_cell h a ;; Ok (set_cell h a (mkcell (o_class c) (tset (o_vars c) x v) (o_kind c))).
(** value.rs:473-485 [set_var], [get_var] *)
Definition get_var (h : heap) (o : ov) (x : name) : res (option ov) :=
  match o with Rf a => get_var_at h a x | _ => Panic end.
Definition set_var (h : heap) (o : ov) (x : name) (v : ov) : res heap :=
  match o with Rf a => set_var_at h a x v | _ => Panic end.
Definition or_nil (v : option ov) : ov := match v with Some v => v | None => vnil end.

(** opt_core.rs:317-332 SET_IVAR, GET_IVAR, CHECK_IVAR *)
Definition set_ivar (h : heap) (self : ov) (x : name) (v : ov) : res heap := set_var h self x v.
Definition get_ivar (h : heap) (self : ov) (x : name) : res ov := v <- get_var h self x ;; Ok (or_nil v).
Definition check_ivar (h : heap) (self : ov) (x : name) : res bool :=
  v <- get_var h self x ;; Ok (match v with Some _ => false | None => true end).
(** object.rs:131-150 instance_variable_set, instance_variable_get with a
    symbol *)
Definition instance_variable_set (h : heap) (self : ov) (x : name) (v : ov) : res (ov * heap) :=
  h <- set_var h self x v ;; Ok (v, h).
Definition instance_variable_get (h : heap) (self : ov) (x : name) : res ov :=
  v <- get_var h self x ;; Ok (or_nil v).
(** object.rs:152-164 instance_variables *)
Definition starts_at (x : name) : bool := match x with c :: _ => c =? c_at | [] => false end.
Definition instance_variables (h : heap) (self : ov) : res (list name) :=
  p <- rvalue h self ;; Ok (filter starts_at (map fst (o_vars (snd p)))).
(** method.rs:575-596 exec_getter, exec_setter *)
Definition exec_getter (h : heap) (x : name) (self : ov) (args : list ov) : res ov :=
  match args with
  | [] => match self with Rf a => v <- get_var_at h a x ;; Ok (or_nil v) | _ => Ok vnil end
  | _ => Err ArgErr
  end.
Definition exec_setter (h : heap) (x : name) (self : ov) (args : list ov) : res (ov * heap) :=
  match args with
  | [v] => match self with Rf a => h <- set_var_at h a x v ;; Ok (v, h) | _ => Panic end
  | _ => Err ArgErr
  end.

(** ** Copies *)

(** rvalue.rs:560-590 [shallow_dup]; the [ClassInfo] of a class is cloned with
    its pointer to the [ClassExt] *)
Definition dup_kind (k : kind) : kind :=
  match k with KEnum => KVoid | k => k end.
(** value.rs:343-348, object.rs:92-96 dup and clone *)
Definition shallow_dup (h : heap) (v : ov) : res (ov * heap) :=
  match v with
  | Rf a =>
      c <- get_cell h a ;;
      let (b, h) := alloc h (mkcell (o_class c) (o_vars c) (dup_kind (o_kind c))) in Ok (Rf b, h)
  | v => Ok (v, h)
  end.

(** The content of an array, read and replaced; using an object whose content
    is not what its flag says is undefined *)
Definition content (h : heap) (v : ov) : res (list ov) :=
  p <- rvalue h v ;; match o_kind (snd p) with KArr l => Ok l | _ => Err TypeErr end.
Definition replace (h : heap) (v : ov) (l : list ov) : res heap :=
  p <- rvalue h v ;;
  match o_kind (snd p) with
  | KArr _ => Ok (set_cell h (fst p) (mkcell (o_class (snd p)) (o_vars (snd p)) (KArr l)))
  | _ => Err TypeErr
  end.
(** enumerator.rs:77-85 [next]: the content of an enumerator is used; [vm] is
    not modelled, only whether the content is there *)
Definition use_enum (h : heap) (v : ov) : res ov :=
  p <- rvalue h v ;;
  match o_kind (snd p) with KEnum => Ok vnil | KVoid => Panic | _ => Err NoMethodErr end.

(** ** Classes *)

Definition is_singleton (h : heap) (a : Z) : res bool := c <- as_class h a ;; Ok (x_single (h_exts h (ci_ext c))).
(** class.rs:372-381 [upper], without prepend *)
Definition upper (h : heap) (a : Z) : res (option Z) := c <- as_class h a ;; Ok (ci_up c).
(** class.rs:386-394 [superclass] *)
Fixpoint skip_included (fuel : nat) (h : heap) (a : Z) : res (option Z) :=
  match fuel with
  | O => Panic
  | S n => c <- as_class h a ;;
           if ci_inc c then match ci_up c with None => Ok None | Some b => skip_included n h b end
           else Ok (Some a)
  end.
Definition superclass (fuel : nat) (h : heap) (a : Z) : res (option Z) :=
  u <- upper h a ;; match u with None => Ok None | Some b => skip_included fuel h b end.
(** rvalue.rs:805-814 [real_class] *)
Fixpoint real_class (fuel : nat) (h : heap) (a : Z) : res Z :=
  match fuel with
  | O => Panic
  | S n => s <- is_singleton h a ;;
           if s then u <- superclass fuel h a ;; match u with Some b => real_class n h b | None => Panic end
           else Ok a
  end.
(** globals.rs:130-177 *)
Definition class_for_method (h : heap) (v : ov) : res Z :=
  match v with Rf a => c <- get_cell h a ;; Ok (o_class c) | v => Ok (h_pk h v) end.
Definition get_class (fuel : nat) (h : heap) (v : ov) : res Z :=
  match v with Rf a => c <- get_cell h a ;; real_class fuel h (o_class c) | v => Ok (h_pk h v) end.
Definition get_class_if_object (fuel : nat) (h : heap) (v : ov) : res Z :=
  match v with
  | Rf a => c <- get_cell h a ;; match o_kind c with KMod _ => Ok a | _ => real_class fuel h (o_class c) end
  | v => Ok (h_pk h v)
  end.

(** class.rs:298-303 [singleton_class_from] *)
Definition singleton_from (h : heap) (sup : option Z) : Z * heap :=
  let (e, h) := alloc_ext h (mkxt [] true None) in
  alloc h (mkcell (h_class h) [] (KMod (mkci sup false false e))).
Definition set_class (h : heap) (a s : Z) : res heap :=
  c <- get_cell h a ;; Ok (set_cell h a (mkcell s (o_vars c) (o_kind c))).
(** value.rs:1190-1221 [get_singleton_class] of the object at [a] *)
Fixpoint singleton_class (fuel : nat) (h : heap) (a : Z) : res (Z * heap) :=
  match fuel with
  | O => Panic
  | S n =>
      c <- get_cell h a ;;
      s <- is_singleton h (o_class c) ;;
      if s then Ok (o_class c, h)
      else
        p <- match o_kind c with
             | KMod ci =>
                 if ci_mod ci then Ok (Some (o_class c), h)
                 else u <- superclass fuel h a ;;
                      match u with
                      | None => Ok (None, h)
                      | Some b => p <- singleton_class n h b ;; Ok (Some (fst p), snd p)
                      end
             | _ => Ok (Some (o_class c), h)
             end ;;
        let '(sup, h) := p in
        let '(s, h) := singleton_from h sup in
        h <- set_class h a s ;; Ok (s, h)
  end.
Definition get_singleton_class (fuel : nat) (h : heap) (v : ov) : res (Z * heap) :=
  match v with Rf a => singleton_class fuel h a | _ => Err TypeErr end.

(** class.rs:278-283 [new_class], 290-292 [class_under] *)
Definition class_under (fuel : nat) (h : heap) (sup : Z) : res (Z * heap) :=
  let (e, h) := alloc_ext h (mkxt [] false None) in
  let (a, h) := alloc h (mkcell (h_class h) [] (KMod (mkci (Some sup) false false e))) in
  p <- singleton_class fuel h a ;; Ok (a, snd p).
(** class.rs:305-307 [module] *)
Definition module_new (h : heap) : Z * heap :=
  let (e, h) := alloc_ext h (mkxt [] false None) in
  alloc h (mkcell (h_module h) [] (KMod (mkci None true false e))).
(** class.rs:565-572 [add_method] *)
Definition add_method (h : heap) (c : Z) (m : name) (f : meth) : res heap :=
  ci <- as_class h c ;;
  let x := h_exts h (ci_ext ci) in
  Ok (set_ext h (ci_ext ci) (mkxt (tset (x_meth x) m f) (x_single x) (x_origin x))).
(** executor.rs:805-815 [define_singleton_method] *)
Definition define_singleton_method (fuel : nat) (h : heap) (v : ov) (m : name) (f : Z) : res heap :=
  p <- get_singleton_class fuel h v ;; add_method (snd p) (fst p) m (MFn f).
(** class.rs:191-214 [search_method] *)
Fixpoint search_chain (fuel : nat) (h : heap) (a : Z) (m : name) : res (option meth) :=
  match fuel with
  | O => Panic
  | S n =>
      c <- as_class h a ;;
      match tget (x_meth (h_exts h (ci_ext c))) m with
      | Some f => Ok (Some f)
      | None => match ci_up c with Some b => search_chain n h b m | None => Ok None end
      end
  end.
Definition search_method (fuel : nat) (h : heap) (a : Z) (m : name) : res (option meth) :=
  s <- is_singleton h a ;;
  r <- search_chain fuel h a m ;;
  match r with
  | Some f => Ok (Some f)
  | None => if s then c <- get_cell h a ;; search_chain fuel h (o_class c) m else Ok None
  end.
(** globals.rs:182-189 [find_method_from_receiver]; the cache is transparent (C26) *)
Definition lookup (fuel : nat) (h : heap) (v : ov) (m : name) : res (option meth) :=
  c <- class_for_method h v ;; search_method fuel h c m.

(** class.rs:115-131 [real_module], [generate_included], [set_include], 473-477 *)
Definition generate_included (h : heap) (a : Z) : res (Z * heap) :=
  c <- get_cell h a ;;
  ci <- as_class h a ;;
  let x := h_exts h (ci_ext ci) in
  o <- (if ci_inc ci then match x_origin x with Some o => Ok o | None => Panic end else Ok a) ;;
  let h := set_ext h (ci_ext ci) (mkxt (x_meth x) (x_single x) (Some o)) in
  Ok (alloc h (mkcell (o_class c) (o_vars c) (KMod (mkci (ci_up ci) (ci_mod ci) true (ci_ext ci))))).
Definition set_upper (h : heap) (a : Z) (u : option Z) : res heap :=
  c <- get_cell h a ;;
  ci <- as_class h a ;;
  Ok (set_cell h a (mkcell (o_class c) (o_vars c) (KMod (mkci u (ci_mod ci) (ci_inc ci) (ci_ext ci))))).
(** class.rs:484-498 the loop of [append_include_without_increment_version];
    [prev] is the last copy made, [m] the module it is of *)
Fixpoint include_loop (fuel : nat) (h : heap) (m prev : Z) : res (Z * heap) :=
  match fuel with
  | O => Panic
  | S n =>
      u <- upper h m ;;
      match u with
      | None => Ok (prev, h)
      | Some m' => p <- generate_included h m' ;;
                   h <- set_upper (snd p) prev (Some (fst p)) ;;
                   include_loop n h m' (fst p)
      end
  end.
(** class.rs:479-498; module.rs:373-381 Module#include with one module *)
Definition include (fuel : nat) (h : heap) (c : Z) (m : ov) : res heap :=
  p <- rvalue h m ;;
  match o_kind (snd p) with
  | KMod mi =>
      if ci_mod mi then
        sup <- upper h c ;;
        q <- generate_included h (fst p) ;;
        h <- set_upper (snd q) c (Some (fst q)) ;;
        q <- include_loop fuel h (fst p) (fst q) ;;
        set_upper (snd q) (fst q) sup
      else Err TypeErr
  | _ => Err TypeErr
  end.

(** ** Class variables, executor.rs:580-627 *)
Fixpoint set_cvar_from (fuel : nat) (h : heap) (org a : Z) (x : name) (v : ov) : res heap :=
  match fuel with
  | O => Panic
  | S n =>
      c <- get_cell h a ;;
      match tget (o_vars c) x with
      | Some _ => set_var_at h a x v
      | None => u <- upper h a ;;
                match u with Some b => set_cvar_from n h org b x v | None => set_var_at h org x v end
      end
  end.
Fixpoint get_cvar_from (fuel : nat) (h : heap) (a : Z) (x : name) : res ov :=
  match fuel with
  | O => Panic
  | S n =>
      c <- get_cell h a ;;
      match tget (o_vars c) x with
      | Some v => Ok v
      | None => u <- upper h a ;;
                match u with Some b => get_cvar_from n h b x | None => Err NameErr end
      end
  end.
Definition is_main (h : heap) (v : ov) : bool := match v with Rf a => a =? h_main h | _ => false end.
Definition set_class_var (fuel : nat) (h : heap) (self : ov) (x : name) (v : ov) : res heap :=
  if is_main h self then Err OtherErr
  else c <- get_class_if_object fuel h self ;; set_cvar_from fuel h c c x v.
Definition get_class_var (fuel : nat) (h : heap) (self : ov) (x : name) : res ov :=
  if is_main h self then Err OtherErr
  else c <- get_class_if_object fuel h self ;; get_cvar_from fuel h c x.

(** ** Making and using objects *)

(** builtin/class.rs:50-55 allocate *)
Definition allocate (h : heap) (c : Z) : res (ov * heap) :=
  ci <- as_class h c ;;
  let (a, h) := alloc h (mkcell c [] KOrd) in Ok (Rf a, h).

(** module.rs:333-351 [define_reader], [define_writer]; 134-150
    [set_attr_accessor] for symbols *)
Fixpoint attr_accessor (h : heap) (c : Z) (ms : list name) : res heap :=
  match ms with
  | [] => Ok h
  | m :: r => h <- add_method h c m (MRd (ivar_name m)) ;;
              h <- add_method h c (setter_name m) (MWr (ivar_name m)) ;;
              attr_accessor h c r
  end.

(** The names [initialize] and [/members] *)
Definition n_initialize : name := [105; 110; 105; 116; 105; 97; 108; 105; 122; 101].
Definition n_members : name := [47; 109; 101; 109; 98; 101; 114; 115].

(** structobj.rs:10-62 Struct.new without a string and without a block; [inspect]
    and the class methods [new] and [[]], which are those of Class, are left out *)
Definition struct_new (fuel : nat) (h : heap) (self : Z) (ms : list name) : res (Z * heap) :=
  match ms with
  | [] => Err ArgErr
  | _ =>
      p <- class_under fuel h self ;;
      let '(c, h) := p in
      h <- add_method h c n_initialize MInit ;;
      let (a, h) := alloc h (mkcell (h_class h) [] (KArr (map Sy ms))) in
      h <- set_var_at h c n_members (Rf a) ;;
      h <- attr_accessor h c ms ;;
      Ok (c, h)
  end.

(** structobj.rs:72-76: the loop of initialize *)
Fixpoint set_members (h : heap) (self : ov) (ms args : list ov) : res heap :=
  match args with
  | [] => Ok h
  | v :: r => match ms with
              | Sy m :: ms => h <- set_var h self (ivar_name m) v ;; set_members h self ms r
              | _ => Panic
              end
  end.
(** structobj.rs:65-78 initialize *)
Definition struct_initialize (fuel : nat) (h : heap) (self : ov) (args : list ov) : res heap :=
  c <- get_class fuel h self ;;
  m <- get_var_at h c n_members ;;
  match m with
  | Some m =>
      p <- rvalue h m ;;
      match o_kind (snd p) with
      | KArr ms => if (length ms <? length args)%nat then Err ArgErr else set_members h self ms args
      | _ => Panic
      end
  | None => Panic
  end.

(** method.rs:488-520 [invoke_method] *)
Definition invoke (fuel : nat) (h : heap) (f : meth) (self : ov) (args : list ov) : res (ov * heap) :=
  match f with
  | MRd x => v <- exec_getter h x self args ;; Ok (v, h)
  | MWr x => exec_setter h x self args
  | MInit => h <- struct_initialize fuel h self args ;; Ok (vnil, h)
  | MFn f => Ok (Pk f, h)
  end.
Definition send (fuel : nat) (h : heap) (self : ov) (m : name) (args : list ov) : res (ov * heap) :=
  f <- lookup fuel h self m ;;
  match f with Some f => invoke fuel h f self args | None => Err NoMethodErr end.
(** builtin/class.rs:40-46 new; method.rs:312-327 [eval_initialize] *)
Definition new_object (fuel : nat) (h : heap) (c : Z) (args : list ov) : res (ov * heap) :=
  ci <- as_class h c ;;
  let (a, h) := alloc h (mkcell c [] KOrd) in
  f <- search_method fuel h c n_initialize ;;
  match f with
  | Some f => p <- invoke fuel h f (Rf a) args ;; Ok (Rf a, snd p)
  | None => Ok (Rf a, h)
  end.
(** object.rs:173-176 freeze, 298-301 frozen? *)
Definition freeze (h : heap) (self : ov) : res (ov * heap) := Ok (self, h).
Definition frozen (h : heap) (self : ov) : res bool := Ok false.

(** object.rs:82-90 extend with one module *)
Definition extend (fuel : nat) (h : heap) (self m : ov) : res heap :=
  p <- get_singleton_class fuel h self ;; include fuel (snd p) (fst p) m.

(** builtin.rs:55-76 [EssentialClass::new] and globals.rs:67: BasicObject 0, Object
    1, Module 2, Class 3, the singleton class of BasicObject 4, main 5.  The
    classes of packed values are left out: they are Object here *)
Definition boot : heap :=
  let cls sup e := KMod (mkci sup false false e) in
  mkheap (fun a =>
            if a =? 0 then Some (mkcell 4 [] (cls None 0))
            else if a =? 1 then Some (mkcell 3 [] (cls (Some 0) 1))
            else if a =? 2 then Some (mkcell 3 [] (cls (Some 1) 2))
            else if a =? 3 then Some (mkcell 3 [] (cls (Some 2) 3))
            else if a =? 4 then Some (mkcell 3 [] (cls (Some 3) 4))
            else if a =? 5 then Some (mkcell 1 [] KOrd)
            else None)
         (fun e => mkxt [] (e =? 4) None) 6 5 (fun _ => 1) 3 2 5.

(** ** What programs do with objects *)

(** A variable is written by [@x = v], by instance_variable_set or by a method
    that attr_writer made, and read by [@x], instance_variable_get or a method
    that attr_reader made *)
Inductive way : Set := WSyntax | WReflect | WAttr.
Inductive act : Set :=
| AAlloc (c : Z) | AArray (c : Z) (l : list ov) | ADup (o : ov)
| AWrite (w : way) (o : ov) (x : name) (v : ov) | ARead (w : way) (o : ov) (x : name)
| ACheck (o : ov) (x : name) | AList (o : ov)
| AContent (o : ov) | AReplace (o : ov) (l : list ov)
| ASing (o : ov) | ADefS (o : ov) (m : name) (f : Z)
| ADef (c : Z) (m : name) (f : Z) | AAttr (c : Z) (ms : list name)
| AInclude (c : Z) (m : ov) | AExtend (o m : ov) | AClass (sup : Z) | AModule
| ACvSet (o : ov) (x : name) (v : ov) | ACvGet (o : ov) (x : name)
| ALookup (o : ov) (m : name) | AFreeze (o : ov) | AFrozen (o : ov).
Inductive out : Set := OV (v : ov) | OL (l : list ov) | ON (l : list name) | OB (b : bool) | OM (m : option meth).

Definition step (fuel : nat) (a : act) (h : heap) : res (out * heap) :=
  match a with
  | AAlloc c => p <- allocate h c ;; Ok (OV (fst p), snd p)
  | AArray c l => ci <- as_class h c ;; let (b, h) := alloc h (mkcell c [] (KArr l)) in Ok (OV (Rf b), h)
  | ADup o => p <- shallow_dup h o ;; Ok (OV (fst p), snd p)
  | AWrite WSyntax o x v => h <- set_ivar h o x v ;; Ok (OV v, h)
  | AWrite WReflect o x v => p <- instance_variable_set h o x v ;; Ok (OV (fst p), snd p)
  | AWrite WAttr o x v => p <- exec_setter h x o [v] ;; Ok (OV (fst p), snd p)
  | ARead WSyntax o x => v <- get_ivar h o x ;; Ok (OV v, h)
  | ARead WReflect o x => v <- instance_variable_get h o x ;; Ok (OV v, h)
  | ARead WAttr o x => v <- exec_getter h x o [] ;; Ok (OV v, h)
  | ACheck o x => b <- check_ivar h o x ;; Ok (OB b, h)
  | AList o => l <- instance_variables h o ;; Ok (ON l, h)
  | AContent o => l <- content h o ;; Ok (OL l, h)
  | AReplace o l => h <- replace h o l ;; Ok (OV o, h)
  | ASing o => p <- get_singleton_class fuel h o ;; Ok (OV (Rf (fst p)), snd p)
  | ADefS o m f => h <- define_singleton_method fuel h o m f ;; Ok (OV (Sy m), h)
  | ADef c m f => h <- add_method h c m (MFn f) ;; Ok (OV (Sy m), h)
  | AAttr c ms => h <- attr_accessor h c ms ;; Ok (OV vnil, h)
  | AInclude c m => h <- include fuel h c m ;; Ok (OV (Rf c), h)
  | AExtend o m => h <- extend fuel h o m ;; Ok (OV o, h)
  | AClass sup => ci <- as_class h sup ;; p <- class_under fuel h sup ;; Ok (OV (Rf (fst p)), snd p)
  | AModule => let (a, h) := module_new h in Ok (OV (Rf a), h)
  | ACvSet o x v => h <- set_class_var fuel h o x v ;; Ok (OV v, h)
  | ACvGet o x => v <- get_class_var fuel h o x ;; Ok (OV v, h)
  | ALookup o m => r <- lookup fuel h o m ;; Ok (OM r, h)
  | AFreeze o => p <- freeze h o ;; Ok (OV (fst p), snd p)
  | AFrozen o => b <- frozen h o ;; Ok (OB b, h)
  end.

(** What was done, the last first, with the results; an error changes nothing
    ([extend] of what is no module leaves the singleton class it made) *)
Definition after_err (fuel : nat) (a : act) (h : heap) : heap :=
  match a with
  | AExtend o _ => match get_singleton_class fuel h o with Ok p => snd p | _ => h end
  | _ => h
  end.
Inductive runs (fuel : nat) (h0 : heap) : list (act * option out) -> heap -> Prop :=
| RNil : runs fuel h0 [] h0
| ROk l h a o h' : runs fuel h0 l h -> step fuel a h = Ok (o, h') -> runs fuel h0 ((a, Some o) :: l) h'
| RErr l h a k : runs fuel h0 l h -> step fuel a h = Err k -> runs fuel h0 ((a, None) :: l) (after_err fuel a h).
