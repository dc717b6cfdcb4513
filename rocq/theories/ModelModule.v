(* Comparing modules and asking them for constants: builtin/module.rs and
   vm/executor/constants.rs on the worlds of ModelClass. Not modelled: autoload,
   the number and kinds of the arguments except where said. *)
From Verif Require Import Base ModelArray ModelGC ModelClass ModelReflect.

(* module.rs:81-86 teq; c: the class globals.get_class gives for the argument *)
Definition mod_teq (w : world) (fuel : nat) (self c : Z) : res bool := include_module w fuel c self.
(* module.rs:92-109 cmp; nil is None. An argument that is no class and no module
   has no entry in mods (value.rs:751-759 if_mod_class) *)
Definition mod_cmp (w : world) (fuel : nat) (self other : Z) : res (option Z) :=
  if self =? other then Ok (Some 0)
  else
    match mods w other with
    | None => Ok None
    | Some _ =>
        b <- include_module w fuel other self ;;
        if b then Ok (Some 1)
        else
          d <- include_module w fuel self other ;;
          if d then Ok (Some (-1)) else Ok None
    end.
(* module.rs:487-492 include_; value.rs:774-781 expect_module *)
Definition mod_include_p (w : world) (fuel : nat) (self m : Z) : res bool :=
  if module_p w m then include_module w fuel self m else Err TypeErr.

(* class.rs const_table: the names of the constants, here in the order of their
   first definition (the code: in the order of a hash map). Every key is a
   constant's name (filter is_constant) *)
Definition const_names (e : ext) : list Z := set_adds [] (rev (map fst (ctab e))).
(* module.rs:156-188 constants: the loop *)
Fixpoint constants_walk (w : world) (fuel : nat) (a object : Z) (inherit : bool) : res (list Z) :=
  match fuel with
  | O => Panic
  | S n =>
      m <- get_mod w a ;;
      let v := const_names (exts w (m_ext m)) in
      if negb inherit then Ok v
      else
        u <- upper w fuel a ;;
        match u with
        | None => Ok v
        | Some b => if b =? object then Ok v else r <- constants_walk w n b object inherit ;; Ok (v ++ r)
        end
  end.
(* module.rs:227-235 const_get *)
Definition const_get (w : world) (fuel : nat) (self : Z) (x : arg) (object : Z) : res Z :=
  match x with
  | ASym id => get_super_const w fuel self id object
  | _ => Err TypeErr
  end.
(* module.rs:219-225 const_defined (a second argument is ignored) *)
Definition const_defined (w : world) (fuel : nat) (self : Z) (x : arg) (object : Z) : res bool :=
  id <- expect_name x ;;
  match get_super_const w fuel self id object with Ok _ => Ok true | Err _ => Ok false | Panic => Panic end.
(* constants.rs:62-67 get_scope: Parent::X; opt_core.rs:296-301 expect_mod_class *)
Definition get_scope (w : world) (parent id : Z) : res Z :=
  match mods w parent with
  | None => Err TypeErr
  | Some _ => c <- get_const w parent id ;; match c with Some v => Ok v | None => Err NameErr end
  end.
