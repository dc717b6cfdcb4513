(* class and module definitions: what DEF_CLASS does before the body runs. *)
From Verif Require Import Base ModelArray ModelGC ModelClass.

(* value.rs:763-770 expect_class and value.rs is_class: a class, not a module.
   A value is the address of its object; one that is no class and no module has
   no entry in mods. *)
Definition class_p (w : world) (v : Z) : bool := match mods w v with Some m => negb (is_module m) | None => false end.

(* vm/executor.rs:662-712 define_class. base: None for nil, the value left of ::
   otherwise; cur: VM::current_class; sup: None for nil (no superclass written,
   or one that evaluates to nil); object: globals.classes.object; cls: the class
   of the new object. Module::new (class.rs:67-70) panics on a value that is
   neither a class nor a module: get_mod.
   Not modelled: autoload entries (class.rs:613-618 takes one for no constant),
   the name the constant gives the class (globals/constants.rs:18-28), the
   singleton class every new class gets (class.rs:279-283), the text of errors. *)
Definition define_class (w : world) (fuel : nat) (object cur : Z) (base : option Z) (id : Z) (is_mod : bool) (sup : option Z) (cls : Z) : res (Z * world) :=
  let c := match base with None => cur | Some b => b end in
  k <- get_const w c id ;;
  match k with
  | Some v =>
      m <- get_mod w v ;;
      if negb (Bool.eqb (is_module m) is_mod) then Err TypeErr
      else
        s <- superclass w fuel v ;;
        match sup with
        | None => Ok (v, w)
        | Some t => match s with
                    | Some s => if s =? t then Ok (v, w) else Err TypeErr
                    | None => Err TypeErr
                    end
        end
  | None =>
      if is_mod then
        match sup with
        | Some _ => Panic
        | None =>
            let (a, w1) := new_class w true None false cls in
            w2 <- set_const w1 c id a ;; Ok (a, w2)
        end
      else
        s <- match sup with
             | None => Ok object
             | Some t => if class_p w t then Ok t else Err TypeErr
             end ;;
        let (a, w1) := new_class w false (Some s) false cls in
        w2 <- set_const w1 c id a ;; Ok (a, w2)
  end.

(* builtin/class.rs:19-37 class_new, without the block; BuiltinClass::object is object *)
Definition class_new (w : world) (object : Z) (arg : option Z) (cls : Z) : res (Z * world) :=
  s <- match arg with
       | None => Ok object
       | Some t => if class_p w t then Ok t else Err TypeErr
       end ;;
  Ok (new_class w false (Some s) false cls).
(* builtin/class.rs:57-64 superclass: nil is None *)
Definition class_superclass (w : world) (fuel : nat) (c : Z) : res (option Z) := superclass w fuel c.
