(* Identifier table: ruruby-common/src/id_table.rs. *)
From Verif Require Import Base ModelArray.
From Coq Require Import String List.

(* 148-151 IdentifierTable: rev_table (FxHashMap, newest entry first) and table *)
Record idtab : Type := { rev_table : list (string * Z); table : list string }.
Fixpoint rt_get (l : list (string * Z)) (n : string) : option Z :=
  match l with [] => None | (m, i) :: r => if String.eqb m n then Some i else rt_get r n end.
(* 191-194 set_ident_id: ids below the length of the table *)
Definition set_ident_id (n : string) (id : Z) (t : idtab) : idtab :=
  {| rev_table := (n, id) :: rev_table t; table := zfirst id (table t) ++ n :: zskip (id + 1) (table t) |}.
(* 48-78, 160-188: the preset names and their constants *)
Definition presets : list (string * Z) := ([
  ("initialize", 1); ("Object", 2); ("new", 3); ("name", 4); ("+", 5); ("-", 6); ("*", 7); ("**", 8); ("<<", 9); ("%", 10);
  ("==", 11); ("!=", 12); (">", 13); (">=", 14); ("/", 15); ("<", 16); ("<=", 17); ("<=>", 18); ("===", 19); ("/enum", 20);
  ("[]", 21); ("[]=", 22); ("to_s", 23); (">>", 24); ("/alias_method", 25); ("method_missing", 26); ("each", 27); ("map", 28);
  ("/name", 29)])%string.
(* 153-189 new *)
Definition idtab_new : idtab :=
  fold_left (fun t p => set_ident_id (fst p) (snd p) t) presets
    {| rev_table := []; table := "<null>"%string :: repeat ""%string 39 |}.
(* 196-206 get_ident_id, 208-218 get_ident_id_from_string: the new id is the
   table length as u32, NonZeroU32::new(..).unwrap() (37-40) panics on 0 *)
Definition get_ident_id (n : string) (t : idtab) : res (Z * idtab) :=
  match rt_get (rev_table t) n with
  | Some id => Ok (id, t)
  | None =>
      let id := zlen (table t) mod 2 ^ 32 in
      if id =? 0 then Panic
      else Ok (id, {| rev_table := (n, id) :: rev_table t; table := table t ++ [n] |})
  end.
(* 220-222 get_name *)
Definition ident_name (t : idtab) (id : Z) : res string := v_get (table t) id.
(* a history of requests *)
Fixpoint intern_all (ns : list string) (t : idtab) : res (list Z * idtab) :=
  match ns with
  | [] => Ok ([], t)
  | n :: r =>
      p <- get_ident_id n t ;;
      q <- intern_all r (snd p) ;;
      Ok (fst p :: fst q, snd q)
  end.
