(* What require, require_relative and load promise, without the functions of the model.  The file system (fnode,
   node_at, os_resolve) is the environment of ModelPath; actions, events and states are those of ModelLoad. *)
From Verif Require Import Base ModelText ModelPath SpecPath ModelLoad.

(* the files whose programs were started *)
Definition ran (s : state) (place : list chars) : Prop := In (ERun place) (past s).
Fixpoint runs (es : list event) : list (list chars) :=
  match es with
  | [] => []
  | ERun p :: es => p :: runs es
  | EOut _ :: es => runs es
  end.
(* every file that was started is known *)
Definition sound (s : state) : Prop := forall place, ran s place -> In place (files s).

(* programs all of whose actions, those inside of rescue included, are allowed *)
Inductive only (P : act -> Prop) : list act -> Prop :=
| only_nil : only P []
| only_act a acts : P a -> only P acts -> only P (a :: acts)
| only_rescue body acts : only P body -> only P acts -> only P (ARescue body :: acts).
Definition no_load (a : act) : Prop := match a with ALoad _ | ARescue _ => False | _ => True end.
Definition no_load_no_change (a : act) : Prop := match a with ALoad _ | ASetFiles _ | ARescue _ => False | _ => True end.

Definition no_dot (n : chars) : Prop := ~ In 46%Z n.
Definition dot_rb : chars := [46; 114; 98]%Z.
Definition dot_so : chars := [46; 115; 111]%Z.
(* what is asked for, with or without .rb *)
Inductive asks : chars -> chars -> Prop :=
| asks_plain n : n <> [] -> no_dot n -> asks n n
| asks_rb n : n <> [] -> asks (n ++ dot_rb) n.
(* under the directory called d there is such a file or directory *)
Definition has (root : fnode) (cwd : list chars) (d : chars) (names : list chars) : Prop :=
  exists D, os_resolve root cwd d = Some D /\ node_at root (D ++ names) <> None.

(* the answer to a program that ran to its end *)
Definition answer (r : res unit) : res bool :=
  match r with Ok _ => Ok true | Err e => Err e | Panic => Panic end.
(* the state in which the program of a file starts *)
Definition started (s : state) (known : list (list chars)) (place : list chars) : state :=
  State known (load_path s) (root s) (ERun place :: past s).
(* the file is run if it is not known yet *)
Definition loads_once (parse : chars -> option (list act)) (exec : list chars -> list act -> state -> option (ans unit))
    (s : state) (place : list chars) (r : option (ans bool)) : Prop :=
  (In place (files s) -> r = Some (s, Ok false)) /\
  (~ In place (files s) -> forall t acts s2 r2,
     node_at (root s) place = Some (FFile t) -> parse t = Some acts ->
     exec place acts (started s (files s ++ [place]) place) = Some (s2, r2) -> r = Some (s2, answer r2)).
