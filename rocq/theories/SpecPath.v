(* What paths mean, without the functions of the model.  The file system itself (fnode, node_at, os_resolve) is the
   environment of ModelPath. *)
From Verif Require Import Base ModelText ModelPath.

(* a path as written: parts without slashes, with slashes between them *)
Fixpoint slashed (parts : list chars) : chars :=
  match parts with
  | [] => []
  | [p] => p
  | p :: r => p ++ 47%Z :: slashed r
  end.
Definition no_slash (part : chars) : Prop := ~ In 47%Z part.
Definition written (p : chars) (parts : list chars) : Prop := parts <> [] /\ Forall no_slash parts /\ p = slashed parts.
Definition absolute (p : chars) : Prop := exists q, p = 47%Z :: q.
Definition dot : chars := [46%Z].
Definition dotdot : chars := [46%Z; 46%Z].
Definition tilde : chars := [126%Z].
(* a part that is the name of something *)
Definition is_name (part : chars) : Prop := part <> [] /\ part <> dot /\ part <> dotdot.

(* a part without the meaning of . and .. *)
Definition plain (part : chars) : Prop := part = [] \/ is_name part.

(* the names in a path: its parts that are not empty *)
Inductive full : list chars -> list chars -> Prop :=
| full_nil : full [] []
| full_skip ps ns : full ps ns -> full ([] :: ps) ns
| full_keep p ps ns : p <> [] -> full ps ns -> full (p :: ps) (p :: ns).
Definition words (p : chars) (ns : list chars) : Prop := exists parts, written p parts /\ full parts ns.

(* the strings among nested arrays, from left to right *)
Inductive strings : list pval -> list chars -> Prop :=
| strings_nil : strings [] []
| strings_str s vs ss : strings vs ss -> strings (PStr s :: vs) (s :: ss)
| strings_ary l vs ss1 ss2 : strings l ss1 -> strings vs ss2 -> strings (PAry l :: vs) (ss1 ++ ss2).
(* something else among them *)
Inductive other : list pval -> Prop :=
| other_here vs : other (POther :: vs)
| other_in l vs : other l -> other (PAry l :: vs)
| other_later v vs : other vs -> other (v :: vs).

(* from the directory [place], which is given by the names that lead to it from the root *)
Inductive goes : list chars -> list chars -> list chars -> Prop :=
| goes_nil place : goes place [] place
| goes_stay place part parts place2 : part = [] \/ part = dot -> goes place parts place2 -> goes place (part :: parts) place2
| goes_top parts place2 : goes [] parts place2 -> goes [] (dotdot :: parts) place2
| goes_up place n parts place2 : goes place parts place2 -> goes (place ++ [n]) (dotdot :: parts) place2
| goes_down place n parts place2 : is_name n -> goes (place ++ [n]) parts place2 -> goes place (n :: parts) place2.
(* the place as an absolute path *)
Definition abs_text (place : list chars) : chars := match place with [] => [47%Z] | _ => 47%Z :: slashed place end.
Definition proper (place : list chars) : Prop := Forall (fun n => is_name n /\ no_slash n) place.
Definition begins (base : list chars) (p : chars) (start : list chars) : Prop :=
  (absolute p /\ start = []) \/ (~ absolute p /\ start = base).

(* lines with newlines between them *)
Fixpoint lined (lines : list chars) : chars :=
  match lines with
  | [] => []
  | [l] => l
  | l :: r => l ++ 10%Z :: lined r
  end.
Definition no_newline (l : chars) : Prop := ~ In 10%Z l.
(* the number of bytes of a text in UTF-8 *)
Fixpoint octets (s : chars) : Z :=
  match s with
  | [] => 0
  | c :: s => (if c <? 128 then 1 else if c <? 2048 then 2 else if c <? 65536 then 3 else 4) + octets s
  end%Z.
