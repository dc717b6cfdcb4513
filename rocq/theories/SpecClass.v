(* Vocabulary for C25-C28 and C70, independent of the walks of the model. *)
From Verif Require Import Base ModelArray ModelGC ModelClass.

(* results of walks, for any large enough fuel *)
Definition eventually (P : nat -> Prop) : Prop := exists N, forall fuel, (N <= fuel)%nat -> P fuel.

(* one operation of a program, and whole histories *)
Definition runs (site : Z -> Z) csite (o : op) (w w' : world) : Prop := eventually (fun fuel => exec site csite fuel o w = Ok w').
(* a module is not included into or prepended to itself *)
Definition op_ok (o : op) : Prop := match o with Include c m | Prepend c m => c <> m | _ => True end.

Inductive hist site csite : world -> Prop :=
| h_start : hist site csite world0
| h_step w o w' : hist site csite w -> op_ok o -> runs site csite o w w' -> hist site csite w'.
(* histories in which the 32-bit counters have not wrapped around *)
Inductive calm site csite : world -> Prop :=
| cl_start : calm site csite world0
| cl_step w o w' : calm site csite w -> op_ok o -> runs site csite o w w' -> version w <= version w' -> cversion w <= cversion w' -> calm site csite w'.

(* constant caches: include and prepend only while no constant read is cached *)
Definition live (w : world) : Prop := exists e, In e (ccache w) /\ ce_val e <> None /\ ce_version e = cversion w.

Definition quiet_op (o : op) (w : world) : Prop := match o with Include _ _ | Prepend _ _ => ~ live w | _ => True end.
Inductive quiet site csite : world -> Prop :=
| q_start : quiet site csite world0
| q_step w o w' : quiet site csite w -> op_ok o -> quiet_op o w -> runs site csite o w w' -> version w <= version w' -> cversion w <= cversion w' -> quiet site csite w'.

(* the methods a module itself defines; ancestor lists; the first definition *)
Definition own_method (w : world) (name a : Z) : option Z := match mods w a with Some m => assoc name (mtab (exts w (m_ext m))) | None => None end.
Fixpoint first_own (w : world) (name : Z) (l : list Z) : option Z :=
  match l with
  | [] => None
  | a :: r => match own_method w name a with Some f => Some f | None => first_own w name r end
  end.
Definition has_ancestors (w : world) (a : Z) (l : list Z) : Prop := eventually (fun f => ancestors w f a = Ok l).
Definition prepended (w : world) (a : Z) : bool := match mods w a with Some m => has_prepend m | None => false end.
Inductive reaches (w : world) : Z -> Z -> Prop :=
| r_here a : reaches w a a
| r_up a b c m : mods w a = Some m -> m_upper m = Some b -> reaches w b c -> reaches w a c.

(* the uncached lookup *)
Definition look (w : world) (name c : Z) (r : option (Z * Z)) : Prop := eventually (fun fuel => search_method w fuel name c = Ok r).

(* the ancestors as seen by a subclass: without the class itself when it has prepended modules *)
Definition shown (w : world) (a : Z) (l : list Z) : list Z := if prepended w a then tl l else l.

Definition own_const (w : world) (id a : Z) : option Z := match mods w a with Some m => assoc id (ctab (exts w (m_ext m))) | None => None end.
Fixpoint first_const (w : world) (id : Z) (l : list Z) : option Z :=
  match l with
  | [] => None
  | a :: r => match own_const w id a with Some v => Some v | None => first_const w id r end
  end.

Definition const_path (w : world) (scope : list Z) (cls : Z) (anc : list Z) (object : Z) : list Z :=
  rev scope ++ anc ++ if module_p w cls then [object] else [].

Definition reads csite (w : world) (slot v : Z) : Prop :=
  let '((scope, cls), (id, ob)) := csite slot in eventually (fun f => find_const w f scope cls id ob = Ok v).

(* the part of a list after the first occurrence of o *)
Fixpoint after (o : Z) (l : list Z) : list Z :=
  match l with
  | [] => []
  | a :: r => if a =? o then r else after o r
  end.
(* no module refers to a *)
Definition unreferenced (w : world) (a : Z) : Prop := forall x m, mods w x = Some m -> m_upper m <> Some a /\ m_class m <> a.
(* a singleton class *)
Definition single (w : world) (a : Z) : bool := is_singleton (exts w (match mods w a with Some m => m_ext m | None => 0 end)).
