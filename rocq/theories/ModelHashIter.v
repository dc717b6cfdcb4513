(** The methods of Hash that call a block for the entries: builtin/hash.rs.

    As in ModelIter the block is a relation between its arguments, the state, its outcome
    and the state afterwards; it may do anything, also to the hash.  Simplifications: binding the
    arguments to the parameters of the block is part of the block (C36); calls without a block
    raise an error and are left out. *)
From Coq Require Import List Arith Bool.
From Verif Require Import ModelIter.
Import ListNotations.

(** value/hash.rs:5-9: both kinds of hash are an IndexMap, whose entries are a Vec: the place of the
    buffer, the buffer and how much of it is used, as in ModelIter.  An entry is a key and
    its value (the hash code beside them is left out). *)
Record hst (V W : Type) := mkhst { tab : vec (V * V); rest : W }.
Arguments mkhst {V W}. Arguments tab {V W}. Arguments rest {V W}.

Section HashIter.
Variable V W X : Type.
Notation st := (hst V W).
Notation table := (vec (V * V)).
Variable truthy : V -> bool.                     (* value.rs:1237-1239 to_bool *)
Variable same : V -> V -> bool.                  (* the equality of keys (C20), or of objects after compare_by_identity *)
Variable B : list V -> st -> bend V X -> st -> Prop.

(** ** The table *)
(** the position of a key among the entries in use *)
Fixpoint position (k : V) (l : list (V * V)) : option nat :=
  match l with
  | [] => None
  | e :: l => if same k (fst e) then Some 0 else match position k l with Some i => Some (S i) | None => None end
  end.
Definition in_use (t : table) : list (V * V) := firstn (used t) (slots t).
(** value/hash.rs:251-256 insert: IndexMap::insert puts the value beside the key that is there, or pushes
    an entry onto the Vec, which moves to a new buffer when there is no room *)
Definition t_insert (t : table) (k v : V) : table :=
  match position k (in_use t) with
  | Some i => match nth_error (slots t) i with
              | Some e => mkvec (place t) (put (slots t) i (fst e, v)) (used t)
              | None => t
              end
  | None => vpush t (k, v)
  end.
(** value/hash.rs:258-263 remove: IndexMap::remove is swap_remove; the last entry is copied to the place of
    the removed one and what it leaves stays in the buffer *)
Definition t_remove (t : table) (k : V) : table :=
  match position k (in_use t) with
  | Some i => match nth_error (slots t) (used t - 1) with
              | Some e => mkvec (place t) (put (slots t) i e) (used t - 1)
              | None => t
              end
  | None => t
  end.
(** value/hash.rs:244-249 clear: the buffer stays *)
Definition t_clear (t : table) : table := mkvec (place t) (slots t) 0.

(** ** The loops *)
(** [for (k, v) in hash.iter()]: the iterator of the Vec's slice has the place and the length [n]
    of the start; value/hash.rs:175-180 copies key and value before the call.  [args]: what the block
    gets; [step]: what is done with its value. *)
Section Loop.
Variable A : Type.
Variable p n : nat.
Variable args : V * V -> list V.
Variable step : A -> V * V -> V -> A.
Inductive h_loop : nat -> A -> st -> mend A X -> st -> Prop :=
| H_end i a s : n <= i -> h_loop i a s (Normal a) s
| H_gone i a s : i < n -> place (tab s) <> p -> h_loop i a s Wild s
| H_out i a s e x s' : i < n -> place (tab s) = p -> nth_error (slots (tab s)) i = Some e ->
    B (args e) s (Leaves x) s' -> h_loop i a s (Out x) s'
| H_more i a s e r s1 o s' : i < n -> place (tab s) = p -> nth_error (slots (tab s)) i = Some e ->
    B (args e) s (Gives r) s1 -> h_loop (S i) (step a e r) s1 o s' -> h_loop i a s o s'.
End Loop.
(** what a method gives: the receiver or a new hash with these entries *)
Inductive hgiven := HSelf | HNew (l : list (V * V)).
Definition hover {A} (args : V * V -> list V) (step : A -> V * V -> V -> A) (f : A -> hgiven) (a0 : A)
  (s : st) (r : mend hgiven X) (s' : st) : Prop :=
  exists o, h_loop A (place (tab s)) (used (tab s)) args step 0 a0 s o s' /\
    r = match o with Normal a => Normal (f a) | Out x => Out x | Panics => Panics | Wild => Wild end.
(** builtin/hash.rs:206-215 each (and each_pair), 191-202 each_key, 178-189 each_value *)
Definition hash_each := hover (fun e => [fst e; snd e]) (fun (_ : unit) _ _ => tt) (fun _ => HSelf) tt.
Definition hash_each_key := hover (fun e => [fst e]) (fun (_ : unit) _ _ => tt) (fun _ => HSelf) tt.
Definition hash_each_value := hover (fun e => [snd e]) (fun (_ : unit) _ _ => tt) (fun _ => HSelf) tt.
(** FxIndexMap::insert into the hash that is built, whose buffer nothing else uses *)
Fixpoint ins (l : list (V * V)) (k v : V) : list (V * V) :=
  match l with
  | [] => [(k, v)]
  | e :: l => if same k (fst e) then (fst e, v) :: l else e :: ins l k v
  end.
(** builtin/hash.rs:113-124 select, 128-139 reject *)
Definition hash_select := hover (fun e => [fst e; snd e])
  (fun (m : list (V * V)) e r => if truthy r then ins m (fst e) (snd e) else m) HNew [].
Definition hash_reject := hover (fun e => [fst e; snd e])
  (fun (m : list (V * V)) e r => if negb (truthy r) then ins m (fst e) (snd e) else m) HNew [].
End HashIter.
Arguments position {V}. Arguments in_use {V}. Arguments t_insert {V}. Arguments t_remove {V}. Arguments t_clear {V}. Arguments ins {V}.
Arguments h_loop {V W X} B {A}. Arguments hover {V W X} B {A}. Arguments HSelf {V}. Arguments HNew {V}.
Arguments hash_each {V W X}. Arguments hash_each_key {V W X}. Arguments hash_each_value {V W X}.
Arguments hash_select {V W X}. Arguments hash_reject {V W X}.
