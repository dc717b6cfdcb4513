(** The methods of Array that call a block for the elements: builtin/array.rs.

    The block is a parameter: a relation between its arguments, the state, its
    outcome and the state afterwards, and may do anything, also to the array.
    Values, the ways of leaving a block without a value (exceptions, break, ...)
    and everything in the state but the array are parameters.  Simplifications:
    calls without a block (enumerators: C80) and with an argument instead of a block are left out; binding
    the arguments to the parameters of the block is part of the block (C36). *)
From Coq Require Import List Arith Bool.
Import ListNotations.

(** value/array.rs:108-110 [ArrayInfo]: a SmallVec, that is the place of its buffer
    (inside the object up to 4 elements, else on the Rust heap), the buffer and
    how much of it is used.  Places are given out in increasing order and
    never again. *)
Record vec (V : Type) := mkvec { place : nat; slots : list V; used : nat }.
Arguments mkvec {V}. Arguments place {V}. Arguments slots {V}. Arguments used {V}.
Record ist (V W : Type) := mkist { arr : vec V; others : W }.
Arguments mkist {V W}. Arguments arr {V W}. Arguments others {V W}.
(** how a block ends *)
Inductive bend (V X : Type) := Gives (v : V) | Leaves (x : X).
Arguments Gives {V X}. Arguments Leaves {V X}.
(** what a method gives: the receiver, new arrays, a value, an index, nil, a boolean *)
Inductive given (V : Type) := Self | New (l : list V) | New2 (l1 l2 : list V) | One (v : V) | Index (n : nat) | Nothing | Truth (b : bool).
Arguments Self {V}. Arguments New {V}. Arguments New2 {V}. Arguments One {V}. Arguments Index {V}. Arguments Nothing {V}. Arguments Truth {V}.
(** how a method ends; [Wild]: memory is read that was given back, which has no defined result *)
Inductive mend (A X : Type) := Normal (a : A) | Out (x : X) | Panics | Wild.
Arguments Normal {A X}. Arguments Out {A X}. Arguments Panics {A X}. Arguments Wild {A X}.

Fixpoint put {V} (l : list V) (i : nat) (v : V) : list V :=
  match l, i with
  | [], _ => []
  | _ :: l, O => v :: l
  | x :: l, S i => x :: put l i v
  end.
(** SmallVec push, pop and indexed assignment.  Simplification: a new buffer has room for
    as many elements again, with anything in it. *)
Definition vpush {V} (a : vec V) (v : V) : vec V :=
  if used a <? length (slots a) then mkvec (place a) (put (slots a) (used a) v) (S (used a))
  else mkvec (S (place a)) (firstn (used a) (slots a) ++ repeat v (S (used a))) (S (used a)).
Definition vpop {V} (a : vec V) : vec V := mkvec (place a) (slots a) (used a - 1).
Definition vset {V} (a : vec V) (i : nat) (v : V) : option (vec V) :=
  if i <? used a then Some (mkvec (place a) (put (slots a) i v) (used a)) else None.
(** [aref[i]]: value/array.rs:118-124 gives the slice of the moment, whose bounds are checked *)
Definition vget {V} (a : vec V) (i : nat) : option V := if i <? used a then nth_error (slots a) i else None.

Section Iter.
Variable V W X : Type.
Notation st := (ist V W).
Variable truthy : V -> bool.                     (* value.rs:1237-1239 to_bool *)
Variable int : nat -> V.                         (* Value::integer *)
Variable as_array : st -> V -> option (list V).  (* value.rs as_array, and the elements *)
Variable same : V -> V -> bool.                  (* HashKey's equality (C20) *)
Variable B : list V -> st -> bend V X -> st -> Prop.
Notation result := (mend (given V) X).

(** ** Loops that look at the array anew for every element *)
(** array.rs:409-414, 424-429, 469-474, 487-492, 505-509: [while i < aref.len()].  [args]: what
    the block gets; [after]: what is done with its value at once; the values are
    kept. *)
Inductive while_loop (args : nat -> V -> list V) (after : st -> nat -> V -> option st) :
  nat -> list V -> st -> mend (list V) X -> st -> Prop :=
| W_end i acc s : used (arr s) <= i -> while_loop args after i acc s (Normal acc) s
| W_bounds i acc s : i < used (arr s) -> vget (arr s) i = None -> while_loop args after i acc s Panics s
| W_out i acc s v x s' : i < used (arr s) -> vget (arr s) i = Some v -> B (args i v) s (Leaves x) s' ->
    while_loop args after i acc s (Out x) s'
| W_store i acc s v r s' : i < used (arr s) -> vget (arr s) i = Some v -> B (args i v) s (Gives r) s' -> after s' i r = None ->
    while_loop args after i acc s Panics s'
| W_more i acc s v r s1 s2 o s' : i < used (arr s) -> vget (arr s) i = Some v -> B (args i v) s (Gives r) s1 -> after s1 i r = Some s2 ->
    while_loop args after (S i) (acc ++ [r]) s2 o s' -> while_loop args after i acc s o s'.
Definition ended {A} (f : A -> given V) (o : mend A X) : result :=
  match o with Normal a => Normal (f a) | Out x => Out x | Panics => Panics | Wild => Wild end.
Definition only (_ : nat) (v : V) : list V := [v].
Definition leave (s : st) (_ : nat) (_ : V) : option st := Some s.
(** array.rs:427: [aref[i] = ...], of the array after the call *)
Definition replace (s : st) (i : nat) (r : V) : option st :=
  match vset (arr s) i r with Some a => Some (mkist a (others s)) | None => None end.
(** array.rs:465-476 each, 483-494 each_index, 501-511 each_with_index, 402-418 map, 420-432 map! *)
Definition a_each (s : st) (r : result) (s' : st) : Prop :=
  exists o, while_loop only leave 0 [] s o s' /\ r = ended (fun _ => Self) o.
Definition a_each_index (s : st) (r : result) (s' : st) : Prop :=
  exists o, while_loop (fun i _ => [int i]) leave 0 [] s o s' /\ r = ended (fun _ => Self) o.
Definition a_each_with_index (s : st) (r : result) (s' : st) : Prop :=
  exists o, while_loop (fun i v => [v; int i]) leave 0 [] s o s' /\ r = ended (fun _ => Self) o.
Definition a_map (s : st) (r : result) (s' : st) : Prop :=
  exists o, while_loop only leave 0 [] s o s' /\ r = ended New o.
Definition a_map_ (s : st) (r : result) (s' : st) : Prop :=
  exists o, while_loop only replace 0 [] s o s' /\ r = ended (fun _ => Self) o.

(** ** Loops over the slice taken at the start *)
(** [for elem in aref.iter()], [for elem in &**aref]: the place and the length [n] of the slice
    are those at the start; the elements are read from the slots, used or not, as
    long as the buffer is there.  [args]: what the block gets, unless that panics;
    [again]: the element is read again after the call; [step]: go on, or return. *)
Section Slice.
Variable A : Type.
Variable p n : nat.
Variable args : A -> V -> st -> option (list V).
Variable again : bool.
Variable step : A -> nat -> V -> V -> st -> A + given V.
Inductive for_loop : nat -> A -> st -> mend (A + given V) X -> st -> Prop :=
| F_end i a s : n <= i -> for_loop i a s (Normal (inl a)) s
| F_gone i a s : i < n -> place (arr s) <> p -> for_loop i a s Wild s
| F_args i a s v : i < n -> place (arr s) = p -> nth_error (slots (arr s)) i = Some v -> args a v s = None ->
    for_loop i a s Panics s
| F_out i a s v l x s' : i < n -> place (arr s) = p -> nth_error (slots (arr s)) i = Some v -> args a v s = Some l ->
    B l s (Leaves x) s' -> for_loop i a s (Out x) s'
| F_lost i a s v l r s' : i < n -> place (arr s) = p -> nth_error (slots (arr s)) i = Some v -> args a v s = Some l ->
    B l s (Gives r) s' -> again = true -> place (arr s') <> p -> for_loop i a s Wild s'
| F_stop i a s v l r s' v' g : i < n -> place (arr s) = p -> nth_error (slots (arr s)) i = Some v -> args a v s = Some l ->
    B l s (Gives r) s' -> (if again then place (arr s') = p /\ nth_error (slots (arr s')) i = Some v' else v' = v) ->
    step a i v' r s' = inr g -> for_loop i a s (Normal (inr g)) s'
| F_more i a s v l r s1 v' a' o s' : i < n -> place (arr s) = p -> nth_error (slots (arr s)) i = Some v -> args a v s = Some l ->
    B l s (Gives r) s1 -> (if again then place (arr s1) = p /\ nth_error (slots (arr s1)) i = Some v' else v' = v) ->
    step a i v' r s1 = inl a' -> for_loop (S i) a' s1 o s' -> for_loop i a s o s'.
End Slice.
Definition one {A} (_ : A) (v : V) (_ : st) : option (list V) := Some [v].
Definition finish {A} (f : A -> given V) (x : A + given V) : given V := match x with inl a => f a | inr g => g end.
Definition over {A} args again step (f : A -> given V) (a0 : A) (s : st) (r : result) (s' : st) : Prop :=
  exists o, for_loop A (place (arr s)) (used (arr s)) args again step 0 a0 s o s' /\ r = ended (finish f) o.
(** array.rs:1129-1141 select, 1115-1127 reject, 513-532 partition *)
Definition a_select := over one true (fun (l : list V) _ v r _ => inl (if truthy r then l ++ [v] else l)) New [].
Definition a_reject := over one true (fun (l : list V) _ v r _ => inl (if negb (truthy r) then l ++ [v] else l)) New [].
Definition a_partition := over one true
  (fun (l : list V * list V) _ v r _ => inl (if truthy r then (fst l ++ [v], snd l) else (fst l, snd l ++ [v])))
  (fun l => New2 (fst l) (snd l)) ([], []).
(** array.rs:1143-1154 find, 1091-1113 find_index, 985-1018 any?, 1020-1053 all?, with a block *)
Definition a_find := over one true (fun (_ : unit) _ v r _ => if truthy r then inr (One v) else inl tt) (fun _ => Nothing) tt.
Definition a_find_index := over one false (fun (_ : unit) i _ r _ => if truthy r then inr (Index i) else inl tt) (fun _ => Nothing) tt.
Definition a_any := over one false (fun (_ : unit) _ _ r _ => if truthy r then inr (Truth true) else inl tt) (fun _ => Truth false) tt.
Definition a_all := over one false (fun (_ : unit) _ _ r _ => if negb (truthy r) then inr (Truth false) else inl tt) (fun _ => Truth true) tt.
(** array.rs:1080-1089 inject *)
Definition a_inject (init : V) := over (fun a v _ => Some [a; v]) false (fun (_ : V) _ _ r _ => inl r) One init.
(** array.rs:708-738 uniq with a block; the keys in [h], which is a set, and the elements kept *)
Definition a_uniq := over one true
  (fun (a : list V * list V) _ v r _ => inl (if existsb (same r) (fst a) then a else (r :: fst a, snd a ++ [v])))
  (fun a => New (snd a)) ([], []).
(** array.rs:434-458 flat_map; [req]: the number of required parameters of the block *)
Definition flat_args (req : nat) (_ : list V) (v : V) (s : st) : option (list V) :=
  match req with
  | 0 => Some []
  | 1 => Some [v]
  | _ => match as_array s v with
         | Some l => if length l <? req then None else Some (firstn req l)
         | None => Some [v]
         end
  end.
Definition a_flat_map (req : nat) := over (flat_args req) false
  (fun (l : list V) _ _ r s => inl (l ++ match as_array s r with Some m => m | None => [r] end)) New [].
End Iter.
Arguments while_loop {V W X}. Arguments for_loop {V W X}. Arguments over {V W X} B {A}. Arguments one {V W A}. Arguments ended {V X A}. Arguments finish {V A}.
Arguments only {V}. Arguments leave {V W}. Arguments replace {V W}. Arguments flat_args {V W}.
Arguments a_each {V W X}. Arguments a_each_index {V W X}. Arguments a_each_with_index {V W X}. Arguments a_map {V W X}. Arguments a_map_ {V W X}.
Arguments a_select {V W X}. Arguments a_reject {V W X}. Arguments a_partition {V W X}. Arguments a_find {V W X}. Arguments a_find_index {V W X}.
Arguments a_any {V W X}. Arguments a_all {V W X}. Arguments a_inject {V W X}. Arguments a_uniq {V W X}. Arguments a_flat_map {V W X}.
