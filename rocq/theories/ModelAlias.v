(** Arrays as objects: the methods of ruruby/src/builtin/array.rs that change their
    receiver and those that make a new array, over a heap of arrays that may
    contain each other and themselves.  (ModelArray.v has the contents only.) *)
From Coq Require Import ZArith List Bool Arith.
From Verif Require Import Base ModelArray.
Import ListNotations.

(** Values: nil, anything that is not an array, and references to arrays. *)
Inductive aval : Set := ANil | AObj (z : Z) | AArr (i : nat).
(** An array and the number of elements its memory has room for
    (value/array.rs:76, 107-110: a SmallVec with four words of its own). *)
Record acell : Set := mkcell { elems : list aval; room : nat }.
Definition aheap := list acell.
Definition contents (h : aheap) (i : nat) : list aval :=
  match nth_error h i with Some c => elems c | None => [] end.
Definition put (h : aheap) (i : nat) (c : acell) : aheap := firstn i h ++ c :: skipn (S i) h.
Definition ARRAY_INLINE : nat := 4.
(** ArrayInfo::new (value/array.rs:134-139), which takes over a Vec: memory for its
    elements, at least four.  Value::array_from (value.rs): a new object. *)
Definition new_info (l : list aval) : acell := mkcell l (Nat.max ARRAY_INLINE (length l)).
Definition array_from (l : list aval) (h : aheap) : aval * aheap := (AArr (length h), h ++ [new_info l]).
(** change the elements in place, within the memory there is *)
Definition set_elems (h : aheap) (i : nat) (l : list aval) : aheap :=
  match nth_error h i with Some c => put h i (mkcell l (Nat.max (room c) (length l))) | None => h end.
Definition is_self (i : nat) (v : aval) : bool := match v with AArr j => Nat.eqb i j | _ => false end.
Definition is_nil (v : aval) : bool := match v with ANil => true | _ => false end.

Definition ret := (aval * aheap)%type.
(** check_args_num *)
Definition no_args (args : list aval) (r : res ret) : res ret := match args with [] => r | _ => Err ArgErr end.

(** builtin/array.rs:546-552 *)
Definition a_reverse (args : list aval) (s : nat) (h : aheap) : res ret :=
  no_args args (Ok (array_from (rev (contents h s)) h)).
(** 554-559; slice::reverse *)
Definition a_reverse_bang (args : list aval) (s : nat) (h : aheap) : res ret :=
  no_args args (Ok (AArr s, set_elems h s (rev (contents h s)))).
(** 588-593 *)
Definition a_compact (args : list aval) (s : nat) (h : aheap) : res ret :=
  no_args args (Ok (array_from (filter (fun x => negb (is_nil x)) (contents h s)) h)).
(** 595-611 *)
Definition a_compact_bang (args : list aval) (s : nat) (h : aheap) : res ret :=
  no_args args
    (let (l, r) := compact_ is_nil (contents h s) in
     b <- r ;; Ok (if b : bool then AArr s else ANil, set_elems h s l)).
(** 687-694 *)
Definition a_fill (args : list aval) (s : nat) (h : aheap) : res ret :=
  match args with
  | [v] => Ok (AArr s, set_elems h s (map (fun _ => v) (contents h s)))
  | _ => Err ArgErr
  end.
(** 696-701 *)
Definition a_clear (args : list aval) (s : nat) (h : aheap) : res ret :=
  no_args args (Ok (AArr s, set_elems h s [])).
(** 817-835 *)
Definition a_first (args : list aval) (s : nat) (h : aheap) : res ret :=
  no_args args (Ok (match contents h s with [] => ANil | x :: _ => x end, h)).
Definition a_last (args : list aval) (s : nat) (h : aheap) : res ret :=
  no_args args (Ok (match rev (contents h s) with [] => ANil | x :: _ => x end, h)).
(** 837-841 *)
Definition a_dup (args : list aval) (s : nat) (h : aheap) : res ret :=
  no_args args (Ok (array_from (contents h s) h)).
(** 236-240 *)
Definition a_push (args : list aval) (s : nat) (h : aheap) : res ret :=
  Ok (AArr s, set_elems h s (contents h s ++ args)).
(** 287-296 *)
Definition a_unshift (args : list aval) (s : nat) (h : aheap) : res ret :=
  match args with
  | [] => Ok (AArr s, h)
  | _ => Ok (AArr s, match nth_error h s with Some c => put h s (new_info (args ++ elems c)) | None => h end)
  end.
(** 565-586; other arguments than Integers are errors *)
Definition a_rotate_bang (n : Z) (s : nat) (h : aheap) : res ret :=
  Ok (AArr s, set_elems h s (array_rotate (contents h s) n)).
(** 341-347 *)
Definition a_add (args : list aval) (s : nat) (h : aheap) : res ret :=
  match args with
  | [AArr o] => Ok (array_from (contents h s ++ contents h o) h)
  | [_] => Err TypeErr
  | _ => Err ArgErr
  end.
(** 349-355.  [rhs] is a slice of the memory of the other array.
    SmallVec::extend_from_slice first makes room, moving its elements to new memory
    and giving back the old if there is too little, and then copies from [rhs].
    If the other array is the same array and its memory has been given back, what
    is read is not defined ([Panic]). *)
Definition a_concat (args : list aval) (s : nat) (h : aheap) : res ret :=
  match args with
  | [AArr o] =>
      match nth_error h s with
      | Some c =>
          let n := length (contents h o) in
          if Nat.eqb o s && negb (Nat.eqb n 0) && Nat.ltb (room c) (length (elems c) + n) then Panic
          else Ok (AArr s, set_elems h s (elems c ++ contents h o))
      | None => Panic
      end
  | [_] => Err TypeErr
  | _ => Err ArgErr
  end.

Section Same.
(** HashKey equality (value/hash.rs:80-93) of two values in a heap *)
Variable same : aheap -> aval -> aval -> bool.
(** 708-739 without a block: [seen] is the FxHashSet, [r] is [recursive] *)
Fixpoint a_uniq_loop (h : aheap) (s : nat) (l seen : list aval) (r : bool) (v : list aval) : list aval :=
  match l with
  | [] => v
  | x :: l =>
      if is_self s x then
        if r then a_uniq_loop h s l seen r v else a_uniq_loop h s l seen true (v ++ [x])
      else if existsb (same h x) seen then a_uniq_loop h s l seen r v
      else a_uniq_loop h s l (x :: seen) r (v ++ [x])
  end.
Definition a_uniq (args : list aval) (s : nat) (h : aheap) : res ret :=
  no_args args (Ok (array_from (a_uniq_loop h s (contents h s) [] false []) h)).
(** 745-780 without a block *)
Definition a_uniq_test (h : aheap) (s : nat) (st : bool * list aval) (x : aval) : (bool * list aval) * res bool :=
  let (r, seen) := st in
  if is_self s x then if r then (st, Ok false) else ((true, seen), Ok true)
  else if existsb (same h x) seen then (st, Ok false) else ((r, x :: seen), Ok true).
Definition a_uniq_bang (args : list aval) (s : nat) (h : aheap) : res ret :=
  no_args args
    (let '(_, l, r) := retain (a_uniq_test h s) (false, []) (contents h s) in
     b <- r ;; Ok (if b : bool then AArr s else ANil, set_elems h s l)).
End Same.

(** 1270-1304 [ary_flatten]; [fuel] bounds the depth of the recursion: None is a
    recursion that is deeper.  The result is [res] and the flag. *)
Fixpoint flat_all (f : aval -> list aval -> option (res (list aval * bool))) (l acc : list aval) (flag : bool)
  : option (res (list aval * bool)) :=
  match l with
  | [] => Some (Ok (acc, flag))
  | x :: l =>
      match f x acc with
      | Some (Ok (acc', b)) => flat_all f l acc' (flag || b)
      | r => r
      end
  end.
Fixpoint ary_flat (fuel : nat) (h : aheap) (origin : nat) (level : option nat) (v : aval) (acc : list aval)
  : option (res (list aval * bool)) :=
  match fuel with
  | O => None
  | S k =>
      match level, v with
      | None, AArr i =>
          if Nat.eqb i origin then Some (Err ArgErr)
          else match flat_all (ary_flat k h origin None) (contents h i) acc true with
               | Some (Ok (acc', _)) => Some (Ok (acc', true))
               | r => r
               end
      | Some (S n), AArr i =>
          match flat_all (ary_flat k h origin (Some n)) (contents h i) acc true with
          | Some (Ok (acc', _)) => Some (Ok (acc', true))
          | r => r
          end
      | _, _ => Some (Ok (acc ++ [v], false))
      end
  end.
(** the argument, 1230-1240: none, or an Integer, of which a negative one counts as
    none.  The coercion of other objects is not modelled. *)
Definition level_of (arg : option Z) : option nat :=
  match arg with None => None | Some z => if (z <? 0)%Z then None else Some (Z.to_nat z) end.
(** 1230-1247 *)
Definition a_flatten (fuel : nat) (arg : option Z) (s : nat) (h : aheap) : option (res ret) :=
  match flat_all (ary_flat fuel h s (level_of arg)) (contents h s) [] false with
  | Some (Ok (l, _)) => Some (Ok (array_from l h))
  | Some (Err k) => Some (Err k)
  | Some Panic => Some Panic
  | None => None
  end.
(** 1249-1268 *)
Definition a_flatten_bang (fuel : nat) (arg : option Z) (s : nat) (h : aheap) : option (res ret) :=
  match flat_all (ary_flat fuel h s (level_of arg)) (contents h s) [] false with
  | Some (Ok (l, flag)) =>
      Some (Ok (if flag then AArr s else ANil,
                match nth_error h s with Some _ => put h s (new_info l) | None => h end))
  | Some (Err k) => Some (Err k)
  | Some Panic => Some Panic
  | None => None
  end.
