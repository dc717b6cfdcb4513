(* The sorting routine used by Array#sort, Array#sort_by, Hash#sort and others.
   Modelled: ruruby/src/vm/executor/opt_core.rs 804-1074 (sort_by, merge_sort,
   collapse, insert_head, merge) and ruruby/src/vm/executor.rs 714-732.
   The array being sorted is mutable state: a computation takes the program
   state S (whatever the comparison block can change) and the current contents
   and returns both, also when it stops with an exception. The block cannot
   change the array being sorted: the Rust callers sort a private Vec.
   Indices are usize; every subtraction of the Rust code is under a match or a
   guard, and every raw access outside the slice or the buffer is Panic. *)
From Verif Require Import Base.

Section Sort.
  Context {S A : Type}.
  (* the comparison callback: is_less *)
  Variable f : S -> A -> A -> S * res bool.

  Definition M (B : Type) : Type := S -> list A -> S * list A * res B.
  Definition mret {B} (b : B) : M B := fun s v => (s, v, Ok b).
  Definition mpanic {B} : M B := fun s v => (s, v, Panic).
  (* `?` and sequencing *)
  Definition mbind {B C} (m : M B) (k : B -> M C) : M C := fun s v =>
    match m s v with
    | (s', v', Ok b) => k b s' v'
    | (s', v', Err e) => (s', v', Err e)
    | (s', v', Panic) => (s', v', Panic)
    end.
  (* reading and writing one cell *)
  Definition mget (i : nat) : M A := fun s v =>
    match nth_error v i with Some x => (s, v, Ok x) | None => (s, v, Panic) end.
  Definition put (v : list A) (i : nat) (x : A) : list A := firstn i v ++ x :: skipn (1 + i) v.
  Definition mset (i : nat) (x : A) : M unit := fun s v =>
    if Nat.ltb i (length v) then (s, put v i x, Ok tt) else (s, v, Panic).
  Definition mlen : M nat := fun s v => (s, v, Ok (length v)).
  (* copying [src] over the cells from [dst] on *)
  Definition copy_in (src : list A) (dst : nat) : M unit := fun s v =>
    if Nat.leb (dst + length src) (length v)
    then (s, firstn dst v ++ src ++ skipn (dst + length src) v, Ok tt)
    else (s, v, Panic).
  (* calling the comparison while a hole is open: on an exception the Drop
     handler [cl] of the hole runs before the exception leaves the function *)
  Definition mcall (x y : A) (cl : M unit) : M bool := fun s v =>
    match f s x y with
    | (s', Ok b) => (s', v, Ok b)
    | (s', Err k) => match cl s' v with (s2, v2, Ok _) => (s2, v2, Err k) | (s2, v2, _) => (s2, v2, Panic) end
    | (s', Panic) => match cl s' v with (s2, v2, _) => (s2, v2, Panic) end
    end.
  Definition mcall0 (x y : A) : M bool := mcall x y (mret tt).
  (* &mut v[lo..hi] *)
  Definition on_slice {B} (lo hi : nat) (m : M B) : M B := fun s v =>
    if Nat.leb lo hi && Nat.leb hi (length v) then
      let '(s', w, r) := m s (firstn (hi - lo) (skipn lo v)) in
      (s', firstn lo v ++ w ++ skipn hi v, r)
    else (s, v, Panic).

  (* opt_core.rs 942-950: `for i in 2..v.len()`; [n] iterations left; the hole
     is at [dest] and filled by InsertionHole::drop 960-966 on every exit *)
  Fixpoint ih_loop (tmp : A) (dest i n : nat) : M unit :=
    match n with
    | O => mset dest tmp
    | Datatypes.S n' =>
        mbind (mget i) (fun x =>
        mbind (mcall x tmp (mset dest tmp)) (fun b =>
        if b then mbind (mset (i - 1) x) (fun _ => ih_loop tmp i (1 + i) n')
        else mset dest tmp))
    end.
  (* opt_core.rs 927-952 *)
  Definition insert_head : M unit :=
    mbind mlen (fun len =>
    if Nat.leb 2 len then
      mbind (mget 1) (fun x1 => mbind (mget 0) (fun x0 =>
      mbind (mcall0 x1 x0) (fun b =>
      if b then mbind (mset 0 x1) (fun _ => ih_loop x0 1 2 (len - 2)) else mret tt)))
    else mret tt).

  (* opt_core.rs 984-1013: the left run is in [buf]; [left] indexes buf, [right]
     and [out] index v. copy_nonoverlapping with equal source and destination
     would be undefined: Panic. MergeHole::drop 1063-1071 on every exit. *)
  Fixpoint merge_fwd (fuel : nat) (buf : list A) (left right out vend : nat) : M unit :=
    match fuel with
    | O => mpanic
    | Datatypes.S fuel' =>
        if Nat.ltb left (length buf) && Nat.ltb right vend then
          mbind (mget right) (fun r =>
          match nth_error buf left with
          | None => mpanic
          | Some l =>
              mbind (mcall r l (copy_in (skipn left buf) out)) (fun b =>
              if b then if Nat.eqb right out then mpanic
                        else mbind (mset out r) (fun _ => merge_fwd fuel' buf left (1 + right) (1 + out) vend)
              else mbind (mset out l) (fun _ => merge_fwd fuel' buf (1 + left) right (1 + out) vend))
          end)
        else copy_in (skipn left buf) out
    end.
  (* opt_core.rs 1014-1042: the right run is in [buf]; [left] (= hole.dest) and
     [out] index v, [right] (= hole.end) indexes buf; all three are past-the-end *)
  Fixpoint merge_bwd (fuel : nat) (buf : list A) (left right out : nat) : M unit :=
    match fuel with
    | O => mpanic
    | Datatypes.S fuel' =>
        match left, right with
        | Datatypes.S l', Datatypes.S r' =>
            match nth_error buf r', out with
            | Some x, Datatypes.S o' =>
                mbind (mget l') (fun y =>
                mbind (mcall x y (copy_in (firstn right buf) left)) (fun b =>
                if b then if Nat.eqb l' o' then mpanic
                          else mbind (mset o' y) (fun _ => merge_bwd fuel' buf l' right o')
                else mbind (mset o' x) (fun _ => merge_bwd fuel' buf left r' o')))
            | _, _ => mpanic
            end
        | _, _ => copy_in (firstn right buf) left
        end
    end.
  (* opt_core.rs 969-1043; [cap] is the capacity of the buffer (843) *)
  Definition merge (mid cap : nat) : M unit := fun s v =>
    let len := length v in
    if negb (Nat.leb mid len) then (s, v, Panic)
    else if Nat.leb mid (len - mid) then
      if Nat.ltb cap mid then (s, v, Panic)
      else merge_fwd (1 + len) (firstn mid v) 0 mid 0 len s v
    else
      if Nat.ltb cap (len - mid) then (s, v, Panic)
      else merge_bwd (1 + len) (skipn mid v) mid (len - mid) len s v.

  (* opt_core.rs 921-925; runs are kept with the last pushed one first *)
  Record run : Type := Run { rstart : nat; rlen : nat }.
  (* opt_core.rs 901-919. Some false = Some(n-2), Some true = Some(n-3) *)
  Definition collapse (runs : list run) : option bool :=
    match runs with
    | r1 :: r2 :: rest =>
        if Nat.eqb (rstart r1) 0 || Nat.leb (rlen r2) (rlen r1)
           || match rest with r3 :: _ => Nat.leb (rlen r3) (rlen r2 + rlen r1) | [] => false end
           || match rest with r3 :: r4 :: _ => Nat.leb (rlen r4) (rlen r3 + rlen r2) | _ => false end
        then Some (match rest with r3 :: _ => Nat.ltb (rlen r3) (rlen r1) | [] => false end)
        else None
    | _ => None
    end.
  (* opt_core.rs 881-896 *)
  Fixpoint collapse_loop (fuel : nat) (cap : nat) (runs : list run) : M (list run) :=
    match fuel with
    | O => mpanic
    | Datatypes.S fuel' =>
        match collapse runs, runs with
        | None, _ => mret runs
        | Some false, l :: r :: rest =>
            mbind (on_slice (rstart l) (rstart r + rlen r) (merge (rlen l) cap)) (fun _ =>
            collapse_loop fuel' cap (Run (rstart l) (rlen l + rlen r) :: rest))
        | Some true, t :: l :: r :: rest =>
            mbind (on_slice (rstart l) (rstart r + rlen r) (merge (rlen l) cap)) (fun _ =>
            collapse_loop fuel' cap (t :: Run (rstart l) (rlen l + rlen r) :: rest))
        | _, _ => mpanic
        end
    end.

  (* opt_core.rs 853-865: walk back while the answer is [want] *)
  Fixpoint run_back (want : bool) (start : nat) : M nat :=
    match start with
    | O => mret O
    | Datatypes.S p =>
        mbind (mget start) (fun x => mbind (mget p) (fun y =>
        mbind (mcall0 x y) (fun b => if Bool.eqb b want then run_back want p else mret start)))
    end.
  Definition mrev (lo hi : nat) : M unit := on_slice lo hi (fun s w => (s, rev w, Ok tt)).
  (* opt_core.rs 847-868; [e] is `end` > 0 *)
  Definition find_run (e : nat) : M nat :=
    match e with
    | Datatypes.S (Datatypes.S start) =>
        mbind (mget (1 + start)) (fun x => mbind (mget start) (fun y =>
        mbind (mcall0 x y) (fun b =>
        if b then mbind (run_back true start) (fun st => mbind (mrev st e) (fun _ => mret st))
        else run_back false start)))
    | Datatypes.S O => mret O
    | O => mpanic
    end.
  Definition MAX_INSERTION : nat := 20. (* 823 *)
  Definition MIN_RUN : nat := 10. (* 825 *)
  (* opt_core.rs 870-875 *)
  Fixpoint extend_run (start e : nat) : M nat :=
    match start with
    | Datatypes.S p =>
        if Nat.ltb (e - start) MIN_RUN
        then mbind (on_slice p e insert_head) (fun _ => extend_run p e)
        else mret start
    | O => mret O
    end.
  (* opt_core.rs 845-897 *)
  Fixpoint sort_loop (fuel : nat) (cap : nat) (runs : list run) (e : nat) : M (list run) :=
    match e with
    | O => mret runs
    | Datatypes.S _ =>
        match fuel with
        | O => mpanic
        | Datatypes.S fuel' =>
            mbind (find_run e) (fun st => mbind (extend_run st e) (fun st2 =>
            mbind (collapse_loop (2 + length runs) cap (Run st2 (e - st2) :: runs)) (fun runs' =>
            sort_loop fuel' cap runs' st2)))
        end
    end.
  (* opt_core.rs 830-836: for i in (0..len-1).rev() *)
  Fixpoint ins_loop (i len : nat) : M unit :=
    match i with
    | O => mret tt
    | Datatypes.S i' => mbind (on_slice i' len insert_head) (fun _ => ins_loop i' len)
    end.
  (* opt_core.rs 818-899; the debug_assert 898 is part of the model *)
  Definition merge_sort : M unit :=
    mbind mlen (fun len =>
    if Nat.leb len MAX_INSERTION then
      if Nat.leb 2 len then ins_loop (len - 1) len else mret tt
    else
      mbind (sort_loop len (len / 2) [] len) (fun runs =>
      match runs with
      | [r] => if Nat.eqb (rstart r) 0 && Nat.eqb (rlen r) len then mret tt else mpanic
      | _ => mpanic
      end)).
End Sort.

(* opt_core.rs 804-816: only `== Less` of the three-way answer is used *)
Definition less_of {S A} (cmp : S -> A -> A -> S * res comparison) : S -> A -> A -> S * res bool :=
  fun s a b => match cmp s a b with
               | (s', Ok Lt) => (s', Ok true)
               | (s', Ok _) => (s', Ok false)
               | (s', Err k) => (s', Err k)
               | (s', Panic) => (s', Panic)
               end.
Definition sort_by {S A} (cmp : S -> A -> A -> S * res comparison) (s : S) (v : list A) : S * list A * res unit :=
  merge_sort (less_of cmp) s v.

(* value/value.rs 1164-1184 to_ordering, on the integer answers of a block
   (anything else is an error); None stands for a non-integer answer *)
Definition to_ordering (o : option Z) : res comparison :=
  match o with Some i => Ok (Z.compare i 0) | None => Err ArgErr end.
(* builtin/array.rs 953-957: sort with a block; [blk s a b] is the block's answer *)
Definition sort_block {S A} (blk : S -> A -> A -> S * res (option Z)) : S -> list A -> S * list A * res unit :=
  sort_by (fun s a b => match blk s a b with
                        | (s', Ok o) => (s', to_ordering o)
                        | (s', Err k) => (s', Err k)
                        | (s', Panic) => (s', Panic)
                        end).

(* vm/executor.rs 714-732 sort_array. [ec x y] is the pure eval_compare(y, x),
   i.e. x <=> y: None for nil. *)
Definition sort_array {A} (ec : A -> A -> option Z) (v : list A) : res (list A) :=
  match v with
  | [] => Ok []
  | x :: r =>
      if existsb (fun y => match ec x y with None => true | Some _ => false end) r then Err ArgErr
      else match sort_block (fun (s : unit) a b => (s, Ok (ec a b))) tt v with
           | (_, v', Ok _) => Ok v'
           | (_, _, Err k) => Err k
           | (_, _, Panic) => Panic
           end
  end.

(* builtin/array.rs 966-983 sort_by with a block computing keys: decorate,
   sort on the keys, undecorate. [keyf] may raise. *)
Fixpoint decorate {S A K} (keyf : S -> A -> S * res K) (s : S) (l : list A) : S * res (list (A * K)) :=
  match l with
  | [] => (s, Ok [])
  | x :: r => match keyf s x with
              | (s', Ok k) => match decorate keyf s' r with
                              | (s2, Ok t) => (s2, Ok ((x, k) :: t))
                              | o => o
                              end
              | (s', Err e) => (s', Err e)
              | (s', Panic) => (s', Panic)
              end
  end.
Definition array_sort_by {S A K} (keyf : S -> A -> S * res K) (ec : S -> K -> K -> S * res (option Z))
  (s : S) (l : list A) : S * res (list A) :=
  match decorate keyf s l with
  | (s1, Ok d) =>
      match sort_block (fun s a b => ec s (snd a) (snd b)) s1 d with
      | (s2, d', Ok _) => (s2, Ok (map fst d'))
      | (s2, _, Err k) => (s2, Err k)
      | (s2, _, Panic) => (s2, Panic)
      end
  | (s1, Err k) => (s1, Err k)
  | (s1, Panic) => (s1, Panic)
  end.
