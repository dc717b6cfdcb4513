(* Fixed-width machine words as integers, with explicit wrapping.
   Rust semantics of u64/i64 casts and shifts used throughout /repo. *)
From Coq Require Export ZArith List Bool Lia.
From Coq Require Export ZifyBool.
Export ListNotations.
Open Scope Z_scope.

(* `x as u64` for a value of any integer type (two's complement wrap). *)
Definition u64 (z : Z) : Z := z mod 2 ^ 64.
(* `x as i64`. *)
Definition i64 (z : Z) : Z :=
  let m := z mod 2 ^ 64 in if m <? 2 ^ 63 then m else m - 2 ^ 64.
(* `x as u32`, `x as i32`, `x as u8`. *)
Definition u32 (z : Z) : Z := z mod 2 ^ 32.
Definition i32 (z : Z) : Z :=
  let m := z mod 2 ^ 32 in if m <? 2 ^ 31 then m else m - 2 ^ 32.
Definition u8 (z : Z) : Z := z mod 2 ^ 8.
Definition u16 (z : Z) : Z := z mod 2 ^ 16.

Definition in_u64 (z : Z) : bool := (0 <=? z) && (z <? 2 ^ 64).
Definition in_i64 (z : Z) : bool := (- 2 ^ 63 <=? z) && (z <? 2 ^ 63).
Definition in_i63 (z : Z) : bool := (- 2 ^ 62 <=? z) && (z <? 2 ^ 62).
Definition in_u32 (z : Z) : bool := (0 <=? z) && (z <? 2 ^ 32).
Definition in_i32 (z : Z) : bool := (- 2 ^ 31 <=? z) && (z <? 2 ^ 31).

(* `!x` for u64. *)
Definition not64 (z : Z) : Z := 2 ^ 64 - 1 - z.
(* u64::rotate_left / rotate_right. *)
Definition rotl64 (z k : Z) : Z := Z.lor (u64 (Z.shiftl z k)) (Z.shiftr z (64 - k)).
Definition rotr64 (z k : Z) : Z := Z.lor (Z.shiftr z k) (u64 (Z.shiftl z (64 - k))).

(* A Rust computation that may return Err(RubyError) or panic. *)
Inductive rkind : Set :=
  | ZeroDiv | NoMethodErr | TypeErr | ArgErr | IndexErr | RangeErr | NameErr
  | FloatDomain | FiberErr | FrozenErr | LocalJumpErr | StopIter | OtherErr.
Inductive res (A : Type) : Type :=
  | Ok (a : A)
  | Err (k : rkind)
  | Panic.
Arguments Ok {A} a.
Arguments Err {A} k.
Arguments Panic {A}.

Definition rbind {A B} (r : res A) (f : A -> res B) : res B :=
  match r with Ok a => f a | Err k => Err k | Panic => Panic end.
Notation "x <- r ;; e" := (rbind r (fun x => e)) (at level 61, r at next level, right associativity).
