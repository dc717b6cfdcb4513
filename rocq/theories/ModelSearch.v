(* Array#bsearch, bsearch_index, min and max: builtin/array.rs. *)
From Verif Require Import Base ModelValue ModelFloat ModelArray.

Section Search.
Context {V S X : Type}.
(* what a block gives, as far as value.rs:1241-1251 tells values apart *)
Inductive answer : Type := ATrue | AFalse | ANil | AInt (n : Z) | AFloat (bits : Z) | AOther.
(* how a block ends; X: exceptions, break and the like *)
Inductive bout : Type := Answers (a : answer) | Leaves (x : X).
(* how a search ends *)
Inductive sout (A : Type) : Type := Found (a : A) | Absent | Stops (x : X) | NotAnswer | Crash.
Arguments Found {A}. Arguments Absent {A}. Arguments Stops {A}. Arguments NotAnswer {A}. Arguments Crash {A}.
(* The block is a function of its argument and the whole state, and may change
   the state and the array in it; blocks that never end are left out. *)
Variable elems : S -> list V.
Variable block : V -> S -> bout * S.

(* value.rs:1241-1251 expect_bool_nil_num *)
Definition expect_bool_nil_num (a : answer) : option bool :=
  match a with
  | ATrue => Some true
  | AInt n => Some (n =? 0)
  | AFloat b => Some (feq b 0)
  | AFalse | ANil => Some false
  | AOther => None
  end.
(* f(vm, ary[i])?.expect_bool_nil_num()?; indexing looks at the array of the
   moment and checks the bounds *)
Definition ask {A} (i : nat) (s : S) (k : bool -> S -> sout A * S) : sout A * S :=
  match nth_error (elems s) i with
  | None => (Crash, s)
  | Some v =>
      match block v s with
      | (Leaves x, s1) => (Stops x, s1)
      | (Answers a, s1) =>
          match expect_bool_nil_num a with
          | Some b => k b s1
          | None => (NotAnswer, s1)
          end
      end
  end.
(* array.rs:1170-1180, the loop; running out of fuel: an endless loop *)
Fixpoint search_loop (fuel : nat) (i_min i_max : nat) (s : S) : sout nat * S :=
  match fuel with
  | O => (Crash, s)
  | Datatypes.S n =>
      let i_mid := (i_min + Nat.div (i_max - i_min) 2)%nat in
      if Nat.eqb i_mid i_min then (Found i_max, s)
      else ask i_mid s (fun b s1 => if b then search_loop n i_min i_mid s1 else search_loop n i_mid i_max s1)
  end.
(* array.rs:1156-1181 binary_search *)
Definition binary_search (s : S) : sout nat * S :=
  let len := length (elems s) in
  if Nat.eqb len 0 then (Absent, s)
  else
    let i_max := (len - 1)%nat in
    ask 0 s (fun b s1 =>
      if b then (Found 0%nat, s1)
      else ask i_max s1 (fun b2 s2 =>
        if negb b2 then (Absent, s2) else search_loop len 0 i_max s2)).
(* array.rs:1203-1211 bsearch_index *)
Definition bsearch_index (s : S) : sout nat * S := binary_search s.
(* array.rs:1188-1196 bsearch *)
Definition bsearch (s : S) : sout V * S :=
  match binary_search s with
  | (Found i, s1) => match nth_error (elems s1) i with Some v => (Found v, s1) | None => (Crash, s1) end
  | (Absent, s1) => (Absent, s1)
  | (Stops x, s1) => (Stops x, s1)
  | (NotAnswer, s1) => (NotAnswer, s1)
  | (Crash, s1) => (Crash, s1)
  end.
End Search.
Arguments bout : clear implicits.
Arguments sout : clear implicits.
Arguments Answers {X}. Arguments Leaves {X}.
Arguments Found {X A}. Arguments Absent {X A}. Arguments Stops {X A}. Arguments NotAnswer {X A}. Arguments Crash {X A}.

(* array.rs:643-653 to_float *)
Definition min_float (v : value) : res Z :=
  match as_fixnum v with
  | Some i => Ok (f64_of_Z i)
  | None => match as_flonum v with Some f => Ok f | None => Err TypeErr end
  end.
(* array.rs:661-667 *)
Fixpoint min_loop (l : list value) (obj : value) (m : Z) : res value :=
  match l with
  | [] => Ok obj
  | e :: r =>
      f <- min_float e ;;
      if flt f m then min_loop r e f else min_loop r obj m
  end.
(* array.rs:642-670 min; arguments and a block are ignored *)
Definition ary_min (l : list value) : res value :=
  match l with
  | [] => Ok nil
  | v :: _ => m <- min_float v ;; min_loop l v m
  end.
(* ops.rs:262-287 eval_cmp2 for `>`, 449-451 eval_gt2; send: the method `>` of
   other objects, as a truth value. Simplification: that method does not change
   the array. *)
Definition eval_gt2 (send : value -> value -> res bool) (rhs lhs : value) : res bool :=
  match as_fixnum lhs with
  | Some li =>
      match as_fixnum rhs with
      | Some ri => Ok (ri <? li)
      | None => match as_flonum rhs with Some rf => Ok (flt rf (f64_of_Z li)) | None => send lhs rhs end
      end
  | None =>
      match as_flonum lhs with
      | Some lf =>
          match as_fixnum rhs with
          | Some ri => Ok (flt (f64_of_Z ri) lf)
          | None => match as_flonum rhs with Some rf => Ok (flt rf lf) | None => send lhs rhs end
          end
      | None => send lhs rhs
      end
  end.
(* array.rs:679-683 *)
Fixpoint max_loop (send : value -> value -> res bool) (l : list value) (m : value) : res value :=
  match l with
  | [] => Ok m
  | e :: r => b <- eval_gt2 send m e ;; max_loop send r (if b then e else m)
  end.
(* array.rs:672-685 max *)
Definition ary_max (send : value -> value -> res bool) (l : list value) : res value :=
  match l with
  | [] => Ok nil
  | v :: _ => max_loop send l v
  end.
