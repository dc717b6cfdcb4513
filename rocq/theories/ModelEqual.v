(* Equality and Comparable: ruruby/src/vm/executor/ops.rs:252-480,
   ruruby/src/builtin/comparable.rs, the default == of builtin/object.rs and
   the == of builtin/integer.rs and numeric.rs. *)
From Verif Require Import Base ModelValue ModelFloat ModelInt ModelArray.

(* A value: a packed word, or the address of a heap object. *)
Inductive ev : Type :=
  | EImm (w : Z)
  | EPtr (a : Z).
(* What a heap object holds: the kinds eval_eq2 tells apart (ops.rs:379-432).
   Not modelled: COMPLEX, HASH (ModelHash.v), REGEXP, TIME and INVALID objects.
   [CMod] is a class or a module, [CObj] an object of any other kind. *)
Inductive cell : Type :=
  | CBig (n : Z)
  | CFloat (bits : Z)
  | CStr (bytes : list Z)
  | CArr (l : list ev)
  | CRange (s e : ev) (excl : bool)
  | CMod
  | CObj.
(* Which method == (or ===, or <) of an object's class is: one written in the
   program, the one of Comparable, or the one of Object. How a class finds its
   method is ModelClass.v. *)
Inductive meth : Type := MUser | MComparable | MObject.
(* The methods of Comparable, comparable.rs:9-13 *)
Inductive cop : Type := CEq | CLe | CLt | CGe | CGt.

(* value.rs:319 id: packed words and addresses are told apart by their low bits *)
Definition same_id (a b : ev) : bool :=
  match a, b with
  | EImm x, EImm y => x =? y
  | EPtr x, EPtr y => x =? y
  | _, _ => false
  end.
(* value.rs:1237-1239 to_bool *)
Definition truthy (v : ev) : bool :=
  match v with EImm w => to_bool_word w | EPtr _ => true end.
(* value.rs:526-532 as_fixnum *)
Definition fix_of (v : ev) : option Z := match v with EImm w => as_fixnum (Imm w) | EPtr _ => None end.
Definition ebool (b : bool) : ev := EImm (if b then TRUE_VALUE else FALSE_VALUE).

Section Equal.
  (* The state of the program: its heap, the methods of its classes, and what
     running a method written in the program does. [ueq] is ==, [ucmp] is <=>,
     [uteq] is ===, [uord] is <, <=, > or >=. Simplification: the contents of an array are read
     once when its comparison starts (the code iterates over the vector in
     place, so a method that changes the array during the comparison is
     outside the model). *)
  Variable St : Type.
  Variable look : St -> Z -> cell.
  Variable eqm teqm ordm : St -> Z -> meth.
  Variable ueq ucmp uteq : St -> Z -> ev -> St * res ev.
  Variable uord : cop -> St -> Z -> ev -> St * res ev.

  (* comparable.rs:17-80. [unreachable!()] panics. *)
  Definition comparable (op : cop) (st : St) (self : Z) (arg : ev) : St * res ev :=
    let (st1, r) := ucmp st self arg in
    match r with
    | Ok v =>
        match fix_of v with
        | Some i =>
            (st1, Ok (ebool (match op with
                             | CEq => i =? 0
                             | CLe => i <=? 0
                             | CLt => i <? 0
                             | CGe => 0 <=? i
                             | CGt => 0 <? i
                             end)))
        | None =>
            match op with
            | CEq | CLe | CGe => (st1, Ok (ebool false))
            | CLt | CGt => (st1, Panic)
            end
        end
    | Err e => (st1, Err e)
    | Panic => (st1, Panic)
    end.
  (* value.rs:1255-1265 to_real *)
  Definition real_of (st : St) (v : ev) : option real :=
    match v with
    | EImm w => to_real (Imm w)
    | EPtr a => match look st a with CBig n => Some (RlBig n) | CFloat b => Some (RlFloat b) | _ => None end
    end.
  (* eval_send1(==, lhs, rhs): String, Array, Range, Hash and Module have no ==
     of their own and answer with Object#== (object.rs:14, 178-181), which is
     identity; numbers answer by value, an Integer with false when the argument
     is no number (integer.rs:131-138), a Float with an ArgumentError
     (numeric.rs:13, 123-139). The built-in classes are not reopened. *)
  Definition send_eq (st : St) (recv : Z) (arg : ev) : St * res ev :=
    match look st recv with
    | CBig n =>
        (st, Ok (ebool (match real_of st arg with Some r => real_eq (RlBig n) r | None => false end)))
    | CFloat b =>
        (st, match real_of st arg with Some r => Ok (ebool (real_eq (RlFloat b) r)) | None => Err ArgErr end)
    | CStr _ | CArr _ | CRange _ _ _ | CMod => (st, Ok (ebool (same_id (EPtr recv) arg)))
    | CObj =>
        match eqm st recv with
        | MUser => ueq st recv arg
        | MComparable => comparable CEq st recv arg
        | MObject => (st, Ok (ebool (same_id (EPtr recv) arg)))
        end
    end.
  (* ops.rs:400-411 and 412-417: compare in order, stop at the first difference *)
  Fixpoint all_eq (eqf : St -> ev -> ev -> St * res bool) (st : St) (l r : list ev) : St * res bool :=
    match l, r with
    | x :: l', y :: r' =>
        let (st1, b) := eqf st y x in
        match b with
        | Ok true => all_eq eqf st1 l' r'
        | _ => (st1, b)
        end
    | _, _ => (st, Ok true)
    end.
  (* ops.rs:358-433. [fuel] bounds the depth of the recursion; running out of
     it is running out of stack, a panic (abort). *)
  Fixpoint eq2 (fuel : nat) (st : St) (rhs lhs : ev) : St * res bool :=
    match fuel with
    | O => (st, Panic)
    | S f =>
        match lhs, rhs with
        | EImm wl, EImm wr => (st, Ok (eval_eq2 (Imm wr) (Imm wl)))
        | EImm _, EPtr _ | EPtr _, EImm _ => (st, Ok (same_id lhs rhs))
        | EPtr a, EPtr b =>
            if a =? b then (st, Ok true)
            else match look st a, look st b with
                 | CBig x, CBig y => (st, Ok (x =? y))
                 | CFloat x, CFloat y => (st, Ok (feq x y))
                 | CBig x, CFloat y => (st, Ok (feq (f64_of_Z x) y))
                 | CFloat x, CBig y => (st, Ok (feq x (f64_of_Z y)))
                 | CStr x, CStr y => (st, Ok (if list_eq_dec Z.eq_dec x y then true else false))
                 | CArr l, CArr r =>
                     if (zlen l =? zlen r) then all_eq (eq2 f) st l r else (st, Ok false)
                 | CRange s1 e1 x1, CRange s2 e2 x2 =>
                     if Bool.eqb x2 x1 then all_eq (eq2 f) st [s1; e1] [s2; e2] else (st, Ok false)
                 | _, _ =>
                     let (st1, r) := send_eq st a rhs in
                     match r with
                     | Ok v => (st1, Ok (truthy v))
                     | Err _ => (st1, Ok false)
                     | Panic => (st1, Panic)
                     end
                 end
        end
    end.
  (* ops.rs:435-442: the operators == and != (EQ, NE) *)
  Definition op_eq (fuel : nat) (st : St) (l r : ev) : St * res bool := eq2 fuel st r l.
  Definition op_ne (fuel : nat) (st : St) (l r : ev) : St * res bool :=
    let (st1, b) := op_eq fuel st l r in (st1, rbind b (fun b => Ok (negb b))).
  (* ops.rs:453-470: == with an integer literal on the right (EQI). unpack gives
     a heap float as a Float. A packed operand that is not a number is sent ==:
     Symbol, true, false and nil answer by identity. *)
  Definition op_eqi (st : St) (l : ev) (i : Z) : St * res bool :=
    match l with
    | EImm w =>
        match as_fixnum (Imm w) with
        | Some n => (st, Ok (n =? i))
        | None =>
            match as_flonum (Imm w) with
            | Some f => (st, Ok (feq f (f64_of_Z i)))
            | None => (st, Ok false)
            end
        end
    | EPtr a =>
        match look st a with
        | CFloat f => (st, Ok (feq f (f64_of_Z i)))
        | _ =>
            let (st1, r) := send_eq st a (EImm (match fixnum i with Imm w => w | _ => 0 end)) in
            (st1, rbind r (fun v => Ok (truthy v)))
        end
    end.
  (* ops.rs:306-320 invoke_teq: `when` ([pat] is the operand of when). Regexp patterns are not modelled;
     [umod] is === of a class or a module. *)
  Variable umod : St -> Z -> ev -> St * res ev.
  Definition op_case (fuel : nat) (st : St) (pat v : ev) : St * res bool :=
    match pat with
    | EPtr a =>
        match look st a with
        | CMod => let (st1, r) := umod st a v in (st1, rbind r (fun v => Ok (truthy v)))
        | _ => eq2 fuel st v pat
        end
    | EImm _ => eq2 fuel st v pat
    end.
  (* ops.rs:335-347 eval_teq: used by Array#grep, any? and all? with a pattern
     (array.rs:929, 992, 1027). The operands of eval_eq2 are the other way round. *)
  Definition eval_teq (fuel : nat) (st : St) (v pat : ev) : St * res bool :=
    match pat with
    | EPtr a =>
        match look st a with
        | CMod => let (st1, r) := umod st a v in (st1, rbind r (fun v => Ok (truthy v)))
        | _ => eq2 fuel st pat v
        end
    | EImm _ => eq2 fuel st pat v
    end.
  (* ops.rs:252-304, 444-447: <, <=, >, >= on an object that is not a number *)
  Definition op_ord (op : cop) (st : St) (l : Z) (r : ev) : St * res bool :=
    let (st1, v) :=
      match ordm st l with
      | MUser => uord op st l r
      | MComparable => comparable op st l r
      | MObject => (st, Err NoMethodErr)
      end in
    (st1, rbind v (fun v => Ok (truthy v))).
  (* array.rs:535-544 include?, hash.rs:152: eval_eq2(item, target) *)
  Fixpoint arr_include (fuel : nat) (st : St) (l : list ev) (target : ev) : St * res bool :=
    match l with
    | [] => (st, Ok false)
    | x :: l' =>
        let (st1, b) := eq2 fuel st x target in
        match b with
        | Ok false => arr_include fuel st1 l' target
        | _ => (st1, b)
        end
    end.
End Equal.
