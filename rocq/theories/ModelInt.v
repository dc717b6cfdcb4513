(* Integer operators: vm/executor/ops.rs, arith.rs, value/real.rs,
   builtin/{numeric,integer}.rs under /repo/ruruby/src.
   BigInt is Z (num-bigint is external; its +,-,*,div_floor,mod_floor,pow,
   gcd,lcm,shifts,bit operators are taken at their mathematical meaning, and
   memory exhaustion on gigantic results is not modelled). [invoke_send1] on a
   numeric receiver runs the builtin method (operators not redefined by the
   user program). f64::powf is a parameter [powf] where it occurs. *)
From Verif Require Import Base ModelValue ModelFloat.

(* i64::checked_add etc.: Some on the i64 range. *)
Definition checked (z : Z) : option Z := if in_i64 z then Some z else None.

(* value/real.rs:5-10 *)
Inductive real : Set := RlBig (n : Z) | RlInt (i : Z) | RlFloat (b : Z).
(* real.rs:13-19 *)
Definition into_val (r : real) : value :=
  match r with RlBig n => bignum n | RlInt i => integer i | RlFloat f => float f end.
(* real.rs:21-26 *)
Definition real_integer (n : Z) : real := if in_i64 n then RlInt n else RlBig n.
(* real.rs:35-41 *)
Definition real_is_zero (r : real) : bool :=
  match r with RlBig n => n =? 0 | RlInt i => i =? 0 | RlFloat f => f64_is_zero f end.
(* real.rs:43-49 *)
Definition real_to_f64 (r : real) : Z :=
  match r with RlBig n => f64_of_Z n | RlInt i => f64_of_Z i | RlFloat f => f end.
(* value.rs:1255-1265 *)
Definition to_real (v : value) : option real :=
  match unpack v with
  | Some (RInteger i) => Some (RlInt i)
  | Some (RFloat f) => Some (RlFloat f)
  | Some (RObject (HBig n)) => Some (RlBig n)
  | _ => None
  end.

(* real.rs:90-122, macro impl_ops; op is add/sub/mul, fop its f64 version *)
Definition real_op (op : Z -> Z -> Z) (fop : Z -> Z -> Z) (a b : real) : real :=
  match a, b with
  | RlBig n1, RlBig n2 => real_integer (op n1 n2)
  | RlBig n1, RlInt i2 => real_integer (op n1 i2)
  | RlBig n1, RlFloat f2 => RlFloat (fop (f64_of_Z n1) f2)
  | RlInt i1, RlBig n2 => real_integer (op i1 n2)
  | RlInt i1, RlInt i2 =>
      match checked (op i1 i2) with Some i => RlInt i | None => RlBig (op i1 i2) end
  | RlInt i1, RlFloat f2 => RlFloat (fop (f64_of_Z i1) f2)
  | RlFloat f1, RlBig n2 => RlFloat (fop f1 (f64_of_Z n2))
  | RlFloat f1, RlInt i2 => RlFloat (fop f1 (f64_of_Z i2))
  | RlFloat f1, RlFloat f2 => RlFloat (fop f1 f2)
  end.
(* real.rs:126-141. i64::div_floor overflows (panics) on MIN / -1; the callers
   exclude a zero divisor. *)
Definition real_div (a b : real) : res real :=
  match a, b with
  | RlBig n1, RlBig n2 => if n2 =? 0 then Panic else Ok (real_integer (n1 / n2))
  | RlBig n1, RlInt i2 => if i2 =? 0 then Panic else Ok (real_integer (n1 / i2))
  | RlBig n1, RlFloat f2 => Ok (RlFloat (fdiv (f64_of_Z n1) f2))
  | RlInt i1, RlBig n2 => if n2 =? 0 then Panic else Ok (real_integer (i1 / n2))
  | RlInt i1, RlInt i2 =>
      if i2 =? 0 then Panic
      else match checked (i1 / i2) with Some i => Ok (RlInt i) | None => Panic end
  | RlInt i1, RlFloat f2 => Ok (RlFloat (fdiv (f64_of_Z i1) f2))
  | RlFloat f1, RlBig n2 => Ok (RlFloat (fdiv f1 (f64_of_Z n2)))
  | RlFloat f1, RlInt i2 => Ok (RlFloat (fdiv f1 (f64_of_Z i2)))
  | RlFloat f1, RlFloat f2 => Ok (RlFloat (fdiv f1 f2))
  end.
(* real.rs:143-157 *)
Definition real_eq (a b : real) : bool :=
  match a, b with
  | RlBig n1, RlBig n2 => n1 =? n2
  | RlBig _, RlInt _ => false
  | RlBig n1, RlFloat f2 => feq (f64_of_Z n1) f2
  | RlInt _, RlBig _ => false
  | RlInt i1, RlInt i2 => i1 =? i2
  | RlInt i1, RlFloat f2 => feq (f64_of_Z i1) f2
  | RlFloat f1, RlBig n2 => feq f1 (f64_of_Z n2)
  | RlFloat f1, RlInt i2 => feq f1 (f64_of_Z i2)
  | RlFloat f1, RlFloat f2 => feq f1 f2
  end.
(* real.rs:159-168; -i on i64::MIN overflows *)
Definition real_neg (a : real) : res real :=
  match a with
  | RlBig n => Ok (RlBig (- n))
  | RlInt i => match checked (- i) with Some i => Ok (RlInt i) | None => Panic end
  | RlFloat f => Ok (RlFloat (fneg f))
  end.

(* arith.rs:129-143 *)
Definition cmp_fixnum (lhsi : Z) (rhs : value) : option comparison :=
  match as_fixnum rhs with
  | Some rhsi => Some (lhsi ?= rhsi)
  | None =>
    match as_float rhs with
    | Some rhsf => fcmp (f64_of_Z lhsi) rhsf
    | None =>
      match as_bignum rhs with
      | Some rhsb => if 0 <? rhsb then Some Lt else Some Gt
      | None => None
      end
    end
  end.
(* arith.rs:145-165 *)
Definition cmp_float (lhsf : Z) (rhs : value) : option comparison :=
  match as_fixnum rhs with
  | Some rhsi => fcmp lhsf (f64_of_Z rhsi)
  | None =>
    match as_float rhs with
    | Some rhsf => fcmp lhsf rhsf
    | None =>
      match as_bignum rhs with
      | Some rhsb =>
          if f64_is_infinite lhsf
          then (if feq lhsf F_INF then Some Gt else Some Lt)
          else fcmp lhsf (f64_of_Z rhsb)
      | None => None
      end
    end
  end.
(* arith.rs:186-211 *)
Definition cmp_bignum (lhsb : Z) (rhs : value) : option comparison :=
  match as_fixnum rhs with
  | Some _ => if 0 <? lhsb then Some Gt else Some Lt
  | None =>
    match as_float rhs with
    | Some rhsf =>
        if f64_is_infinite rhsf
        then (if feq rhsf F_INF then Some Lt else Some Gt)
        else fcmp (f64_of_Z lhsb) rhsf
    | None =>
      match as_bignum rhs with
      | Some rhsb => Some (lhsb ?= rhsb)
      | None => None
      end
    end
  end.
(* real.rs:170-178 *)
Definition real_cmp (a b : real) : option comparison :=
  match a with
  | RlBig n1 => cmp_bignum n1 (into_val b)
  | RlInt i1 => cmp_fixnum i1 (into_val b)
  | RlFloat f1 => cmp_float f1 (into_val b)
  end.
(* value.rs:1158-1160 *)
Definition from_ord (c : option comparison) : value :=
  match c with
  | None => nil
  | Some Lt => integer (-1)
  | Some Eq => integer 0
  | Some Gt => integer 1
  end.

(* builtin/numeric.rs:46-121 add/sub/mul. Complex arguments are not modelled
   (they are opaque objects here and end as TypeError). *)
Definition numeric_op (op fop : Z -> Z -> Z) (self arg0 : value) : res value :=
  match to_real self with
  | None => Panic                              (* .unwrap() *)
  | Some lhs =>
    match to_real arg0 with
    | Some rhs => Ok (into_val (real_op op fop lhs rhs))
    | None => Err TypeErr
    end
  end.
(* builtin/numeric.rs:97-121 *)
Definition numeric_div (self arg0 : value) : res value :=
  match to_real self with
  | None => Panic
  | Some lhs =>
    match to_real arg0 with
    | Some rhs =>
        if real_is_zero rhs then Err ZeroDiv
        else r <- real_div lhs rhs ;; Ok (into_val r)
    | None => Err TypeErr
    end
  end.

(* ordering operators selected by the macros *)
Inductive cop : Set := Ge | Gt' | Le | Lt'.
Definition cop_ord (op : cop) (c : option comparison) : bool :=
  match c with
  | None => false
  | Some c =>
    match op, c with
    | Ge, Lt => false | Ge, _ => true
    | Gt', Gt => true | Gt', _ => false
    | Le, Gt => false | Le, _ => true
    | Lt', Lt => true | Lt', _ => false
    end
  end.
(* builtin/numeric.rs:123-149 define_cmp (PartialOrd default methods) *)
Definition numeric_cmp (op : cop) (self arg0 : value) : res value :=
  match to_real self with
  | None => Panic
  | Some lhs =>
    match to_real arg0 with
    | Some rhs => Ok (vbool (cop_ord op (real_cmp lhs rhs)))
    | None => Err ArgErr
    end
  end.

(* ops.rs:9-28, macro invoke_op_i (addi/subi); imm is an i32.
   lhs.get()-1 as i64 is twice the fixnum. *)
Definition invoke_op_i (op fop : Z -> Z -> Z) (lhs : value) (imm : Z) : res value :=
  match lhs with
  | Imm w =>
      if is_fnum w then
        match checked (op (i64 (w - 1)) (i64 (Z.shiftl imm 1))) with
        | Some r => Ok (Imm (u64 r + 1))
        | None => Ok (bignum (op (as_fnum w) imm))
        end
      else match as_flonum lhs with
           | Some lhsf => Ok (float (fop lhsf (f64_of_Z imm)))
           | None => Err NoMethodErr       (* nil, true, symbols: no such method *)
           end
  | Heap _ => numeric_op op fop lhs (fixnum imm)
  end.

(* ops.rs:30-63, macro invoke_op (add/sub) *)
Definition invoke_op (op fop : Z -> Z -> Z) (lhs rhs : value) : res value :=
  match as_fixnum lhs, lhs with
  | Some lhsi, Imm wl =>
      match as_fixnum rhs, rhs with
      | Some rhsi, Imm wr =>
          match checked (op (i64 (wl - 1)) (i64 (wr - 1))) with
          | Some r => Ok (fixnum (Z.shiftr r 1))
          | None => Ok (bignum (op lhsi rhsi))
          end
      | _, _ =>
          match as_flonum rhs with
          | Some rhsf => Ok (float (fop (f64_of_Z lhsi) rhsf))
          | None => numeric_op op fop lhs rhs
          end
      end
  | _, _ =>
      match as_flonum lhs with
      | Some lhsf =>
          match as_flonum rhs with
          | Some rhsf => Ok (float (fop lhsf rhsf))
          | None =>
            match as_fixnum rhs with
            | Some rhsi => Ok (float (fop lhsf (f64_of_Z rhsi)))
            | None => numeric_op op fop lhs rhs
            end
          end
      | None => numeric_op op fop lhs rhs
      end
  end.
(* ops.rs:66-67, 98-99 *)
Definition invoke_add := invoke_op Z.add fadd.
Definition invoke_sub := invoke_op Z.sub fsub.
Definition invoke_addi := invoke_op_i Z.add fadd.
Definition invoke_subi := invoke_op_i Z.sub fsub.

(* ops.rs:69-96 *)
Definition invoke_mul (lhs rhs : value) : res value :=
  match as_fixnum lhs with
  | Some lhsi =>
      match as_fixnum rhs with
      | Some rhsi =>
          match checked (lhsi * rhsi) with
          | Some r => Ok (integer r)
          | None => Ok (bignum (lhsi * rhsi))
          end
      | None =>
          match as_flonum rhs with
          | Some rhsf => Ok (float (fmul (f64_of_Z lhsi) rhsf))
          | None => numeric_op Z.mul fmul lhs rhs
          end
      end
  | None =>
      match as_flonum lhs with
      | Some lhsf =>
          match as_flonum rhs with
          | Some rhsf => Ok (float (fmul lhsf rhsf))
          | None =>
            match as_fixnum rhs with
            | Some rhsi => Ok (float (fmul lhsf (f64_of_Z rhsi)))
            | None => numeric_op Z.mul fmul lhs rhs
            end
          end
      | None => numeric_op Z.mul fmul lhs rhs
      end
  end.

(* ops.rs:101-126; i64::div_floor is Z.div on the i64 range, panicking on
   overflow (MIN / -1). *)
Definition invoke_div (lhs rhs : value) : res value :=
  match as_fixnum lhs with
  | Some lhsi =>
      match as_fixnum rhs with
      | Some rhsi =>
          if rhsi =? 0 then Err ZeroDiv
          else match checked (lhsi / rhsi) with Some q => Ok (integer q) | None => Panic end
      | None =>
          match as_flonum rhs with
          | Some rhsf => Ok (float (fdiv (f64_of_Z lhsi) rhsf))
          | None => numeric_div lhs rhs
          end
      end
  | None =>
      match as_flonum lhs with
      | Some lhsf =>
          match as_fixnum rhs with
          | Some rhsi => Ok (float (fdiv lhsf (f64_of_Z rhsi)))
          | None =>
            match as_flonum rhs with
            | Some rhsf => Ok (float (fdiv lhsf rhsf))
            | None => numeric_div lhs rhs
            end
          end
      | None => numeric_div lhs rhs
      end
  end.

(* arith.rs:77-85 *)
Definition rem_floorf64 (a b : Z) : Z :=
  if flt 0 a && flt b 0 then fadd (fadd (frem (fsub a F_ONE) b) b) F_ONE
  else if flt a 0 && flt 0 b then fsub (fadd (frem (fadd a F_ONE) b) b) F_ONE
  else frem a b.
(* arith.rs:11-31; divrem::RemFloor::rem_floor (external) is Z.modulo *)
Definition rem_fixnum (lhsi : Z) (rhs : value) : res value :=
  match as_fixnum rhs with
  | Some i2 => if i2 =? 0 then Err ZeroDiv else Ok (integer (lhsi mod i2))
  | None =>
    match as_float rhs with
    | Some f2 => if f64_is_zero f2 then Err ZeroDiv
                 else Ok (float (rem_floorf64 (f64_of_Z lhsi) f2))
    | None =>
      match as_bignum rhs with
      | Some b2 => if b2 =? 0 then Err ZeroDiv else Ok (bignum (lhsi mod b2))
      | None => Err TypeErr
      end
    end
  end.
(* arith.rs:33-53 *)
Definition rem_bignum (lhsb : Z) (rhs : value) : res value :=
  match as_fixnum rhs with
  | Some i2 => if i2 =? 0 then Err ZeroDiv else Ok (bignum (lhsb mod i2))
  | None =>
    match as_float rhs with
    | Some f2 => if f64_is_zero f2 then Err ZeroDiv
                 else Ok (float (rem_floorf64 (f64_of_Z lhsb) f2))
    | None =>
      match as_bignum rhs with
      | Some b2 => if b2 =? 0 then Err ZeroDiv else Ok (bignum (lhsb mod b2))
      | None => Err TypeErr
      end
    end
  end.
(* arith.rs:55-75; the last branch is `unreachable!()` *)
Definition rem_float (lhsf : Z) (rhs : value) : res value :=
  match as_fixnum rhs with
  | Some i2 => if i2 =? 0 then Err ZeroDiv else Ok (float (rem_floorf64 lhsf (f64_of_Z i2)))
  | None =>
    match as_float rhs with
    | Some f2 => if f64_is_zero f2 then Err ZeroDiv else Ok (float (rem_floorf64 lhsf f2))
    | None =>
      match as_bignum rhs with
      | Some b2 => if b2 =? 0 then Err ZeroDiv else Ok (float (rem_floorf64 lhsf (f64_of_Z b2)))
      | None => Panic
      end
    end
  end.
(* ops.rs:128-138 and builtin/integer.rs:63-72 *)
Definition invoke_rem (lhs rhs : value) : res value :=
  match as_fixnum lhs with
  | Some i => rem_fixnum i rhs
  | None =>
    match as_float lhs with
    | Some f => rem_float f rhs
    | None =>
      match as_bignum lhs with
      | Some n => rem_bignum n rhs
      | None => Err NoMethodErr
      end
    end
  end.

(* arith.rs:88-110; checked_pow is Some iff the exact power fits i64 *)
Definition exp_fixnum (powf : Z -> Z -> Z) (lhsi : Z) (rhs : value) : res value :=
  match as_fixnum rhs with
  | Some rhsi =>
      if in_u32 rhsi then
        match checked (lhsi ^ rhsi) with
        | Some i => Ok (integer i)
        | None => Ok (bignum (lhsi ^ rhsi))
        end
      else Ok (float (powf (f64_of_Z lhsi) (f64_of_Z rhsi)))
  | None =>
    match as_float rhs with
    | Some rhsf => Ok (float (powf (f64_of_Z lhsi) rhsf))
    | None =>
      match as_bignum rhs with
      | Some rhsb => Ok (float (powf (f64_of_Z lhsi) (f64_of_Z rhsb)))
      | None => Err TypeErr
      end
    end
  end.
(* arith.rs:112-126; powi is folded into powf (external, not exact) *)
Definition exp_float (powf : Z -> Z -> Z) (lhsf : Z) (rhs : value) : res value :=
  match as_fixnum rhs with
  | Some rhsi => Ok (float (powf lhsf (f64_of_Z rhsi)))
  | None =>
    match as_float rhs with
    | Some rhsf => Ok (float (powf lhsf rhsf))
    | None =>
      match as_bignum rhs with
      | Some rhsb => Ok (float (powf lhsf (f64_of_Z rhsb)))
      | None => Err TypeErr
      end
    end
  end.
(* builtin/integer.rs:74-95, bignum receiver *)
Definition exp_bignum (powf : Z -> Z -> Z) (n : Z) (rhs : value) : res value :=
  match as_fixnum rhs with
  | Some rhsi =>
      if in_u32 rhsi then Ok (bignum (n ^ rhsi))
      else Ok (float (powf (f64_of_Z n) (f64_of_Z rhsi)))
  | None =>
    match as_float rhs with
    | Some f => Ok (float (powf (f64_of_Z n) f))
    | None =>
      match as_bignum rhs with
      | Some b => Ok (float (powf (f64_of_Z n) (f64_of_Z b)))
      | None => Err TypeErr
      end
    end
  end.
(* ops.rs:140-150 *)
Definition invoke_exp (powf : Z -> Z -> Z) (lhs rhs : value) : res value :=
  match as_fixnum lhs with
  | Some i => exp_fixnum powf i rhs
  | None =>
    match as_float lhs with
    | Some f => exp_float powf f rhs
    | None =>
      match as_bignum lhs with
      | Some n => exp_bignum powf n rhs
      | None => Err NoMethodErr
      end
    end
  end.

(* builtin/integer.rs:102-106 *)
Definition int_minus (self : value) : res value :=
  match to_real self with
  | None => Panic
  | Some r => r' <- real_neg r ;; Ok (into_val r')
  end.
(* ops.rs:152-163 *)
Definition invoke_neg (lhs : value) : res value :=
  match unpack lhs with
  | Some (RInteger i) =>
      match checked (- i) with Some i => Ok (integer i) | None => Err OtherErr end
  | Some (RFloat f) => Ok (float (fneg f))
  | Some (RObject (HBig n)) => int_minus lhs
  | Some _ => Err NoMethodErr
  | None => Panic
  end.

(* arith.rs:250-259; i64::checked_shr is None iff the count is >= 64 *)
Definition shr_fixnum_sub (lhs rhs : Z) : value :=
  if rhs <? 2 ^ 32 - 1 then
    if rhs <? 64 then integer (Z.shiftr lhs rhs) else integer 0
  else bignum (Z.shiftr lhs rhs).
(* arith.rs:262-274; i64::checked_shl is None iff the count is >= 64 and
   otherwise drops the bits shifted out *)
Definition shl_fixnum_sub (lhs rhs : Z) : value :=
  if rhs <? 2 ^ 32 - 1 then
    if rhs <? 64 then integer (i64 (Z.shiftl lhs rhs)) else bignum (Z.shiftl lhs rhs)
  else bignum (Z.shiftl lhs rhs).
(* arith.rs:223-229, 241-247 *)
Definition shl_fixnum (lhs rhs : Z) : value :=
  if 0 <=? rhs then shl_fixnum_sub lhs rhs else shr_fixnum_sub lhs (- rhs).
Definition shr_fixnum (lhs rhs : Z) : value :=
  if 0 <=? rhs then shr_fixnum_sub lhs rhs else shl_fixnum_sub lhs (- rhs).
(* builtin/integer.rs:218-229, 255-266 *)
Definition shr_bignum (rhs : value) : res value :=
  match as_bignum rhs with
  | Some r => if negb (r <? 0) then Ok (integer 0) else Err OtherErr
  | None => Err TypeErr
  end.
Definition shl_bignum (rhs : value) : res value :=
  match as_bignum rhs with
  | Some r => if r <? 0 then Ok (integer 0) else Err OtherErr
  | None => Err TypeErr
  end.
(* builtin/integer.rs:194-216 (>>), reached from ops.rs:181-190 *)
Definition int_shr (self rhs : value) : res value :=
  match as_fixnum self with
  | Some lhs =>
      match as_fixnum rhs with Some r => Ok (shr_fixnum lhs r) | None => shr_bignum rhs end
  | None =>
    match as_bignum self with
    | Some lhs =>
        match as_fixnum rhs with
        | Some r => if 0 <=? r then Ok (bignum (Z.shiftr lhs r)) else Ok (bignum (Z.shiftl lhs (- r)))
        | None => shr_bignum rhs
        end
    | None => Panic
    end
  end.
(* builtin/integer.rs:231-253 (<<), reached from ops.rs:165-179 *)
Definition int_shl (self rhs : value) : res value :=
  match as_fixnum self with
  | Some lhs =>
      match as_fixnum rhs with Some r => Ok (shl_fixnum lhs r) | None => shl_bignum rhs end
  | None =>
    match as_bignum self with
    | Some lhs =>
        match as_fixnum rhs with
        | Some r => if 0 <=? r then Ok (bignum (Z.shiftl lhs r)) else Ok (bignum (Z.shiftr lhs (- r)))
        | None => shl_bignum rhs
        end
    | None => Panic
    end
  end.
(* ops.rs:165-179, 181-190 restricted to Integer receivers (the fixnum fast
   path is the same call as the method) *)
Definition invoke_shl (lhs rhs : value) : res value :=
  match as_fixnum lhs, as_fixnum rhs with
  | Some l, Some r => Ok (shl_fixnum l r)
  | _, _ => int_shl lhs rhs
  end.
Definition invoke_shr (lhs rhs : value) : res value :=
  match as_fixnum lhs, as_fixnum rhs with
  | Some l, Some r => Ok (shr_fixnum l r)
  | _, _ => int_shr lhs rhs
  end.

(* builtin/integer.rs:268-298, macro bit_ops (band/bor) *)
Definition int_bit (op : Z -> Z -> Z) (self rhs : value) : res value :=
  match as_fixnum self with
  | Some lhs =>
      match as_fixnum rhs with
      | Some r => Ok (integer (op lhs r))
      | None =>
        match as_bignum rhs with
        | Some r => Ok (bignum (op lhs r))
        | None => Err TypeErr
        end
      end
  | None =>
    match as_bignum self with
    | Some lhs =>
        match as_fixnum rhs with
        | Some r => Ok (bignum (op lhs r))
        | None =>
          match as_bignum rhs with
          | Some r => Ok (bignum (op lhs r))
          | None => Err TypeErr
          end
        end
    | None => Panic
    end
  end.
(* ops.rs:192-210; sends to receivers other than true/false/nil/Integer are
   not modelled (NoMethodErr) *)
Definition invoke_bitand (lhs rhs : value) : res value :=
  match as_fixnum lhs, as_fixnum rhs with
  | Some l, Some r => Ok (integer (Z.land l r))
  | _, _ =>
    match unpack lhs, unpack rhs with
    | None, _ | _, None => Panic
    | Some RTrue, _ => Ok (vbool (to_bool rhs))
    | Some RFalse, _ => Ok false_val
    | Some RNil, _ => Ok false_val
    | Some (RInteger _), _ | Some (RObject (HBig _)), _ => int_bit Z.land lhs rhs
    | _, _ => Err NoMethodErr
    end
  end.
(* ops.rs:212-229 *)
Definition invoke_bitor (lhs rhs : value) : res value :=
  match as_fixnum lhs, as_fixnum rhs with
  | Some l, Some r => Ok (integer (Z.lor l r))
  | _, _ =>
    match unpack lhs, unpack rhs with
    | None, _ | _, None => Panic
    | Some RTrue, _ => Ok true_val
    | Some RFalse, _ | Some RNil, _ => Ok (vbool (to_bool rhs))
    | Some (RInteger _), _ | Some (RObject (HBig _)), _ => int_bit Z.lor lhs rhs
    | _, _ => Err NoMethodErr
    end
  end.
(* ops.rs:231-240; Integer has no method "^" (integer.rs:7-57, numeric.rs) *)
Definition invoke_bitxor (lhs rhs : value) : res value :=
  match unpack lhs, unpack rhs with
  | None, _ | _, None => Panic
  | Some RTrue, _ => Ok (vbool (negb (to_bool rhs)))
  | Some RFalse, _ | Some RNil, _ => Ok (vbool (to_bool rhs))
  | Some (RInteger l), Some (RInteger r) => Ok (integer (Z.lxor l r))
  | _, _ => Err NoMethodErr
  end.
(* ops.rs:242-249 *)
Definition invoke_bitnot (lhs : value) : res value :=
  match unpack lhs with
  | Some (RInteger l) => Ok (integer (Z.lnot l))
  | Some _ => Err NoMethodErr
  | None => Panic
  end.

(* ops.rs:262-286, macro eval_cmp2 *)
Definition eval_cmp2 (op : cop) (rhs lhs : value) : res bool :=
  let send := v <- numeric_cmp op lhs rhs ;; Ok (to_bool v) in
  match as_fixnum lhs with
  | Some lhsi =>
      match as_fixnum rhs with
      | Some rhsi => Ok (cop_ord op (Some (lhsi ?= rhsi)))
      | None =>
        match as_flonum rhs with
        | Some rhsf => Ok (cop_ord op (fcmp (f64_of_Z lhsi) rhsf))
        | None => send
        end
      end
  | None =>
    match as_flonum lhs with
    | Some lhsf =>
        match as_fixnum rhs with
        | Some rhsi => Ok (cop_ord op (fcmp lhsf (f64_of_Z rhsi)))
        | None =>
          match as_flonum rhs with
          | Some rhsf => Ok (cop_ord op (fcmp lhsf rhsf))
          | None => send
          end
        end
    | None => send
    end
  end.
(* ops.rs:289-304, macro eval_cmp_i *)
Definition eval_cmp_i (op : cop) (lhs : value) (i : Z) : res bool :=
  match as_fixnum lhs with
  | Some lhsi => Ok (cop_ord op (Some (lhsi ?= i)))
  | None =>
    match as_flonum lhs with
    | Some lhsf => Ok (cop_ord op (fcmp lhsf (f64_of_Z i)))
    | None => v <- numeric_cmp op lhs (fixnum i) ;; Ok (to_bool v)
    end
  end.
(* ops.rs:358-433 restricted to numeric operands: fixnum, flonum, heap
   bignum/float. Other heap kinds have identity here. *)
Definition hobj_eqb (a b : hobj) : bool :=
  match a, b with
  | HBig n1, HBig n2 => n1 =? n2
  | HFloat f1, HFloat f2 => feq f1 f2
  | HBig n1, HFloat f2 => feq (f64_of_Z n1) f2
  | HFloat f1, HBig n2 => feq f1 (f64_of_Z n2)
  | HObj i, HObj j => i =? j
  | _, _ => false
  end.
Definition eval_eq2 (rhs lhs : value) : bool :=
  match lhs, rhs with
  | Imm wl, Imm wr =>
      match as_fixnum lhs with
      | Some lhsi =>
          match as_fixnum rhs with
          | Some rhsi => lhsi =? rhsi
          | None =>
            match as_flonum rhs with
            | Some rhsf => feq (f64_of_Z lhsi) rhsf
            | None => wl =? wr
            end
          end
      | None =>
        match as_flonum lhs with
        | Some lhsf =>
            match as_flonum rhs with
            | Some rhsf => feq lhsf rhsf
            | None =>
              match as_fixnum rhs with
              | Some rhsi => feq (f64_of_Z rhsi) lhsf
              | None => wl =? wr
              end
            end
        | None => wl =? wr
        end
      end
  | Heap a, Heap b => hobj_eqb a b
  | _, _ => false                    (* one packed, one not: ids differ *)
  end.
(* ops.rs:484-493 and builtin/integer.rs:149-158 *)
Definition invoke_compare (rhs lhs : value) : res value :=
  match as_fixnum lhs with
  | Some i => Ok (from_ord (cmp_fixnum i rhs))
  | None =>
    match as_float lhs with
    | Some f => Ok (from_ord (cmp_float f rhs))
    | None =>
      match as_bignum lhs with
      | Some n => Ok (from_ord (cmp_bignum n rhs))
      | None => Err NoMethodErr
      end
    end
  end.
(* builtin/integer.rs:131-138 (Integer#==) *)
Definition int_eq (self arg0 : value) : res value :=
  match to_real self with
  | None => Panic
  | Some l => match to_real arg0 with
              | Some r => Ok (vbool (real_eq l r))
              | None => Ok (vbool false)
              end
  end.
(* ops.rs:453-470 *)
Definition eval_eqi (lhs : value) (i : Z) : res bool :=
  match as_fixnum lhs with
  | Some l => Ok (l =? i)
  | None =>
    match as_flonum lhs with
    | Some f => Ok (feq f (f64_of_Z i))
    | None =>
      match unpack lhs with
      | None => Panic
      | Some (RInteger l) => Ok (l =? i)
      | Some (RFloat f) => Ok (feq f (f64_of_Z i))
      | Some (RObject (HBig _)) => v <- int_eq lhs (integer i) ;; Ok (to_bool v)
      | Some _ => Ok false             (* Object#== on a non-number *)
      end
    end
  end.

(* value.rs:565-571 *)
Definition coerce_to_fixnum (v : value) : res Z :=
  match unpack v with
  | Some (RInteger i) => Ok i
  | Some (RFloat f) => Ok (f64_as_i64 f)
  | Some _ => Err TypeErr
  | None => Panic
  end.
(* builtin/integer.rs:165-192 (Integer#[]) *)
Definition int_index (self arg0 : value) : res value :=
  match as_fixnum self with
  | Some i =>
      match as_bignum arg0 with
      | Some _ => Ok (integer 0)
      | None =>
        idx <- coerce_to_fixnum arg0 ;;
        Ok (integer (if (idx <? 0) || (63 <? idx) then 0 else Z.land (Z.shiftr i idx) 1))
      end
  | None =>
    match as_bignum self with
    | Some n =>
        match as_bignum arg0 with
        | Some _ => Ok (integer 0)
        | None =>
          idx <- coerce_to_fixnum arg0 ;;
          Ok (bignum (if idx <? 0 then 0 else Z.land (Z.shiftr n idx) 1))
        end
    | None => Panic
    end
  end.
(* ops.rs:563-600, Integer receivers; idx is a u32 *)
Definition get_index_imm_int (receiver : value) (idx : Z) : res value :=
  match as_fixnum receiver with
  | Some i => Ok (integer (if 63 <? idx then 0 else Z.land (Z.shiftr i idx) 1))
  | None => int_index receiver (integer idx)
  end.

(* i64::leading_zeros of a non-negative and leading_ones of a negative i64 *)
Definition leading_zeros64 (i : Z) : Z := if i =? 0 then 64 else 63 - Z.log2 i.
Definition leading_ones64 (i : Z) : Z := leading_zeros64 (Z.lnot i).
(* BigInt::bits: bits of the magnitude *)
Definition big_bits (n : Z) : Z := if n =? 0 then 0 else Z.log2 (Z.abs n) + 1.
(* (0..all).find(|x| p(all - x)).unwrap_or(all) *)
Fixpoint find_from (p : Z -> bool) (all : Z) (x : Z) (n : nat) : Z :=
  match n with
  | O => all
  | S n' => if p (all - x) then x else find_from p all (x + 1) n'
  end.
(* builtin/integer.rs:501-522 *)
Definition bit_length (self : value) : res value :=
  match as_fixnum self with
  | Some i =>
      Ok (integer (if 0 <=? i then 64 - leading_zeros64 i else 64 - leading_ones64 i))
  | None =>
    match as_bignum self with
    | Some b =>
        let all := (big_bits b + 63) / 64 * 64 in
        let p := if negb (b <? 0) then (fun k => Z.testbit b k) else (fun k => negb (Z.testbit b k)) in
        let lead := u32 (find_from p all 0 (Z.to_nat all)) in
        Ok (integer (u32 (u32 all - lead + 1)))
    | None => Panic
    end
  end.

(* builtin/integer.rs:558-570 *)
Definition int_abs (self : value) : res value :=
  match as_fixnum self with
  | Some i => Ok (integer (Z.abs i))
  | None => match as_bignum self with Some n => Ok (bignum (Z.abs n)) | None => Panic end
  end.
(* builtin/integer.rs:583-606 *)
Definition int_even (self : value) : res value :=
  match as_fixnum self with
  | Some i => Ok (vbool (Z.even i))
  | None => match as_bignum self with Some n => Ok (vbool (Z.even n)) | None => Panic end
  end.
Definition int_odd (self : value) : res value :=
  match as_fixnum self with
  | Some i => Ok (vbool (Z.odd i))
  | None => match as_bignum self with Some n => Ok (vbool (Z.odd n)) | None => Panic end
  end.
(* builtin/integer.rs:757-783 *)
Definition int_next (self : value) : res value :=
  match as_fixnum self with
  | Some i => match checked (i + 1) with Some j => Ok (integer j) | None => Ok (bignum (i + 1)) end
  | None => match as_bignum self with Some n => Ok (bignum (n + 1)) | None => Panic end
  end.
Definition int_pred (self : value) : res value :=
  match as_fixnum self with
  | Some i => match checked (i - 1) with Some j => Ok (integer j) | None => Ok (bignum (i - 1)) end
  | None => match as_bignum self with Some n => Ok (bignum (n - 1)) | None => Panic end
  end.

(* i64::trailing_zeros of a non-zero number *)
Fixpoint pos_tz (p : positive) : Z :=
  match p with xO q => 1 + pos_tz q | _ => 0 end.
Definition tz (z : Z) : Z := match z with Zpos p | Zneg p => pos_tz p | Z0 => 64 end.
(* arith.rs:326-332, the loop of safe_gcd. [fuel] is a termination device;
   exhaustion is None. *)
Fixpoint gcd_loop (fuel : nat) (m n : Z) : option Z :=
  if m =? 0 then Some n
  else match fuel with
       | O => None
       | S fuel' =>
           let m1 := Z.shiftr m (tz m) in
           if n >? m1 then gcd_loop fuel' (n - m1) m1 else gcd_loop fuel' (m1 - n) n
       end.
Definition GCD_FUEL : nat := 130.
(* arith.rs:292-338. i64::abs of MIN is an overflow panic. *)
Definition abs64 (z : Z) : res Z := match checked (Z.abs z) with Some a => Ok a | None => Panic end.
Definition safe_gcd (self other : Z) : res value :=
  if (self =? 0) || (other =? 0) then a <- abs64 (Z.lor self other) ;; Ok (integer a)
  else
    let shift := tz (Z.lor self other) in
    if (self =? - 2 ^ 63) || (other =? - 2 ^ 63) then
      a <- abs64 (i64 (Z.shiftl 1 shift)) ;; Ok (integer a)
    else
      let m := Z.abs self in
      let n := Z.abs other in
      let n := Z.shiftr n (tz n) in
      match gcd_loop GCD_FUEL m n with
      | None => Panic
      | Some n =>
          (* n.checked_shl(shift), shift < 64 *)
          Ok (integer (i64 (Z.shiftl n shift)))
      end.
(* arith.rs:355-371; `/` on i64 truncates *)
Definition safe_lcm (self other : Z) : res value :=
  if (self =? 0) && (other =? 0) then Ok (integer 0)
  else
    g <- safe_gcd self other ;;
    match as_fixnum g with
    | Some i =>
        if i =? 0 then Panic
        else
          match checked (self * (Z.quot other i)) with
          | Some p => a <- abs64 p ;; Ok (integer a)
          | None => Ok (bignum (Z.abs (self * (Z.quot other i))))
          end
    | None =>
        match as_bignum g with
        | Some b => if b =? 0 then Panic else Ok (bignum (Z.abs (self * (Z.quot other b))))
        | None => Panic
        end
    end.
(* builtin/integer.rs:611-635 *)
Definition int_gcd (self rhs : value) : res value :=
  match as_fixnum self with
  | Some i =>
      match as_bignum rhs with
      | Some b2 => Ok (bignum (Z.gcd i b2))
      | None => match as_fixnum rhs with Some i2 => safe_gcd i i2 | None => Err TypeErr end
      end
  | None =>
    match as_bignum self with
    | Some b =>
        match as_bignum rhs with
        | Some b2 => Ok (bignum (Z.gcd b b2))
        | None => match as_fixnum rhs with Some i2 => Ok (bignum (Z.gcd b i2)) | None => Err TypeErr end
        end
    | None => Panic
    end
  end.
(* builtin/integer.rs:640-664 *)
Definition int_lcm (self rhs : value) : res value :=
  match as_fixnum self with
  | Some i =>
      match as_bignum rhs with
      | Some b2 => Ok (bignum (Z.lcm i b2))
      | None => match as_fixnum rhs with Some i2 => safe_lcm i i2 | None => Err TypeErr end
      end
  | None =>
    match as_bignum self with
    | Some b =>
        match as_bignum rhs with
        | Some b2 => Ok (bignum (Z.lcm b b2))
        | None => match as_fixnum rhs with Some i2 => Ok (bignum (Z.lcm b i2)) | None => Err TypeErr end
        end
    | None => Panic
    end
  end.

(* ---- iterators ---- *)
(* A Rust iterator: next returns an item and the new state, stops, or panics
   (arithmetic overflow in debug builds; wrap-around in release builds is not
   modelled). *)
Inductive step_res (S : Type) : Type :=
  | SDone | SItem (v : value) (s : S) | SPanic.
Arguments SDone {S}. Arguments SItem {S} v s. Arguments SPanic {S}.

(* core::ops::Range<i64>::next, items mapped to values *)
Definition range_next (st : Z * Z) : step_res (Z * Z) :=
  let '(a, b) := st in if a <? b then SItem (integer a) (a + 1, b) else SDone.
(* .rev() *)
Definition range_next_rev (st : Z * Z) : step_res (Z * Z) :=
  let '(a, b) := st in if a <? b then SItem (integer (b - 1)) (a, b - 1) else SDone.
(* num::range over BigInt *)
Definition bigrange_next (st : Z * Z) : step_res (Z * Z) :=
  let '(a, b) := st in if a <? b then SItem (bignum a) (a + 1, b) else SDone.
(* builtin/integer.rs:406-423, 425-442 PosStep / NegStep: state (cur, limit, step) *)
Definition pos_step_next (st : Z * Z * Z) : step_res (Z * Z * Z) :=
  let '(cur, limit, step) := st in
  if limit <? cur then SDone
  else match checked (cur + step) with
       | Some c => SItem (integer cur) (c, limit, step)
       | None => SPanic
       end.
Definition neg_step_next (st : Z * Z * Z) : step_res (Z * Z * Z) :=
  let '(cur, limit, step) := st in
  if cur <? limit then SDone
  else match checked (cur + step) with
       | Some c => SItem (integer cur) (c, limit, step)
       | None => SPanic
       end.

(* What `eval_block_each1_iter` (vm/executor/method.rs:86-140) is given: a
   started iterator, or the early return. Simplification: the block itself is
   arbitrary; what is modelled is the sequence of values it is called with. *)
Inductive iter : Type :=
  | ItRange (a b : Z) | ItRangeRev (a b : Z) | ItBig (a b : Z)
  | ItPos (cur limit step : Z) | ItNeg (cur limit step : Z)
  | ItEmpty.
Definition iter_next (it : iter) : step_res iter :=
  match it with
  | ItRange a b => match range_next (a, b) with SItem v (a', b') => SItem v (ItRange a' b') | SDone => SDone | SPanic => SPanic end
  | ItRangeRev a b => match range_next_rev (a, b) with SItem v (a', b') => SItem v (ItRangeRev a' b') | SDone => SDone | SPanic => SPanic end
  | ItBig a b => match bigrange_next (a, b) with SItem v (a', b') => SItem v (ItBig a' b') | SDone => SDone | SPanic => SPanic end
  | ItPos c l s => match pos_step_next (c, l, s) with SItem v (c', l', s') => SItem v (ItPos c' l' s') | SDone => SDone | SPanic => SPanic end
  | ItNeg c l s => match neg_step_next (c, l, s) with SItem v (c', l', s') => SItem v (ItNeg c' l' s') | SDone => SDone | SPanic => SPanic end
  | ItEmpty => SDone
  end.
(* the sequence of block calls: [yields it l] says the iterator produces
   exactly l and then stops normally *)
Inductive yields : iter -> list value -> Prop :=
  | yields_done it : iter_next it = SDone -> yields it []
  | yields_item it v it' l : iter_next it = SItem v it' -> yields it' l -> yields it (v :: l).

(* builtin/integer.rs:325-355 *)
Definition int_times (self : value) : res iter :=
  match as_fixnum self with
  | Some num => if num <? 1 then Ok ItEmpty else Ok (ItRange 0 num)
  | None =>
    match as_bignum self with
    | Some num => if negb (0 <? num) then Ok ItEmpty else Ok (ItBig 0 num)
    | None => Panic
    end
  end.
(* builtin/integer.rs:361-380; max+1 overflows on i64::MAX *)
Definition int_upto (self arg0 : value) : res iter :=
  match as_fixnum self with
  | None => Panic                                   (* .unwrap() *)
  | Some num =>
      max <- coerce_to_fixnum arg0 ;;
      if num <=? max then
        match checked (max + 1) with Some e => Ok (ItRange num e) | None => Panic end
      else Ok ItEmpty
  end.
(* builtin/integer.rs:385-404 *)
Definition int_downto (self arg0 : value) : res iter :=
  match as_fixnum self with
  | None => Panic
  | Some num =>
      min <- coerce_to_fixnum arg0 ;;
      if num >=? min then
        match checked (num + 1) with Some e => Ok (ItRangeRev min e) | None => Panic end
      else Ok ItEmpty
  end.
(* builtin/integer.rs:444-473 *)
Definition int_step (self arg0 : value) (arg1 : option value) : res iter :=
  match as_fixnum self with
  | None => Panic
  | Some cur =>
      limit <- coerce_to_fixnum arg0 ;;
      step <- (match arg1 with
               | Some v => s <- coerce_to_fixnum v ;; if s =? 0 then Err ArgErr else Ok s
               | None => Ok 1
               end) ;;
      if step >? 0 then Ok (ItPos cur limit step) else Ok (ItNeg cur limit step)
  end.

(* builtin/integer.rs:808-841; loop with fuel (self_ shrinks for base >= 2; for
   base 1 the remainder is 0 at once) *)
Fixpoint digits_loop (fuel : nat) (s base : Z) : option (list Z) :=
  match fuel with
  | O => None
  | S fuel' =>
      let r := Z.rem s base in
      if r =? 0 then Some []
      else match digits_loop fuel' (Z.quot s base) base with
           | Some l => Some (r :: l) | None => None end
  end.
Definition int_digits (self : value) (arg0 : option value) : res (list value) :=
  base <- (match arg0 with
           | None => Ok 10
           | Some v => i <- coerce_to_fixnum v ;;
                       if i <? 0 then Err ArgErr else if i =? 0 then Err ArgErr else Ok i
           end) ;;
  match as_fixnum self with
  | None => Panic
  | Some s =>
      if s <? 0 then Err RangeErr
      else match digits_loop 65 s base with
           | None => Panic
           | Some [] => Ok [integer 0]
           | Some l => Ok (map integer l)
           end
  end.

(* real.rs:60-66: f64 quotient, floor, back to integer. [floorf] = f64::floor
   on the value, giving an integer when finite; FromPrimitive::from_f64 on a
   non-finite number is None and the unwrap panics. *)
Definition f64_floor_Z (b : Z) : option Z :=
  match sf_of_bits b with
  | SpecFloat.S754_zero _ => Some 0
  | SpecFloat.S754_finite s m e =>
      let a := if s then Zneg m else Zpos m in
      Some (if 0 <=? e then a * 2 ^ e else a / 2 ^ (- e))
  | _ => None
  end.
Definition real_quotient (a b : real) : res real :=
  match f64_floor_Z (fdiv (real_to_f64 a) (real_to_f64 b)) with
  | Some z => Ok (if in_i64 z then RlInt z else RlBig z)
  | None => Panic
  end.
(* builtin/integer.rs:117-129 (Integer#div) *)
Definition int_quotient (self arg0 : value) : res value :=
  match to_real self with
  | None => Panic
  | Some lhs =>
    match to_real arg0 with
    | Some rhs => if real_is_zero rhs then Err ZeroDiv
                  else q <- real_quotient lhs rhs ;; Ok (into_val q)
    | None => Err TypeErr
    end
  end.
