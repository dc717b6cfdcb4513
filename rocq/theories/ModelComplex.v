(* Complex numbers: builtin/complex.rs, the Complex side of builtin/numeric.rs,
   Kernel#Complex, value/value.rs to_complex and vm/executor/ops.rs. The
   operators on Integers and Floats are those of ModelInt. Not modelled: abs
   (f64::sqrt), the text of Floats inside a Complex, eql? and hash; a call of an
   operator finds the built-in method. *)
From Verif Require Import Base ModelValue ModelFloat ModelInt ModelText ModelConvert.

(* an operand: a value that is no Complex, or a Complex (rvalue.rs RubyComplex:
   the two parts are values) *)
Inductive cval : Type := CV (v : value) | CX (r i : value).

(* value.rs:1269-1283 to_complex: None for a Bignum. The unwraps panic on a part
   that is no real *)
Definition to_complex (x : cval) : res (option (real * real)) :=
  match x with
  | CV v =>
      match unpack v with
      | Some (RInteger i) => Ok (Some (RlInt i, RlInt 0))
      | Some (RFloat f) => Ok (Some (RlFloat f, RlInt 0))
      | _ => Ok None
      end
  | CX r i =>
      match to_real r, to_real i with
      | Some a, Some b => Ok (Some (a, b))
      | _, _ => Panic
      end
  end.
Definition radd := real_op Z.add fadd.
Definition rsub := real_op Z.sub fsub.
Definition rmul := real_op Z.mul fmul.
(* real.rs:55-57 exp2 *)
Definition exp2 (a : real) : real := rmul a a.
(* real.rs:67-69 divide *)
Definition divide (a b : real) : real := RlFloat (fdiv (real_to_f64 a) (real_to_f64 b)).
(* complex.rs:39-93: self_val.to_complex().unwrap(), then the argument *)
Definition with_parts {A} (self arg : cval) (k : real -> real -> real -> real -> res A) : res A :=
  s <- to_complex self ;;
  match s with
  | None => Panic
  | Some (r1, i1) =>
      a <- to_complex arg ;;
      match a with None => Err TypeErr | Some (r2, i2) => k r1 i1 r2 i2 end
  end.
(* complex.rs:39-47 *)
Definition complex_add (self arg : cval) : res cval :=
  with_parts self arg (fun r1 i1 r2 i2 => Ok (CX (into_val (radd r1 r2)) (into_val (radd i1 i2)))).
(* complex.rs:49-57 *)
Definition complex_sub (self arg : cval) : res cval :=
  with_parts self arg (fun r1 i1 r2 i2 => Ok (CX (into_val (rsub r1 r2)) (into_val (rsub i1 i2)))).
(* complex.rs:59-69 *)
Definition complex_mul (self arg : cval) : res cval :=
  with_parts self arg (fun r1 i1 r2 i2 =>
    Ok (CX (into_val (rsub (rmul r1 r2) (rmul i1 i2))) (into_val (radd (rmul i1 r2) (rmul i2 r1))))).
(* complex.rs:71-82 *)
Definition complex_div (self arg : cval) : res cval :=
  with_parts self arg (fun r1 i1 r2 i2 =>
    let abs2 := radd (exp2 r2) (exp2 i2) in
    r <- real_div (radd (rmul r2 r1) (rmul i2 i1)) abs2 ;;
    i <- real_div (rsub (rmul r2 i1) (rmul r1 i2)) abs2 ;;
    Ok (CX (into_val r) (into_val i))).
(* complex.rs:84-93 *)
Definition complex_eq (self arg : cval) : res bool :=
  with_parts self arg (fun r1 i1 r2 i2 => Ok (real_eq r1 r2 && real_eq i1 i2)).
(* complex.rs:95-99 *)
Definition complex_abs2 (self : cval) : res value :=
  s <- to_complex self ;;
  match s with None => Panic | Some (r, i) => Ok (into_val (radd (exp2 r) (exp2 i))) end.
(* complex.rs:107-111: the two elements of the array *)
Definition complex_rect (self : cval) : res (value * value) :=
  s <- to_complex self ;;
  match s with None => Panic | Some (r, i) => Ok (into_val r, into_val i) end.

(* value.rs:350-355: a Bignum is an object *)
Definition is_real (x : cval) : bool :=
  match x with
  | CV v => match unpack v with Some (RFloat _) | Some (RInteger _) => true | _ => false end
  | CX _ _ => false
  end.
Definition part (x : cval) : value := match x with CV v => v | CX r _ => r end.
(* complex.rs:23-36 Complex.rect, Complex.rectangular *)
Definition make_rect (args : list cval) : res cval :=
  match args with
  | [a] => if is_real a then Ok (CX (part a) (integer 0)) else Err TypeErr
  | [a; b] =>
      if negb (is_real a) then Err TypeErr
      else if is_real b then Ok (CX (part a) (part b)) else Err TypeErr
  | _ => Err ArgErr
  end.
(* kernel.rs:351-370 Kernel#Complex; the third argument as a condition *)
Definition kernel_complex (args : list cval) (third : option bool) : res cval :=
  let build (r i : cval) (ex : bool) : res cval :=
    if negb (is_real r) || negb (is_real i) then (if ex then Err ArgErr else Ok (CV nil))
    else Ok (CX (part r) (part i)) in
  match args, third with
  | [a], None => build a (CV (integer 0)) true
  | [a; b], None => build a b true
  | [a; b], Some t => build a b t
  | _, _ => Err ArgErr
  end.

(* numeric.rs:46-121: an Integer or Float on the left, a Complex on the right *)
Definition numeric_add (lhs : value) (arg : cval) : res cval :=
  match to_real lhs with
  | None => Panic
  | Some a =>
      c <- to_complex arg ;;
      match c with Some (r, i) => Ok (CX (into_val (radd a r)) (into_val i)) | None => Err TypeErr end
  end.
Definition numeric_sub (lhs : value) (arg : cval) : res cval :=
  match to_real lhs with
  | None => Panic
  | Some a =>
      c <- to_complex arg ;;
      match c with
      | Some (r, i) => j <- real_neg i ;; Ok (CX (into_val (rsub a r)) (into_val j))
      | None => Err TypeErr
      end
  end.
Definition numeric_mul (lhs : value) (arg : cval) : res cval :=
  match to_real lhs with
  | None => Panic
  | Some a =>
      c <- to_complex arg ;;
      match c with Some (r, i) => Ok (CX (into_val (rmul a r)) (into_val (rmul a i))) | None => Err TypeErr end
  end.
Definition numeric_div_complex (lhs : value) (arg : cval) : res cval :=
  match to_real lhs with
  | None => Panic
  | Some a =>
      c <- to_complex arg ;;
      match c with
      | Some (r, i) =>
          let divider := radd (exp2 r) (exp2 i) in
          if real_is_zero divider then Err ZeroDiv
          else
            m <- real_neg a ;;
            Ok (CX (into_val (divide (rmul a r) divider)) (into_val (divide (rmul m i) divider)))
      | None => Err TypeErr
      end
  end.

(* ops.rs:30-136: the operators; what is neither two Fixnums nor a Fixnum and a
   Flonum is sent to the left operand. A left operand that is no number is not
   modelled (NoMethodError here) *)
Definition is_num (v : value) : bool := match to_real v with Some _ => true | None => false end.
Definition binop (on_reals : value -> value -> res value) (on_complex : cval -> cval -> res cval) (on_mixed : value -> cval -> res cval) (l r : cval) : res cval :=
  match l, r with
  | CX _ _, _ => on_complex l r
  | CV a, CX _ _ => if is_num a then on_mixed a r else Err NoMethodErr
  | CV a, CV b => v <- on_reals a b ;; Ok (CV v)
  end.
Definition op_add := binop invoke_add complex_add numeric_add.
Definition op_sub := binop invoke_sub complex_sub numeric_sub.
Definition op_mul := binop invoke_mul complex_mul numeric_mul.
Definition op_div := binop invoke_div complex_div numeric_div_complex.

(* ops.rs:358-433 eval_eq2 (==), when one side is a Complex; same: both are one
   object. An error of the method == counts as false (428-431). *)
Definition packed (v : value) : bool := match v with Imm _ => true | Heap _ => false end.
Definition op_eq (same : bool) (l r : cval) : res bool :=
  match l, r with
  | CV a, CV b => Ok (eval_eq2 b a)
  | CV a, CX _ _ =>
      if packed a then Ok false
      else Ok false           (* Integer#== gives false, Float's == an error *)
  | CX _ _, CV b =>
      if packed b then Ok false
      else match complex_eq l r with Ok t => Ok t | Err _ => Ok false | Panic => Panic end
  | CX r1 i1, CX r2 i2 =>
      if same then Ok true
      else match to_real r1, to_real r2, to_real i1, to_real i2 with
           | Some a, Some b, Some c, Some d => Ok (real_eq a b && real_eq c d)
           | _, _, _, _ => Panic
           end
  end.
(* ops.rs:453-470 eval_eqi: == with an integer literal *)
Definition op_eqi (l : cval) (i : Z) : res bool :=
  match l with
  | CV a => Ok (eval_eq2 (integer i) a)
  | CX _ _ => complex_eq l (CV (integer i))
  end.
(* ops.rs:265-285 and numeric.rs:123-149: <, <=, >, >= *)
Definition op_cmp (op : cop) (l r : cval) : res bool :=
  match l, r with
  | CX _ _, _ => Panic                         (* self_val.to_real().unwrap() *)
  | CV a, CX _ _ => if is_num a then Err ArgErr else Err NoMethodErr
  | CV a, CV b => v <- numeric_cmp op a b ;; Ok (to_bool v)
  end.

(* numeric.rs:23-44, value.rs:220-229: inspect and to_s, for Integer parts *)
Definition real_text (a : real) : res chars :=
  match a with RlInt i => Ok (int_text i) | RlBig n => Ok (int_text n) | RlFloat _ => Err OtherErr end.
(* real.rs:28-34 *)
Definition is_negative (a : real) : bool :=
  match a with RlBig n => negb (0 <? n) | RlInt i => i <? 0 | RlFloat f => negb (Z.land f (2 ^ 63) =? 0) end.
Definition complex_inspect (self : cval) : res chars :=
  match self with
  | CX r i =>
      match to_real r, to_real i with
      | Some a, Some b =>
          x <- real_text a ;; y <- real_text b ;;
          Ok ([40] ++ x ++ (if is_negative b then [] else [43]) ++ y ++ [105; 41])
      | _, _ => Panic
      end
  | CV _ => Panic
  end.
