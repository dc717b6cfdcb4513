(* Conversions to integers and of integers to text: String#to_i (builtin/string.rs:954-965), Kernel#Integer
   (builtin/kernel.rs:323-349), Float#to_i and #floor (builtin/float.rs:89-93, 105-109), Numeric#to_s for
   integers (builtin/numeric.rs:23-44).  Numbers of arguments are taken to be right. *)
From Verif Require Import Base ModelValue ModelFloat ModelInt ModelArray ModelText ModelFormat.
From Coq Require Import Floats.SpecFloat.

(* Rust's i64::from_str, not part of /repo: an optional sign and at least one digit, with
   checked arithmetic, away from zero for negative numbers *)
Fixpoint parse_digits (neg : bool) (acc : Z) (s : chars) : option Z :=
  match s with
  | [] => Some acc
  | c :: s =>
      if (48 <=? c) && (c <=? 57) then
        let a := acc * 10 in
        if in_i64 a then
          let a := if neg then a - (c - 48) else a + (c - 48) in
          if in_i64 a then parse_digits neg a s else None
        else None
      else None
  end.
Definition i64_from_str (s : chars) : option Z :=
  match s with
  | [] => None
  | c :: r =>
      if (c =? 43) || (c =? 45) then
        match r with [] => None | _ => parse_digits (c =? 45) 0 r end
      else parse_digits false 0 s
  end.

(* f64::floor and `as i64`: the floor of a float is a float, so nothing is rounded *)
Definition f64_floor_Z (x : spec_float) : option Z :=
  match x with
  | S754_zero _ => Some 0
  | S754_finite s m e =>
      let a := if s then - Zpos m else Zpos m in
      Some (if 0 <=? e then a * 2 ^ e else a / 2 ^ (- e))
  | _ => None
  end.
Definition f64_floor_as_i64 (b : Z) : Z :=
  match sf_of_bits b with
  | S754_nan => 0
  | S754_infinity s => if s then - 2 ^ 63 else 2 ^ 63 - 1
  | x => match f64_floor_Z x with Some z => sat_i64 z | None => 0 end
  end.

(* the characters of a string object; None for an object of another kind.  Strings that are
   not valid UTF-8 (for which to_i gives 0 and Integer raises an ArgumentError) are not modelled. *)
Section Convert.
Variable text : Z -> option chars.

(* builtin/string.rs:954-965 *)
Definition string_to_i (s : chars) : value :=
  integer (match i64_from_str s with Some i => i | None => 0 end).
(* builtin/float.rs:105-109 and 89-93; Panic: unwrap of None *)
Definition float_to_i (v : value) : res value :=
  match as_float v with Some b => Ok (integer (f64_as_i64 b)) | None => Panic end.
Definition float_floor (v : value) : res value :=
  match as_float v with Some b => Ok (integer (f64_floor_as_i64 b)) | None => Panic end.
(* builtin/kernel.rs:323-349 with value/string.rs:229-239 parse *)
Definition kernel_integer (v : value) : res value :=
  match unpack v with
  | Some (RInteger i) => Ok (integer i)
  | Some (RFloat b) => Ok (integer (f64_as_i64 b))
  | Some (RObject (HObj id)) =>
      match text id with
      | Some s => match i64_from_str s with Some i => Ok (integer i) | None => Err ArgErr end
      | None => Err TypeErr
      end
  | Some _ => Err TypeErr
  | None => Panic
  end.
End Convert.

(* the to_string of i64 and BigInt *)
Definition int_text (n : Z) : chars :=
  (if n <? 0 then [45] else []) ++ udigits (S (Z.to_nat (Z.log2 (Z.abs n)))) 10 false (Z.abs n) [].
(* builtin/numeric.rs:23-30 for integers; floats and complex numbers are not modelled *)
Definition integer_to_s (v : value) : res chars :=
  match to_real v with
  | Some (RlInt i) => Ok (int_text i)
  | Some (RlBig n) => Ok (int_text n)
  | _ => Err OtherErr
  end.
