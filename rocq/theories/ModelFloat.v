(* IEEE binary64 on bit patterns, through the standard library's SpecFloat
   (round to nearest, ties to even). External semantics of Rust's f64; not
   part of /repo. NaN results are one canonical pattern (Rust leaves the
   payload of a computed NaN unspecified). *)
From Verif Require Import Base.
From Coq Require Import Floats.SpecFloat.

Definition prec : Z := 53.
Definition emax : Z := 1024.

(* f64::from_bits *)
Definition sf_of_bits (b : Z) : spec_float :=
  let s := Z.testbit b 63 in
  let e := (b / 2 ^ 52) mod 2 ^ 11 in
  let m := b mod 2 ^ 52 in
  if e =? 0 then
    match m with Zpos p => S754_finite s p (-1074) | _ => S754_zero s end
  else if e =? 2047 then
    (if m =? 0 then S754_infinity s else S754_nan)
  else match m + 2 ^ 52 with Zpos p => S754_finite s p (e - 1075) | _ => S754_nan end.

(* f64::to_bits *)
Definition sbit (s : bool) : Z := if s then 2 ^ 63 else 0.
Definition bits_of_sf (x : spec_float) : Z :=
  match x with
  | S754_zero s => sbit s
  | S754_infinity s => sbit s + 2047 * 2 ^ 52
  | S754_nan => 2047 * 2 ^ 52 + 2 ^ 51
  | S754_finite s m e =>
      if Zpos m <? 2 ^ 52 then sbit s + Zpos m
      else sbit s + (e + 1075) * 2 ^ 52 + (Zpos m - 2 ^ 52)
  end.

(* `i as f64` and BigInt::to_f64 (correctly rounded, overflow to infinity). *)
Definition f64_of_Z (z : Z) : Z := bits_of_sf (binary_normalize prec emax z 0 false).

Definition fadd (a b : Z) : Z := bits_of_sf (SFadd prec emax (sf_of_bits a) (sf_of_bits b)).
Definition fsub (a b : Z) : Z := bits_of_sf (SFsub prec emax (sf_of_bits a) (sf_of_bits b)).
Definition fmul (a b : Z) : Z := bits_of_sf (SFmul prec emax (sf_of_bits a) (sf_of_bits b)).
Definition fdiv (a b : Z) : Z := bits_of_sf (SFdiv prec emax (sf_of_bits a) (sf_of_bits b)).
Definition fneg (a : Z) : Z := bits_of_sf (SFopp (sf_of_bits a)).
(* f64::partial_cmp *)
Definition fcmp (a b : Z) : option comparison := SFcompare (sf_of_bits a) (sf_of_bits b).
Definition feq (a b : Z) : bool := match fcmp a b with Some Eq => true | _ => false end.
Definition flt (a b : Z) : bool := match fcmp a b with Some Lt => true | _ => false end.

Definition f64_is_infinite (b : Z) : bool :=
  match sf_of_bits b with S754_infinity _ => true | _ => false end.
Definition f64_is_nan (b : Z) : bool :=
  match sf_of_bits b with S754_nan => true | _ => false end.
Definition F_INF : Z := bits_of_sf (S754_infinity false).
Definition F_NEG_INF : Z := bits_of_sf (S754_infinity true).
Definition F_ONE : Z := f64_of_Z 1.

(* Rust's `%` on f64 (C fmod): exact, sign of the dividend. *)
Definition frem_sf (x y : spec_float) : spec_float :=
  match x, y with
  | S754_nan, _ | _, S754_nan | S754_infinity _, _ | _, S754_zero _ => S754_nan
  | _, S754_infinity _ => x
  | S754_zero s, _ => x
  | S754_finite s m1 e1, S754_finite _ m2 e2 =>
      let e := Z.min e1 e2 in
      let a := Zpos m1 * 2 ^ (e1 - e) in
      let b := Zpos m2 * 2 ^ (e2 - e) in
      let r := a mod b in
      if r =? 0 then S754_zero s
      else SpecFloat.binary_normalize prec emax (if s then - r else r) e s
  end.
Definition frem (a b : Z) : Z := bits_of_sf (frem_sf (sf_of_bits a) (sf_of_bits b)).

(* `f.trunc() as i64`: saturating, NaN to 0. *)
Definition f64_trunc_Z (x : spec_float) : option Z :=
  match x with
  | S754_zero _ => Some 0
  | S754_finite s m e =>
      let a := if 0 <=? e then Zpos m * 2 ^ e else Zpos m / 2 ^ (- e) in
      Some (if s then - a else a)
  | _ => None
  end.
Definition sat_i64 (z : Z) : Z := Z.max (- 2 ^ 63) (Z.min (2 ^ 63 - 1) z).
Definition f64_as_i64 (b : Z) : Z :=
  match sf_of_bits b with
  | S754_nan => 0
  | S754_infinity s => if s then - 2 ^ 63 else 2 ^ 63 - 1
  | x => match f64_trunc_Z x with Some z => sat_i64 z | None => 0 end
  end.
