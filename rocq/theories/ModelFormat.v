(* String#%: ruruby/src/builtin/string.rs:293-419.  Text is a list of characters, as code
   points.  Arguments: fixnums, bignums, floats, strings and everything else. *)
From Verif Require Import Base ModelArray ModelText.

Section Format.
(* floats; f64::trunc and `as i64`; the sign and the text of a float with a given
   number of decimals, as Rust's formatting gives it; `as f64`.  Not modelled. *)
Variable F : Set.
Variable trunc : F -> Z.
Variable ftext : F -> Z -> bool * chars.
Variable of_int : Z -> F.

Inductive farg : Set := AInt (i : Z) | ABig (n : Z) | AFloat (f : F) | AStr (s : chars) | AOther.

(* the digits Rust's integer formatting writes: hexadecimal letters in lower or upper case *)
Definition digit_char (upper : bool) (d : Z) : Z := if d <? 10 then 48 + d else if upper then 55 + d else 87 + d.
Fixpoint udigits (fuel : nat) (base : Z) (upper : bool) (n : Z) (acc : chars) : chars :=
  match fuel with
  | O => acc
  | S fuel =>
      let acc := digit_char upper (n mod base) :: acc in
      if n / base =? 0 then acc else udigits fuel base upper (n / base) acc
  end.
(* Rust's Formatter::pad_integral and pad_formatted_parts with a width and maybe the flag 0:
   numbers are aligned to the right, zeros go behind the sign *)
Definition pad_num (neg zero : bool) (width : Z) (digits : chars) : chars :=
  let sign := if neg then [45] else [] in
  let k := Z.to_nat (width - zlen sign - zlen digits) in
  if zero then sign ++ repeat 48 k ++ digits else repeat 32 k ++ sign ++ digits.

(* value.rs:565-571 coerce_to_fixnum *)
Definition coerce_to_fixnum (a : farg) : res Z :=
  match a with AInt i => Ok i | AFloat f => Ok (trunc f) | _ => Err TypeErr end.
(* char::from_u32: not a surrogate and below 0x110000 *)
Definition char_from_u32 (n : Z) : option Z :=
  if (n <? 55296) || ((57344 <=? n) && (n <? 1114112)) then Some n else None.

(* 334-339 and 341-348: digits and the character behind them, both read with expect_char (276-282).
   The arithmetic is in usize; a build with overflow checks panics, one
   without goes on with the lower 64 bits, which is not modelled. *)
Fixpoint number (w : Z) (s : chars) : res (Z * Z * chars) :=
  match s with
  | [] => Err ArgErr
  | c :: r => if (48 <=? c) && (c <=? 57)
      then if in_u64 (w * 10 + c) then number (w * 10 + c - 48) r else Panic
      else Ok (w, c, r)
  end.
(* 355-412: the text for one argument *)
Definition convert (zero : bool) (width prec ch : Z) (a : farg) : res chars :=
  if ch =? 100 then (* d; the precision has no effect on integers in Rust *)
    v <- coerce_to_fixnum a ;; Ok (pad_num (v <? 0) zero width (udigits 64 10 false (Z.abs v) []))
  else if ch =? 98 then (* b: the 64 bits *)
    v <- coerce_to_fixnum a ;; Ok (pad_num false zero width (udigits 64 2 false (u64 v) []))
  else if ch =? 120 then (* x *)
    v <- coerce_to_fixnum a ;; Ok (pad_num false zero width (udigits 64 16 false (u64 v) []))
  else if ch =? 88 then (* X *)
    v <- coerce_to_fixnum a ;; Ok (pad_num false zero width (udigits 64 16 true (u64 v) []))
  else if ch =? 102 then (* f *)
    f <- match a with AFloat f => Ok f | _ => v <- coerce_to_fixnum a ;; Ok (of_int v) end ;;
    let '(neg, t) := ftext f prec in Ok (pad_num neg zero width t)
  else if ch =? 99 then (* c *)
    v <- coerce_to_fixnum a ;;
    match char_from_u32 (u32 v) with Some c => Ok [c] | None => Err ArgErr end
  else if ch =? 115 then (* s *)
    match a with AStr t => Ok t | _ => Err TypeErr end
  else Err ArgErr.
(* 328-333 *)
Definition zero_flag (s : chars) : bool * chars :=
  match s with c :: r => if c =? 48 then (true, r) else (false, s) | [] => (false, s) end.
(* 321-412: what follows a percent sign.  Answers the text, the rest of the format and of
   the arguments. *)
Definition directive (s : chars) (args : list farg) : res (chars * chars * list farg) :=
  let '(zero, s) := zero_flag s in
  x <- number 0 s ;;
  let '(width, ch, s) := x in
  y <- (if ch =? 46 then number 0 s else Ok (0, ch, s)) ;;
  let '(prec, ch, s) := y in
  match args with
  | [] => Err ArgErr
  | a :: args => t <- convert zero width prec ch a ;; Ok (t, s, args)
  end.
(* 309-415: the loop; next_char! ends it at the end of the format *)
Fixpoint format_loop (fuel : nat) (s : chars) (args : list farg) (acc : chars) : res chars :=
  match fuel with
  | O => Panic
  | S fuel =>
    match s with
    | [] => Ok acc
    | c :: r =>
        if negb (c =? 37) then format_loop fuel r args (acc ++ [c])
        else match r with
        | [] => Err ArgErr
        | c2 :: r2 =>
            if c2 =? 37 then format_loop fuel r2 args (acc ++ [37])
            else x <- directive r args ;; let '(t, s, args) := x in format_loop fuel s args (acc ++ t)
        end
    end
  end.
(* 293-419; an argument that is not an array is the only one (295-298): the caller's business here *)
Definition str_format (s : chars) (args : list farg) : res chars := format_loop (S (length s)) s args [].
End Format.
Arguments AInt {F}. Arguments ABig {F}. Arguments AFloat {F}. Arguments AStr {F}. Arguments AOther {F}.
