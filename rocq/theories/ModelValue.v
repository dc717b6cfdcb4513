(* Value representation: ruruby/src/value/value.rs. *)
From Verif Require Import Base.

(* Heap objects that matter for numbers. RValue kinds BIGNUM / FLOAT of
   ruruby/src/value/rvalue.rs:124-144; every other kind is [HObj] with an
   opaque identity (simplification: contents are modelled elsewhere). Floats
   are kept as their 64-bit patterns (f64::to_bits). *)
Inductive hobj : Set :=
  | HBig (n : Z)
  | HFloat (bits : Z)
  | HObj (id : Z).

(* value.rs:47-49 `struct Value(NonZeroU64)`. A packed word, or a reference to
   a heap object. Simplification: a reference carries the object instead of
   its (8-byte aligned) address; [aligned_word] properties speak of addresses. *)
Inductive value : Set :=
  | Imm (w : Z)
  | Heap (o : hobj).

(* value.rs:8-18 *)
Definition UNINITIALIZED : Z := 0x04.
Definition FALSE_VALUE : Z := 0x14.
Definition NIL_VALUE : Z := 0x24.
Definition TRUE_VALUE : Z := 0x1c.
Definition TAG_SYMBOL : Z := 0x0c.
Definition BOOL_MASK1 : Z := 0x30.
Definition BOOL_MASK2 : Z := 0xffffffffffffffcf.
Definition FLOAT_MASK1 : Z := not64 (Z.shiftl 6 60).
Definition FLOAT_MASK2 : Z := Z.shiftl 4 60.
Definition ZERO : Z := Z.lor (Z.shiftl 8 60) 2.

(* value.rs:20-30 `enum RV`. Float by bit pattern. *)
Inductive rv : Set :=
  | RUninit | RNil | RTrue | RFalse
  | RInteger (i : Z)
  | RFloat (bits : Z)
  | RSymbol (id : Z)
  | RObject (o : hobj).

(* value.rs:511-513 *)
Definition is_packed_word (w : Z) : bool := negb (Z.land w 7 =? 0).
(* value.rs:516-518 *)
Definition as_fnum (w : Z) : Z := Z.shiftr (i64 w) 1.
(* value.rs:521-523 *)
Definition is_fnum (w : Z) : bool := Z.land w 1 =? 1.
(* value.rs:526-532 *)
Definition as_fixnum (v : value) : option Z :=
  match v with
  | Imm w => if is_fnum w then Some (as_fnum w) else None
  | Heap _ => None      (* an aligned address has bit 0 clear *)
  end.
(* value.rs:535-548 *)
Definition as_flonum_word (u : Z) : option Z :=
  if Z.land u 3 =? 2 then
    if u =? ZERO then Some 0
    else
      let bit := 2 - Z.land (Z.shiftr u 63) 1 in
      Some (rotr64 (Z.lor (Z.land u (not64 3)) bit) 3)
  else None.
Definition as_flonum (v : value) : option Z :=
  match v with Imm w => as_flonum_word w | Heap _ => None end.
(* value.rs:556-563 *)
Definition is_packed_symbol (w : Z) : bool := Z.land w 0xff =? TAG_SYMBOL.
Definition as_packed_symbol (w : Z) : Z := u32 (Z.shiftr w 32).
(* value.rs:573-581 *)
Definition as_bignum (v : value) : option Z :=
  match v with Heap (HBig n) => Some n | _ => None end.
(* value.rs:583-595 *)
Definition as_float (v : value) : option Z :=
  match as_flonum v with
  | Some f => Some f
  | None => match v with Heap (HFloat b) => Some b | _ => None end
  end.

(* value.rs:1011-1013 *)
Definition fixnum (num : Z) : value := Imm (Z.lor (u64 (Z.shiftl num 1)) 1).
(* value.rs:1016-1019 *)
Definition is_i63 (num : Z) : bool :=
  let u := u64 num in
  Z.land (Z.lxor (Z.shiftr u 62) (Z.shiftr u 63)) 1 =? 0.
(* value.rs:1021-1027; num is an i64 *)
Definition integer (num : Z) : value :=
  if is_i63 num then fixnum num else Heap (HBig num).
(* value.rs:1029-1035; BigInt::to_i64 succeeds exactly on the i64 range *)
Definition bignum (num : Z) : value :=
  if in_i64 num then integer num else Heap (HBig num).
(* f64 `num == 0.0` on bit patterns: both zeros. *)
Definition f64_is_zero (bits : Z) : bool := Z.land bits (2 ^ 63 - 1) =? 0.
(* value.rs:1037-1048 *)
Definition float (bits : Z) : value :=
  if f64_is_zero bits then Imm ZERO
  else
    let exp := Z.land (Z.shiftr bits 60) 7 + 1 in
    if Z.land exp 6 =? 4
    then Imm (rotl64 (Z.lor (Z.land bits FLOAT_MASK1) FLOAT_MASK2) 3)
    else Heap (HFloat bits).
(* value.rs:1069-1072 *)
Definition symbol (id : Z) : value := Imm (Z.lor (Z.shiftl id 32) TAG_SYMBOL).
(* value.rs:982-1008 nil/true_val/false_val/uninitialized/bool *)
Definition nil : value := Imm NIL_VALUE.
Definition true_val : value := Imm TRUE_VALUE.
Definition false_val : value := Imm FALSE_VALUE.
Definition uninitialized : value := Imm UNINITIALIZED.
Definition vbool (b : bool) : value := if b then true_val else false_val.

(* value.rs:33-44 *)
Definition pack (r : rv) : value :=
  match r with
  | RUninit => uninitialized
  | RNil => nil
  | RTrue => true_val
  | RFalse => false_val
  | RInteger i => integer i
  | RFloat b => float b
  | RSymbol id => symbol id
  | RObject o => Heap o
  end.

(* value.rs:158-184. [None] is the `unreachable!` panic. *)
Definition unpack (v : value) : option rv :=
  match v with
  | Heap (HFloat b) => Some (RFloat b)
  | Heap o => Some (RObject o)
  | Imm w =>
      match as_fixnum (Imm w) with
      | Some i => Some (RInteger i)
      | None =>
          match as_flonum_word w with
          | Some f => Some (RFloat f)
          | None =>
              if is_packed_symbol w then Some (RSymbol (as_packed_symbol w))
              else if w =? NIL_VALUE then Some RNil
              else if w =? TRUE_VALUE then Some RTrue
              else if w =? FALSE_VALUE then Some RFalse
              else if w =? UNINITIALIZED then Some RUninit
              else None
          end
      end
  end.

(* value.rs:1237-1239; precedence: (get & MASK2) | MASK1 != 0x34 *)
Definition to_bool_word (w : Z) : bool :=
  negb (Z.lor (Z.land w BOOL_MASK2) BOOL_MASK1 =? 0x34).
(* A heap reference is a non-null aligned address; see to_bool_aligned. *)
Definition to_bool (v : value) : bool :=
  match v with Imm w => to_bool_word w | Heap _ => true end.
