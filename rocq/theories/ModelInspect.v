(* Printing values: inspect, to_s, puts, print, p and interpolation, for nil,
   true, false, integers, symbols, strings, arrays, hashes and ranges whose
   inspect and to_s are the builtin ones. Not modelled: floats (the shortest
   decimal text is Rust's), other objects, programs that redefine inspect or
   to_s. The depth of the native stack is the fuel: running out of it aborts the
   interpreter (Panic). *)
From Verif Require Import Base ModelArray ModelValue ModelInt ModelText ModelString ModelConvert.

(* a Value, unpacked (value/value.rs:158-184): RPtr is the address of an object *)
Inductive ref : Set := RNil | RTrue | RFalse | RInt (n : Z) | RSym (name : list Z) | RPtr (a : Z).
Inductive obj : Set := OStr (s : rstring) | OArr (l : list ref) | OHash (l : list (ref * ref)) | ORange (s e : ref) (exclude : bool).
Definition heap := Z -> option obj.
Definition same_id (a b : ref) : bool := match a, b with RPtr x, RPtr y => x =? y | _, _ => false end.

Section Inspect.
(* String::from_utf8_lossy (std) is a parameter: only used for byte strings *)
Variable lossy : list Z -> list Z.

(* builtin/array.rs:149-152: the loop from the second element on *)
Fixpoint array_rest (f : ref -> res (list Z)) (result : list Z) (l : list ref) : res (list Z) :=
  match l with
  | [] => Ok result
  | e :: r => t <- f e ;; array_rest f (result ++ [44; 32] ++ t) r
  end.
(* builtin/array.rs:138-158 inspect; 139-145 checked_inspect *)
Definition array_inspect (f : ref -> res (list Z)) (self : ref) (l : list ref) : res (list Z) :=
  let checked e := if same_id e self then Ok [91; 46; 46; 46; 93] else f e in
  match l with
  | [] => Ok [91; 93]
  | e :: r => t <- checked e ;; s <- array_rest checked t r ;; Ok ([91] ++ s ++ [93])
  end.
(* value/hash.rs:290-302: the loop of to_s *)
Fixpoint hash_rest (f : ref -> res (list Z)) (result : list Z) (first : bool) (l : list (ref * ref)) : res (list Z) :=
  match l with
  | [] => Ok result
  | (k, v) :: r =>
      ki <- f k ;; vi <- f v ;;
      hash_rest f (if first then ki ++ [61; 62] ++ vi else result ++ [44; 32] ++ ki ++ [61; 62] ++ vi) false r
  end.
(* value/hash.rs:286-306 to_s *)
Definition hash_to_s (f : ref -> res (list Z)) (l : list (ref * ref)) : res (list Z) :=
  match l with [] => Ok [123; 125] | _ => s <- hash_rest f [] true l ;; Ok ([123] ++ s ++ [125]) end.
(* builtin/range.rs:23-35 to_s and inspect *)
Definition range_text (f : ref -> res (list Z)) (s e : ref) (exclude : bool) : res (list Z) :=
  a <- f s ;; b <- f e ;; Ok (a ++ (if exclude then [46; 46; 46] else [46; 46]) ++ b).

(* vm/executor.rs:757-790 val_inspect; arrays go through the method inspect
   (781-786), big integers through Numeric's (builtin/numeric.rs:23-30) *)
Fixpoint val_inspect (h : heap) (fuel : nat) (v : ref) : res (list Z) :=
  match fuel with
  | O => Panic
  | S n =>
      match v with
      | RNil => Ok [110; 105; 108]
      | RTrue => Ok [116; 114; 117; 101]
      | RFalse => Ok [102; 97; 108; 115; 101]
      | RInt i => integer_to_s (bignum i)
      | RSym name => Ok (58 :: name)
      | RPtr a =>
          match h a with
          | Some (OStr s) => Ok (str_inspect lossy s)
          | Some (OArr l) => array_inspect (val_inspect h n) v l
          | Some (OHash l) => hash_to_s (val_inspect h n) l
          | Some (ORange s e x) => range_text (val_inspect h n) s e x
          | None => Panic
          end
      end
  end.

(* value/string.rs:241-247 to_s *)
Definition str_to_s (s : rstring) : list Z := match s with Str cs | SmallStr cs => cs | Bytes bs => lossy bs end.
(* value/value.rs:393-418 val_to_s; Array#to_s is inspect (builtin/array.rs:9),
   Hash#to_s too (builtin/hash.rs:6), Range#to_s builtin/range.rs:67-72 *)
Fixpoint val_to_s (h : heap) (fuel : nat) (v : ref) : res (list Z) :=
  match fuel with
  | O => Panic
  | S n =>
      match v with
      | RNil => Ok []
      | RTrue => Ok [116; 114; 117; 101]
      | RFalse => Ok [102; 97; 108; 115; 101]
      | RInt i => integer_to_s (bignum i)
      | RSym name => Ok name
      | RPtr a =>
          match h a with
          | Some (OStr s) => Ok (str_to_s s)
          | Some (OArr l) => array_inspect (val_inspect h n) v l
          | Some (OHash l) => hash_to_s (val_inspect h n) l
          | Some (ORange s e x) => range_text (val_to_s h n) s e x
          | None => Panic
          end
      end
  end.

(* the bytes written: one call after the other *)
Fixpoint each_out (f : ref -> res (list Z)) (l : list ref) : res (list Z) :=
  match l with [] => Ok [] | v :: r => a <- f v ;; b <- each_out f r ;; Ok (a ++ b) end.
(* builtin/kernel.rs:40-50 flatten *)
Fixpoint flatten (h : heap) (fuel : nat) (v : ref) : res (list Z) :=
  match fuel with
  | O => Panic
  | S n =>
      match (match v with RPtr a => match h a with Some (OArr l) => Some l | _ => None end | _ => None end) with
      | None => t <- val_to_s h n v ;; Ok (enc t ++ [10])
      | Some l => each_out (flatten h n) l
      end
  end.
(* builtin/kernel.rs:39-58 puts *)
Definition puts (h : heap) (fuel : nat) (args : list ref) : res (list Z) :=
  out <- each_out (flatten h fuel) args ;; Ok ((if zlen args =? 0 then [10] else []) ++ out).
(* builtin/kernel.rs:81-93 print. Simplification: write takes all bytes. *)
Definition print (h : heap) (fuel : nat) (args : list ref) : res (list Z) :=
  each_out (fun v =>
    match (match v with RPtr a => match h a with Some (OStr s) => Some s | _ => None end | _ => None end) with
    | Some s => Ok (as_bytes s)
    | None => t <- val_to_s h fuel v ;; Ok (enc t)
    end) args.
(* builtin/kernel.rs:69-78 p: what is written, and the value *)
Inductive pret : Set := PNil | POne (v : ref) | PMany (l : list ref).
Definition p (h : heap) (fuel : nat) (args : list ref) : res (list Z * pret) :=
  out <- each_out (fun v => t <- val_inspect h fuel v ;; Ok (enc t ++ [10])) args ;;
  Ok (out, match args with [] => PNil | [v] => POne v | _ => PMany args end).
(* builtin/io.rs:20-31 output ($stdout << x) *)
Definition io_output (h : heap) (fuel : nat) (v : ref) : res (list Z) := t <- val_to_s h fuel v ;; Ok (enc t).

(* an interpolated string, opt_core.rs:225-234 CONCAT_STRING and 549-555 TO_S;
   codegen.rs:634-661: empty texts are left out *)
Inductive part : Set := Lit (cs : list Z) | Val (v : ref).
Fixpoint interpolate (h : heap) (fuel : nat) (acc : list Z) (l : list part) : res (list Z) :=
  match l with
  | [] => Ok acc
  | Lit cs :: r => interpolate h fuel (acc ++ cs) r
  | Val v :: r => t <- val_to_s h fuel v ;; interpolate h fuel (acc ++ t) r
  end.
End Inspect.
