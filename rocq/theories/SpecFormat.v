(* What String#% is to give: formats as a sequence of pieces, and the text of each piece. *)
From Verif Require Import Base ModelArray ModelText ModelFormat.

(* how conversions write digits: decimal digits, and letters for hexadecimal *)
Inductive kind : Set := Dec | Bin | Hex | HexUp | Str.
Definition letter (k : kind) : Z := match k with Dec => 100 | Bin => 98 | Hex => 120 | HexUp => 88 | Str => 115 end.
Definition base (k : kind) : Z := match k with Dec => 10 | Bin => 2 | Hex | HexUp => 16 | Str => 0 end.
Inductive stands_for (k : kind) : Z -> Z -> Prop :=
| S_digit c : 48 <= c <= 57 -> stands_for k c (c - 48)
| S_lower c : k = Hex -> 97 <= c <= 102 -> stands_for k c (c - 97 + 10)
| S_upper c : k = HexUp -> 65 <= c <= 70 -> stands_for k c (c - 65 + 10).
(* the text is the number in positional notation *)
Inductive positional (k : kind) : chars -> Z -> Prop :=
| P_none : positional k [] 0
| P_more ds n c d : positional k ds n -> stands_for k c d -> d < base k -> positional k (ds ++ [c]) (n * base k + d).
(* and without superfluous zeros *)
Definition digits_of (k : kind) (n : Z) (ds : chars) : Prop := positional k ds n /\ ds <> [] /\ (hd 0 ds = 48 -> ds = [48]).
(* to the right in a field of at least [w], filled with blanks, or zeros behind the sign *)
Definition aligned (zero : bool) (w : Z) (sign ds out : chars) : Prop := exists k : nat,
  out = (if zero then sign ++ repeat 48 k ++ ds else repeat 32 k ++ sign ++ ds) /\
  ((k = O /\ w <= zlen (sign ++ ds)) \/ zlen out = w).

(* [%%], other characters, and [%], an optional 0, the digits of a width, and a letter *)
Inductive piece : Set := Char (c : Z) | Percent | Conv (zero : bool) (width : chars) (k : kind).
Definition write_piece (p : piece) : chars :=
  match p with
  | Char c => [c]
  | Percent => [37; 37]
  | Conv zero width k => [37] ++ (if zero then [48] else []) ++ width ++ [letter k]
  end.
Definition write (ps : list piece) : chars := concat (map write_piece ps).
(* a width: empty, or a decimal numeral that does not begin with 0 *)
Definition width_of (width : chars) (w : Z) : Prop := positional Dec width w /\ hd 0 width <> 48.

Section Spec.
Variable F : Set.
(* the text for an argument *)
Inductive converts : bool -> Z -> kind -> farg F -> chars -> Prop :=
| C_dec zero w i ds out : digits_of Dec (Z.abs i) ds -> aligned zero w (if i <? 0 then [45] else []) ds out -> converts zero w Dec (AInt i) out
| C_num zero w k i ds out : k = Bin \/ k = Hex \/ k = HexUp -> 0 <= i -> digits_of k i ds -> aligned zero w [] ds out -> converts zero w k (AInt i) out
| C_str t : converts false 0 Str (AStr t) t.
(* the text for a format; further arguments are not used *)
Inductive means : list piece -> list (farg F) -> chars -> Prop :=
| M_end args : means [] args []
| M_char c ps args out : means ps args out -> means (Char c :: ps) args (c :: out)
| M_percent ps args out : means ps args out -> means (Percent :: ps) args (37 :: out)
| M_conv zero width w k a t ps args out : width_of width w -> converts zero w k a t -> means ps args out ->
    means (Conv zero width k :: ps) (a :: args) (t ++ out).
(* a piece that is covered, with its argument *)
Inductive suits : bool -> Z -> kind -> farg F -> Prop :=
| U_dec zero w i : - 2 ^ 63 <= i < 2 ^ 63 -> suits zero w Dec (AInt i)
| U_num zero w k i : k = Bin \/ k = Hex \/ k = HexUp -> 0 <= i < 2 ^ 63 -> suits zero w k (AInt i)
| U_str t : suits false 0 Str (AStr t).
Inductive good : list piece -> list (farg F) -> Prop :=
| G_end args : good [] args
| G_char c ps args : c <> 37 -> good ps args -> good (Char c :: ps) args
| G_percent ps args : good ps args -> good (Percent :: ps) args
| G_conv zero width w k a ps args : width_of width w -> w < 2 ^ 63 -> suits zero w k a -> good ps args -> good (Conv zero width k :: ps) (a :: args).
End Spec.
Arguments converts {F}. Arguments means {F}. Arguments suits {F}. Arguments good {F}.
