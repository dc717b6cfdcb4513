(* Vocabulary for C86 and C87. *)
From Verif Require Import Base ModelValue ModelFloat ModelEqual.

(* The number a packed word stands for, if it is one: an integer (inl) or the
   bits of a float (inr). *)
Definition number (w : Z) : option (Z + Z) :=
  if Z.land w 1 =? 1 then Some (inl (Z.shiftr (i64 w) 1))
  else match as_flonum_word w with Some f => Some (inr f) | None => None end.
(* Numbers are alike when they are equal, an integer and a float when the
   float nearest to the integer is that float. *)
Definition num_alike (a b : Z + Z) : Prop :=
  match a, b with
  | inl x, inl y => x = y
  | inr x, inr y => feq x y = true
  | inl x, inr y | inr y, inl x => feq (f64_of_Z x) y = true
  end.

(* Two values look the same in the heap [h]. *)
Inductive alike (h : Z -> cell) : ev -> ev -> Prop :=
  | al_num a b x y : number a = Some x -> number b = Some y -> num_alike x y -> alike h (EImm a) (EImm b)
  | al_word a : number a = None -> alike h (EImm a) (EImm a)
  | al_same a : alike h (EPtr a) (EPtr a)
  | al_big a b n : h a = CBig n -> h b = CBig n -> alike h (EPtr a) (EPtr b)
  | al_float a b x y : h a = CFloat x -> h b = CFloat y -> feq x y = true -> alike h (EPtr a) (EPtr b)
  | al_bigfloat a b n f : h a = CBig n -> h b = CFloat f -> feq (f64_of_Z n) f = true -> alike h (EPtr a) (EPtr b)
  | al_floatbig a b n f : h a = CFloat f -> h b = CBig n -> feq (f64_of_Z n) f = true -> alike h (EPtr a) (EPtr b)
  | al_str a b s : h a = CStr s -> h b = CStr s -> alike h (EPtr a) (EPtr b)
  | al_arr a b l r : h a = CArr l -> h b = CArr r -> alikes h l r -> alike h (EPtr a) (EPtr b)
  | al_range a b s1 e1 s2 e2 x : h a = CRange s1 e1 x -> h b = CRange s2 e2 x ->
      alike h s1 s2 -> alike h e1 e2 -> alike h (EPtr a) (EPtr b)
with alikes (h : Z -> cell) : list ev -> list ev -> Prop :=
  | als_nil : alikes h [] []
  | als_cons x y l r : alike h x y -> alikes h l r -> alikes h (x :: l) (y :: r).

(* [data h n v]: v is built of numbers, symbols, strings, arrays and ranges
   only, and is at most n objects deep. No array holds itself. *)
Inductive data (h : Z -> cell) : nat -> ev -> Prop :=
  | d_imm n w : data h n (EImm w)
  | d_big n a z : h a = CBig z -> data h (S n) (EPtr a)
  | d_float n a b : h a = CFloat b -> data h (S n) (EPtr a)
  | d_str n a s : h a = CStr s -> data h (S n) (EPtr a)
  | d_arr n a l : h a = CArr l -> (forall x, In x l -> data h n x) -> data h (S n) (EPtr a)
  | d_range n a s e x : h a = CRange s e x -> data h n s -> data h n e -> data h (S n) (EPtr a).

(* nil and false count as no, every other value as yes; the words 0x04 and
   0x34 are no values of a program. *)
Definition falsy (v : ev) : Prop := v = EImm 0x24 \/ v = EImm 0x14.
Definition yes (v : ev) : Prop :=
  match v with
  | EImm w => 0 <= w < 2 ^ 64 /\ w <> 0x14 /\ w <> 0x24 /\ w <> 0x04 /\ w <> 0x34
  | EPtr _ => True
  end.

(* What a program sees of a run of a method that answers a truth value: the
   method's answer, or a raised error. *)
Section Asks.
  Variable St : Type.
  Variable ask : St -> Z -> ev -> St * res ev.
  (* the objects of [p] are asked one after another whether they equal their
     partner, up to the first that says no *)
  Inductive asked : St -> list (Z * Z) -> St -> bool -> Prop :=
    | ask_all st : asked st [] st true
    | ask_no st a b p st' v : ask st a (EPtr b) = (st', Ok v) -> falsy v -> asked st ((a, b) :: p) st' false
    | ask_yes st a b p st' st'' v r : ask st a (EPtr b) = (st', Ok v) -> yes v ->
        asked st' p st'' r -> asked st ((a, b) :: p) st'' r.
End Asks.

(* The small integer i as a value. *)
Definition small (i : Z) : ev := EImm (2 * i mod 2 ^ 64 + 1).
