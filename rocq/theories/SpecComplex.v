(* What Complex numbers with Integer parts are: pairs of integers. *)
From Verif Require Import Base ModelValue ModelComplex.

(* the value a + bi; [bignum n] is the value of the integer n (C01) *)
Definition cx (g : Z * Z) : cval := CX (bignum (fst g)) (bignum (snd g)).
Definition int (n : Z) : cval := CV (bignum n).
Definition gadd (x y : Z * Z) : Z * Z := (fst x + fst y, snd x + snd y).
Definition gsub (x y : Z * Z) : Z * Z := (fst x - fst y, snd x - snd y).
Definition gmul (x y : Z * Z) : Z * Z := (fst x * fst y - snd x * snd y, fst x * snd y + snd x * fst y).
(* the square of the absolute value *)
Definition gnorm (x : Z * Z) : Z := fst x * fst x + snd x * snd x.
Definition gint (n : Z) : Z * Z := (n, 0).
(* Integers and Floats as the interpreter builds them *)
Definition number (v : value) : Prop := (exists n, v = bignum n) \/ (exists b, 0 <= b < 2 ^ 64 /\ v = float b).
(* not beyond what an immediate word holds *)
Definition small (n : Z) : Prop := - 2 ^ 62 <= n < 2 ^ 62.
