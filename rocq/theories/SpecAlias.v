(** What methods of arrays do to arrays, as objects. *)
From Coq Require Import ZArith List Bool Arith Relations.
From Verif Require Import Base ModelAlias.
Import ListNotations.
Local Open Scope nat_scope.

(** The array with number [i] holds [l]. *)
Definition holds (h : aheap) (i : nat) (l : list aval) : Prop := exists c, nth_error h i = Some c /\ elems c = l.
(** The result is a new array holding [l]; all arrays there were are as they were. *)
Definition gives_new (h : aheap) (r : res (aval * aheap)) (l : list aval) : Prop :=
  exists n h', r = Ok (AArr n, h') /\ nth_error h n = None /\ holds h' n l
    /\ (forall i k, holds h i k -> holds h' i k) /\ (forall i k, holds h' i k -> i <> n -> holds h i k).
(** The result is [v]; the receiver [s] holds [l], all other arrays are as they
    were and there are no new ones. *)
Definition changes (h : aheap) (s : nat) (r : res (aval * aheap)) (v : aval) (l : list aval) : Prop :=
  exists h', r = Ok (v, h') /\ holds h' s l /\ forall i k, i <> s -> (holds h' i k <-> holds h i k).

Fixpoint without_nil (l : list aval) : list aval :=
  match l with [] => [] | ANil :: l => without_nil l | x :: l => x :: without_nil l end.
(** The elements of which no earlier one is a duplicate.  The array itself is a
    duplicate of itself only. *)
Definition duplicate (same : aval -> aval -> bool) (s : nat) (x y : aval) : Prop :=
  (x = AArr s /\ y = AArr s) \/ (x <> AArr s /\ y <> AArr s /\ same x y = true).
Inductive firsts (D : aval -> aval -> Prop) : list aval -> list aval -> list aval -> Prop :=
| F_end b : firsts D b [] []
| F_keep b x l k : (forall y, In y b -> ~ D x y) -> firsts D (b ++ [x]) l k -> firsts D b (x :: l) (x :: k)
| F_drop b x l k y : In y b -> D x y -> firsts D (b ++ [x]) l k -> firsts D b (x :: l) k.

(** [flat h n l k]: [k] is [l] with the arrays in it, to depth [n] (None: all),
    replaced by their elements. *)
Definition less (n : option nat) : option nat := match n with Some (S k) => Some k | n => n end.
Inductive flat (h : aheap) : option nat -> list aval -> list aval -> Prop :=
| L_nil n : flat h n [] []
| L_leaf n x l k : n = Some 0 \/ (forall i, x <> AArr i) -> flat h n l k -> flat h n (x :: l) (x :: k)
| L_arr n i a l k1 k2 : n <> Some 0 -> holds h i a -> flat h (less n) a k1 -> flat h n l k2 ->
    flat h n (AArr i :: l) (k1 ++ k2).
(** array [i] has array [j] as an element, or an element of an element, and so on *)
Definition has (h : aheap) (i j : nat) : Prop := exists l, holds h i l /\ In (AArr j) l.
Definition within (h : aheap) : nat -> nat -> Prop := clos_trans nat (has h).
(** all references lead to arrays *)
Definition closed (h : aheap) : Prop := forall i l j, holds h i l -> In (AArr j) l -> j < length h.
(** no infinite way down from [i] *)
Definition grounded (h : aheap) (i : nat) : Prop := Acc (fun j i => has h i j) i.
Definition depth (arg : option Z) : option nat :=
  match arg with Some z => if Z.leb 0 z then Some (Z.to_nat z) else None | None => None end.
