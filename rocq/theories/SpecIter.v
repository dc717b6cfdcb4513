(** What methods that call a block for every element are to do, in terms of the
    elements the array has at each moment. *)
From Coq Require Import List Arith Bool.
From Verif Require Import ModelIter.
Import ListNotations.

Section Spec.
Variable V W X : Type.
Notation st := (ist V W).
Variable truthy : V -> bool.
Variable B : list V -> st -> bend V X -> st -> Prop.

(** the elements of the array *)
Definition content (s : st) : list V := firstn (used (arr s)) (slots (arr s)).
(** the buffer is at least as large as what is used of it *)
Definition fits (s : st) : Prop := used (arr s) <= length (slots (arr s)).

(** A turn: the element, the value the block gave and the state in which it gave it. *)
Definition turn : Type := (V * V * st)%type.
Definition element (t : turn) : V := fst (fst t).
Definition value (t : turn) : V := snd (fst t).
(** The turns that were completed, and whether the elements were used up, the block
    was left without a value or a value of the block ended it. *)
Inductive ending := Done | Left (x : X) | Stopped.
(** [args]: the arguments of the block, which may depend on the turns before;
    [write]: what is done to the array with the value; [stop]: values that end it. *)
Inductive visits (args : list turn -> V -> list V) (write : nat -> V -> st -> st -> Prop) (stop : V -> bool) :
  list turn -> st -> list turn -> ending -> st -> Prop :=
| V_done h s : length (content s) <= length h -> visits args write stop h s h Done s
| V_left h s v x s' : nth_error (content s) (length h) = Some v -> B (args h v) s (Leaves x) s' ->
    visits args write stop h s h (Left x) s'
| V_stop h s v r s1 s' : nth_error (content s) (length h) = Some v -> B (args h v) s (Gives r) s1 -> write (length h) r s1 s' -> stop r = true ->
    visits args write stop h s (h ++ [(v, r, s1)]) Stopped s'
| V_more h s v r s1 s2 h' e s' : nth_error (content s) (length h) = Some v -> B (args h v) s (Gives r) s1 -> write (length h) r s1 s2 -> stop r = false ->
    visits args write stop (h ++ [(v, r, s1)]) s2 h' e s' -> visits args write stop h s h' e s'.
Definition only_element (_ : list turn) (v : V) : list V := [v].
Definition nothing_written (_ : nat) (_ : V) (s s' : st) : Prop := s' = s.
(** element [i] becomes [r]; nothing else changes *)
Definition written (i : nat) (r : V) (s s' : st) : Prop :=
  others s' = others s /\ place (arr s') = place (arr s) /\ used (arr s') = used (arr s) /\ length (slots (arr s')) = length (slots (arr s)) /\
  forall j, nth_error (slots (arr s')) j = if j =? i then (if i <? length (slots (arr s)) then Some r else None) else nth_error (slots (arr s)) j.
Definition never (_ : V) : bool := false.
(** The method [m]: the turns, then [f] of them *)
Definition does (args : list turn -> V -> list V) write stop (f : bool -> list turn -> given V) (m : st -> mend (given V) X -> st -> Prop) : Prop :=
  forall s r s', fits s -> (m s r s' <-> exists h e, visits args write stop [] s h e s' /\
    r = match e with Done => Normal (f false h) | Stopped => Normal (f true h) | Left x => Out x end).

(** the results *)
Definition yes (h : list turn) : list V := map element (filter (fun t => truthy (value t)) h).
Definition no (h : list turn) : list V := map element (filter (fun t => negb (truthy (value t))) h).
Definition last_value (d : V) (h : list turn) : V := last (map value h) d.
Definition last_element (h : list turn) : given V := match rev h with t :: _ => One (element t) | [] => Nothing end.
(** the elements of the turns whose value is none of those of the turns before *)
Inductive first_of_kind (same : V -> V -> bool) : list turn -> list V -> Prop :=
| K_none : first_of_kind same [] []
| K_new h l t : first_of_kind same h l -> (forall u, In u h -> same (value t) (value u) = false) -> first_of_kind same (h ++ [t]) (l ++ [element t])
| K_old h l t u : first_of_kind same h l -> In u h -> same (value t) (value u) = true -> first_of_kind same (h ++ [t]) l.
(** the values of the block, arrays replaced by their elements at that moment *)
Definition flat (as_array : st -> V -> option (list V)) (h : list turn) : list V :=
  concat (map (fun t => match as_array (snd t) (value t) with Some l => l | None => [value t] end) h).

(** *** What the block does with the array *)
Definition sound : Prop := forall l s o s', fits s -> B l s o s' -> fits s'.
(** the block leaves the array alone *)
Definition calm : Prop := forall l s o s', B l s o s' -> arr s' = arr s.
(** the block may assign to elements but adds and removes none *)
Definition steady : Prop := forall l s o s', B l s o s' ->
  place (arr s') = place (arr s) /\ used (arr s') = used (arr s) /\ length (slots (arr s')) = length (slots (arr s)).
(** the block never shortens the array *)
Definition growing : Prop := forall l s o s', B l s o s' -> used (arr s) <= used (arr s').
End Spec.
Arguments content {V W}. Arguments fits {V W}. Arguments element {V W}. Arguments value {V W}. Arguments visits {V W X}. Arguments does {V W X}.
Arguments only_element {V W}. Arguments nothing_written {V W}. Arguments written {V W}. Arguments never {V}. Arguments yes {V W}. Arguments no {V W}.
Arguments last_value {V W}. Arguments last_element {V W}. Arguments first_of_kind {V W}. Arguments flat {V W}.
Arguments sound {V W X}. Arguments calm {V W X}. Arguments steady {V W X}. Arguments growing {V W X}. Arguments Done {X}. Arguments Left {X}. Arguments Stopped {X}.
