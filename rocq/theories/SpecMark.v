(* What a running program can still use, in terms of the activations of SpecFrame. *)
From Verif Require Import Base ModelFrame SpecFrame.

(* the operands of a frame, its receiver, the variables it sees *)
Inductive usable (s : state) : Z -> Prop :=
| U_operand f w : In f (frames s) -> In w (f_ops f) -> usable s w
| U_self f x : In f (frames s) -> nth_error (acts s) (f_act f) = Some x -> usable s (a_self x)
| U_var f b y w : In f (frames s) -> within (acts s) (f_act f) b -> nth_error (acts s) b = Some y -> In w (a_vars y) -> usable s w.
(* the variables a closure made in the activation [p] sees *)
Definition closed_over (s : state) (p : nat) (w : Z) : Prop :=
  exists b y, within (acts s) p b /\ nth_error (acts s) b = Some y /\ In w (a_vars y).
