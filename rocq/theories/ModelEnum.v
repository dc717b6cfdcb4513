(** Enumerators: ruruby/src/builtin/enumerator.rs, the enumerator part of
    vm/executor/fiber.rs and Kernel#loop (builtin/kernel.rs).

    The fiber of an enumerator runs a method call whose block is
    [enumerator_iterate].  Here a fiber is the code it still has to run; that
    resuming it on the machine of ModelFiber.v does this is shown in
    PropsEnum.v (C80_machine).  The block given to each, map, with_index and loop is
    a parameter: a relation between its arguments, the shared heap, its outcome
    and the heap afterwards.  Simplification: the method called by the enumerator
    does not itself make or resume fibers. *)
From Coq Require Import ZArith List Bool Arith.
From Verif Require Import ModelFiber.
Import ListNotations.

(** the code of a fiber: not started (FiberState::Created), waiting in a yield, Dead *)
Inductive fib (K : Type) : Type := FNew (k : K) | FWait (k : outcome -> K) | FDead.
Arguments FNew {K}. Arguments FWait {K}. Arguments FDead {K}.
(** EnumInfo (coroutine.rs:39-44): the receiver and the method call (as the code it
    runs); the fiber that [next] resumes.  The receiver may itself be an
    enumerator. *)
Inductive enum (K : Type) : Type := mkenum (recv : erecv K) (code : K) (fiber : fib K)
with erecv (K : Type) : Type := RVal (v : fval) | REnum (e : enum K).
Arguments mkenum {K}. Arguments RVal {K}. Arguments REnum {K}.
(** calls of a block that were made: the arguments and the outcome *)
Definition call : Type := (list fval * outcome)%type.

Section Enum.
Variable K G : Type.
Variable next : K -> G -> G * op K.
Variable B : list fval -> G -> outcome -> G -> Prop.

(** the fiber's code runs up to its next yield (coroutine.rs:95-114: [yield_val]) or
    to its end (stack.rs:91-115, executor/fiber.rs:34-45: [final]) *)
Inductive advance : K -> G -> outcome -> fib K -> G -> Prop :=
| A_tau k g g1 k1 r f g' : next k g = (g1, OTau k1) -> advance k1 g1 r f g' -> advance k g r f g'
| A_yield k g g1 args k1 : next k g = (g1, OYield args k1) -> advance k g (Value (yield_val args)) (FWait k1) g1
| A_end k g g1 r : next k g = (g1, OEnd r) -> advance k g (final (KEnum k) r) FDead g1.
(** coroutine.rs:168-186 [resume], with nil: this is what the yield returns *)
Inductive resumed : fib K -> G -> outcome -> fib K -> G -> Prop :=
| U_new k g r f g' : advance k g r f g' -> resumed (FNew k) g r f g'
| U_wait k g r f g' : advance (k (Value FNil)) g r f g' -> resumed (FWait k) g r f g'
| U_dead g : resumed FDead g (Raise DeadFiber) FDead g.

(** ruruby-common error.rs:107-115 [is_stop_iteration] *)
Definition is_stop (r : outcome) : bool := match r with Raise Stop => true | _ => false end.
Definition is_value (r : outcome) : bool := match r with Value _ => true | _ => false end.

(** enumerator.rs:77-93 [next] *)
Inductive enum_next : enum K -> G -> outcome -> enum K -> G -> Prop :=
| N_dead recv c g : enum_next (mkenum recv c FDead) g (Raise Stop) (mkenum recv c FDead) g
| N_resume recv c f g r f' g' : f <> FDead -> resumed f g r f' g' ->
    enum_next (mkenum recv c f) g r (mkenum recv c f') g'.

(** enumerator.rs:114-126: the receiver at the end of the chain *)
Fixpoint root (e : enum K) : fval :=
  match e with mkenum r _ _ => match r with RVal v => v | REnum e => root e end end.
(** enumerator.rs:105-113, 145-154 and 174-188: the loops of [each], [map] and [with_index]
    are the same but for the arguments of the block and what becomes of the
    results, which are kept ([acc]) in the latter two *)
Inductive pull (args : Z -> fval -> list fval) (result : list fval -> fval) :
  Z -> list fval -> fib K -> G -> list call -> outcome -> G -> Prop :=
| P_stop c acc f g f' g' : resumed f g (Raise Stop) f' g' -> pull args result c acc f g [] (Value (result acc)) g'
| P_fail c acc f g r f' g' : resumed f g r f' g' -> is_stop r = false -> is_value r = false -> pull args result c acc f g [] r g'
| P_block c acc f g v f' g1 r g' : resumed f g (Value v) f' g1 -> B (args c v) g1 r g' -> is_value r = false ->
    pull args result c acc f g [(args c v, r)] r g'
| P_more c acc f g v f' g1 w g2 l r g' : resumed f g (Value v) f' g1 -> B (args c v) g1 (Value w) g2 ->
    pull args result (c + 1) (acc ++ [w]) f' g2 l r g' ->
    pull args result c acc f g ((args c v, Value w) :: l) r g'.
(** executor/fiber.rs:5-10 [dup_enum]: a fiber that has not started *)
Definition dup_enum (e : enum K) : fib K := match e with mkenum _ c _ => FNew c end.
(** enumerator.rs:95-128 [each] with a block, 130-156 [map], 158-190 [with_index].
    The enumerator itself does not change. *)
Definition enum_each (e : enum K) := pull (fun _ v => [v]) (fun _ => root e) 0%Z [] (dup_enum e).
Definition enum_map (e : enum K) := pull (fun _ v => [v]) (fun acc => FArr acc) 0%Z [] (dup_enum e).
Definition enum_with_index (e : enum K) := pull (fun c v => [v; FObj c]) (fun acc => FArr acc) 0%Z [] (dup_enum e).

(** builtin/kernel.rs:250-268 [loop_] with a block that calls [next] once on [e] and then
    does [B] with the value.  Simplification: exceptions the program
    makes itself are not StopIteration. *)
Definition loop_result (r : outcome) : outcome :=
  match r with Break v => Value v | Raise Stop => Value FNil | _ => r end.
Inductive loop_next : enum K -> G -> list call -> outcome -> enum K -> G -> Prop :=
| L_end e g r e' g' : enum_next e g r e' g' -> is_value r = false -> loop_next e g [] (loop_result r) e' g'
| L_block e g v e' g1 r g' : enum_next e g (Value v) e' g1 -> B [v] g1 r g' -> is_value r = false ->
    loop_next e g [([v], r)] (loop_result r) e' g'
| L_more e g v e1 g1 w g2 l r e' g' : enum_next e g (Value v) e1 g1 -> B [v] g1 (Value w) g2 ->
    loop_next e1 g2 l r e' g' -> loop_next e g (([v], Value w) :: l) r e' g'.
End Enum.
Arguments advance {K G}. Arguments resumed {K G}. Arguments enum_next {K G}. Arguments root {K}. Arguments pull {K G}.
Arguments dup_enum {K}. Arguments enum_each {K G}. Arguments enum_map {K G}. Arguments enum_with_index {K G}. Arguments loop_next {K G}.
