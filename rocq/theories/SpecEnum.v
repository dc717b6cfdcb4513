(** What enumerators are to do: the same as calling the method with the block. *)
From Coq Require Import ZArith List Bool Arith.
From Verif Require Import ModelFiber ModelEnum.
Import ListNotations.

Section Spec.
Variable K G : Type.
Variable next : K -> G -> G * op K.
Variable B : list fval -> G -> outcome -> G -> Prop.

(** The method is called with the block: each yield calls it, and goes on with
    what it ends with.  [more n] are further arguments for the [n]th call.  The
    list tells the calls: the arguments and the outcomes. *)
Inductive direct (more : nat -> list fval) : nat -> K -> G -> list (list fval * outcome) -> outcome -> G -> Prop :=
| D_step n k g g1 k1 l r g' : next k g = (g1, OTau k1) -> direct more n k1 g1 l r g' -> direct more n k g l r g'
| D_call n k g g1 args k1 o g2 l r g' : next k g = (g1, OYield args k1) -> B (args ++ more n) g1 o g2 ->
    direct more (S n) (k1 o) g2 l r g' -> direct more n k g ((args ++ more n, o) :: l) r g'
| D_done n k g g1 r : next k g = (g1, OEnd r) -> direct more n k g [] r g1.
Definition nothing : nat -> list fval := fun _ => [].
Definition number : nat -> list fval := fun n => [FObj (Z.of_nat n)].
(** the values the block gave *)
Definition given_values (l : list (list fval * outcome)) : list fval :=
  flat_map (fun c => match snd c with Value v => [v] | _ => [] end) l.

(** the value at the end of a chain of enumerators, [x.each.map.with_index] say *)
Inductive ends_at : enum K -> fval -> Prop :=
| E_value v c f : ends_at (mkenum (RVal v) c f) v
| E_enum e c f v : ends_at e v -> ends_at (mkenum (REnum e) c f) v.
Definition fails (r : outcome) : Prop := match r with Value _ => False | _ => True end.
(** The code of a method that yields one value at a time, for which it makes no
    difference what values the block gives, except for its own result, which has no
    handlers for exceptions and jumps out of the block, and which does not raise StopIteration *)
Definition plain (k0 : K) : Prop := exists R : K -> K -> Prop, R k0 k0 /\
  forall a b g, R a b -> fst (next a g) = fst (next b g) /\
    match snd (next a g), snd (next b g) with
    | OTau a', OTau b' => R a' b'
    | OYield la ka, OYield lb kb => la = lb /\ length la = 1 /\ (forall v w, R (ka (Value v)) (kb (Value w))) /\
        (forall r g, fails r -> next (ka r) g = (g, OEnd r))
    | OEnd (Value _), OEnd (Value _) => True
    | OEnd (Raise e), OEnd (Raise e') => e = e' /\ e <> Stop
    | _, _ => False
    end.

(** *** The machine of ModelFiber.v *)
(** the code the fiber [f] of machine [m] has left to run *)
Definition idle (m : mach K G) (f : fid) (st : fib K) : Prop :=
  match st with
  | FNew k => exists x, m_fib m f = Some x /\ f_state x = Created /\ f_kind x = KEnum k
  | FWait k => exists x s n k0, m_fib m f = Some x /\ f_state x = Running /\ f_kind x = KEnum k0 /\
      f_handle x = true /\ f_rsp x = (s, n) /\ m_mem m s = (n, CYield (Some f) k) /\ m_base m s = f /\ s <> m_cur m
  | FDead => exists x, m_fib m f = Some x /\ f_state x = Dead
  end.
End Spec.
Arguments ends_at {K}. Arguments direct {K G}. Arguments plain {K G}. Arguments idle {K G}.
