(* What returns, breaks and exceptions should do, in terms of the frames only:
   no counters and no host stack. *)
From Verif Require Import Base ModelControl.

Definition ruby (f : cframe) : Prop := c_kind f <> Nat.

(* What may happen: Ruby code runs while its frame is innermost, instructions
   find their operands, blocks are written in a frame that is there, break and
   return from a block are in a block; the host program does not return. *)
Definition running (s : cst) : Prop :=
  c_pend s = None /\ match c_fr s with f :: _ => ruby f | [] => False end.
Definition inside (s : cst) : Prop :=
  c_pend s = None /\ match c_fr s with f :: _ => c_kind f = Nat | [] => False end.
Definition operands (s : cst) : nat := match c_fr s with f :: _ => length (c_ops f) | [] => 0 end.
Definition in_block (s : cst) : Prop := match c_fr s with f :: _ => c_kind f = Blk | [] => False end.
Definition can (o : cop) (s : cst) : Prop :=
  match o with
  | CPush _ | CPc _ | CRaise _ => running s
  | CPop | CReturn | CThrow => running s /\ (1 <= operands s)%nat
  | CBreak | CMReturn => running s /\ (1 <= operands s)%nat /\ in_block s
  | CInvoke k _ n _ _ => running s /\ (n <= operands s)%nat /\ k <> Nat
  | CNative _ n => running s /\ (n <= operands s)%nat
  | CRun k _ _ => inside s /\ k <> Nat
  | CCall => inside s
  | CDone _ | CFail _ => inside s /\ (2 <= length (c_fr s))%nat
  | CPropagate => c_pend s <> None /\ (2 <= length (c_fr s))%nat
  | CCatch => c_pend s <> None
  end.
Inductive reach : cst -> Prop :=
| Reach_init : reach cinit
| Reach_step s o s' : reach s -> can o s -> cstep o s = Ok s' -> reach s'.

(* ---- exceptions ---- *)
(* the entry that covers the place a frame is at: the first that does *)
Inductive first_entry (pc : Z) : list centry -> centry -> Prop :=
| FE_here e t : e_start e < pc <= e_end e -> first_entry pc (e :: t) e
| FE_next e t e' : ~ (e_start e < pc <= e_end e) -> first_entry pc t e' -> first_entry pc (e :: t) e'.
Definition uncovered (f : cframe) : Prop := forall e, In e (c_tab f) -> ~ (e_start e < c_pc f <= e_end e).
(* how the frame goes on: a rescue clause starts with no operands but the exception *)
Definition rescued (f : cframe) (e : centry) (w : Z) : cframe :=
  mkcframe (c_kind f) (c_use f) (w :: (if e_rescue e then [] else c_ops f)) (e_dest e) (c_tab f) (c_home f).
Fixpoint natives (fr : list cframe) : nat :=
  match fr with [] => O | f :: r => match c_kind f with Nat => S (natives r) | _ => natives r end end.

(* ---- break and return ---- *)
(* the value of a call is given to the frame that made it *)
Definition given (call : cframe) (w : Z) (f : cframe) : cframe :=
  match c_kind f with
  | Nat => f
  | _ => if c_use call then mkcframe (c_kind f) (c_use f) (w :: c_ops f) (c_pc f) (c_tab f) (c_home f) else f
  end.
(* [break]: with the block innermost and [call] the frame of the call it was
   given to, which is just above the frame the block was written in *)
Definition break_leaves (s : cst) : Prop :=
  forall b mid call f below w r, c_fr s = b :: mid ++ call :: f :: below ->
    c_kind b = Blk -> c_home b = length below -> c_ops b = w :: r -> ruby f ->
    exists k s', csteps (CBreak :: repeat CPropagate k) s = Ok s' /\ c_pend s' = None /\
      c_fr s' = given call w f :: below.
(* [below] is below the method a block, at the head of the list, is written in *)
Inductive written_in : list cframe -> cframe -> list cframe -> Prop :=
| W_meth b mid m below : c_kind b = Blk -> c_home b = length below -> c_kind m = Meth ->
    written_in (b :: mid ++ m :: below) m below
| W_block b mid g below m below' : c_kind b = Blk -> c_home b = length below -> c_kind g = Blk ->
    written_in (g :: below) m below' -> written_in (b :: mid ++ g :: below) m below'.
(* [return] in a block: the method it is written in returns *)
Definition return_leaves (s : cst) : Prop :=
  forall b rest m caller below w r, c_fr s = b :: rest -> c_ops b = w :: r ->
    written_in (c_fr s) m (caller :: below) ->
    exists k s', csteps (CMReturn :: repeat CPropagate k) s = Ok s' /\ c_pend s' = None /\
      c_fr s' = given m w caller :: below.
(* blocks run by the builtin functions they were given to, up to a method *)
Inductive direct : list cframe -> cframe -> list cframe -> Prop :=
| D_meth b n m below : c_kind b = Blk -> c_kind n = Nat -> c_home b = length below -> c_kind m = Meth ->
    direct (b :: n :: m :: below) m below
| D_block b n g below m below' : c_kind b = Blk -> c_kind n = Nat -> c_home b = length below -> c_kind g = Blk ->
    direct (g :: below) m below' -> direct (b :: n :: g :: below) m below'.
