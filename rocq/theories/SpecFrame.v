(* What calls, variables and closures mean, without memory: every call has its
   own activation, a frame has its own operand stack, and a closure refers to
   activations by name, so that all who see a variable see the same one. *)
From Verif Require Import Base ModelFrame.

(* An activation: the receiver, the variables, for a block the activation it
   was written in, and for a method the block it was given: the code of the
   block and the activation the block was written in. *)
Record act : Type := mkact {
  a_ruby : bool;
  a_use : bool;
  a_self : Z;
  a_vars : list Z;
  a_parent : option nat;
  a_iseq : Z;
  a_blk : option (Z * nat)
}.
(* A frame: its activation, its operands (top first), where its code is. *)
Record frame : Type := mkframe { f_act : nat; f_ops : list Z; f_pc : Z }.
(* Activations by number, frames from the innermost, and for every proc object
   the activation it was made in. *)
Record state : Type := mkstate { acts : list act; frames : list frame; held : list nat }.

Fixpoint up (l : list act) (d : nat) (a : nat) : option nat :=
  match d with
  | O => Some a
  | S d' => match nth_error l a with
            | Some x => match a_parent x with Some p => up l d' p | None => None end
            | None => None
            end
  end.
(* [b] is [a] or one it is written in *)
Definition within (l : list act) (a b : nat) : Prop := exists d, up l d a = Some b.
(* the activation of the method [a] is written in *)
Definition method_of (l : list act) (a b : nat) : Prop :=
  within l a b /\ exists x, nth_error l b = Some x /\ a_parent x = None.
Definition live (s : state) (a : nat) : Prop := exists f, In f (frames s) /\ f_act f = a.
Definition kept (s : state) (a : nat) : Prop := exists p, In p (held s) /\ within (acts s) p a.

Definition put {A} (l : list A) (i : nat) (x : A) : list A := firstn i l ++ x :: skipn (S i) l.
Definition set_var (x : act) (i : nat) (w : Z) : act :=
  mkact (a_ruby x) (a_use x) (a_self x) (put (a_vars x) i w) (a_parent x) (a_iseq x) (a_blk x).

(* The words a frame takes on the stack of the machine: receiver twice,
   variables, 3 or 8 words of bookkeeping, operands. The stack has 8192. *)
Definition frame_size (l : list act) (f : frame) : Z :=
  match nth_error l (f_act f) with
  | Some x => Z.of_nat (length (a_vars x)) + 2 + (if a_ruby x then 8 else 3) + Z.of_nat (length (f_ops f))
  | None => 0
  end.
Fixpoint total (l : list act) (fs : list frame) : Z :=
  match fs with [] => -1 | f :: r => frame_size l f + total l r end.
(* the outermost frame has its receiver only once *)
Definition fits (s : state) : Prop := total (acts s) (frames s) <= 8192.

Definition code_ok (i : Z) : Prop := 0 < i < 2 ^ 60.
Definition top_ops (f : frame) (l : list Z) : frame := mkframe (f_act f) l (f_pc f).
Definition is_native (l : list act) (a : nat) : Prop := exists x, nth_error l a = Some x /\ a_ruby x = false.
Definition is_code (l : list act) (a : nat) : Prop := exists x, nth_error l a = Some x /\ a_ruby x = true.

(* A proc may be made from the activation [a] when every running block written
   in one of the activations it keeps, and not kept before, is kept as well. *)
Definition no_sibling (s : state) (a : nat) : Prop :=
  forall b x p, live s b -> ~ kept s b -> nth_error (acts s) b = Some x -> a_parent x = Some p ->
    within (acts s) a p -> ~ kept s p -> within (acts s) a b.

(* One action; the last condition of the rules that push is that the stack of
   the machine is large enough. [G] restricts which activations a proc may be
   made from. *)
Inductive acts_as (G : state -> nat -> Prop) : state -> op -> state -> Prop :=
| A_push l f fs h w :
    let s' := mkstate l (top_ops f (w :: f_ops f) :: fs) h in
    fits s' -> acts_as G (mkstate l (f :: fs) h) (OPush w) s'
| A_pop l f fs h w r :
    f_ops f = w :: r ->
    acts_as G (mkstate l (f :: fs) h) OPop (mkstate l (top_ops f r :: fs) h)
| A_self l f fs h x :
    fs <> [] -> nth_error l (f_act f) = Some x ->
    let s' := mkstate l (top_ops f (a_self x :: f_ops f) :: fs) h in
    fits s' -> acts_as G (mkstate l (f :: fs) h) OSelf s'
| A_get l f fs h d i a x w :
    fs <> [] -> up l d (f_act f) = Some a -> nth_error l a = Some x -> nth_error (a_vars x) i = Some w ->
    let s' := mkstate l (top_ops f (w :: f_ops f) :: fs) h in
    fits s' -> acts_as G (mkstate l (f :: fs) h) (OGet d (Z.of_nat i)) s'
| A_set l f fs h d i a x w r :
    fs <> [] -> f_ops f = w :: r -> up l d (f_act f) = Some a -> nth_error l a = Some x -> (i < length (a_vars x))%nat ->
    acts_as G (mkstate l (f :: fs) h) (OSet d (Z.of_nat i))
            (mkstate (put l a (set_var x i w)) (top_ops f r :: fs) h)
| A_pc l f fs h n :
    is_code l (f_act f) -> 0 <= n < 2 ^ 62 ->
    acts_as G (mkstate l (f :: fs) h) (OPc n) (mkstate l (mkframe (f_act f) (f_ops f) n :: fs) h)
| A_clear l f fs h :
    acts_as G (mkstate l (f :: fs) h) OClear (mkstate l (top_ops f [] :: fs) h)
| A_call l f fs h uv i vs self r blk :
    code_ok i -> f_ops f = rev vs ++ self :: r ->
    match blk with Some m => 0 < m < 2 ^ 30 /\ is_code l (f_act f) | None => True end ->
    let x := mkact true uv self vs None i (match blk with Some m => Some (m, f_act f) | None => None end) in
    let s' := mkstate (l ++ [x]) (mkframe (length l) [] 0 :: top_ops f r :: fs) h in
    fits s' ->
    acts_as G (mkstate l (f :: fs) h) (OCall uv i (Z.of_nat (length vs)) blk) s'
| A_yield l f fs h i vs r m t y b z :
    code_ok i -> is_code l (f_act f) -> f_ops f = rev vs ++ r ->
    method_of l (f_act f) m -> nth_error l m = Some y -> a_blk y = Some (t, b) ->
    live (mkstate l (f :: fs) h) b -> nth_error l b = Some z ->
    let x := mkact true true (a_self z) vs (Some b) i None in
    let s' := mkstate (l ++ [x]) (mkframe (length l) [] 0 :: top_ops f r :: fs) h in
    fits s' ->
    acts_as G (mkstate l (f :: fs) h) (OYield i (Z.of_nat (length vs))) s'
| A_proc l f fs h i vs r j b self :
    code_ok i -> f_ops f = rev vs ++ r -> nth_error h j = Some b ->
    let x := mkact true true self vs (Some b) i None in
    let s' := mkstate (l ++ [x]) (mkframe (length l) [] 0 :: top_ops f r :: fs) h in
    fits s' ->
    acts_as G (mkstate l (f :: fs) h) (OProc j self i (Z.of_nat (length vs))) s'
| A_native l f fs h vs self r :
    f_ops f = rev vs ++ self :: r ->
    let x := mkact false true self vs None 0 None in
    let s' := mkstate (l ++ [x]) (mkframe (length l) [] 0 :: top_ops f r :: fs) h in
    fits s' ->
    acts_as G (mkstate l (f :: fs) h) (ONative (Z.of_nat (length vs))) s'
| A_return l f g fs h x w r :
    nth_error l (f_act f) = Some x -> a_ruby x = true -> f_ops f = w :: r ->
    acts_as G (mkstate l (f :: g :: fs) h) OReturn
            (mkstate l ((if a_use x then top_ops g (w :: f_ops g) else g) :: fs) h)
| A_unwind l f g fs h :
    acts_as G (mkstate l (f :: g :: fs) h) OUnwind (mkstate l (g :: fs) h)
| A_capture l fs h k f :
    nth_error fs k = Some f -> is_code l (f_act f) -> G (mkstate l fs h) (f_act f) ->
    acts_as G (mkstate l fs h) (OCapture k) (mkstate l fs (h ++ [f_act f]))
| A_grab l f fs h m y t b :
    is_code l (f_act f) -> method_of l (f_act f) m -> nth_error l m = Some y -> a_blk y = Some (t, b) ->
    live (mkstate l (f :: fs) h) b -> G (mkstate l (f :: fs) h) b ->
    acts_as G (mkstate l (f :: fs) h) OGrab (mkstate l (f :: fs) (h ++ [b])).

Inductive runs (G : state -> nat -> Prop) : state -> list op -> state -> Prop :=
| R_nil s : runs G s [] s
| R_cons s o s1 l s2 : acts_as G s o s1 -> runs G s1 l s2 -> runs G s (o :: l) s2.
(* with no restriction *)
Definition any : state -> nat -> Prop := fun _ _ => True.

(* a machine with an empty program: one frame of a builtin function *)
Definition start : state := mkstate [mkact false true 0x24 [] None 0 None] [mkframe 0 [] 0] [].

(* What can be seen of the innermost frame: how much of the stack is used, the
   operands, where the code is, the receiver, the variables at every distance,
   and the block given to the method. *)
Record sees (x : mach) (s : state) (f : frame) (fs : list frame) (a : act) : Prop := mksees {
  see_used : sp (v x) - stack_bottom (v x) = total (acts s) (f :: fs);
  see_frame : sp (v x) - cfp (v x) = (if a_ruby a then 8 else 3) + Z.of_nat (length (f_ops f));
  see_kind : is_ruby (mem (v x)) (cfp (v x)) = a_ruby a;
  see_ops : forall j w, nth_error (f_ops f) j = Some w -> mem (v x) (sp (v x) - 1 - Z.of_nat j) = w;
  see_code : a_ruby a = true -> iseq (v x) = a_iseq a /\ pc (v x) = f_pc f;
  see_self : fs <> [] -> mem (v x) (lfp (v x) - 1) = a_self a;
  see_vars : fs <> [] -> forall d i b y w, up (acts s) d (f_act f) = Some b -> nth_error (acts s) b = Some y ->
    nth_error (a_vars y) i = Some w ->
    exists p, var_slot d (Z.of_nat i) (v x) = Ok p /\ mem (v x) p = w;
  see_block : a_ruby a = true -> forall m y, method_of (acts s) (f_act f) m -> nth_error (acts s) m = Some y ->
    exists b, get_method_block (v x) = Ok b /\
      match a_blk y, b with
      | None, None => True
      | Some (t, _), Some (KBlock t' _) => t' = t
      | _, _ => False
      end
}.
Definition agrees (x : mach) (s : state) : Prop :=
  exists f fs a, frames s = f :: fs /\ nth_error (acts s) (f_act f) = Some a /\ sees x s f fs a.

(* A run during which at least [n] frames remain. *)
Inductive stays (G : state -> nat -> Prop) (n : nat) : state -> list op -> state -> Prop :=
| S_nil s : (n <= length (frames s))%nat -> stays G n s [] s
| S_cons s o s1 l s2 : (n <= length (frames s))%nat -> acts_as G s o s1 -> stays G n s1 l s2 -> stays G n s (o :: l) s2.
(* how many operands a call takes, and whether it leaves a result *)
Definition taken (o : op) : option (Z * bool) :=
  match o with
  | OCall uv _ n _ => Some (n + 1, uv)
  | OYield _ n => Some (n, true)
  | OProc _ _ _ n => Some (n, true)
  | _ => None
  end.

(* A run in which nothing is written to variable [i] of activation [a]. *)
Definition writes (s : state) (o : op) (a i : nat) : Prop :=
  exists d f fs, o = OSet d (Z.of_nat i) /\ frames s = f :: fs /\ up (acts s) d (f_act f) = Some a.
Inductive untouched (G : state -> nat -> Prop) (a i : nat) : state -> list op -> state -> Prop :=
| U_nil s : untouched G a i s [] s
| U_cons s o s1 l s2 : ~ writes s o a i -> acts_as G s o s1 -> untouched G a i s1 l s2 -> untouched G a i s (o :: l) s2.
(* In state [s1] the frame writes [w] to variable [i] of activation [a]; then
   nothing else is written to it, and in [s3] a frame sees it at distance [e]. *)
Record last_write (G : state -> nat -> Prop) (s1 : state) (d i : nat) (w : Z) (a : nat) (during : list op) (s3 : state) (e : nat) : Prop := mklw {
  lw_write : exists f fs r, frames s1 = f :: fs /\ fs <> [] /\ f_ops f = w :: r /\ up (acts s1) d (f_act f) = Some a;
  lw_during : exists s2, acts_as G s1 (OSet d (Z.of_nat i)) s2 /\ untouched G a i s2 during s3;
  lw_read : exists f fs, frames s3 = f :: fs /\ fs <> [] /\ up (acts s3) e (f_act f) = Some a
}.
