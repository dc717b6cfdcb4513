(** The peephole pass: vocabulary of the statements. *)
From Coq Require Import ZArith List Bool.
From Verif Require Import Base ModelValue ModelInst ModelCodegen ModelVM SpecCore.
Import ListNotations.
Open Scope Z_scope.

(** The first instruction of the code of the condition [n] is no jump: [n] starts
    with a literal, a variable, a call, an operator, ... *)
Fixpoint head_ok (n : node) : bool :=
  match n with
  | NNil | NBool _ | NInt _ | NBig _ | NFloat _ | NSym _ | NSelf
  | NLVar _ | NGVar _ | NIVar _ | NIdent _ => true
  | NSend r _ _ _ => head_ok r
  | NIndex b _ => head_ok b
  | NBin _ l _ => head_ok l
  | NUn _ e => head_ok e
  | NAssign (NLVar _ | NGVar _ | NIVar _ | NIdent _) r => head_ok r
  | NArray [] | NOp _ [] | NLit _ | NRange _ _ _ => true
  | NArray (x :: _) | NOp _ (x :: _) => head_ok x
  | NSeq [] => true
  | NSeq [x] => head_ok x
  | _ => false
  end.

(** All loops of a tree have such conditions. *)
Fixpoint loops_ok (n : node) : bool :=
  match n with
  | NSend r _ args _ => loops_ok r && forallb loops_ok args
  | NIndex a b | NRange a b _ | NBin _ a b | NAssign a b | NAssignOp _ a b => loops_ok a && loops_ok b
  | NWhile c b _ => head_ok c && loops_ok c && loops_ok b
  | NArray l | NOp _ l | NSeq l => forallb loops_ok l
  | NUn _ e | NBreak e | NNext e | NReturn e | NDefined e _ => loops_ok e
  | NMAssign a b => forallb loops_ok a && forallb loops_ok b
  | NIf a b c => loops_ok a && loops_ok b && loops_ok c
  | NCase c whens els =>
      match c with Some c => loops_ok c | None => true end
      && forallb (fun b => forallb loops_ok (fst b) && loops_ok (snd b)) whens
      && loops_ok els
  | NBegin b rs els ens =>
      loops_ok b
      && forallb (fun b => forallb loops_ok (fst (fst b))
                           && match snd (fst b) with Some a => loops_ok a | None => true end
                           && loops_ok (snd b)) rs
      && match els with Some e => loops_ok e | None => true end
      && match ens with Some e => loops_ok e | None => true end
  | _ => true
  end.

(** A program with its bytes replaced, all tables kept *)
Definition with_code (c : list Z) (G : prog) : prog :=
  mkprog c (pr_ex G) (pr_consts G) (pr_map G) (pr_map2 G).

(** ** Jumps in a sequence of bytes *)

(** An instruction starts at [p], counting the sizes of the instructions from 0. *)
Inductive starts (c : list Z) : Z -> Prop :=
| starts_0 : starts c 0
| starts_next p b n : starts c p -> byte_at c p = Some b -> inst_size b = Some n ->
    starts c (p + n).

(** The opcodes of JMP and JMP_BACK; of all jumps that consist of opcode and
    displacement; of the instructions that end the frame *)
Definition goto (b : Z) : bool := (b =? 100) || (b =? 101).
Definition jumps (b : Z) : bool :=
  goto b || (b =? 102) || (b =? 103) || ((170 <=? b) && (b <=? 175)).
Definition leaves (b : Z) : bool := (b =? 104) || (b =? 105) || (b =? 107).

(** The jump at [p] has the target [t]. *)
Definition jump_to (c : list Z) (p t : Z) : Prop :=
  exists b d, byte_at c p = Some b /\ jumps b = true /\ read_disp (p + 1) c = Some d
              /\ t = p + 5 + d.

(** Following JMP and JMP_BACK from [p] ends at [q], an instruction that is neither. *)
Inductive leads (c : list Z) : Z -> Z -> Prop :=
| leads_here p b : byte_at c p = Some b -> goto b = false -> leads c p p
| leads_on p b t q : byte_at c p = Some b -> goto b = true -> jump_to c p t ->
    leads c t q -> leads c p q.

(** The [n] bytes from [p] on *)
Definition bytes (c : list Z) (p n : Z) : list Z := firstn (Z.to_nat n) (skipn (Z.to_nat p) c).

(** [st] is the result of compiling [body], [G] its loaded code. *)
Definition compiled_to (cx : sctx) (body : node) (G : prog) : Prop :=
  exists k m m2 c st, gen_body cx body (empty_cg k m m2 c) = Ok st
                      /\ loaded G st /\ fitting G st.

(** What becomes of the instruction at [p], whose opcode is [b], when [c] is
    rewritten to [c']: other instructions keep their bytes; a conditional jump
    keeps its opcode and goes to the end of the chain its target starts, or to
    an instruction that ends the frame as the one there; JMP and JMP_BACK go
    to the end of the chain too, or become what they lead to if that ends the
    frame. *)
Record rewritten (c c' : list Z) (p b : Z) : Prop := {
  rw_other : jumps b = false -> forall n, inst_size b = Some n -> bytes c' p n = bytes c p n;
  rw_cond : jumps b = true -> goto b = false -> exists t q t' b' e, byte_at c' p = Some b /\
    jump_to c p t /\ leads c t q /\ byte_at c q = Some e /\
    jump_to c' p t' /\ byte_at c' t' = Some b' /\ goto b' = false /\ starts c t' /\
    (t' = q \/ b' = e /\ leaves e = true);
  rw_goto : goto b = true -> exists t q e, jump_to c p t /\ leads c t q /\ byte_at c q = Some e /\
    if leaves e then bytes c' p 5 = [e; e; e; e; e]
    else byte_at c' p = Some b /\ jump_to c' p q
}.
