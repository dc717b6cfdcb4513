(** Statements of control and their texts. *)
From Coq Require Import ZArith List Bool.
From Verif Require Import Base ModelParse SpecParse.
Import ListNotations.
Open Scope Z_scope.

Inductive prog : Set := Stop | Next (s : stm) (p : prog)
with stm : Set :=
| SExp (e : exp)
| SIf (c : exp) (t e : prog)
| SWhile (c : exp) (b : prog) (positive : bool)
| SCase (c : option exp) (w : branches) (e : prog)
with branches : Set := NoWhen | When (vs : list exp) (b : prog) (w : branches).

Definition any_terms (l : list item) : Prop := Forall (fun i => fst i = TLT \/ fst i = TP pSemi) l.
(** between the condition and the body *)
Inductive then_word : list item -> Prop :=
| Th_then b : then_word [(TRes rThen, b)]
| Th_line nl : terms nl -> then_word nl
| Th_both nl b : terms nl -> then_word (nl ++ [(TRes rThen, b)]).
(** Values with commas between them. *)
Inductive values : list Z -> list exp -> list item -> ends -> list Z -> Prop :=
| U_last v e ts o v' : writes false v 2 e ts o v' -> values v [e] ts o v'
| U_next v e ts o v1 b es tss o' v' : writes false v 2 e ts o v1 -> e_open o = false -> values v1 es tss o' v' ->
    values v (e :: es) (ts ++ (TP pComma, b) :: tss) o' v'.
(** The texts; [v], [v'] are the variables before and behind.  The [ends] tell how
    what stands before the next token ends: behind a name no blank may stand
    before [else], [elsif] and [when] (refuted in PropsFlow). *)
Definition apart (o : ends) (b : bool) : Prop := e_name o = true -> b = false.
Inductive ptext : list Z -> prog -> list item -> ends -> list Z -> Prop :=
| P_stop v : ptext v Stop [] closed v
| P_last v s ts o v' : stext v s ts o v' -> ptext v (Next s Stop) ts o v'
| P_next v s ts o v1 nl p tss o' v' : stext v s ts o v1 -> terms nl -> ptext v1 p tss o' v' ->
    ptext v (Next s p) (ts ++ nl ++ tss) o' v'
with stext : list Z -> stm -> list item -> ends -> list Z -> Prop :=
| X_exp v e ts o v' : writes false v 0 e ts o v' -> stext v (SExp e) ts o v'
| X_if v b s ts o v' b' : iftext v s ts o v' ->
    stext v s ((TRes rIf, b) :: ts ++ [(TRes rEnd, b')]) closed v'
| X_unless v b c tc o v1 th t tb o1 v2 e te o2 v' b' :
    writes false v 1 c tc o v1 -> then_word th -> ptext v1 t tb o1 v2 -> elsetext false v2 o1 e te o2 v' ->
    stext v (SIf c e t) ((TRes rUnless, b) :: tc ++ th ++ tb ++ te ++ [(TRes rEnd, b')]) closed v'
| X_while v b c tc o v1 nl p tp o1 v' b' :
    writes false v 1 c tc o v1 -> terms nl -> ptext v1 p tp o1 v' ->
    stext v (SWhile c p true) ((TRes rWhile, b) :: tc ++ nl ++ tp ++ [(TRes rEnd, b')]) closed v'
| X_until v b c tc o v1 nl p tp o1 v' b' :
    writes false v 1 c tc o v1 -> terms nl -> ptext v1 p tp o1 v' ->
    stext v (SWhile c p false) ((TRes rUntil, b) :: tc ++ nl ++ tp ++ [(TRes rEnd, b')]) closed v'
| X_case v b c tc o v1 nl w tw o1 v2 e te o2 v' b' :
    writes false v 1 c tc o v1 -> terms nl -> whentext v1 closed w tw o1 v2 -> w <> NoWhen -> elsetext false v2 o1 e te o2 v' ->
    stext v (SCase (Some c) w e) ((TRes rCase, b) :: tc ++ nl ++ tw ++ te ++ [(TRes rEnd, b')]) closed v'
| X_case_none v b nl w tw o1 v2 e te o2 v' b' :
    any_terms nl -> whentext v closed w tw o1 v2 -> w <> NoWhen -> elsetext false v2 o1 e te o2 v' ->
    stext v (SCase None w e) ((TRes rCase, b) :: nl ++ tw ++ te ++ [(TRes rEnd, b')]) closed v'
with iftext : list Z -> stm -> list item -> ends -> list Z -> Prop :=
| I_if v c tc o v1 th t tb o1 v2 e te o2 v' :
    writes false v 1 c tc o v1 -> then_word th -> ptext v1 t tb o1 v2 -> elsetext true v2 o1 e te o2 v' ->
    iftext v (SIf c t e) (tc ++ th ++ tb ++ te) o2 v'
(** [elsif] is an [if] in the [else]; it has no [end] of its own *)
with elsetext : bool -> list Z -> ends -> prog -> list item -> ends -> list Z -> Prop :=
| L_none i v o : elsetext i v o Stop [] o v
| L_else i v o b p ts o' v' : apart o b -> ptext v p ts o' v' -> elsetext i v o p ((TRes rElse, b) :: ts) o' v'
| L_elsif v o b s ts o' v' : apart o b -> iftext v s ts o' v' -> elsetext true v o (Next s Stop) ((TRes rElsif, b) :: ts) o' v'
with whentext : list Z -> ends -> branches -> list item -> ends -> list Z -> Prop :=
| H_none v o : whentext v o NoWhen [] o v
| H_when v o b vs ts o1 v1 th p tp o2 v2 w tw o3 v' :
    apart o b -> values v vs ts o1 v1 -> then_word th -> ptext v1 p tp o2 v2 -> whentext v2 o2 w tw o3 v' ->
    whentext v o (When vs p w) ((TRes rWhen, b) :: ts ++ th ++ tp ++ tw) o3 v'.
