(** What literals mean: objects of their own with the content that is written. *)
From Coq Require Import ZArith List Bool.
From Verif Require Import ModelLiteral.
Import ListNotations.

(** [denotes h env n v own]: in the heap [h] the value [v] is what is written in [n], where the
    variables have the values [env]; [own] are the objects that belong to the literal. *)
Inductive denotes (h : heap) (env : list lval) : lit -> lval -> list nat -> Prop :=
| d_num w : denotes h env (LNum w) (VNum w) []
| d_var i v : nth_error env i = Some v -> denotes h env (LVar i) v []
| d_str s a : nth_error h a = Some (CStr s) -> denotes h env (LStr s) (VRef a) [a]
| d_arr l a vs own : nth_error h a = Some (CArr vs) -> denote_all h env l vs own ->
    denotes h env (LArr l) (VRef a) (a :: own)
with denote_all (h : heap) (env : list lval) : list lit -> list lval -> list nat -> Prop :=
| ds_nil : denote_all h env [] [] []
| ds_cons n v own l vs own' : denotes h env n v own -> denote_all h env l vs own' ->
    denote_all h env (n :: l) (v :: vs) (own ++ own').

(** The values a program gets hold of: those it has and the elements of arrays it gets hold of *)
Inductive has (h : heap) (known : list lval) : lval -> Prop :=
| has_num w : has h known (VNum w)
| has_known v : In v known -> has h known v
| has_elem a l v : has h known (VRef a) -> nth_error h a = Some (CArr l) -> In v l ->
    has h known v.
Definition refs (c : cell) : list lval := match c with CStr _ => [] | CArr l => l end.

(** A program: it has literals with their code, and values. *)
Record prog : Set := mkprog {
  w_of : world;
  lits : list (lit * list linst);
  known : list lval }.

(** What it does, in any order: compile more code, evaluate a literal, make objects, change any
    object it gets hold of in any way. *)
Inductive does : prog -> prog -> Prop :=
| do_compile w ls k n w' c : gen n w = (w', c) ->
    does (mkprog w ls k) (mkprog w' ((n, c) :: ls) k)
| do_eval w ls k n c env h v : In (n, c) ls -> Forall (has (heap_of w) k) env ->
    run (consts w) env c (heap_of w, []) = Some (h, [v]) ->
    does (mkprog w ls k) (mkprog (mkworld h (consts w)) ls (v :: k))
| do_new w ls k c : Forall (has (heap_of w) k) (refs c) ->
    does (mkprog w ls k)
         (mkprog (mkworld (heap_of w ++ [c]) (consts w)) ls (VRef (length (heap_of w)) :: k))
| do_write w ls k a c h1 c0 h2 : has (heap_of w) k (VRef a) ->
    Forall (has (heap_of w) k) (refs c) ->
    heap_of w = h1 ++ c0 :: h2 -> length h1 = a ->
    does (mkprog w ls k) (mkprog (mkworld (h1 ++ c :: h2) (consts w)) ls k).

Inductive doing : prog -> Prop :=
| doing_start : doing (mkprog (mkworld [] []) [] [])
| doing_more p p' : doing p -> does p p' -> doing p'.

(** The literals without a string directly in an array of constants *)
Definition constant (n : lit) : bool := match n with LNum _ | LStr _ => true | _ => false end.
Definition number (n : lit) : bool := match n with LNum _ => true | _ => false end.
Fixpoint plain (n : lit) : bool :=
  match n with
  | LArr l => if forallb constant l then forallb number l else forallb plain l
  | _ => true
  end.

(** The outline of a value: that of [denotes] but for the content of the strings in arrays of
    constants, which may be any objects *)
Inductive outline (h : heap) (env : list lval) : lit -> lval -> list nat -> Prop :=
| o_num w : outline h env (LNum w) (VNum w) []
| o_var i v : nth_error env i = Some v -> outline h env (LVar i) v []
| o_str s a : nth_error h a = Some (CStr s) -> outline h env (LStr s) (VRef a) [a]
| o_const l a vs : forallb constant l = true -> nth_error h a = Some (CArr vs) ->
    Forall2 (fun n v => match n with LNum w => v = VNum w | _ => exists b, v = VRef b end) l vs ->
    outline h env (LArr l) (VRef a) [a]
| o_arr l a vs own : forallb constant l = false -> nth_error h a = Some (CArr vs) ->
    outline_all h env l vs own -> outline h env (LArr l) (VRef a) (a :: own)
with outline_all (h : heap) (env : list lval) : list lit -> list lval -> list nat -> Prop :=
| os_nil : outline_all h env [] [] []
| os_cons n v own l vs own' : outline h env n v own -> outline_all h env l vs own' ->
    outline_all h env (n :: l) (v :: vs) (own ++ own').

(** The variables of a literal are among the first [k] *)
Fixpoint bound (k : nat) (n : lit) : bool :=
  match n with
  | LVar i => (i <? k)%nat
  | LArr l => forallb (bound k) l
  | _ => true
  end.
