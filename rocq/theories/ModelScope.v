(** Local variables in the parser: ruruby-common/src/lvar_collector.rs and the
    scope functions of ruruby-parse/src/parser.rs.  What the code generator does
    with the tables is [get_local_var] in [ModelCodegen]. *)
From Coq Require Import ZArith List Bool.
From Verif Require Import Base ModelCodegen.
Import ListNotations.
Open Scope Z_scope.

(** parser.rs:668-675 [ParseContextKind] *)
Inductive pkind : Set := KEval | KClass | KMethodDef | KBlk | KFor.

(** parser.rs:677-682 [ParseContext]: only the names are kept of [lvar]; the
    stack is a list, innermost context first. *)
Record pctx : Set := mkpctx { pc_table : list Z; pc_kind : pkind }.

(** the contexts the scope chain goes on from: the [match] in [is_local_var] *)
Definition transparent (k : pkind) : bool :=
  match k with KBlk | KFor => true | _ => false end.

(** lvar_collector.rs:80-90 [insert] *)
Definition insert (id : Z) (t : list Z) : list Z :=
  match get_lvarid id t with Some _ => t | None => t ++ [id] end.

(** lvar_collector.rs:92-102 [insert_new]; parser.rs:133-138 [new_param] turns
    [None] into a syntax error *)
Definition insert_new (id : Z) (t : list Z) : option (list Z) :=
  match get_lvarid id t with Some _ => None | None => Some (t ++ [id]) end.

(** the tables of the frames outside the program (eval, binding), parser.rs:183-190 *)
Fixpoint in_extern (id : Z) (ext : list (list Z)) : bool :=
  match ext with
  | [] => false
  | t :: r => match get_lvarid id t with Some _ => true | None => in_extern id r end
  end.

(** parser.rs:173-190 [is_local_var] *)
Fixpoint is_local_var (id : Z) (stk : list pctx) (ext : list (list Z)) : bool :=
  match stk with
  | [] => in_extern id ext
  | c :: r =>
      match get_lvarid id (pc_table c) with
      | Some _ => true
      | None => if transparent (pc_kind c) then is_local_var id r ext else false
      end
  end.

(** the loop of [add_local_var_if_new] *)
Fixpoint add_to (id : Z) (stk : list pctx) : list pctx :=
  match stk with
  | [] => []
  | c :: r => match pc_kind c with
              | KFor => c :: add_to id r
              | k => mkpctx (insert id (pc_table c)) k :: r
              end
  end.

(** parser.rs:116-130 [add_local_var_if_new] *)
Definition add_local_var_if_new (id : Z) (stk : list pctx) (ext : list (list Z)) : list pctx :=
  if is_local_var id stk ext then stk else add_to id stk.

(** The context stack of the code generator for a program whose parse contexts
    are [stk]: codegen.rs:84 starts with an empty context, 165 pushes one for
    each sequence.  A [def] and the program itself (codegen.rs:92-111 with
    executor.rs:271-286, kind [Method]) end the chain, a class body and a block
    do not. *)
Definition cctx (stk : list pctx) : list (list Z * bool) :=
  map (fun c => (pc_table c, match pc_kind c with KEval | KMethodDef => true | _ => false end)) stk
  ++ [([], false)].
