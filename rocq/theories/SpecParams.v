(** What a list of formal parameters is: the order of the kinds, the names, and
    the texts. *)
From Coq Require Import ZArith List Bool.
From Verif Require Import Base ModelParse SpecParse.
Import ListNotations.
Open Scope Z_scope.

Inductive fparam : Set :=
| QReq (id : Z) | QPost (id : Z) | QOpt (id : Z) (e : exp) | QRest (id : Z) | QRestNone
| QKey (id : Z) (e : option exp) | QKwRest (id : Z) | QBlock (id : Z) | QDelegate.
Definition is_req (p : fparam) : bool := match p with QReq _ => true | _ => false end.
Definition is_post (p : fparam) : bool := match p with QPost _ => true | _ => false end.
Definition is_opt (p : fparam) : bool := match p with QOpt _ _ => true | _ => false end.
Definition is_rest (p : fparam) : bool := match p with QRest _ | QRestNone => true | _ => false end.
Definition is_key (p : fparam) : bool := match p with QKey _ _ => true | _ => false end.
Definition is_kwrest (p : fparam) : bool := match p with QKwRest _ => true | _ => false end.
Definition is_block (p : fparam) : bool := match p with QBlock _ => true | _ => false end.
Definition all (f : fparam -> bool) (l : list fparam) : Prop := forall p, In p l -> f p = true.

(** Required, optional, rest, required again, keywords, rest of the keywords,
    block; or required ones and the dots.  Parameters are required again only
    behind an optional one or a rest. *)
Inductive ordered : list fparam -> Prop :=
| Ordered req opt rest post key kwrest block :
    all is_req req -> all is_opt opt -> all is_rest rest -> (length rest <= 1)%nat ->
    all is_post post -> (post <> [] -> opt ++ rest <> []) ->
    all is_key key -> all is_kwrest kwrest -> (length kwrest <= 1)%nat ->
    all is_block block -> (length block <= 1)%nat ->
    ordered (req ++ opt ++ rest ++ post ++ key ++ kwrest ++ block)
| Ordered_dots req : all is_req req -> ordered (req ++ [QDelegate]).

Definition named_by (p : fparam) : list Z :=
  match p with
  | QReq id | QPost id | QOpt id _ | QRest id | QKey id _ | QKwRest id | QBlock id => [id]
  | QRestNone | QDelegate => []
  end.
Definition names (ps : list fparam) : list Z := flat_map named_by ps.

(** The text of one parameter.  [outer]: the variables of the enclosing scopes;
    [own], [own']: those of the scope of the parameters, before and after; a
    default sees the parameters before it, and its assignments are variables of
    the scope.  [dots]: what stands for [...] among the variables. *)
Definition begins_line (ts : list item) : bool := match ts with (TLT, _) :: _ => true | _ => false end.
Section Text.
Variables (dots : Z) (outer : list Z).
Inductive one : list Z -> fparam -> list item -> ends -> list Z -> Prop :=
| O_req own id b : ~ In id own -> one own (QReq id) [(TIdent id, b)] closed (own ++ [id])
| O_post own id b : ~ In id own -> one own (QPost id) [(TIdent id, b)] closed (own ++ [id])
| O_opt own id b b' e ts o own' :
    writes false (outer ++ own) 2 e ts o (outer ++ own') -> ~ In id own' ->
    one own (QOpt id e) ((TIdent id, b) :: (TP pAssign, b') :: ts) o (own' ++ [id])
| O_rest own id b b' : ~ In id own -> one own (QRest id) [(TP pMul, b); (TIdent id, b')] closed (own ++ [id])
| O_rest_none own b : one own QRestNone [(TP pMul, b)] closed own
| O_key_none own id b b' : ~ In id own -> one own (QKey id None) [(TIdent id, b); (TP pColon, b')] closed (own ++ [id])
| O_key own id b b' e ts o own' :
    writes false (outer ++ own) 2 e ts o (outer ++ own') -> begins_line ts = false -> ~ In id own' ->
    one own (QKey id (Some e)) ((TIdent id, b) :: (TP pColon, b') :: ts) o (own' ++ [id])
| O_kwrest own id b b' : ~ In id own -> one own (QKwRest id) [(TP pDMul, b); (TIdent id, b')] closed (own ++ [id])
| O_block own id b b' : ~ In id own -> one own (QBlock id) [(TP pBitAnd, b); (TIdent id, b')] closed (own ++ [id])
| O_delegate own b : ~ In dots own -> one own QDelegate [(TP pRange3, b)] closed (own ++ [dots]).
(** Parameters with commas between them; a line may end behind a comma.  As among
    the arguments of a call (C38), a default before a comma must not end with an
    assignment. *)
Inductive several : list Z -> list fparam -> list item -> ends -> list Z -> Prop :=
| V_last own p ts o own' : one own p ts o own' -> several own [p] ts o own'
| V_next own p ts o own1 b nl ps tss o' own' : one own p ts o own1 -> e_open o = false -> blank_lines nl ->
    several own1 ps tss o' own' -> several own (p :: ps) (ts ++ (TP pComma, b) :: nl ++ tss) o' own'.
End Text.
Definition has_default (p : fparam) : bool := match p with QOpt _ _ | QKey _ (Some _) => true | _ => false end.
