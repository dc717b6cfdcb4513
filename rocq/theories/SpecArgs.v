(* Ruby's rules for binding call arguments to parameters, written from the
   language, without reference to slots or the stack. *)
From Verif Require Import Base ModelValue ModelArgs.

(* A parameter list by its parts: required, optional, rest (named or not),
   post-required, keywords (with a flag for "has a default"), keyword rest,
   block. *)
Record sig : Set := {
  s_req : list Z; s_opt : list Z; s_rest : option (option Z); s_post : list Z;
  s_key : list (Z * bool); s_kwrest : option Z; s_block : option Z
}.
Definition opt_list {A} (o : option A) : list A := match o with Some x => [x] | None => [] end.
(* the parameter list as written *)
Definition formals (s : sig) : list fparam :=
  map (Build_fparam PReq) (s_req s) ++ map (Build_fparam POpt) (s_opt s) ++
  (match s_rest s with
   | None => [] | Some None => [Build_fparam PRestDiscard 0] | Some (Some x) => [Build_fparam PRest x]
   end) ++
  map (Build_fparam PPost) (s_post s) ++ map (fun kd => Build_fparam (PKey (snd kd)) (fst kd)) (s_key s) ++
  map (Build_fparam PKwrest) (opt_list (s_kwrest s)) ++ map (Build_fparam PBlock) (opt_list (s_block s)).
Definition rest_name (s : sig) : list Z := match s_rest s with Some (Some x) => [x] | _ => [] end.
Definition names (s : sig) : list Z :=
  s_req s ++ s_opt s ++ rest_name s ++ s_post s ++ map fst (s_key s) ++ opt_list (s_kwrest s) ++ opt_list (s_block s).

(* Positional arguments: None when their number is wrong. An optional parameter
   without argument is left `uninitialized`, which makes the callee evaluate
   its default. *)
Definition spec_positional (s : sig) (args : list cell) : option (list cell) :=
  let r := length (s_req s) in
  let o := length (s_opt s) in
  let p := length (s_post s) in
  let n := length args in
  if (n <? r + p)%nat then None
  else
    let mid := firstn (n - p - r) (skipn r args) in
    let extra := skipn o mid in
    match s_rest s, extra with
    | None, _ :: _ => None
    | _, _ => Some (firstn r args ++ firstn o mid ++ repeat cuninit (o - length mid) ++
                    (match s_rest s with Some (Some _) => [CArr extra] | _ => [] end) ++ skipn (n - p) args)
    end.

Fixpoint given (k : Z) (kw : list (Z * cell)) : option cell :=
  match kw with [] => None | (k', v) :: kw' => if k =? k' then Some v else given k kw' end.
Definition is_key (s : sig) (k : Z) : bool := existsb (fun kd => fst kd =? k) (s_key s).
(* Keywords: None when one is unknown, or a mandatory one is missing. *)
Definition spec_keys (s : sig) (kw : list (Z * cell)) : option (list cell) :=
  if match s_kwrest s with None => negb (forallb (fun kv => is_key s (fst kv)) kw) | Some _ => false end then None
  else if negb (forallb (fun kd : Z * bool => snd kd || match given (fst kd) kw with Some _ => true | None => false end) (s_key s))
  then None
  else Some (map (fun kd => match given (fst kd) kw with Some v => v | None => cuninit end) (s_key s) ++
             match s_kwrest s with Some _ => [CHash (filter (fun kv => negb (is_key s (fst kv))) kw)] | None => [] end).

Definition takes_kw (s : sig) : bool :=
  match s_key s, s_kwrest s with [], None => false | _, _ => true end.
Definition kw_list (kw : option (list (Z * cell))) : list (Z * cell) := match kw with Some h => h | None => [] end.
(* keywords given to a callee that takes none arrive as a final hash *)
Definition positional (s : sig) (args : list cell) (kw : option (list (Z * cell))) : list cell :=
  if takes_kw s then args else args ++ match kw with Some h => [CHash h] | None => [] end.

(* The variables of a method after a call, by name; None: ArgumentError. *)
Definition spec_call (s : sig) (args : list cell) (kw : option (list (Z * cell))) (blk : option Z)
  : option (list (Z * cell)) :=
  match spec_positional s (positional s args kw), (if takes_kw s then spec_keys s (kw_list kw) else Some []) with
  | Some pos, Some keys =>
      Some (combine (names s)
              (pos ++ keys ++ match s_block s with
                              | Some _ => [match blk with Some b => CProc b | None => cnil end] | None => [] end))
  | _, _ => None
  end.

(* A block takes a single array apart when it has several parameters, or a
   rest parameter beside another. It never complains about the number:
   superfluous arguments are dropped, missing ones are nil. *)
Definition splats (s : sig) : bool :=
  let n := length (s_req s ++ s_opt s ++ s_post s) in
  (1 <? n)%nat || (match s_rest s with Some _ => true | None => false end && (0 <? n)%nat).
Definition block_args (s : sig) (args : list cell) : list cell :=
  let args1 := match args with [CArr l] => if splats s then l else args | _ => args end in
  let args2 := match s_rest s with
               | None => firstn (length (s_req s ++ s_opt s ++ s_post s)) args1 | Some _ => args1 end in
  args2 ++ repeat cnil (length (s_req s ++ s_post s) - length args2).
Definition spec_block (s : sig) (args : list cell) (blk : option Z) : option (list (Z * cell)) :=
  spec_call s (block_args s args) None blk.

(* The callee's variables after binding, by name: the parameters hold what
   [env] says, every other variable of the body is nil, everything below the
   arguments is as before. *)
Definition bound (iq : iseq) (st st' : stack) (base : Z) (env : list (Z * cell)) : Prop :=
  sp st' = base + iq_lvars iq /\
  (forall j, j < base -> buf st' j = buf st j) /\
  (forall x c, In (x, c) env ->
     exists i, get_lvarid (lc_table (iq_lvar iq)) x = Some i /\ 0 <= i < iq_lvars iq /\ buf st' (base + i) = c) /\
  (forall x, In x (lc_table (iq_lvar iq)) -> ~ In x (map fst env) ->
     exists i, get_lvarid (lc_table (iq_lvar iq)) x = Some i /\ buf st' (base + i) = cnil).
(* the arguments lie on top of the stack *)
Definition on_top (st : stack) (args : list cell) : Prop :=
  forall i c, nth_error args i = Some c -> buf st (sp st - Z.of_nat (length args) + Z.of_nat i) = c.
