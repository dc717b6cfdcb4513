(** The code generator: ruruby/src/codegen.rs (with codegen/send.rs) over the
    byte sequences of [ModelInst].

    Modelled: the expression and statement core of [Codegen::gen]
    (codegen.rs:596-1619) with literals, variables, constants, operators,
    assignment, indexing, plain sends, arrays, hashes, ranges, interpolation, yield, sequences, conditionals, loops, break /
    next / return, case and begin/rescue/else/ensure, including back-patching
    of displacements, the loop stack, the jump destinations of ensure clauses,
    the exception table, the constant table and the case dispatch tables.
    Not modelled: class / method / block definitions (they compile a separate
    sequence with the same function), splat, keyword and block arguments of
    calls (see ModelCall), super without arguments,
    defined?, and the source map ([save_loc] only records positions). *)
From Coq Require Import ZArith List Bool.
From Verif Require Import Base ModelValue ModelInst.
Import ListNotations.
Open Scope Z_scope.

(** ** Syntax trees, ruruby-parse/src/node.rs:8-320 *)

(** node.rs:239-262 [BinOp] (without [Match], which is compiled as a send) *)
Inductive binop : Set :=
| BAdd | BSub | BMul | BDiv | BExp | BRem | BShr | BShl | BBitOr | BBitAnd
| BBitXor | BEq | BNe | BTEq | BGe | BGt | BLe | BLt | BCmp | BLAnd | BLOr.

(** node.rs:302-307 [UnOp] *)
Inductive unop : Set := UBitNot | UNot | UNeg | UPos.

(** Operations that compute their operands from left to right and then make one
    value of them.  [bHash]: keys and values of a hash literal; [bYield]: arguments of
    yield; [bToS], [bConcat], [bRegexp]: the parts of an interpolated string or
    regexp; [bSplat]: an element [*x] of an array; [bConst]: a constant, with the slot of its cache
    (globals.add_const_cache_entry); [bTop]: [::C]; [bScope]: [p::C]; [bCvar], [bSvar]: class
    and special variables; [bCall]: a call that needs SEND (send.rs:25-77), with the receiver,
    [nargs] positional arguments and, as the flags tell, the hash of the keyword arguments, the
    array of the [**] arguments and the [&] argument; [bSuper]: super with arguments in
    parentheses (codegen.rs:1383-1405) on self and the arguments. *)
Inductive bop : Set :=
| bHash | bYield | bToS | bConcat | bRegexp | bSplat
| bConst (id slot : Z) | bTop (id : Z) | bScope (id : Z) | bCvar (id : Z) | bSvar (id : Z)
| bCall (id nargs : Z) (kw amp del hspl spl : bool) | bSuper.

(** defined.rs:172-204 [defined_str]: the answers of [defined?] *)
Inductive dkind : Set :=
| dLocal | dMethod | dGlobal | dCvar | dConst | dIvar | dAssign
| dTrue | dFalse | dNil | dSelf | dExpr.

(** What [gen_defined] takes from the tables of names: the string object made for
    an answer (iseq.rs:238-241), the names of the operators (node.rs:272-298, 310-318) and
    the identifiers of "[]" and "Object". *)
Record dnames : Set := mkdn {
  dn_str : dkind -> value;
  dn_bin : binop -> Z;
  dn_un : unop -> Z;
  dn_index : Z;
  dn_object : Z
}.

(** node.rs:8-140 [NodeKind].  [NLit v]: a literal for which the code generator makes the
    object [v] (codegen.rs:624-632 and 1775-1842: strings, imaginary numbers, arrays, hashes,
    ranges and regexps of constants); the tree carries that object.  [NOp bConcat] stands for
    [InterporatedString] without its empty strings (codegen.rs:639), with [NOp bToS] around the
    parts that are code.  [NAssign l r] is [MulAssign([l], [r])],
    [NMAssign] the other multiple assignments; [NIndex] has one index that is
    no splat; [NSend] has plain positional arguments only. *)
Inductive node : Set :=
| NNil | NBool (b : bool) | NInt (i : Z) | NBig (n : Z) | NFloat (bits : Z)
| NSym (id : Z) | NSelf
| NLVar (id : Z) | NGVar (id : Z) | NIVar (id : Z)
| NIdent (id : Z)
| NSend (recv : node) (id : Z) (args : list node) (safe_nav : bool)
| NIndex (base idx : node)
| NArray (l : list node)
| NOp (k : bop) (l : list node)
| NLit (v : value)
| NRange (start stop : node) (excl : bool)
| NBin (op : binop) (l r : node)
| NUn (op : unop) (e : node)
| NAssign (lhs rhs : node)
| NAssignOp (op : binop) (lhs rhs : node)
| NMAssign (lhs rhs : list node)
| NSeq (l : list node)
| NIf (c t e : node)
| NWhile (c body : node) (cond_op : bool)
| NBreak (e : node) | NNext (e : node) | NReturn (e : node)
| NCase (c : option node) (whens : list (list node * node)) (els : node)
| NBegin (body : node) (rescues : list (list node * option node * node))
         (els ens : option node)
| NDefined (e : node) (d : dnames).

(** node.rs:265-270 [is_cmp_op], with the comparison it stands for *)
Definition cmp_of (op : binop) : option cmpop :=
  match op with
  | BEq => Some cEQ | BNe => Some cNE | BGe => Some cGE | BGt => Some cGT
  | BLe => Some cLE | BLt => Some cLT | _ => None
  end.

(** node.rs:322-327 [is_empty] *)
Definition is_empty (n : node) : bool :=
  match n with NSeq [] => true | _ => false end.

(** node.rs:743-753 [is_imm_i32], 731-741 [is_imm_u32] *)
Definition is_imm_i32 (n : node) : option Z :=
  match n with
  | NInt i => if (- 2 ^ 31 <=? i) && (i <=? 2 ^ 31 - 1) then Some i else None
  | _ => None
  end.
Definition is_imm_u32 (n : node) : option Z :=
  match n with
  | NInt i => if (0 <=? i) && (i <=? 2 ^ 32 - 1) then Some i else None
  | _ => None
  end.

(** ** State of the generator *)

(** ruruby-common/src/code_context.rs:5-10 [ContextKind] *)
Inductive ctxkind : Set := KMethod | KClass | KBlock | KEval.

(** The parts of [Codegen] that do not change while one sequence is
    generated: codegen.rs:10-17.  [sc_ctx] is the context stack, innermost
    first: the variable table of each context and whether it is a method
    ([ContextKind::is_method]); [sc_ext] the tables of the frames of
    [extern_context], innermost first; [sc_kind] the kind of the innermost
    context; [sc_setter id] the identifier of "id=" (codegen.rs:300-311, 409-416);
    [sc_stderr] the identifier of "StandardError". *)
Record sctx : Set := mksctx {
  sc_ctx : list (list Z * bool);
  sc_ext : list (list Z);
  sc_kind : ctxkind;
  sc_setter : Z -> Z;
  sc_stderr : Z
}.

(** codegen.rs:1845-1892 [LoopInfo] / [EscapeInfo] *)
Inductive esckind : Set := EBreak | ENext.
Record loopinfo : Set := mkloop { lp_loop : bool; lp_esc : list (Z * esckind) }.

(** codegen.rs:1926-1947 [LocalJumpDest] *)
Record jdest : Set := mkjd { jd_ens : bool; jd_ret : list Z; jd_mret : list Z }.

(** code_context.rs:18-68 [ExceptionEntry]; [ex_keep]: of type [Continue]
    ([push_ex_continue], called for [defined?] only), else [Rescue] *)
Record exentry : Set := mkex { ex_start : Z; ex_end : Z; ex_dest : Z; ex_keep : bool }.

(** [g_map]: case_dispatch, a map from labels to displacements, newest entry
    first; [g_map2]: case_dispatch2, (min, max, displacement of each label,
    newest first, displacement of the other slots) standing for the vector of
    codegen.rs:1210-1215. *)
Record cg : Set := mkcg {
  code : list Z;
  loops : list loopinfo;
  jds : list jdest;
  extab : list exentry;
  consts : list value;
  g_map : list (list (value * Z));
  g_map2 : list (Z * Z * list (Z * Z) * Z);
  caches : Z
}.

Definition set_code c st :=
  mkcg c (loops st) (jds st) (extab st) (consts st) (g_map st) (g_map2 st)
       (caches st).
Definition set_loops l st :=
  mkcg (code st) l (jds st) (extab st) (consts st) (g_map st) (g_map2 st)
       (caches st).
Definition set_jds j st :=
  mkcg (code st) (loops st) j (extab st) (consts st) (g_map st) (g_map2 st)
       (caches st).
Definition set_extab x st :=
  mkcg (code st) (loops st) (jds st) x (consts st) (g_map st) (g_map2 st)
       (caches st).
Definition set_consts k st :=
  mkcg (code st) (loops st) (jds st) (extab st) k (g_map st) (g_map2 st)
       (caches st).
Definition set_map m st :=
  mkcg (code st) (loops st) (jds st) (extab st) (consts st) m (g_map2 st)
       (caches st).
Definition set_map2 m st :=
  mkcg (code st) (loops st) (jds st) (extab st) (consts st) (g_map st) m
       (caches st).
Definition set_caches c st :=
  mkcg (code st) (loops st) (jds st) (extab st) (consts st) (g_map st)
       (g_map2 st) c.

(** iseq.rs:75-77 [current] *)
Definition cur (st : cg) : Z := Z.of_nat (length (code st)).

(** Append one instruction. *)
Definition emit (i : inst) (st : cg) : cg := set_code (code st ++ encode i) st.

Definition lift_code (f : list Z -> option (list Z)) (st : cg) : res cg :=
  match f (code st) with Some c => Ok (set_code c st) | None => Panic end.

(** iseq.rs:153-167 on the generator state *)
Definition wdisp (src dest : Z) : cg -> res cg := lift_code (write_disp src dest).
Definition wcur (src : Z) : cg -> res cg := lift_code (write_disp_from_cur src).

(** [for p in list: iseq.write_disp_from_cur(p)] *)
Fixpoint wcurs (l : list Z) (st : cg) : res cg :=
  match l with
  | [] => Ok st
  | p :: r => st <- wcur p st ;; wcurs r st
  end.

(** iseq.rs:282-286 [gen_jmp_back]: the displacement is counted from the end
    of the instruction. *)
Definition gen_jmp_back (pos : Z) (st : cg) : cg :=
  emit (IJ oJMP_BACK (pos_diff (cur st) pos - 5)) st.

(** iseq.rs:211-218 [gen_const_val] *)
Definition gen_const_val (v : value) (st : cg) : res cg :=
  let id := Z.of_nat (length (consts st)) in
  if id >? 2 ^ 32 - 1 then Panic
  else Ok (emit (I32 oCONST_VAL id) (set_consts (consts st ++ [v]) st)).

(** [is_packed_value] (value.rs): an immediate word *)
Definition packed (v : value) : option Z :=
  match v with Imm w => Some w | Heap _ => None end.

(** iseq.rs:206-209 [gen_val] for a value that is a word, 220-236
    [gen_integer] / [gen_float] *)
Definition gen_lit (v : value) (st : cg) : res cg :=
  match packed v with
  | Some w => Ok (emit (IVal w) st)
  | None => gen_const_val v st
  end.

Definition gen_val (v : value) (st : cg) : res cg :=
  match packed v with Some w => Ok (emit (IVal w) st) | None => Panic end.

(** ** Local variables *)

(** lvar_collector.rs:174-176 [get_lvarid] *)
Fixpoint get_lvarid (id : Z) (t : list Z) : option Z :=
  match t with
  | [] => None
  | x :: r => if x =? id then Some 0
              else match get_lvarid id r with
                   | Some k => Some (k + 1)
                   | None => None
                   end
  end.

(** codegen.rs:1693-1700: the [loop] over the frames of [extern_context] *)
Fixpoint get_extern (id idx : Z) (ext : list (list Z)) : option (Z * Z) :=
  match ext with
  | [] => None
  | t :: r => match get_lvarid id t with
              | Some k => Some (idx, k)
              | None => get_extern id (idx + 1) r
              end
  end.

(** codegen.rs:1682-1701 [get_local_var] *)
Fixpoint get_ctx (id i idx : Z) (cx : list (list Z * bool)) (ext : list (list Z))
  : option (Z * Z) :=
  match cx with
  | [] => get_extern id idx ext
  | (t, is_m) :: r =>
      match get_lvarid id t with
      | Some k => Some (i, k)
      | None => if is_m then None else get_ctx id (i + 1) i r ext
      end
  end.

Definition get_local_var (cx : sctx) (id : Z) : option (Z * Z) :=
  get_ctx id 0 0 (sc_ctx cx) (sc_ext cx).

(** codegen.rs:1640-1653 [emit_set_local]; not finding the variable is
    [unreachable!] *)
Definition emit_set_local (cx : sctx) (id : Z) (st : cg) : res cg :=
  match get_local_var cx id with
  | Some (outer, k) =>
      Ok (emit (if outer =? 0 then I32 oSET_LOCAL k else I2 oSET_DYNLOCAL k outer) st)
  | None => Panic
  end.

(** codegen.rs:1655-1669 [emit_get_local] *)
Definition emit_get_local (cx : sctx) (id : Z) (st : cg) : res cg :=
  match get_local_var cx id with
  | Some (outer, k) =>
      Ok (emit (if outer =? 0 then I32 oGET_LOCAL k else I2 oGET_DYNLOCAL k outer) st)
  | None => Err NameErr
  end.

(** send.rs:139-159 [emit_opt_send]; a new inline cache slot per site *)
Definition emit_osend (use : bool) (id nargs : Z) (st : cg) : cg :=
  set_caches (caches st + 1) (emit (ISendO use id nargs None (caches st)) st).

(** ** Operators, codegen.rs:814-893 *)

Definition bin_inst (op : binop) : op0 :=
  match op with
  | BAdd => oADD | BSub => oSUB | BMul => oMUL | BDiv => oDIV | BExp => oPOW
  | BRem => oREM | BShr => oSHR | BShl => oSHL | BBitOr => oBOR
  | BBitAnd => oBAND | BBitXor => oBXOR | BEq => oEQ | BNe => oNE
  | BTEq => oTEQ | BGe => oGE | BGt => oGT | BLe => oLE | BLt => oLT
  | BCmp => oCMP | BLAnd | BLOr => oNOT (* not used: handled separately *)
  end.

(** the operators with an immediate form ([binop_imm!]) *)
Definition bini_inst (op : binop) : option opi :=
  match op with
  | BAdd => Some oADDI | BSub => Some oSUBI | BEq => Some oEQI
  | BNe => Some oNEI | BGe => Some oGEI | BGt => Some oGTI | BLe => Some oLEI
  | BLt => Some oLTI | _ => None
  end.

(** codegen.rs:814-893 [NodeKind::BinOp]; [gl], [gr] generate the operands
    and [imm] is [rhs.is_imm_i32()]. *)
Definition gen_binop (op : binop) (gl gr : bool -> cg -> res cg)
  (imm : option Z) (u : bool) (st : cg) : res cg :=
  match op with
  | BLAnd | BLOr =>
      st <- gl true st ;;
      let st := if u then emit (I32 oDUP 1) st else st in
      let st := emit (IJ (match op with BLAnd => oJMP_F | _ => oJMP_T end) 0) st in
      let src := cur st in
      let st := if u then emit (I0 oPOP) st else st in
      st <- gr u st ;;
      wcur src st
  | _ =>
      st <- match bini_inst op, imm with
            | Some oi, Some i => st <- gl true st ;; Ok (emit (II oi i) st)
            | _, _ => st <- gl true st ;;
                      st <- gr true st ;;
                      Ok (emit (I0 (bin_inst op)) st)
            end ;;
      Ok (if u then st else emit (I0 oPOP) st)
  end.

(** codegen.rs:555-586, the comparison part of [gen_jmp_if_false]; the position
    to patch is the end of the code *)
Definition gen_cmp_jmp (c : cmpop) (gl gr : bool -> cg -> res cg)
  (imm : option Z) (st : cg) : res cg :=
  st <- gl true st ;;
  match imm with
  | Some i => Ok (emit (IJI c i 0) st)
  | None => st <- gr true st ;; Ok (emit (IJ (oJMP_F_cmp c) 0) st)
  end.

(** codegen.rs:355-367 [gen_assign_val] *)
Definition gen_assign_val (g : bool -> cg -> res cg) (u : bool) (st : cg) : res cg :=
  st <- g true st ;; Ok (if u then emit (I32 oDUP 1) st else st).

(** Pop the innermost loop and patch its escapes, codegen.rs:1026-1033. *)
Fixpoint patch_escapes (l : list (Z * esckind)) (loop_start : Z) (st : cg)
  : res cg :=
  match l with
  | [] => Ok st
  | (p, EBreak) :: r => st <- wcur p st ;; patch_escapes r loop_start st
  | (p, ENext) :: r => st <- wdisp p loop_start st ;; patch_escapes r loop_start st
  end.

(** codegen.rs:1543, 1571: record an escape of the innermost loop. *)
Definition add_escape (k : esckind) (st : cg) : res cg :=
  match loops st with
  | [] => Panic
  | x :: r => Ok (set_loops (mkloop (lp_loop x) (lp_esc x ++ [(cur st, k)]) :: r) st)
  end.

(** [loop_stack.last().state == LoopState::Loop] *)
Definition in_loop (st : cg) : bool :=
  match loops st with x :: _ => lp_loop x | [] => false end.

(** ** Case labels that allow table dispatch, codegen.rs:1158-1190 *)

(** [Some (Some i)]: an integer literal; [Some None]: another literal;
    [None]: not a literal *)
Definition lit_label (n : node) : option value :=
  match n with
  | NInt i => Some (integer i) | NBig n => Some (bignum n)
  | NFloat f => Some (float f) | NSym s => Some (symbol s)
  | NBool b => Some (vbool b) | NNil => Some nil
  | _ => None
  end.

Definition int_label (n : node) : option Z :=
  match n with NInt i => Some i | _ => None end.

Fixpoint map_opt {A B} (f : A -> option B) (l : list A) : option (list B) :=
  match l with
  | [] => Some []
  | x :: r => match f x, map_opt f r with
              | Some y, Some r' => Some (y :: r')
              | _, _ => None
              end
  end.

(** the labels of all branches if all are integers / all are literals *)
Definition all_int (whens : list (list node * node)) : option (list (list Z)) :=
  map_opt (fun b => map_opt int_label (fst b)) whens.
Definition all_lit (whens : list (list node * node)) : option (list (list value)) :=
  map_opt (fun b => map_opt lit_label (fst b)) whens.

Definition opt_min (l : list (list Z)) : Z := fold_left Z.min (concat l) (2 ^ 63 - 1).
Definition opt_max (l : list (list Z)) : Z := fold_left Z.max (concat l) (- 2 ^ 63).

(** [vec![default_disp; (opt_max - opt_min + 1) as usize]]: the subtraction
    and addition are on i64 and panic on overflow in a debug build; a negative
    size (no label at all) is a capacity overflow. *)
Definition table_size_ok (lo hi : Z) : bool :=
  let n := hi - lo + 1 in (0 <=? n) && (n <? 2 ^ 63).

(** jump destinations, codegen.rs:120-128, 1500-1511 *)
Definition push_jd (ens : bool) (st : cg) : cg := set_jds (mkjd ens [] [] :: jds st) st.

Definition add_ret (is_block : bool) (st : cg) : res cg :=
  match jds st with
  | x :: r => Ok (set_jds
      ((if is_block then mkjd (jd_ens x) (jd_ret x) (jd_mret x ++ [cur st])
        else mkjd (jd_ens x) (jd_ret x ++ [cur st]) (jd_mret x)) :: r) st)
  | [] => Panic
  end.

(** overwrite one slot of a table (globals.rs case_dispatch.get_mut) *)
Fixpoint upd_nth {A} (n : nat) (x : A) (l : list A) : list A :=
  match l, n with
  | [], _ => []
  | _ :: r, O => x :: r
  | y :: r, S k => y :: upd_nth k x r
  end.

Section Gen.
Variable cx : sctx.

Definition is_block : bool := match sc_kind cx with KBlock => true | _ => false end.

(** The functions below take the generator of sub-nodes [g] as an argument, so
    that [gen] itself is a plain recursion on syntax trees. *)
Definition generator := node -> bool -> cg -> res cg.

(** sub-nodes one after the other, all with their value *)
Definition gens (g : generator) : list node -> cg -> res cg :=
  fix gens (l : list node) (st : cg) {struct l} : res cg :=
    match l with
    | [] => Ok st
    | x :: r => st <- g x true st ;; gens r st
    end.

(** codegen.rs:468-493 [gen_comp_stmt] *)
Definition comp_stmt (g : generator) (u : bool) : list node -> cg -> res cg :=
  fix comp_stmt (l : list node) (st : cg) {struct l} : res cg :=
    match l with
    | [] => Ok (if u then emit (I0 oPUSH_NIL) st else st)
    | x :: r => match r with
                | [] => g x u st
                | _ => st <- g x false st ;; comp_stmt r st
                end
    end.

(** codegen.rs:548-594 [gen_jmp_if_false] *)
Definition jmp_if_false (g : generator) (c : node) (st : cg) : res cg :=
  match c with
  | NBin op l r =>
      match cmp_of op with
      | Some c => gen_cmp_jmp c (g l) (g r) (is_imm_i32 r) st
      | None => st <- g c true st ;; Ok (emit (IJ oJMP_F 0) st)
      end
  | _ => st <- g c true st ;; Ok (emit (IJ oJMP_F 0) st)
  end.

(** codegen.rs:1715-1728 [emit_set_special_var] *)
Definition emit_set_special (id : Z) (st : cg) : res cg :=
  if (id =? 0) || (id =? 1) || (100 <=? id) then Err OtherErr
  else Ok (emit (I32 oSET_SVAR id) st).

(** codegen.rs:279-353 [gen_assign]: the value is on the stack *)
Definition gen_assign (g : generator) (lhs : node) (st : cg) : res cg :=
  match lhs with
  | NIdent id | NLVar id => emit_set_local cx id st
  | NIVar id => Ok (emit (I32 oSET_IVAR id) st)
  | NGVar id => Ok (emit (I32 oSET_GVAR id) st)
  | NOp (bConst id _) _ | NOp (bTop id) _ =>
      Ok (emit (I32 oSET_CONST id) (emit (I0 oPUSH_NIL) st))
  | NOp (bCvar id) _ => Ok (emit (I32 oSET_CVAR id) st)
  | NOp (bSvar id) _ => emit_set_special id st
  | NOp (bScope id) (p :: _) =>
      st <- g p true st ;; Ok (emit (I32 oSET_CONST id) st)
  | NSend recv id _ _ =>
      st <- g recv true st ;;
      Ok (emit_osend false (sc_setter cx id) 1 (emit (I32 oSINKN 1) st))
  | NIndex base idx =>
      st <- g base true st ;;
      match is_imm_u32 idx with
      | Some k => Ok (emit (I32 oSET_IDX_I k) (emit (I32 oTOPN 1) st))
      | None => st <- g idx true st ;;
                Ok (emit (I0 oSET_INDEX) (emit (I32 oTOPN 2) st))
      end
  | _ => Err OtherErr
  end.

(** codegen.rs:369-466 [gen_assign2]; [gr] generates the right-hand side *)
Definition gen_assign2 (g : generator) (lhs : node) (gr : bool -> cg -> res cg)
  (u : bool) (st : cg) : res cg :=
  match lhs with
  | NIdent id | NLVar id => st <- gen_assign_val gr u st ;; emit_set_local cx id st
  | NIVar id => st <- gen_assign_val gr u st ;; Ok (emit (I32 oSET_IVAR id) st)
  | NGVar id => st <- gen_assign_val gr u st ;; Ok (emit (I32 oSET_GVAR id) st)
  | NOp (bConst id _) _ | NOp (bTop id) _ =>
      st <- gen_assign_val gr u st ;;
      Ok (emit (I32 oSET_CONST id) (emit (I0 oPUSH_NIL) st))
  | NOp (bCvar id) _ => st <- gen_assign_val gr u st ;; Ok (emit (I32 oSET_CVAR id) st)
  | NOp (bSvar id) _ => st <- gen_assign_val gr u st ;; emit_set_special id st
  | NOp (bScope id) (p :: _) =>
      st <- gen_assign_val gr u st ;;
      st <- g p true st ;; Ok (emit (I32 oSET_CONST id) st)
  | NSend recv id _ _ =>
      st <- g recv true st ;;
      st <- gr true st ;;
      Ok (emit_osend u (sc_setter cx id) 1 st)
  | NIndex base idx =>
      st <- g base true st ;;
      match is_imm_u32 idx with
      | Some k =>
          st <- gen_assign_val gr u st ;;
          Ok (emit (I32 oSET_IDX_I k) (if u then emit (I32 oSINKN 2) st else st))
      | None =>
          st <- g idx true st ;;
          st <- gen_assign_val gr u st ;;
          Ok (emit (I0 oSET_INDEX) (if u then emit (I32 oSINKN 3) st else st))
      end
  | _ => Err OtherErr
  end.

(** codegen.rs:1315-1317, 1330-1332, 1345-1347: [for lhs in mlhs.into_iter().rev()] *)
Definition gen_assigns (g : generator) : list node -> cg -> res cg :=
  fix assigns (l : list node) (st : cg) {struct l} : res cg :=
    match l with
    | [] => Ok st
    | x :: r => st <- assigns r st ;; gen_assign g x st
    end.

(** codegen.rs:1321-1323: right-hand sides without a target are evaluated
    without their value *)
Definition gens_first (g : generator) (ll : nat)
  : nat -> list node -> cg -> res cg :=
  fix go (i : nat) (l : list node) (st : cg) {struct l} : res cg :=
    match l with
    | [] => Ok st
    | x :: r => st <- g x (i <? ll)%nat st ;; go (S i) r st
    end.

(** codegen.rs:1304-1351 [MulAssign] *)
Definition gen_massign (g : generator) (lhs rhs : list node) (u : bool) (st : cg)
  : res cg :=
  let ll := length lhs in
  let lr := length rhs in
  match rhs with
  | [r] =>
      st <- g r true st ;;
      let st := if u then emit (I32 oDUP 1) st else st in
      gen_assigns g lhs (emit (I32 oTAKE (Z.of_nat ll)) st)
  | _ =>
      if u then
        let len := Nat.max ll lr in
        st <- gens g rhs st ;;
        let st := Nat.iter (len - lr) (emit (I0 oPUSH_NIL)) st in
        let st := emit (I32 oDUP (Z.of_nat len)) st in
        let st := Nat.iter (len - ll) (emit (I0 oPOP)) st in
        st <- gen_assigns g lhs st ;;
        Ok (emit (I32 oCREATE_ARRAY (Z.of_nat len)) st)
      else
        st <- gens_first g ll O rhs st ;;
        gen_assigns g lhs (Nat.iter (ll - lr) (emit (I0 oPUSH_NIL)) st)
  end.

(** codegen.rs:1197-1208, 1221-1238: the branches of a table dispatch;
    [lab] gives the key of a label. *)
Definition table_branches {K : Type} (g : generator) (lab : node -> option K)
  (u : bool) (start : Z)
  : list (list node * node) -> list (K * Z) -> list Z -> cg
    -> res (list (K * Z) * list Z * cg) :=
  fix go (l : list (list node * node)) (map : list (K * Z)) (ends : list Z)
         (st : cg) {struct l} :=
    match l with
    | [] => Ok (map, ends, st)
    | (labs, body) :: r =>
        let disp := pos_diff start (cur st) in
        let map := fold_left
          (fun m n => match lab n with Some k => (k, disp) :: m | None => m end)
          labs map in
        st <- g body u st ;;
        let st := emit (IJ oJMP 0) st in
        go r map (ends ++ [cur st]) st
    end.

(** codegen.rs:1251-1259: the labels of one branch, compared in turn; the
    positions to patch are given back *)
Definition seq_labels (g : generator)
  : list node -> list Z -> cg -> res (list Z * cg) :=
  fix labels (l : list node) (dests : list Z) (st : cg) {struct l} :=
    match l with
    | [] => Ok (dests, st)
    | x :: r =>
        let st := emit (I32 oDUP 1) st in
        st <- g x true st ;;
        let st := emit (I32 oSINKN 1) st in
        let st := emit (I0 oTEQ) st in
        let st := emit (IJ oJMP_T 0) st in
        labels r (dests ++ [cur st]) st
    end.

Definition wcur_opt (p : option Z) (st : cg) : res cg :=
  match p with Some p => wcur p st | None => Ok st end.

(** codegen.rs:1241-1268 *)
Definition seq_branches (g : generator) (u : bool)
  : list (list node * node) -> option Z -> list Z -> cg
    -> res (option Z * list Z * cg) :=
  fix go (l : list (list node * node)) (next : option Z) (ends : list Z)
         (st : cg) {struct l} :=
    match l with
    | [] => Ok (next, ends, st)
    | (labs, body) :: r =>
        st <- wcur_opt next st ;;
        x <- seq_labels g labs [] st ;;
        let '(dests, st) := x in
        let st := emit (IJ oJMP 0) st in
        let next := cur st in
        st <- wcurs dests st ;;
        let st := emit (I0 oPOP) st in
        st <- g body u st ;;
        let st := emit (IJ oJMP 0) st in
        go r (Some next) (ends ++ [cur st]) st
    end.

(** codegen.rs:1281-1296: a case without scrutinee *)
Definition bool_labels (g : generator)
  : list node -> list Z -> cg -> res (list Z * cg) :=
  fix labels (l : list node) (dests : list Z) (st : cg) {struct l} :=
    match l with
    | [] => Ok (dests, st)
    | x :: r =>
        st <- g x true st ;;
        let st := emit (IJ oJMP_F 0) st in
        labels r (dests ++ [cur st]) st
    end.

Definition bool_branches (g : generator) (u : bool)
  : list (list node * node) -> list Z -> cg -> res (list Z * cg) :=
  fix go (l : list (list node * node)) (ends : list Z) (st : cg) {struct l} :=
    match l with
    | [] => Ok (ends, st)
    | (labs, body) :: r =>
        x <- bool_labels g labs [] st ;;
        let '(dests, st) := x in
        st <- g body u st ;;
        let st := emit (IJ oJMP 0) st in
        let e := cur st in
        st <- wcurs dests st ;;
        go r (ends ++ [e]) st
    end.

(** codegen.rs:1153-1303 [Case] *)
Definition gen_case (g : generator) (c : option node)
  (whens : list (list node * node)) (els : node) (u : bool) (st : cg) : res cg :=
  match c with
  | Some c =>
      st <- g c true st ;;
      match all_int whens with
      | Some labels =>
          (* codegen.rs:1191-1217 *)
          let map_id := Z.of_nat (length (g_map2 st)) in
          let st := set_map2 (g_map2 st ++ [(0, 0, [], 0)]) st in
          let st := emit (ICase oOPT_CASE2 map_id 0) st in
          let start := cur st in
          x <- table_branches g int_label u start whens [] [] st ;;
          let '(map, ends, st) := x in
          let default := pos_diff start (cur st) in
          let lo := opt_min labels in
          let hi := opt_max labels in
          if table_size_ok lo hi then
            let st := set_map2
              (upd_nth (Z.to_nat map_id) (lo, hi, map, default) (g_map2 st)) st in
            st <- wcur start st ;;
            st <- g els u st ;;
            wcurs ends st
          else Panic
      | None =>
          match all_lit whens with
          | Some _ =>
              (* codegen.rs:1218-1239 *)
              let map_id := Z.of_nat (length (g_map st)) in
              let st := set_map (g_map st ++ [[]]) st in
              let st := emit (ICase oOPT_CASE map_id 0) st in
              let start := cur st in
              x <- table_branches g lit_label u start whens [] [] st ;;
              let '(map, ends, st) := x in
              let st := set_map (upd_nth (Z.to_nat map_id) map (g_map st)) st in
              st <- wcur start st ;;
              st <- g els u st ;;
              wcurs ends st
          | None =>
              x <- seq_branches g u whens None [] st ;;
              let '(next, ends, st) := x in
              st <- wcur_opt next st ;;
              let st := emit (I0 oPOP) st in
              st <- g els u st ;;
              wcurs ends st
          end
      end
  | None =>
      x <- bool_branches g u whens [] st ;;
      let '(ends, st) := x in
      st <- g els u st ;;
      wcurs ends st
  end.

(** codegen.rs:1057-1092: the rescue clauses *)
Definition gen_clauses (g : generator) (u : bool)
  : list (list node * option node * node) -> option Z -> list Z -> cg
    -> res (option Z * list Z * cg) :=
  fix clauses (l : list (list node * option node * node))
      (prev : option Z) (ends : list Z) (st : cg) {struct l} :=
    match l with
    | [] => Ok (prev, ends, st)
    | (exs, asg, rbody) :: r =>
        st <- wcur_opt prev st ;;
        let st := emit (I32 oDUP 1) st in
        st <- match exs with
              | [] => Ok (emit (I32 oRESCUE 1)
                          (emit (I32 oGET_CONST_TOP (sc_stderr cx)) st))
              | _ => st <- gens g exs st ;;
                     Ok (emit (I32 oRESCUE (Z.of_nat (length exs))) st)
              end ;;
        let st := emit (IJ oJMP_F 0) st in
        let prev := cur st in
        st <- match asg with
              | Some a => gen_assign g a st
              | None => Ok (emit (I0 oPOP) st)
              end ;;
        st <- g rbody u st ;;
        let st := emit (IJ oJMP 0) st in
        clauses r (Some prev) (ends ++ [cur st]) st
    end.

Definition gen_ensure (g : generator) (ens : option node) (st : cg) : res cg :=
  match ens with Some e => g e false st | None => Ok st end.

Definition no_dests (jd : jdest) : bool :=
  match jd_ret jd, jd_mret jd with [], [] => true | _, _ => false end.

(** codegen.rs:1117-1144: the copies of the ensure clause for the returns *)
Definition gen_ret_dests (g : generator) (ens : option node) (jd : jdest) (st : cg)
  : res cg :=
  if no_dests jd then Ok st
  else
    let st := emit (IJ oJMP 0) st in
    let ensure_label := cur st in
    st <- wcurs (jd_ret jd) st ;;
    st <- match jd_ret jd with
          | [] => Ok st
          | _ => st <- gen_ensure g ens st ;; Ok (emit (I0 oRETURN) st)
          end ;;
    st <- wcurs (jd_mret jd) st ;;
    st <- match jd_mret jd with
          | [] => Ok st
          | _ => st <- gen_ensure g ens st ;; Ok (emit (I0 oMRETURN) st)
          end ;;
    wcur ensure_label st.

(** codegen.rs:1040-1152 [Begin] *)
Definition gen_begin (g : generator) (body : node)
  (rescues : list (list node * option node * node)) (els ens : option node)
  (u : bool) (st : cg) : res cg :=
  let body_start := cur st in
  st <- g body u (push_jd (match ens with Some _ => true | None => false end) st) ;;
  match jds st with
  | [] => Panic
  | jd :: jr =>
      let st := set_jds jr st in
      let body_end := cur st in
      x <- match rescues with
           | [] => Ok (None, [], st)
           | _ =>
               let st := emit (IJ oJMP 0) st in
               let else_dest := cur st in
               x <- gen_clauses g u rescues None [] st ;;
               let '(prev, ends, st) := x in
               st <- wcur_opt prev st ;;
               st <- gen_ensure g ens st ;;
               let st := emit (I0 oTHROW) st in
               st <- wcur else_dest st ;;
               Ok (Some else_dest, ends, st)
           end ;;
      let '(dest, ends, st) := x in
      st <- match els with
            | Some e => g e u (if u then emit (I0 oPOP) st else st)
            | None => Ok st
            end ;;
      st <- gen_ret_dests g ens jd st ;;
      st <- wcurs ends st ;;
      let st := match dest with
                | Some d => set_extab (extab st ++ [mkex body_start body_end d false]) st
                | None => st
                end in
      gen_ensure g ens st
  end.

(** codegen.rs:966-982 [If] *)
Definition gen_if (g : generator) (c t e : node) (u : bool) (st : cg) : res cg :=
  st <- jmp_if_false g c st ;;
  let src1 := cur st in
  st <- g t u st ;;
  if u || negb (is_empty e) then
    let st := emit (IJ oJMP 0) st in
    let src2 := cur st in
    st <- wcur src1 st ;;
    st <- g e u st ;;
    wcur src2 st
  else wcur src1 st.

(** codegen.rs:1004-1039 [While] *)
Definition gen_while (g : generator) (c body : node) (cond_op u : bool) (st : cg)
  : res cg :=
  let st := set_loops (mkloop true [] :: loops st) st in
  let loop_start := cur st in
  st <- (if cond_op then jmp_if_false g c st
         else st <- g c true st ;; Ok (emit (IJ oJMP_T 0) st)) ;;
  let src := cur st in
  st <- g body false st ;;
  st <- wcur src (gen_jmp_back loop_start st) ;;
  let st := if u then emit (I0 oPUSH_NIL) st else st in
  let st := emit (IJ oJMP 0) st in
  let src := cur st in
  match loops st with
  | [] => Panic
  | x :: r =>
      st <- patch_escapes (lp_esc x) loop_start (set_loops r st) ;;
      wcur src (if u then st else emit (I0 oPOP) st)
  end.

(** arg_flag.rs:43-56 *)
Definition argflag (kw blk del hspl spl : bool) : Z :=
  (if kw then 1 else 0) + (if blk then 2 else 0) + (if del then 4 else 0)
  + (if hspl then 8 else 0) + (if spl then 16 else 0).

(** The instruction of an operation on [n] operands: iseq.rs:201-204 gen_concat,
    codegen.rs:1626-1630 emit_yield, 1730-1747 emit_get_const.., iseq.rs gen_create_hash,
    gen_create_regexp, gen_splat, gen_get_special_var, send.rs:119-137 emit_send with the inline
    cache slot [ic], codegen.rs:1383-1405 (emit_super) *)
Definition bop_inst (k : bop) (n ic : Z) : inst :=
  match k with
  | bHash => I32 oCREATE_HASH (n / 2)
  | bYield => I32 oYIELD n
  | bToS => I0 oTO_S
  | bConcat => I32 oCONCAT_STRING n
  | bRegexp => I0 oCREATE_REGEXP
  | bSplat => I0 oSPLAT
  | bConst id slot => I2 oGET_CONST id slot
  | bTop id => I32 oGET_CONST_TOP id
  | bScope id => I32 oGET_SCOPE id
  | bCvar id => I32 oGET_CVAR id
  | bSvar id => I32 oGET_SVAR id
  | bCall id m kw blk del hspl spl => ISend id m (argflag kw blk del hspl spl) None ic
  | bSuper => ISuper (n - 1) None false
  end.
Definition emit_op (k : bop) (n : Z) (st : cg) : cg :=
  let st' := emit (bop_inst k n (caches st)) st in
  match k with bCall _ _ _ _ _ _ _ => set_caches (caches st + 1) st' | _ => st' end.

(** ** [defined?], defined.rs *)

(** What [check_defined] gives: the jumps to the end that answers nil, the code
    of receivers ([exceptions]), and the code.  In the source the first two are
    collected in vectors. *)
Definition chk : Set := (list Z * list (Z * Z) * cg)%type.

Definition cthen (r : res chk) (k : cg -> res chk) : res chk :=
  x <- r ;;
  let '(l, e, st) := x in
  y <- k st ;;
  let '(l', e', st') := y in Ok (l ++ l', e ++ e', st').

(** [nil_labels.push(iseq.gen_jmp_if_t())] after the instruction [i] *)
Definition check_inst (i : inst) (st : cg) : res chk :=
  let st := emit (IJ oJMP_T 0) (emit i st) in Ok ([cur st], [], st).

(** a receiver; [caught]: its code is recorded in [exceptions] *)
Definition check_recv (g : bool -> cg -> res cg) (caught : bool) (st : cg) : res chk :=
  let start := cur st in
  st <- g true st ;; Ok ([], if caught then [(start, cur st)] else [], st).

(** defined.rs:101-120: only the targets that are local variables are looked at,
    and they are set to nil *)
Fixpoint check_targets (l : list node) (st : cg) : res cg :=
  match l with
  | [] => Ok st
  | (NLVar x | NIdent x) :: r =>
      st <- emit_set_local cx x (emit (I0 oPUSH_NIL) st) ;; check_targets r st
  | _ :: r => check_targets r st
  end.

(** defined.rs:34-168 [check_defined].  A call whose first [m] operands after
    the receiver are arguments is [NOp (bCall _ m ..)].  Simplification: the
    cache slot of the constant Object is 0. *)
Definition check_defined (g : generator) (d : dnames) : node -> cg -> res chk :=
  fix check (n : node) (st : cg) {struct n} : res chk :=
    let checks := fix checks (m : nat) (l : list node) (st : cg) {struct l} : res chk :=
      match m, l with
      | S m, x :: r => cthen (check x st) (checks m r)
      | _, _ => Ok ([], [], st)
      end in
    match n with
    | NLVar x =>
        match get_local_var cx x with
        | Some (outer, k) => check_inst (I2 oCHECK_LOCAL k outer) st
        | None => let st := emit (IJ oJMP 0) st in Ok ([cur st], [], st)
        end
    | NIdent x => check_inst (I32 oCHECK_METHOD x) (emit (I0 oPUSH_SELF) st)
    | NGVar x => check_inst (I32 oCHECK_GVAR x) st
    | NIVar x => check_inst (I32 oCHECK_IVAR x) st
    | NOp (bConst x _) _ => check_inst (I32 oCHECK_CONST x) st
    | NOp (bTop x) _ =>
        check_inst (I32 oCHECK_SCOPE x) (emit (I2 oGET_CONST (dn_object d) 0) st)
    | NOp (bScope x) (p :: _) =>
        cthen (check p st) (fun st =>
        cthen (check_recv (g p) false st) (check_inst (I32 oCHECK_SCOPE x)))
    | NArray l => checks (length l) l st
    | NAssignOp _ lhs _ => st <- check_targets [lhs] st ;; Ok ([], [], st)
    | NAssign lhs _ => st <- check_targets [lhs] st ;; Ok ([], [], st)
    | NMAssign lhs _ => st <- check_targets lhs st ;; Ok ([], [], st)
    | NBin op l r =>
        cthen (check l st) (fun st =>
        cthen (check r st) (fun st =>
        cthen (check_recv (g l) false st) (check_inst (I32 oCHECK_METHOD (dn_bin d op)))))
    | NUn op e =>
        cthen (check e st) (fun st =>
        cthen (check_recv (g e) false st) (check_inst (I32 oCHECK_METHOD (dn_un d op))))
    | NIndex b i =>
        cthen (check b st) (fun st =>
        cthen (check i st) (fun st =>
        cthen (check_recv (g b) false st) (check_inst (I32 oCHECK_METHOD (dn_index d)))))
    | NSend r x args _ =>
        cthen (check r st) (fun st =>
        cthen (checks (length args) args st) (fun st =>
        cthen (check_recv (g r) true st) (check_inst (I32 oCHECK_METHOD x))))
    | NOp (bCall x m _ _ _ _ _) (r :: l) =>
        cthen (check r st) (fun st =>
        cthen (checks (Z.to_nat m) l st) (fun st =>
        cthen (check_recv (g r) true st) (check_inst (I32 oCHECK_METHOD x))))
    | _ => Ok ([], [], st)
    end.

(** defined.rs:172-204 [defined_str] *)
Definition defined_str (n : node) : dkind :=
  match n with
  | NLVar _ => dLocal
  | NIdent _ => dMethod
  | NGVar _ => dGlobal
  | NOp (bCvar _) _ => dCvar
  | NOp (bConst _ _) _ | NOp (bTop _) _ | NOp (bScope _) _ => dConst
  | NIVar _ => dIvar
  | NAssign (NIndex _ _) _ | NMAssign [NIndex _ _] _ => dMethod
  | NAssign _ _ | NMAssign _ _ | NAssignOp _ _ _ => dAssign
  | NBin _ _ _ | NUn _ _ | NIndex _ _ | NSend _ _ _ _
  | NOp (bCall _ _ _ _ _ _ _) _ => dMethod
  | NBool b => if b then dTrue else dFalse
  | NNil => dNil
  | NSelf => dSelf
  | _ => dExpr
  end.

(** defined.rs:5-29 [gen_defined] *)
Definition gen_defined (g : generator) (d : dnames) (e : node) (st : cg) : res cg :=
  x <- check_defined g d e st ;;
  let '(labels, exs, st) := x in
  st <- gen_const_val (dn_str d (defined_str e)) st ;;
  let st := emit (IJ oJMP 0) st in
  let pos := cur st in
  let st := set_extab (extab st ++ map (fun p => mkex (fst p) (snd p) pos true) exs) st in
  st <- wcurs labels (emit (I0 oPOP) st) ;;
  wcur pos (emit (I0 oPUSH_NIL) st).

(** codegen.rs:596-1619 [gen] *)
Fixpoint gen (n : node) (u : bool) (st : cg) {struct n} : res cg :=
  let popped := fun (st : cg) => if u then st else emit (I0 oPOP) st in
  match n with
  (* codegen.rs:605-617: unused literals generate nothing; Bignum is not in
     that list *)
  | NNil => Ok (if u then emit (I0 oPUSH_NIL) st else st)
  | NBool b => if u then gen_val (vbool b) st else Ok st
  | NInt i => if u then gen_lit (integer i) st else Ok st
  | NBig i => gen_const_val (bignum i) st
  | NFloat f => if u then gen_lit (float f) st else Ok st
  | NSym id => if u then gen_val (symbol id) st else Ok st
  | NSelf => Ok (if u then emit (I0 oPUSH_SELF) st else st)
  | NLVar id => st <- emit_get_local cx id st ;; Ok (popped st)
  | NGVar id => Ok (popped (emit (I32 oGET_GVAR id) st))
  | NIVar id => Ok (popped (emit (I32 oGET_IVAR id) st))
  | NIdent id => Ok (emit_osend u id 0 (emit (I0 oPUSH_SELF) st))
  (* send.rs:16-76 *)
  | NSend recv id args safe =>
      st <- gen recv true st ;;
      st <- gens gen args st ;;
      let nargs := Z.of_nat (length args) in
      if safe then
        let st := emit (I32 oDUP 1) st in
        let st := emit (I0 oPUSH_NIL) st in
        let st := emit (I0 oNE) st in
        let st := emit (IJ oJMP_F 0) st in
        let src := cur st in
        wcur src (emit_osend u id nargs st)
      else Ok (emit_osend u id nargs st)
  | NIndex base idx =>
      st <- gen base true st ;;
      match is_imm_u32 idx with
      | Some k => Ok (popped (emit (I32 oGET_IDX_I k) st))
      | None => st <- gen idx true st ;; Ok (popped (emit (I0 oGET_INDEX) st))
      end
  (* codegen.rs:720-740; the empty array counts as constant *)
  | NArray [] => Ok (if u then emit (I32 oCREATE_ARRAY 0) st else st)
  | NArray l =>
      st <- gens gen l st ;;
      Ok (popped (emit (I32 oCREATE_ARRAY (Z.of_nat (length l))) st))
  (* codegen.rs:634-661, 675-691, 741-762 (the empty hash counts as constant), 779-801,
     808-813, 958-964, 1373-1382 *)
  | NOp bHash [] => Ok (if u then emit (I32 oCREATE_HASH 0) st else st)
  | NOp k l =>
      st <- gens gen l st ;;
      Ok (popped (emit_op k (Z.of_nat (length l)) st))
  (* codegen.rs:624-632, 662-667, 702-708, 720-729, 741-750 *)
  | NLit v => if u then gen_const_val v st else Ok st
  (* codegen.rs:709-718 *)
  | NRange a b ex =>
      st <- gen_val (vbool ex) st ;;
      st <- gen b true st ;;
      st <- gen a true st ;;
      Ok (popped (emit (I0 oCREATE_RANGE) st))
  | NBin op l r => gen_binop op (gen l) (gen r) (is_imm_i32 r) u st
  | NUn op e =>
      st <- gen e true st ;;
      Ok (popped match op with
                 | UBitNot => emit (I0 oBNOT) st
                 | UNot => emit (I0 oNOT) st
                 | UNeg => emit (I0 oNEG) st
                 | UPos => st
                 end)
  | NAssign lhs rhs => gen_assign2 gen lhs (gen rhs) u st
  | NAssignOp op lhs rhs =>
      gen_assign2 gen lhs (gen_binop op (gen lhs) (gen rhs) (is_imm_i32 rhs)) u st
  | NMAssign lhs rhs => gen_massign gen lhs rhs u st
  | NSeq l => comp_stmt gen u l st
  | NIf c t e => gen_if gen c t e u st
  | NWhile c body cond_op => gen_while gen c body cond_op u st
  (* codegen.rs:1495-1574 *)
  | NBreak e =>
      if in_loop st then
        st <- gen e true st ;; add_escape EBreak (emit (IJ oJMP 0) st)
      else
        match sc_kind cx with
        | KBlock => st <- gen e true st ;; Ok (emit (I0 oBREAK) st)
        | _ => Err OtherErr
        end
  | NNext e =>
      if in_loop st then
        st <- gen e u st ;; add_escape ENext (emit (IJ oJMP 0) st)
      else
        match sc_kind cx with
        | KBlock => st <- gen e true st ;; Ok (emit (I0 oRETURN) st)
        | _ => Err OtherErr
        end
  | NReturn e =>
      st <- gen e true st ;;
      match jds st with
      | x :: _ =>
          if jd_ens x then add_ret is_block (emit (IJ oJMP 0) st)
          else Ok (emit (I0 (if is_block then oMRETURN else oRETURN)) st)
      | [] => Ok (emit (I0 (if is_block then oMRETURN else oRETURN)) st)
      end
  | NCase c whens els => gen_case gen c whens els u st
  | NBegin body rescues els ens => gen_begin gen body rescues els ens u st
  (* codegen.rs:1594-1599 *)
  | NDefined e d => st <- gen_defined gen d e st ;; Ok (popped st)
  end.
End Gen.

(** ** The peephole pass, iseq.rs:350-412 *)

Definition byte_at (code : list Z) (p : Z) : option Z :=
  if p <? 0 then None else nth_error code (Z.to_nat p).

Inductive destkind : Set := DDest (p : Z) | DInst (b : Z).

(** iseq.rs:394-411 [chase].  The recursion of the source is not bounded; the
    model gives up with [Panic] when [fuel] jumps have been followed, and the
    property C30 is about when that happens. *)
Fixpoint chase (fuel : nat) (code : list Z) (pos : Z) (non_cond : bool)
  : res destkind :=
  match fuel with
  | O => Panic
  | S f =>
      match byte_at code pos with
      | None => Panic
      | Some b =>
          if (b =? 100) || (b =? 101) then
            match read_disp (pos + 1) code with
            | None => Panic
            | Some d => chase f code (pos + 5 + d) non_cond
            end
          else if (b =? 104) || (b =? 105) || (b =? 107) then
            Ok (if non_cond then DInst b else DDest pos)
          else Ok (DDest pos)
      end
  end.

(** one round of the loop of [optimize], iseq.rs:357-389 *)
Definition optimize_at (fuel : nat) (code : list Z) (pos : Z) : res (list Z) :=
  match byte_at code pos with
  | None => Panic
  | Some b =>
      if (b =? 100) || (b =? 101) then
        match read_disp (pos + 5 - 4) code with
        | None => Panic
        | Some d =>
            k <- chase fuel code (pos + 5 + d) true ;;
            match k with
            | DDest dest => match write_disp (pos + 5) dest code with
                            | Some c => Ok c | None => Panic end
            | DInst t => match patch pos [t; t; t; t; t] code with
                         | Some c => Ok c | None => Panic end
            end
        end
      else if mem b [103; 102; 170; 171; 172; 173; 174; 175] then
        match read_disp (pos + 5 - 4) code with
        | None => Panic
        | Some d =>
            k <- chase fuel code (pos + 5 + d) false ;;
            match k with
            | DDest dest => match write_disp (pos + 5) dest code with
                            | Some c => Ok c | None => Panic end
            | DInst _ => Panic
            end
        end
      else Ok code
  end.

(** iseq.rs:351-392 [optimize]: [steps] bounds the number of instructions
    (each advances by at least one byte, so the length of the code is
    enough); [size] of the instruction is looked up from the opcode read
    before the rewrite. *)
Fixpoint optimize_from (steps fuel : nat) (code : list Z) (pos : Z) : res (list Z) :=
  match steps with
  | O => Ok code
  | S k =>
      if pos >=? Z.of_nat (length code) then Ok code
      else
        match byte_at code pos with
        | None => Panic
        | Some b =>
            code <- optimize_at fuel code pos ;;
            match inst_size b with
            | None => Panic
            | Some n => optimize_from k fuel code (pos + n)
            end
        end
  end.

Definition optimize (fuel : nat) (code : list Z) : res (list Z) :=
  optimize_from (length code) fuel code 0.

(** ** codegen.rs:145-277 [gen_iseq] for a sequence without parameters that
    need default expressions: the body with its value, RETURN, the peephole
    pass. *)
Definition gen_body (cx : sctx) (body : node) (st : cg) : res cg :=
  st <- gen cx body true st ;; Ok (emit (I0 oRETURN) st).

Definition empty_cg (k : list value) (m : list (list (value * Z)))
  (m2 : list (Z * Z * list (Z * Z) * Z)) (c : Z) : cg :=
  mkcg [] [mkloop false []] [] [] k m m2 c.
