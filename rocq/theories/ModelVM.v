(** The interpreter loop over compiled code: one frame of
    ruruby/src/vm/executor/opt_core.rs:15-602 [run_context_main] and the
    exception loop of ruruby/src/vm/executor.rs:378-470 [run_loop].

    Everything that leaves the frame is a primitive: operators on objects,
    method calls, variables of the receiver and the globals, allocation.  They
    act on a world [W] the model does not look into.  A primitive answers with
    a value or raises an exception object.  A call does not change the local
    variables of the frame (blocks and bindings are not modelled), and calls
    that never come back are not modelled.  The size limit of the machine stack
    is not modelled: the evaluation stack is a list, top first. *)
From Coq Require Import ZArith List Bool.
From Verif Require Import Base ModelValue ModelInst ModelCodegen.
Import ListNotations.
Open Scope Z_scope.

(** Answer of a primitive *)
Inductive pres (W A : Type) : Type :=
| POk (a : A) (w : W)
| PRaise (e : value) (w : W).
Arguments POk {W A}.
Arguments PRaise {W A}.

(** What [defined?] asks for: opt_core.rs:278-282, 302-309, 327-331, 342-346, 483-489 *)
Inductive defq : Set :=
| qMethod (recv : value) (id : Z) | qIvar (id : Z) | qGvar (id : Z)
| qConst (id : Z) | qScope (parent : value) (id : Z).

(** The primitives of a frame.
    [p_self]: opt_core.rs:21; [p_bin]: invoke_add .. invoke_compare,
    invoke_teq on (lhs, rhs); [p_addi], [p_subi]: invoke_addi / invoke_subi;
    [p_cmp]: eval_eq .. eval_le on (lhs, rhs); [p_cmpi]: eval_eqi .. eval_lei;
    [p_un]: invoke_neg, invoke_bitnot; [p_index], [p_indexi]:
    invoke_get_index(_imm); [p_setindex], [p_setindexi]: invoke_set_index(_imm)
    on (receiver, index, value); [p_getg] .. [p_seti]: get_global_var,
    set_global_var, get_var, set_var (of self); [p_send]: vm_fast_send on
    (name, receiver, arguments); [p_array]: the array of pop_args_to_array;
    [p_op]: what the other instructions that make one value of the operands on the stack do
    (pop_key_value_pair, vm_yield, val_to_s, concatenation, create_regexp, Value::splat,
    find_const, get_scope, get_class_var, get_special_var); [p_store]: set_const and set_class_var: what is
    assigned to, the object of [p::C = v], the value; [p_range]: create_range on
    (start, end, exclude); [p_dup]: Value::shallow_dup of a stored literal; [p_elems]: as_array; [p_top]: get_scope(Object, name);
    [p_rescue]: eval_rescue; [p_keyeq]: the equality of HashKey; [p_defd]: is there such a
    variable, constant or method (get_var, get_global_var, find_const, expect_mod_class and
    get_scope, search_method)? *)
Record prims (W : Type) : Type := mkprims {
  p_self : value;
  p_bin : binop -> value -> value -> W -> pres W value;
  p_addi : value -> Z -> W -> pres W value;
  p_subi : value -> Z -> W -> pres W value;
  p_cmp : cmpop -> value -> value -> W -> pres W bool;
  p_cmpi : cmpop -> value -> Z -> W -> pres W bool;
  p_un : unop -> value -> W -> pres W value;
  p_index : value -> value -> W -> pres W value;
  p_indexi : value -> Z -> W -> pres W value;
  p_setindex : value -> value -> value -> W -> pres W unit;
  p_setindexi : value -> Z -> value -> W -> pres W unit;
  p_getg : Z -> W -> value;
  p_setg : Z -> value -> W -> W;
  p_geti : Z -> W -> value;
  p_seti : Z -> value -> W -> W;
  p_send : Z -> value -> list value -> W -> pres W value;
  p_array : list value -> W -> value * W;
  p_op : bop -> list value -> W -> pres W value;
  p_store : bop -> list value -> value -> W -> pres W unit;
  p_range : value -> value -> bool -> W -> pres W value;
  p_dup : value -> W -> value * W;
  p_elems : value -> W -> option (list value);
  p_top : Z -> W -> pres W value;
  p_rescue : value -> list value -> W -> bool;
  p_keyeq : value -> value -> W -> bool;
  p_defd : defq -> W -> bool
}.
Arguments p_self {W}. Arguments p_bin {W}. Arguments p_addi {W}.
Arguments p_subi {W}. Arguments p_cmp {W}. Arguments p_cmpi {W}.
Arguments p_un {W}. Arguments p_index {W}. Arguments p_indexi {W}.
Arguments p_setindex {W}. Arguments p_setindexi {W}. Arguments p_getg {W}.
Arguments p_setg {W}. Arguments p_geti {W}. Arguments p_seti {W}.
Arguments p_send {W}. Arguments p_array {W}. Arguments p_elems {W}.
Arguments p_op {W}. Arguments p_store {W}. Arguments p_range {W}. Arguments p_dup {W}.
Arguments p_top {W}. Arguments p_rescue {W}.
Arguments p_keyeq {W}. Arguments p_defd {W}.

(** The program of a frame: its bytes and exception table, and the global
    tables the code refers to (const_values, case_dispatch, case_dispatch2). *)
Record prog : Set := mkprog {
  pr_code : list Z;
  pr_ex : list exentry;
  pr_consts : list value;
  pr_map : list (list (value * Z));
  pr_map2 : list (Z * Z * list (Z * Z) * Z)
}.

(** The state of a frame: program counter, evaluation stack (top first), the
    local variable slots of the frame and of its outer frames, the world. *)
Record vst (W : Type) : Type := mkvst {
  v_pc : Z;
  v_stk : list value;
  v_env : list (list value);
  v_w : W
}.
Arguments mkvst {W}. Arguments v_pc {W}. Arguments v_stk {W}.
Arguments v_env {W}. Arguments v_w {W}.

(** How a frame ends: RETURN with its value, BREAK / MRETURN with the value in
    [globals.val], or an exception that no table entry catches. *)
Inductive halt : Set :=
| HRet (v : value) | HBreak (v : value) | HMRet (v : value) | HExn (v : value).

(** One instruction: go on, end the frame, raise with the program counter and the
    evaluation stack the exception loop will see (the operands of the instruction
    taken off), or get stuck (undefined behaviour, or an
    instruction that is not modelled). *)
Inductive sres (W : Type) : Type :=
| SNext (s : vst W)
| SHalt (h : halt) (env : list (list value)) (w : W)
| SRaise (v : value) (pc : Z) (stk : list value) (env : list (list value)) (w : W)
| SStuck.
Arguments SNext {W}. Arguments SHalt {W}. Arguments SRaise {W}.
Arguments SStuck {W}.

(** Local variable slots: [lfp[id]] and [get_dyn_local(outer)[id]],
    executor.rs get_dyn_local; outside the slots the access is undefined. *)
Definition env_get (env : list (list value)) (o i : Z) : option value :=
  if (o <? 0) || (i <? 0) then None
  else match nth_error env (Z.to_nat o) with
       | Some l => nth_error l (Z.to_nat i)
       | None => None
       end.

Definition env_set (env : list (list value)) (o i : Z) (v : value)
  : option (list (list value)) :=
  match env_get env o i with
  | Some _ =>
      match nth_error env (Z.to_nat o) with
      | Some l => Some (upd_nth (Z.to_nat o) (upd_nth (Z.to_nat i) v l) env)
      | None => None
      end
  | None => None
  end.

(** The [len] values on top of the stack, oldest first, and the rest. *)
Definition popn (len : Z) (stk : list value) : option (list value * list value) :=
  let n := Z.to_nat len in
  if (length stk <? n)%nat then None
  else Some (rev (firstn n stk), skipn n stk).

(** value.rs:501-503 *)
Definition is_uninit (v : value) : bool :=
  match v with Imm x => x =? UNINITIALIZED | Heap _ => false end.

Section VM.
Context {W : Type}.
Variable P : prims W.
Variable G : prog.

Definition push (npc : Z) (s : list value) (env : list (list value))
  (r : pres W value) : sres W :=
  match r with
  | POk v w => SNext (mkvst npc (v :: s) env w)
  | PRaise e w => SRaise e npc s env w
  end.
Definition stored (npc : Z) (s : list value) (env : list (list value))
  (r : pres W unit) : sres W :=
  match r with
  | POk _ w => SNext (mkvst npc s env w)
  | PRaise e w => SRaise e npc s env w
  end.

(** The operator an instruction calls: opt_core.rs:171-211, ops.rs *)
Definition bin_of_op0 (o : op0) : option binop :=
  match o with
  | oADD => Some BAdd | oSUB => Some BSub | oMUL => Some BMul | oPOW => Some BExp
  | oDIV => Some BDiv | oREM => Some BRem | oSHR => Some BShr | oSHL => Some BShl
  | oBAND => Some BBitAnd | oBOR => Some BBitOr | oBXOR => Some BBitXor
  | oTEQ => Some BTEq | oCMP => Some BCmp | _ => None
  end.

Definition cmp_of_op0 (o : op0) : option cmpop :=
  match o with
  | oEQ => Some cEQ | oNE => Some cNE | oGT => Some cGT | oGE => Some cGE
  | oLT => Some cLT | oLE => Some cLE | _ => None
  end.

Definition cmp_of_opi (o : opi) : option cmpop :=
  match o with
  | oEQI => Some cEQ | oNEI => Some cNE | oGTI => Some cGT | oGEI => Some cGE
  | oLTI => Some cLT | oLEI => Some cLE | _ => None
  end.

(** executor.rs:365-370 [jmp_cond] *)
Definition jmp_cond (npc d : Z) (b : bool) : Z := if b then npc else npc + d.

(** an operation on the value on top of the stack, and on the [n] values there *)
Definition op1 (k : bop) (npc : Z) (s : vst W) : sres W :=
  match v_stk s with
  | v :: t => push npc t (v_env s) (p_op P k [v] (v_w s))
  | [] => SStuck
  end.
Definition opn (k : bop) (n npc : Z) (s : vst W) : sres W :=
  match popn n (v_stk s) with
  | Some (l, t) => push npc t (v_env s) (p_op P k l (v_w s))
  | None => SStuck
  end.

(** opt_core.rs:116-224, 367-374, 384-388, 394-400, 549-558: the instructions without operand *)
Definition step0 (o : op0) (pos npc : Z) (s : vst W) : sres W :=
  let env := v_env s in
  let w := v_w s in
  match o with
  | oRETURN => match v_stk s with v :: _ => SHalt (HRet v) env w | [] => SStuck end
  | oBREAK => match v_stk s with v :: _ => SHalt (HBreak v) env w | [] => SStuck end
  | oMRETURN => match v_stk s with v :: _ => SHalt (HMRet v) env w | [] => SStuck end
  | oTHROW => match v_stk s with v :: t => SRaise v pos t env w | [] => SStuck end
  | oPUSH_NIL => SNext (mkvst npc (nil :: v_stk s) env w)
  | oPUSH_SELF => SNext (mkvst npc (p_self P :: v_stk s) env w)
  | oADD | oSUB | oMUL | oPOW | oDIV | oREM | oSHR | oSHL | oBAND | oBOR
  | oBXOR | oTEQ | oCMP =>
      match v_stk s, bin_of_op0 o with
      | r :: l :: t, Some b => push npc t env (p_bin P b l r w)
      | _, _ => SStuck
      end
  | oEQ | oNE | oGT | oGE | oLT | oLE =>
      match v_stk s, cmp_of_op0 o with
      | r :: l :: t, Some c =>
          match p_cmp P c l r w with
          | POk b w => SNext (mkvst npc (vbool b :: t) env w)
          | PRaise e w => SRaise e npc t env w
          end
      | _, _ => SStuck
      end
  | oNEG =>
      match v_stk s with
      | v :: t => push npc t env (p_un P UNeg v w)
      | _ => SStuck
      end
  | oBNOT =>
      match v_stk s with
      | v :: t => push npc t env (p_un P UBitNot v w)
      | _ => SStuck
      end
  | oNOT =>
      match v_stk s with
      | v :: t => SNext (mkvst npc (vbool (negb (to_bool v)) :: t) env w)
      | _ => SStuck
      end
  | oGET_INDEX =>
      match v_stk s with
      | i :: r :: t => push npc t env (p_index P r i w)
      | _ => SStuck
      end
  | oSET_INDEX =>
      match v_stk s with
      | v :: i :: r :: t =>
          match p_setindex P r i v w with
          | POk _ w => SNext (mkvst npc t env w)
          | PRaise e w => SRaise e npc t env w
          end
      | _ => SStuck
      end
  | oPOP => match v_stk s with _ :: t => SNext (mkvst npc t env w) | [] => SStuck end
  | oCREATE_RANGE =>
      match v_stk s with
      | a :: b :: x :: t => push npc t env (p_range P a b (to_bool x) w)
      | _ => SStuck
      end
  | oCREATE_REGEXP => op1 bRegexp npc s
  | oTO_S => op1 bToS npc s
  | oSPLAT => op1 bSplat npc s
  end.

(** opt_core.rs:217-244, 263-282, 283-425, 483-489, 493-497, 559-599: one 32-bit operand.  CONST_VAL
    pushes a copy of the stored literal (globals.rs:542-544).  Simplification: GET_SCOPE on
    something that is no class raises when its operand is not read yet; either place is inside
    the instruction.  GET_CONST is modelled without its cache. *)
Definition step32 (o : op32) (n npc : Z) (s : vst W) : sres W :=
  let env := v_env s in
  let w := v_w s in
  match o with
  | oSET_LOCAL =>
      match v_stk s with
      | v :: t => match env_set env 0 n v with
                  | Some env => SNext (mkvst npc t env w)
                  | None => SStuck
                  end
      | [] => SStuck
      end
  | oGET_LOCAL =>
      match env_get env 0 n with
      | Some v => SNext (mkvst npc (v :: v_stk s) env w)
      | None => SStuck
      end
  | oGET_IVAR => SNext (mkvst npc (p_geti P n w :: v_stk s) env w)
  | oSET_IVAR =>
      match v_stk s with
      | v :: t => SNext (mkvst npc t env (p_seti P n v w))
      | [] => SStuck
      end
  | oGET_GVAR => SNext (mkvst npc (p_getg P n w :: v_stk s) env w)
  | oSET_GVAR =>
      match v_stk s with
      | v :: t => SNext (mkvst npc t env (p_setg P n v w))
      | [] => SStuck
      end
  | oGET_IDX_I =>
      match v_stk s with
      | r :: t => push npc t env (p_indexi P r n w)
      | [] => SStuck
      end
  | oSET_IDX_I =>
      match v_stk s with
      | v :: r :: t =>
          match p_setindexi P r n v w with
          | POk _ w => SNext (mkvst npc t env w)
          | PRaise e w => SRaise e npc t env w
          end
      | _ => SStuck
      end
  | oCONST_VAL =>
      match nth_error (pr_consts G) (Z.to_nat n) with
      | Some v => let (v, w) := p_dup P v w in SNext (mkvst npc (v :: v_stk s) env w)
      | None => SStuck
      end
  | oCREATE_HASH => opn bHash (2 * n) npc s
  | oYIELD => opn bYield n npc s
  | oCONCAT_STRING => opn bConcat n npc s
  | oGET_SCOPE => op1 (bScope n) npc s
  | oGET_CVAR => opn (bCvar n) 0 npc s
  | oGET_SVAR => opn (bSvar n) 0 npc s
  | oSET_CVAR =>
      match v_stk s with
      | v :: t => stored npc t env (p_store P (bCvar n) [] v w)
      | [] => SStuck
      end
  (* opt_core.rs:263-277: nil stands for the class being defined *)
  | oSET_CONST =>
      match v_stk s with
      | p :: v :: t =>
          stored npc t env
            (match p with
             | Imm x => if x =? NIL_VALUE then p_store P (bConst n 0) [] v w
                        else p_store P (bScope n) [p] v w
             | Heap _ => p_store P (bScope n) [p] v w
             end)
      | _ => SStuck
      end
  | oCREATE_ARRAY =>
      match popn n (v_stk s) with
      | Some (l, t) => let (v, w) := p_array P l w in
                       SNext (mkvst npc (v :: t) env w)
      | None => SStuck
      end
  | oDUP =>
      if (length (v_stk s) <? Z.to_nat n)%nat then SStuck
      else SNext (mkvst npc (firstn (Z.to_nat n) (v_stk s) ++ v_stk s) env w)
  | oSINKN =>
      match v_stk s with
      | v :: t => if (length t <? Z.to_nat n)%nat then SStuck
                  else SNext (mkvst npc (firstn (Z.to_nat n) t ++ v :: skipn (Z.to_nat n) t)
                                    env w)
      | [] => SStuck
      end
  | oTOPN =>
      match nth_error (v_stk s) (Z.to_nat n) with
      | Some v => SNext (mkvst npc (v :: firstn (Z.to_nat n) (v_stk s)
                                    ++ skipn (S (Z.to_nat n)) (v_stk s)) env w)
      | None => SStuck
      end
  | oTAKE =>
      match v_stk s with
      | v :: t =>
          let l := match p_elems P v w with
                   | Some l => firstn (Z.to_nat n) l
                   | None => [v]
                   end in
          let l := l ++ repeat nil (Z.to_nat n - length l) in
          SNext (mkvst npc (rev l ++ t) env w)
      | [] => SStuck
      end
  | oRESCUE =>
      match popn n (v_stk s) with
      | Some (exs, v :: t) => SNext (mkvst npc (vbool (p_rescue P v exs w) :: t) env w)
      | _ => SStuck
      end
  | oGET_CONST_TOP => push npc (v_stk s) env (p_top P n w)
  | oCHECK_CONST => SNext (mkvst npc (vbool (negb (p_defd P (qConst n) w)) :: v_stk s) env w)
  | oCHECK_IVAR => SNext (mkvst npc (vbool (negb (p_defd P (qIvar n) w)) :: v_stk s) env w)
  | oCHECK_GVAR => SNext (mkvst npc (vbool (negb (p_defd P (qGvar n) w)) :: v_stk s) env w)
  | oCHECK_SCOPE =>
      match v_stk s with
      | v :: t => SNext (mkvst npc (vbool (negb (p_defd P (qScope v n) w)) :: t) env w)
      | [] => SStuck
      end
  | oCHECK_METHOD =>
      match v_stk s with
      | v :: t => SNext (mkvst npc (vbool (negb (p_defd P (qMethod v n) w)) :: t) env w)
      | [] => SStuck
      end
  | _ => SStuck
  end.

Definition assocV (v : value) (w : W) (l : list (value * Z)) : option Z :=
  match find (fun p => p_keyeq P (fst p) v w) l with
  | Some (_, d) => Some d
  | None => None
  end.

(** The instruction [i] at position [pos]; [npc] is the position after its
    operands: opt_core.rs:115-599. *)
Definition exec (i : inst) (pos npc : Z) (s : vst W) : sres W :=
  let env := v_env s in
  let w := v_w s in
  match i with
  | I0 o => step0 o pos npc s
  | I32 o n => step32 o n npc s
  | II o k =>
      match v_stk s with
      | l :: t =>
          match o with
          | oADDI => push npc t env (p_addi P l k w)
          | oSUBI => push npc t env (p_subi P l k w)
          | _ =>
              match cmp_of_opi o with
              | Some c =>
                  match p_cmpi P c l k w with
                  | POk b w => SNext (mkvst npc (vbool b :: t) env w)
                  | PRaise e w => SRaise e npc t env w
                  end
              | None => SStuck
              end
          end
      | [] => SStuck
      end
  | IJ oJMP d | IJ oJMP_BACK d => SNext (mkvst (npc + d) (v_stk s) env w)
  | IJ oJMP_F d =>
      match v_stk s with
      | v :: t => SNext (mkvst (jmp_cond npc d (to_bool v)) t env w)
      | [] => SStuck
      end
  | IJ oJMP_T d =>
      match v_stk s with
      | v :: t => SNext (mkvst (jmp_cond npc d (negb (to_bool v))) t env w)
      | [] => SStuck
      end
  | IJ (oJMP_F_cmp c) d =>
      match v_stk s with
      | r :: l :: t =>
          match p_cmp P c l r w with
          | POk b w => SNext (mkvst (jmp_cond npc d b) t env w)
          | PRaise e w => SRaise e (pos + 1) t env w
          end
      | _ => SStuck
      end
  | IJI c k d =>
      match v_stk s with
      | l :: t =>
          match p_cmpi P c l k w with
          | POk b w => SNext (mkvst (jmp_cond npc d b) t env w)
          | PRaise e w => SRaise e (pos + 5) t env w
          end
      | [] => SStuck
      end
  | IVal x => SNext (mkvst npc (Imm x :: v_stk s) env w)
  | I2 oSET_DYNLOCAL k outer =>
      match v_stk s with
      | v :: t => match env_set env outer k v with
                  | Some env => SNext (mkvst npc t env w)
                  | None => SStuck
                  end
      | [] => SStuck
      end
  | I2 oGET_DYNLOCAL k outer =>
      match env_get env outer k with
      | Some v => SNext (mkvst npc (v :: v_stk s) env w)
      | None => SStuck
      end
  (* opt_core.rs:257-262 *)
  | I2 oCHECK_LOCAL k outer =>
      match env_get env outer k with
      | Some v => SNext (mkvst npc (vbool (is_uninit v) :: v_stk s) env w)
      | None => SStuck
      end
  | I2 oGET_CONST k slot => opn (bConst k slot) 0 npc s
  | ISend id n fl None _ =>
      let kw := Z.testbit fl 0 in let blk := Z.testbit fl 1 in
      let del := Z.testbit fl 2 in let hspl := Z.testbit fl 3 in
      opn (bCall id n kw blk del hspl (Z.testbit fl 4))
          (1 + n + (if kw then 1 else 0) + (if hspl then 1 else 0) + (if blk then 1 else 0)) npc s
  | ISuper n None false => opn bSuper (n + 1) npc s
  | ICase oOPT_CASE t d =>
      match v_stk s, nth_error (pr_map G) (Z.to_nat t) with
      | v :: stk, Some m =>
          SNext (mkvst (npc + match assocV v w m with Some e => e | None => d end)
                       stk env w)
      | _, _ => SStuck
      end
  | ICase oOPT_CASE2 t d =>
      match v_stk s, nth_error (pr_map2 G) (Z.to_nat t) with
      | v :: stk, Some (lo, hi, m, def) =>
          let e := match as_fixnum v with
                   | Some k => if (lo <=? k) && (k <=? hi)
                               then match assocZ k m with
                                    | Some e => e | None => def end
                               else d
                   | None => d
                   end in
          SNext (mkvst (npc + e) stk env w)
      | _, _ => SStuck
      end
  | ISendO use id n None _ =>
      match popn n (v_stk s) with
      | Some (args, r :: t) =>
          match p_send P id r args w with
          | POk v w => SNext (mkvst npc (if use then v :: t else t) env w)
          | PRaise e w => SRaise e npc t env w
          end
      | _ => SStuck
      end
  | _ => SStuck
  end.

(** One instruction at [v_pc s]. *)
Definition rstep (s : vst W) : sres W :=
  let pos := v_pc s in
  if pos <? 0 then SStuck
  else
  match decode (skipn (Z.to_nat pos) (pr_code G)) with
  | None => SStuck
  | Some (i, _) => exec i pos (pos + Z.of_nat (length (encode i))) s
  end.

(** code_context.rs:65-67 [include] and executor.rs:437 [find]: where the handler is and
    whether it keeps the stack *)
Definition find_ex (t : list exentry) (pc : Z) : option (Z * bool) :=
  match find (fun e => (ex_start e <? pc) && (pc <=? ex_end e)) t with
  | Some e => Some (ex_dest e, ex_keep e)
  | None => None
  end.

(** executor.rs:419-466: an exception goes to the handler found, with the
    evaluation stack of the frame emptied unless the entry is of type [Continue] and the
    exception pushed, or ends the frame. *)
Definition vstep (s : vst W) : sres W :=
  match rstep s with
  | SRaise v pc stk env w =>
      match find_ex (pr_ex G) pc with
      | Some (d, keep) => SNext (mkvst d (v :: if keep then stk else []) env w)
      | None => SHalt (HExn v) env w
      end
  | r => r
  end.
End VM.
