(** What programs of the core language mean, independently of the compiler.

    The meaning of a tree is a function from states to outcomes.  A state gives
    each variable name its value and contains the world the primitive
    operations act on; the primitives ([prims]) are those of the interpreter,
    used here only through the general forms of the operations: an operator is
    applied to two values, a condition tests the truth of a value.

    [Fuel] is the outcome of a program whose loops have made more than [fuel]
    rounds, so a program runs forever iff its outcome is [Fuel] for all [fuel].
    [Out] marks executions about which the theorems make no claim; it arises
    only in the situations described at [eval_case], [eval_begin] and [dvalue], in [nil::C = v] and
    for targets that are none. *)
From Coq Require Import ZArith List Bool.
From Verif Require Import Base ModelValue ModelInst ModelCodegen ModelVM.
Import ListNotations.
Open Scope Z_scope.

Section Eval.
Context {W : Type}.
Variable P : prims W.

(** A name in a program refers to one variable: [s_rho]. *)
Record sst : Type := mksst { s_rho : Z -> value; s_w : W }.

Definition set_var (x : Z) (v : value) (s : sst) : sst :=
  mksst (fun y => if y =? x then v else s_rho s y) (s_w s).
Definition set_w (w : W) (s : sst) : sst := mksst (s_rho s) w.

(** [Ret d v s]: a return; [d] says that it comes out of an inner begin. *)
Inductive outcome : Type :=
| Val (v : value) (s : sst)
| Brk (v : value) (s : sst)
| Nxt (v : value) (s : sst)
| Ret (d : bool) (v : value) (s : sst)
| Exn (v : value) (s : sst)
| Fuel
| Out.

(** Continue with a value. *)
Definition bindv (o : outcome) (f : value -> sst -> outcome) : outcome :=
  match o with Val v s => f v s | o => o end.

(** The answer of a primitive as an outcome. *)
Definition prim (r : pres W value) (s : sst) : outcome :=
  match r with
  | POk v w => Val v (set_w w s)
  | PRaise e w => Exn e (set_w w s)
  end.

(** A binary operator on two values.  Comparison operators answer true or
    false. *)
Definition apply_bin (op : binop) (l r : value) (s : sst) : outcome :=
  let cmp c := match p_cmp P c l r (s_w s) with
               | POk b w => Val (vbool b) (set_w w s)
               | PRaise e w => Exn e (set_w w s)
               end in
  match op with
  | BEq => cmp cEQ | BNe => cmp cNE
  | BGt => cmp cGT | BGe => cmp cGE | BLt => cmp cLT | BLe => cmp cLE
  | _ => prim (p_bin P op l r (s_w s)) s
  end.

Definition evaluator := node -> sst -> outcome.

Definition is_nil (v : value) : bool :=
  match v with Imm x => x =? NIL_VALUE | Heap _ => false end.

(** Sub-trees from left to right: the list of their values, or the first
    outcome that is not a value *)
Inductive lres : Type :=
| LVals (vs : list value) (s : sst)
| LStop (o : outcome).

Definition evals (ev : evaluator) : list node -> list value -> sst -> lres :=
  fix go (l : list node) (acc : list value) (s : sst) {struct l} :=
    match l with
    | [] => LVals acc s
    | x :: r => match ev x s with
                | Val v s => go r (acc ++ [v]) s
                | o => LStop o
                end
    end.

Definition bindl (r : lres) (f : list value -> sst -> outcome) : outcome :=
  match r with LVals vs s => f vs s | LStop o => o end.

(** A sequence has the value of its last statement. *)
Definition eval_seq (ev : evaluator) : list node -> sst -> outcome :=
  fix go (l : list node) (s : sst) {struct l} :=
    match l with
    | [] => Val nil s
    | x :: r => match r with
                | [] => ev x s
                | _ => bindv (ev x s) (fun _ s => go r s)
                end
    end.

(** [while] (op = true) or [until] (op = false).  [break] gives the value of
    the loop, [next] goes to the next test of the condition. *)
Definition eval_loop (c body : sst -> outcome) (op : bool)
  : nat -> sst -> outcome :=
  fix loop (k : nat) (s : sst) {struct k} :=
    match k with
    | O => Fuel
    | S k =>
        match c s with
        | Val v s =>
            if Bool.eqb (to_bool v) op then
              match body s with
              | Val _ s | Nxt _ s => loop k s
              | Brk v s => Val v s
              | o => o
              end
            else Val nil s
        | Nxt _ s => loop k s
        | Brk v s => Val v s
        | o => o
        end
    end.

(** The value of a variable-like target and the assignment to it *)
Definition assign_var (lhs : node) (v : value) (s : sst) : sst :=
  match lhs with
  | NLVar x | NIdent x => set_var x v s
  | NIVar x => set_w (p_seti P x v (s_w s)) s
  | NGVar x => set_w (p_setg P x v (s_w s)) s
  | _ => s
  end.

(** [a, b, c = v1, v2, v3]: from left to right, missing values are nil *)
Fixpoint assign_all (lhs : list node) (vs : list value) (s : sst) : sst :=
  match lhs with
  | [] => s
  | x :: r => assign_all r (tl vs) (assign_var x (hd nil vs) s)
  end.

(** The labels of one branch: [Some] when one matches. *)
Definition eval_labels (ev : evaluator) (v : value)
  (yes no : sst -> outcome) : list node -> sst -> outcome :=
  fix go (l : list node) (s : sst) {struct l} :=
    match l with
    | [] => no s
    | x :: r =>
        bindv (ev x s) (fun lab s =>
        bindv (prim (p_bin P BTEq lab v (s_w s)) s) (fun b s =>
          if to_bool b then yes s else go r s))
    end.

Definition eval_branches (ev : evaluator) (v : value) (els : sst -> outcome)
  : list (list node * node) -> sst -> outcome :=
  fix go (l : list (list node * node)) (s : sst) {struct l} :=
    match l with
    | [] => els s
    | (labs, body) :: r => eval_labels ev v (ev body) (go r) labs s
    end.

(** A case without value: the first branch one of whose conditions holds. *)
Definition eval_any (ev : evaluator) (yes no : sst -> outcome)
  : list node -> sst -> outcome :=
  fix go (l : list node) (s : sst) {struct l} :=
    match l with
    | [] => no s
    | x :: r => bindv (ev x s) (fun v s => if to_bool v then yes s else go r s)
    end.

Definition eval_conds (ev : evaluator) (els : sst -> outcome)
  : list (list node * node) -> sst -> outcome :=
  fix go (l : list (list node * node)) (s : sst) {struct l} :=
    match l with
    | [] => els s
    | (labs, body) :: r => eval_any ev (ev body) (go r) labs s
    end.

(** Literals and their values *)
Definition literal (n : node) : option value :=
  match n with
  | NInt i => Some (integer i) | NBig i => Some (bignum i)
  | NFloat f => Some (float f) | NSym x => Some (symbol x)
  | NBool b => Some (vbool b) | NNil => Some nil
  | _ => None
  end.

(** [l] denotes the very value [v]: the same integer for an integer literal
    when [ints], else equality as a hash key. *)
Definition same_value (ints : bool) (l : node) (v : value) (w : W) : bool :=
  match ints, l with
  | true, NInt i => match as_fixnum v with Some k => k =? i | None => false end
  | _, _ => match literal l with Some x => p_keyeq P x v w | None => false end
  end.

Definition is_lit (n : node) : bool :=
  match literal n with Some _ => true | None => false end.
Definition is_int (n : node) : bool :=
  match n with NInt _ => true | _ => false end.

Definition all_labels (f : node -> bool) (whens : list (list node * node)) : bool :=
  forallb (fun b => forallb f (fst b)) whens.

(** For a case all of whose labels are literals: does the answer of [===] agree
    with identity for the value [v], for every label, and does at most one
    branch have [v] as a label? *)
Definition plain_case (whens : list (list node * node)) (v : value) (w : W) : bool :=
  if all_labels is_lit whens then
    let ints := all_labels is_int whens in
    all_labels
      (fun l => match literal l with
                | Some x => match p_bin P BTEq x v w with
                            | POk b _ => Bool.eqb (to_bool b) (same_value ints l v w)
                            | PRaise _ _ => false
                            end
                | None => true
                end) whens
    && (length (filter (fun b => existsb (fun l => same_value ints l v w) (fst b)) whens)
        <=? 1)%nat
  else true.

(** [case]: the first branch one of whose labels matches by [===], labels
    evaluated in order and only as far as needed.  No claim ([Out]) is made
    when all labels are literals, and for some label === disagrees with
    identity (1 === 1.0), or two branches have the same label. *)
Definition eval_case (ev : evaluator) (whens : list (list node * node))
  (els : node) (v : value) (s : sst) : outcome :=
  if plain_case whens v (s_w s)
  then eval_branches ev v (ev els) whens s
  else Out.

(** The rescue clauses for an exception [e]: the first clause whose list matches;
    without list it is StandardError ([std]).  The whole list of a clause is
    evaluated before it is compared.  [CNone]: no clause matches. *)
Inductive cres : Type :=
| CNone (s : sst)
| CDone (o : outcome).

Definition clause_list (ev : evaluator) (std : Z) (exs : list node) (s : sst) : lres :=
  match exs with
  | [] => match p_top P std (s_w s) with
          | POk v w => LVals [v] (set_w w s)
          | PRaise e w => LStop (Exn e (set_w w s))
          end
  | _ => evals ev exs [] s
  end.

Definition eval_clauses (ev : evaluator) (std : Z) (e : value)
  : list (list node * option node * node) -> sst -> cres :=
  fix go (l : list (list node * option node * node)) (s : sst) {struct l} :=
    match l with
    | [] => CNone s
    | (exs, asg, rbody) :: r =>
        match clause_list ev std exs s with
        | LStop o => CDone o
        | LVals vs s =>
            if p_rescue P e vs (s_w s)
            then CDone (ev rbody (match asg with
                                  | Some a => assign_var a e s
                                  | None => s end))
            else go r s
        end
    end.

(** Run the ensure clause after the outcome [o]: it runs whatever the outcome
    is, its own value is dropped, and if it does not end normally its outcome
    counts. *)
Definition after (ev : evaluator) (ens : node) (o : outcome) : outcome :=
  match o with
  | Val v s => bindv (ev ens s) (fun _ s => Val v s)
  | Brk v s => bindv (ev ens s) (fun _ s => Brk v s)
  | Nxt v s => bindv (ev ens s) (fun _ s => Nxt v s)
  | Ret d v s => bindv (ev ens s) (fun _ s => Ret d v s)
  | Exn v s => bindv (ev ens s) (fun _ s => Exn v s)
  | Fuel => Fuel
  | Out => Out
  end.

(** [covered]: the way of leaving is one about which a claim is made. *)
Definition finish (ev : evaluator) (ens : option node) (covered : bool) (o : outcome)
  : outcome :=
  match ens, o with
  | None, _ => o
  | Some _, Fuel => Fuel
  | Some e, _ => if covered then after ev e o else Out
  end.

Definition is_val (o : outcome) : bool := match o with Val _ _ => true | _ => false end.
Definition inner_ret (o : outcome) : outcome :=
  match o with Ret _ v s => Ret true v s | o => o end.

(** [begin .. rescue .. else .. ensure .. end].  With an ensure clause no claim
    ([Out]) is made unless the body ends with a value and so does the else
    clause; or with a [return] that stands directly in it, not inside another
    begin; or with an exception, there is a rescue clause, and either no clause
    matches or the clause that matches ends with a value. *)
Definition eval_begin (ev : evaluator) (std : Z) (body : node)
  (rescues : list (list node * option node * node)) (els ens : option node)
  (s : sst) : outcome :=
  match ev body s with
  | Val v s =>
      let o := match els with Some e => ev e s | None => Val v s end in
      finish ev ens (is_val o) o
  | Exn e s =>
      match rescues with
      | [] => finish ev ens false (Exn e s)
      | _ => match eval_clauses ev std e rescues s with
             | CNone s => finish ev ens true (Exn e s)
             | CDone o => finish ev ens (is_val o) o
             end
      end
  | Ret d v s => finish ev ens (negb d) (Ret true v s)
  | o => finish ev ens false o
  end.

(** Assignment.  The value of an assignment is the value assigned. *)
Definition is_var (n : node) : bool :=
  match n with NLVar _ | NIVar _ | NGVar _ => true | _ => false end.

(** The value [v] after storing it *)
Definition after_store (r : pres W unit) (v : value) (s : sst) : outcome :=
  match r with
  | POk _ w => Val v (set_w w s)
  | PRaise e w => Exn e (set_w w s)
  end.

Definition eval_assign (ev : evaluator) (setter : Z -> Z) (lhs : node)
  (rhs : sst -> outcome) (s : sst) : outcome :=
  match lhs with
  | NLVar _ | NIdent _ | NIVar _ | NGVar _ =>
      bindv (rhs s) (fun v s => Val v (assign_var lhs v s))
  | NOp (bConst x _) _ =>
      bindv (rhs s) (fun v s => after_store (p_store P (bConst x 0) [] v (s_w s)) v s)
  | NOp (bCvar x) _ =>
      bindv (rhs s) (fun v s => after_store (p_store P (bCvar x) [] v (s_w s)) v s)
  | NOp (bScope x) (p :: _) =>
      bindv (ev p s) (fun pv s =>
      bindv (rhs s) (fun v s =>
        if is_nil pv then Out
        else after_store (p_store P (bScope x) [pv] v (s_w s)) v s))
  | NIndex b i =>
      bindv (ev b s) (fun bv s =>
      bindv (ev i s) (fun iv s =>
      bindv (rhs s) (fun v s =>
        match p_setindex P bv iv v (s_w s) with
        | POk _ w => Val v (set_w w s)
        | PRaise e w => Exn e (set_w w s)
        end)))
  | NSend r x _ _ =>
      bindv (ev r s) (fun rv s =>
      bindv (rhs s) (fun v s =>
      bindv (prim (p_send P (setter x) rv [v] (s_w s)) s) (fun _ s => Val v s)))
  | _ => Out
  end.

(** The operators of [a op= e]: [&&] and [||] evaluate [e] only if needed. *)
Definition eval_binop (op : binop) (l r : sst -> outcome) (s : sst) : outcome :=
  bindv (l s) (fun v s =>
    match op with
    | BLAnd => if to_bool v then r s else Val v s
    | BLOr => if to_bool v then Val v s else r s
    | _ => bindv (r s) (fun w s => apply_bin op v w s)
    end).

(** [x op= e] for a variable, an element or an attribute: the receiver and the
    index are evaluated once; [||=] and [&&=] assign only when [e] is
    evaluated. *)
Definition op_assign (op : binop) (old : value) (rhs : sst -> outcome)
  (store : value -> sst -> outcome) (s : sst) : outcome :=
  match op with
  | BLAnd => if to_bool old then bindv (rhs s) store else Val old s
  | BLOr => if to_bool old then Val old s else bindv (rhs s) store
  | _ => bindv (rhs s) (fun v s => bindv (apply_bin op old v s) store)
  end.

Definition eval_assign_op (ev : evaluator) (setter : Z -> Z) (op : binop)
  (lhs rhs : node) (s : sst) : outcome :=
  match lhs with
  | NIndex b i =>
      bindv (ev b s) (fun bv s =>
      bindv (ev i s) (fun iv s =>
      bindv (prim (p_index P bv iv (s_w s)) s) (fun old s =>
        op_assign op old (ev rhs)
          (fun v s => match p_setindex P bv iv v (s_w s) with
                      | POk _ w => Val v (set_w w s)
                      | PRaise e w => Exn e (set_w w s)
                      end) s)))
  | NSend r x _ _ =>
      bindv (ev r s) (fun rv s =>
      bindv (prim (p_send P x rv [] (s_w s)) s) (fun old s =>
        op_assign op old (ev rhs)
          (fun v s => bindv (prim (p_send P (setter x) rv [v] (s_w s)) s)
                            (fun _ s => Val v s)) s))
  | _ =>
      bindv (ev lhs s) (fun old s =>
        op_assign op old (ev rhs) (fun v s => Val v (assign_var lhs v s)) s)
  end.

(** [a, b = e] takes the elements of an array (or the value itself);
    [a, b = e1, e2] evaluates all right-hand sides first.  The value of the
    second form is not specified here: see [ok]. *)
Definition eval_massign (ev : evaluator) (lhs rhs : list node) (s : sst) : outcome :=
  match rhs with
  | [r] =>
      bindv (ev r s) (fun v s =>
        Val v (assign_all lhs (match p_elems P v (s_w s) with
                               | Some l => l
                               | None => [v] end) s))
  | _ => bindl (evals ev rhs [] s) (fun vs s => Val nil (assign_all lhs vs s))
  end.

(** [defined? e].  [DYes]: everything [e] mentions is there; [DNo]: something is
    not. *)
Inductive dres : Type :=
| DYes (s : sst)
| DNo (s : sst)
| DStop (o : outcome).

Definition dand (r : dres) (k : sst -> dres) : dres :=
  match r with DYes s => k s | r => r end.
Definition dask (b : bool) (s : sst) : dres := if b then DYes s else DNo s.

(** The receiver of a call has to be evaluated; no claim is made ([Out]) when that
    gives no value. *)
Definition dvalue (o : outcome) (k : value -> sst -> dres) : dres :=
  match o with
  | Val v s => k v s
  | Fuel => DStop Fuel
  | _ => DStop Out
  end.

(** The parts of [e] from left to right, then the receiver and whether it has
    the method.  An assignment is not looked into, nor are other expressions. *)
Definition defined_in (ev : evaluator) (d : dnames) : node -> sst -> dres :=
  fix go (n : node) (s : sst) {struct n} : dres :=
    let all := fix all (m : nat) (l : list node) (s : sst) {struct l} : dres :=
      match m, l with
      | S m, x :: r => dand (go x s) (all m r)
      | _, _ => DYes s
      end in
    let has r (x : Z) s := dvalue (ev r s) (fun v s => dask (p_defd P (qMethod v x) (s_w s)) s) in
    match n with
    | NLVar x => dask (negb (is_uninit (s_rho s x))) s
    | NGVar x => dask (p_defd P (qGvar x) (s_w s)) s
    | NIVar x => dask (p_defd P (qIvar x) (s_w s)) s
    | NIdent x => dask (p_defd P (qMethod (p_self P) x) (s_w s)) s
    | NOp (bConst x _) _ => dask (p_defd P (qConst x) (s_w s)) s
    | NOp (bTop x) _ =>
        dvalue (prim (p_op P (bConst (dn_object d) 0) [] (s_w s)) s) (fun v s =>
          dask (p_defd P (qScope v x) (s_w s)) s)
    | NOp (bScope x) (p :: _) =>
        dand (go p s) (fun s =>
        dvalue (ev p s) (fun v s => dask (p_defd P (qScope v x) (s_w s)) s))
    | NArray l => all (length l) l s
    | NBin BLAnd _ _ | NBin BLOr _ _ => DYes s
    | NBin op l r => dand (go l s) (fun s => dand (go r s) (has l (dn_bin d op)))
    | NUn op e => dand (go e s) (has e (dn_un d op))
    | NIndex b i => dand (go b s) (fun s => dand (go i s) (has b (dn_index d)))
    | NSend r x args _ =>
        dand (go r s) (fun s => dand (all (length args) args s) (has r x))
    | NOp (bCall x m _ _ _ _ _) (r :: l) =>
        dand (go r s) (fun s => dand (all (Z.to_nat m) l s) (has r x))
    | _ => DYes s
    end.

(** what an expression is called *)
Definition answer (n : node) : dkind :=
  match n with
  | NNil => dNil | NSelf => dSelf | NBool true => dTrue | NBool false => dFalse
  | NLVar _ => dLocal | NGVar _ => dGlobal | NIVar _ => dIvar
  | NAssign l _ => match l with NIndex _ _ => dMethod | _ => dAssign end
  | NMAssign l _ => match l with [NIndex _ _] => dMethod | _ => dAssign end
  | NAssignOp _ _ _ => dAssign
  | NIdent _ | NSend _ _ _ _ | NIndex _ _ | NUn _ _ => dMethod
  | NBin op _ _ => match op with BLAnd | BLOr => dExpr | _ => dMethod end
  | NOp k _ =>
      match k with
      | bConst _ _ | bTop _ | bScope _ => dConst
      | bCvar _ => dCvar
      | bCall _ _ _ _ _ _ _ => dMethod
      | _ => dExpr
      end
  | _ => dExpr
  end.

Definition eval_defined (ev : evaluator) (d : dnames) (e : node) (s : sst) : outcome :=
  match defined_in ev d e s with
  | DYes s => let (v, w) := p_dup P (dn_str d (answer e)) (s_w s) in Val v (set_w w s)
  | DNo s => Val nil s
  | DStop o => o
  end.

(** The meaning of a tree. *)
Fixpoint eval (setter : Z -> Z) (std : Z) (fuel : nat) (n : node) {struct n}
  : sst -> outcome :=
  let ev := eval setter std fuel in
  fun s =>
  match n with
  | NNil => Val nil s
  | NBool b => Val (vbool b) s
  | NInt i => Val (integer i) s
  | NBig i => Val (bignum i) s
  | NFloat f => Val (float f) s
  | NSym x => Val (symbol x) s
  | NSelf => Val (p_self P) s
  | NLVar x => Val (s_rho s x) s
  | NIVar x => Val (p_geti P x (s_w s)) s
  | NGVar x => Val (p_getg P x (s_w s)) s
  | NIdent x => prim (p_send P x (p_self P) [] (s_w s)) s
  | NSend r x args safe =>
      bindv (ev r s) (fun rv s =>
        if safe && is_nil rv then Val nil s
        else bindl (evals ev args [] s) (fun vs s =>
               prim (p_send P x rv vs (s_w s)) s))
  | NIndex b i =>
      bindv (ev b s) (fun bv s =>
      bindv (ev i s) (fun iv s => prim (p_index P bv iv (s_w s)) s))
  | NArray l =>
      bindl (evals ev l [] s) (fun vs s =>
        let (v, w) := p_array P vs (s_w s) in Val v (set_w w s))
  | NOp k l =>
      bindl (evals ev l [] s) (fun vs s =>
        prim (match k with bTop x => p_top P x (s_w s) | _ => p_op P k vs (s_w s) end) s)
  | NLit v => let (v, w) := p_dup P v (s_w s) in Val v (set_w w s)
  | NRange a b ex =>
      bindv (ev a s) (fun av s =>
      bindv (ev b s) (fun bv s => prim (p_range P av bv ex (s_w s)) s))
  | NBin op l r => eval_binop op (ev l) (ev r) s
  | NUn op e =>
      bindv (ev e s) (fun v s =>
        match op with
        | UNot => Val (vbool (negb (to_bool v))) s
        | _ => prim (p_un P op v (s_w s)) s
        end)
  | NAssign l r => eval_assign ev setter l (ev r) s
  | NAssignOp op l r => eval_assign_op ev setter op l r s
  | NMAssign l r => eval_massign ev l r s
  | NSeq l => eval_seq ev l s
  | NIf c t e => bindv (ev c s) (fun v s => if to_bool v then ev t s else ev e s)
  | NWhile c b op => eval_loop (ev c) (ev b) op fuel s
  | NBreak e => bindv (ev e s) Brk
  | NNext e => bindv (ev e s) Nxt
  | NReturn e => bindv (ev e s) (Ret false)
  | NCase (Some c) whens els => bindv (ev c s) (eval_case ev whens els)
  | NCase None whens els => eval_conds ev (ev els) whens s
  | NBegin body rescues els ens => eval_begin ev std body rescues els ens s
  | NDefined e d => eval_defined ev d e s
  end.
End Eval.

(** * The part of the language the compiler theorems are about *)

(** Where a tree stands: directly in a loop ([Lfree]), in a loop but inside an
    operand of an expression that has already computed something ([Lpend]),
    or in no loop of this sequence ([Lout]); [f_clean]: nothing has been
    computed that is still to be used. *)
Inductive lkind : Set := Lfree | Lpend | Lout.
Record fctx : Set := mkfctx { f_loop : lkind; f_clean : bool }.

Definition pend (c : fctx) : fctx :=
  mkfctx (match f_loop c with Lfree => Lpend | k => k end) false.

Definition target_id (n : node) : option Z :=
  match n with NLVar x | NIdent x => Some x | _ => None end.

Fixpoint distinct (l : list Z) : bool :=
  match l with
  | [] => true
  | x :: r => negb (existsb (Z.eqb x) r) && distinct r
  end.

(** The first element in context [c], the others with a value pending. *)
Definition ok_args (f : fctx -> node -> bool) (c : fctx) (l : list node) : bool :=
  match l with
  | [] => true
  | x :: r => f c x && forallb (f (pend c)) r
  end.

Definition ok_seq (f : bool -> node -> bool) (u : bool) : list node -> bool :=
  fix go (l : list node) : bool :=
    match l with
    | [] => true
    | x :: r => match r with [] => f u x | _ => f false x && go r end
    end.

(** right-hand sides [i], [i+1], ... of a multiple assignment to [ll] targets *)
Definition ok_rhs (f : bool -> node -> bool) (ll : nat) : nat -> list node -> bool :=
  fix go (i : nat) (l : list node) : bool :=
    match l with
    | [] => true
    | x :: r => f (i <? ll)%nat x && go (S i) r
    end.

(** Trees that have the same value whenever they are evaluated, and trees that only read *)
Definition constant (n : node) : bool :=
  match n with NNil | NBool _ | NInt _ | NBig _ | NFloat _ | NSym _ | NSelf => true | _ => false end.
Definition still (n : node) : bool :=
  constant n || match n with NLVar _ | NIVar _ | NGVar _ => true | _ => false end.

(** The part of [defined? e] that is covered, [f] saying what is covered elsewhere: not [&&]
    and [||], and not assignments to local variables *)
Definition ok_defined (f : node -> bool) : node -> bool :=
  fix go (n : node) {struct n} : bool :=
    let target x := match target_id x with Some _ => false | None => true end in
    match n with
    | NOp (bScope _) (p :: _) => go p && f p
    | NOp (bCall _ _ _ _ _ _ _) (r :: l) => go r && forallb go l && f r
    | NArray l => forallb go l
    | NAssign l _ | NAssignOp _ l _ => target l
    | NMAssign l _ => forallb target l
    | NBin BLAnd _ _ | NBin BLOr _ _ => false
    | NBin _ l r => go l && go r && f l
    | NUn _ e => go e && f e
    | NIndex b i => go b && go i && f b
    | NSend r _ args _ => go r && forallb go args && f r
    | _ => true
    end.

(** [ok blk c u n]: the theorems cover [n] in the context [c] with its value
    used or not ([u]) in a method ([blk = false]) or a block.  Left out are:
    a literal that needs an object (Bignum, string, empty array or hash) as a statement; a
    range whose start and end both do something ([still]); [&.] with arguments or as a statement; unary plus; the value of an
    attribute assignment; [op=] on elements and attributes, [&&=] on instance
    and global variables; multiple assignment with a target that is no local
    variable or a repeated one, and its value when there are several right-hand
    sides; [break] and [next] out of a loop from inside an operand, [next] in
    a value position of a loop; a branch of a case without value that has
    several conditions; [rescue] inside an operand; what [ok_defined] leaves out. *)
Fixpoint ok (blk : bool) (c : fctx) (u : bool) (n : node) {struct n} : bool :=
  match n with
  | NNil | NBool _ | NInt _ | NFloat _ | NSym _ | NSelf
  | NLVar _ | NGVar _ | NIVar _ | NIdent _ => true
  | NBig _ => u
  | NSend r _ args safe =>
      (negb safe || (u && match args with [] => true | _ => false end))
      && ok blk c true r && forallb (ok blk (pend c) true) args
  | NIndex b i => ok blk c true b && ok blk (pend c) true i
  | NArray l => (u || (0 <? length l)%nat) && ok_args (fun c => ok blk c true) c l
  | NOp k l =>
      (u || (0 <? length l)%nat || match k with bHash => false | _ => true end)
      && ok_args (fun c => ok blk c true) c l
  | NLit _ => u
  | NRange a b _ =>
      (constant a || constant b || (still a && still b))
      && ok blk (pend c) true a && ok blk (pend c) true b
  | NBin BLAnd l r | NBin BLOr l r => ok blk c true l && ok blk c u r
  | NBin _ l r => ok blk c true l && ok blk (pend c) true r
  | NUn UPos _ => false
  | NUn _ e => ok blk c true e
  | NAssign lhs r =>
      match lhs with
      | NLVar _ | NIdent _ | NIVar _ | NGVar _ => ok blk c true r
      | NOp (bConst _ _) _ | NOp (bCvar _) _ => ok blk c true r
      | NOp (bScope _) (p :: _) =>
          (constant p || constant r) && ok blk (pend c) true p && ok blk c true r
      | NIndex b i => ok blk c true b && ok blk (pend c) true i
                      && ok blk (pend c) true r
      | NSend o _ _ _ => negb u && ok blk c true o && ok blk (pend c) true r
      | _ => false
      end
  | NAssignOp op lhs r =>
      match op, lhs with
      | BLAnd, NLVar _ => ok blk c true r
      | BLAnd, _ => false
      | BLOr, (NLVar _ | NIVar _ | NGVar _) => ok blk c true r
      | _, (NLVar _ | NIVar _ | NGVar _) => ok blk (pend c) true r
      | _, _ => false
      end
  | NMAssign lhs rhs =>
      (0 <? length lhs)%nat
      && forallb (fun x => match target_id x with Some _ => true | None => false end) lhs
      && distinct (map (fun x => match target_id x with Some i => i | None => 0 end) lhs)
      && match rhs with
         | [] => negb u
         | x :: r => match r with
                     | [] => ok blk c true x
                     | _ => negb u && ok blk c (0 <? length lhs)%nat x
                            && ok_rhs (ok blk (pend c)) (length lhs) 1 r
                     end
         end
  | NSeq l => ok_seq (ok blk c) u l
  | NIf x t e => ok blk c true x && ok blk c u t && ok blk c u e
  | NWhile x b _ =>
      let c := mkfctx Lfree (f_clean c) in ok blk c true x && ok blk c false b
  | NBreak e =>
      match f_loop c with
      | Lfree => ok blk c true e
      | Lpend => false
      | Lout => blk && ok blk c true e
      end
  | NNext e =>
      match f_loop c with
      | Lfree => negb u && ok blk c false e
      | Lpend => false
      | Lout => blk && ok blk c true e
      end
  | NReturn e => ok blk c true e
  | NCase (Some x) whens els =>
      ok blk c true x
      && forallb (fun b => forallb (ok blk (pend c) true) (fst b) && ok blk c u (snd b))
                 whens
      && ok blk c u els
  | NCase None whens els =>
      forallb (fun b => (length (fst b) =? 1)%nat
                        && forallb (ok blk c true) (fst b) && ok blk c u (snd b))
              whens
      && ok blk c u els
  | NBegin body rescues els ens =>
      match rescues with [] => true | _ => f_clean c end
      && ok blk c u body
      && forallb (fun b => forallb (ok blk (pend c) true) (fst (fst b))
                           && match snd (fst b) with
                              | Some (NLVar _ | NIdent _ | NIVar _ | NGVar _) | None => true
                              | _ => false
                              end
                           && ok blk c u (snd b)) rescues
      && match els with Some e => ok blk c u e | None => true end
      && match ens with Some e => ok blk (pend c) false e | None => true end
  | NDefined e _ => ok_defined (ok blk c true) e
  end.

(** [sized]: numbers in a tree are in the range of the types that hold them in
    the source: names 32 bits, integers 64 bits, floats 64 bits, a call has
    less than 65536 arguments, a literal array less than 2^32 elements.  A local variable [defined?] asks
    about is in scope, else the parser would not have taken it for one. *)
Definition id32 (x : Z) : bool := (0 <=? x) && (x <? 2 ^ 32).
Definition len_lt {A} (l : list A) (n : Z) : bool := Z.of_nat (length l) <? n.

Definition all_binops : list binop :=
  [BAdd; BSub; BMul; BDiv; BExp; BRem; BShr; BShl; BBitOr; BBitAnd; BBitXor; BEq; BNe; BTEq; BGe;
   BGt; BLe; BLt; BCmp; BLAnd; BLOr].
Definition names32 (d : dnames) : bool :=
  forallb (fun o => id32 (dn_bin d o)) all_binops
  && forallb (fun o => id32 (dn_un d o)) [UNot; UNeg; UPos; UBitNot]
  && id32 (dn_index d) && id32 (dn_object d).

(** the local variables whose slot [defined? n] looks at *)
Definition in_scope (cx : sctx) : node -> bool :=
  fix go (n : node) {struct n} : bool :=
    match n with
    | NLVar x => match get_local_var cx x with Some _ => true | None => false end
    | NOp (bScope _) (p :: _) => go p
    | NOp (bCall _ _ _ _ _ _ _) l | NArray l => forallb go l
    | NBin _ l r | NIndex l r => go l && go r
    | NUn _ e => go e
    | NSend r _ args _ => go r && forallb go args
    | _ => true
    end.

Fixpoint sized (cx : sctx) (n : node) {struct n} : bool :=
  let sz := sized cx in
  match n with
  | NNil | NBool _ | NBig _ | NSelf | NLVar _ => true
  | NInt i => in_i64 i
  | NFloat f => in_u64 f
  | NSym x | NGVar x | NIVar x | NIdent x => id32 x
  | NSend r x args _ =>
      id32 x && id32 (sc_setter cx x) && len_lt args (2 ^ 16) && sz r && forallb sz args
  | NIndex a b | NBin _ a b | NAssign a b | NAssignOp _ a b => sz a && sz b
  | NWhile a b _ => sz a && sz b
  | NArray l => len_lt l (2 ^ 32) && forallb sz l
  | NOp k l =>
      len_lt l (2 ^ 32) && forallb sz l
      && match k with
         | bHash => Z.even (Z.of_nat (length l))
         | bYield | bConcat => true
         | bToS | bRegexp | bSplat => (length l =? 1)%nat
         | bScope x => id32 x && (length l =? 1)%nat
         | bConst x y => id32 x && id32 y && (length l =? 0)%nat
         | bTop x | bCvar x | bSvar x => id32 x && (length l =? 0)%nat
         | bCall x n kw blk _ hspl _ =>
             id32 x && (n <? 2 ^ 16) && (0 <=? n) &&
             (Z.of_nat (length l) =? 1 + n + (if kw then 1 else 0) + (if hspl then 1 else 0)
                                     + (if blk then 1 else 0))
         | bSuper => (1 <=? length l)%nat && (Z.of_nat (length l) <=? 2 ^ 16)
         end
  | NLit _ => true
  | NRange a b _ => sz a && sz b
  | NUn _ e | NBreak e | NNext e | NReturn e => sz e
  | NMAssign a b =>
      len_lt a (2 ^ 32) && len_lt b (2 ^ 32) && forallb sz a && forallb sz b
  | NSeq l => forallb sz l
  | NIf a b c => sz a && sz b && sz c
  | NCase c whens els =>
      match c with Some c => sz c | None => true end
      && forallb (fun b => forallb sz (fst b) && sz (snd b)) whens && sz els
  | NBegin b rs els ens =>
      sz b
      && forallb (fun b => len_lt (fst (fst b)) (2 ^ 32) && forallb sz (fst (fst b))
                           && match snd (fst b) with Some a => sz a | None => true end
                           && sz (snd b)) rs
      && match els with Some e => sz e | None => true end
      && match ens with Some e => sz e | None => true end
  | NDefined e d => sz e && names32 d && in_scope cx e
  end.

(** What the theorems need to know about the primitives: the forms of an
    operation with an immediate operand answer as the general form does;
    storing a true value that is already there changes nothing; a copy of
    something that is no object but a number, a symbol or the like is that thing; comparing a
    literal with [===] has no side effect. *)
Record prims_ok {W : Type} (P : prims W) : Prop := {
  ok_addi : forall v i w, in_i32 i = true -> p_addi P v i w = p_bin P BAdd v (integer i) w;
  ok_subi : forall v i w, in_i32 i = true -> p_subi P v i w = p_bin P BSub v (integer i) w;
  ok_cmpi : forall c v i w, in_i32 i = true -> p_cmpi P c v i w = p_cmp P c v (integer i) w;
  ok_indexi : forall v i w, id32 i = true -> p_indexi P v i w = p_index P v (integer i) w;
  ok_setindexi : forall v i x w, id32 i = true ->
    p_setindexi P v i x w = p_setindex P v (integer i) x w;
  ok_seti : forall x w, to_bool (p_geti P x w) = true ->
    p_seti P x (p_geti P x w) w = w;
  ok_setg : forall x w, to_bool (p_getg P x w) = true ->
    p_setg P x (p_getg P x w) w = w;
  ok_teq : forall n l v w b w', literal n = Some l ->
    p_bin P BTEq l v w = POk b w' -> w' = w;
  ok_dup : forall v w, (forall i, v <> Heap (HObj i)) -> p_dup P v w = (v, w);
  ok_nenil : forall v w, p_cmp P cNE v nil w = POk (negb (is_nil v)) w
}.

(** * Running the interpreter *)

(** At most [n] instructions from the state [st] *)
Inductive vres (W : Type) : Type :=
| VDone (h : halt) (env : list (list value)) (w : W)
| VRunning (st : vst W)
| VStuck.
Arguments VDone {W}. Arguments VRunning {W}. Arguments VStuck {W}.

Fixpoint vrun {W : Type} (P : prims W) (G : prog) (n : nat) (st : vst W) : vres W :=
  match n with
  | O => VRunning st
  | S n => match vstep P G st with
           | SNext st => vrun P G n st
           | SHalt h env w => VDone h env w
           | _ => VStuck
           end
  end.

(** How a method ([blk = false]) or a block ends whose body has the outcome [o],
    and the state it leaves *)
Definition ending {W : Type} (blk : bool) (o : outcome (W:=W)) : option (halt * sst (W:=W)) :=
  match o with
  | Val v s => Some (HRet v, s)
  | Nxt v s => Some (HRet v, s)
  | Ret _ v s => Some (if blk then HMRet v else HRet v, s)
  | Brk v s => Some (HBreak v, s)
  | Exn e s => Some (HExn e, s)
  | Fuel | Out => None
  end.

(** The slots of a frame hold the values of the variables in scope. *)
Definition holds {W : Type} (cx : sctx) (s : sst (W:=W)) (env : list (list value)) : Prop :=
  forall x o i, get_local_var cx x = Some (o, i) -> env_get env o i = Some (s_rho s x).

(** Different names have different slots, and slots can be encoded. *)
Definition slots_ok (cx : sctx) : Prop :=
  (forall x y o i, get_local_var cx x = Some (o, i) -> get_local_var cx y = Some (o, i) -> x = y)
  /\ (forall x o i, get_local_var cx x = Some (o, i) -> 0 <= o < 2 ^ 32 /\ 0 <= i < 2 ^ 32).

(** [G] is the program of a body generated as [st], with the tables of all
    code: constants and dispatch tables may have been added since. *)
Definition extends {A} (a b : list A) : Prop := exists c, b = a ++ c.

Record loaded (G : prog) (st : cg) : Prop := {
  ld_code : pr_code G = code st;
  ld_ex : pr_ex G = extab st;
  ld_consts : extends (consts st) (pr_consts G);
  ld_map : extends (g_map st) (pr_map G);
  ld_map2 : extends (g_map2 st) (pr_map2 G)
}.

(** The sizes the encoding allows *)
Record fitting (G : prog) (st : cg) : Prop := {
  ft_code : Z.of_nat (length (pr_code G)) < 2 ^ 31;
  ft_map : Z.of_nat (length (pr_map G)) <= 2 ^ 32;
  ft_map2 : Z.of_nat (length (pr_map2 G)) <= 2 ^ 32;
  ft_caches : caches st <= 2 ^ 32
}.

(** The code generated from [st] to [st'] is part of [G], with the exception
    entries it has made and no others for its instructions. *)
Record placed (G : prog) (st st' : cg) : Prop := {
  pl_code : extends (code st') (pr_code G);
  pl_ex : forall pc, cur st < pc <= cur st' ->
    find_ex (pr_ex G) pc = find_ex (skipn (length (extab st)) (extab st')) pc;
  pl_consts : extends (consts st') (pr_consts G);
  pl_map : extends (g_map st') (pr_map G);
  pl_map2 : extends (g_map2 st') (pr_map2 G);
  pl_caches : 0 <= caches st /\ caches st' <= 2 ^ 32
}.

(** [G] is the loaded code of a method or block with the body [body]: generated
    in the context [cx], with the constants and dispatch tables [k], [m], [m2]
    and the inline caches [c0] already there. *)
Record code_of {W : Type} (P : prims W) (cx : sctx) (body : node) (G : prog) : Prop := {
  co_prims : prims_ok P;
  co_slots : slots_ok cx;
  co_std : id32 (sc_stderr cx) = true;
  co_sized : sized cx body = true;
  co_gen : exists k m m2 c0 st, 0 <= c0 /\ gen_body cx body (empty_cg k m m2 c0) = Ok st
                                /\ loaded G st /\ fitting G st
}.

(** The theorems cover [body] as the body of a method or block. *)
Definition supported (cx : sctx) (body : node) : Prop :=
  ok (is_block cx) (mkfctx Lout true) true body = true.

(** Called with the variables in [env] and the world [w], the code ends as the
    outcome [o] says. *)
Definition ends_as {W : Type} (P : prims W) (cx : sctx) (G : prog)
  (env : list (list value)) (w : W) (o : outcome) : Prop :=
  exists h s' n env', ending (is_block cx) o = Some (h, s')
    /\ vrun P G n (mkvst 0 [] env w) = VDone h env' (s_w s') /\ holds cx s' env'.

(** ** case *)

(** [selects ev v whens els s n s']: looking from the state [s] for the branch
    for [v], labels in order, the first that matches by [===] belongs to [n]
    (the else branch [els] if none does), and the state is then [s']. *)
Inductive selects {W : Type} (P : prims W) (ev : node -> sst (W:=W) -> outcome) (v : value)
  : list (list node * node) -> node -> sst (W:=W) -> node -> sst (W:=W) -> Prop :=
| sel_else : forall els s, selects P ev v [] els s els s
| sel_next : forall body r els s n s', selects P ev v r els s n s' ->
    selects P ev v (([], body) :: r) els s n s'
| sel_hit : forall l labs body r els s x s1 b w, ev l s = Val x s1 ->
    p_bin P BTEq x v (s_w s1) = POk b w -> to_bool b = true ->
    selects P ev v ((l :: labs, body) :: r) els s body (set_w w s1)
| sel_miss : forall l labs body r els s x s1 b w n s', ev l s = Val x s1 ->
    p_bin P BTEq x v (s_w s1) = POk b w -> to_bool b = false ->
    selects P ev v ((labs, body) :: r) els (set_w w s1) n s' ->
    selects P ev v ((l :: labs, body) :: r) els s n s'.

(** The same for [case] without a value: the first condition that holds. *)
Inductive first_true {W : Type} (ev : node -> sst (W:=W) -> outcome)
  : list (list node * node) -> node -> sst (W:=W) -> node -> sst (W:=W) -> Prop :=
| ft_else : forall els s, first_true ev [] els s els s
| ft_hit : forall c labs body r els s v s1, ev c s = Val v s1 -> to_bool v = true ->
    first_true ev ((c :: labs, body) :: r) els s body s1
| ft_miss : forall c body r els s v s1 n s', ev c s = Val v s1 -> to_bool v = false ->
    first_true ev r els s1 n s' ->
    first_true ev (([c], body) :: r) els s n s'.

(** ** begin *)

(** [caught ev std e clauses s n s']: for the exception [e] the first clause whose
    list matches has the body [n], which starts in the state [s'];
    [uncaught]: no clause matches. *)
Inductive caught {W : Type} (P : prims W) (ev : node -> sst (W:=W) -> outcome) (std : Z) (e : value)
  : list (list node * option node * node) -> sst (W:=W) -> node -> sst (W:=W) -> Prop :=
| ct_hit : forall exs asg body r s vs s1,
    clause_list P ev std exs s = LVals vs s1 -> p_rescue P e vs (s_w s1) = true ->
    caught P ev std e ((exs, asg, body) :: r) s body
      (match asg with Some a => assign_var P a e s1 | None => s1 end)
| ct_miss : forall exs asg body r s vs s1 n s',
    clause_list P ev std exs s = LVals vs s1 -> p_rescue P e vs (s_w s1) = false ->
    caught P ev std e r s1 n s' ->
    caught P ev std e ((exs, asg, body) :: r) s n s'.

Inductive uncaught {W : Type} (P : prims W) (ev : node -> sst (W:=W) -> outcome) (std : Z) (e : value)
  : list (list node * option node * node) -> sst (W:=W) -> sst (W:=W) -> Prop :=
| un_nil : forall s, uncaught P ev std e [] s s
| un_miss : forall exs asg body r s vs s1 s',
    clause_list P ev std exs s = LVals vs s1 -> p_rescue P e vs (s_w s1) = false ->
    uncaught P ev std e r s1 s' ->
    uncaught P ev std e ((exs, asg, body) :: r) s s'.
