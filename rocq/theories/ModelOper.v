(* What the operators do: vm/executor/ops.rs and the method calls it makes
   (vm/executor/method.rs:8-31, 388-429). ModelVM takes these functions as the
   primitive operations of the machine; here they start methods on the worlds
   of ModelClass. A value is an argument of ModelReflect. What the operations
   built into the functions compute (ModelInt, ModelFloat, ModelArray, ModelHash,
   ModelEqual) is a parameter, and so is what a method returns: it is a
   function of the receiver and the call. The world after a lookup (its method
   cache) is dropped: an operator makes one call. *)
From Verif Require Import Base ModelArray ModelGC ModelClass ModelReflect.
From Coq Require Import String.

(* value.rs: what a Value is to the operators. KObj: the kinds ops.rs does not
   mention (ORDINARY, PROC, ENUMERATOR, FIBER, EXCEPTION ...); KMeth: a Method
   object that has a receiver *)
Inductive kind : Set :=
| KFix | KFlo | KTrue | KFalse | KNil | KSym
| KBig | KFloat | KCpx | KStr | KArr | KRange | KHash | KRe | KTime | KMod | KMeth | KObj.
(* value.rs:511 is_packed_value: no pointer *)
Definition packed (k : kind) : bool := match k with KFix | KFlo | KTrue | KFalse | KNil | KSym => true | _ => false end.
(* as_fixnum, as_flonum; as_float is a flonum or a FLOAT object *)
Definition fix_or_flo (k : kind) : bool := match k with KFix | KFlo => true | _ => false end.
Definition any_float (k : kind) : bool := match k with KFlo | KFloat => true | _ => false end.

(* the operations built into ops.rs *)
Inductive prim : Set :=
| PAdd | PSub | PMul | PDiv | PRem | PExp | PShl | PShr | PAnd | POr | PXor | PCmp | PNeg | PBitNot
| PGe | PGt | PLe | PLt | PEq | PMatch | PGet | PSet.

(* node.rs:239-262 BinOp; equality has functions of its own below *)
Inductive bop : Set :=
| OAdd | OSub | OMul | ODiv | ORem | OExp | OShl | OShr | OAnd | OOr | OXor | OCmp | OGe | OGt | OLe | OLt.

Record env : Type := mkEnv {
  kd : arg -> kind;
  cls : arg -> Z;                        (* get_class_for_method, globals.rs:130 *)
  is_self : arg -> bool;                 (* the receiver is self *)
  num : Z -> arg;                        (* Value::fixnum *)
  bool_val : bool -> arg;                (* Value::bool *)
  bound : arg -> arg * Z;                (* receiver and method of a Method object *)
  get_id : string -> Z;                  (* IdentId::get_id *)
  calc : prim -> list arg -> res arg;    (* the operations built in *)
  ans : arg -> call -> res arg           (* what the method called returns *)
}.
(* the calls made and the value *)
Definition outcome : Type := (list (arg * call) * res arg)%type.

(* id_table.rs:55-74: the constants of IdentId (ModelIdent.presets) *)
Definition ID_ADD : Z := 5. Definition ID_SUB : Z := 6. Definition ID_MUL : Z := 7. Definition ID_POW : Z := 8.
Definition ID_SHL : Z := 9. Definition ID_REM : Z := 10. Definition ID_EQ : Z := 11. Definition ID_GT : Z := 13.
Definition ID_GE : Z := 14. Definition ID_DIV : Z := 15. Definition ID_LT : Z := 16. Definition ID_LE : Z := 17.
Definition ID_CMP : Z := 18. Definition ID_TEQ : Z := 19. Definition ID_INDEX : Z := 21. Definition ID_INDEX_ASSIGN : Z := 22. Definition ID_SHR : Z := 24.

Section Ops.
Variable (e : env) (w : world) (fuel : nat).

(* value.rs:1237 to_bool *)
Definition to_bool (v : arg) : bool := match kd e v with KNil | KFalse => false | _ => true end.
(* Value::bool(v.to_bool()) *)
Definition truth (v : arg) : res arg := Ok (bool_val e (to_bool v)).
Definition not_truth (v : arg) : res arg := Ok (bool_val e (negb (to_bool v))).

(* executor/method.rs:393-402 invoke_send1 and the like, 418-429 invoke_send,
   14-31 eval_send1: the arguments are pushed without a block *)
Definition invoke (name : Z) (v : arg) (xs : list arg) : outcome :=
  match invoke_send w fuel (is_self e v) (cls e v) name (mkArgs xs None None) with
  | Ok (k, _) => ([(v, k)], ans e v k)
  | Err x => ([], Err x)
  | Panic => ([], Panic)
  end.
Definition direct (p : prim) (xs : list arg) : outcome := ([], calc e p xs).
Definition then_ (o : outcome) (f : arg -> res arg) : outcome := (fst o, x <- snd o ;; f x).

(* ops.rs:30-63 invoke_op (66-67 invoke_add, invoke_sub), 69-96 invoke_mul,
   101-126 invoke_div *)
Definition invoke_op (p : prim) (id : Z) (v x : arg) : outcome :=
  match kd e v with
  | KFix => match kd e x with KFix | KFlo => direct p [v; x] | _ => invoke id v [x] end
  | KFlo => match kd e x with KFlo | KFix => direct p [v; x] | _ => invoke id v [x] end
  | _ => invoke id v [x]
  end.
Definition op_add := invoke_op PAdd ID_ADD.
Definition op_sub := invoke_op PSub ID_SUB.
Definition op_mul := invoke_op PMul ID_MUL.
Definition op_div := invoke_op PDiv ID_DIV.
(* 9-28 invoke_op_i: 98-99 invoke_addi, invoke_subi *)
Definition invoke_op_i (p : prim) (id : Z) (v : arg) (i : Z) : outcome :=
  match kd e v with
  | KFix | KFlo => direct p [v; num e i]
  | _ => invoke id v [num e i]
  end.
Definition op_addi := invoke_op_i PAdd ID_ADD.
Definition op_subi := invoke_op_i PSub ID_SUB.
(* 128-138 invoke_rem, 140-150 invoke_exp, 484-493 invoke_compare *)
Definition op_rem (v x : arg) : outcome :=
  match kd e v with
  | KFix => direct PRem [v; x]
  | k => if any_float k then direct PRem [v; x] else invoke ID_REM v [x]
  end.
Definition op_exp (v x : arg) : outcome :=
  match kd e v with
  | KFix => direct PExp [v; x]
  | k => if any_float k then direct PExp [v; x] else invoke ID_POW v [x]
  end.
Definition op_cmp (v x : arg) : outcome :=
  match kd e v with
  | KFix => direct PCmp [v; x]
  | k => if any_float k then direct PCmp [v; x] else invoke ID_CMP v [x]
  end.
(* 152-163 invoke_neg *)
Definition op_neg (v : arg) : outcome :=
  match kd e v with
  | KFix | KFlo | KFloat => direct PNeg [v]
  | _ => invoke (get_id e "-@") v []
  end.
(* 165-179 invoke_shl, 181-190 invoke_shr *)
Definition op_shl (v x : arg) : outcome :=
  match kd e v, kd e x with
  | KFix, KFix => direct PShl [v; x]
  | KArr, _ => direct PShl [v; x]
  | _, _ => invoke ID_SHL v [x]
  end.
Definition op_shr (v x : arg) : outcome :=
  match kd e v, kd e x with
  | KFix, KFix => direct PShr [v; x]
  | _, _ => invoke ID_SHR v [x]
  end.
(* 192-210 invoke_bitand, 212-229 invoke_bitor, 231-240 invoke_bitxor *)
Definition op_bitand (v x : arg) : outcome :=
  match kd e v, kd e x with
  | KFix, KFix => direct PAnd [v; x]
  | KTrue, _ => ([], truth x)
  | KFalse, _ | KNil, _ => ([], Ok (bool_val e false))
  | _, _ => invoke (get_id e "&") v [x]
  end.
Definition op_bitor (v x : arg) : outcome :=
  match kd e v, kd e x with
  | KFix, KFix => direct POr [v; x]
  | KTrue, _ => ([], Ok (bool_val e true))
  | KFalse, _ | KNil, _ => ([], truth x)
  | _, _ => invoke (get_id e "|") v [x]
  end.
Definition op_bitxor (v x : arg) : outcome :=
  match kd e v, kd e x with
  | KFix, KFix => direct PXor [v; x]
  | KTrue, _ => ([], not_truth x)
  | KFalse, _ | KNil, _ => ([], truth x)
  | _, _ => invoke (get_id e "^") v [x]
  end.
(* 242-249 invoke_bitnot *)
Definition op_bitnot (v : arg) : outcome :=
  match kd e v with KFix => direct PBitNot [v] | _ => ([], Err NoMethodErr) end.
(* opt_core.rs:212-216 NOT *)
Definition op_not (v : arg) : outcome := ([], not_truth v).
(* codegen.rs:915 UnOp::Pos: no instruction *)
Definition op_pos (v : arg) : outcome := ([], Ok v).

(* 262-287 eval_cmp2 (252-260 eval_cmp, 444-447), with Value::bool of the
   answer: opt_core.rs:61-66 *)
Definition eval_cmp (p : prim) (id : Z) (v x : arg) : outcome :=
  match kd e v with
  | KFix => match kd e x with KFix | KFlo => direct p [v; x] | _ => then_ (invoke id v [x]) truth end
  | KFlo => match kd e x with KFix | KFlo => direct p [v; x] | _ => then_ (invoke id v [x]) truth end
  | _ => then_ (invoke id v [x]) truth
  end.
Definition op_ge := eval_cmp PGe ID_GE.
Definition op_gt := eval_cmp PGt ID_GT.
Definition op_le := eval_cmp PLe ID_LE.
Definition op_lt := eval_cmp PLt ID_LT.
(* 289-304 eval_cmp_i, 475-478 *)
Definition eval_cmp_i (p : prim) (id : Z) (v : arg) (i : Z) : outcome :=
  match kd e v with
  | KFix | KFlo => direct p [v; num e i]
  | _ => then_ (invoke id v [num e i]) truth
  end.
Definition op_gei := eval_cmp_i PGe ID_GE.
Definition op_gti := eval_cmp_i PGt ID_GT.
Definition op_lei := eval_cmp_i PLe ID_LE.
Definition op_lti := eval_cmp_i PLt ID_LT.

(* 383-431: the pairs of kinds that eval_eq2 compares itself. The elements of
   arrays and the ends of ranges may be compared by methods: ModelEqual *)
Definition eq_built_in (k1 k2 : kind) : bool :=
  match k1, k2 with
  | KBig, KBig | KFloat, KFloat | KBig, KFloat | KFloat, KBig | KCpx, KCpx | KStr, KStr
  | KArr, KArr | KRange, KRange | KHash, KHash | KRe, KRe | KTime, KTime => true
  | _, _ => false
  end.
(* one object: Value::id *)
Definition same_id (x y : arg) : bool :=
  match x, y with
  | ASym a, ASym b => a =? b
  | AStr a, AStr b => a =? b
  | AVal a, AVal b => a =? b
  | _, _ => false
  end.
(* 358-433 eval_eq2, on v == x; errors of the method are dropped (428-431) *)
Definition op_eq (v x : arg) : outcome :=
  if fix_or_flo (kd e v) && fix_or_flo (kd e x) then direct PEq [v; x]
  else if packed (kd e x) || packed (kd e v) then ([], Ok (bool_val e (same_id v x)))
  else if same_id v x then ([], Ok (bool_val e true))
  else if eq_built_in (kd e v) (kd e x) then direct PEq [v; x]
  else
    match invoke ID_EQ v [x] with
    | (l, Ok y) => (l, truth y)
    | (l, Err _) => (l, Ok (bool_val e false))
    | (l, Panic) => (l, Panic)
    end.
(* 440-442 eval_ne *)
Definition op_ne (v x : arg) : outcome := then_ (op_eq v x) not_truth.
(* 453-470 eval_eqi, 471-473 eval_nei *)
Definition op_eqi (v : arg) (i : Z) : outcome :=
  match kd e v with
  | KFix | KFlo | KFloat => direct PEq [v; num e i]
  | _ => then_ (invoke ID_EQ v [num e i]) truth
  end.
Definition op_nei (v : arg) (i : Z) : outcome := then_ (op_eqi v i) not_truth.
(* 307-320 invoke_teq, 322-333 teq_regexp *)
Definition op_teq (v x : arg) : outcome :=
  match kd e v with
  | KMod => invoke ID_TEQ v [x]
  | KRe => direct PMatch [v; x]
  | _ => op_eq v x
  end.

(* 546-561 invoke_get_index *)
Definition op_index (v i : arg) : outcome :=
  match kd e v with
  | KArr | KHash => direct PGet [v; i]
  | _ => invoke ID_INDEX v [i]
  end.
(* 563-597 invoke_get_index_imm; 578-586: a Method object with a receiver is
   called *)
Definition op_index_i (v : arg) (i : Z) : outcome :=
  match kd e v with
  | KArr | KHash => direct PGet [v; num e i]
  | KMeth => let (r, f) := bound e v in let k := mkCall f (mkArgs [num e i] None None) in ([(r, k)], ans e r k)
  | KFix => direct PGet [v; num e i]
  | _ => invoke ID_INDEX v [num e i]
  end.
(* 495-516 invoke_set_index, 518-544 invoke_set_index_imm; the machine drops the
   value (opt_core.rs:367-369, 375-378) *)
Definition op_set_index (v i x : arg) : outcome :=
  match kd e v with
  | KArr | KHash => direct PSet [v; i; x]
  | _ => invoke ID_INDEX_ASSIGN v [i; x]
  end.
Definition op_set_index_i (v : arg) (i : Z) (x : arg) : outcome :=
  match kd e v with
  | KArr | KHash => direct PSet [v; num e i; x]
  | _ => invoke ID_INDEX_ASSIGN v [num e i; x]
  end.

(* opt_core.rs:171-211: the instruction of each operator; codegen.rs:836-862 *)
Definition exec_bin (o : bop) : arg -> arg -> outcome :=
  match o with
  | OAdd => op_add | OSub => op_sub | OMul => op_mul | ODiv => op_div | ORem => op_rem | OExp => op_exp
  | OShl => op_shl | OShr => op_shr | OAnd => op_bitand | OOr => op_bitor | OXor => op_bitxor | OCmp => op_cmp
  | OGe => op_ge | OGt => op_gt | OLe => op_le | OLt => op_lt
  end.
(* the same with an integer literal on the right (codegen.rs:824-835; the
   operators that binop_imm is used for) *)
Definition exec_bin_i (o : bop) : option (arg -> Z -> outcome) :=
  match o with
  | OAdd => Some op_addi | OSub => Some op_subi
  | OGe => Some op_gei | OGt => Some op_gti | OLe => Some op_lei | OLt => Some op_lti
  | _ => None
  end.
End Ops.
