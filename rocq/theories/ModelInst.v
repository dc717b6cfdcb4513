(** Bytecode of ruruby: the instructions, how the code generator writes them
    and how the interpreter reads them back.

    Sources: ruruby-common/src/vm_inst.rs (opcode numbers 4-126, instruction
    sizes 252-368), ruruby/src/vm/iseq.rs (writing 75-167, reading 486-553),
    ruruby-common/src/arg_flag.rs, ruruby-common/src/iseq_util.rs.

    A byte is a [Z] between 0 and 255, an instruction sequence a list of them.
    The interpreter reads operands with [from_ne_bytes] (iseq.rs:493-521); the
    model is that of a little-endian machine, where this is the inverse of the
    [to_le_bytes] used for writing. *)
From Coq Require Import ZArith List Bool.
From Verif Require Import Base.
Import ListNotations.
Open Scope Z_scope.

(** ** Instructions without operand (vm_inst.rs:254-288, the group of size 1) *)
Inductive op0 : Set :=
| oRETURN | oPUSH_NIL | oPUSH_SELF | oADD | oSUB | oMUL | oDIV | oREM | oPOW
| oTEQ | oEQ | oNE | oGT | oGE | oLT | oLE | oCMP | oNOT | oSHL | oSHR | oNEG
| oBOR | oBAND | oBXOR | oBNOT | oCREATE_RANGE | oCREATE_REGEXP | oGET_INDEX
| oSET_INDEX | oTO_S | oSPLAT | oPOP | oBREAK | oMRETURN | oTHROW.

(** ** Instructions with one unsigned 32-bit operand (vm_inst.rs:290-312,
    325-331, 340-344) *)
Inductive op32 : Set :=
| oSET_LOCAL | oGET_LOCAL | oSET_CONST | oCHECK_CONST | oCHECK_SCOPE
| oCHECK_METHOD | oGET_CONST_TOP | oGET_SCOPE | oGET_IVAR | oSET_IVAR
| oCHECK_IVAR | oGET_GVAR | oSET_GVAR | oCHECK_GVAR | oGET_SVAR | oSET_SVAR
| oGET_CVAR | oSET_CVAR | oGET_IDX_I | oSET_IDX_I | oCREATE_ARRAY | oCONST_VAL
| oDUP | oTAKE | oCONCAT_STRING | oSINKN | oTOPN | oCREATE_PROC | oDEF_SCLASS
| oCREATE_HASH | oYIELD | oRESCUE.

(** ** Instructions with one signed 32-bit immediate (vm_inst.rs:332-339) *)
Inductive opi : Set :=
| oADDI | oSUBI | oEQI | oNEI | oGTI | oGEI | oLTI | oLEI.

(** ** Comparison operators of the fused compare-and-jump instructions *)
Inductive cmpop : Set := cEQ | cNE | cGT | cGE | cLT | cLE.

(** ** Jumps: one signed displacement (vm_inst.rs:313-324) *)
Inductive opj : Set :=
| oJMP | oJMP_BACK | oJMP_F | oJMP_T | oJMP_F_cmp (c : cmpop).

(** ** Two unsigned 32-bit operands (vm_inst.rs:350-357) *)
Inductive op2 : Set :=
| oSET_DYNLOCAL | oGET_DYNLOCAL | oCHECK_LOCAL | oGET_CONST | oDEF_METHOD
| oDEF_SMETHOD.

(** ** Table dispatch: a table number and a default displacement *)
Inductive opc : Set := oOPT_CASE | oOPT_CASE2.

(** A whole instruction with the operands the interpreter sees.  A block
    operand is [None] or a function number. *)
Inductive inst : Set :=
| I0 (o : op0)
| I32 (o : op32) (n : Z)
| II (o : opi) (i : Z)
| IJ (o : opj) (d : Z)
| IJI (c : cmpop) (i : Z) (d : Z)
| IVal (w : Z)
| I2 (o : op2) (a b : Z)
| ICase (o : opc) (t d : Z)
| ISuper (args : Z) (blk : option Z) (noarg : bool)
| IClass (is_module : bool) (id fn : Z)
| ISendO (use : bool) (id args : Z) (blk : option Z) (ic : Z)
| ISend (id args flag : Z) (blk : option Z) (ic : Z).

(** ** Opcode numbers, vm_inst.rs:4-126 *)
Definition op0_byte (o : op0) : Z :=
  match o with
  | oPUSH_NIL => 5 | oPUSH_SELF => 8 | oCREATE_RANGE => 10
  | oCREATE_REGEXP => 14 | oGET_INDEX => 40 | oSET_INDEX => 41
  | oPOP => 80 | oSPLAT => 83 | oTO_S => 85
  | oRETURN => 104 | oBREAK => 105 | oMRETURN => 107 | oTHROW => 110
  | oADD => 120 | oSUB => 121 | oMUL => 122 | oDIV => 123 | oREM => 124
  | oEQ => 125 | oNE => 126 | oTEQ => 127 | oGT => 128 | oGE => 129
  | oLT => 130 | oLE => 131 | oNOT => 132 | oSHR => 133 | oSHL => 134
  | oBOR => 135 | oBAND => 136 | oBXOR => 137 | oBNOT => 138 | oPOW => 139
  | oCMP => 140 | oNEG => 141
  end.

Definition op32_byte (o : op32) : Z :=
  match o with
  | oCREATE_ARRAY => 11 | oCREATE_PROC => 12 | oCREATE_HASH => 13
  | oCONST_VAL => 15 | oSET_LOCAL => 20 | oGET_LOCAL => 21
  | oSET_CONST => 25 | oGET_CONST_TOP => 26 | oGET_SCOPE => 27
  | oGET_IVAR => 28 | oSET_IVAR => 29 | oGET_GVAR => 30 | oSET_GVAR => 31
  | oGET_CVAR => 32 | oSET_CVAR => 33 | oGET_SVAR => 34 | oSET_SVAR => 35
  | oGET_IDX_I => 42 | oSET_IDX_I => 43
  | oCHECK_CONST => 51 | oCHECK_SCOPE => 52 | oCHECK_IVAR => 53
  | oCHECK_GVAR => 54 | oCHECK_METHOD => 55
  | oDUP => 81 | oTAKE => 82 | oCONCAT_STRING => 84 | oSINKN => 86
  | oTOPN => 87 | oDEF_SCLASS => 91 | oYIELD => 108 | oRESCUE => 109
  end.

Definition opi_byte (o : opi) : Z :=
  match o with
  | oADDI => 150 | oSUBI => 151 | oEQI => 152 | oNEI => 153 | oGTI => 154
  | oGEI => 155 | oLTI => 156 | oLEI => 157
  end.

Definition opj_byte (o : opj) : Z :=
  match o with
  | oJMP => 100 | oJMP_BACK => 101 | oJMP_F => 102 | oJMP_T => 103
  | oJMP_F_cmp cEQ => 170 | oJMP_F_cmp cNE => 171 | oJMP_F_cmp cGT => 172
  | oJMP_F_cmp cGE => 173 | oJMP_F_cmp cLT => 174 | oJMP_F_cmp cLE => 175
  end.

Definition opji_byte (c : cmpop) : Z :=
  match c with
  | cEQ => 180 | cNE => 181 | cGT => 182 | cGE => 183 | cLT => 184 | cLE => 185
  end.

Definition op2_byte (o : op2) : Z :=
  match o with
  | oSET_DYNLOCAL => 22 | oGET_DYNLOCAL => 23 | oGET_CONST => 24
  | oCHECK_LOCAL => 50 | oDEF_METHOD => 92 | oDEF_SMETHOD => 93
  end.

Definition opc_byte (o : opc) : Z :=
  match o with oOPT_CASE => 106 | oOPT_CASE2 => 111 end.

Definition PUSH_VAL_byte : Z := 1.
Definition SUPER_byte : Z := 112.
Definition DEF_CLASS_byte : Z := 90.
Definition SEND_byte : Z := 60.
Definition OPT_SEND_byte : Z := 66.
Definition OPT_SEND_N_byte : Z := 68.

Definition opcode (i : inst) : Z :=
  match i with
  | I0 o => op0_byte o
  | I32 o _ => op32_byte o
  | II o _ => opi_byte o
  | IJ o _ => opj_byte o
  | IJI c _ _ => opji_byte c
  | IVal _ => PUSH_VAL_byte
  | I2 o _ _ => op2_byte o
  | ICase o _ _ => opc_byte o
  | ISuper _ _ _ => SUPER_byte
  | IClass _ _ _ => DEF_CLASS_byte
  | ISendO true _ _ _ _ => OPT_SEND_byte
  | ISendO false _ _ _ _ => OPT_SEND_N_byte
  | ISend _ _ _ _ _ => SEND_byte
  end.

(** ** Writing *)

(** [to_le_bytes] of the [n]-byte unsigned number congruent to [v]; also the
    effect of an [as u32] / [as u16] cast before it. *)
Fixpoint le (n : nat) (v : Z) : list Z :=
  match n with
  | O => []
  | S k => v mod 256 :: le k (v / 256)
  end.

(** iseq.rs:83-89 [push32], [push64]; 132-134 [push8]; 140-143 [push16]
    (low byte first, then [num >> 8]). *)
Definition push8 (v : Z) : list Z := le 1 v.
Definition push16 (v : Z) : list Z := le 2 v.
Definition push32 (v : Z) : list Z := le 4 v.
Definition push64 (v : Z) : list Z := le 8 v.

(** iseq.rs:145-151 [push_method] *)
Definition push_method (b : option Z) : list Z :=
  match b with Some f => push32 f | None => push32 0 end.

(** The bytes written for one instruction.  Every emission site of the code
    generator pushes the opcode and then the operands in this order:
    iseq.rs:169-349 (gen_push_nil .. gen_set_const), codegen.rs:548-594
    (gen_jmp_if_false), 816-835 (binop_imm), 1621-1750 (emit_ functions),
    1406-1494 (definitions), send.rs:119-160 (emit_send, emit_opt_send). *)
Definition encode (i : inst) : list Z :=
  opcode i ::
  match i with
  | I0 _ => []
  | I32 _ n => push32 n
  | II _ k => push32 k
  | IJ _ d => push32 d
  | IJI _ k d => push32 k ++ push32 d
  | IVal w => push64 w
  | I2 _ a b => push32 a ++ push32 b
  | ICase _ t d => push32 t ++ push32 d
  | ISuper n b f => push16 n ++ push_method b ++ push8 (if f then 1 else 0)
  | IClass m id f => push8 (if m then 1 else 0) ++ push32 id ++ push32 f
  | ISendO _ id n b ic => push32 id ++ push16 n ++ push_method b ++ push32 ic
  | ISend id n f b ic =>
      push32 id ++ push16 n ++ push8 f ++ push_method b ++ push32 ic
  end.

(** A piece of bytecode: the bytes of its instructions in a row. *)
Definition encodes (l : list inst) : list Z := concat (map encode l).

(** ** Sizes, vm_inst.rs:252-368 [Inst::inst_size]: the table used by the
    optimiser and by the listing code to walk from one instruction to the
    next.  [None] is the [panic!] of line 365. *)
Definition mem (b : Z) (l : list Z) : bool := existsb (Z.eqb b) l.

Definition inst_size (b : Z) : option Z :=
  if mem b [104; 5; 8; 120; 121; 122; 123; 124; 139; 127; 125; 126; 128; 129;
            130; 131; 140; 132; 134; 133; 141; 135; 136; 137; 138; 10; 14; 40;
            41; 85; 83; 80; 105; 107; 110] then Some 1
  else if mem b [20; 21; 25; 51; 52; 55; 26; 27; 28; 29; 53; 30; 31; 54; 34;
                 35; 32; 33; 42; 43; 11; 15; 100; 101; 102; 103; 170; 171; 172;
                 173; 174; 175; 81; 82; 84; 86; 87; 150; 151; 152; 153; 154;
                 155; 156; 157; 12; 91; 13; 108; 109] then Some 5
  else if mem b [112] then Some 8
  else if mem b [1; 22; 23; 50; 24; 106; 111; 92; 93; 180; 181; 182; 183; 184;
                 185] then Some 9
  else if mem b [90] then Some 10
  else if mem b [66; 68] then Some 15
  else if mem b [60] then Some 16
  else None.

(** ** Reading, iseq.rs:486-553: each function takes the bytes from [pc] on
    and gives the number read and the bytes that follow. *)
Fixpoint read_le (n : nat) (l : list Z) : option (Z * list Z) :=
  match n with
  | O => Some (0, l)
  | S k => match l with
           | [] => None
           | b :: r => match read_le k r with
                       | Some (v, r') => Some (b + 256 * v, r')
                       | None => None
                       end
           end
  end.

Definition read8 := read_le 1.
Definition read16 := read_le 2.
Definition read32 := read_le 4.
Definition read64 := read_le 8.

(** [as i32] *)
Definition to_i32 (v : Z) : Z := if v <? 2 ^ 31 then v else v - 2 ^ 32.

(** iseq.rs:537-540 [read_disp], and [read32() as i32] of the immediates *)
Definition read_i32 (l : list Z) : option (Z * list Z) :=
  match read32 l with Some (v, r) => Some (to_i32 v, r) | None => None end.

(** iseq.rs:542-548 [read_method]; the sends read the block as a plain u32
    and test it against 0 (opt_core.rs:634-638). *)
Definition read_method (l : list Z) : option (option Z * list Z) :=
  match read32 l with
  | Some (v, r) => Some (if v =? 0 then None else Some v, r)
  | None => None
  end.

Definition obind {A B} (x : option A) (f : A -> option B) : option B :=
  match x with Some a => f a | None => None end.

Declare Scope opt_scope.
Delimit Scope opt_scope with opt.
Notation "'let?' p := x 'in' e" := (obind x (fun a => match a with p => e end))
  (at level 200, p pattern, right associativity).

(** The shape of operands after an opcode byte: the [match self.pc.read8()] of
    the interpreter loop, opt_core.rs:115-599.  [None] is the last arm, the
    internal error "Unimplemented instruction". *)
Inductive shape : Set :=
| S0 (o : op0) | S32 (o : op32) | SI (o : opi) | SJ (o : opj) | SJI (c : cmpop)
| SVal | S2 (o : op2) | SC (o : opc) | SSuper | SClass | SSendO (use : bool)
| SSend.

Definition shapes : list (Z * shape) :=
  [ (104, S0 oRETURN); (105, S0 oBREAK); (107, S0 oMRETURN); (110, S0 oTHROW);
    (5, S0 oPUSH_NIL); (8, S0 oPUSH_SELF); (1, SVal);
    (120, S0 oADD); (150, SI oADDI); (121, S0 oSUB); (151, SI oSUBI);
    (122, S0 oMUL); (139, S0 oPOW); (123, S0 oDIV); (124, S0 oREM);
    (133, S0 oSHR); (134, S0 oSHL); (141, S0 oNEG); (136, S0 oBAND);
    (135, S0 oBOR); (137, S0 oBXOR); (138, S0 oBNOT);
    (125, S0 oEQ); (126, S0 oNE); (128, S0 oGT); (129, S0 oGE); (130, S0 oLT);
    (131, S0 oLE); (127, S0 oTEQ); (152, SI oEQI); (153, SI oNEI);
    (154, SI oGTI); (155, SI oGEI); (156, SI oLTI); (157, SI oLEI);
    (140, S0 oCMP); (132, S0 oNOT); (109, S32 oRESCUE);
    (84, S32 oCONCAT_STRING); (20, S32 oSET_LOCAL); (21, S32 oGET_LOCAL);
    (22, S2 oSET_DYNLOCAL); (23, S2 oGET_DYNLOCAL); (50, S2 oCHECK_LOCAL);
    (25, S32 oSET_CONST); (51, S32 oCHECK_CONST); (24, S2 oGET_CONST);
    (26, S32 oGET_CONST_TOP); (52, S32 oCHECK_SCOPE); (27, S32 oGET_SCOPE);
    (29, S32 oSET_IVAR); (28, S32 oGET_IVAR); (53, S32 oCHECK_IVAR);
    (31, S32 oSET_GVAR); (30, S32 oGET_GVAR); (54, S32 oCHECK_GVAR);
    (34, S32 oGET_SVAR); (35, S32 oSET_SVAR); (33, S32 oSET_CVAR);
    (32, S32 oGET_CVAR); (41, S0 oSET_INDEX); (40, S0 oGET_INDEX);
    (43, S32 oSET_IDX_I); (42, S32 oGET_IDX_I); (83, S0 oSPLAT);
    (15, S32 oCONST_VAL); (10, S0 oCREATE_RANGE); (11, S32 oCREATE_ARRAY);
    (12, S32 oCREATE_PROC); (13, S32 oCREATE_HASH); (14, S0 oCREATE_REGEXP);
    (100, SJ oJMP); (101, SJ oJMP_BACK); (102, SJ oJMP_F); (103, SJ oJMP_T);
    (170, SJ (oJMP_F_cmp cEQ)); (171, SJ (oJMP_F_cmp cNE));
    (172, SJ (oJMP_F_cmp cGT)); (173, SJ (oJMP_F_cmp cGE));
    (174, SJ (oJMP_F_cmp cLT)); (175, SJ (oJMP_F_cmp cLE));
    (180, SJI cEQ); (181, SJI cNE); (182, SJI cGT); (183, SJI cGE);
    (184, SJI cLT); (185, SJI cLE); (106, SC oOPT_CASE); (111, SC oOPT_CASE2);
    (55, S32 oCHECK_METHOD); (60, SSend); (66, SSendO true);
    (68, SSendO false); (108, S32 oYIELD); (112, SSuper); (90, SClass);
    (91, S32 oDEF_SCLASS); (92, S2 oDEF_METHOD); (93, S2 oDEF_SMETHOD);
    (85, S0 oTO_S); (80, S0 oPOP); (81, S32 oDUP); (86, S32 oSINKN);
    (87, S32 oTOPN); (82, S32 oTAKE) ].

Fixpoint assocZ {A} (k : Z) (l : list (Z * A)) : option A :=
  match l with
  | [] => None
  | (j, a) :: r => if k =? j then Some a else assocZ k r
  end.

(** One instruction read at [pc] with its operands, in the order of the
    interpreter: opt_core.rs:115-599 and the helpers 605-746 for the sends. *)
Definition decode (l : list Z) : option (inst * list Z) :=
  let? (b, r) := read8 l in
  let? s := assocZ b shapes in
  match s with
  | S0 o => Some (I0 o, r)
  | S32 o => let? (n, r) := read32 r in Some (I32 o n, r)
  | SI o => let? (n, r) := read_i32 r in Some (II o n, r)
  | SJ o => let? (n, r) := read_i32 r in Some (IJ o n, r)
  | SJI c => let? (n, r) := read_i32 r in
             let? (d, r) := read_i32 r in Some (IJI c n d, r)
  | SVal => let? (w, r) := read64 r in Some (IVal w, r)
  | S2 o => let? (a, r) := read32 r in
            let? (b, r) := read32 r in Some (I2 o a b, r)
  | SC o => let? (t, r) := read32 r in
            let? (d, r) := read_i32 r in Some (ICase o t d, r)
  | SSuper => let? (n, r) := read16 r in
              let? (b, r) := read_method r in
              let? (f, r) := read8 r in Some (ISuper n b (f =? 1), r)
  | SClass => let? (m, r) := read8 r in
              let? (id, r) := read32 r in
              let? (f, r) := read32 r in Some (IClass (m =? 1) id f, r)
  | SSendO u => let? (id, r) := read32 r in
                let? (n, r) := read16 r in
                let? (b, r) := read_method r in
                let? (ic, r) := read32 r in Some (ISendO u id n b ic, r)
  | SSend => let? (id, r) := read32 r in
             let? (n, r) := read16 r in
             let? (f, r) := read8 r in
             let? (b, r) := read_method r in
             let? (ic, r) := read32 r in Some (ISend id n f b ic, r)
  end.

(** ** Displacements inside a sequence *)

(** iseq_util.rs:59-65: [ISeqPos - ISeqPos] is the signed distance from the
    left to the right operand, cut to 32 bits. *)
Definition pos_diff (self other : Z) : Z := to_i32 ((other - self) mod 2 ^ 32).

(** Overwrite [bs] at index [k] of the sequence; [None] is the index panic. *)
Definition patch (k : Z) (bs : list Z) (l : list Z) : option (list Z) :=
  if (0 <=? k) && (k + Z.of_nat (length bs) <=? Z.of_nat (length l))
  then Some (firstn (Z.to_nat k) l ++ bs
             ++ skipn (Z.to_nat k + length bs) l)
  else None.

(** iseq.rs:159-167 [write_disp]: the four bytes before [src] receive the
    distance from [src] to [dest]. *)
Definition write_disp (src dest : Z) (l : list Z) : option (list Z) :=
  patch (src - 4) (push32 (pos_diff src dest)) l.

(** iseq.rs:153-157 [write_disp_from_cur] *)
Definition write_disp_from_cur (src : Z) (l : list Z) : option (list Z) :=
  write_disp src (Z.of_nat (length l)) l.

(** iseq.rs:91-100 [read32] and [read_disp] of the optimiser, by index *)
Definition read_disp (pos : Z) (l : list Z) : option Z :=
  if pos <? 0 then None
  else match read_i32 (skipn (Z.to_nat pos) l) with
       | Some (d, _) => Some d
       | None => None
       end.

(** ** Argument flags, arg_flag.rs:43-102 *)
Definition argflag (kw block delegate hash_splat splat : bool) : Z :=
  (if kw then 1 else 0) + (if block then 2 else 0) + (if delegate then 4 else 0)
  + (if hash_splat then 8 else 0) + (if splat then 16 else 0).

Definition has_hash_arg (f : Z) : bool := negb (Z.land f 1 =? 0).
Definition has_block_arg (f : Z) : bool := negb (Z.land f 2 =? 0).
Definition has_delegate (f : Z) : bool := negb (Z.land f 4 =? 0).
Definition has_hash_splat (f : Z) : bool := negb (Z.land f 8 =? 0).
Definition has_splat (f : Z) : bool := negb (Z.land f 16 =? 0).

(** send.rs:119-160 [emit_send] / [emit_opt_send], codegen.rs:1632-1638
    [emit_super]: the argument count is a [usize] cut down with
    [as u32 as u16].  The count is what the source text has. *)
Definition emit_opt_send (use : bool) (id nargs : Z) (blk : option Z) (ic : Z)
  : list Z := encode (ISendO use id nargs blk ic).
