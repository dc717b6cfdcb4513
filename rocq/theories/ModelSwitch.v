(** The machine code that changes from one stack to another when a fiber is
    resumed or yields: ruruby/src/coroutine/asm_x64.rs, asm_arm64.rs,
    asm_windows_x64.rs, coroutine/stack.rs and the part of coroutine.rs that
    calls it.  ModelFiber.v takes for granted what this file is about: that a
    saved stack pointer leads back to the call that saved it. *)
From Coq Require Import ZArith List Bool Lia.
Import ListNotations.
Local Open Scope Z_scope.

(** The three targets, coroutine.rs:2-13. *)
Inductive arch : Set := X64 | Arm64 | Win64.

(** Registers.  [SP] is rsp or sp; [XMM n h] is half of an xmm register; [X 29] is
    fp, [X 30] is lr; [D n] is what the calling convention keeps of a vector
    register on arm64. *)
Inductive reg : Set :=
| SP | RBP | RBX | RDI | RSI | RCX | R12 | R13 | R14 | R15
| XMM (n : Z) (high : bool) | X (n : Z) | D (n : Z).
Definition reg_eqb (a b : reg) : bool :=
  match a, b with
  | SP, SP | RBP, RBP | RBX, RBX | RDI, RDI | RSI, RSI | RCX, RCX
  | R12, R12 | R13, R13 | R14, R14 | R15, R15 => true
  | XMM n h, XMM n' h' => Z.eqb n n' && Bool.eqb h h'
  | X n, X n' => Z.eqb n n'
  | D n, D n' => Z.eqb n n'
  | _, _ => false
  end.

(** Registers, memory and program counter.  Memory is made of words of 64 bits at
    byte addresses; all addresses used are multiples of 8, so words do not
    overlap.  Addresses do not wrap around. *)
Record cpu : Type := mkcpu { regs : reg -> Z; mem : Z -> Z; pc : Z }.
Definition setr (r : reg) (v : Z) (g : reg -> Z) : reg -> Z := fun r' => if reg_eqb r' r then v else g r'.
Definition setm (a v : Z) (m : Z -> Z) : Z -> Z := fun b => if Z.eqb b a then v else m b.
Definition putr r v (c : cpu) := mkcpu (setr r v (regs c)) (mem c) (pc c).
Definition putm a v (c : cpu) := mkcpu (regs c) (setm a v (mem c)) (pc c).
Definition jump a (c : cpu) := mkcpu (regs c) (mem c) a.

(** The instructions the four functions are made of. *)
Inductive instr : Set :=
| Push (r : reg) | Pop (r : reg)          (* push, pop *)
| Sub (n : Z) | Add (n : Z)               (* sub rsp, n; add rsp, n; sub sp, sp, n *)
| Mov (d s : reg)                         (* mov x19, sp *)
| St (s b : reg) (o : Z)                  (* mov [b + o], s; str s, [b, #o] *)
| Ld (d b : reg) (o : Z)                  (* mov d, [b + o]; ldr d, [b, #o] *)
| St2 (s s' b : reg) (o : Z)              (* stp s, s', [b, #o] *)
| Ld2 (d d' b : reg) (o : Z)              (* ldp d, d', [b, #o] *)
| Stx (n : Z) | Ldx (n : Z)               (* movdqu [rsp], xmmn; movdqu xmmn, [rsp] *)
| Ret                                     (* ret on x86 *)
| Br (r : reg).                           (* ret and ret x4 on arm64 *)
Definition step1 (c : cpu) (i : instr) : cpu :=
  let g := regs c in let m := mem c in
  match i with
  | Push r => putm (g SP - 8) (g r) (putr SP (g SP - 8) c)
  | Pop r => putr r (m (g SP)) (putr SP (g SP + 8) c)
  | Sub n => putr SP (g SP - n) c
  | Add n => putr SP (g SP + n) c
  | Mov d s => putr d (g s) c
  | St s b o => putm (g b + o) (g s) c
  | Ld d b o => putr d (m (g b + o)) c
  | St2 s s' b o => putm (g b + o + 8) (g s') (putm (g b + o) (g s) c)
  | Ld2 d d' b o => putr d' (m (g b + o + 8)) (putr d (m (g b + o)) c)
  | Stx n => putm (g SP + 8) (g (XMM n true)) (putm (g SP) (g (XMM n false)) c)
  | Ldx n => putr (XMM n true) (m (g SP + 8)) (putr (XMM n false) (m (g SP)) c)
  | Ret => jump (m (g SP)) (putr SP (g SP + 8) c)
  | Br r => jump (g r) c
  end.
Definition exec (l : list instr) (c : cpu) : cpu := fold_left step1 l c.

(** asm_x64.rs:22-27, 49-54, 75-80 and 30-35, 57-62, 84-89 *)
Definition x64_save := [Push R15; Push R14; Push R13; Push R12; Push RBX; Push RBP].
Definition x64_load := [Pop RBP; Pop RBX; Pop R12; Pop R13; Pop R14; Pop R15].
(** asm_arm64.rs:24-34, 63-73, 100-110 and 39-49, 78-88, 115-125 *)
Definition arm_save :=
  [Sub 176; St2 (D 8) (D 9) SP 0; St2 (D 10) (D 11) SP 16; St2 (D 12) (D 13) SP 32; St2 (D 14) (D 15) SP 48;
   St2 (X 19) (X 20) SP 64; St2 (X 21) (X 22) SP 80; St2 (X 23) (X 24) SP 96; St2 (X 25) (X 26) SP 112;
   St2 (X 27) (X 28) SP 128; St2 (X 29) (X 30) SP 144].
Definition arm_load :=
  [Ld2 (D 8) (D 9) SP 0; Ld2 (D 10) (D 11) SP 16; Ld2 (D 12) (D 13) SP 32; Ld2 (D 14) (D 15) SP 48;
   Ld2 (X 19) (X 20) SP 64; Ld2 (X 21) (X 22) SP 80; Ld2 (X 23) (X 24) SP 96; Ld2 (X 25) (X 26) SP 112;
   Ld2 (X 27) (X 28) SP 128; Ld2 (X 29) (X 30) SP 144; Add 176].
(** asm_windows_x64.rs:22-49, 91-118, 160-187 and 52-79, 121-148, 190-217 *)
Definition win_save :=
  [Sub 16; Stx 15; Sub 16; Stx 14; Sub 16; Stx 13; Sub 16; Stx 12; Sub 16; Stx 11;
   Sub 16; Stx 10; Sub 16; Stx 9; Sub 16; Stx 8; Sub 16; Stx 7; Sub 16; Stx 6;
   Push R15; Push R14; Push R13; Push R12; Push RSI; Push RDI; Push RBX; Push RBP].
Definition win_load :=
  [Pop RBP; Pop RBX; Pop RDI; Pop RSI; Pop R12; Pop R13; Pop R14; Pop R15;
   Ldx 6; Add 16; Ldx 7; Add 16; Ldx 8; Add 16; Ldx 9; Add 16; Ldx 10; Add 16;
   Ldx 11; Add 16; Ldx 12; Add 16; Ldx 13; Add 16; Ldx 14; Add 16; Ldx 15; Add 16].

(** [invoke_context], asm_x64.rs:18-40, asm_arm64.rs:20-56, asm_windows_x64.rs:18-84.
    [rsp] is the first word of FiberContext, [main_rsp] the second
    (coroutine.rs:54-57). *)
Definition invoke_context (A : arch) : list instr :=
  match A with
  | X64 => x64_save ++ [St SP RDI 8; Ld SP RDI 0] ++ x64_load ++ [Ret]
  | Arm64 => arm_save ++ [Mov (X 19) SP; St (X 19) (X 0) 8; Ld (X 19) (X 0) 0; Mov SP (X 19)] ++ arm_load
             ++ [Ld (X 30) SP 8; Ld (X 4) SP 0; Br (X 4)]
  | Win64 => win_save ++ [St SP RCX 8; Ld SP RCX 0] ++ win_load ++ [Ret]
  end.
(** [switch_context], asm_x64.rs:45-67, asm_arm64.rs:59-93, asm_windows_x64.rs:87-153 *)
Definition switch_context (A : arch) : list instr :=
  match A with
  | X64 => x64_save ++ [St SP RDI 8; Ld SP RDI 0] ++ x64_load ++ [Ret]
  | Arm64 => arm_save ++ [Mov (X 19) SP; St (X 19) (X 0) 8; Ld (X 19) (X 0) 0; Mov SP (X 19)] ++ arm_load
             ++ [Br (X 30)]
  | Win64 => win_save ++ [St SP RCX 8; Ld SP RCX 0] ++ win_load ++ [Ret]
  end.
(** [yield_context], asm_x64.rs:72-95, asm_arm64.rs:96-131, asm_windows_x64.rs:156-222 *)
Definition yield_context (A : arch) : list instr :=
  match A with
  | X64 => x64_save ++ [St SP RDI 0; Ld SP RDI 8] ++ x64_load ++ [Ret]
  | Arm64 => arm_save ++ [Mov (X 19) SP; St (X 19) (X 0) 0; Ld (X 19) (X 0) 8; Mov SP (X 19)] ++ arm_load
             ++ [Br (X 30)]
  | Win64 => win_save ++ [St SP RCX 0; Ld SP RCX 8] ++ win_load ++ [Ret]
  end.
(** [skip], asm_x64.rs:8-13, asm_arm64.rs:7-17, asm_windows_x64.rs:10-15 *)
Definition skip (A : arch) : list instr :=
  match A with
  | X64 => [Ld RDI SP 8; Ret]
  | Arm64 => [Ld (X 0) SP 24; Ld (X 30) SP 16; Br (X 30)]
  | Win64 => [Ld RCX SP 8; Ret]
  end.
(** [OFFSET], asm_x64.rs:4, asm_arm64.rs:4, asm_windows_x64.rs:7 *)
Definition OFFSET (A : arch) : Z := match A with X64 => 48 | Arm64 => 176 | Win64 => 64 + 160 end.

(** How Rust calls an extern "C" function of one argument, on the three targets:
    the argument register is set; `call` pushes the return address, `bl` puts it
    into lr. *)
Definition arg_reg (A : arch) : reg := match A with X64 => RDI | Arm64 => X 0 | Win64 => RCX end.
Definition call (A : arch) (fn : list instr) (ra f : Z) (c : cpu) : cpu :=
  let c := putr (arg_reg A) f c in
  exec fn match A with
          | Arm64 => putr (X 30) ra c
          | _ => putm (regs c SP - 8) ra (putr SP (regs c SP - 8) c)
          end.

(** Addresses of the functions put on a new stack; any will do, these are three. *)
Definition NEW_CONTEXT : Z := 1. Definition GUARD : Z := 2. Definition SKIP : Z := 3.
(** stack.rs:6 [DEFAULT_STACK_SIZE] *)
Definition STACK_SIZE : Z := 1024 * 512.
(** stack.rs:77-89 [Stack::init]: the new [rsp], and memory *)
Definition init (A : arch) (stack fiber : Z) (m : Z -> Z) : Z * (Z -> Z) :=
  let s := stack + STACK_SIZE in
  let m := setm (s - 8) fiber m in
  let m := setm (s - 16) GUARD m in
  let m := setm (s - 24) SKIP m in
  let m := setm (s - 32) NEW_CONTEXT m in
  (s - 32 - OFFSET A, m).

(** FiberContext, coroutine.rs:53-62: [rsp] and [main_rsp] are in memory; [vm] and
    [kind] are left out.  A null [stack] is 0. *)
Inductive fstate : Set := Created | Running | Dead.
Record fcb : Set := mkfcb { stack : Z; state : fstate }.
(** The machine: the processor, the FiberContexts by address, and STACK_STORE
    (stack.rs:10-12), of which the last element comes first. *)
Record mach : Type := mkmach { cp : cpu; fibs : Z -> option fcb; pool : list Z }.
Definition setf (f : Z) (x : option fcb) (m : Z -> option fcb) : Z -> option fcb :=
  fun f' => if Z.eqb f' f then x else m f'.

(** coroutine.rs:143-164 [new], at an address given by the Rust allocator *)
Definition new_fiber (f : Z) (m : mach) : mach :=
  mkmach (putm (f + 8) 0 (putm f 0 (cp m))) (setf f (Some (mkfcb 0 Created)) (fibs m)) (pool m).
(** stack.rs:42-52 [allocate]; [b] is what the Rust allocator gives, if it is asked *)
Definition allocate (b : Z) (l : list Z) : Z * list Z :=
  match l with [] => (b, []) | s :: l => (s, l) end.
(** stack.rs:60-66 [deallocate] *)
Definition deallocate (s : Z) (l : list Z) : list Z := if Z.eqb s 0 then l else s :: l.
(** coroutine.rs:64-69 [drop] *)
Definition drop_fiber (f : Z) (m : mach) : mach :=
  match fibs m f with
  | None => m
  | Some x => mkmach (cp m) (setf f None (fibs m)) (deallocate (stack x) (pool m))
  end.
(** coroutine.rs:135-140 [initialize] *)
Definition initialize (A : arch) (f b : Z) (m : mach) : mach :=
  let (s, l) := allocate b (pool m) in
  let (rsp, mm) := init A s f (mem (cp m)) in
  mkmach (putm f rsp (mkcpu (regs (cp m)) mm (pc (cp m)))) (setf f (Some (mkfcb s Running)) (fibs m)) l.
(** coroutine.rs:168-186 [resume] up to the arrival on the other stack.  [ra] is
    the address after the call of [invoke_context] or [switch_context]; the value
    passed is in ModelFiber.v. *)
Definition resume (A : arch) (ra f b : Z) (m : mach) : option mach :=
  match fibs m f with
  | None => None
  | Some x =>
      match state x with
      | Dead => None
      | Created =>
          let m := initialize A f b m in
          Some (mkmach (call A (invoke_context A) ra f (cp m)) (fibs m) (pool m))
      | Running => Some (mkmach (call A (switch_context A) ra f (cp m)) (fibs m) (pool m))
      end
  end.
(** coroutine.rs:95-114 [fiber_yield] with handle [f] *)
Definition fiber_yield (A : arch) (ra f : Z) (m : mach) : mach :=
  mkmach (call A (yield_context A) ra f (cp m)) (fibs m) (pool m).
(** stack.rs:117-122 [guard], run after [skip]: [k] bytes of stack are for its own
    frame.  Its argument is in the argument register. *)
Definition set_dead (f : Z) (m : mach) : mach :=
  match fibs m f with
  | Some x => mkmach (cp m) (setf f (Some (mkfcb (stack x) Dead)) (fibs m)) (pool m)
  | None => m
  end.
Definition after_skip (A : arch) (m : mach) : mach := mkmach (exec (skip A) (cp m)) (fibs m) (pool m).
Definition finish (A : arch) (ra k : Z) (m : mach) : mach :=
  let m := after_skip A m in
  let f := regs (cp m) (arg_reg A) in
  let m := set_dead f m in
  let c := putr SP (regs (cp m) SP - k) (cp m) in
  mkmach (call A (yield_context A) ra f c) (fibs m) (pool m).
