(** Fibers: ruruby/src/coroutine.rs, coroutine/stack.rs, coroutine/asm_x64.rs,
    builtin/fiber.rs and the part of builtin/enumerator.rs and
    vm/executor/fiber.rs that makes an enumerator's fiber.

    Each fiber runs on a machine stack of its own.  What is modelled is how
    control and values go from one stack to another: the saved stack pointers,
    the machine stacks and their reuse, the value stack of the fiber's VM, the
    register [globals.fiber_result] and the states of the fibers.  What the
    program does between two fiber operations is a parameter ([next]): any
    function of the frames on the running stack and of the shared heap. *)
From Coq Require Import ZArith List Bool Arith.
Import ListNotations.

(** values: only what fibers do with them matters *)
Inductive fval : Set := FNil | FObj (z : Z) | FArr (l : list fval).
(** exceptions: "Dead fiber called." (coroutine.rs:173), "Can not yield from main
    fiber." (102), LocalJumpError (ruruby-common error.rs:182-188), StopIteration
    (executor/fiber.rs:44), ArgumentError, anything else *)
Inductive exn : Set := DeadFiber | MainYield | LocalJump | Stop | ArgError | Other (z : Z).
(** how code ends: a value, an exception, `return` from a block ([MethodReturn]),
    `break` from a block ([BlockReturn], its value in [globals.val]) *)
Inductive outcome : Set := Value (v : fval) | Raise (e : exn) | Return (v : fval) | Break (v : fval).

Definition fid := nat.
Definition sid := nat.
(** the VM code runs on (executor.rs:152-168 [create_fiber]): the main one or that
    of a fiber *)
Definition vmid := option fid.

(** FiberKind, coroutine.rs:24-28.  A fiber has a block with local variables, of
    which the first ones are its parameters; an enumerator has a method call. *)
Inductive kind (K : Type) : Type :=
| KFiber (params lvars : nat) (start : list fval -> K)
| KEnum (start : K).
Arguments KFiber {K}. Arguments KEnum {K}.

(** What the code running on a stack does next: Fiber.yield or a call of an
    enumerator's block; Fiber#resume; Enumerator#next; Fiber.new or
    Kernel#to_enum; the end of a fiber's life (Drop, coroutine.rs:64-69, called by
    the garbage collector or, for the fibers of Enumerator#each, at the end of a
    Rust function); a step that is none of these; the end. *)
Inductive op (K : Type) : Type :=
| OYield (args : list fval) (k : outcome -> K)
| OResume (f : fid) (args : list fval) (k : outcome -> K)
| ONext (f : fid) (k : outcome -> K)
| ONew (b : kind K) (k : fid -> K)
| ODrop (f : fid) (k : K)
| OTau (k : K)
| OEnd (r : outcome).
Arguments OYield {K}. Arguments OResume {K}. Arguments ONext {K}. Arguments ONew {K}.
Arguments ODrop {K}. Arguments OTau {K}. Arguments OEnd {K}.

Inductive fstate : Set := Created | Running | Dead.
(** A stack pointer: the stack it points into, and how often that stack had been
    run on when the pointer was made.  The stack has since changed if it was run
    on again; what the pointer then points to is not modelled. *)
Definition addr := (sid * nat)%type.
(** FiberContext, coroutine.rs:53-62; the value stack is that of [vm], of which
    only the values pushed by [resume] are modelled, and [f_handle] is [vm.handle] *)
Record fctx (K : Type) : Type := mkfctx {
  f_rsp : addr; f_main : addr; f_stack : option sid; f_state : fstate;
  f_vals : list fval; f_handle : bool; f_kind : kind K }.
Arguments mkfctx {K}. Arguments f_rsp {K}. Arguments f_main {K}. Arguments f_stack {K}. Arguments f_state {K}.
Arguments f_vals {K}. Arguments f_handle {K}. Arguments f_kind {K}.

(** What is on top of a stack that is not running: the registers put there by
    [Stack::init] (stack.rs:77-89), which lead to [new_context]; a call of
    [invoke_context] or [switch_context] in [resume] (coroutine.rs:174-183), with
    the code waiting for it; a call of [yield_context] in [fiber_yield]
    (coroutine.rs:109); a call of [yield_context] in [guard] (stack.rs:117-122). *)
Inductive cell (K : Type) : Type :=
| CInit (f : fid) | CResume (f : fid) (vm : vmid) (k : outcome -> K) | CYield (vm : vmid) (k : outcome -> K) | CGuard.
Arguments CInit {K}. Arguments CResume {K}. Arguments CYield {K}. Arguments CGuard {K}.

(** What can be seen of fibers, with the VM that does it: new fibers, calls of
    resume ([n] tells a call of Enumerator#next), the start of a fiber's code with
    its local variables, yields, the values yields return, the end of a fiber's
    code, the results of calls of resume, the end of fibers. *)
Inductive event (K : Type) : Type :=
| ENew (t : vmid) (f : fid) (b : kind K) | EDrop (t : vmid) (f : fid)
| EResume (t : vmid) (f : fid) (n : bool) (v : fval) | EStart (f : fid) (vars : list fval)
| EYield (f : fid) (v : fval) | EBack (f : fid) (v : fval)
| EEnd (f : fid) (r : outcome) | EReturn (t : vmid) (f : fid) (r : outcome).
Arguments ENew {K}. Arguments EDrop {K}. Arguments EResume {K}. Arguments EStart {K}.
Arguments EYield {K}. Arguments EBack {K}. Arguments EEnd {K}. Arguments EReturn {K}.

Definition set {A} (i : nat) (a : A) (m : nat -> A) : nat -> A := fun j => if Nat.eqb j i then a else m j.

(** The machine.  [m_mem]: how often a stack was run on, and what is on top of
    it; [m_base]: the fiber at the very bottom of a stack (stack.rs:80);
    [m_pool]: STACK_STORE (stack.rs:10-12); [m_cur], [m_k], [m_vm]: the stack, the
    frames and the VM that are running. *)
Record mach (K G : Type) : Type := mkmach {
  m_fib : fid -> option (fctx K); m_nfib : nat;
  m_mem : sid -> nat * cell K; m_base : sid -> fid; m_pool : list sid; m_nsid : nat;
  m_cur : sid; m_k : K; m_vm : vmid; m_res : outcome; m_g : G }.
Arguments mkmach {K G}. Arguments m_fib {K G}. Arguments m_nfib {K G}. Arguments m_mem {K G}. Arguments m_base {K G}.
Arguments m_pool {K G}. Arguments m_nsid {K G}. Arguments m_cur {K G}. Arguments m_k {K G}. Arguments m_vm {K G}.
Arguments m_res {K G}. Arguments m_g {K G}.

(** a step with what can be seen of it; the program has ended; undefined
    behaviour: a stale stack pointer, a fiber that does not exist any more *)
Inductive mres (K G : Type) : Type :=
| MStep (tr : list (event K)) (m : mach K G) | MHalt (r : outcome) | MUndef.
Arguments MStep {K G}. Arguments MHalt {K G}. Arguments MUndef {K G}.

Section Machine.
Variable K G : Type.
Variable next : K -> G -> G * op K.

Definition with_fib (m : mach K G) f x :=
  mkmach (set f x (m_fib m)) (m_nfib m) (m_mem m) (m_base m) (m_pool m) (m_nsid m) (m_cur m) (m_k m) (m_vm m) (m_res m) (m_g m).
Definition with_mem (m : mach K G) s c :=
  mkmach (m_fib m) (m_nfib m) (set s c (m_mem m)) (m_base m) (m_pool m) (m_nsid m) (m_cur m) (m_k m) (m_vm m) (m_res m) (m_g m).
Definition with_base (m : mach K G) s f :=
  mkmach (m_fib m) (m_nfib m) (m_mem m) (set s f (m_base m)) (m_pool m) (m_nsid m) (m_cur m) (m_k m) (m_vm m) (m_res m) (m_g m).
Definition with_pool (m : mach K G) l n :=
  mkmach (m_fib m) (m_nfib m) (m_mem m) (m_base m) l n (m_cur m) (m_k m) (m_vm m) (m_res m) (m_g m).
Definition with_run (m : mach K G) s k vm :=
  mkmach (m_fib m) (m_nfib m) (m_mem m) (m_base m) (m_pool m) (m_nsid m) s k vm (m_res m) (m_g m).
Definition with_res (m : mach K G) r :=
  mkmach (m_fib m) (m_nfib m) (m_mem m) (m_base m) (m_pool m) (m_nsid m) (m_cur m) (m_k m) (m_vm m) r (m_g m).
Definition with_g (m : mach K G) (g : G) :=
  mkmach (m_fib m) (m_nfib m) (m_mem m) (m_base m) (m_pool m) (m_nsid m) (m_cur m) (m_k m) (m_vm m) (m_res m) g.
Definition go (m : mach K G) k := with_run m (m_cur m) k (m_vm m).

(** the value stack of a VM; the main one is not modelled *)
Definition push_val (x : fctx K) v := mkfctx (f_rsp x) (f_main x) (f_stack x) (f_state x) (v :: f_vals x) (f_handle x) (f_kind x).
Definition pop_val (x : fctx K) := mkfctx (f_rsp x) (f_main x) (f_stack x) (f_state x) (tl (f_vals x)) (f_handle x) (f_kind x).
Definition with_state (x : fctx K) st := mkfctx (f_rsp x) (f_main x) (f_stack x) st (f_vals x) (f_handle x) (f_kind x).
Definition with_rsp (x : fctx K) a := mkfctx a (f_main x) (f_stack x) (f_state x) (f_vals x) (f_handle x) (f_kind x).
Definition with_main (x : fctx K) a := mkfctx (f_rsp x) a (f_stack x) (f_state x) (f_vals x) (f_handle x) (f_kind x).
Definition with_handle (x : fctx K) := mkfctx (f_rsp x) (f_main x) (f_stack x) (f_state x) (f_vals x) true (f_kind x).

(** exec_native (vm/executor/method.rs:555-570): a builtin function that ends with
    [BlockReturn] gives the value in [globals.val] *)
Definition native (r : outcome) : outcome := match r with Break v => Value v | _ => r end.
(** stack.rs:91-115 [new_context]: the fiber is run.  The local variables of the
    new frame are nil (frame/heap.rs:56-79 [new_heap]; keyword parameters are not modelled); the first of them, if there is one,
    gets the value given to [resume]. *)
Definition first_vars (lvars : nat) (v : fval) : list fval :=
  match lvars with O => [] | S n => v :: repeat FNil n end.
Definition new_context (f : fid) (m : mach K G) : mres K G :=
  match m_fib m f with
  | None => MUndef
  | Some x =>
      let x := with_handle x in
      match f_kind x with
      | KFiber _ lvars start =>
          match f_vals x with
          | [] => MUndef
          | v :: _ =>
              let vars := first_vars lvars v in
              MStep [EStart f vars] (with_run (with_fib m f (Some (pop_val x))) (m_cur m) (start vars) (Some f))
          end
      | KEnum start => MStep [EStart f []] (with_run (with_fib m f (Some x)) (m_cur m) start (Some f))
      end
  end.
(** the rest of [new_context], and executor/fiber.rs:34-45 [enumerator_fiber] *)
Definition final (k : kind K) (r : outcome) : outcome :=
  let r := match k, r with KEnum _, Value _ => Raise Stop | _, _ => r end in
  match r with Return _ => Raise LocalJump | _ => r end.

(** asm_x64.rs: a stack pointer is loaded.  What follows is what the code on that
    stack does after the call that saved it. *)
Definition load (a : addr) (m : mach K G) : mres K G :=
  let (s, n) := a in
  let (n', c) := m_mem m s in
  if negb (Nat.eqb n n') then MUndef
  else
    let m := with_run (with_mem m s (S n, c)) s (m_k m) (m_vm m) in
    match c with
    | CInit f => new_context f m
    | CResume f vm k => MStep [EReturn vm f (native (m_res m))] (with_run m s (k (native (m_res m))) vm)
    | CYield vm k =>
        match vm with
        | Some f =>
            match m_fib m f with
            | Some x =>
                match f_vals x with
                | v :: _ => MStep [EBack f v] (with_run (with_fib m f (Some (pop_val x))) s (k (Value v)) vm)
                | [] => MUndef
                end
            | None => MUndef
            end
        | None => MUndef
        end
    | CGuard => MUndef
    end.
(** asm_x64.rs:18-67 [invoke_context], [switch_context]: the running stack is saved
    in [main_rsp] of the fiber and [rsp] is loaded *)
Definition switch_context (f : fid) (c : cell K) (m : mach K G) : mres K G :=
  match m_fib m f with
  | None => MUndef
  | Some x =>
      let n := fst (m_mem m (m_cur m)) in
      let m := with_mem m (m_cur m) (n, c) in
      load (f_rsp x) (with_fib m f (Some (with_main x (m_cur m, n))))
  end.
(** asm_x64.rs:72-95 [yield_context]: the other way *)
Definition yield_context (f : fid) (c : cell K) (m : mach K G) : mres K G :=
  match m_fib m f with
  | None => MUndef
  | Some x =>
      let n := fst (m_mem m (m_cur m)) in
      let m := with_mem m (m_cur m) (n, c) in
      load (f_main x) (with_fib m f (Some (with_rsp x (m_cur m, n))))
  end.
(** stack.rs:42-52 [allocate], 77-89 [init]; coroutine.rs:135-140 [initialize] *)
Definition initialize (f : fid) (x : fctx K) (m : mach K G) : mach K G :=
  let (s, m) := match m_pool m with
                | s :: l => (s, with_pool m l (m_nsid m))
                | [] => (m_nsid m, with_pool m [] (S (m_nsid m)))
                end in
  let n := S (fst (m_mem m s)) in
  let m := with_base (with_mem m s (n, CInit f)) s f in
  with_fib m f (Some (mkfctx (s, n) (f_main x) (Some s) Running (f_vals x) (f_handle x) (f_kind x))).
(** coroutine.rs:168-186 [resume]: the result *)
Definition resume (f : fid) (v : fval) (k : outcome -> K) (m : mach K G) : mres K G :=
  match m_fib m f with
  | None => MUndef
  | Some x =>
      match f_state x with
      | Dead => MStep [EReturn (m_vm m) f (Raise DeadFiber)] (go m (k (Raise DeadFiber)))
      | Created =>
          let m := initialize f x m in
          match m_fib m f with
          | None => MUndef
          | Some x => switch_context f (CResume f (m_vm m) k) (with_fib m f (Some (push_val x v)))
          end
      | Running => switch_context f (CResume f (m_vm m) k) (with_fib m f (Some (push_val x v)))
      end
  end.
Definition also (e : event K) (r : mres K G) : mres K G :=
  match r with MStep tr m => MStep (e :: tr) m | r => r end.
(** builtin/fiber.rs:38-42 *)
Definition resume_builtin (f : fid) (args : list fval) (k : outcome -> K) (m : mach K G) : mres K G :=
  match args with
  | [] => also (EResume (m_vm m) f false FNil) (resume f FNil k m)
  | [v] => also (EResume (m_vm m) f false v) (resume f v k m)
  | _ => MStep [] (go m (k (Raise ArgError)))
  end.
(** builtin/enumerator.rs:77-93 [next] *)
Definition next_builtin (f : fid) (k : outcome -> K) (m : mach K G) : mres K G :=
  also (EResume (m_vm m) f true FNil)
    match m_fib m f with
    | None => MUndef
    | Some x =>
        match f_state x with
        | Dead => MStep [EReturn (m_vm m) f (Raise Stop)] (go m (k (Raise Stop)))
        | _ => resume f FNil k m
        end
    end.
(** coroutine.rs:95-114 [fiber_yield]; builtin/fiber.rs:23-25,
    builtin/enumerator.rs:42-44 *)
Definition yield_val (args : list fval) : fval :=
  match args with [] => FNil | [v] => v | _ => FArr args end.
Definition handle (m : mach K G) : option fid :=
  match m_vm m with
  | None => None
  | Some f => match m_fib m f with Some x => if f_handle x then Some f else None | None => None end
  end.
Definition fiber_yield (args : list fval) (k : outcome -> K) (m : mach K G) : mres K G :=
  match handle m with
  | None => MStep [] (go m (k (Raise MainYield)))
  | Some f =>
      also (EYield f (yield_val args))
        (yield_context f (CYield (m_vm m) k) (with_res m (Value (yield_val args))))
  end.
(** The code of a stack ends.  On the main stack that is the end of the program;
    on a fiber's stack [new_context] returns to [guard], stack.rs:114, 117-122,
    asm_x64.rs:8-13 [skip], which finds the fiber at the bottom of the stack. *)
Definition fiber_end (r : outcome) (m : mach K G) : mres K G :=
  match m_vm m with
  | None => MHalt r
  | Some f0 =>
      match m_fib m f0 with
      | None => MUndef
      | Some x0 =>
          let m := with_res m (final (f_kind x0) r) in
          let f := m_base m (m_cur m) in
          match m_fib m f with
          | None => MUndef
          | Some x => also (EEnd f0 r) (yield_context f CGuard (with_fib m f (Some (with_state x Dead))))
          end
      end
  end.
(** value.rs:1136-1140, executor/fiber.rs:14-31, coroutine.rs:143-164 *)
Definition new_fiber (b : kind K) (k : fid -> K) (m : mach K G) : mres K G :=
  let f := m_nfib m in
  let m := with_fib m f (Some (mkfctx (0, 0) (0, 0) None Created [] false b)) in
  MStep [ENew (m_vm m) f b]
    (mkmach (m_fib m) (S f) (m_mem m) (m_base m) (m_pool m) (m_nsid m) (m_cur m) (k f) (m_vm m) (m_res m) (m_g m)).
(** coroutine.rs:64-69, stack.rs:60-66 [deallocate] *)
Definition drop_fiber (f : fid) (k : K) (m : mach K G) : mres K G :=
  match m_fib m f with
  | None => MUndef
  | Some x =>
      let m := match f_stack x with Some s => with_pool m (s :: m_pool m) (m_nsid m) | None => m end in
      MStep [EDrop (m_vm m) f] (go (with_fib m f None) k)
  end.

Definition step (m : mach K G) : mres K G :=
  let (g, o) := next (m_k m) (m_g m) in
  let m := with_g m g in
  match o with
  | OYield args k => fiber_yield args k m
  | OResume f args k => resume_builtin f args k m
  | ONext f k => next_builtin f k m
  | ONew b k => new_fiber b k m
  | ODrop f k => drop_fiber f k m
  | OTau k => MStep [] (go m k)
  | OEnd r => fiber_end r m
  end.
(** any number of steps *)
Inductive runs : mach K G -> list (event K) -> mach K G -> Prop :=
| R_none m : runs m [] m
| R_step m tr m1 tr' m' : step m = MStep tr m1 -> runs m1 tr' m' -> runs m (tr ++ tr') m'.
(** the start of a program, on stack 0 *)
Definition boot (k : K) (g : G) : mach K G :=
  mkmach (fun _ => None) 0 (fun _ => (0, CGuard)) (fun _ => 0) [] 1 0 k None (Value FNil) g.
End Machine.
Arguments step {K G}. Arguments runs {K G}. Arguments boot {K G}. Arguments resume {K G}. Arguments load {K G}. Arguments switch_context {K G}.
Arguments yield_context {K G}. Arguments new_context {K G}. Arguments initialize {K G}. Arguments fiber_yield {K G}.
Arguments fiber_end {K G}. Arguments new_fiber {K G}. Arguments drop_fiber {K G}. Arguments also {K G}.
Arguments resume_builtin {K G}. Arguments next_builtin {K G}. Arguments handle {K G}. Arguments final {K}.
