(** What a caller may rely on when a call changes to another stack, in the words
    of the calling conventions; and the executions this is said of. *)
From Coq Require Import ZArith List Bool.
From Verif Require Import ModelSwitch.
Import ListNotations.
Local Open Scope Z_scope.

(** The registers a function gives back as it found them: System V ABI for x86-64,
    figure 3.4; Procedure Call Standard for arm64, 6.1.1 and 6.1.2 (the link
    register is the return address); Microsoft's x64 convention. *)
Definition callee_saved (A : arch) : list reg :=
  match A with
  | X64 => [RBX; RBP; R12; R13; R14; R15]
  | Arm64 => [X 19; X 20; X 21; X 22; X 23; X 24; X 25; X 26; X 27; X 28; X 29;
              D 8; D 9; D 10; D 11; D 12; D 13; D 14; D 15]
  | Win64 => [RBX; RBP; RDI; RSI; R12; R13; R14; R15] ++
             flat_map (fun n => [XMM n false; XMM n true]) [6; 7; 8; 9; 10; 11; 12; 13; 14; 15]
  end.
(** The register of the first argument, the alignment of the stack pointer at the
    start of a function, where its return address is, and how much higher the
    stack pointer is after its return. *)
Definition first_arg (A : arch) : reg := match A with X64 => RDI | Arm64 => X 0 | Win64 => RCX end.
Definition aligned (A : arch) (c : cpu) : Prop :=
  regs c SP mod 16 = match A with Arm64 => 0 | _ => 8 end.
Definition return_address (A : arch) (c : cpu) : Z :=
  match A with Arm64 => regs c (X 30) | _ => mem c (regs c SP) end.
Definition popped (A : arch) : Z := match A with Arm64 => 0 | _ => 8 end.

(** A call seen by its caller: the address after it, the stack pointer and the
    registers before it.  [back]: it has returned. *)
Record snap : Type := mksnap { s_ra : Z; s_sp : Z; s_regs : reg -> Z }.
Definition snap_of (ra : Z) (c : cpu) : snap := mksnap ra (regs c SP) (regs c).
Definition back (A : arch) (s : snap) (c : cpu) : Prop :=
  pc c = s_ra s /\ regs c SP = s_sp s /\ forall r, In r (callee_saved A) -> regs c r = s_regs s r.
(** A function at [fn] has been called with argument [f]. *)
Definition called (A : arch) (fn f : Z) (c : cpu) : Prop :=
  pc c = fn /\ regs c (first_arg A) = f /\ aligned A c.

(** How much of the caller's stack below the stack pointer a call of one of the
    functions takes. *)
Definition room (A : arch) : Z := match A with X64 => 56 | Arm64 => 176 | Win64 => 232 end.

(** Who is running: the fibers resumed and not yet back, the innermost first,
    each with the call that resumed it; and the fibers that have yielded, each
    with its call. *)
Record who : Type := mkwho { chain : list (Z * snap); susp : Z -> option snap }.
Definition sets (f : Z) (x : option snap) (m : Z -> option snap) : Z -> option snap :=
  fun f' => if Z.eqb f' f then x else m f'.
Definition waiting (w : who) (s : snap) : Prop := (exists f, In (f, s) (chain w)) \/ exists f, susp w f = Some s.

Section Executions.
Variable A : arch.
(** the stack of the main program *)
Variables ml mh : Z.

(** Blocks of memory in use. *)
Inductive tag : Set := TMain | TFcb (f : Z) | TStack (f : Z) | TPool (i : nat).
Inductive block (m : mach) : tag -> Z -> Z -> Prop :=
| B_main : block m TMain ml (mh - ml)
| B_fcb f x : fibs m f = Some x -> block m (TFcb f) f 16
| B_stack f x : fibs m f = Some x -> stack x <> 0 -> block m (TStack f) (stack x) STACK_SIZE
| B_pool i b : nth_error (pool m) i = Some b -> block m (TPool i) b STACK_SIZE.
Definition disjoint (a n a' n' : Z) : Prop := a + n <= a' \/ a' + n' <= a.
Definition fresh (m : mach) (a n : Z) : Prop := forall t a' n', block m t a' n' -> disjoint a n a' n'.

(** Code between two changes of stack may use all registers, and may write
    anywhere but to the words where [rsp] and [main_rsp] of a FiberContext are,
    to what a waiting call has put on its stack, and to the last two words of a
    fiber's stack. *)
Definition reserved (m : mach) (w : who) (a : Z) : Prop :=
  (exists f x, fibs m f = Some x /\ (a = f \/ a = f + 8))
  \/ (exists s, waiting w s /\ s_sp s - room A <= a < s_sp s)
  \/ (exists f x, fibs m f = Some x /\ stack x <> 0 /\ (a = stack x + STACK_SIZE - 8 \/ a = stack x + STACK_SIZE - 16)).
(** The stack pointer is on the stack of who is running, with room for a call. *)
Definition area (m : mach) (o : option Z) (lo hi : Z) : Prop :=
  match o with
  | None => lo = ml /\ hi = mh
  | Some f => exists x, fibs m f = Some x /\ stack x <> 0 /\ lo = stack x /\ hi = stack x + STACK_SIZE - 24
  end.
Definition runner (l : list (Z * snap)) : option Z := match l with [] => None | (f, _) :: _ => Some f end.
Definition on_stack (m : mach) (w : who) : Prop :=
  exists lo hi, area m (runner (chain w)) lo hi /\ lo + room A <= regs (cp m) SP <= hi.

(** The steps of a program: any code; Fiber.new; the end of a fiber that is not
    being run; resuming a fiber that is not being run; a yield of the running
    fiber; the return of [new_context], which was entered with stack pointer 24
    or 32 bytes below the end of the stack. *)
Definition entry_sp (b : Z) : Z := b + STACK_SIZE - match A with Arm64 => 32 | _ => 24 end.
Inductive act : mach -> who -> mach -> who -> Prop :=
| X_code m w c :
    (forall a, reserved m w a -> mem c a = mem (cp m) a) ->
    act m w (mkmach c (fibs m) (pool m)) w
| X_new m w f :
    fibs m f = None -> fresh m f 16 -> act m w (new_fiber f m) w
| X_drop m w f :
    ~ In f (map fst (chain w)) ->
    act m w (drop_fiber f m) (mkwho (chain w) (sets f None (susp w)))
| X_resume m w ra f b m' :
    ~ In f (map fst (chain w)) -> on_stack m w ->
    (pool m = [] -> b <> 0 /\ b mod 4096 = 0 /\ fresh m b STACK_SIZE) ->
    resume A ra f b m = Some m' ->
    act m w m' (mkwho ((f, snap_of ra (cp m)) :: chain w) (sets f None (susp w)))
| X_yield m w ra f s l :
    chain w = (f, s) :: l -> on_stack m w ->
    act m w (fiber_yield A ra f m) (mkwho l (sets f (Some (snap_of ra (cp m))) (susp w)))
| X_finish m w ra k f s l x :
    chain w = (f, s) :: l -> fibs m f = Some x ->
    regs (cp m) SP = entry_sp (stack x) + popped A ->
    0 <= k < STACK_SIZE - 1024 ->
    act m w (finish A ra k m) (mkwho l (susp w)).
Inductive reach : mach -> who -> Prop :=
| R_boot c : reach (mkmach c (fun _ => None) []) (mkwho [] (fun _ => None))
| R_act m w m' w' : reach m w -> act m w m' w' -> reach m' w'.
(** The first resume of [f] arrives at the start of [new_context], on the fiber's
    own stack, to return to [skip]. *)
Definition first_entry (f : Z) (m' : mach) : Prop :=
  exists x, fibs m' f = Some x /\ regs (cp m') SP = entry_sp (stack x) /\ called A NEW_CONTEXT f (cp m')
    /\ return_address A (cp m') = SKIP.
(** What a resume of [f] may write: below the stack pointer, the two words of the
    FiberContext, the end of a new stack. *)
Definition resume_writes (m m' : mach) (w : who) (f a : Z) : Prop :=
  regs (cp m) SP - room A <= a < regs (cp m) SP \/ a = f \/ a = f + 8
  \/ susp w f = None /\ exists x, fibs m' f = Some x /\ stack x + STACK_SIZE - 32 <= a < stack x + STACK_SIZE.
End Executions.
