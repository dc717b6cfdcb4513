(* Frames on the machine stack, environments moved to the heap, and block
   references: ruruby/src/vm/executor/frame.rs, frame/heap.rs,
   frame/ruby_stack.rs, vm/args.rs, vm/executor/method.rs.

   Memory is a map from slots to 64-bit words; slot k is the address 8 * k (a
   Value is 8 bytes). The stack buffer is the [VM_STACK_SIZE] slots from
   [stack_bottom] on; boxes on the heap are placed at [hp], behind it, and are
   not freed (the collector keeps boxes that are referred to). Writing outside
   the stack buffer is Panic: a debug assertion in push (ruby_stack.rs:103),
   undefined behaviour in extend_from_slice (135-139). An instruction sequence is
   the slot of its ISeqInfo; the program counter is its offset in the current
   sequence instead of a pointer into it (executor.rs:176-185). *)
From Verif Require Import Base ModelValue ModelArray.

(* ---- the machine ---- *)
(* ruby_stack.rs:6 *)
Definition VM_STACK_SIZE : Z := 8192.
(* frame.rs:10-21 *)
Definition EV_PREV_CFP : Z := 0.
Definition EV_EP : Z := 1.
Definition EV_FLAG : Z := 2.
Definition EV_MFP : Z := 3.
Definition EV_OUTER : Z := 4.
Definition EV_PC : Z := 5.
Definition EV_ISEQ : Z := 6.
Definition EV_BLK : Z := 7.
Definition CONT_FRAME_LEN : Z := 3.
Definition RUBY_FRAME_LEN : Z := 5.
(* frame.rs:23-26 *)
Definition FLG_DISCARD : Z := 4.
Definition FLG_IS_RUBY : Z := 128.

Record vm : Type := mkvm {
  mem : Z -> Z;
  stack_bottom : Z;
  hp : Z;
  sp : Z;
  cfp : Z;
  lfp : Z;
  iseq : Z;
  pc : Z
}.
Definition upd (m : Z -> Z) (a w : Z) : Z -> Z := fun b => if b =? a then w else m b.
Fixpoint write (m : Z -> Z) (a : Z) (l : list Z) : Z -> Z :=
  match l with [] => m | w :: r => write (upd m a w) (a + 1) r end.
Fixpoint read (m : Z -> Z) (a : Z) (n : nat) : list Z :=
  match n with O => [] | S n' => m a :: read m (a + 1) n' end.

Definition set_mem (f : (Z -> Z) -> Z -> Z) (s : vm) : vm :=
  mkvm (f (mem s)) (stack_bottom s) (hp s) (sp s) (cfp s) (lfp s) (iseq s) (pc s).
Definition set_sp (x : Z) (s : vm) : vm :=
  mkvm (mem s) (stack_bottom s) (hp s) x (cfp s) (lfp s) (iseq s) (pc s).
Definition set_cfp (x : Z) (s : vm) : vm :=
  mkvm (mem s) (stack_bottom s) (hp s) (sp s) x (lfp s) (iseq s) (pc s).
Definition set_lfp (x : Z) (s : vm) : vm :=
  mkvm (mem s) (stack_bottom s) (hp s) (sp s) (cfp s) x (iseq s) (pc s).
Definition set_code (i p : Z) (s : vm) : vm :=
  mkvm (mem s) (stack_bottom s) (hp s) (sp s) (cfp s) (lfp s) i p.
Definition set_hp (x : Z) (s : vm) : vm :=
  mkvm (mem s) (stack_bottom s) x (sp s) (cfp s) (lfp s) (iseq s) (pc s).

(* ruby_stack.rs:102-106 *)
Definition push (w : Z) (s : vm) : res vm :=
  if sp s - stack_bottom s =? VM_STACK_SIZE then Panic
  else Ok (set_sp (sp s + 1) (set_mem (fun m => upd m (sp s) w) s)).
(* ruby_stack.rs:109-113 *)
Definition pop (s : vm) : res (Z * vm) :=
  if sp s - stack_bottom s =? 0 then Panic else Ok (mem s (sp s - 1), set_sp (sp s - 1) s).
(* ruby_stack.rs:135-139 *)
Definition extend_from_slice (l : list Z) (s : vm) : res vm :=
  if sp s + zlen l <=? stack_bottom s + VM_STACK_SIZE
  then Ok (set_sp (sp s + zlen l) (set_mem (fun m => write m (sp s) l) s)) else Panic.
(* ruby_stack.rs:95-99 *)
Definition insert (p w : Z) (s : vm) : res vm :=
  if sp s + 1 <=? stack_bottom s + VM_STACK_SIZE
  then Ok (set_sp (sp s + 1)
            (set_mem (fun m => write m p (w :: read m p (Z.to_nat (sp s - p)))) s))
  else Panic.

(* ---- reading frames ---- *)
(* frame.rs:48-50, 53-60: enc, dec *)
Definition enc (p : Z) : Z := Z.lor (8 * p) 1.
Definition dec (w : Z) : option Z :=
  let a := Z.land w (2 ^ 64 - 2) in if a =? 0 then None else Some (a / 8).
(* EnvFrame::encode, frame.rs:257-259; the default is the null pointer *)
Definition enc_opt (o : option Z) : Z := match o with Some p => enc p | None => enc 0 end.
Definition unwrap {A} (o : option A) : res A := match o with Some a => Ok a | None => Panic end.
(* frame.rs:63-75: flag, flag_len, is_ruby_func *)
Definition flag_len (m : Z -> Z) (f : Z) : Z := Z.shiftr (m (f + EV_FLAG)) 32.
Definition is_ruby (m : Z -> Z) (f : Z) : bool := negb (Z.land (m (f + EV_FLAG)) FLG_IS_RUBY =? 0).
(* frame.rs:78-80 *)
Definition ep (m : Z -> Z) (f : Z) : res Z := unwrap (dec (m (f + EV_EP))).
(* frame.rs:170-173 *)
Definition prev (m : Z -> Z) (f : Z) : option Z := dec (m (f + EV_PREV_CFP)).
(* frame.rs:175-177 *)
Definition get_prev_sp (m : Z -> Z) (f : Z) : Z := f - flag_len m f - 2.
(* frame.rs:299-301 *)
Definition get_lfp (m : Z -> Z) (e : Z) : Z := e - flag_len m e - 1.
(* frame.rs:43-45 *)
Definition self_value (m : Z -> Z) (f : Z) : Z := m (f - 1).
(* frame.rs:164-166 *)
Definition frame_pc (m : Z -> Z) (f : Z) : Z := as_fnum (m (f + EV_PC)).
(* frame.rs:261-264 *)
Definition mfp (m : Z -> Z) (e : Z) : res Z :=
  if is_ruby m e then unwrap (dec (m (e + EV_MFP))) else Panic.
(* frame.rs:267-270 *)
Definition outer (m : Z -> Z) (e : Z) : res (option Z) :=
  if is_ruby m e then Ok (dec (m (e + EV_OUTER))) else Panic.
(* frame.rs:273-278; ISeqRef::encode and decode, lib.rs:87-95. An address 8 * i
   is stored as the fixnum i. *)
Definition iseq_word (i : Z) : Z := Z.lor (u64 (Z.shiftl (Z.shiftr (i64 (8 * i)) 3) 1)) 1.
Definition frame_iseq (m : Z -> Z) (e : Z) : res Z :=
  if is_ruby m e then
    let i := as_fnum (m (e + EV_ISEQ)) in
    if i =? 0 then Panic else Ok (u64 (Z.shiftl i 3) / 8)
  else Panic.
(* fixnum as a word, value.rs:1011-1013 *)
Definition fixword (n : Z) : Z := Z.lor (u64 (Z.shiftl n 1)) 1.
(* vm/args.rs:6-10: FnId and IdentId are non-zero u32 (func_id.rs:2,
   id_table.rs:14), Frame is a u32 (frame.rs:30); a proc is its address *)
Inductive blkref : Set := KBlock (fid frame : Z) | KProc (addr : Z) | KSym (id : Z).
(* vm/args.rs:42-51; None: frame.rs:695-698 *)
Definition blk_word (b : option blkref) : Z :=
  match b with
  | None => fixword 0
  | Some (KBlock m f) => fixword (i64 (u64 (u64 (Z.shiftl m 32) + f)))
  | Some (KProc a) => 8 * a
  | Some (KSym id) => Z.lor (Z.shiftl id 32) TAG_SYMBOL
  end.
(* ruruby-common/src/func_id.rs:13-15, 35-40 *)
Definition fnid_from (id : Z) : res Z := if id =? 0 then Panic else Ok id.
(* vm/args.rs:25-40 *)
Definition word_blk (w : Z) : res (option blkref) :=
  if is_fnum w then
    if as_fnum w =? 0 then Ok None
    else let u := u64 (as_fnum w) in
         m <- fnid_from (u32 (Z.shiftr u 32)) ;; Ok (Some (KBlock m (u32 u)))
  else if is_packed_symbol w then Ok (Some (KSym (as_packed_symbol w)))
  else Ok (Some (KProc (w / 8))).
(* frame.rs:280-283 *)
Definition frame_block (m : Z -> Z) (e : Z) : res (option blkref) :=
  if is_ruby m e then word_blk (m (e + EV_BLK)) else Panic.

(* ---- building frames ---- *)
(* frame.rs:748-757 *)
Definition ruby_flag (use_value : bool) (local_len : Z) : Z :=
  Z.lor (Z.lor (Z.lor (Z.shiftl local_len 32) 1) FLG_IS_RUBY) (if use_value then 0 else FLG_DISCARD).
Definition native_flag (args_len : Z) : Z := Z.lor (Z.shiftl args_len 32) 1.
(* frame.rs:685-687 *)
Definition control_frame (prev_cfp e flag : Z) : list Z := [enc prev_cfp; enc e; flag].
(* frame.rs:689-700 *)
Definition method_env_frame (e i : Z) (blk : option blkref) : list Z :=
  [enc e; enc_opt None; fixword 0; iseq_word i; blk_word blk].
(* frame.rs:702-714 *)
Definition block_env_frame (mf : Z) (out : option Z) (i : Z) : list Z :=
  [enc mf; enc_opt out; fixword 0; iseq_word i; fixword 0].
(* frame.rs:662-667 *)
Definition save_next_pc (s : vm) : vm :=
  if is_ruby (mem s) (cfp s) then set_mem (fun m => upd m (cfp s + EV_PC) (fixword (pc s))) s else s.
(* frame.rs:526-549 *)
Definition push_method_frame (use_value : bool) (i local_len : Z) (blk : option blkref) (s : vm) : res vm :=
  let prev_sp := sp s - local_len - 1 in
  let receiver := mem s prev_sp in
  let s := save_next_pc s in
  let prev_cfp := cfp s in
  s <- push receiver s ;;
  let s := set_cfp (sp s) s in
  let e := cfp s in
  s <- extend_from_slice (control_frame prev_cfp e (ruby_flag use_value local_len)) s ;;
  s <- extend_from_slice (method_env_frame e i blk) s ;;
  Ok (set_lfp (prev_sp + 1) (set_code i 0 s)).
(* frame.rs:568-604, with `heap` None *)
Definition push_block_frame (prev_sp : Z) (use_value : bool) (out : option Z) (i local_len l : Z) (s : vm) : res vm :=
  let receiver := mem s prev_sp in
  let s := save_next_pc s in
  let prev_cfp := cfp s in
  s <- push receiver s ;;
  let s := set_cfp (sp s) s in
  mf <- match out with None => Ok (cfp s) | Some o => mfp (mem s) o end ;;
  s <- extend_from_slice (control_frame prev_cfp (cfp s) (ruby_flag use_value local_len)) s ;;
  s <- extend_from_slice (block_env_frame mf out i) s ;;
  Ok (set_lfp l (set_code i 0 s)).
(* frame.rs:620-627 *)
Definition push_native_frame (args_len : Z) (s : vm) : res vm :=
  let prev_cfp := cfp s in
  let prev_sp := sp s - args_len - 1 in
  s <- push (mem s prev_sp) s ;;
  let s := set_lfp (prev_sp + 1) (set_cfp (sp s) s) in
  extend_from_slice (control_frame prev_cfp (cfp s) (native_flag args_len)) s.
(* frame.rs:634-644 *)
Definition unwind_frame (s : vm) : res vm :=
  c <- unwrap (prev (mem s) (cfp s)) ;;
  let s := set_cfp c (set_sp (get_prev_sp (mem s) (cfp s)) s) in
  e <- ep (mem s) c ;;
  let s := set_lfp (get_lfp (mem s) e) s in
  if is_ruby (mem s) (cfp s) then
    i <- frame_iseq (mem s) e ;; Ok (set_code i (frame_pc (mem s) c) s)
  else Ok s.
(* frame.rs:651-654 *)
Definition unwind_native_frame (c : Z) (s : vm) : res vm :=
  let s := set_cfp c (set_sp (get_prev_sp (mem s) (cfp s)) s) in
  e <- ep (mem s) c ;;
  Ok (set_lfp (get_lfp (mem s) e) s).
(* frame.rs:669-677 *)
Definition clear_stack (s : vm) : vm :=
  set_sp (cfp s + CONT_FRAME_LEN + (if is_ruby (mem s) (cfp s) then RUBY_FRAME_LEN else 0)) s.
(* frame.rs:488-496 [init_frame] *)
Definition init_frame (s : vm) : res vm :=
  s <- push NIL_VALUE s ;;
  let s := set_cfp (sp s) s in
  extend_from_slice (control_frame 0 (cfp s) (native_flag 0)) s.

(* ---- variables and closures ---- *)
(* executor.rs:820-826, 257-259 *)
Fixpoint outer_frame (m : Z -> Z) (n : nat) (e : Z) : res Z :=
  match n with O => Ok e | S n' => o <- outer m e ;; o <- unwrap o ;; outer_frame m n' o end.
Definition get_dyn_local (n : nat) (s : vm) : res Z :=
  e <- ep (mem s) (cfp s) ;; e <- outer_frame (mem s) n e ;; Ok (get_lfp (mem s) e).
(* frame.rs:309-316 [frame] *)
Definition env_words (m : Z -> Z) (e : Z) : list Z :=
  read m (e - flag_len m e - 2) (Z.to_nat (flag_len m e + 2 + CONT_FRAME_LEN + RUBY_FRAME_LEN)).
(* heap.rs:107-128 [dup_frame] *)
Definition dup_frame (cur : Z) (out : option Z) (s : vm) : res (Z * vm) :=
  if is_ruby (mem s) cur then
    let words := env_words (mem s) cur in
    let e := hp s + flag_len (mem s) cur + 2 in
    let m := write (mem s) (hp s) words in
    let m := upd (upd m (e + EV_EP) (enc e)) (cur + EV_EP) (enc e) in
    mf <- match out with None => Ok e | Some o => mfp m o end ;;
    let m := upd (upd m (e + EV_MFP) (enc mf)) (cur + EV_MFP) (enc mf) in
    let m := upd (upd m (e + EV_OUTER) (enc_opt out)) (cur + EV_OUTER) (enc_opt out) in
    Ok (e, set_hp (hp s + zlen words) (set_mem (fun _ => m) s))
  else Panic.
(* ruby_stack.rs:44-53 *)
Definition on_stack (s : vm) (p : Z) : bool :=
  (stack_bottom s <=? p) && (p <? stack_bottom s + VM_STACK_SIZE).
(* frame.rs:778-792; the recursion follows the chain of outer environments *)
Fixpoint move_ep_to_heap (fuel : nat) (e : Z) (s : vm) : res (Z * vm) :=
  match fuel with
  | O => Panic
  | S fuel' =>
      if on_stack s e then
        o <- outer (mem s) e ;;
        os <- match o with
              | None => Ok (None, s)
              | Some d => r <- move_ep_to_heap fuel' d s ;; Ok (Some (fst r), snd r)
              end ;;
        r <- dup_frame e (fst os) (snd os) ;;
        let '(h, s) := r in
        Ok (h, if cfp s =? e then set_lfp (get_lfp (mem s) h) s else s)
      else Ok (e, s)
  end.
(* frame.rs:772-775 *)
Definition move_cfp_to_heap (fuel : nat) (f : Z) (s : vm) : res (Z * vm) :=
  e <- ep (mem s) f ;; move_ep_to_heap fuel e s.

(* ---- calls, as the interpreter and the builtin functions make them ---- *)
(* The machine with what lives on the host stack: the registers saved by
   exec_native (method.rs:545-557), innermost first, and the environments held
   by the proc objects made so far. *)
Record mach : Type := mkmach { v : vm; host : list (Z * Z * Z); procs : list Z }.
Definition with_v (f : vm -> res vm) (x : mach) : res mach :=
  s <- f (v x) ;; Ok (mkmach s (host x) (procs x)).

(* frame.rs:396-403 cfp_index, 429-431 cur_frame; 415-418 cfp_from_frame *)
Definition cur_frame (s : vm) : Z := u32 (cfp s - stack_bottom s).
Definition cfp_from_frame (s : vm) (f : Z) : Z := stack_bottom s + f.
(* frame.rs:434-436, 474-476: cur_mfp, get_method_block *)
Definition get_method_block (s : vm) : res (option blkref) :=
  e <- ep (mem s) (cfp s) ;; mf <- mfp (mem s) e ;; frame_block (mem s) mf.

(* invoke_block (method.rs:461-487) into push_block_frame_fast or _slow
   (arg_handler.rs:104-134, 4-58), for [n] arguments that are the local
   variables: the receiver slot is below them. Filling in missing arguments is
   modelled in ModelArgs. *)
Definition invoke_block (use_value : bool) (i n out : Z) (s : vm) : res vm :=
  o <- ep (mem s) out ;;
  let base := sp s - n in
  push_block_frame (base - 1) use_value (Some o) i n base s.
(* opt_core.rs:785-799 [vm_yield] with a Block *)
Definition yield_block (use_value : bool) (i n f : Z) (s : vm) : res vm :=
  e <- ep (mem s) (cfp_from_frame s f) ;;
  s <- insert (sp s - n) (self_value (mem s) e) s ;;
  invoke_block use_value i n e s.

(* What the machine is told to do; [i] is an instruction sequence, [n] a number
   of arguments. The frames are counted from the innermost. *)
Inductive op : Set :=
  | OPush (w : Z)                        (* push a value *)
  | OPop                                 (* POP *)
  | OSelf                                (* PUSH_SELF *)
  | OGet (d : nat) (x : Z)               (* GET_LOCAL, GET_DYNLOCAL *)
  | OSet (d : nat) (x : Z)               (* SET_LOCAL, SET_DYNLOCAL *)
  | OPc (n : Z)                          (* the program counter moves *)
  | OClear                               (* a rescue clause starts *)
  | OCall (use_value : bool) (i n : Z) (blk : option Z)  (* call with a block of the current frame *)
  | OYield (i n : Z)
  | OProc (j : nat) (self i n : Z)       (* call of the j-th proc object *)
  | ONative (n : Z)                      (* a builtin function starts *)
  | OReturn                              (* RETURN *)
  | OUnwind                              (* an exception or a break leaves the frame *)
  | OCapture (k : nat)                   (* a proc is made from a block of the k-th frame *)
  | OGrab.                               (* a proc is made from the block of the current method *)

Fixpoint nth_prev (m : Z -> Z) (k : nat) (f : Z) : res Z :=
  match k with O => Ok f | S k' => p <- unwrap (prev m f) ;; nth_prev m k' p end.
(* Value::procobj, value.rs:1123-1126. Any chain of environments on the stack
   is shorter than the stack. *)
Definition capture (f : Z) (x : mach) : res mach :=
  r <- move_cfp_to_heap (Z.to_nat VM_STACK_SIZE) f (v x) ;;
  Ok (mkmach (snd r) (host x) (procs x ++ [fst r])).
(* opt_core.rs:235-256; executor.rs:257-259 *)
Definition var_slot (d : nat) (x : Z) (s : vm) : res Z :=
  match d with O => Ok (lfp s + x) | _ => l <- get_dyn_local d s ;; Ok (l + x) end.

Definition step (o : op) (x : mach) : res mach :=
  match o with
  | OPush w => with_v (push w) x
  | OPop => with_v (fun s => r <- pop s ;; Ok (snd r)) x
  (* opt_core.rs:21, 166, executor.rs:234-236 *)
  | OSelf => with_v (fun s => push (mem s (lfp s - 1)) s) x
  | OGet d i => with_v (fun s => a <- var_slot d i s ;; push (mem s a) s) x
  | OSet d i => with_v (fun s => r <- pop s ;; a <- var_slot d i (snd r) ;;
                          Ok (set_mem (fun m => upd m a (fst r)) (snd r))) x
  | OPc n => with_v (fun s => Ok (set_code (iseq s) n s)) x
  | OClear => with_v (fun s => Ok (clear_stack s)) x
  (* opt_core.rs:669-688, arg_handler.rs:136-152 *)
  | OCall uv i n blk =>
      with_v (fun s => push_method_frame uv i n
                (match blk with Some m => Some (KBlock m (cur_frame s)) | None => None end) s) x
  | OYield i n =>
      with_v (fun s => b <- get_method_block s ;;
                match b with
                | Some (KBlock _ f) => yield_block true i n f s
                | Some _ => Panic
                | None => Err LocalJumpErr
                end) x
  (* method.rs:432-446 [invoke_proc]: the caller has left a slot below the
     arguments (42-47), which gets the receiver *)
  | OProc j self i n =>
      e <- unwrap (nth_error (procs x) j) ;;
      with_v (fun s => s <- insert (sp s - n) self s ;; invoke_block true i n e s) x
  (* method.rs:545-549 *)
  | ONative n =>
      s <- push_native_frame n (save_next_pc (v x)) ;;
      Ok (mkmach s ((cfp (v x), iseq (v x), pc (v x)) :: host x) (procs x))
  (* opt_core.rs:116-133 *)
  | OReturn =>
      with_v (fun s =>
        let use_value := Z.land (mem s (cfp s + EV_FLAG)) FLG_DISCARD =? 0 in
        r <- pop s ;; s <- unwind_frame (snd r) ;;
        if use_value then push (fst r) s else Ok s) x
  (* executor.rs:456-461; a builtin function: method.rs:555-557 *)
  | OUnwind =>
      if is_ruby (mem (v x)) (cfp (v x)) then with_v unwind_frame x
      else match host x with
           | [] => Panic
           | (c, i, p) :: h =>
               s <- unwind_native_frame c (v x) ;; Ok (mkmach (set_code i p s) h (procs x))
           end
  | OCapture k => f <- nth_prev (mem (v x)) k (cfp (v x)) ;; capture f x
  (* executor.rs:944-951 [create_proc] *)
  | OGrab => b <- get_method_block (v x) ;;
      match b with
      | Some (KBlock _ f) => capture (cfp_from_frame (v x) f) x
      | _ => Panic
      end
  end.
Fixpoint steps (l : list op) (x : mach) : res mach :=
  match l with [] => Ok x | o :: r => x <- step o x ;; steps r x end.
