(* Which values a collection visits in frames and environments:
   vm/executor.rs:71-90, vm/executor/frame.rs:237-246, frame/heap.rs,
   builtin/procobj.rs:20-25. A visit is the word that is looked at. Machine and
   memory are those of ModelFrame. *)
From Verif Require Import Base ModelValue ModelArray ModelFrame.

(* frame.rs:303-307 *)
Definition locals (m : Z -> Z) (e : Z) : list Z := read m (e - flag_len m e - 1) (Z.to_nat (flag_len m e)).
(* frame.rs:237-246 EnvFrame::mark; the recursion follows the chain of outer environments *)
Fixpoint env_mark (fuel : nat) (m : Z -> Z) (e : Z) : res (list Z) :=
  match fuel with
  | O => Panic
  | S n =>
      if is_ruby m e then
        o <- outer m e ;;
        r <- match o with None => Ok [] | Some d => env_mark n m d end ;;
        Ok (locals m e ++ r)
      else Ok (locals m e)
  end.
(* executor.rs:76-89: the loop over the control frames, from [c] on *)
Definition frame_mark (fuel : nat) (s : vm) (c : Z) : res (list Z) :=
  if is_ruby (mem s) c then
    e <- ep (mem s) c ;;
    o <- outer (mem s) e ;;
    r <- match o with None => Ok [] | Some d => env_mark fuel (mem s) d end ;;
    Ok ((if on_stack s e then [] else locals (mem s) e) ++ r)
  else Ok [].
Fixpoint frames_mark (fuel depth : nat) (s : vm) (c : Z) : res (list Z) :=
  match fuel with
  | O => Panic
  | S n =>
      own <- frame_mark depth s c ;;
      rest <- match prev (mem s) c with None => Ok [] | Some p => frames_mark n depth s p end ;;
      Ok (own ++ rest)
  end.
(* executor.rs:71-90 VM::mark; ruby_stack.rs:130-133 iter. [temp] is temp_stack. *)
Definition vm_mark (fuel : nat) (temp : list Z) (s : vm) : res (list Z) :=
  f <- frames_mark fuel fuel s (cfp s) ;;
  Ok (read (mem s) (stack_bottom s) (Z.to_nat (sp s - stack_bottom s)) ++ temp ++ f).
(* procobj.rs:20-25 ProcInfo::mark *)
Definition proc_mark (fuel : nat) (m : Z -> Z) (self e : Z) : res (list Z) :=
  l <- env_mark fuel m e ;; Ok (self :: l).

(* frame.rs:716-724 heap_env_frame *)
Definition heap_env_frame (out : option Z) (i : Z) : list Z :=
  [enc 0; enc_opt out; fixword 0; iseq_word i; fixword 0].
(* heap.rs:56-79 new_heap, with [n] local variables of a sequence without keyword parameters *)
Definition new_heap (self i n : Z) (out : option Z) (s : vm) : res (Z * vm) :=
  let e := hp s + n + 2 in
  let words := self :: repeat NIL_VALUE (Z.to_nat n) ++ self :: [enc 0; enc 0; ruby_flag true n] ++ heap_env_frame out i in
  let m := upd (write (mem s) (hp s) words) (e + EV_EP) (enc e) in
  mf <- match out with None => Ok e | Some o => mfp m o end ;;
  Ok (e, set_hp (hp s + zlen words) (set_mem (fun _ => upd m (e + EV_MFP) (enc mf)) s)).
(* heap.rs:81-105 new_binding, with [n] local variables; its assertion (83) *)
Definition new_binding (self i n : Z) (out : option Z) (s : vm) : res (Z * vm) :=
  if negb (n <? 64) then Panic else
  let e := hp s + 65 in
  let words := repeat NIL_VALUE (Z.to_nat (64 - n - 1)) ++ self :: repeat NIL_VALUE (Z.to_nat n) ++ self ::
               [enc 0; enc 0; ruby_flag true n] ++ heap_env_frame out i in
  let m := upd (write (mem s) (hp s) words) (e + EV_EP) (enc e) in
  mf <- match out with None => Ok e | Some o => mfp m o end ;;
  Ok (e, set_hp (hp s + zlen words) (set_mem (fun _ => upd m (e + EV_MFP) (enc mf)) s)).
(* executor.rs:978-982 create_binding_context; Kernel#binding passes the caller's
   frame. ISeqRef::default() allocates an empty sequence
   (lib.rs:50-54); its address is 0 here, nothing reads it. *)
Definition create_binding_context (f : Z) (s : vm) : res (Z * vm) :=
  r <- move_cfp_to_heap (Z.to_nat VM_STACK_SIZE) f s ;;
  let '(o, s) := r in new_binding (self_value (mem s) o) 0 0 (Some o) s.
(* executor.rs:984-1000 create_heap for a block of frame [f] of code [i] with [n] variables *)
Definition create_heap (f i n : Z) (s : vm) : res (Z * vm) :=
  r <- move_cfp_to_heap (Z.to_nat VM_STACK_SIZE) f s ;;
  let '(o, s) := r in new_heap (self_value (mem s) o) i n (Some o) s.
