(* How returns, breaks, non-local returns and exceptions choose the frame in
   which execution goes on: the main loop with its counter of invoked frames,
   the recursion through builtin functions, and the exception tables.
   Sources: ruruby/src/vm/executor.rs, vm/executor/opt_core.rs,
   vm/executor/method.rs, ruruby-common/src/code_context.rs.
   Simplifications: code is not represented, an execution is any sequence of
   the operations below; a builtin function may do anything with its frames
   that goes through [run_loop] and [exec_native]; kinds of exceptions and
   error locations are left out; operands are a list per frame (the layout of
   frames on the stack is ModelFrame). *)
From Verif Require Import Base.

(* ISeqKind, globals/method.rs: what is not a block counts as a method
   (method.rs:546-555 [is_block], [is_method]); builtin functions *)
Inductive ckind : Set := Meth | Blk | Nat.
(* ExceptionEntry, code_context.rs:19-34 *)
Record centry : Set := mkcentry { e_rescue : bool; e_start : Z; e_end : Z; e_dest : Z }.
(* code_context.rs:65-67 *)
Definition include (pc : Z) (e : centry) : bool := (e_start e <? pc) && (pc <=? e_end e).
(* A frame: its kind, whether the caller wants the value (the discard flag,
   frame.rs:739), operands, position in the code, exception table. The last
   field is not in the machine: for a block the number of frames below the one
   it was written in; it is only used to say what should happen. *)
Record cframe : Set := mkcframe {
  c_kind : ckind; c_use : bool; c_ops : list Z; c_pc : Z; c_tab : list centry; c_home : nat }.
Definition with_ops (f : cframe) (l : list Z) : cframe :=
  mkcframe (c_kind f) (c_use f) l (c_pc f) (c_tab f) (c_home f).
Definition with_pc (f : cframe) (n : Z) : cframe :=
  mkcframe (c_kind f) (c_use f) (c_ops f) n (c_tab f) (c_home f).

(* RubyErrorKind, error.rs:33-36: the ones that matter here. [Exc w]: any
   exception, [w] the exception object. *)
Inductive ekind : Set := BlockReturn | MethodReturn | Exc (w : Z).

(* The recursion of the host: a [run_loop] with its counter, or a builtin
   function in [exec_native] with the number of frames when it was called and
   whether the calling instruction wants the value. *)
Inductive hctx : Set := HLoop (invoke_count : nat) | HNat (depth : nat) (use_value : bool).
(* Frames from the innermost, the host stack, globals.val, and the error a
   builtin function has just received from the Ruby code it called. *)
Record cst : Set := mkcst { c_fr : list cframe; c_hs : list hctx; c_val : Z; c_pend : option ekind }.

Definition is_meth (f : cframe) : bool := match c_kind f with Blk => false | _ => true end.

(* run_loop, executor.rs:428-468 "Handle Exception" *)
Fixpoint handle_exc (ic : nat) (w : Z) (fr : list cframe) : res (option nat * list cframe) :=
  match fr with
  | [] => Panic
  | f :: r =>
      match find (include (c_pc f)) (c_tab f) with
      | Some e =>
          let ops := if e_rescue e then [] else c_ops f in
          Ok (Some ic, with_pc (with_ops f (w :: ops)) (e_dest e) :: r)
      | None => match ic with O => Ok (None, r) | S ic' => handle_exc ic' w r end
      end
  end.
(* run_loop, executor.rs:401-423 *)
Fixpoint handle_mreturn (ic : nat) (w : Z) (fr : list cframe) : res (option nat * list cframe) :=
  match fr with
  | [] => Panic
  | _ :: r =>
      match ic with
      | O => Ok (None, r)
      | S ic' =>
          match r with
          | [] => Panic
          | g :: r' => if is_meth g then Ok (Some ic', with_ops g (w :: c_ops g) :: r')
                       else handle_mreturn ic' w r
          end
      end
  end.
(* run_loop, executor.rs:394-470: an error reaches the loop *)
Definition loop_err (e : ekind) (ic : nat) (s : cst) (hs : list hctx) : res cst :=
  match e with
  | BlockReturn => Ok (mkcst (c_fr s) hs (c_val s) (Some e))
  | MethodReturn =>
      r <- handle_mreturn ic (c_val s) (c_fr s) ;;
      match r with
      | (Some ic', fr) => Ok (mkcst fr (HLoop ic' :: hs) (c_val s) None)
      | (None, fr) => Ok (mkcst fr hs (c_val s) (Some e))
      end
  | Exc w =>
      r <- handle_exc ic w (c_fr s) ;;
      match r with
      | (Some ic', fr) => Ok (mkcst fr (HLoop ic' :: hs) (c_val s) None)
      | (None, fr) => Ok (mkcst fr hs (c_val s) (Some e))
      end
  end.
Definition pop_frame (s : cst) : res (cframe * list cframe) :=
  match c_fr s with f :: r => Ok (f, r) | [] => Panic end.
Definition pop_op (f : cframe) : res (Z * cframe) :=
  match c_ops f with w :: r => Ok (w, with_ops f r) | [] => Panic end.
(* pushing on the operands of the innermost frame *)
Definition push_top (w : Z) (fr : list cframe) : res (list cframe) :=
  match fr with f :: r => Ok (with_ops f (w :: c_ops f) :: r) | [] => Panic end.
(* the macro [dispatch], opt_core.rs:24-57, for what a builtin function gives *)
Definition dispatch (out : Z + ekind) (use_value : bool) (s : cst) : res cst :=
  match c_hs s with
  | HLoop ic :: hs =>
      match out with
      | inl w => if use_value then fr <- push_top w (c_fr s) ;; Ok (mkcst fr (c_hs s) (c_val s) None)
                 else Ok (mkcst (c_fr s) (c_hs s) (c_val s) None)
      | inr BlockReturn => Ok (mkcst (c_fr s) (c_hs s) (c_val s) None)
      | inr MethodReturn =>
          p <- pop_frame s ;;
          let (f, r) := p in
          if is_meth f then
            match ic with
            | O => Ok (mkcst r hs (c_val s) None)        (* Ok(val); run_loop unwinds, executor.rs:384-392 *)
            | S ic' => fr <- push_top (c_val s) r ;; Ok (mkcst fr (HLoop ic' :: hs) (c_val s) None)
            end
          else loop_err MethodReturn ic s hs
      | inr e => loop_err e ic s hs
      end
  (* a builtin function called by another one ([handle], executor.rs:54-59) *)
  | HNat _ _ :: _ =>
      match out with
      | inl _ => Ok (mkcst (c_fr s) (c_hs s) (c_val s) None)
      | inr e => Ok (mkcst (c_fr s) (c_hs s) (c_val s) (Some e))
      end
  | [] => Panic
  end.
(* exec_native, method.rs:555-570: the builtin function has returned *)
Definition native_end (out : Z + ekind) (s : cst) : res cst :=
  match c_hs s with
  | HNat d u :: hs =>
      p <- pop_frame s ;;
      let r := snd p in
      if negb (Nat.eqb (length r) d) then Panic else   (* the frame above [cfp] is not the function's *)
      let s := mkcst r hs (c_val s) None in
      match out with
      | inr BlockReturn => dispatch (inl (c_val s)) u s
      | _ => dispatch out u s
      end
  | _ => Panic
  end.

Inductive cop : Set :=
  (* in Ruby code *)
  | CPush (w : Z)
  | CPop
  | CPc (n : Z)
  | CInvoke (k : ckind) (use : bool) (n : nat) (tab : list centry) (home : nat)   (* n operands are taken *)
  | CNative (use : bool) (n : nat)
  | CReturn
  | CBreak
  | CMReturn
  | CThrow
  | CRaise (w : Z)
  (* in a builtin function *)
  | CRun (k : ckind) (tab : list centry) (home : nat)   (* Ruby code is called *)
  | CCall                                              (* another builtin function is called *)
  | CDone (w : Z)                                      (* the function returns a value *)
  | CFail (w : Z)                                      (* the function raises *)
  | CPropagate                                         (* the error received is returned, the operator ? *)
  | CCatch.                                            (* the error received is ignored *)

(* the innermost frame belongs to Ruby code or to a builtin function *)
Definition in_loop (s : cst) : res (nat * list hctx * cframe * list cframe) :=
  match c_hs s, c_fr s, c_pend s with
  | HLoop ic :: hs, f :: r, None => Ok (ic, hs, f, r)
  | _, _, _ => Panic
  end.
Definition in_native (s : cst) : res unit :=
  match c_hs s, c_pend s with HNat _ _ :: _, None => Ok tt | _, _ => Panic end.

Definition cstep (o : cop) (s : cst) : res cst :=
  match o with
  | CPush w =>
      p <- in_loop s ;; let '(ic, hs, f, r) := p in
      Ok (mkcst (with_ops f (w :: c_ops f) :: r) (c_hs s) (c_val s) None)
  | CPop =>
      p <- in_loop s ;; let '(ic, hs, f, r) := p in
      q <- pop_op f ;; Ok (mkcst (snd q :: r) (c_hs s) (c_val s) None)
  | CPc n =>
      p <- in_loop s ;; let '(ic, hs, f, r) := p in
      Ok (mkcst (with_pc f n :: r) (c_hs s) (c_val s) None)
  (* opt_core.rs:26-29: Invoke *)
  | CInvoke k u n tab home =>
      p <- in_loop s ;; let '(ic, hs, f, r) := p in
      if Nat.ltb (length (c_ops f)) n then Panic
      else Ok (mkcst (mkcframe k u [] 0 tab home :: with_ops f (skipn n (c_ops f)) :: r) (HLoop (S ic) :: hs) (c_val s) None)
  (* method.rs:545-549 *)
  | CNative u n =>
      p <- in_loop s ;; let '(ic, hs, f, r) := p in
      if Nat.ltb (length (c_ops f)) n then Panic
      else Ok (mkcst (mkcframe Nat u [] 0 [] 0 :: with_ops f (skipn n (c_ops f)) :: r)
                     (HNat (S (length r)) u :: c_hs s) (c_val s) None)
  (* opt_core.rs:116-133, executor.rs:383-392 *)
  | CReturn =>
      p <- in_loop s ;; let '(ic, hs, f, r) := p in
      q <- pop_op f ;;
      match ic with
      | O => Ok (mkcst r hs (c_val s) None)
      | S ic' =>
          fr <- (if c_use f then push_top (fst q) r else Ok r) ;;
          Ok (mkcst fr (HLoop ic' :: hs) (c_val s) None)
      end
  (* opt_core.rs:135-151 *)
  | CBreak =>
      p <- in_loop s ;; let '(ic, hs, f, r) := p in
      q <- pop_op f ;;
      let s := mkcst r (c_hs s) (fst q) None in
      match ic with
      | O => loop_err BlockReturn O s hs
      | S ic' => Ok (mkcst r (HLoop ic' :: hs) (fst q) None)
      end
  (* opt_core.rs:152-158 *)
  | CMReturn =>
      p <- in_loop s ;; let '(ic, hs, f, r) := p in
      q <- pop_op f ;;
      loop_err MethodReturn ic (mkcst (snd q :: r) (c_hs s) (fst q) None) hs
  (* opt_core.rs:159-164 *)
  | CThrow =>
      p <- in_loop s ;; let '(ic, hs, f, r) := p in
      q <- pop_op f ;;
      loop_err (Exc (fst q)) ic (mkcst (with_pc (snd q) (c_pc f - 1) :: r) (c_hs s) (fst q) None) hs
  (* any instruction that fails *)
  | CRaise w =>
      p <- in_loop s ;; let '(ic, hs, f, r) := p in
      loop_err (Exc w) ic s hs
  (* [invoke_block], [invoke_method] and [handle], method.rs:24-33, executor.rs:54-59 *)
  | CRun k tab home =>
      _ <- in_native s ;;
      Ok (mkcst (mkcframe k true [] 0 tab home :: c_fr s) (HLoop 0 :: c_hs s) (c_val s) None)
  | CCall =>
      _ <- in_native s ;;
      Ok (mkcst (mkcframe Nat true [] 0 [] 0 :: c_fr s) (HNat (length (c_fr s)) true :: c_hs s) (c_val s) None)
  | CDone w => _ <- in_native s ;; native_end (inl w) s
  | CFail w => _ <- in_native s ;; native_end (inr (Exc w)) s
  | CPropagate =>
      match c_hs s, c_pend s with
      | HNat _ _ :: _, Some e => native_end (inr e) (mkcst (c_fr s) (c_hs s) (c_val s) None)
      | _, _ => Panic
      end
  | CCatch =>
      match c_hs s, c_pend s with
      | HNat _ _ :: _, Some _ => Ok (mkcst (c_fr s) (c_hs s) (c_val s) None)
      | _, _ => Panic
      end
  end.
Fixpoint csteps (l : list cop) (s : cst) : res cst :=
  match l with [] => Ok s | o :: r => s <- cstep o s ;; csteps r s end.
(* the host program is like a builtin function that is not called by anyone *)
Definition cinit : cst := mkcst [mkcframe Nat true [] 0 [] 0] [HNat 0 true] 0 None.
