(* Bindings: builtin/binding.rs:25-78, builtin/kernel.rs:430-457 (eval with a
   binding, binding), vm/executor/method.rs:341-353 eval_binding,
   vm/executor/frame.rs:299-345 and 512-524, and what the parser and the code
   generator do with the names of an evaluated text. Machine and memory are those
   of ModelFrame, the box of a binding is new_binding in ModelMark, the scope
   functions are those of ModelScope and ModelCodegen.

   Simplifications: of an evaluated text only assignments of a given word to a
   local variable, assignments that are parsed but not carried out, and uses of a
   name are kept. The sequence stored in a frame is represented by its table of
   names, kept beside the address of the frame. The call of a method by a text is
   treated apart ([enter_eval]). *)
From Verif Require Import Base ModelValue ModelArray ModelFrame ModelMark ModelCodegen ModelScope.

(* frame.rs:295-297 *)
Definition set_local_len (m : Z -> Z) (e n : Z) : Z -> Z :=
  upd m (e + EV_FLAG) (Z.lor (Z.land (m (e + EV_FLAG)) (2 ^ 32 - 1)) (Z.shiftl n 32)).
(* frame.rs:335-339, the first loop of set_iseq *)
Fixpoint move_words (k : nat) (m : Z -> Z) (old new : Z) : Z -> Z :=
  match k with O => m | S k => move_words k (upd m new (m old)) (old + 1) (new + 1) end.
(* frame.rs:340-342, the second loop: [new] is not advanced *)
Fixpoint fill_nil (k : nat) (m : Z -> Z) (new : Z) : Z -> Z :=
  match k with O => m | S k => fill_nil k (upd m new NIL_VALUE) new end.
(* frame.rs:329-345 set_iseq; [i] is the sequence, [n] its number of variables *)
Definition set_iseq (m : Z -> Z) (e i n : Z) : res (Z -> Z) :=
  let l := flag_len m e in
  if n <? l then Panic else
  let m1 := move_words (Z.to_nat (l + 1)) m (e - l - 2) (e - n - 2) in
  let m2 := fill_nil (Z.to_nat (n - l)) m1 (e - n - 2 + (l + 1)) in
  let m3 := set_local_len m2 e n in
  Ok (upd m3 (e + EV_ISEQ) (iseq_word i)).

(* what a text does with names, in the order of the text *)
Inductive stmt : Set :=
| Assign (x w : Z)    (* x = w *)
| Skip (x : Z)        (* x = w if false *)
| Use (x : Z).        (* x *)
(* what the parser makes of it: a use is a local variable or an identifier *)
Inductive pstmt : Set := PAssign (x w : Z) | PSkip (x : Z) | PLocal (x : Z) | PIdent (x : Z).

(* parser.rs:116-130 for an assignment, 173-190 for a name *)
Fixpoint parse_stmts (l : list stmt) (stk : list pctx) (ext : list (list Z)) : list pctx * list pstmt :=
  match l with
  | [] => (stk, [])
  | Assign x w :: r =>
      let '(stk', p) := parse_stmts r (add_local_var_if_new x stk ext) ext in (stk', PAssign x w :: p)
  | Skip x :: r =>
      let '(stk', p) := parse_stmts r (add_local_var_if_new x stk ext) ext in (stk', PSkip x :: p)
  | Use x :: r =>
      let q := if is_local_var x stk ext then PLocal x else PIdent x in
      let '(stk', p) := parse_stmts r stk ext in (stk', q :: p)
  end.
(* parser.rs:49-57 and 61-82 parse_program_binding: one context, of kind Block,
   that starts with the table of the binding; the table at the end is that of the
   new sequence *)
Definition parse_program_binding (l : list stmt) (t : list Z) (ext : list (list Z)) : list Z * list pstmt :=
  let '(stk, p) := parse_stmts l [mkpctx t KBlk] ext in
  (match stk with c :: _ => pc_table c | [] => [] end, p).

(* the code: codegen.rs:1640-1669 with the contexts of an eval (codegen.rs:84, 165,
   kind Eval) *)
Inductive ins : Set := ISetL (o k w : Z) | IGetL (o k : Z) | ICallM (x : Z) | INone.
Definition gen_stmt (t : list Z) (ext : list (list Z)) (p : pstmt) : res ins :=
  match p with
  | PAssign x w =>
      match get_ctx x 0 0 [(t, false); ([], false)] ext with Some (o, k) => Ok (ISetL o k w) | None => Panic end
  | PSkip x =>
      match get_ctx x 0 0 [(t, false); ([], false)] ext with Some _ => Ok INone | None => Panic end
  | PLocal x =>
      match get_ctx x 0 0 [(t, false); ([], false)] ext with Some (o, k) => Ok (IGetL o k) | None => Err NameErr end
  | PIdent x => Ok (ICallM x)
  end.
Fixpoint gen_stmts (t : list Z) (ext : list (list Z)) (l : list pstmt) : res (list ins) :=
  match l with [] => Ok [] | p :: r => i <- gen_stmt t ext p ;; c <- gen_stmts t ext r ;; Ok (i :: c) end.

(* opt_core.rs GET_LOCAL, SET_LOCAL, GET_DYNLOCAL, SET_DYNLOCAL with
   executor.rs:820-826; [l] is vm.lfp *)
Definition slot (m : Z -> Z) (e l o k : Z) : res Z :=
  if o =? 0 then Ok (l + k)
  else f <- outer_frame m (Z.to_nat o) e ;; Ok (get_lfp m f + k).
(* the words of the uses so far, and whether a NameError was raised: no method has
   the name of a variable *)
Fixpoint exec_code (c : list ins) (m : Z -> Z) (e l : Z) : res ((Z -> Z) * list Z * bool) :=
  match c with
  | [] => Ok (m, [], false)
  | ISetL o k w :: r => a <- slot m e l o k ;; exec_code r (upd m a w) e l
  | IGetL o k :: r =>
      a <- slot m e l o k ;; q <- exec_code r m e l ;;
      let '(m', out, bad) := q in Ok (m', m a :: out, bad)
  | ICallM _ :: r => Ok (m, [], true)
  | INone :: r => exec_code r m e l
  end.

(* The bindings of the method frame [frames] (innermost first, all on the heap)
   and of its outer frames; each with its address and the table of its sequence. *)
Record bst : Type := mkbst { vmof : vm; bindings : list (Z * list Z); frames : list (Z * list Z) }.

Fixpoint set_nth {A} (n : nat) (a : A) (l : list A) : list A :=
  match l, n with [], _ => [] | _ :: r, O => a :: r | x :: r, S n => x :: set_nth n a r end.

(* method.rs:341-353 eval_binding, frame.rs:512-524; called by binding.rs:25-41 and
   kernel.rs:446-449. [i] is the new sequence. *)
Definition eval_binding (i : Z) (j : nat) (l : list stmt) (s : bst) : res (bst * list Z * bool) :=
  match nth_error (bindings s) j with
  | None => Panic
  | Some (e, t) =>
      let ext := map snd (frames s) in
      let '(t', p) := parse_program_binding l t ext in
      c <- gen_stmts t' ext p ;;
      m <- set_iseq (mem (vmof s)) e i (zlen t') ;;
      q <- exec_code c m e (get_lfp m e) ;;
      let '(m', out, bad) := q in
      Ok (mkbst (set_mem (fun _ => m') (vmof s)) (set_nth j (e, t') (bindings s)) (frames s), out, bad)
  end.
(* kernel.rs:452-457 binding, executor.rs:978-982 create_binding_context: the
   caller's frame is on the heap already *)
Definition new_binding_of (i : Z) (s : bst) : res bst :=
  match frames s with
  | [] => Panic
  | (o, _) :: _ =>
      r <- new_binding (self_value (mem (vmof s)) o) i 0 (Some o) (vmof s) ;;
      let '(e, v) := r in Ok (mkbst v (bindings s ++ [(e, [])]) (frames s))
  end.
(* binding.rs:55-59 *)
Definition receiver (s : bst) (j : nat) : res Z :=
  match nth_error (bindings s) j with None => Panic | Some (e, _) => Ok (self_value (mem (vmof s)) e) end.
(* frame.rs:318-327 enumerate_local_vars; IndexSet::insert keeps the first position *)
Definition set_insert (x : Z) (l : list Z) : list Z := if existsb (Z.eqb x) l then l else l ++ [x].
Fixpoint enumerate_local_vars (ts : list (list Z)) (vec : list Z) : list Z :=
  match ts with [] => vec | t :: r => enumerate_local_vars r (fold_left (fun v x => set_insert x v) t vec) end.
(* binding.rs:61-68 *)
Definition local_variables (s : bst) (j : nat) : res (list Z) :=
  match nth_error (bindings s) j with
  | None => Panic
  | Some (_, t) => Ok (enumerate_local_vars (t :: map snd (frames s)) [])
  end.
(* binding.rs:70-78 *)
Definition local_variable_defined (s : bst) (j : nat) (x : Z) : res bool :=
  l <- local_variables s j ;; Ok (existsb (Z.eqb x) l).

(* what happens to bindings: one is made, a text is evaluated with one *)
Inductive bop : Set := New (i : Z) | Eval (i : Z) (j : nat) (l : list stmt).
Fixpoint run_ops (l : list bop) (s : bst) : res (bst * list (list Z * bool)) :=
  match l with
  | [] => Ok (s, [])
  | New i :: r => s <- new_binding_of i s ;; run_ops r s
  | Eval i j t :: r =>
      q <- eval_binding i j t s ;;
      let '(s, out, bad) := q in
      q <- run_ops r s ;; let '(s, res) := q in Ok (s, (out, bad) :: res)
  end.

(* frame.rs:512-524 push_block_frame_from_binding with 568-601: the frame of the
   evaluated text; its ep is the box of the binding *)
Definition enter_eval (e : Z) (s : vm) : res vm :=
  s <- push (self_value (mem s) e) s ;;
  let prev_sp := sp s - 1 in
  out <- outer (mem s) e ;;
  i <- frame_iseq (mem s) e ;;
  let l := get_lfp (mem s) e in
  let receiver := mem s prev_sp in
  let s := save_next_pc s in
  let prev_cfp := cfp s in
  s <- push receiver s ;;
  let s := set_cfp (sp s) s in
  mf <- match out with None => Ok (cfp s) | Some o => mfp (mem s) o end ;;
  s <- extend_from_slice (control_frame prev_cfp e (ruby_flag true 0)) s ;;
  s <- extend_from_slice (block_env_frame mf out i) s ;;
  Ok (set_lfp l (ModelFrame.set_code i 0 s)).
(* method.rs:341-353 up to the main loop *)
Definition start_eval (e i n : Z) (s : vm) : res vm :=
  m <- set_iseq (mem s) e i n ;; enter_eval e (set_mem (fun _ => m) s).
(* method.rs:545-557: a native method that evaluates a text whose frame is left at
   once; the fields pc and iseq are put back *)
Definition nested_eval (e i n : Z) (s : vm) : res vm :=
  let i0 := iseq s in let p0 := pc s in let c0 := cfp s in
  let s := save_next_pc s in
  s <- push_native_frame 0 s ;;
  s <- start_eval e i n s ;;
  s <- unwind_frame s ;;
  s <- unwind_native_frame c0 s ;;
  Ok (ModelFrame.set_code i0 p0 s).
