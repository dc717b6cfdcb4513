(* Ranges (ruruby/src/builtin/range.rs) and the expansion of splatted
   arguments (ruruby/src/vm/executor.rs:840-933). *)
From Verif Require Import Base ModelValue ModelFloat ModelInt ModelArray.

(* range.rs:4-8 *)
Record range_info : Set := { r_start : value; r_end : value; r_exclude : bool }.

(* The integers of the Rust range a..b, in order. *)
Definition zrange (a b : Z) : list Z := map (fun i => a + Z.of_nat i) (seq 0 (Z.to_nat (b - a))).

(* i64 addition in a build with overflow checks *)
Definition add64 (a b : Z) : res Z := match checked (a + b) with Some c => Ok c | None => Panic end.
Definition sub64 (a b : Z) : res Z := match checked (a - b) with Some c => Ok c | None => Panic end.

(* vm/executor.rs:935-940, reached from range.rs:59-65 (Range.new) and from
   range literals. Numeric bounds only: other bounds answer <=> by method call
   and are outside the model. eval_compare(start, end) compares `end` with
   `start` (its parameters are named rhs, lhs). *)
Definition create_range (start end_ : value) (exclude : bool) : res range_info :=
  c <- invoke_compare start end_ ;;
  match c with
  | Imm w => if w =? NIL_VALUE then Err ArgErr
             else Ok {| r_start := start; r_end := end_; r_exclude := exclude |}
  | Heap _ => Ok {| r_start := start; r_end := end_; r_exclude := exclude |}
  end.

(* range.rs:81-91, 239-243 *)
Definition range_begin (r : range_info) : value := r_start r.
Definition range_end (r : range_info) : value := r_end r.
Definition range_exclude_end (r : range_info) : value := vbool (r_exclude r).

Definition unwrap_fixnum (v : value) : res Z :=
  match as_fixnum v with Some i => Ok i | None => Panic end.

Inductive elem_or_list : Set := EOne (v : value) | EList (l : list value).

(* range.rs:93-113; arg = None when called without argument *)
Definition range_first (r : range_info) (arg : option value) : res elem_or_list :=
  start <- unwrap_fixnum (r_start r) ;;
  e0 <- unwrap_fixnum (r_end r) ;;
  end_ <- sub64 e0 (if r_exclude r then 1 else 0) ;;
  match arg with
  | None => Ok (EOne (r_start r))
  | Some a =>
      n <- coerce_to_fixnum a ;;
      if n <? 0 then Err ArgErr
      else
        s <- add64 start n ;;
        lim <- sub64 s 1 ;;
        let end_ := if lim <? end_ then lim else end_ in
        Ok (EList (map integer (zrange start (end_ + 1))))
  end.

(* range.rs:115-135 *)
Definition range_last (r : range_info) (arg : option value) : res elem_or_list :=
  start <- unwrap_fixnum (r_start r) ;;
  e0 <- unwrap_fixnum (r_end r) ;;
  end_ <- sub64 e0 (if r_exclude r then 1 else 0) ;;
  match arg with
  | None => Ok (EOne (r_end r))
  | Some a =>
      n <- coerce_to_fixnum a ;;
      if n <? 0 then Err ArgErr
      else
        s <- sub64 end_ n ;;
        lim <- add64 s 1 ;;
        let start := if start <? lim then lim else start in
        Ok (EList (map integer (zrange start (end_ + 1))))
  end.

(* The bounds used by map (140-148), flat_map (150-170), each (172-190) and
   all? (192-206): the block is called with integer(i) for i in start..end.
   Simplification: what the block does is not modelled here, only the values
   it is called with. *)
Definition range_iter (r : range_info) : res iter :=
  start <- coerce_to_fixnum (r_start r) ;;
  e0 <- coerce_to_fixnum (r_end r) ;;
  end_ <- add64 e0 (if r_exclude r then 0 else 1) ;;
  Ok (ItRange start end_).

(* range.rs:187-201, all?: stops at the first false answer. [f] is the block,
   a function of its argument (simplification: pure blocks). *)
Fixpoint all_loop (f : value -> bool) (l : list Z) : bool :=
  match l with [] => true | i :: l' => if f (integer i) then all_loop f l' else false end.
Definition range_all (f : value -> bool) (r : range_info) : res value :=
  start <- coerce_to_fixnum (r_start r) ;;
  e0 <- coerce_to_fixnum (r_end r) ;;
  end_ <- add64 e0 (if r_exclude r then 0 else 1) ;;
  Ok (vbool (all_loop f (zrange start end_))).

(* range.rs:203-235, integer branch; a start that is no fixnum is
   unimplemented!() unless it is a string (strings are outside this model). *)
Definition range_to_a (r : range_info) : res (list value) :=
  match as_fixnum (r_start r) with
  | Some start =>
      end_ <- coerce_to_fixnum (r_end r) ;;
      if r_exclude r then Ok (map integer (zrange start end_))
      else e <- add64 end_ 1 ;; Ok (map integer (zrange start e))
  | None => Panic
  end.

(* value/real.rs:71-73 *)
Definition real_included (x start end_ : real) (exclude : bool) : bool :=
  cop_ord Le (real_cmp start x) &&
  (if exclude then cop_ord Lt' (real_cmp x end_) else cop_ord Le (real_cmp x end_)).

(* range.rs:243-280. The last branch calls methods on the bounds; modelled for
   bounds that are heap numbers (numeric.rs define_cmp). *)
Definition range_include (r : range_info) (x : value) : res value :=
  let by_real start :=
    match to_real (r_end r) with
    | None => Panic                            (* .unwrap() *)
    | Some end_ =>
        match to_real x with
        | None => Ok false_val
        | Some xr => Ok (vbool (real_included xr start end_ (r_exclude r)))
        end
    end in
  match unpack (r_start r) with
  | Some (RInteger s) => by_real (RlInt s)
  | Some (RFloat s) => by_real (RlFloat s)
  | _ =>
      b <- numeric_cmp Le (r_start r) x ;;
      if negb (to_bool b) then Ok false_val
      else
        b2 <- (if r_exclude r then numeric_cmp Gt' (r_end r) x else numeric_cmp Ge (r_end r) x) ;;
        Ok (vbool (to_bool b2))
  end.

(* vm/executor/ops.rs:335-348 eval_teq and 307-321 invoke_teq on a range
   receiver: Range defines no === (range.rs:38-58), so the object kind RANGE
   falls to eval_eq2. For a packed argument that compares identities
   (ops.rs:358-380): a heap object never equals a packed word. [id] is the
   address of the range object. *)
Definition range_teq (id : Z) (x : value) : bool := eval_eq2 x (Heap (HObj id)).

(* ---- splatted arguments ---- *)
(* What the stack slots hold while arguments are collected: a plain value, an
   array, a range, or any of these wrapped by the splat operator
   (value.rs as_splat). *)
Inductive item : Set :=
  | IVal (v : value)
  | IArr (l : list item)
  | IRng (r : range_info)
  | ISplat (x : item).

(* vm/executor/frame/ruby_stack.rs:6, 80-86 grow: debug_assert!, then pushes nil *)
Definition VM_STACK_SIZE : Z := 8192.
Definition st_grow (st : list item) (n : Z) : res (list item) :=
  if VM_STACK_SIZE <? zlen st + n then Panic
  else Ok (st ++ repeat (IVal nil) (Z.to_nat n)).
(* ruby_stack.rs:88-93 remove *)
Definition st_remove (st : list item) (p : Z) : list item := zfirst p st ++ zskip (p + 1) st.

(* vm/executor.rs:855-866, 868-881: room for [ary] is made at p by moving the
   slots p+1 .. prev_sp up, then [ary] is stored. `ary_len - 1` underflows for
   an empty [ary]. *)
Definition st_spread (st : list item) (p : Z) (ary : list item) : res (list item) :=
  let prev_sp := zlen st in
  if zlen ary =? 0 then Panic
  else
    st1 <- st_grow st (zlen ary - 1) ;;
    st2 <- v_copy_within st1 (p + 1) prev_sp (p + zlen ary) ;;
    v_copy_from st2 p (p + zlen ary) ary.

(* vm/executor.rs:870-872, start..end of a splatted range; .unwrap() on both *)
Definition splat_bounds (r : range_info) : res (Z * Z) :=
  match coerce_to_fixnum (r_start r) with
  | Ok start =>
      match coerce_to_fixnum (r_end r) with
      | Ok e0 => e <- add64 e0 (if r_exclude r then 0 else 1) ;; Ok (start, e)
      | _ => Panic
      end
  | _ => Panic
  end.

(* vm/executor.rs:842-900 pop_args_to_args; the stack below and the collected
   slots are one list, p the index of the slot looked at. *)
Fixpoint splat_loop (fuel : nat) (st : list item) (p : Z) : res (list item) :=
  match fuel with
  | O => Panic
  | S fuel =>
    if p <? zlen st then
      x <- v_get st p ;;
      match x with
      | ISplat (IArr a) =>
          if zlen a =? 0 then splat_loop fuel (st_remove st p) p
          else st' <- st_spread st p a ;; splat_loop fuel st' (p + zlen a)
      | ISplat (IRng r) =>
          se <- splat_bounds r ;;
          let '(start, end_) := se in
          if end_ >=? start then
            let a := map (fun i => IVal (integer i)) (zrange start end_) in
            st' <- st_spread st p a ;; splat_loop fuel st' (p + zlen a)
          else splat_loop fuel (st_remove st p) p
      | ISplat inner => st' <- v_set st p inner ;; splat_loop fuel st' (p + 1)
      | _ => splat_loop fuel st (p + 1)
      end
    else Ok st
  end.
(* answers the new stack and the number of arguments *)
Definition pop_args_to_args (st : list item) (arg_num : Z) : res (list item * Z) :=
  let start := zlen st - arg_num in
  st' <- splat_loop (S (Z.to_nat arg_num)) st start ;;
  Ok (st', zlen st' - start).

(* vm/executor.rs:902-933 pop_args_to_array *)
Fixpoint splat_array (l : list item) : res (list item) :=
  match l with
  | [] => Ok []
  | x :: l' =>
      this <- (match x with
               | ISplat (IArr a) => Ok a
               | ISplat (IRng r) =>
                   se <- splat_bounds r ;;
                   let '(start, end_) := se in
                   Ok (if end_ >=? start then map (fun i => IVal (integer i)) (zrange start end_) else [])
               | ISplat inner => Ok [inner]
               | _ => Ok [x]
               end) ;;
      rest <- splat_array l' ;; Ok (this ++ rest)
  end.
