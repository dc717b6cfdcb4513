(** An instance of the primitives of the interpreter, used to show that what the
    compiler theorems assume about primitives can be met: integers with the
    operations of [ModelInt], a world with instance and global variables,
    arrays that can only be created and taken apart, and two methods, one that
    logs its arguments and one that raises its argument. *)
From Coq Require Import ZArith List Bool.
From Verif Require Import Base ModelValue ModelInt ModelInst ModelCodegen ModelVM.
Import ListNotations.
Open Scope Z_scope.

Record iworld : Set := mkiw {
  iw_ivars : list (Z * value);
  iw_gvars : list (Z * value);
  iw_arrays : list (list value);
  iw_log : list (list value)
}.

Definition same (a b : value) : bool :=
  match a, b with
  | Imm x, Imm y => x =? y
  | Heap (HBig m), Heap (HBig n) => m =? n
  | Heap (HObj i), Heap (HObj j) => i =? j
  | _, _ => false
  end.

(** the integer a value stands for *)
Definition int_of (v : value) : option Z :=
  match (match v with
         | Imm _ => as_fixnum v
         | Heap (HBig n) => Some n
         | _ => None
         end) with
  | Some n => if same v (bignum n) then Some n else None
  | None => None
  end.

Definition kind_code (k : rkind) : Z :=
  match k with ZeroDiv => 1 | NoMethodErr => 2 | TypeErr => 3 | _ => 4 end.

Definition lift {A} (r : res A) (w : iworld) : pres iworld A :=
  match r with
  | Ok v => POk v w
  | Err k => PRaise (symbol (kind_code k)) w
  | Panic => PRaise (symbol 9) w
  end.

Definition ints {A} (l r : value) (w : iworld) (x : res A) : pres iworld A :=
  match int_of l, int_of r with
  | Some _, Some _ => lift x w
  | _, _ => PRaise (symbol 3) w
  end.

Definition ieq (l r : value) : bool :=
  match int_of l, int_of r with
  | Some _, Some _ => eval_eq2 r l
  | _, _ => same l r
  end.

Definition ibin (op : binop) (l r : value) (w : iworld) : pres iworld value :=
  match op with
  | BAdd => ints l r w (invoke_add l r)
  | BSub => ints l r w (invoke_sub l r)
  | BMul => ints l r w (invoke_mul l r)
  | BDiv => ints l r w (invoke_div l r)
  | BRem => ints l r w (invoke_rem l r)
  | BBitAnd => ints l r w (invoke_bitand l r)
  | BBitOr => ints l r w (invoke_bitor l r)
  | BTEq => POk (vbool (ieq l r)) w
  | _ => PRaise (symbol 2) w
  end.

Definition cop_of (c : cmpop) : cop :=
  match c with cGE => Ge | cGT => Gt' | cLE => Le | _ => Lt' end.

Definition icmp (c : cmpop) (l r : value) (w : iworld) : pres iworld bool :=
  match c with
  | cEQ => POk (ieq l r) w
  | cNE => POk (negb (ieq l r)) w
  | _ => ints l r w (eval_cmp2 (cop_of c) r l)
  end.

Definition ieqi (l : value) (i : Z) : bool :=
  match int_of l with
  | Some _ => match eval_eqi l i with Ok b => b | _ => false end
  | None => same l (integer i)
  end.

Definition icmpi (c : cmpop) (l : value) (i : Z) (w : iworld) : pres iworld bool :=
  match c with
  | cEQ => POk (ieqi l i) w
  | cNE => POk (negb (ieqi l i)) w
  | _ => match int_of l with
         | Some _ => lift (eval_cmp_i (cop_of c) l i) w
         | None => PRaise (symbol 3) w
         end
  end.

Definition iarith (f : value -> Z -> res value) (l : value) (i : Z) (w : iworld) : pres iworld value :=
  match int_of l with
  | Some _ => lift (f l i) w
  | None => PRaise (symbol 3) w
  end.

Fixpoint put (x : Z) (v : value) (l : list (Z * value)) : list (Z * value) :=
  match l with
  | [] => [(x, v)]
  | (y, u) :: r => if y =? x then (y, v) :: r else (y, u) :: put x v r
  end.
Fixpoint get (x : Z) (l : list (Z * value)) : value :=
  match l with
  | [] => nil
  | (y, u) :: r => if y =? x then u else get x r
  end.

Definition elems (v : value) (w : iworld) : option (list value) :=
  match v with
  | Heap (HObj i) => if i <? 0 then None else nth_error (iw_arrays w) (Z.to_nat i)
  | _ => None
  end.

Definition iindex (v i : value) (w : iworld) : pres iworld value :=
  match elems v w with
  | Some l => match int_of i with
              | Some k => POk (if k <? 0 then nil else nth (Z.to_nat k) l nil) w
              | None => PRaise (symbol 3) w
              end
  | None => ints v i w (int_index v i)
  end.

Definition iindexi (v : value) (i : Z) (w : iworld) : pres iworld value :=
  match elems v w with
  | Some l => POk (nth (Z.to_nat i) l nil) w
  | None => iarith get_index_imm_int v i w
  end.

Definition isetindex (v i x : value) (w : iworld) : pres iworld unit :=
  match v, elems v w, int_of i with
  | Heap (HObj a), Some l, Some k =>
      if (0 <=? k) && (k <? Z.of_nat (length l)) then
        POk tt (mkiw (iw_ivars w) (iw_gvars w)
                     (upd_nth (Z.to_nat a) (upd_nth (Z.to_nat k) x l) (iw_arrays w))
                     (iw_log w))
      else PRaise (symbol 5) w
  | _, _, _ => PRaise (symbol 2) w
  end.

(** method 7 logs its arguments, method 8 raises its argument *)
Definition isend (id : Z) (r : value) (args : list value) (w : iworld) : pres iworld value :=
  if id =? 7 then POk nil (mkiw (iw_ivars w) (iw_gvars w) (iw_arrays w) (iw_log w ++ [args]))
  else if id =? 8 then PRaise (hd nil args) w
  else PRaise (symbol 2) w.

(** class variables and constants are kept with the global variables; what is written is also logged *)
Definition slot_of (k : bop) : option Z :=
  match k with bCvar x => Some (1000 + x) | bConst x _ => Some (2000 + x) | bScope x => Some (3000 + x) | _ => None end.
Definition istore (k : bop) (l : list value) (v : value) (w : iworld) : pres iworld unit :=
  match slot_of k with
  | Some x => POk tt (mkiw (iw_ivars w) (put x v (iw_gvars w)) (iw_arrays w) (iw_log w ++ [l ++ [v]]))
  | None => PRaise (symbol 2) w
  end.
(** an operation makes an array of its operands, yield and calls also log them; reading a class
    variable that is not set raises *)
Definition iop (k : bop) (l : list value) (w : iworld) : pres iworld value :=
  match k with
  | bCvar x => match find (fun p => fst p =? 1000 + x) (iw_gvars w) with
               | Some p => POk (snd p) w
               | None => PRaise (symbol 4) w
               end
  | _ =>
  POk (Heap (HObj (Z.of_nat (length (iw_arrays w)))))
      (mkiw (iw_ivars w) (iw_gvars w) (iw_arrays w ++ [l])
            (match k with bYield | bCall _ _ _ _ _ _ _ => iw_log w ++ [l] | _ => iw_log w end))
  end.
(** a copy of an array *)
Definition idup (v : value) (w : iworld) : value * iworld :=
  match elems v w with
  | Some l => (Heap (HObj (Z.of_nat (length (iw_arrays w)))),
               mkiw (iw_ivars w) (iw_gvars w) (iw_arrays w ++ [l]) (iw_log w))
  | None => (v, w)
  end.

(** Is there such a thing?  Methods 7 and 8 always, 60 to 99 for integers *)
Definition idefd (q : defq) (w : iworld) : bool :=
  let has x (l : list (Z * value)) := existsb (fun p => fst p =? x) l in
  match q with
  | qMethod r id => (id =? 7) || (id =? 8)
                    || ((60 <=? id) && (id <? 100) && match int_of r with Some _ => true | None => false end)
  | qIvar x => has x (iw_ivars w)
  | qGvar x => has x (iw_gvars w)
  | qConst x => has (2000 + x) (iw_gvars w)
  | qScope _ x => has (3000 + x) (iw_gvars w)
  end.

Definition iprims : prims iworld := mkprims iworld
  (symbol 0)
  ibin (iarith invoke_addi) (iarith invoke_subi) icmp icmpi
  (fun op v w => match op, int_of v with
                 | UNeg, Some _ => lift (invoke_neg v) w
                 | _, _ => PRaise (symbol 2) w
                 end)
  iindex iindexi isetindex (fun v i x w => isetindex v (integer i) x w)
  (fun x w => get x (iw_gvars w))
  (fun x v w => mkiw (iw_ivars w) (put x v (iw_gvars w)) (iw_arrays w) (iw_log w))
  (fun x w => get x (iw_ivars w))
  (fun x v w => mkiw (put x v (iw_ivars w)) (iw_gvars w) (iw_arrays w) (iw_log w))
  isend
  (fun l w => (Heap (HObj (Z.of_nat (length (iw_arrays w)))),
               mkiw (iw_ivars w) (iw_gvars w) (iw_arrays w ++ [l]) (iw_log w)))
  iop
  istore
  (fun a b ex w => POk (Heap (HObj (Z.of_nat (length (iw_arrays w)))))
                       (mkiw (iw_ivars w) (iw_gvars w) (iw_arrays w ++ [[a; b; vbool ex]]) (iw_log w)))
  idup
  elems
  (fun x w => POk (symbol x) w)
  (fun e exs w => existsb (fun x => same x e || same x (symbol 50)) exs)
  (fun a b w => ieq a b)
  idefd.
