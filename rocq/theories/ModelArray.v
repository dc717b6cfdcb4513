(* Arrays: ruruby/src/value/array.rs and ruruby/src/builtin/array.rs.
   An array is the list of its elements; a is any element type, [nilv] the nil
   element. usize and i64 quantities are Z. Simplifications: the in-line/heap
   storage of SmallVec is not distinguished, running out of memory (as opposed
   to exceeding the address space) is not modelled, and the receiver is not
   mutated by the block it calls. *)
From Verif Require Import Base.

Definition zlen {A} (l : list A) : Z := Z.of_nat (length l).
Definition zfirst {A} (n : Z) (l : list A) : list A := firstn (Z.to_nat n) l.
Definition zskip {A} (n : Z) (l : list A) : list A := skipn (Z.to_nat n) l.

(* ---- the Vec/slice primitives used; out-of-range arguments panic ---- *)
(* SmallVec growth: the next power of two times 8 bytes must fit isize *)
Definition CAP : Z := 2 ^ 59.
(* v.resize(n, x), array.rs:169-171 *)
Definition v_resize {A} (l : list A) (n : Z) (x : A) : res (list A) :=
  if n <=? zlen l then Ok (zfirst n l)
  else if CAP <? n then Panic
  else Ok (l ++ repeat x (Z.to_nat (n - zlen l))).
(* v.push(x), array.rs:154-156 *)
Definition v_push {A} (l : list A) (x : A) : res (list A) :=
  if CAP <=? zlen l then Panic else Ok (l ++ [x]).
(* v.truncate(n), array.rs:164-166 *)
Definition v_truncate {A} (l : list A) (n : Z) : list A := zfirst n l.
(* v[i] = x *)
Definition v_set {A} (l : list A) (i : Z) (x : A) : res (list A) :=
  if (0 <=? i) && (i <? zlen l) then Ok (zfirst i l ++ x :: zskip (i + 1) l) else Panic.
(* v[i] *)
Definition v_get {A} (l : list A) (i : Z) : res A :=
  if (0 <=? i) && (i <? zlen l) then
    match nth_error l (Z.to_nat i) with Some x => Ok x | None => Panic end
  else Panic.
(* &v[s..e] *)
Definition v_slice {A} (l : list A) (s e : Z) : res (list A) :=
  if (0 <=? s) && (s <=? e) && (e <=? zlen l) then Ok (zfirst (e - s) (zskip s l)) else Panic.
(* v.copy_within(s..e, d): memmove inside the slice *)
Definition v_copy_within {A} (l : list A) (s e d : Z) : res (list A) :=
  if (s <=? e) && (e <=? zlen l) && (d <=? zlen l - (e - s)) then
    Ok (zfirst d l ++ zfirst (e - s) (zskip s l) ++ zskip (d + (e - s)) l)
  else Panic.
(* v[s..e].copy_from_slice(src): lengths must match *)
Definition v_copy_from {A} (l : list A) (s e : Z) (src : list A) : res (list A) :=
  if (s <=? e) && (e <=? zlen l) && (zlen src =? e - s) then
    Ok (zfirst s l ++ src ++ zskip e l)
  else Panic.

(* ---- element access ---- *)
(* array.rs:213-223 *)
Definition get_array_index {A} (l : list A) (index : Z) : res Z :=
  if index <? 0 then
    let i := zlen l + index in if i <? 0 then Err RangeErr else Ok i
  else Ok index.
(* array.rs:284-290 *)
Definition get_elem_imm {A} (nilv : A) (l : list A) (index : Z) : res A :=
  if zlen l <=? index then Ok nilv else v_get l index.
(* array.rs:245-250, Integer index *)
Definition get_elem1 {A} (nilv : A) (l : list A) (index : Z) : res A :=
  let i := match get_array_index l index with Ok i => i | _ => zlen l end in
  get_elem_imm nilv l i.
(* A slice result is nil (None) or a new array. array.rs:251-282; range bounds
   are already coerced to i64. `as usize` wraps negative values. *)
Definition get_elem_range {A} (l : list A) (rstart rend : Z) (exclude : bool) : res (option (list A)) :=
  let len := zlen l in
  let i_start := if rstart <? 0 then len + rstart else rstart in
  if len <? i_start then Ok None
  else if len =? i_start then Ok (Some [])
  else
    let start := u64 i_start in
    let one := if exclude then 0 else 1 in
    let e := if 0 <=? rend then
               let e := rend + one in if len <? e then len else e
             else u64 (len + rend + one) in
    if e <=? start then Ok (Some [])
    else s <- v_slice l start e ;; Ok (Some s).
(* array.rs:225-243 with two arguments *)
Definition get_elem2 {A} (l : list A) (index len : Z) : res (option (list A)) :=
  let self_len := zlen l in
  let index := match get_array_index l index with Ok i => i | _ => self_len end in
  if len <? 0 then Ok None
  else if self_len <=? index then Ok (Some [])
  else
    let e := Z.min self_len (index + len) in
    s <- v_slice l index e ;; Ok (Some s).

(* array.rs:376-383 *)
Definition set_elem_imm {A} (nilv : A) (l : list A) (index : Z) (v : A) : res (list A) :=
  if zlen l <=? index then r <- v_resize l index nilv ;; v_push r v
  else v_set l index v.
(* array.rs:307-315, Integer index *)
Definition set_elem1 {A} (nilv : A) (l : list A) (index : Z) (v : A) : res (list A) :=
  if 0 <=? index then set_elem_imm nilv l index v
  else i <- get_array_index l index ;; v_set l i v.

(* The assigned value: an element, another array with its contents, or the
   receiver itself (then contents are read from the receiver while it is being
   rewritten; the final overlapping copy is taken to behave like memmove). *)
Inductive splice_rhs (A : Type) : Type :=
  | RElem (x : A)
  | RArr (ary : list A)
  | RSelf.
Arguments RElem {A} x. Arguments RArr {A} ary. Arguments RSelf {A}.
(* array.rs:336-374 *)
Definition set_elem2 {A} (nilv : A) (l : list A) (index length : Z) (val : splice_rhs A) : res (list A) :=
  let len := zlen l in
  let with_array (ary_len : Z) (read : list A -> list A) : res (list A) :=
    r <- (if (len <=? index) || (len <? index + length) then v_resize l (index + ary_len) nilv
          else if length <? ary_len then
            r <- v_resize l (len + ary_len - length) nilv ;;
            v_copy_within r (index + length) len (index + ary_len)
          else
            r <- v_copy_within l (index + length) len (index + ary_len) ;;
            v_resize r (len + ary_len - length) nilv) ;;
    v_copy_from r index (index + ary_len) (zfirst ary_len (read r)) in
  match val with
  | RArr ary => with_array (zlen ary) (fun _ => ary)
  | RSelf => with_array len (fun r => r)
  | RElem x =>
      r <- (if len <=? index then v_resize l (index + 1) nilv
            else if length =? 0 then
              r <- v_push l nilv ;; v_copy_within r index len (index + 1)
            else
              let e := index + length in
              if e <? len then
                r <- v_copy_within l e len (index + 1) ;; Ok (v_truncate r (len + 1 - length))
              else Ok (v_truncate l (index + 1))) ;;
      v_set r index x
  end.
(* array.rs:292-305 with three arguments *)
Definition set_elem {A} (nilv : A) (l : list A) (index length : Z) (val : splice_rhs A) : res (list A) :=
  i <- get_array_index l index ;;
  if length <? 0 then Err IndexErr else set_elem2 nilv l i length val.
(* array.rs:316-331, Range index *)
Definition set_elem_range {A} (nilv : A) (l : list A) (rstart rend : Z) (exclude : bool)
    (val : splice_rhs A) : res (list A) :=
  first <- get_array_index l rstart ;;
  last0 <- get_array_index l rend ;;
  let last := last0 + (if exclude then 0 else 1) in
  if last <? first then set_elem2 nilv l first 0 val
  else set_elem2 nilv l first (last - first) val.

(* ---- callbacks ---- *)
(* A block: from any state of the rest of the program and an argument to a new
   state and a result, which may be an exception. *)
Definition cb (S A B : Type) : Type := S -> A -> S * res B.

(* ---- retain, array.rs:186-206 ---- *)
Definition v_swap {A} (l : list A) (i j : Z) : res (list A) :=
  x <- v_get l i ;; y <- v_get l j ;; l1 <- v_set l i y ;; v_set l1 j x.
(* the loop over i in 0..len; [n] = elements left. Returns program state, the
   array as it is left, and the number deleted or the error. *)
Fixpoint retain_loop {S A} (f : cb S A bool) (s : S) (v : list A) (i : Z) (n : nat) (del : Z)
  : S * list A * res Z :=
  match n with
  | O => (s, v, Ok del)
  | Datatypes.S n' =>
      match v_get v i with
      | Ok x =>
          match f s x with
          | (s', Ok false) => retain_loop f s' v (i + 1) n' (del + 1)
          | (s', Ok true) =>
              if 0 <? del then
                match v_swap v (i - del) i with
                | Ok v' => retain_loop f s' v' (i + 1) n' del
                | Err k => (s', v, Err k)
                | Panic => (s', v, Panic)
                end
              else retain_loop f s' v (i + 1) n' del
          | (s', Err k) => (s', v, Err k)
          | (s', Panic) => (s', v, Panic)
          end
      | Err k => (s, v, Err k)
      | Panic => (s, v, Panic)
      end
  end.
Definition retain {S A} (f : cb S A bool) (s : S) (l : list A) : S * list A * res bool :=
  match retain_loop f s l 0 (length l) 0 with
  | (s', v, Ok del) =>
      (s', (if 0 <? del then v_truncate v (zlen l - del) else v), Ok (negb (del =? 0)))
  | (s', v, Err k) => (s', v, Err k)
  | (s', v, Panic) => (s', v, Panic)
  end.
(* builtin/array.rs:595-611 compact! (result: receiver or nil), 1213-1228 delete.
   [isnil] is Value::is_nil, [eqb] is Value::eq. *)
Definition compact_ {A} (isnil : A -> bool) (l : list A) : list A * res bool :=
  let '(_, v, r) := retain (fun (s : unit) x => (s, Ok (negb (isnil x)))) tt l in (v, r).
Definition array_delete {A} (eqb : A -> A -> bool) (nilv : A) (l : list A) (arg : A) : list A * res A :=
  let '(s, v, r) := retain (fun (s : option A) x =>
     if eqb x arg then (Some x, Ok false) else (s, Ok true)) None l in
  (v, match r with Ok _ => Ok (match s with Some x => x | None => nilv end) | Err k => Err k | Panic => Panic end).

(* ---- deque operations, builtin/array.rs ---- *)
(* 236-240 *)
Definition array_push {A} (l args : list A) : list A := l ++ args.
(* 242-247; Vec::pop *)
Definition array_pop {A} (nilv : A) (l : list A) : list A * A :=
  match rev l with [] => (l, nilv) | x :: r => (rev r, x) end.
(* 254-285 *)
Definition array_shift {A} (nilv : A) (l : list A) : list A * A :=
  match l with [] => (l, nilv) | x :: r => (r, x) end.
Definition array_shift_n {A} (l : list A) (num : Z) : list A * res (list A) :=
  if num <? 0 then (l, Err ArgErr)
  else if zlen l <? num then (l, Ok [])
  else match v_slice l num (zlen l), v_slice l 0 num with
       | Ok new, Ok r => (new, Ok r)
       | _, _ => (l, Panic)
       end.
(* 287-296 *)
Definition array_unshift {A} (l args : list A) : list A := args ++ l.

(* ---- rotate!, builtin/array.rs:565-586 ---- *)
(* slice::rotate_left(k) / rotate_right(k), k <= len *)
Definition rotate_left {A} (l : list A) (k : Z) : list A := zskip k l ++ zfirst k l.
Definition rotate_right {A} (l : list A) (k : Z) : list A := zskip (zlen l - k) l ++ zfirst (zlen l - k) l.
Definition array_rotate {A} (l : list A) (i : Z) : list A :=
  match l with
  | [] => l
  | _ => if 0 <=? i then rotate_left l (Z.rem i (zlen l)) else rotate_right l (Z.rem (- i) (zlen l))
  end.

(* ---- slice!, builtin/array.rs:788-815 ---- *)
Definition array_slice_bang {A} (l : list A) (start len : Z) : list A * res (option (list A)) :=
  if start <? 0 then (l, Err ArgErr)
  else if len <? 0 then (l, Err ArgErr)
  else if zlen l <? start then (l, Ok None)
  else if (zlen l <=? start) || (len =? 0) then (l, Ok (Some []))
  else
    let e := if zlen l <? start + len then zlen l else start + len in
    match v_slice l start e with
    | Ok new => (zfirst start l ++ zskip e l, Ok (Some new))
    | _ => (l, Panic)
    end.

(* ---- drop, builtin/array.rs:880-889 ---- *)
Definition array_drop {A} (l : list A) (n : Z) : res (list A) :=
  let num := u64 n in
  if zlen l <=? num then Err ArgErr else v_slice l num (zlen l).

(* ---- binary search, builtin/array.rs:1156-1182 ---- *)
(* [f] includes expect_bool_nil_num on the block's answer. Fuel is the
   termination device, exhaustion is Panic. *)
Fixpoint bs_loop {S A} (fuel : nat) (f : cb S A bool) (s : S) (l : list A) (i_min i_max : Z) : S * res (option Z) :=
  match fuel with
  | O => (s, Panic)
  | Datatypes.S fuel' =>
      let i_mid := i_min + (i_max - i_min) / 2 in
      if i_mid =? i_min then (s, Ok (Some i_max))
      else match v_get l i_mid with
           | Ok x =>
               match f s x with
               | (s', Ok true) => bs_loop fuel' f s' l i_min i_mid
               | (s', Ok false) => bs_loop fuel' f s' l i_mid i_max
               | (s', Err k) => (s', Err k)
               | (s', Panic) => (s', Panic)
               end
           | _ => (s, Panic)
           end
  end.
Definition binary_search {S A} (f : cb S A bool) (s : S) (l : list A) : S * res (option Z) :=
  match l with
  | [] => (s, Ok None)
  | x0 :: _ =>
      let i_max := zlen l - 1 in
      match f s x0 with
      | (s1, Ok true) => (s1, Ok (Some 0))
      | (s1, Ok false) =>
          match v_get l i_max with
          | Ok x1 =>
              match f s1 x1 with
              | (s2, Ok false) => (s2, Ok None)
              | (s2, Ok true) => bs_loop (length l) f s2 l 0 i_max
              | (s2, Err k) => (s2, Err k)
              | (s2, Panic) => (s2, Panic)
              end
          | _ => (s1, Panic)
          end
      | (s1, Err k) => (s1, Err k)
      | (s1, Panic) => (s1, Panic)
      end
  end.

(* ---- nested arrays ---- *)
(* A finite nesting of arrays; cyclic arrays are outside this type, so the
   `val.id() == origin.id()` test (builtin/array.rs:1279) never fires. *)
Inductive tree (A : Type) : Type :=
  | Leaf (x : A)
  | Node (l : list (tree A)).
Arguments Leaf {A} x. Arguments Node {A} l.
(* builtin/array.rs:1270-1304 ary_flatten appending to res, level None / Some n *)
Fixpoint ary_flatten {A} (level : option nat) (v : tree A) (acc : list (tree A)) : list (tree A) * bool :=
  match level, v with
  | None, Node l =>
      ((fix go (l : list (tree A)) (acc : list (tree A)) : list (tree A) :=
          match l with [] => acc | x :: r => go r (fst (ary_flatten None x acc)) end) l acc, true)
  | None, Leaf _ => (acc ++ [v], false)
  | Some O, _ => (acc ++ [v], false)
  | Some (S n), Node l =>
      ((fix go (l : list (tree A)) (acc : list (tree A)) : list (tree A) :=
          match l with [] => acc | x :: r => go r (fst (ary_flatten (Some n) x acc)) end) l acc, true)
  | Some (S n), Leaf _ => (acc ++ [v], false)
  end.
(* builtin/array.rs:1230-1247 *)
Definition array_flatten {A} (level : option nat) (l : list (tree A)) : list (tree A) :=
  fold_left (fun acc v => fst (ary_flatten level v acc)) l [].
(* 1249-1268 flatten!: new contents and whether the result is the receiver *)
Definition array_flatten_bang {A} (level : option nat) (l : list (tree A)) : list (tree A) * bool :=
  fold_left (fun st v => let '(acc, flag) := (st : list (tree A) * bool) in
                         let '(acc', b) := ary_flatten level v acc in (acc', flag || b)) l ([], false).

(* builtin/array.rs:613-640 *)
Fixpoint transpose_col {A} (aref : list (tree A)) (len i : Z) : res (list (tree A)) :=
  match aref with
  | [] => Ok []
  | Leaf _ :: _ => Err ArgErr
  | Node a :: r =>
      if negb (zlen a =? len) then Err IndexErr
      else x <- v_get a i ;; t <- transpose_col r len i ;; Ok (x :: t)
  end.
Fixpoint transpose_rows {A} (aref : list (tree A)) (len : Z) (i : Z) (n : nat) : res (list (tree A)) :=
  match n with
  | O => Ok []
  | S n' => c <- transpose_col aref len i ;; t <- transpose_rows aref len (i + 1) n' ;; Ok (Node c :: t)
  end.
Definition array_transpose {A} (l : list (tree A)) : res (list (tree A)) :=
  match l with
  | [] => Ok []
  | Leaf _ :: _ => Err ArgErr
  | Node a :: _ => transpose_rows l (zlen a) 0 (length a)
  end.

(* builtin/array.rs:201-234 <=>. [ecmp lhs rhs] is eval_compare on elements:
   None when the elements are not comparable. Elements' own exceptions are not
   modelled. The first branch walks rhs, the second walks lhs. *)
Fixpoint cmp_walk {A} (ecmp : A -> A -> option Z) (lhs rhs : list A) : option (option Z) :=
  (* Some r: result r inside the loop; None: loop ran off the shorter end *)
  match lhs, rhs with
  | x :: l, y :: r =>
      match ecmp x y with
      | Some 0 => cmp_walk ecmp l r
      | Some o => Some (Some o)
      | None => Some None
      end
  | _, _ => None
  end.
Definition array_cmp {A} (ecmp : A -> A -> option Z) (lhs rhs : list A) : option Z :=
  match cmp_walk ecmp lhs rhs with
  | Some r => r
  | None => if zlen rhs <=? zlen lhs then (if zlen lhs =? zlen rhs then Some 0 else Some 1) else Some (-1)
  end.

(* builtin/array.rs:708-739 uniq without a block, receiver not containing
   itself: a set of hash keys compared by [eqk] (C20); 740-: uniq! uses retain *)
Fixpoint uniq_loop {A} (eqk : A -> A -> bool) (l seen acc : list A) : list A :=
  match l with
  | [] => acc
  | x :: r => if existsb (eqk x) seen then uniq_loop eqk r seen acc
              else uniq_loop eqk r (x :: seen) (acc ++ [x])
  end.
Definition array_uniq {A} (eqk : A -> A -> bool) (l : list A) : list A := uniq_loop eqk l [] [].
Definition array_uniq_bang {A} (eqk : A -> A -> bool) (l : list A) : list A * res bool :=
  let '(_, v, r) := retain (fun (seen : list A) x =>
     if existsb (eqk x) seen then (seen, Ok false) else (x :: seen, Ok true)) [] l in (v, r).

(* builtin/array.rs:857-878 join: elements already converted by val_to_s,
   strings as lists of bytes *)
Definition str := list Z.
Definition array_join (sep : str) (l : list str) : str :=
  fold_left (fun res s => match res with [] => s | _ => res ++ sep ++ s end) l [].

(* builtin/array.rs:843-855 pack: i as i8 as u8 *)
Definition pack_byte (i : Z) : Z := i mod 2 ^ 8.

(* builtin/array.rs:891-920 zip, arguments given as lists *)
Fixpoint zip_row {A} (nilv : A) (args : list (list A)) (i : nat) : list A :=
  match args with [] => [] | a :: r => nth i a nilv :: zip_row nilv r i end.
Fixpoint zip_loop {A} (nilv : A) (l : list A) (args : list (list A)) (i : nat) : list (list A) :=
  match l with [] => [] | x :: r => (x :: zip_row nilv args i) :: zip_loop nilv r args (S i) end.
Definition array_zip {A} (nilv : A) (l : list A) (args : list (list A)) : list (list A) :=
  zip_loop nilv l args 0.

(* builtin/array.rs:357-375 difference; [eqb] is eval_eq2 *)
Definition array_sub {A} (eqb : A -> A -> bool) (lhs rhs : list A) : list A :=
  filter (fun x => negb (existsb (eqb x) rhs)) lhs.
