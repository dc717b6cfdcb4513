(* Properties C14-C18 and C48-C56: arrays. Element types are arbitrary; [nilv]
   is the nil element. *)
From Coq Require Import Permutation Sorted.
From Verif Require Import Base ModelArray ProofsArray ProofsArray2 ProofsArray3 ModelSort ProofsSort ProofsSort2.

(* ---- C14 ---- *)
(* the position an index denotes: negative ones count from the end *)
Theorem C14_read_after_write : forall (A : Type) (nilv : A) (l : list A) (i : Z) (v : A),
  0 <= (if i <? 0 then Z.of_nat (length l) + i else i) < 2 ^ 59 ->
  exists l', set_elem1 nilv l i v = Ok l' /\
    get_elem1 nilv l' i = Ok v /\
    Z.of_nat (length l') = Z.max (Z.of_nat (length l)) ((if i <? 0 then Z.of_nat (length l) + i else i) + 1) /\
    (forall j, 0 <= j -> j <> (if i <? 0 then Z.of_nat (length l) + i else i) ->
       get_elem1 nilv l' j = get_elem1 nilv l j).
Proof. exact (fun A nilv l i v H => rw_same nilv l i v H). Qed.
Print Assumptions C14_read_after_write.
Theorem C14_read_is_nth : forall (A : Type) (nilv : A) (l : list A) (j : Z),
  get_elem1 nilv l j =
  Ok (if 0 <=? j then nth (Z.to_nat j) l nilv
      else if - Z.of_nat (length l) <=? j then nth (Z.to_nat (Z.of_nat (length l) + j)) l nilv else nilv).
Proof.
  exact (fun A nilv l j => eq_trans (get_elem1_rd nilv l j)
    (f_equal Ok (eq_sym (f_equal2 (fun x y => if 0 <=? j then x else if - Z.of_nat (length l) <=? j then y else nilv)
       (rd_nth nilv l j) (rd_nth nilv l (Z.of_nat (length l) + j)))))).
Qed.
Print Assumptions C14_read_is_nth.
Theorem C14_write_before_start : forall (A : Type) (nilv : A) (l : list A) (i : Z) (v : A),
  i < - Z.of_nat (length l) -> set_elem1 nilv l i v = Err RangeErr.
Proof. exact (fun A nilv l i v H => set_elem1_low' nilv l i v H). Qed.
Print Assumptions C14_write_before_start.
Example C14_ex : set_elem1 0 [1; 2] 4 9 = Ok [1; 2; 0; 0; 9] /\ set_elem1 0 [1; 2] (-1) 9 = Ok [1; 9] /\
  get_elem1 0 [1; 2; 0; 0; 9] 4 = Ok 9 /\ -3 < - Z.of_nat (length [1; 2]).
Proof. vm_compute. auto. Qed.

(* ---- C15 ---- *)
(* replace [n] elements from position [p] on by [new]; nil padding past the end *)
Definition spliced {A} (nilv : A) (l : list A) (p n : Z) (new : list A) : list A :=
  firstn (Z.to_nat p) l ++ repeat nilv (Z.to_nat (p - Z.of_nat (length l))) ++ new ++ skipn (Z.to_nat (p + n)) l.
Definition contents {A} (l : list A) (r : splice_rhs A) : list A :=
  match r with RElem x => [x] | RArr a => a | RSelf => l end.
Theorem C15_splice : forall (A : Type) (nilv : A) (l : list A) (i n : Z) (val : splice_rhs A),
  let p := if i <? 0 then Z.of_nat (length l) + i else i in
  0 <= p -> 0 <= n -> Z.of_nat (length (spliced nilv l p n (contents l val))) <= 2 ^ 59 ->
  set_elem nilv l i n val = Ok (spliced nilv l p n (contents l val)).
Proof. exact (fun A nilv l i n val Hp Hn Hc => set_elem_ok nilv l i n val Hp Hn Hc). Qed.
Print Assumptions C15_splice.
Theorem C15_splice_range : forall (A : Type) (nilv : A) (l : list A) (s e : Z) (ex : bool) (val : splice_rhs A),
  let p := if s <? 0 then Z.of_nat (length l) + s else s in
  let q := if e <? 0 then Z.of_nat (length l) + e else e in
  let n := Z.max 0 (q + (if ex then 0 else 1) - p) in
  0 <= p -> 0 <= q -> Z.of_nat (length (spliced nilv l p n (contents l val))) <= 2 ^ 59 ->
  set_elem_range nilv l s e ex val = Ok (spliced nilv l p n (contents l val)).
Proof. exact (fun A nilv l s e ex val Hp Hq Hc => set_elem_range_ok nilv l s e ex val Hp Hq Hc). Qed.
Print Assumptions C15_splice_range.
Theorem C15_splice_refused : forall (A : Type) (nilv : A) (l : list A) (i n : Z) (val : splice_rhs A),
  (i < - Z.of_nat (length l) -> set_elem nilv l i n val = Err RangeErr) /\
  (- Z.of_nat (length l) <= i -> n < 0 -> set_elem nilv l i n val = Err IndexErr).
Proof. exact (fun A nilv l i n val => set_elem_refused nilv l i n val). Qed.
Print Assumptions C15_splice_refused.
(* growing, shrinking, past the end, and the receiver assigned into itself *)
Example C15_ex :
  set_elem 0 [1; 2; 3; 4] 1 2 (RArr [7; 8; 9]) = Ok [1; 7; 8; 9; 4] /\
  set_elem 0 [1; 2; 3; 4] 1 2 (RElem 5) = Ok [1; 5; 4] /\
  set_elem 0 [1; 2] 4 1 (RArr [7; 8]) = Ok [1; 2; 0; 0; 7; 8] /\
  set_elem 0 [1; 2; 3] 1 1 RSelf = Ok [1; 1; 2; 3; 3] /\
  set_elem_range 0 [1; 2; 3; 4] (-3) (-2) false (RElem 5) = Ok [1; 5; 4].
Proof. vm_compute. auto 10. Qed.

(* ---- C16 ---- *)
Theorem C16_slice : forall (A : Type) (l : list A) (i n : Z),
  let p := if i <? 0 then Z.of_nat (length l) + i else i in
  0 <= p <= Z.of_nat (length l) -> 0 <= n ->
  get_elem2 l i n = Ok (Some (firstn (Z.to_nat n) (skipn (Z.to_nat p) l))).
Proof. exact (fun A l i n Hp Hn => get_elem2_ok l i n Hp Hn). Qed.
Print Assumptions C16_slice.
Theorem C16_slice_never_crashes : forall (A : Type) (l : list A) (i n : Z),
  exists r, get_elem2 l i n = Ok r.
Proof. exact (fun A l i n => get_elem2_total l i n). Qed.
Print Assumptions C16_slice_never_crashes.
(* Missing for the full statement: ranges whose resolved end lies more than one
   before the beginning or whose resolved start is negative; see the refutation. *)
Theorem C16_range_slice_partial : forall (A : Type) (l : list A) (s e : Z) (ex : bool),
  let p := if s <? 0 then Z.of_nat (length l) + s else s in
  let q := (if e <? 0 then Z.of_nat (length l) + e else e) + (if ex then 0 else 1) in
  Z.of_nat (length l) < 2 ^ 63 -> 0 <= p <= Z.of_nat (length l) -> 0 <= q -> e < 2 ^ 63 ->
  get_elem_range l s e ex = Ok (Some (firstn (Z.to_nat (q - p)) (skipn (Z.to_nat p) l))).
Proof. exact (fun A l s e ex Hl Hp Hq He => get_elem_range_ok l s e ex Hl Hp Hq He). Qed.
Print Assumptions C16_range_slice_partial.
(* [1][0..-5] and [1,2][-5..-4]: the wrapped end is larger than the array *)
Theorem C16_range_slice_refuted :
  exists (l : list Z) (s e : Z), s = 0 /\ get_elem_range l s e false = Panic.
Proof. exact (ex_intro _ [1] (ex_intro _ 0 (ex_intro _ (-5) (conj eq_refl eq_refl)))). Qed.
Print Assumptions C16_range_slice_refuted.
(* a start past the end or before the beginning gives an empty array, not nil *)
Theorem C16_out_of_range_start_refuted : exists (l : list Z) (i j : Z),
  Z.of_nat (length l) < i /\ j < - Z.of_nat (length l) /\
  get_elem2 l i 1 = Ok (Some []) /\ get_elem2 l j 1 = Ok (Some []).
Proof. exact (ex_intro _ [1; 2] (ex_intro _ 5 (ex_intro _ (-3) (conj eq_refl (conj eq_refl (conj eq_refl eq_refl)))))). Qed.
Print Assumptions C16_out_of_range_start_refuted.
Example C16_ex : get_elem2 [1; 2; 3; 4] (-3) 2 = Ok (Some [2; 3]) /\ get_elem2 [1; 2] 1 (2 ^ 62) = Ok (Some [2]) /\
  get_elem_range [1; 2; 3; 4] 1 (-1) true = Ok (Some [2; 3]) /\ get_elem_range [1; 2; 3] 2 0 false = Ok (Some []).
Proof. vm_compute. auto. Qed.

(* ---- C17 ---- *)
(* [answers f s l]: the block called on the elements in order until it fails:
   its answers, the state it leaves, and how it ended. [picked b l bs]: the
   elements answered b, in order. *)
Theorem C17_retain : forall (S A : Type) (f : cb S A bool) (s : S) (l : list A) (s1 : S) (bs : list bool) (e : res unit),
  answers f s l = (s1, bs, e) ->
  match e with
  | Ok _ => retain f s l = (s1, picked true l bs, Ok (negb (Z.of_nat (length (picked false l bs)) =? 0)))
  | _ => exists D, Permutation D (picked false l bs) /\
           retain f s l = (s1, picked true l bs ++ D ++ skipn (length bs) l,
                           match e with Err k => Err k | _ => Panic end)
  end.
Proof. exact (fun S A f s l s1 bs e H => retain_ok f s l s1 bs e H). Qed.
Print Assumptions C17_retain.
Theorem C17_nothing_lost_on_exception : forall (S A : Type) (f : cb S A bool) (s : S) (l : list A) s1 v r,
  retain f s l = (s1, v, r) -> (forall b, r <> Ok b) -> Permutation v l.
Proof. exact (fun S A f s l s1 v r H Hr => retain_perm f s l s1 v r H Hr). Qed.
Print Assumptions C17_nothing_lost_on_exception.
Theorem C17_compact_delete : forall (A : Type) (isnil : A -> bool) (eqb : A -> A -> bool) (nilv arg : A) (l : list A),
  compact_ isnil l = (filter (fun x => negb (isnil x)) l, Ok (existsb isnil l)) /\
  array_delete eqb nilv l arg =
    (filter (fun x => negb (eqb x arg)) l, Ok (last (filter (fun x => eqb x arg) l) nilv)).
Proof. exact (fun A isnil eqb nilv arg l => conj (compact_ok isnil l) (delete_ok eqb nilv l arg)). Qed.
Print Assumptions C17_compact_delete.
(* a counting block that keeps even numbers and raises at the fifth call *)
Definition C17_block : cb Z Z bool := fun n x => (n + 1, if n =? 4 then Err OtherErr else Ok (Z.even x)).
Example C17_ex :
  retain C17_block 0 [1; 2; 3; 4] = (4, [2; 4], Ok true) /\
  retain C17_block 0 [1; 2; 3; 4; 5; 6] = (5, [2; 4; 3; 1; 5; 6], Err OtherErr) /\
  answers C17_block 0 [1; 2; 3; 4; 5; 6] = (5, [false; true; false; true], Err OtherErr).
Proof. vm_compute. auto. Qed.

(* ---- C18 ---- *)
(* Any comparison block, whatever it answers and wherever it raises: the array
   stays a permutation, and the sort itself never goes out of bounds, never
   overruns its buffer and never fails to terminate (all of these are Panic in
   the model): the only failures are the block's own, reported at once (the
   final program state is the one the failing call left). *)
Theorem C18_permutation_any_comparison : forall (S A : Type) (cmp : S -> A -> A -> S * res comparison) s v s' v' r,
  sort_by cmp s v = (s', v', r) ->
  Permutation v v' /\
  match r with
  | Ok _ => True
  | Err k => exists s0 x y, cmp s0 x y = (s', Err k)
  | Panic => exists s0 x y, cmp s0 x y = (s', Panic)
  end.
Proof. exact (fun S A cmp s v s' v' r H => sort_by_any cmp s v s' v' r H). Qed.
Print Assumptions C18_permutation_any_comparison.
(* A comparison that follows a strict weak order: sorted and stable (every group
   of tied elements keeps its order). *)
Theorem C18_sorted_stable : forall (S A : Type) (cmp : S -> A -> A -> S * res comparison) (c : A -> A -> comparison) s v,
  (forall s x y, snd (cmp s x y) = Ok (c x y)) ->
  (forall x y, c x y = Lt -> c y x <> Lt) ->
  (forall x y z, c x y = Lt -> c x z = Lt \/ c z y = Lt) ->
  exists s' v', sort_by cmp s v = (s', v', Ok tt) /\ Permutation v v' /\
    StronglySorted (fun x y => c y x <> Lt) v' /\
    forall x, filter (fun y => negb (is_lt (c x y)) && negb (is_lt (c y x))) v' =
              filter (fun y => negb (is_lt (c x y)) && negb (is_lt (c y x))) v.
Proof. exact (fun S A cmp c s v Hc Ha Hn => sort_by_spec cmp c s v Hc Ha Hn). Qed.
Print Assumptions C18_sorted_stable.
(* Array#sort without a block *)
Theorem C18_sort_default : forall (A : Type) (ec : A -> A -> option Z) (v : list A),
  match sort_array ec v with Ok v' => Permutation v v' | Err k => k = ArgErr | Panic => False end.
Proof. exact (fun A ec v => sort_array_any ec v). Qed.
Print Assumptions C18_sort_default.
(* Array#sort_by *)
Theorem C18_sort_by : forall (A : Type) (key : A -> Z) (l : list A),
  exists l', array_sort_by (fun s x => (s, Ok (key x)))
     (fun s a b => (s, Ok (Some (if a <? b then -1 else if a =? b then 0 else 1)))) tt l = (tt, Ok l') /\
    Permutation l l' /\ StronglySorted (fun x y => key x <= key y) l' /\
    forall k, filter (fun x => key x =? k) l' = filter (fun x => key x =? k) l.
Proof. exact (fun A key l => array_sort_by_key key l). Qed.
Print Assumptions C18_sort_by.
(* 30 elements, so runs are found, extended and merged *)
Definition C18_input : list (Z * Z) :=
  map (fun n => ((n * 7) mod 11, n)) (map Z.of_nat (seq 0 30)).
Definition C18_cmp : Z -> Z * Z -> Z * Z -> Z * res comparison :=
  fun n a b => (n + 1, Ok (Z.compare (fst a) (fst b))).
Example C18_ex :
  sort_by C18_cmp 0 C18_input = (135,
    [(0, 0); (0, 11); (0, 22); (1, 8); (1, 19); (2, 5); (2, 16); (2, 27); (3, 2); (3, 13);
     (3, 24); (4, 10); (4, 21); (5, 7); (5, 18); (5, 29); (6, 4); (6, 15); (6, 26); (7, 1);
     (7, 12); (7, 23); (8, 9); (8, 20); (9, 6); (9, 17); (9, 28); (10, 3); (10, 14); (10, 25)], Ok tt).
Proof. vm_compute. reflexivity. Qed.
(* the same sort interrupted at its 100th comparison *)
Example C18_ex_raise :
  (let '(n, v', r) := sort_by (fun n a b => if n =? 99 then (n, Err OtherErr) else C18_cmp n a b) 0 C18_input in
   (n, r, length v')) = (99, Err OtherErr, 30%nat) /\
  sort_array (fun a b => if a =? 2 then None else Some (a - b)) [1; 3; 2] = Err ArgErr /\
  sort_array (fun a b => Some (a - b)) [3; 1; 2] = Ok [1; 2; 3].
Proof. vm_compute. auto. Qed.

(* ---- C48: removing from the front and from the middle ---- *)
Theorem C48_slice_bang : forall (A : Type) (l : list A) (s n : Z), 0 <= s <= Z.of_nat (length l) -> 0 <= n ->
  array_slice_bang l s n =
  (firstn (Z.to_nat s) l ++ skipn (Z.to_nat (s + n)) l, Ok (Some (firstn (Z.to_nat n) (skipn (Z.to_nat s) l)))).
Proof. exact (fun A l s n Hs Hn => slice_bang_ok l s n Hs Hn). Qed.
Print Assumptions C48_slice_bang.
(* Missing for the full statement: counts above the length; see the refutation. *)
Theorem C48_shift_n_partial : forall (A : Type) (l : list A) (n : Z), 0 <= n <= Z.of_nat (length l) ->
  array_shift_n l n = (skipn (Z.to_nat n) l, Ok (firstn (Z.to_nat n) l)).
Proof. exact (fun A l n H => shift_n_ok l n H). Qed.
Print Assumptions C48_shift_n_partial.
(* shift(5) on a 3-element array removes nothing and returns [] *)
Theorem C48_shift_n_refuted : exists (l : list Z) (n : Z), Z.of_nat (length l) < n /\ l <> [] /\
  array_shift_n l n = (l, Ok []).
Proof. exact (ex_intro _ [1; 2; 3] (ex_intro _ 5 (conj eq_refl (conj (fun H => eq_ind [1; 2; 3] (fun l => match l with [] => False | _ => True end) I [] H) eq_refl)))). Qed.
Print Assumptions C48_shift_n_refuted.
Theorem C48_queue_stack : forall (A : Type) (nilv : A) (l args : list A) (x : A),
  array_shift nilv (array_unshift l [x]) = (l, x) /\
  array_pop nilv (array_push l [x]) = (l, x) /\
  array_shift nilv (array_push (x :: l) args) = (array_push l args, x) /\
  array_shift nilv (@nil A) = ([], nilv) /\ array_pop nilv (@nil A) = ([], nilv).
Proof. exact (fun A nilv l args x => queue_stack nilv l args x). Qed.
Print Assumptions C48_queue_stack.
Example C48_ex : array_slice_bang [1; 2; 3; 4; 5] 1 2 = ([1; 4; 5], Ok (Some [2; 3])) /\
  array_slice_bang [1; 2] 1 9 = ([1], Ok (Some [2])) /\ array_shift_n [1; 2; 3] 2 = ([3], Ok [1; 2]).
Proof. vm_compute. auto. Qed.

(* ---- C49: bsearch ---- *)
Theorem C49_bsearch_least : forall (A : Type) (d : A) (p : A -> bool) (l : list A),
  (forall i j, (i <= j)%nat -> (j < length l)%nat -> p (nth i l d) = true -> p (nth j l d) = true) ->
  match binary_search (fun (s : unit) x => (s, Ok (p x))) tt l with
  | (_, Ok (Some i)) => 0 <= i < Z.of_nat (length l) /\ p (nth (Z.to_nat i) l d) = true /\
                        forall j, 0 <= j < i -> p (nth (Z.to_nat j) l d) = false
  | (_, Ok None) => forall j, (j < length l)%nat -> p (nth j l d) = false
  | _ => False
  end.
Proof. exact (fun A d p l H => bsearch_least d p l H). Qed.
Print Assumptions C49_bsearch_least.
(* any block, monotone or not, raising or not: it terminates, stays in range,
   and fails only by the block's own failure *)
Theorem C49_bsearch_safe : forall (S A : Type) (f : cb S A bool) (d : A) (s : S) (l : list A),
  (forall s x, snd (f s x) <> Panic) ->
  exists s' r, binary_search f s l = (s', r) /\
    match r with Ok (Some i) => 0 <= i < Z.of_nat (length l) | Panic => False | _ => True end.
Proof. exact (fun S A f d s l H => binary_search_total f d s l H). Qed.
Print Assumptions C49_bsearch_safe.
Example C49_ex : binary_search (fun (s : unit) x => (s, Ok (5 <=? x))) tt [1; 3; 5; 5; 8; 13] = (tt, Ok (Some 2)) /\
  binary_search (fun (s : unit) x => (s, Ok (50 <=? x))) tt [1; 3; 5] = (tt, Ok None).
Proof. vm_compute. auto. Qed.

(* ---- C50: rotate! ---- *)
Theorem C50_rotate : forall (A : Type) (d : A) (l : list A) (i : Z), l <> [] ->
  length (array_rotate l i) = length l /\
  forall j, 0 <= j < Z.of_nat (length l) ->
    nth (Z.to_nat j) (array_rotate l i) d = nth (Z.to_nat ((j + i) mod Z.of_nat (length l))) l d.
Proof. exact (fun A d l i H => rotate_spec d l i H). Qed.
Print Assumptions C50_rotate.
Example C50_ex : array_rotate [1; 2; 3; 4; 5] 2 = [3; 4; 5; 1; 2] /\ array_rotate [1; 2; 3; 4; 5] (-7) = [4; 5; 1; 2; 3].
Proof. vm_compute. auto. Qed.

(* ---- C51: flatten ---- *)
Theorem C51_flatten : forall (A : Type) (l : list (tree A)),
  array_flatten None l = map Leaf (concat (map leaves l)).
Proof. exact (fun A l => array_flatten_none l). Qed.
Print Assumptions C51_flatten.
(* flatten(n): every array opened once, n times over *)
Theorem C51_flatten_level : forall (A : Type) (n : nat) (l : list (tree A)),
  array_flatten (Some n) l = Nat.iter n open1 l.
Proof. exact (fun A n l => array_flatten_some n l). Qed.
Print Assumptions C51_flatten_level.
Theorem C51_flatten_bang : forall (A : Type) (lv : option nat) (l : list (tree A)),
  array_flatten_bang lv l =
  (array_flatten lv l, existsb is_node l && match lv with Some O => false | _ => true end).
Proof. exact (fun A lv l => flatten_bang_ok lv l). Qed.
Print Assumptions C51_flatten_bang.
Example C51_ex :
  let t := [Leaf 1; Node [Leaf 2; Node [Leaf 3; Node [Leaf 4]]]; Node []] in
  array_flatten None t = [Leaf 1; Leaf 2; Leaf 3; Leaf 4] /\
  array_flatten (Some 1%nat) t = [Leaf 1; Leaf 2; Node [Leaf 3; Node [Leaf 4]]].
Proof. vm_compute. auto. Qed.

(* ---- C52: transpose ---- *)
Theorem C52_transpose : forall (A : Type) (d : tree A) (m : list (list (tree A))) (n : nat),
  m <> [] -> Forall (fun r => length r = n) m ->
  exists t, array_transpose (map Node m) = Ok (map Node t) /\ length t = n /\
    Forall (fun r => length r = length m) t /\
    forall i j, (i < length m)%nat -> (j < n)%nat -> nth i (nth j t []) d = nth j (nth i m []) d.
Proof. exact (fun A d m n Hm HF => transpose_spec d m n Hm HF). Qed.
Print Assumptions C52_transpose.
Theorem C52_transpose_twice : forall (A : Type) (m : list (list (tree A))) (n : nat),
  m <> [] -> n <> 0%nat -> Forall (fun r => length r = n) m ->
  (t <- array_transpose (map Node m) ;; array_transpose t) = Ok (map Node m).
Proof. exact (fun A m n Hm Hn HF => transpose_twice m n Hm Hn HF). Qed.
Print Assumptions C52_transpose_twice.
Theorem C52_transpose_never_crashes : forall (A : Type) (l : list (tree A)), array_transpose l <> Panic.
Proof. exact (fun A l => transpose_no_panic l). Qed.
Print Assumptions C52_transpose_never_crashes.
Example C52_ex :
  array_transpose [Node [Leaf 1; Leaf 2]; Node [Leaf 3; Leaf 4]; Node [Leaf 5; Leaf 6]] =
    Ok [Node [Leaf 1; Leaf 3; Leaf 5]; Node [Leaf 2; Leaf 4; Leaf 6]] /\
  array_transpose [Node [Leaf 1; Leaf 2]; Node [Leaf 3]] = Err IndexErr.
Proof. vm_compute. auto. Qed.

(* ---- C53: uniq ---- *)
(* [first_occ eqk [] l]: the elements equal to no earlier one, in order *)
Theorem C53_uniq : forall (A : Type) (eqk : A -> A -> bool) (l : list A),
  (forall x, eqk x x = true) -> (forall x y, eqk x y = true -> eqk y x = true) ->
  (forall x y z, eqk x y = true -> eqk y z = true -> eqk x z = true) ->
  array_uniq eqk l = first_occ eqk [] l /\
  array_uniq_bang eqk l = (first_occ eqk [] l, Ok (negb (Z.of_nat (length (first_occ eqk [] l)) =? Z.of_nat (length l)))) /\
  ForallOrdPairs (fun x y => eqk x y = false) (array_uniq eqk l) /\
  (forall x, In x l -> exists y, In y (array_uniq eqk l) /\ eqk x y = true).
Proof. exact (fun A eqk l Hr Hs Ht => uniq_spec eqk l Hr Hs Ht). Qed.
Print Assumptions C53_uniq.
Example C53_ex : array_uniq (fun x y => x mod 10 =? y mod 10) [1; 12; 21; 2; 3; 31] = [1; 12; 3] /\
  array_uniq_bang Z.eqb [1; 2; 1] = ([1; 2], Ok true) /\ array_uniq_bang Z.eqb [1; 2] = ([1; 2], Ok false).
Proof. vm_compute. auto. Qed.

(* ---- C54: <=> on arrays ---- *)
Theorem C54_dictionary_order : forall (A : Type) (key : A -> Z) (l r : list A),
  let ec := fun x y => Some (sgn3 (key x) (key y)) in
  (array_cmp ec l r = Some (-1) <-> lex_lt (map key l) (map key r)) /\
  (array_cmp ec l r = Some 0 <-> map key l = map key r) /\
  (array_cmp ec l r = Some 1 <-> lex_lt (map key r) (map key l)).
Proof. exact (fun A key l r => array_cmp_iff key l r). Qed.
Print Assumptions C54_dictionary_order.
Theorem C54_antisymmetric : forall (A : Type) (ec : A -> A -> option Z),
  (forall x y, ec y x = option_map Z.opp (ec x y)) ->
  forall l r, array_cmp ec r l = option_map Z.opp (array_cmp ec l r).
Proof. exact (fun A ec H => array_cmp_anti ec H). Qed.
Print Assumptions C54_antisymmetric.
Example C54_ex : array_cmp (fun x y => Some (sgn3 x y)) [1; 2] [1; 2; 0] = Some (-1) /\
  array_cmp (fun x y => Some (sgn3 x y)) [2] [1; 9; 9] = Some 1 /\
  array_cmp (fun x y => if x =? 0 then None else Some (sgn3 x y)) [1; 0] [1; 5] = None /\
  lex_lt [1; 2] [1; 2; 0].
Proof. vm_compute. repeat split; auto using lex_lt. Qed.

(* ---- C55: join ---- *)
(* Missing for the full statement: arrays beginning with an empty string and a
   non-empty separator; see the refutation. *)
Theorem C55_join_partial : forall (sep x : str) (l : list str), x <> [] \/ sep = [] ->
  array_join sep (x :: l) = intercalate sep (x :: l).
Proof. exact (fun sep x l H => join_spec sep x l H). Qed.
Print Assumptions C55_join_partial.
(* ["", "a"].join(",") is "a", not ",a" *)
Theorem C55_join_refuted : exists (sep : str) (l : list str), array_join sep l <> intercalate sep l.
Proof. exact join_refuted. Qed.
Print Assumptions C55_join_refuted.
Example C55_ex : array_join [44] [[97]; []; [98]] = [97; 44; 44; 98] /\ [97] <> [].
Proof. split; [reflexivity|discriminate]. Qed.

(* ---- C56: zip ---- *)
Theorem C56_zip : forall (A : Type) (nilv : A) (l : list A) (args : list (list A)),
  length (array_zip nilv l args) = length l /\
  forall k, (k < length l)%nat ->
    nth k (array_zip nilv l args) [] = nth k l nilv :: map (fun a => nth k a nilv) args.
Proof. exact (fun A nilv l args => conj (zip_loop_length nilv args l 0) (fun k H => zip_loop_nth nilv args l 0 k H)). Qed.
Print Assumptions C56_zip.
Example C56_ex : array_zip 0 [1; 2; 3] [[4; 5]; [6; 7; 8; 9]] = [[1; 4; 6]; [2; 5; 7]; [3; 0; 8]].
Proof. reflexivity. Qed.
