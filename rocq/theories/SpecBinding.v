(* What variables of bindings are: scopes of names and values. Independent of
   frames, tables and indices. *)
From Verif Require Import Base ModelValue ModelFrame ModelBinding.

Notation scope := (list (Z * Z)).
(* the value of a name, the innermost scope first *)
Fixpoint value_in (x : Z) (c : scope) : option Z :=
  match c with [] => None | (y, w) :: r => if Z.eq_dec x y then Some w else value_in x r end.
Fixpoint value_of (x : Z) (cs : list scope) : option Z :=
  match cs with
  | [] => None
  | c :: r => match value_in x c with Some w => Some w | None => value_of x r end
  end.
Fixpoint put_in (x w : Z) (c : scope) : scope :=
  match c with [] => [] | (y, v) :: r => if Z.eq_dec x y then (y, w) :: r else (y, v) :: put_in x w r end.
(* the innermost variable of that name gets the value *)
Fixpoint put (x w : Z) (cs : list scope) : list scope :=
  match cs with
  | [] => []
  | c :: r => match value_in x c with Some _ => put_in x w c :: r | None => c :: put x w r end
  end.
Definition nothing : Z := NIL_VALUE.
(* a new variable is nil and belongs to the innermost scope *)
Definition declare (x : Z) (cs : list scope) : list scope :=
  match value_of x cs, cs with
  | None, c :: r => (c ++ [(x, nothing)]) :: r
  | _, _ => cs
  end.
Definition assigned (l : list stmt) : list Z :=
  flat_map (fun s => match s with Assign x _ => [x] | Skip x => [x] | Use _ => [] end) l.
(* the variables a text assigns exist from its start *)
Definition declared (l : list stmt) (cs : list scope) : list scope :=
  fold_left (fun cs x => declare x cs) (assigned l) cs.
(* but a name is a variable in the text only from its first assignment on *)
Fixpoint meaning (l : list stmt) (known : Z -> Prop) (cs : list scope) (cs' : list scope) (out : list Z) (bad : bool) : Prop :=
  match l with
  | [] => cs' = cs /\ out = [] /\ bad = false
  | Assign x w :: r => meaning r (fun y => y = x \/ known y) (put x w cs) cs' out bad
  | Skip x :: r => meaning r (fun y => y = x \/ known y) cs cs' out bad
  | Use x :: r =>
      (known x /\ exists w o, value_of x cs = Some w /\ out = w :: o /\ meaning r known cs cs' o bad) \/
      (~ known x /\ cs' = cs /\ out = [] /\ bad = true)
  end.

(* scopes of the bindings, scopes of the frames around them *)
Record world : Type := mkw { own : list scope; shared : list scope }.
(* at most one variable is new in a text, and a binding has at most 63 *)
Definition modest (l : list stmt) (c : scope) (cs : list scope) : Prop :=
  exists c' cs', declared l (c :: cs) = c' :: cs' /\ (length c' <= S (length c))%nat /\ (length c' <= 63)%nat.
Inductive history : list bop -> world -> world -> list (list Z * bool) -> Prop :=
| h_nil : forall w, history [] w w []
| h_new : forall i l w w' outs,
    history l (mkw (own w ++ [[]]) (shared w)) w' outs -> history (New i :: l) w w' outs
| h_eval : forall i j t l w w' c c' cs' out bad outs,
    nth_error (own w) j = Some c ->
    modest t c (shared w) ->
    meaning t (fun y => value_of y (c :: shared w) <> None) (declared t (c :: shared w)) (c' :: cs') out bad ->
    history l (mkw (firstn j (own w) ++ c' :: skipn (S j) (own w)) cs') w' outs ->
    history (Eval i j t :: l) w w' ((out, bad) :: outs).

(* the order of first occurrence *)
Fixpoint once (l : list Z) : list Z :=
  match l with [] => [] | x :: r => x :: filter (fun y => negb (y =? x)) (once r) end.
Definition names (cs : list scope) : list Z := once (flat_map (map fst) cs).

(* ---- when a memory holds such scopes ---- *)
(* the frame at [a] holds the variables [c] and its outer frame is [o] *)
Definition frame_holds (m : Z -> Z) (a : Z) (c : scope) (o : option Z) : Prop :=
  is_ruby m a = true /\ flag_len m a = Z.of_nat (length c) /\ outer m a = Ok o /\ NoDup (map fst c) /\
  forall k x w, nth_error c k = Some (x, w) -> m (a - Z.of_nat (length c) - 1 + Z.of_nat k) = w.
(* the outer frame of each frame of the method is the next one *)
Definition next (fs : list Z) : option Z := match fs with [] => None | f :: _ => Some f end.
Fixpoint linked (out : Z -> option Z) (fs : list Z) : Prop :=
  match fs with [] => True | f :: r => out f = next r /\ linked out r end.
Definition eps (l : list (Z * list Z)) : list Z := map fst l.
(* the frame [a] lies at [lo a .. a + 7], no two frames overlap, all are below the
   part of the heap not used yet; a binding has room for 63 variables *)
Definition laid_out (lo : Z -> Z) (top : Z) (bs fs : list Z) (sc : Z -> scope) : Prop :=
  NoDup (bs ++ fs) /\
  (forall a, In a bs -> lo a = a - 65) /\
  (forall a, In a (bs ++ fs) -> 0 < lo a /\ lo a <= a - Z.of_nat (length (sc a)) - 2 /\ a + 8 <= top) /\
  (forall a b, In a (bs ++ fs) -> In b (bs ++ fs) -> a <> b -> a + 8 <= lo b \/ b + 8 <= lo a).
Definition shows (s : bst) (w : world) : Prop :=
  exists lo sc out,
    let bs := eps (bindings s) in let fs := eps (frames s) in
    own w = map sc bs /\ shared w = map sc fs /\ fs <> [] /\
    laid_out lo (hp (vmof s)) bs fs sc /\
    (forall a t, In (a, t) (bindings s ++ frames s) -> t = map fst (sc a) /\ frame_holds (mem (vmof s)) a (sc a) (out a)) /\
    (forall b, In b bs -> out b = next fs /\ forall f, next fs = Some f -> self_value (mem (vmof s)) b = self_value (mem (vmof s)) f) /\
    linked out fs /\
    (forall f, next fs = Some f -> f < 2 ^ 60 /\ exists mf, mfp (mem (vmof s)) f = Ok mf).
