(** What a pattern, its matches and the texts built from them are, independent of the code. *)
From Verif Require Import Base ModelRegexp.
Open Scope nat_scope.

(** position [i] is the start of a character or the end of the text (UTF-8) *)
Definition at_char (s : text) (i : nat) : Prop :=
  i <= length s /\ forall b, nth_error s i = Some b -> ~ (128 <= b < 192)%Z.
Definition part (s : text) (a b : nat) : text := firstn (b - a) (skipn a s).
(** [b] is where the character after the one at [a] starts *)
Definition next (s : text) (a b : nat) : Prop :=
  a < b /\ at_char s b /\ forall j, a < j < b -> ~ at_char s j.

(** A pattern on a text: the match it has starting exactly at a position, if any.  The first
    entry is the match, the others its groups. *)
Definition match_at (s : text) (a : nat) (c : caps) : Prop :=
  exists b gs, c = Some (a, b) :: gs /\ a <= b /\ at_char s a /\ at_char s b /\
    forall x y, In (Some (x, y)) gs -> x <= y /\ at_char s x /\ at_char s y.
Definition pattern (s : text) (here : nat -> option caps) : Prop :=
  forall a c, here a = Some c -> match_at s a c.
(** the leftmost match from [i] on *)
Inductive found (here : nat -> option caps) (i : nat) : option caps -> Prop :=
| found_some a c : i <= a -> here a = Some c -> (forall j, i <= j < a -> here j = None) -> found here i (Some c)
| found_none : (forall j, i <= j -> here j = None) -> found here i None.
(** what is expected of the engine; asked inside of a character or beyond the end it may
    answer anything *)
Definition engine (s : text) (here : nat -> option caps) (cap : text -> nat -> res (option caps)) : Prop :=
  forall i, at_char s i -> exists o, cap s i = Ok o /\ found here i o.

(** all matches from [i] on, left to right: the search goes on where a match ends, after an empty
    match one character further *)
Inductive matches (s : text) (here : nat -> option caps) : nat -> list caps -> Prop :=
| ms_none i : found here i None -> matches s here i []
| ms_some i a b gs ms :
    found here i (Some (Some (a, b) :: gs)) -> a < b -> matches s here b ms ->
    matches s here i ((Some (a, b) :: gs) :: ms)
| ms_empty i a b gs ms :
    found here i (Some (Some (a, a) :: gs)) -> next s a b -> matches s here b ms ->
    matches s here i ((Some (a, a) :: gs) :: ms)
| ms_end i gs :
    found here i (Some (Some (length s, length s) :: gs)) ->
    matches s here i [Some (length s, length s) :: gs].

(** the text with the matches replaced by the given texts *)
Fixpoint pieces (s : text) (i : nat) (ms : list caps) (ws : list text) : text :=
  match ms, ws with
  | (Some (a, b) :: _) :: ms, w :: ws => part s i a ++ w ++ pieces s b ms ws
  | _, _ => part s i (length s)
  end.

(** the matched text, and the variables $&, $' and $1, $2, ... after a match *)
Definition matched (s : text) (c : caps) : text :=
  match c with Some (a, b) :: _ => part s a b | _ => [] end.
Definition group_text (s : text) (g : option (nat * nat)) : option text :=
  match g with Some (x, y) => Some (part s x y) | None => None end.
Definition remembered (s : text) (c : caps) : specials :=
  match c with
  | Some (a, b) :: gs => mksp (Some (part s a b)) (Some (part s b (length s))) (map (group_text s) gs)
  | _ => mksp None None []
  end.
Definition after_all (s : text) (ms : list caps) (sp : specials) : specials :=
  match ms with [] => sp | _ => remembered s (last ms []) end.

(** a replacement text stands for: itself, except that `\0` to `\9` are groups, `\\` is a backslash, and a
    backslash before anything else is kept (of Ruby's escapes, &, `, ' and k are left out) *)
Definition digit (x : Z) : Prop := (48 <= x <= 57)%Z.
Inductive stands (s : text) (c : caps) : text -> text -> Prop :=
| st_nil : stands s c [] []
| st_char x t w : x <> 92%Z -> stands s c t w -> stands s c (x :: t) (x :: w)
| st_group x t w y : digit x -> nth_error c (Z.to_nat (x - 48)) = Some (Some y) -> stands s c t w ->
    stands s c (92%Z :: x :: t) (part s (fst y) (snd y) ++ w)
| st_nogroup x t w : digit x -> (forall y, nth_error c (Z.to_nat (x - 48)) <> Some (Some y)) -> stands s c t w ->
    stands s c (92%Z :: x :: t) w
| st_back t w : stands s c t w -> stands s c (92%Z :: 92%Z :: t) (92%Z :: w)
| st_lone : stands s c [92%Z] [92%Z]
| st_other x t w : ~ digit x -> ~ In x [92; 38; 96; 39; 107]%Z -> stands s c t w ->
    stands s c (92%Z :: x :: t) (92%Z :: x :: w).
(** every backslash stands before a digit or a backslash *)
Inductive tidy : text -> Prop :=
| tidy_nil : tidy []
| tidy_char x t : x <> 92%Z -> tidy t -> tidy (x :: t)
| tidy_esc x t : digit x \/ x = 92%Z -> tidy t -> tidy (92%Z :: x :: t).

(** the block is called for each match in turn, with the variables of that match, until it
    fails *)
Section Runs.
Variable W : Type.
Variable block : specials * W -> text -> (specials * W) * res text.
Inductive runs (s : text) : list caps -> specials * W -> specials * W -> res (list text) -> Prop :=
| runs_nil st : runs s [] st st (Ok [])
| runs_ok c ms st st1 w st2 ws :
    block (remembered s c, snd st) (matched s c) = (st1, Ok w) -> runs s ms st1 st2 (Ok ws) ->
    runs s (c :: ms) st st2 (Ok (w :: ws))
| runs_later c ms st st1 w st2 k :
    block (remembered s c, snd st) (matched s c) = (st1, Ok w) -> runs s ms st1 st2 (Err k) ->
    runs s (c :: ms) st st2 (Err k)
| runs_err c ms st st1 k :
    block (remembered s c, snd st) (matched s c) = (st1, Err k) -> runs s (c :: ms) st st1 (Err k).
End Runs.

(** scan: the matched text, or the groups if the pattern has any *)
Definition scanned (s : text) (c : caps) : found_item :=
  match tl c with [] => FText (matched s c) | gs => FGroups (map (group_text s) gs) end.

(** split: what is between the matches, with the groups of each match after it *)
Fixpoint fields (s : text) (i : nat) (ms : list caps) : list text :=
  match ms with
  | (Some (a, b) :: gs) :: ms =>
      part s i a :: map (fun g => match group_text s g with Some t => t | None => [] end) gs ++ fields s b ms
  | _ => [part s i (length s)]
  end.
(** matches follow each other from [i] on *)
Fixpoint follow (s : text) (i : nat) (ms : list caps) : Prop :=
  match ms with
  | [] => True
  | c :: ms => exists a b gs, c = Some (a, b) :: gs /\ i <= a /\ match_at s a c /\ follow s b ms
  end.

(** characters that start before position [a] *)
Definition chars_before (s : text) (a : nat) : nat :=
  length (filter (fun b => negb ((128 <=? b)%Z && (b <? 192)%Z)) (firstn a s)).
(** no empty texts at the end of [r], and [v] is [r] with some more of them *)
Definition trimmed (v r : list text) : Prop :=
  (exists k, v = r ++ repeat [] k) /\ (r = [] \/ last r [] <> []).
(** what s[re, n] picks: group n, counted from the last one if negative *)
Definition picked (s : text) (c : caps) (n : Z) : option text :=
  if (0 <=? n)%Z then match nth_error c (Z.to_nat n) with Some g => group_text s g | None => None end
  else if (Z.of_nat (length c) + n <=? 0)%Z then None
  else match nth_error c (Z.to_nat (Z.of_nat (length c) + n)) with Some g => group_text s g | None => None end.

(** empty matches stand before characters of one byte, none is at the very end *)
Definition narrow (s : text) (here : nat -> option caps) : Prop :=
  here (length s) = None /\ forall a gs, here a = Some (Some (a, a) :: gs) -> next s a (a + 1).
(** every group takes part in the match *)
Definition took_part (c : caps) : Prop := ~ In None c.
(** the fields with the matched texts between them *)
Fixpoint weave (v seps : list text) : text :=
  match v, seps with
  | x :: v, y :: seps => x ++ y ++ weave v seps
  | x :: _, [] => x
  | [], _ => []
  end.
(** tr on characters: one in [from] becomes the one at its place in [to] (the last of [to] if there
    is none) *)
Fixpoint place (c : Z) (from : text) : option nat :=
  match from with
  | [] => None
  | x :: r => if (x =? c)%Z then Some 0 else option_map S (place c r)
  end.
Definition translated (from to : text) (c : Z) : Z :=
  match place c from with Some k => nth k to (last to 0%Z) | None => c end.
