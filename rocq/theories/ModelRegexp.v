(** Matching with regular expressions: ruruby/src/builtin/regexp.rs, the methods of
    builtin/string.rs that call it, and the special variables of vm/executor.rs.

    The engine (the crate fancy_regex) is a parameter: [captures_from s i] is
    captures_from_pos, [Ok None] is no match and [Err] an error of the engine.  A text is its
    bytes (UTF-8), positions count bytes.  Not modelled: compiling patterns and
    their cache (regexp.rs:21-50), Value wrapping, a receiver changed by the block while it is being
    replaced in (the code keeps a reference to the old text). *)
From Verif Require Import Base ModelString.
Open Scope nat_scope.

Definition text : Type := list Z.
(** where group 0 (the match) and the other groups are; a group may not take part *)
Definition caps : Type := list (option (nat * nat)).
(** std: str::is_char_boundary *)
Definition is_boundary (s : text) (i : nat) : bool :=
  match nth_error s i with Some b => negb (cont b) | None => i =? length s end.
(** std: str indexing with a range, String::replace_range: outside, or inside of a
    character, they panic *)
Definition sub_text (s : text) (a b : nat) : text := firstn (b - a) (skipn a s).
Definition slice (s : text) (a b : nat) : res text :=
  if (a <=? b) && (b <=? length s) && is_boundary s a && is_boundary s b then Ok (sub_text s a b) else Panic.
Definition replace_range (s : text) (a b : nat) (w : text) : res text :=
  if (a <=? b) && (b <=? length s) && is_boundary s a && is_boundary s b
  then Ok (firstn a s ++ w ++ skipn b s) else Panic.
(** fancy_regex: Captures::get, and as_str of the Match *)
Definition get (c : caps) (i : nat) : option (nat * nat) :=
  match nth_error c i with Some (Some m) => Some m | _ => None end.
Definition as_str (s : text) (m : nat * nat) : res text := slice s (fst m) (snd m).
(** captures.get(0).unwrap() *)
Definition whole (c : caps) : res (nat * nat) := match get c 0 with Some m => Ok m | None => Panic end.
Fixpoint each {A B} (f : A -> res B) (l : list A) : res (list B) :=
  match l with
  | [] => Ok []
  | x :: r => y <- f x ;; t <- each f r ;; Ok (y :: t)
  end.

(** vm/executor.rs: sp_last_match, sp_post_match, sp_matches; they are of the VM *)
Record specials : Type := mksp { sp_last : option text; sp_post : option text; sp_groups : list (option text) }.
Definition opt_str (s : text) (m : option (nat * nat)) : res (option text) :=
  match m with Some m => x <- as_str s m ;; Ok (Some x) | None => Ok None end.
(** executor.rs:547-569 [get_captures] *)
Definition get_captures (c : caps) (given : text) : res specials :=
  p <- match get c 0 with
       | Some (a, b) => x <- slice given a b ;; y <- slice given b (length given) ;; Ok (Some x, Some y)
       | None => Ok (None, None)
       end ;;
  g <- each (opt_str given) (tl c) ;;
  Ok (mksp (fst p) (snd p) g).
(** executor.rs:571-576, 521-537; nil is [None] *)
Definition special_match (sp : specials) (nth : nat) : option text :=
  match nth_error (sp_groups sp) (nth - 1) with Some (Some t) => Some t | _ => None end.
(** regexp.rs:425-436 Regexp.last_match(n) *)
Definition last_match (sp : specials) (n : Z) : res (option text) :=
  if (n =? 0)%Z then Ok (sp_last sp)
  else if (n <? 0)%Z then Err ArgErr
  else Ok (special_match sp (Z.to_nat n)).

(** std: str::char_indices().nth(pos) *)
Fixpoint nth_char (s : text) (i : nat) (pos : nat) : option nat :=
  match s with
  | [] => None
  | b :: r =>
      if cont b then nth_char r (S i) pos
      else match pos with O => Some i | S pos => nth_char r (S i) pos end
  end.

Section Regexp.
Variable captures_from : text -> nat -> res (option caps).

(** ** Replacing *)
(** regexp.rs:321-324, 164-167: from the last match back to the first *)
Fixpoint replace_back (s : text) (l : list (nat * nat * text)) : res text :=
  match l with
  | [] => Ok s
  | ((a, b), w) :: r => s <- replace_range s a b w ;; replace_back s r
  end.
(** regexp.rs:291-332 [replace_repeat]; out of fuel is [Panic], fuel is more than there
    are bytes *)
Fixpoint repeat_loop (fuel : nat) (given : text) (i : nat) (acc : list caps) : res (list caps) :=
  match fuel with
  | O => Panic
  | S fuel =>
      if length given <=? i then Ok acc
      else
        r <- captures_from given i ;;
        match r with
        | None => Ok acc
        | Some c =>
            m <- whole c ;;
            repeat_loop fuel given (if snd m =? fst m then snd m + 1 else snd m) (acc ++ [c])
        end
  end.
Definition set_last (given : text) (cs : list caps) (sp : specials) : res specials :=
  match rev cs with c :: _ => get_captures c given | [] => Ok sp end.
Definition replace_repeat (given rep : text) (sp : specials) : res (text * bool * specials) :=
  cs <- repeat_loop (S (length given)) given 0 [] ;;
  ms <- each whole cs ;;
  t <- replace_back given (map (fun m => (m, rep)) (rev ms)) ;;
  sp <- set_last given cs sp ;;
  Ok (t, negb (length ms =? 0), sp).

(** regexp.rs:338-376 [replace_once]: `\0` to `\9` stand for groups, another character after a
    backslash for itself.  The code goes by characters; bytes of a longer character
    are neither backslashes nor digits. *)
Fixpoint expand (given : text) (c : caps) (rep : text) (escape : bool) : res text :=
  match rep with
  | [] => Ok []
  | ch :: r =>
      if escape then
        if (48 <=? ch)%Z && (ch <=? 57)%Z then
          x <- match get c (Z.to_nat (ch - 48)) with Some m => as_str given m | None => Ok [] end ;;
          t <- expand given c r false ;; Ok (x ++ t)
        else t <- expand given c r false ;; Ok (ch :: t)
      else if negb (ch =? 92)%Z then t <- expand given c r false ;; Ok (ch :: t)
      else expand given c r true
  end.
Definition replace_once (given rep : text) (sp : specials) : res (text * option caps * specials) :=
  r <- captures_from given 0 ;;
  match r with
  | None => Ok (given, None, sp)
  | Some c =>
      m <- whole c ;;
      sp <- get_captures c given ;;
      w <- expand given c rep false ;;
      t <- replace_range given (fst m) (snd m) w ;;
      Ok (t, Some c, sp)
  end.

(** With a block: [W] is the rest of the state of the program.  The block gets the matched
    text, and its result is converted by to_s. *)
Section Block.
Variable W : Type.
Variable block : specials * W -> text -> (specials * W) * res text.
(** regexp.rs:72-110 [replace_one_block] *)
Definition replace_one_block (given : text) (st : specials * W) : (specials * W) * res (text * bool) :=
  match captures_from given 0 with
  | Ok None => (st, Ok (given, false))
  | Ok (Some c) =>
      match (m <- whole c ;; sp <- get_captures c given ;; x <- as_str given m ;; Ok (m, sp, x)) with
      | Ok (m, sp, x) =>
          let (st, w) := block (sp, snd st) x in
          (st, w <- w ;; t <- replace_range given (fst m) (snd m) w ;; Ok (t, true))
      | Err k => (st, Err k)
      | Panic => (st, Panic)
      end
  | Err k => (st, Err k)
  | Panic => (st, Panic)
  end.
(** regexp.rs:130-179 [replace_all_block] *)
Fixpoint block_loop (fuel : nat) (given : text) (i : nat) (acc : list (nat * nat * text)) (st : specials * W)
    : (specials * W) * res (list (nat * nat * text)) :=
  match fuel with
  | O => (st, Panic)
  | S fuel =>
      match captures_from given i with
      | Ok None => (st, Ok acc)
      | Ok (Some c) =>
          match (m <- whole c ;; sp <- get_captures c given ;; x <- as_str given m ;; Ok (m, sp, x)) with
          | Ok (m, sp, x) =>
              let (st, w) := block (sp, snd st) x in
              match w with
              | Ok w => block_loop fuel given (snd m + (if fst m =? snd m then 1 else 0)) (acc ++ [(m, w)]) st
              | Err k => (st, Err k)
              | Panic => (st, Panic)
              end
          | Err k => (st, Err k)
          | Panic => (st, Panic)
          end
      | Err k => (st, Err k)
      | Panic => (st, Panic)
      end
  end.
Definition replace_all_block (given : text) (st : specials * W) : (specials * W) * res (text * bool) :=
  let (st, l) := block_loop (S (S (length given))) given 0 [] st in
  (st, l <- l ;; t <- replace_back given (rev l) ;; Ok (t, negb (length l =? 0))).
(** regexp.rs:205-225 [match_one_block], String#match with a block; the block's result is
    given back as it is *)
Definition match_one_block (given : text) (pos : nat) (st : specials * W)
    : (specials * W) * res (option text) :=
  match nth_char given 0 pos with
  | None => (st, Ok None)
  | Some i =>
      match captures_from given i with
      | Ok None => (st, Ok None)
      | Ok (Some c) =>
          match (sp <- get_captures c given ;; m <- whole c ;; x <- as_str given m ;; Ok (sp, x)) with
          | Ok (sp, x) => let (st, v) := block (sp, snd st) x in (st, v <- v ;; Ok (Some v))
          | Err k => (st, Err k)
          | Panic => (st, Panic)
          end
      | Err k => (st, Err k)
      | Panic => (st, Panic)
      end
  end.
End Block.

(** ** Finding *)
(** regexp.rs:244-283 [find_all]: the matched text, or the texts of the groups if there
    are any.  [None]: the loop has not ended after [fuel] rounds. *)
Inductive found_item : Type := FText (t : text) | FGroups (l : list (option text)).
Definition item_of (given : text) (c : caps) : res found_item :=
  m <- whole c ;;
  if length c =? 1 then x <- as_str given m ;; Ok (FText x)
  else g <- each (opt_str given) (tl c) ;; Ok (FGroups g).
Fixpoint find_loop (fuel : nat) (given : text) (i : nat) (acc : list found_item) (last : option caps)
    : option (res (list found_item * option caps)) :=
  match fuel with
  | O => None
  | S fuel =>
      match captures_from given i with
      | Ok None => Some (Ok (acc, last))
      | Ok (Some c) =>
          match (m <- whole c ;; x <- item_of given c ;; Ok (m, x)) with
          | Ok (m, x) => find_loop fuel given (snd m) (acc ++ [x]) (Some c)
          | Err k => Some (Err k)
          | Panic => Some Panic
          end
      | Err k => Some (Err k)
      | Panic => Some Panic
      end
  end.
Definition find_all (fuel : nat) (given : text) (sp : specials) : option (res (list found_item * specials)) :=
  match find_loop fuel given 0 [] None with
  | None => None
  | Some r => Some (x <- r ;; sp <- match snd x with Some c => get_captures c given | None => Ok sp end ;; Ok (fst x, sp))
  end.
(** regexp.rs:229-242 [find_one] *)
Definition find_one (given : text) (sp : specials) : res (option (nat * nat) * specials) :=
  r <- captures_from given 0 ;;
  match r with
  | None => Ok (None, sp)
  | Some c => sp <- get_captures c given ;; Ok (get c 0, sp)
  end.
(** regexp.rs:439-449, string.rs:736-748: =~.  An error of the engine makes it
    panic (unwrap). *)
Definition match_op (given : text) (sp : specials) : res (option nat * specials) :=
  match find_one given sp with
  | Ok (m, sp) => Ok (match m with Some m => Some (fst m) | None => None end, sp)
  | _ => Panic
  end.
(** regexp.rs:181-203 [match_one], String#match *)
Definition match_one (given : text) (pos : nat) (sp : specials) : res (option (list text) * specials) :=
  match nth_char given 0 pos with
  | None => Ok (None, sp)
  | Some i =>
      r <- captures_from given i ;;
      match r with
      | None => Ok (None, sp)
      | Some c =>
          sp <- get_captures c given ;;
          v <- each (fun m => match m with Some m => as_str given m | None => Panic end) c ;;
          Ok (Some v, sp)
      end
  end.
(** string.rs:187-217: s[re], s[re, nth] *)
Definition index_regexp (given : text) (nth : Z) (sp : specials) : res (option text * specials) :=
  r <- captures_from given 0 ;;
  match r with
  | None => Ok (None, sp)
  | Some c =>
      sp <- get_captures c given ;;
      let len := Z.of_nat (length c) in
      x <- (if (nth =? 0)%Z then m <- whole c ;; x <- as_str given m ;; Ok (Some x)
            else if (0 <? nth)%Z then opt_str given (get c (Z.to_nat nth))
            else if (0 <? len + nth)%Z then
              match get c (Z.to_nat (len + nth)) with Some m => x <- as_str given m ;; Ok (Some x) | None => Panic end
            else Ok None) ;;
      Ok (x, sp)
  end.
(** string.rs:710-720: slice!(re) *)
Definition slice_regexp (given : text) (sp : specials) : res (text * option text * specials) :=
  x <- replace_once given [] sp ;;
  let '(t, c, sp) := x in
  match c with
  | Some c => m <- whole c ;; y <- as_str given m ;; Ok (t, Some y, sp)
  | None => Ok (t, None, sp)
  end.
End Regexp.

(** string.rs:497-540: split with a regular expression; [iter] is what captures_iter gives.
    [count] is an i64, whose overflow is left out. *)
Fixpoint split_groups (given : text) (lim count : Z) (gs : list (option (nat * nat))) (acc : list text)
    : res (list text * Z * option nat) :=
  match gs with
  | [] => Ok (acc, count, None)
  | g :: r =>
      match g with
      | None => Panic
      | Some m =>
          if (count + 1 =? lim)%Z then Ok (acc, count + 1, Some (fst m))%Z
          else x <- as_str given m ;; split_groups given lim (count + 1) r (acc ++ [x])
      end
  end.
Fixpoint split_loop (given : text) (lim count : Z) (cursor : nat) (iter : list caps) (acc : list text)
    : res (list text * nat) :=
  match iter with
  | [] => Ok (acc, cursor)
  | c :: r =>
      m <- whole c ;;
      if (count + 1 =? lim)%Z then Ok (acc, cursor)
      else
        x <- slice given cursor (fst m) ;;
        g <- split_groups given lim (count + 1) (tl c) (acc ++ [x]) ;;
        let '(acc, count, stop) := g in
        match stop with
        | Some p => Ok (acc, p)
        | None => split_loop given lim count (snd m) r acc
        end
  end.
Fixpoint pop_empty (l : list text) : list text :=
  match l with [] :: r => pop_empty r | _ => l end.
Definition split_regexp (given : text) (iter : list caps) (lim : Z) : res (list text) :=
  x <- split_loop given lim 0 0 iter [] ;;
  let '(acc, cursor) := x in
  v <- (if cursor <=? length given then y <- slice given cursor (length given) ;; Ok (acc ++ [y]) else Ok acc) ;;
  Ok (if (lim =? 0)%Z then rev (pop_empty (rev v)) else v).

(** string.rs:769-778: tr, by std's str::replace; here a text is its characters *)
Fixpoint replace_all_str (fuel : nat) (s from to : text) : text :=
  match fuel with
  | O => s
  | S fuel =>
      match from, s with
      | [], c :: r => to ++ c :: replace_all_str fuel r from to      (* one character at a time *)
      | [], [] => to
      | _, [] => []
      | _, c :: r =>
          if starts_with s from then to ++ replace_all_str fuel (skipn (length from) s) from to
          else c :: replace_all_str fuel r from to
      end
  end.
Definition str_tr (s from to : text) : text := replace_all_str (S (length s)) s from to.
