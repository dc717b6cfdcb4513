(* Dir.glob and Dir.[]: ruruby/src/builtin/dir.rs:41-183.  Text is a list of characters, as code points. *)
From Verif Require Import Base ModelText.

(* ---- the file system ---- *)
(* a file, or a directory, that can be read or not, with its entries in the order of
   fs::read_dir.  Symbolic links, whose file_type is neither, names that are not UTF-8 and
   changes while the search runs are not modelled. *)
Inductive node : Type := File | Dir (readable : bool) (entries : list (chars * node)).

(* ---- the pattern ---- *)
(* pieces of the regular expressions: a character that stands for itself, any character (a dot), any
   characters (a dot and a star), the optional group of 68 (nothing, or a character that is no dot and
   any characters), and a character that means something in regular expressions *)
Inductive item : Set := ILit (c : Z) | IDot | IDotStar | ILead | IRaw (c : Z).
(* characters other than ? * . / that are not ordinary in the syntax of the crate regex *)
Definition is_raw (c : Z) : bool := existsb (Z.eqb c) [36; 40; 41; 43; 91; 92; 93; 94; 123; 124; 125].
(* 53-93: [buf] is charbuf without its first character `^`, so charbuf.len() == 1 (58) is
   buf = []; None: the "*" of 63.  charbuf is never empty (86). *)
Fixpoint compile (buf : list item) (pattern : chars) : list (option (list item)) :=
  match pattern with
  | [] => [Some buf]
  | ch :: rest =>
      if ch =? 63 then compile (buf ++ [IDot]) rest
      else if ch =? 42 then
        match buf with
        | [] =>
            match rest with
            | 42 :: rest2 =>
                match rest2 with
                | 47 :: rest3 => None :: compile [] rest3
                | _ => compile [ILead] rest2
                end
            | _ => compile [ILead] rest
            end
        | _ => compile (buf ++ [IDotStar]) rest
        end
      else if ch =? 46 then compile (buf ++ [ILit 46]) rest
      else if ch =? 47 then Some buf :: compile [] rest
      else if is_raw ch then compile (buf ++ [IRaw ch]) rest
      else compile (buf ++ [ILit ch]) rest
  end.

(* ---- the regular expressions ---- *)
(* The crate regex, not part of /repo: find with ^ and $ around the pieces.  `.` does not match a newline. *)
Fixpoint star (k : chars -> bool) (s : chars) : bool :=
  k s || match s with [] => false | c :: r => negb (c =? 10) && star k r end.
Fixpoint re_find (re : list item) (s : chars) : bool :=
  match re with
  | [] => match s with [] => true | _ => false end
  | ILit c :: re => match s with c1 :: s => (c1 =? c) && re_find re s | [] => false end
  | IDot :: re => match s with c1 :: s => negb (c1 =? 10) && re_find re s | [] => false end
  | IDotStar :: re => star (re_find re) s
  | ILead :: re => re_find re s || match s with c1 :: s => negb (c1 =? 46) && star (re_find re) s | [] => false end
  | IRaw _ :: _ => false
  end.
(* Regex::new(s).unwrap() (94-103): an opening bracket that nothing closes is an error.
   Simplification: other expressions with characters that are not ordinary are not modelled; Err OtherErr stands for them. *)
Definition regex_new (re : list item) : res unit :=
  let raw := flat_map (fun i => match i with IRaw c => [c] | _ => [] end) re in
  match raw with
  | [] => Ok tt
  | _ => if forallb (Z.eqb 40) raw then Panic else Err OtherErr
  end.
Fixpoint regex_all (glob : list (option (list item))) : res unit :=
  match glob with
  | [] => Ok tt
  | None :: g => regex_all g
  | Some re :: g => _ <- regex_new re ;; regex_all g
  end.

(* ---- the search ---- *)
Fixpoint chars_eqb (a b : chars) : bool :=
  match a, b with
  | [], [] => true
  | x :: a, y :: b => (x =? y) && chars_eqb a b
  | _, _ => false
  end.
(* 118-183.  [glob] is the pattern from the level on.  PathBuf::push of a name. *)
Definition push (path name : chars) : chars :=
  match path with
  | [] => name
  | _ => if last path 0 =? 47 then path ++ name else path ++ [47] ++ name
  end.
(* FxHashSet::insert; the order in which the set is listed in the end is not determined and
   not modelled *)
Definition insert (s : chars) (set : list chars) : list chars :=
  if existsb (chars_eqb s) set then set else set ++ [s].
Definition is_hidden (name : chars) : bool := match name with c :: _ => c =? 46 | [] => false end.
Inductive mstate : Set := MMatch | WildMatch | NextMatch.
(* 141-153; None: continue *)
Definition state_of (glob : list (option (list item))) (name : chars) : option mstate :=
  match glob with
  | Some re :: _ => if re_find re name then Some MMatch else None
  | None :: Some re :: _ => if re_find re name then Some NextMatch else Some WildMatch
  | _ => Some WildMatch
  end.
Definition is_next (s : mstate) : bool := match s with NextMatch => true | _ => false end.
(* Err OtherErr: the io::Error of read_dir *)
Fixpoint traverse (n : node) (path : chars) (glob : list (option (list item))) (matches : list chars) : res (list chars) :=
  match glob with
  | [] => Ok (insert path matches)
  | _ =>
      match n with
      | File => Err OtherErr
      | Dir readable entries =>
          if readable then
            (fix each (es : list (chars * node)) (matches : list chars) : res (list chars) :=
               match es with
               | [] => Ok matches
               | (name, child) :: es =>
                   match state_of glob name with
                   | None => each es matches
                   | Some state =>
                       match child with
                       | Dir _ _ =>
                           let path := push path name in
                           m <- match state with
                                | MMatch => traverse child path (skipn 1 glob) matches
                                | NextMatch =>
                                    m <- traverse child path (skipn 2 glob) matches ;;
                                    if negb (is_hidden name) then traverse child path glob m else Ok m
                                | WildMatch =>
                                    if negb (is_hidden name) then
                                      m <- traverse child path (skipn 1 glob) matches ;;
                                      traverse child path glob m
                                    else Ok matches
                                end ;;
                           each es m
                       | File =>
                           if Nat.eqb (length glob) 1 || (is_next state && Nat.eqb (length glob) 2)
                           then each es (insert (push path name) matches)
                           else each es matches
                       end
                   end
               end) entries matches
          else Err OtherErr
      end
  end.
(* 41-116; [root] and [cwd]: the directory / and the current one *)
Definition glob (root cwd : node) (pattern : chars) : res (list chars) :=
  let (start, pattern) := match pattern with 47 :: p => ((root, [47]), p) | _ => ((cwd, []), pattern) end in
  let g := compile [] pattern in
  _ <- regex_all g ;;
  traverse (fst start) (snd start) g [].
