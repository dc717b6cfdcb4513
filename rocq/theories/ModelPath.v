(* Paths and files: ruruby/src/builtin/file.rs.  Text is a list of characters, as code points. *)
From Verif Require Import Base ModelText ModelLexer.

(* ---- std::path, not part of /repo, on Unix ---- *)
(* a PathBuf is its text *)
Definition path := chars.
Inductive comp : Type := Root | Cur | Parent | Normal (n : chars).
(* the text between the slashes *)
Fixpoint split_slash (part : chars) (s : chars) : list chars :=
  match s with
  | [] => [part]
  | c :: s => if c =? 47 then part :: split_slash [] s else split_slash (part ++ [c]) s
  end.
Definition comp_of (part : chars) : list comp :=
  match part with
  | [] => []
  | [46] => []
  | [46; 46] => [Parent]
  | _ => [Normal part]
  end.
(* Path::components; Path::iter gives the same ones as text.  A dot is a component at the beginning only. *)
Definition components (p : path) : list comp :=
  match split_slash [] p with
  | [] :: ((_ :: _) as parts) => Root :: flat_map comp_of parts
  | [46] :: parts => Cur :: flat_map comp_of parts
  | parts => flat_map comp_of parts
  end.
Definition comp_text (c : comp) : chars :=
  match c with Root => [47] | Cur => [46] | Parent => [46; 46] | Normal n => n end.
(* PathBuf::push *)
Definition push (p q : path) : path :=
  match q with
  | 47 :: _ => q
  | _ => match p with
         | [] => q
         | _ => if last p 0 =? 47 then p ++ q else p ++ [47] ++ q
         end
  end.
Definition last_comp (p : path) : option comp :=
  match rev (components p) with c :: _ => Some c | [] => None end.
(* Path::file_name *)
Definition file_name (p : path) : option chars :=
  match last_comp p with Some (Normal n) => Some n | _ => None end.
(* Path::parent.  Simplification: repeated slashes and dots between slashes inside the parent are left out;
   the function is used only for paths that have none. *)
Definition parent (p : path) : option path :=
  match last_comp p with
  | None | Some Root => None
  | _ => Some (fold_left push (map comp_text (removelast (components p))) [])
  end.
(* PathBuf::pop *)
Definition pop (p : path) : path := match parent p with Some q => q | None => p end.
(* Path::extension: the text behind the last dot of the file name, if there is one that is not its first character *)
Fixpoint last_dot (seen : chars) (found : option (chars * chars)) (s : chars) : option (chars * chars) :=
  match s with
  | [] => found
  | c :: s => last_dot (seen ++ [c]) (if c =? 46 then Some (seen, s) else found) s
  end.
Definition extension (p : path) : option chars :=
  match file_name p with
  | None => None
  | Some n => match last_dot [] None n with
              | Some ([], _) | None => None
              | Some (_, ext) => Some ext
              end
  end.

(* ---- values ---- *)
(* the arguments, as far as these functions look at them: Strings, Arrays and others.  Arrays that contain themselves are
   not modelled. *)
Inductive pval : Type := PStr (s : chars) | PAry (l : list pval) | POther.
(* value/value.rs:657-663 *)
Definition expect_string (v : pval) : res chars := match v with PStr s => Ok s | _ => Err TypeErr end.

(* ---- file.rs ---- *)
(* 31-42: one turn of the loop *)
Definition norm_step (p : path) (c : comp) : path :=
  match c with
  | Parent => match file_name p with Some _ => pop p | None => push p (comp_text c) end
  | _ => push p (comp_text c)
  end.
Definition string_to_path (v : pval) : res path :=
  s <- expect_string v ;;
  Ok (fold_left norm_step (components s) []).

(* 73-100 *)
Definition append (p s : chars) : chars :=
  let p := match p with
           | [] => p
           | _ => if last p 0 =? 47 then p else p ++ [47]
           end in
  p ++ (match p, s with
        | _ :: _, 47 :: s => s
        | _, _ => s
        end).
Fixpoint flatten (p : chars) (v : pval) : res chars :=
  match v with
  | PAry l =>
      (fix each (l : list pval) (p : chars) : res chars :=
         match l with
         | [] => Ok p
         | v :: l => p <- flatten p v ;; each l p
         end) l p
  | _ => s <- expect_string v ;; Ok (append p s)
  end.
Fixpoint join_args (p : chars) (args : list pval) : res chars :=
  match args with
  | [] => Ok p
  | v :: args => p <- flatten p v ;; join_args p args
  end.
Definition join (args : list pval) : res chars := join_args [] args.

(* 102-110; None: nil *)
Definition basename (v : pval) : res (option chars) := p <- string_to_path v ;; Ok (file_name p).
(* 112-120 *)
Definition extname (v : pval) : res chars :=
  p <- string_to_path v ;; Ok (match extension p with Some e => 46 :: e | None => [] end).
(* 122-130 *)
Definition dirname (v : pval) : res chars :=
  p <- string_to_path v ;; Ok (match parent p with Some q => q | None => [] end).

(* 215-259; [cwd] and [home]: std::env::current_dir and dirs::home_dir; None: no second argument *)
Definition is_tilde (n : chars) : bool := match n with [126] => true | _ => false end.
Definition expand_step (home : path) (p : path) (c : comp) : path :=
  match c with
  | Cur => p
  | Normal n => if is_tilde n then home else push p n
  | Parent => pop p
  | Root => [47]
  end.
Definition expand_path (cwd home : path) (v : pval) (dir : option pval) : res chars :=
  p <- match dir with
       | None => string_to_path v
       | Some d => p <- string_to_path d ;; rel <- string_to_path v ;; Ok (push p rel)
       end ;;
  Ok (fold_left (expand_step home) (components p) cwd).

(* ---- the file system ---- *)
(* Not part of /repo.  Files with their contents as text, directories with their entries.  Symbolic links, permissions,
   contents that are not UTF-8 and changes by other programs are not modelled. *)
Inductive fnode : Type := FFile (text : chars) | FDir (entries : list (chars * fnode)).
Fixpoint chars_eqb (a b : chars) : bool :=
  match a, b with
  | [], [] => true
  | x :: a, y :: b => (x =? y) && chars_eqb a b
  | _, _ => false
  end.
Fixpoint entry (name : chars) (es : list (chars * fnode)) : option fnode :=
  match es with
  | [] => None
  | (n, x) :: es => if chars_eqb n name then Some x else entry name es
  end.
(* a place is given by the names from the root *)
Fixpoint node_at (n : fnode) (place : list chars) : option fnode :=
  match place with
  | [] => Some n
  | name :: place => match n with
                     | FDir es => match entry name es with Some x => node_at x place | None => None end
                     | FFile _ => None
                     end
  end.
Definition is_dir (n : option fnode) : bool := match n with Some (FDir _) => true | _ => false end.
(* the path resolution of the system: one part of a path *)
Definition os_step (root : fnode) (place : option (list chars)) (part : chars) : option (list chars) :=
  match place with
  | None => None
  | Some pl =>
      if is_dir (node_at root pl) then
        match part with
        | [] | [46] => Some pl
        | [46; 46] => Some (removelast pl)
        | _ => match node_at root (pl ++ [part]) with Some _ => Some (pl ++ [part]) | None => None end
        end
      else None
  end.
Definition os_walk (root : fnode) (place : list chars) (parts : list chars) : option (list chars) :=
  fold_left (os_step root) parts (Some place).
Definition os_start (cwd : list chars) (p : path) : list chars := match p with 47 :: _ => [] | _ => cwd end.
(* an empty path leads nowhere; an empty part, as behind a slash at the end, needs a directory before it *)
Definition os_resolve (root : fnode) (cwd : list chars) (p : path) : option (list chars) :=
  match p with [] => None | _ => os_walk root (os_start cwd p) (split_slash [] p) end.

(* 56-69 *)
Definition string_to_canonicalized_path (root : fnode) (cwd : list chars) (v : pval) : res (list chars) :=
  p <- string_to_path v ;;
  match os_resolve root cwd p with Some pl => Ok pl | None => Err ArgErr end.
(* 261-265; executable? (267-271) is the same function *)
Definition exist (root : fnode) (cwd : list chars) (v : pval) : bool :=
  match string_to_canonicalized_path root cwd v with Ok _ => true | _ => false end.
Definition executable := exist.
(* 273-280 *)
Definition directory (root : fnode) (cwd : list chars) (v : pval) : bool :=
  match string_to_canonicalized_path root cwd v with
  | Ok pl => is_dir (node_at root pl)
  | _ => false
  end.
(* 282-289 *)
Definition file (root : fnode) (cwd : list chars) (v : pval) : bool :=
  match string_to_canonicalized_path root cwd v with
  | Ok pl => match node_at root pl with Some (FFile _) => true | _ => false end
  | _ => false
  end.
(* 153-171.  Reading a directory fails. *)
Definition read (root : fnode) (cwd : list chars) (v : pval) : res chars :=
  p <- string_to_path v ;;
  match os_resolve root cwd p with
  | Some pl => match node_at root pl with Some (FFile s) => Ok s | _ => Err OtherErr end
  | None => Err OtherErr
  end.
(* contents.split('\n') *)
Fixpoint split_lines (line : chars) (s : chars) : list chars :=
  match s with
  | [] => [line]
  | c :: s => if c =? 10 then line :: split_lines [] s else split_lines (line ++ [c]) s
  end.
(* 174-193 *)
Definition readlines (root : fnode) (cwd : list chars) (v : pval) : res (list chars) :=
  s <- read root cwd v ;; Ok (split_lines [] s).
(* std::fs::write: the file is created or its contents replaced *)
Fixpoint set_entry (name : chars) (x : fnode) (es : list (chars * fnode)) : list (chars * fnode) :=
  match es with
  | [] => [(name, x)]
  | (n, y) :: es => if chars_eqb n name then (n, x) :: es else (n, y) :: set_entry name x es
  end.
Fixpoint put_at (n : fnode) (place : list chars) (x : fnode) : fnode :=
  match place with
  | [] => x
  | name :: place =>
      match n with
      | FDir es => match entry name es, place with
                   | Some y, _ => FDir (set_entry name (put_at y place x) es)
                   | None, [] => FDir (set_entry name x es)
                   | None, _ => n
                   end
      | FFile _ => n
      end
  end.
Definition os_write (root : fnode) (cwd : list chars) (p : path) (s : chars) : option fnode :=
  match p with
  | [] => None
  | _ =>
      let parts := split_slash [] p in
      match os_walk root (os_start cwd p) (removelast parts), last parts [] with
      | None, _ | _, [] | _, [46] | _, [46; 46] => None
      | Some pl, name =>
          match node_at root pl with
          | Some (FDir es) =>
              match entry name es with
              | Some (FDir _) => None
              | _ => Some (put_at root (pl ++ [name]) (FFile s))
              end
          | _ => None
          end
      end
  end.
(* 196-212 *)
Definition write (root : fnode) (cwd : list chars) (v c : pval) : res (fnode * Z) :=
  f <- expect_string v ;; s <- expect_string c ;;
  match os_write root cwd f s with
  | Some root => Ok (root, bytes s)
  | None => Err OtherErr
  end.
