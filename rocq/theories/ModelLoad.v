(* require, require_relative and load: ruruby/src/vm/executor/loader.rs, builtin/kernel.rs:124-183, globals.rs:205-213.
   Paths and the file system are those of ModelPath. *)
From Verif Require Import Base ModelText ModelLexer ModelPath.

(* ---- std::path, not part of /repo, on Unix ---- *)
(* the text up to the end of the last component: slashes at the end and /. at the end are not part of it.
   The argument is the text from its end to its beginning. *)
Fixpoint strip (s : chars) : chars :=
  match s with
  | 47 :: s => strip s
  | 46 :: ((47 :: _) as s) => strip s
  | _ => s
  end.
(* Path::file_stem of a file name *)
Definition stem (n : chars) : chars :=
  match last_dot [] None n with
  | Some ([], _) | None => n
  | Some (before, _) => before
  end.
(* PathBuf::set_extension, for extensions that are not empty: the text is cut at the end of the stem *)
Definition set_extension (p : path) (ext : chars) : path :=
  match file_name p with
  | None => p
  | Some n => let s := rev (strip (rev p)) in
              firstn (length s - length n) s ++ stem n ++ 46 :: ext
  end.
Definition rb : chars := [114; 98].
Definition so : chars := [115; 111].
(* Path::exists *)
Definition exists_at (root : fnode) (cwd : list chars) (p : path) : bool :=
  match os_resolve root cwd p with Some _ => true | None => false end.
(* the text of a path that canonicalize returns *)
Definition place_text (place : list chars) : path := fold_left push place [47].

(* ---- programs ---- *)
(* What a program does, as far as loading is concerned: the calls of the three functions (with the argument, whatever
   it is), an effect that can be observed, raising an error, a change of $: or of the files, and begin ... rescue; end.
   The calls are in the order in which they are made; which ones they are does not depend on the values returned. *)
Inductive act : Type :=
| ARequire (v : pval)
| ARelative (v : pval)
| ALoad (v : pval)
| AOut (z : Z)
| ARaise (e : rkind)
| ASetPath (v : option pval)
| ASetFiles (root : fnode)
| ARescue (body : list act).

(* what happens: the program of the file at a place starts, or an effect *)
Inductive event : Type := ERun (place : list chars) | EOut (z : Z).

(* globals.source_files, the value of $: (None: never set), the file system, and what has happened, the latest first *)
Record state : Type := State {
  files : list (list chars);
  load_path : option pval;
  root : fnode;
  past : list event }.
Definition set_files (s : state) (f : list (list chars)) : state := State f (load_path s) (root s) (past s).
Definition set_path (s : state) (v : option pval) : state := State (files s) v (root s) (past s).
Definition set_root (s : state) (r : fnode) : state := State (files s) (load_path s) r (past s).
Definition happens (s : state) (e : event) : state := State (files s) (load_path s) (root s) (e :: past s).

Fixpoint place_eqb (a b : list chars) : bool :=
  match a, b with
  | [], [] => true
  | x :: a, y :: b => chars_eqb x y && place_eqb a b
  | _, _ => false
  end.
(* globals.rs:205-213; true for Some *)
Definition add_source_file (s : state) (place : list chars) : state * bool :=
  if existsb (place_eqb place) (files s) then (s, false) else (set_files s (files s ++ [place]), true).

(* an answer or an error *)
Definition ans (A : Type) : Type := (state * res A)%type.

Section Load.
(* the working directory *)
Variable cwd : list chars.
(* the parser: the program in a text, None for a syntax error *)
Variable parse : chars -> option (list act).

(* the executor: the program of the file at a place; None when the time given is too short *)
Section Exec.
Variable exec : list chars -> list act -> state -> option (ans unit).

(* loader.rs:81-92 *)
Definition load_text (s : state) (place : list chars) : option chars :=
  match node_at (root s) place with Some (FFile t) => Some t | _ => None end.
(* loader.rs:7-18 *)
Definition load_file (s : state) (place : list chars) : ans chars :=
  match load_text s place with
  | Some t => (fst (add_source_file s place), Ok t)
  | None => (s, Err OtherErr)
  end.
(* executor.rs:327-341 *)
Definition run_file (place : list chars) (t : chars) (s : state) : option (ans unit) :=
  match parse t with
  | None => Some (s, Err OtherErr)
  | Some acts => exec place acts (happens s (ERun place))
  end.
(* loader.rs:63-78 *)
Definition load_exec (s : state) (p : path) (allow_repeat : bool) : option (ans bool) :=
  match os_resolve (root s) cwd p with
  | None => Some (s, Err OtherErr)
  | Some place =>
      let '(s, added) := add_source_file s place in
      if negb allow_repeat && negb added then Some (s, Ok false)
      else match load_file s place with
           | (s, Ok t) =>
               match run_file place t s with
               | None => None
               | Some (s, Ok _) => Some (s, Ok true)
               | Some (s, Err e) => Some (s, Err e)
               | Some (s, Panic) => Some (s, Panic)
               end
           | (s, Err e) => Some (s, Err e)
           | (s, Panic) => Some (s, Panic)
           end
  end.
(* loader.rs:38-57 *)
Fixpoint require_in (s : state) (dirs : list pval) (name : chars) : option (ans bool) :=
  match dirs with
  | [] => Some (s, Err OtherErr)
  | d :: dirs =>
      match expect_string d with
      | Ok d =>
          let p := push d name in
          let p := set_extension p rb in
          if exists_at (root s) cwd p then load_exec s p false
          else
            let p := set_extension p so in
            if exists_at (root s) cwd p then Some (s, Ok false) else require_in s dirs name
      | Err e => Some (s, Err e)
      | Panic => Some (s, Panic)
      end
  end.
(* loader.rs:33-57 *)
Definition require_search (s : state) (name : chars) : option (ans bool) :=
  match load_path s with
  | None => Some (s, Ok false)
  | Some (PAry dirs) => require_in s dirs name
  | Some _ => Some (s, Err TypeErr)
  end.
(* loader.rs:20-58 *)
Definition require_name (s : state) (name : chars) : option (ans bool) :=
  match name with
  | 47 :: _ =>
      let p := set_extension name rb in
      if exists_at (root s) cwd p then load_exec s p false
      else
        let p := set_extension p so in
        if exists_at (root s) cwd p then Some (s, Ok false) else require_search s name
  | _ => require_search s name
  end.
(* kernel.rs:124-132 *)
Definition require (s : state) (v : pval) : option (ans bool) :=
  match v with PStr name => require_name s name | _ => Some (s, Err ArgErr) end.

(* kernel.rs:141-148.  [here] is the place of the file in which the call is written (frame.rs:482-484). *)
Definition relative_step (p : path) (c : comp) : path :=
  match c with Parent => pop p | _ => push p (comp_text c) end.
Definition relative_path (here : list chars) (name : chars) : path :=
  set_extension (fold_left relative_step (components name) (pop (place_text here))) rb.
(* kernel.rs:134-151 *)
Definition require_relative (s : state) (here : list chars) (v : pval) : option (ans bool) :=
  match v with
  | PStr name => load_exec s (relative_path here name) false
  | _ => Some (s, Err ArgErr)
  end.

(* kernel.rs:161-162, 175-176: the value of load_exec is not used *)
Definition then_true (r : option (ans bool)) : option (ans bool) :=
  match r with Some (s, Ok _) => Some (s, Ok true) | _ => r end.
(* kernel.rs:171-182 *)
Fixpoint load_in (s : state) (dirs : list pval) (name : chars) : option (ans bool) :=
  match dirs with
  | [] => Some (s, Err OtherErr)
  | d :: dirs =>
      match expect_string d with
      | Ok d =>
          let p := push d name in
          if exists_at (root s) cwd p then then_true (load_exec s p true) else load_in s dirs name
      | Err e => Some (s, Err e)
      | Panic => Some (s, Panic)
      end
  end.
(* kernel.rs:153-183 *)
Definition load (s : state) (v : pval) : option (ans bool) :=
  match v with
  | PStr name =>
      if exists_at (root s) cwd name then then_true (load_exec s name true)
      else match load_path s with
           | None => Some (s, Err OtherErr)
           | Some (PAry dirs) => load_in s dirs name
           | Some _ => Some (s, Err TypeErr)
           end
  | _ => Some (s, Err ArgErr)
  end.

Definition drop (r : option (ans bool)) : option (ans unit) :=
  match r with
  | None => None
  | Some (s, Ok _) => Some (s, Ok tt)
  | Some (s, Err e) => Some (s, Err e)
  | Some (s, Panic) => Some (s, Panic)
  end.
(* one action of the program of the file [here] *)
Definition do_act (here : list chars) (a : act) (s : state) : option (ans unit) :=
  match a with
  | ARequire v => drop (require s v)
  | ARelative v => drop (require_relative s here v)
  | ALoad v => drop (load s v)
  | AOut z => Some (happens s (EOut z), Ok tt)
  | ARaise e => Some (s, Err e)
  | ASetPath v => Some (set_path s v, Ok tt)
  | ASetFiles r => Some (set_root s r, Ok tt)
  | ARescue body => match exec here body s with
                    | Some (s, Err _) => Some (s, Ok tt)
                    | r => r
                    end
  end.
End Exec.

(* programs; not a function of /repo but the meaning of the programs above *)
Fixpoint exec (fuel : nat) (here : list chars) (acts : list act) (s : state) : option (ans unit) :=
  match fuel with
  | O => None
  | S fuel =>
      match acts with
      | [] => Some (s, Ok tt)
      | a :: acts =>
          match do_act (exec fuel) here a s with
          | Some (s, Ok _) => exec fuel here acts s
          | r => r
          end
      end
  end.

(* main.rs:59-83: the program given on the command line *)
Definition main (fuel : nat) (s : state) (file : chars) : option (ans unit) :=
  match os_resolve (root s) cwd file with
  | None => Some (s, Err OtherErr)
  | Some place =>
      match load_file s place with
      | (s, Ok t) => run_file (exec fuel) place t s
      | (s, Err e) => Some (s, Err e)
      | (s, Panic) => Some (s, Panic)
      end
  end.
End Load.
