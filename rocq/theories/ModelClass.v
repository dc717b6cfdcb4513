(* Classes and modules, method lookup and its caches, constants and their
   cache: value/class.rs, globals/method.rs, globals/constants.rs,
   vm/executor/constants.rs, builtin/module.rs.
   Modules live at addresses; names, methods (FnId) and values are integers.
   Addresses come from a free list first, then from fresh memory, as the
   allocator does (alloc.rs:149). Walks along the chain take fuel; running out
   is Panic (an endless loop in the program). Not modelled: instance variables
   of classes, names of classes, autoload entries, visibility, refinements,
   singleton classes of singleton classes (which replace the class field). *)
From Verif Require Import Base ModelArray ModelGC.

(* class.rs:670 ClassExt, shared between a module and its include copies
   (class.rs:311 ClassRef is a pointer, cloned by rvalue.rs:572) *)
Record ext : Type := mkExt { mtab : list (Z * Z); ctab : list (Z * Z); is_singleton : bool; e_origin : option Z }.
(* class.rs:310 ClassInfo and the class field of its RValue; the flags byte
   (632-668) as three booleans *)
Record minfo : Type := mkMod { m_upper : option Z; is_module : bool; included : bool; has_prepend : bool; m_ext : Z; m_class : Z }.

(* method.rs:262 InlineCacheEntry, 328 MethodCacheEntry, constants.rs ConstCacheEntry *)
Record ientry : Type := mkIE { ie_version : Z; ie_class : Z; ie_fid : Z }.
Record mentry : Type := mkME { me_key : Z * Z; me_version : Z; me_fid : Z }.
Record centry : Type := mkCE { ce_version : Z; ce_val : option Z }.

Record world : Type := mkW {
  mods : Z -> option minfo;
  exts : Z -> ext;
  avail : list Z;
  next_mod : Z;
  next_ext : Z;
  version : Z;
  icache : list ientry;
  mcache : list mentry;
  cversion : Z;
  ccache : list centry }.

Definition NIL_ADDR : Z := 4.
Fixpoint assoc (k : Z) (l : list (Z * Z)) : option Z :=
  match l with
  | [] => None
  | (x, v) :: r => if x =? k then Some v else assoc k r
  end.

Definition set_mods (w : world) (f : Z -> option minfo) : world :=
  mkW f (exts w) (avail w) (next_mod w) (next_ext w) (version w) (icache w) (mcache w) (cversion w) (ccache w).
Definition set_exts (w : world) (f : Z -> ext) : world :=
  mkW (mods w) f (avail w) (next_mod w) (next_ext w) (version w) (icache w) (mcache w) (cversion w) (ccache w).
(* method.rs:70 inc_class_version, in a release build (a debug build panics at 2^32) *)
Definition inc_version (w : world) : world :=
  mkW (mods w) (exts w) (avail w) (next_mod w) (next_ext w) ((version w + 1) mod 2 ^ 32) (icache w) (mcache w) (cversion w) (ccache w).

Definition get_mod (w : world) (a : Z) : res minfo := match mods w a with Some m => Ok m | None => Panic end.
Definition set_upper (w : world) (a : Z) (u : option Z) : res world :=
  m <- get_mod w a ;;
  Ok (set_mods w (upd (mods w) a (Some (mkMod u (is_module m) (included m) (has_prepend m) (m_ext m) (m_class m))))).

(* a new RValue holding m *)
Definition new_mod (w : world) (m : minfo) : Z * world :=
  match avail w with
  | a :: r => (a, mkW (upd (mods w) a (Some m)) (exts w) r (next_mod w) (next_ext w) (version w) (icache w) (mcache w) (cversion w) (ccache w))
  | [] => (next_mod w, mkW (upd (mods w) (next_mod w) (Some m)) (exts w) [] (next_mod w + 1) (next_ext w) (version w) (icache w) (mcache w) (cversion w) (ccache w))
  end.
(* class.rs:337 ClassInfo::new and the RValue around it *)
Definition new_class (w : world) (modp : bool) (sup : option Z) (single : bool) (cls : Z) : Z * world :=
  let e := next_ext w in
  let w1 := mkW (mods w) (upd (exts w) e (mkExt [] [] single None)) (avail w) (next_mod w) (e + 1) (version w) (icache w) (mcache w) (cversion w) (ccache w) in
  new_mod w1 (mkMod sup modp false false e cls).

(* class.rs:370 upper: the next module that is not a prepend placeholder *)
Fixpoint skip_prepend (w : world) (fuel : nat) (a : Z) : res (option Z) :=
  match fuel with
  | O => Panic
  | S n =>
      m <- get_mod w a ;;
      if has_prepend m then match m_upper m with None => Ok None | Some b => skip_prepend w n b end
      else Ok (Some a)
  end.
Definition upper (w : world) (fuel : nat) (a : Z) : res (option Z) :=
  m <- get_mod w a ;;
  match m_upper m with None => Ok None | Some b => skip_prepend w fuel b end.
(* class.rs:385 superclass: the next module that is not an include copy *)
Fixpoint skip_included (w : world) (fuel : nat) (a : Z) : res (option Z) :=
  match fuel with
  | O => Panic
  | S n =>
      m <- get_mod w a ;;
      if included m then match m_upper m with None => Ok None | Some b => skip_included w n b end
      else Ok (Some a)
  end.
Definition superclass (w : world) (fuel : nat) (a : Z) : res (option Z) :=
  m <- get_mod w a ;;
  match m_upper m with None => Ok None | Some b => skip_included w fuel b end.
(* class.rs:114 real_module *)
Definition real_module (w : world) (a : Z) : res Z :=
  m <- get_mod w a ;;
  if included m then match e_origin (exts w (m_ext m)) with Some o => Ok o | None => Panic end else Ok a.

(* module.rs:414 ancestors *)
Fixpoint ancestors (w : world) (fuel : nat) (a : Z) : res (list Z) :=
  match fuel with
  | O => Panic
  | S n =>
      r <- real_module w a ;;
      u <- upper w fuel a ;;
      match u with
      | None => Ok [r]
      | Some b => rest <- ancestors w n b ;; Ok (r :: rest)
      end
  end.
(* class.rs:134 include_module (Module#===, Module#<=>, include?, kind_of?) *)
Fixpoint include_module (w : world) (fuel : nat) (a target : Z) : res bool :=
  match fuel with
  | O => Panic
  | S n =>
      r <- real_module w a ;;
      if r =? target then Ok true
      else
        u <- upper w fuel a ;;
        match u with
        | None => Ok false
        | Some b => include_module w n b target
        end
  end.

(* class.rs:123-126 generate_included: a copy sharing the ext, flagged included *)
Definition generate_included (w : world) (a : Z) : res (Z * world) :=
  m <- get_mod w a ;;
  o <- real_module w a ;;
  let e := exts w (m_ext m) in
  let w1 := set_exts w (upd (exts w) (m_ext m) (mkExt (mtab e) (ctab e) (is_singleton e) (Some o))) in
  Ok (new_mod w1 (mkMod (m_upper m) (is_module m) true (has_prepend m) (m_ext m) (m_class m))).
(* the loop shared by append_include (488-496) and append_prepend (508-516) *)
Fixpoint copy_chain (fuel : nat) (w : world) (module imodule : Z) : res (Z * world) :=
  match fuel with
  | O => Panic
  | S n =>
      u <- upper w fuel module ;;
      match u with
      | None => Ok (imodule, w)
      | Some b =>
          r <- generate_included w b ;;
          w' <- set_upper (snd r) imodule (Some (fst r)) ;;
          copy_chain n w' b (fst r)
      end
  end.
(* class.rs:479-498 append_include *)
Definition append_include (fuel : nat) (w : world) (c module : Z) : res world :=
  m <- get_mod w c ;;
  r <- generate_included w module ;;
  w1 <- set_upper (snd r) c (Some (fst r)) ;;
  l <- copy_chain fuel w1 module (fst r) ;;
  w2 <- set_upper (snd l) (fst l) (m_upper m) ;;
  Ok (inc_version w2).
(* class.rs:500-528 append_prepend (base is the class itself, module.rs:385) *)
Definition set_prepend (w : world) (a : Z) : res world :=
  m <- get_mod w a ;;
  Ok (set_mods w (upd (mods w) a (Some (mkMod (m_upper m) (is_module m) (included m) true (m_ext m) (m_class m))))).
Definition append_prepend (fuel : nat) (w : world) (c module : Z) : res world :=
  m <- get_mod w c ;;
  r <- generate_included w module ;;
  w1 <- set_upper (snd r) c (Some (fst r)) ;;
  l <- copy_chain fuel w1 module (fst r) ;;
  if has_prepend m then
    w2 <- set_upper (snd l) (fst l) (m_upper m) ;; Ok (inc_version w2)
  else
    d <- generate_included (snd l) c ;;
    w2 <- set_upper (snd d) (fst d) (m_upper m) ;;
    w3 <- set_upper w2 (fst l) (Some (fst d)) ;;
    w4 <- set_prepend w3 c ;;
    Ok (inc_version w4).

(* class.rs:720 add_method *)
Definition add_method (w : world) (c name fid : Z) : res world :=
  m <- get_mod w c ;;
  let e := exts w (m_ext m) in
  Ok (set_exts (inc_version w) (upd (exts w) (m_ext m) (mkExt ((name, fid) :: mtab e) (ctab e) (is_singleton e) (e_origin e)))).

(* class.rs:191-212 search_method: the method and the module it was found in *)
Fixpoint search_chain (w : world) (fuel : nat) (name a : Z) : res (option (Z * Z)) :=
  match fuel with
  | O => Panic
  | S n =>
      m <- get_mod w a ;;
      match assoc name (mtab (exts w (m_ext m))) with
      | Some fid => Ok (Some (fid, a))
      | None =>
          u <- upper w fuel a ;;
          match u with
          | None => Ok None
          | Some b => search_chain w n name b
          end
      end
  end.
Definition search_method (w : world) (fuel : nat) (name a : Z) : res (option (Z * Z)) :=
  m <- get_mod w a ;;
  r <- search_chain w fuel name a ;;
  match r with
  | Some x => Ok (Some x)
  | None => if is_singleton (exts w (m_ext m)) then search_chain w fuel name (m_class m) else Ok None
  end.

(* ---- method caches ---- *)
Fixpoint mc_find (l : list mentry) (key : Z * Z) : option mentry :=
  match l with
  | [] => None
  | e :: r => if (fst (me_key e) =? fst key) && (snd (me_key e) =? snd key) then Some e else mc_find r key
  end.
(* method.rs:343 get_entry *)
Definition mc_get (w : world) (c name : Z) : option Z :=
  match mc_find (mcache w) (c, name) with
  | Some e => if version w =? me_version e then Some (me_fid e) else None
  | None => None
  end.
(* method.rs:104-122 find_method *)
Definition find_method (w : world) (fuel : nat) (c name : Z) : res (option Z * world) :=
  match mc_get w c name with
  | Some fid => Ok (Some fid, w)
  | None =>
      r <- search_method w fuel name c ;;
      match r with
      | Some (fid, _) =>
          Ok (Some fid, mkW (mods w) (exts w) (avail w) (next_mod w) (next_ext w) (version w) (icache w)
                          (mkME (c, name) (version w) fid :: mcache w) (cversion w) (ccache w))
      | None => Ok (None, w)
      end
  end.
(* method.rs:282 add_entry *)
Definition add_icache (w : world) : Z * world :=
  (zlen (icache w), mkW (mods w) (exts w) (avail w) (next_mod w) (next_ext w) (version w) (icache w ++ [mkIE 0 NIL_ADDR 1]) (mcache w) (cversion w) (ccache w)).
(* method.rs:79-96 find_method_inline_cache, 288 get_entry, 301 update_entry *)
Definition find_method_inline (w : world) (fuel : nat) (slot c name : Z) : res (option Z * world) :=
  e <- v_get (icache w) slot ;;
  if (version w =? ie_version e) && (c =? ie_class e) then Ok (Some (ie_fid e), w)
  else
    r <- find_method w fuel c name ;;
    match fst r with
    | None => Ok (None, snd r)
    | Some fid =>
        let w1 := snd r in
        t <- v_set (icache w1) slot (mkIE (version w) c fid) ;;
        Ok (Some fid, mkW (mods w1) (exts w1) (avail w1) (next_mod w1) (next_ext w1) (version w1) t (mcache w1) (cversion w1) (ccache w1))
    end.
(* opt_core.rs:748-767 vm_super: c is the class of self, name the running method *)
Definition super_method (w : world) (fuel : nat) (c name : Z) : res (option Z * world) :=
  s <- superclass w fuel c ;;
  match s with
  | None => Ok (None, w)
  | Some b => find_method w fuel b name
  end.
(* the collector frees a class nothing refers to; its address is handed out next *)
Definition collect (w : world) (a : Z) : world :=
  mkW (upd (mods w) a None) (exts w) (a :: avail w) (next_mod w) (next_ext w) (version w) (icache w) (mcache w) (cversion w) (ccache w).

(* ---- constants ---- *)
Definition get_const (w : world) (a id : Z) : res (option Z) :=
  m <- get_mod w a ;; Ok (assoc id (ctab (exts w (m_ext m)))).
(* globals/constants.rs:18-28 set_const *)
Definition set_const (w : world) (a id v : Z) : res world :=
  m <- get_mod w a ;;
  let e := exts w (m_ext m) in
  Ok (mkW (mods w) (upd (exts w) (m_ext m) (mkExt (mtab e) ((id, v) :: ctab e) (is_singleton e) (e_origin e)))
        (avail w) (next_mod w) (next_ext w) (version w) (icache w) (mcache w) ((cversion w + 1) mod 2 ^ 32) (ccache w)).
(* executor/constants.rs:9-31 get_super_const *)
Fixpoint super_const (w : world) (fuel : nat) (a id : Z) (is_mod : bool) (object : Z) : res Z :=
  match fuel with
  | O => Panic
  | S n =>
      c <- get_const w a id ;;
      match c with
      | Some v => Ok v
      | None =>
          u <- upper w fuel a ;;
          match u with
          | Some b => super_const w n b id is_mod object
          | None =>
              if is_mod then
                o <- get_const w object id ;;
                match o with Some v => Ok v | None => Err NameErr end
              else Err NameErr
          end
      end
  end.
Definition get_super_const (w : world) (fuel : nat) (a id object : Z) : res Z :=
  m <- get_mod w a ;; super_const w fuel a id (is_module m) object.
(* executor/constants.rs:76-87 get_lexical_const: class_defined innermost last *)
Fixpoint lexical_const (w : world) (scope : list Z) (id : Z) : res (option Z) :=
  match scope with
  | [] => Ok None
  | a :: r =>
      c <- get_const w a id ;;
      match c with Some v => Ok (Some v) | None => lexical_const w r id end
  end.
(* executor/constants.rs:51-60 find_const: cls is the class of self *)
Definition find_const (w : world) (fuel : nat) (class_defined : list Z) (cls id object : Z) : res Z :=
  l <- lexical_const w (rev class_defined) id ;;
  match l with
  | Some v => Ok v
  | None => get_super_const w fuel cls id object
  end.
(* globals/constants.rs:114 add_entry *)
Definition add_ccache (w : world) : Z * world :=
  (zlen (ccache w), mkW (mods w) (exts w) (avail w) (next_mod w) (next_ext w) (version w) (icache w) (mcache w) (cversion w) (ccache w ++ [mkCE 0 None])).
(* opt_core.rs:283-295 GET_CONST, constants.rs:32 find_const_cache, 75 set_const_cache *)
Definition get_const_cached (w : world) (fuel : nat) (slot : Z) (class_defined : list Z) (cls id object : Z) : res (Z * world) :=
  e <- v_get (ccache w) slot ;;
  match (match ce_val e with Some v => if ce_version e =? cversion w then Some v else None | None => None end) with
  | Some v => Ok (v, w)
  | None =>
      v <- find_const w fuel class_defined cls id object ;;
      t <- v_set (ccache w) slot (mkCE (cversion w) (Some v)) ;;
      Ok (v, mkW (mods w) (exts w) (avail w) (next_mod w) (next_ext w) (version w) (icache w) (mcache w) (cversion w) t)
  end.

(* ---- what a program does to classes ---- *)
(* a module a program can name: include copies are never handed out *)
Definition user_mod (w : world) (a : Z) : bool := match mods w a with Some m => negb (included m) | None => false end.
Definition module_p (w : world) (a : Z) : bool := match mods w a with Some m => is_module m | None => false end.
Inductive op : Type :=
| NewClass (sup : option Z) (cls : Z)      (* class.rs:285-292 *)
| NewModule (cls : Z)                      (* class.rs:305 *)
| NewSingleton (sup cls : Z)               (* class.rs:298 *)
| Include (c m : Z)                        (* module.rs:373 *)
| Prepend (c m : Z)                        (* module.rs:385 *)
| Define (c name fid : Z)                  (* class.rs:720 *)
| SetConst (c id v : Z)                    (* constants.rs:18 *)
| NewSite | NewConstSite                   (* codegen: a slot per call site, per constant read *)
| Call (slot c : Z)                        (* opt_core.rs:730 send *)
| Find (c name : Z)                        (* method.rs:104 *)
| Super (c name : Z)                       (* opt_core.rs:748 *)
| ReadConst (slot : Z).                    (* opt_core.rs:283 *)
(* The compiler gives each call site its own slot and one method name, each
   constant read its own slot, one name and one lexical scope; site and csite
   are those assignments. csite also fixes the class of self at a read: see C28. *)
Definition exec (site : Z -> Z) (csite : Z -> (list Z * Z) * (Z * Z)) (fuel : nat) (o : op) (w : world) : res world :=
  match o with
  | NewClass sup cls =>
      if match sup with None => true | Some s => user_mod w s && negb (module_p w s) end
      then Ok (snd (new_class w false sup false cls)) else Err TypeErr
  | NewModule cls => Ok (snd (new_class w true None false cls))
  | NewSingleton sup cls =>
      if user_mod w sup && negb (module_p w sup) && user_mod w cls then Ok (snd (new_class w false (Some sup) true cls)) else Err TypeErr
  | Include c m => if user_mod w c && user_mod w m && module_p w m then append_include fuel w c m else Err TypeErr
  | Prepend c m => if user_mod w c && user_mod w m && module_p w m then append_prepend fuel w c m else Err TypeErr
  | Define c name fid => if user_mod w c then add_method w c name fid else Err TypeErr
  | SetConst c id v => if user_mod w c then set_const w c id v else Err TypeErr
  | NewSite => Ok (snd (add_icache w))
  | NewConstSite => Ok (snd (add_ccache w))
  | Call slot c => if user_mod w c then r <- find_method_inline w fuel slot c (site slot) ;; Ok (snd r) else Err TypeErr
  | Find c name => if user_mod w c then r <- find_method w fuel c name ;; Ok (snd r) else Err TypeErr
  | Super c name => if user_mod w c then r <- super_method w fuel c name ;; Ok (snd r) else Err TypeErr
  | ReadConst slot =>
      let '((scope, cls), (id, object)) := csite slot in
      r <- get_const_cached w fuel slot scope cls id object ;; Ok (snd r)
  end.
(* constants.rs ConstantValues::new, method.rs:50 *)
Definition world0 : world := mkW (fun _ => None) (fun _ => mkExt [] [] false None) [] 8 0 0 [] [] 0 [].
