(* Hashes: ruruby/src/value/hash.rs, ruruby/src/builtin/hash.rs, key equality
   and hashing in value/rvalue.rs, value/value.rs, builtin/range.rs.
   IndexMap 1.x (external) is modelled as its vector of entries; a lookup finds
   a stored key when the probe sequence of the looked-up hash code reaches it
   and the keys are equal. Which codes reach which slots is the parameter
   [probe]; that a code always reaches its own slot is assumed where needed. *)
From Verif Require Import Base ModelArray ModelValue ModelFloat ModelString.

(* ---- IndexMap (external) ---- *)
Section IndexMap.
  Context {K V : Type}.
  Variable hash : K -> Z.
  Variable eqb : K -> K -> bool.
  Variable probe : Z -> Z -> bool.
  Definition hit (k k' : K) : bool := probe (hash k) (hash k') && eqb k k'.
  (* get *)
  Fixpoint im_get (l : list (K * V)) (k : K) : option V :=
    match l with
    | [] => None
    | (k', v) :: r => if hit k k' then Some v else im_get r k
    end.
  (* contains_key *)
  Definition im_contains (l : list (K * V)) (k : K) : bool :=
    match im_get l k with Some _ => true | None => false end.
  (* insert: replaces the value of an equal key and keeps its place and its key object *)
  Fixpoint im_insert (l : list (K * V)) (k : K) (v : V) : list (K * V) :=
    match l with
    | [] => [(k, v)]
    | (k', v') :: r => if hit k k' then (k', v) :: r else (k', v') :: im_insert r k v
    end.
  (* remove = swap_remove: the last entry takes the place of the removed one *)
  Definition fill_gap (b : list (K * V)) : list (K * V) :=
    match rev b with [] => [] | x :: r => x :: rev r end.
  Fixpoint im_remove (l : list (K * V)) (k : K) : list (K * V) :=
    match l with
    | [] => []
    | (k', v') :: r => if hit k k' then fill_gap r else (k', v') :: im_remove r k
    end.
  (* retain *)
  Definition im_retain (f : K -> V -> bool) (l : list (K * V)) : list (K * V) :=
    filter (fun e => f (fst e) (snd e)) l.
  (* collect *)
  Definition im_collect (l : list (K * V)) : list (K * V) :=
    fold_left (fun m e => im_insert m (fst e) (snd e)) l [].
  (* IndexMap == IndexMap: same length and every entry of the left found in the right with an equal value *)
  Definition im_eq (veq : V -> V -> bool) (l r : list (K * V)) : bool :=
    (zlen l =? zlen r) &&
    forallb (fun e => match im_get r (fst e) with Some v => veq (snd e) v | None => false end) l.
End IndexMap.

(* ---- keys ---- *)
(* A value together with what it refers to. [id] is the address of the heap
   object, shared objects carry the same id. Not modelled: Complex, Method,
   Regexp, Time and Proc keys, self-containing arrays and hashes, identity
   hashes as keys. *)
Inductive kv : Type :=
  | KImm (w : Z)                       (* packed: small integer, symbol, nil, true, false, flonum *)
  | KBig (id n : Z)
  | KFloat (id bits : Z)
  | KStr (id : Z) (s : rstring)
  | KArr (id : Z) (l : list kv)
  | KRange (id : Z) (s e : kv) (excl : bool)
  | KHash (id : Z) (l : list (kv * kv))
  | KObj (id : Z).
(* value.rs:204 id *)
Definition kid (a : kv) : Z :=
  match a with
  | KImm w => w
  | KBig i _ | KFloat i _ | KStr i _ | KArr i _ | KRange i _ _ _ | KHash i _ | KObj i => i
  end.
(* What Value::hash (value.rs:59-66, rvalue.rs:82-97) and HashKey::hash
   (hash.rs:61-80) feed to the hasher: a packed value its word, a bignum its
   value, a float its bits, a string rs_feed, an array its length and its
   elements (derived, SmallVec), a range start, end and flag (derived,
   range.rs:3), a hash its keys and values in order (hash.rs:11-28), any other
   object its id. *)
Fixpoint feed (a : kv) : list Z :=
  match a with
  | KImm w => [w]
  | KBig _ n => [n]
  | KFloat _ b => [b]
  | KStr _ s => rs_feed s
  | KArr _ l => zlen l :: flat_map feed l
  | KRange _ s e x => feed s ++ feed e ++ [Z.b2z x]
  | KHash _ l => flat_map (fun e => feed (fst e) ++ feed (snd e)) l
  | KObj i => [i]
  end.
Section Keys.
  (* FxHasher over what it is fed, and the probe relation of the table *)
  Variable hashf : list Z -> Z.
  Variable probe : Z -> Z -> bool.
  (* [keq true]: eql?, hash.rs:82-96 and rvalue.rs:411-445;
     [keq false]: ==, value.rs:68-127. *)
  Fixpoint keq (eql : bool) (a b : kv) {struct a} : bool :=
    if kid a =? kid b then true
    else match a, b with
    | KImm w1, KImm w2 =>
        if eql then false
        else match as_fixnum (Imm w1), as_flonum (Imm w1), as_fixnum (Imm w2), as_flonum (Imm w2) with
             | Some i, _, _, Some f => feq (f64_of_Z i) f
             | None, Some f, Some i, _ => feq (f64_of_Z i) f
             | _, _, _, _ => false
             end
    | KBig _ x, KBig _ y => x =? y
    | KFloat _ x, KFloat _ y => feq x y
    | KBig _ n, KFloat _ f | KFloat _ f, KBig _ n => if eql then false else feq (f64_of_Z n) f
    | KStr _ x, KStr _ y => if eql then rs_eql x y else rs_eq x y
    | KArr _ l, KArr _ r =>
        (fix all2 (l r : list kv) {struct l} : bool :=
           match l, r with
           | [], [] => true
           | x :: l', y :: r' => keq eql x y && all2 l' r'
           | _, _ => false
           end) l r
    | KRange _ s1 e1 x1, KRange _ s2 e2 x2 => Bool.eqb x1 x2 && keq eql s1 s2 && keq eql e1 e2
    | KHash _ l, KHash _ r =>
        (zlen l =? zlen r) &&
        (fix each (l : list (kv * kv)) : bool :=
           match l with
           | [] => true
           | (k, v) :: l' =>
               (fix look (r : list (kv * kv)) : bool :=
                  match r with
                  | [] => false
                  | (k', v') :: r' =>
                      if probe (hashf (feed k)) (hashf (feed k')) && keq true k k' then keq false v v' else look r'
                  end) r && each l'
           end) l
    | _, _ => false
    end.

  (* ---- HashInfo, hash.rs:5-9 ---- *)
  Inductive hinfo : Type := HMap (l : list (kv * kv)) | HIdent (l : list (kv * kv)).
  Definition entries (h : hinfo) : list (kv * kv) := match h with HMap l | HIdent l => l end.
  (* HashKey: hash.rs:61-96; IdentKey: hash.rs:104-118 *)
  Definition khash (k : kv) : Z := hashf (feed k).
  Definition ihash (k : kv) : Z := hashf [kid k].
  Definition ieqb (a b : kv) : bool := kid a =? kid b.
  (* hash.rs:231-289 *)
  Definition h_get (h : hinfo) (k : kv) : option kv :=
    match h with
    | HMap l => im_get khash (keq true) probe l k
    | HIdent l => im_get ihash ieqb probe l k
    end.
  Definition h_insert (h : hinfo) (k v : kv) : hinfo :=
    match h with
    | HMap l => HMap (im_insert khash (keq true) probe l k v)
    | HIdent l => HIdent (im_insert ihash ieqb probe l k v)
    end.
  Definition h_remove (h : hinfo) (k : kv) : hinfo :=
    match h with
    | HMap l => HMap (im_remove khash (keq true) probe l k)
    | HIdent l => HIdent (im_remove ihash ieqb probe l k)
    end.
  Definition h_clear (h : hinfo) : hinfo := match h with HMap _ => HMap [] | HIdent _ => HIdent [] end.
  Definition h_len (h : hinfo) : Z := zlen (entries h).
  Definition h_keys (h : hinfo) : list kv := map fst (entries h).
  Definition h_values (h : hinfo) : list kv := map snd (entries h).

  (* ---- methods, builtin/hash.rs ---- *)
  (* 75-83 compact *)
  Definition h_compact (is_nil : kv -> bool) (h : hinfo) : hinfo :=
    match h with
    | HMap l => HMap (im_retain (fun _ v => negb (is_nil v)) l)
    | HIdent l => HIdent (im_retain (fun _ v => negb (is_nil v)) l)
    end.
  (* 113-124, 128-139: the result is always a plain Map. The block may raise. *)
  Fixpoint sel_loop (f : kv -> kv -> res bool) (want : bool) (l : list (kv * kv)) (m : list (kv * kv)) : res (list (kv * kv)) :=
    match l with
    | [] => Ok m
    | (k, v) :: r =>
        b <- f k v ;;
        sel_loop f want r (if Bool.eqb b want then im_insert khash (keq true) probe m k v else m)
    end.
  Definition h_select (f : kv -> kv -> res bool) (h : hinfo) : res hinfo :=
    m <- sel_loop f true (entries h) [] ;; Ok (HMap m).
  Definition h_reject (f : kv -> kv -> res bool) (h : hinfo) : res hinfo :=
    m <- sel_loop f false (entries h) [] ;; Ok (HMap m).
  (* 217-227 merge with any number of hashes *)
  Definition h_merge (h : hinfo) (others : list hinfo) : hinfo :=
    fold_left (fun new o => fold_left (fun m e => h_insert m (fst e) (snd e)) (entries o) new) others h.
  (* 255-266 compare_by_identity *)
  Definition h_by_identity (h : hinfo) : hinfo :=
    match h with
    | HMap l => HIdent (im_collect ihash ieqb probe l)
    | HIdent l => HIdent l
    end.
  (* 280-288 invert *)
  Definition h_invert (h : hinfo) : hinfo :=
    HMap (im_collect khash (keq true) probe (map (fun e => (snd e, fst e)) (entries h))).
  (* 148-157 has_value, for values whose == does not call a method *)
  Definition h_has_value (h : hinfo) (x : kv) : bool := existsb (fun e => keq false (snd e) x) (entries h).
  (* ==, ops.rs:418 and hash.rs:32-36 *)
  Definition h_eq (a b : hinfo) : bool :=
    match a, b with
    | HMap l, HMap r => im_eq khash (keq true) probe (keq false) l r
    | _, _ => false   (* identity hashes: not modelled *)
    end.
End Keys.
