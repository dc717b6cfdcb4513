(* Parameter lists, local variable slots and the binding of call arguments:
   ruruby-parse/src/parser.rs, ruruby-common/src/lvar_collector.rs,
   ruruby/src/codegen.rs, ruruby/src/globals/method.rs,
   ruruby/src/vm/executor/frame/arg_handler.rs and ruby_stack.rs. *)
From Verif Require Import Base ModelValue ModelArray.

(* What a stack slot holds while arguments are bound: a value, an array or
   hash object (by content; hashes are keyed by symbol ids in insertion order),
   or a proc object made from a block. *)
Inductive cell : Set :=
  | CVal (v : value)
  | CArr (l : list cell)
  | CHash (kv : list (Z * cell))
  | CProc (id : Z).
Definition cnil : cell := CVal nil.
Definition cuninit : cell := CVal uninitialized.

(* ---- parameter lists ---- *)
(* ruruby-parse/src/node.rs FormalParam, ParamKind. Default expressions are
   left out: their code runs in the callee (codegen.rs:530-543) and tests the
   slot for `uninitialized`; the flag of PKey tells whether there is one. *)
Inductive pkind : Set :=
  | PReq | POpt | PRest | PRestDiscard | PPost | PKey (has_default : bool) | PKwrest | PBlock | PDelegate.
Record fparam : Set := { fp_kind : pkind; fp_name : Z }.

(* lvar_collector.rs:45-52. The identifier "..." is the name -1. *)
Record collector : Set := {
  lc_table : list Z; lc_kw : list Z; lc_kwrest : option Z; lc_block : option Z; lc_delegate : option Z
}.
Definition lc_empty : collector :=
  {| lc_table := []; lc_kw := []; lc_kwrest := None; lc_block := None; lc_delegate := None |}.

(* lvar_collector.rs:174-176 get_lvarid: position of the name *)
Fixpoint pos_from (i : Z) (x : Z) (l : list Z) : option Z :=
  match l with [] => None | y :: l' => if x =? y then Some i else pos_from (i + 1) x l' end.
Definition get_lvarid (l : list Z) (x : Z) : option Z := pos_from 0 x l.
(* lvar_collector.rs:92-102 insert_new *)
Definition insert_new (c : collector) (x : Z) : option (collector * Z) :=
  match get_lvarid (lc_table c) x with
  | Some _ => None
  | None => Some ({| lc_table := lc_table c ++ [x]; lc_kw := lc_kw c; lc_kwrest := lc_kwrest c;
                     lc_block := lc_block c; lc_delegate := lc_delegate c |}, zlen (lc_table c))
  end.
(* lvar_collector.rs:80-90 insert *)
Definition insert (c : collector) (x : Z) : collector :=
  match insert_new c x with Some (c', _) => c' | None => c end.

(* parser.rs:132-170 and 472-626: what parsing one formal parameter does to the
   collector; None is the error "Duplicated argument name." *)
Definition parse_param (c : collector) (p : fparam) : option collector :=
  match fp_kind p with
  | PRestDiscard => Some c
  | PKey _ =>
      match insert_new c (fp_name p) with
      | None => None
      | Some (c', i) => Some {| lc_table := lc_table c'; lc_kw := lc_kw c' ++ [i]; lc_kwrest := lc_kwrest c';
                                lc_block := lc_block c'; lc_delegate := lc_delegate c' |}
      end
  | PKwrest =>
      match insert_new c (fp_name p) with
      | None => None
      | Some (c', i) => Some {| lc_table := lc_table c'; lc_kw := lc_kw c'; lc_kwrest := Some i;
                                lc_block := lc_block c'; lc_delegate := lc_delegate c' |}
      end
  | PBlock =>
      match insert_new c (fp_name p) with
      | None => None
      | Some (c', i) => Some {| lc_table := lc_table c'; lc_kw := lc_kw c'; lc_kwrest := lc_kwrest c';
                                lc_block := Some i; lc_delegate := lc_delegate c' |}
      end
  | PDelegate =>
      match insert_new c (-1) with
      | None => None
      | Some (c', i) => Some {| lc_table := lc_table c'; lc_kw := lc_kw c'; lc_kwrest := lc_kwrest c';
                                lc_block := lc_block c'; lc_delegate := Some i |}
      end
  | _ => match insert_new c (fp_name p) with None => None | Some (c', _) => Some c' end
  end.
Fixpoint parse_params (c : collector) (ps : list fparam) : option collector :=
  match ps with
  | [] => Some c
  | p :: ps' => match parse_param c p with Some c' => parse_params c' ps' | None => None end
  end.

(* globals/method.rs:355-372 ISeqParams; param_ident is not needed here *)
Record iparams : Set := {
  ip_req : Z; ip_opt : Z; ip_rest : option bool; ip_post : Z; ip_block : bool;
  ip_keyword : list (Z * Z); ip_kwrest : bool; ip_delegate : option Z
}.
Definition ip_empty : iparams :=
  {| ip_req := 0; ip_opt := 0; ip_rest := None; ip_post := 0; ip_block := false;
     ip_keyword := []; ip_kwrest := false; ip_delegate := None |}.
(* codegen.rs:166-209; lvar_id is the position in the parameter list. The
   keyword map is an association list, the last insertion first. *)
Definition add_param (ip : iparams) (lvar_id : Z) (p : fparam) : iparams :=
  let '(Build_iparams req opt rest post block keyword kwrest delegate) := ip in
  match fp_kind p with
  | PReq => Build_iparams (req + 1) opt rest post block keyword kwrest delegate
  | PPost => Build_iparams req opt rest (post + 1) block keyword kwrest delegate
  | POpt => Build_iparams req (opt + 1) rest post block keyword kwrest delegate
  | PRest => Build_iparams req opt (Some true) post block keyword kwrest delegate
  | PRestDiscard => Build_iparams req opt (Some false) post block keyword kwrest delegate
  | PKey _ => Build_iparams req opt rest post block ((fp_name p, lvar_id) :: keyword) kwrest delegate
  | PKwrest => Build_iparams req opt rest post block keyword true delegate
  | PBlock => Build_iparams req opt rest post true keyword kwrest delegate
  | PDelegate => Build_iparams req opt rest post block keyword kwrest (Some req)
  end.
Fixpoint add_params (ip : iparams) (lvar_id : Z) (ps : list fparam) : iparams :=
  match ps with
  | [] => ip
  | p :: ps' =>
      match fp_kind p with
      | PDelegate => add_param ip lvar_id p                         (* break *)
      | _ => add_params (add_param ip lvar_id p) (lvar_id + 1) ps'
      end
  end.
(* globals/method.rs:374-382 is_opt *)
Definition is_opt (ip : iparams) : bool :=
  (ip_opt ip =? 0) && match ip_rest ip with None => true | _ => false end && (ip_post ip =? 0) &&
  negb (ip_block ip) && match ip_keyword ip with [] => true | _ => false end &&
  negb (ip_kwrest ip) && match ip_delegate ip with None => true | _ => false end.

(* globals/method.rs:437-447, 482-512, the fields used here *)
Record iseq : Set := {
  iq_params : iparams; iq_lvar : collector; iq_lvars : Z; iq_opt_flag : bool; iq_mularg_flag : bool
}.
(* The code of a parameter list followed by a body that introduces the local
   variables [body] (parser.rs:117-129 inserts each when first assigned).
   None: the parameter list is rejected. *)
Definition compile (ps : list fparam) (body : list Z) : option iseq :=
  match parse_params lc_empty ps with
  | None => None
  | Some c0 =>
      let c := fold_left insert body c0 in
      let ip := add_params ip_empty 0 ps in
      Some {| iq_params := ip; iq_lvar := c; iq_lvars := zlen (lc_table c); iq_opt_flag := is_opt ip;
              iq_mularg_flag := 1 <? ip_req ip + ip_post ip |}
  end.

(* ---- the stack ---- *)
(* frame/ruby_stack.rs:16-21; slot numbers count from the bottom of the buffer *)
Record stack : Set := { buf : Z -> cell; sp : Z }.
Definition STACK_SIZE : Z := 8192.        (* ruby_stack.rs:6 *)
Definition mset (m : Z -> cell) (i : Z) (c : cell) : Z -> cell := fun j => if j =? i then c else m j.
(* slice.fill over slots a..b; an inverted range has length 0 *)
Definition mfill (m : Z -> cell) (a b : Z) (c : cell) : Z -> cell :=
  fun j => if (a <=? j) && (j <? b) then c else m j.
(* ptr::copy (memmove) of [len] slots *)
Definition mcopy (m : Z -> cell) (src len dst : Z) : Z -> cell :=
  fun j => if (dst <=? j) && (j <? dst + len) then m (j - dst + src) else m j.
Definition mslice (m : Z -> cell) (a b : Z) : list cell :=
  map (fun i => m (a + Z.of_nat i)) (seq 0 (Z.to_nat (b - a))).
Definition mstore (m : Z -> cell) (p : Z) (l : list cell) : Z -> cell :=
  fun j => if (p <=? j) && (j <? p + zlen l) then nth (Z.to_nat (j - p)) l cnil else m j.

(* ruby_stack.rs:102-106 push (debug_assert!) *)
Definition push (st : stack) (c : cell) : res stack :=
  if sp st =? STACK_SIZE then Panic else Ok {| buf := mset (buf st) (sp st) c; sp := sp st + 1 |}.
(* ruby_stack.rs:64-76 resize_to. Its assertion is too weak to keep it inside
   the buffer; a write past the end is modelled as Panic. *)
Definition resize_to (st : stack) (new_sp : Z) : res stack :=
  if STACK_SIZE <? new_sp then Panic
  else Ok {| buf := mfill (buf st) (sp st) new_sp cnil; sp := new_sp |}.
(* ruby_stack.rs:79-86 grow; `local_len - len` is a usize subtraction done by
   the caller *)
Definition grow (st : stack) (n : Z) : res stack :=
  if n <? 0 then Panic
  else if STACK_SIZE <? sp st + n then Panic
  else Ok {| buf := mfill (buf st) (sp st) (sp st + n) cnil; sp := sp st + n |}.
(* ruby_stack.rs:135-139 extend_from_slice; past the end: as above *)
Definition extend (st : stack) (l : list cell) : res stack :=
  if STACK_SIZE <? sp st + zlen l then Panic
  else Ok {| buf := mstore (buf st) (sp st) l; sp := sp st + zlen l |}.

(* ---- calls ---- *)
(* vm/args.rs:81-87 Args2. kw_arg = nil is None. The block, if any, is the proc
   object that fill_block_argument would make from it. *)
Record args2 : Set := { a_len : Z; a_kw : option (list (Z * cell)); a_block : option Z }.

(* globals/method.rs:384-406 check_arity with args.rs:155-165 check_args_min *)
Definition check_arity (ip : iparams) (additional_kw : bool) (args_len : Z) : res unit :=
  let min := ip_req ip + ip_post ip in
  let kw := if additional_kw then 1 else 0 in
  match ip_rest ip with
  | Some _ =>
      if kw <? min then (if min - kw <=? args_len then Ok tt else Err ArgErr) else Ok tt
  | None =>
      let len := args_len + kw in
      match ip_delegate ip with
      | None => if (len <? min) || (min + ip_opt ip <? len) then Err ArgErr else Ok tt
      | Some _ => if len <? min then Err ArgErr else Ok tt
      end
  end.

(* arg_handler.rs:166-215 fill_positional_arguments. `args_len - post_len` is
   a usize subtraction. *)
Definition fill_positional (st : stack) (base : Z) (iq : iseq) : res stack :=
  let ip := iq_params iq in
  let lvars := iq_lvars iq in
  let args_len := sp st - base in
  let req_len := ip_req ip in
  let rest_len := match ip_rest ip with Some true => 1 | _ => 0 end in
  let post_len := ip_post ip in
  if args_len <? post_len then Panic
  else
    let no_post_len := args_len - post_len in
    let optreq_len := req_len + ip_opt ip in
    st' <-
      (if optreq_len <? no_post_len then
         let m0 := buf st in
         let m1 := match ip_delegate ip with
                   | Some d => mset m0 (base + d) (CArr (mslice m0 (base + optreq_len) (base + no_post_len)))
                   | None => m0
                   end in
         let m2 := if rest_len =? 1
                   then mset m1 (base + optreq_len) (CArr (mslice m1 (base + optreq_len) (base + no_post_len)))
                   else m1 in
         let m3 := mcopy m2 (base + no_post_len) (args_len - no_post_len) (base + (optreq_len + rest_len)) in
         resize_to {| buf := m3;
                      sp := base + optreq_len + rest_len + post_len +
                            match ip_delegate ip with Some _ => 1 | None => 0 end |} (base + lvars)
       else
         st1 <- resize_to st (base + lvars) ;;
         let m1 := mcopy (buf st1) (base + no_post_len) (args_len - no_post_len) (base + (optreq_len + rest_len)) in
         let m2 := if no_post_len <? req_len
                   then mfill (mfill m1 (base + no_post_len) (base + req_len) cnil)
                              (base + req_len) (base + optreq_len) cuninit
                   else mfill m1 (base + no_post_len) (base + optreq_len) cuninit in
         let m3 := if rest_len =? 1 then mset m2 (base + optreq_len) (CArr []) else m2 in
         Ok {| buf := m3; sp := sp st1 |}) ;;
    Ok {| buf := fold_left (fun m id => mset m (base + id) cuninit) (lc_kw (iq_lvar iq)) (buf st'); sp := sp st' |}.

Fixpoint assoc (k : Z) (l : list (Z * Z)) : option Z :=
  match l with [] => None | (k', v) :: l' => if k =? k' then Some v else assoc k l' end.
(* arg_handler.rs:224-240: the keywords given, in order; [rest] collects those
   for the keyword rest parameter. Keys that are no symbols panic in the code
   and are outside the model. *)
Fixpoint fill_keywords (m : Z -> cell) (base : Z) (ip : iparams) (kw : list (Z * cell)) (rest : list (Z * cell))
  : res ((Z -> cell) * list (Z * cell)) :=
  match kw with
  | [] => Ok (m, rest)
  | (k, v) :: kw' =>
      match assoc k (ip_keyword ip) with
      | Some lvar => fill_keywords (mset m (base + lvar) v) base ip kw' rest
      | None => if ip_kwrest ip then fill_keywords m base ip kw' (rest ++ [(k, v)]) else Err ArgErr
      end
  end.
(* arg_handler.rs:217-245 fill_keyword_arguments *)
Definition fill_keyword_arguments (st : stack) (base : Z) (iq : iseq) (kw : list (Z * cell)) : res stack :=
  p <- fill_keywords (buf st) base (iq_params iq) kw [] ;;
  let '(m, rest) := p in
  Ok {| buf := match lc_kwrest (iq_lvar iq) with Some id => mset m (base + id) (CHash rest) | None => m end;
        sp := sp st |}.
(* arg_handler.rs:247-251 fill_block_argument *)
Definition fill_block_argument (st : stack) (base : Z) (iq : iseq) (blk : option Z) : stack :=
  match lc_block (iq_lvar iq) with
  | None => st
  | Some id => {| buf := mset (buf st) (base + id) (match blk with Some b => CProc b | None => cnil end); sp := sp st |}
  end.

(* arg_handler.rs:15-34 and 68-87: keywords become a last positional hash
   when no parameter takes keywords *)
Definition takes_keywords (ip : iparams) : bool :=
  match ip_keyword ip with [] => ip_kwrest ip | _ => true end.
Definition has_kw (a : args2) : bool := match a_kw a with Some _ => true | None => false end.
Definition push_kw_hash (st : stack) (ip : iparams) (a : args2) : res stack :=
  if takes_keywords ip then Ok st
  else match a_kw a with Some h => push st (CHash h) | None => Ok st end.
(* arg_handler.rs:38-41, 90-93 *)
Definition keyword_step (st : stack) (base : Z) (iq : iseq) (a : args2) : res stack :=
  let ordinary := takes_keywords (iq_params iq) && has_kw a in
  if ip_kwrest (iq_params iq) || ordinary
  then fill_keyword_arguments st base iq (if ordinary then match a_kw a with Some h => h | None => [] end else [])
  else Ok st.

(* arg_handler.rs:60-102 push_method_frame_slow and 136-151
   push_method_frame_fast, chosen by opt_flag (executor/method.rs:511-515). The pushing
   of the frame itself is in ModelFrame; it leaves the local slots alone, so
   the block argument is stored here directly. *)
Definition bind_method (st : stack) (iq : iseq) (a : args2) : res stack :=
  let base := sp st - a_len a in
  let ip := iq_params iq in
  if iq_opt_flag iq then
    if negb (a_len a =? ip_req ip) then Err ArgErr else grow st (iq_lvars iq - a_len a)
  else
    st1 <- push_kw_hash st ip a ;;
    _ <- check_arity ip (negb (takes_keywords ip) && has_kw a) (a_len a) ;;
    st2 <- fill_positional st1 base iq ;;
    st3 <- keyword_step st2 base iq a ;;
    Ok (fill_block_argument st3 base iq (a_block a)).

(* arg_handler.rs:155-164 prepare_block_args *)
Definition prepare_block_args (st : stack) (base : Z) (iq : iseq) : res stack :=
  if (sp st - base =? 1) && iq_mularg_flag iq then
    match buf st base with
    | CArr l => extend {| buf := buf st; sp := sp st - 1 |} l
    | _ => Ok st
    end
  else Ok st.
(* arg_handler.rs:4-58 push_block_frame_slow and 104-134 push_block_frame_fast,
   chosen by opt_flag (executor/method.rs:476-480) *)
Definition bind_block (st : stack) (iq : iseq) (a : args2) : res stack :=
  let base := sp st - a_len a in
  let ip := iq_params iq in
  if iq_opt_flag iq then
    st1 <- prepare_block_args st base iq ;;
    let st2 := if ip_req ip <? sp st1 - base then {| buf := buf st1; sp := base + ip_req ip |} else st1 in
    resize_to st2 (base + iq_lvars iq)
  else
    st1 <- push_kw_hash st ip a ;;
    st2 <- prepare_block_args st1 base iq ;;
    st3 <- fill_positional st2 base iq ;;
    st4 <- keyword_step st3 base iq a ;;
    Ok (fill_block_argument st4 base iq (a_block a)).

(* ---- keyword and ** arguments of a call ---- *)
(* HashInfo::insert (value/hash.rs:251-256) on symbol keys: a key that is there keeps its place *)
Fixpoint kw_insert (h : list (Z * cell)) (k : Z) (v : cell) : list (Z * cell) :=
  match h with
  | [] => [(k, v)]
  | (k', v') :: h' => if k =? k' then (k', v) :: h' else (k', v') :: kw_insert h' k v
  end.
(* opt_core.rs:624-628; None: a ** argument that is no hash *)
Fixpoint merge_splats (h : list (Z * cell)) (l : list (option (list (Z * cell)))) : res (list (Z * cell)) :=
  match l with
  | [] => Ok h
  | Some m :: l' => merge_splats (fold_left (fun h p => kw_insert h (fst p) (snd p)) m h) l'
  | None :: _ => Err TypeErr
  end.
(* opt_core.rs:607-632 handle_hash_args; [kw]: the hash of the keyword
   arguments, [splat]: the array of the ** arguments, if there are any *)
Definition handle_hash_args (kw : option (list (Z * cell))) (splat : option (list (option (list (Z * cell)))))
  : res (option (list (Z * cell))) :=
  match kw, splat with
  | None, None => Ok None
  | _, _ =>
      h <- merge_splats (match kw with Some h => h | None => [] end)
                        (match splat with Some l => l | None => [] end) ;;
      Ok (Some h)
  end.
