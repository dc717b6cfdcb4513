(** Compiled programs mean what the source says (C29), leave the evaluation stack
    balanced (C31), [case] takes the first branch that matches (C33), ensure
    clauses run (C34). *)
From Coq Require Import ZArith List Bool Lia.
From Verif Require Import Base ModelValue ModelInst ModelCodegen ModelVM SpecCore
  ProofsCore1 ProofsCore2 ProofsCore3 ProofsCore8 SpecIntPrims ProofsIntPrims.
Import ListNotations.
Open Scope Z_scope.

(** A method with the local variables 1, 2 and 3, all nil, over the integer
    primitives of [SpecIntPrims]; 7 is a method that logs its arguments, 8 one
    that raises its argument, symbol 50 a class that matches every exception. *)
Definition cx0 : sctx := mksctx [([1; 2; 3], true)] [] KMethod (fun x => x + 1000) 50.
Definition w0 : iworld := mkiw [] [] [] [].
Definition env0 : list (list value) := [[nil; nil; nil]].
Definition s0 : sst := mksst (fun _ => nil) w0.
Definition load (st : cg) : prog := mkprog (code st) (extab st) (consts st) (g_map st) (g_map2 st).
Definition log (x : node) : node := NSend NSelf 7 [x] false.
Definition raise (x : node) : node := NSend NSelf 8 [x] false.
Definition code0 (body : node) : prog :=
  match gen_body cx0 body (empty_cg [] [] [] 0) with
  | Ok st => load st
  | _ => mkprog [] [] [] [] []
  end.
Definition compiles0 (body : node) : bool :=
  match gen_body cx0 body (empty_cg [] [] [] 0) with Ok _ => true | _ => false end.
Definition run0 (n : nat) (body : node) : vres iworld :=
  vrun iprims (code0 body) n (mkvst 0 [] env0 w0).
Definition eval0 (f : nat) (body : node) : outcome := eval iprims (sc_setter cx0) 50 f body s0.

Lemma cx0_slots : slots_ok cx0.
Proof.
  split.
  - intros x y o i. unfold get_local_var, cx0. cbn [sc_ctx sc_ext get_ctx get_lvarid].
    destruct (1 =? x) eqn:A, (1 =? y) eqn:A', (2 =? x) eqn:B, (2 =? y) eqn:B',
      (3 =? x) eqn:C, (3 =? y) eqn:C'; intros H K; try discriminate;
      try (injection H as <- <-; injection K; intros); try discriminate;
      rewrite ?Z.eqb_eq in *; lia.
  - intros x o i. unfold get_local_var, cx0. cbn [sc_ctx sc_ext get_ctx get_lvarid].
    destruct (1 =? x), (2 =? x), (3 =? x); intros H; try discriminate;
      injection H as <- <-; lia.
Qed.

Lemma code0_ok body : sized cx0 body = true -> compiles0 body = true ->
  (Z.of_nat (length (pr_code (code0 body))) <? 2 ^ 31) = true ->
  (Z.of_nat (length (pr_map (code0 body))) <=? 2 ^ 32) = true ->
  (Z.of_nat (length (pr_map2 (code0 body))) <=? 2 ^ 32) = true ->
  match gen_body cx0 body (empty_cg [] [] [] 0) with Ok st => caches st <=? 2 ^ 32 | _ => true end
    = true ->
  code_of iprims cx0 body (code0 body).
Proof.
  intros SZ C A B D E. unfold compiles0, code0 in *.
  destruct (gen_body cx0 body (empty_cg [] [] [] 0)) as [st| |] eqn:GB; try discriminate.
  constructor; auto using iprims_ok, cx0_slots.
  exists [], [], [], 0, st. split; [lia|]. split; [exact GB|].
  split; constructor; try reflexivity; try (exists []; rewrite app_nil_r; reflexivity);
    rewrite ?Z.ltb_lt, ?Z.leb_le in *; assumption.
Qed.

Lemma holds0 : holds cx0 s0 env0.
Proof.
  intros x o i. unfold get_local_var, cx0. cbn [sc_ctx sc_ext get_ctx get_lvarid].
  destruct (1 =? x), (2 =? x), (3 =? x); intros H; try discriminate;
    injection H as <- <-; reflexivity.
Qed.

(** ** C29 *)

Lemma body_ends {W} (P : prims W) cx body G f s env :
  code_of P cx body G -> supported cx body -> holds cx s env ->
  match eval P (sc_setter cx) (sc_stderr cx) f body s with
  | Fuel => exists st, vrun P G f (mkvst 0 [] env (s_w s)) = VRunning st
  | Out => True
  | o => ends_as P cx G env (s_w s) o
  end.
Proof.
  intros [PO SL SE SZ (k & m & m2 & c0 & st & C0 & GB & LD & FT)] OK H.
  pose proof (body_reach P cx PO SL SE body k m m2 c0 st G f s env SZ OK GB C0 LD FT H) as B.
  destruct (eval P (sc_setter cx) (sc_stderr cx) f body s); try exact B; try exact I;
    destruct B as (h & s' & E & n & env' & R & HH); exists h, s', n, env'; auto.
Qed.

(** If the source program ends (with a value, by return, break, next or an
    exception) so does its code, with the same value, variables and world. *)
Theorem C29_ends_as_source_partial : forall W (P : prims W) cx body G f s env o,
  code_of P cx body G -> supported cx body -> holds cx s env ->
  eval P (sc_setter cx) (sc_stderr cx) f body s = o -> o <> Fuel -> o <> Out ->
  ends_as P cx G env (s_w s) o.
Proof.
  intros W P cx body G f s env o C K H E NF NO.
  pose proof (body_ends P cx body G f s env C K H) as B. rewrite E in B.
  destruct o; congruence || exact B.
Qed.
Print Assumptions C29_ends_as_source_partial.

(** If the source program runs forever so does its code. *)
Theorem C29_runs_forever_as_source_partial : forall W (P : prims W) cx body G s env,
  code_of P cx body G -> supported cx body -> holds cx s env ->
  (forall f, eval P (sc_setter cx) (sc_stderr cx) f body s = Fuel) ->
  forall n, exists st, vrun P G n (mkvst 0 [] env (s_w s)) = VRunning st.
Proof.
  intros W P cx body G s env C K H E n.
  pose proof (body_ends P cx body G n s env C K H) as B. rewrite E in B. exact B.
Qed.
Print Assumptions C29_runs_forever_as_source_partial.

(** If the code ends, the source program ends in the same way. *)
Theorem C29_no_other_end_partial : forall W (P : prims W) cx body G s env n h env' w,
  code_of P cx body G -> supported cx body -> holds cx s env ->
  vrun P G n (mkvst 0 [] env (s_w s)) = VDone h env' w ->
  let o := eval P (sc_setter cx) (sc_stderr cx) n body s in
  o = Out \/ exists s', ending (is_block cx) o = Some (h, s') /\ w = s_w s' /\ holds cx s' env'.
Proof.
  intros W P cx body G s env n h env' w C K H V o.
  pose proof (body_ends P cx body G n s env C K H) as B. fold o in B.
  assert (Q : ends_as P cx G env (s_w s) o ->
              exists s', ending (is_block cx) o = Some (h, s') /\ w = s_w s' /\ holds cx s' env').
  { intros (h' & s' & m & env1 & E & R & HH).
    destruct (vrun_det P G _ _ _ _ _ _ _ _ _ V R) as (-> & -> & ->). eauto. }
  destruct o; auto. destruct B as [st B]. congruence.
Qed.
Print Assumptions C29_no_other_end_partial.

(** If the code runs forever, so does the source program. *)
Theorem C29_no_other_divergence_partial : forall W (P : prims W) cx body G s env,
  code_of P cx body G -> supported cx body -> holds cx s env ->
  (forall n, exists st, vrun P G n (mkvst 0 [] env (s_w s)) = VRunning st) ->
  forall f, eval P (sc_setter cx) (sc_stderr cx) f body s = Fuel
            \/ eval P (sc_setter cx) (sc_stderr cx) f body s = Out.
Proof.
  intros W P cx body G s env C K H V f.
  pose proof (body_ends P cx body G f s env C K H) as B.
  destruct (eval P (sc_setter cx) (sc_stderr cx) f body s); auto;
    destruct B as (h & s' & n & env1 & _ & R & _); destruct (V n) as [st V']; congruence.
Qed.
Print Assumptions C29_no_other_divergence_partial.

(** The interpreter never gets stuck in compiled code: it always finds an
    instruction, enough values on the stack and the slots it asks for. *)
Theorem C29_never_stuck_partial : forall W (P : prims W) cx body G s env n,
  code_of P cx body G -> supported cx body -> holds cx s env ->
  eval P (sc_setter cx) (sc_stderr cx) n body s <> Out ->
  vrun P G n (mkvst 0 [] env (s_w s)) <> VStuck.
Proof.
  intros W P cx body G s env n C K H NO V.
  pose proof (body_ends P cx body G n s env C K H) as B.
  assert (Q : forall o, ~ ends_as P cx G env (s_w s) o).
  { intros o (h & s' & m & env1 & _ & R & _).
    apply (vrun_stuck P G _ m) in V. apply (vrun_more P G _ n) in R.
    rewrite Nat.add_comm in R. congruence. }
  destruct (eval P (sc_setter cx) (sc_stderr cx) n body s);
    try (eapply Q; exact B); try congruence. destruct B as [st B]. congruence.
Qed.
Print Assumptions C29_never_stuck_partial.

(** [a = 0; b = 0
     while a < 10
       a += 1
       next if a == 3
       if a > 6 then break b + 100 end
       b = b + a
     end] *)
Definition prog_loop : node :=
  NSeq [NAssign (NLVar 1) (NInt 0); NAssign (NLVar 2) (NInt 0);
        NWhile (NBin BLt (NLVar 1) (NInt 10))
          (NSeq [NAssignOp BAdd (NLVar 1) (NInt 1);
                 NIf (NBin BEq (NLVar 1) (NInt 3)) (NNext (NSeq [])) (NSeq []);
                 NIf (NBin BGt (NLVar 1) (NInt 6)) (NBreak (NBin BAdd (NLVar 2) (NInt 100))) (NSeq []);
                 NAssign (NLVar 2) (NBin BAdd (NLVar 2) (NLVar 1))]) true].

Example C29_example :
  code_of iprims cx0 prog_loop (code0 prog_loop) /\ supported cx0 prog_loop /\
  holds cx0 s0 env0 /\
  match eval0 10 prog_loop with
  | Val v s => v = integer 118 /\ s_rho s 1 = integer 7 /\ s_rho s 2 = integer 18
  | _ => False
  end.
Proof.
  split; [apply code0_ok; vm_compute; reflexivity|]. split; [reflexivity|].
  split; [exact holds0|]. vm_compute. auto.
Qed.

(** [while true do end] runs forever. *)
Example C29_forever_example :
  let body := NWhile (NBool true) (NSeq []) true in
  code_of iprims cx0 body (code0 body) /\ supported cx0 body /\ forall f, eval0 f body = Fuel.
Proof.
  cbv zeta. split; [apply code0_ok; vm_compute; reflexivity|]. split; [reflexivity|].
  assert (L : forall k s, eval_loop (fun s => Val (vbool true) s) (fun s => Val nil s) true k s
                          = Fuel (W:=iworld)).
  { induction k as [|k IH]; intros s; [reflexivity|]. cbn. apply IH. }
  intros f. apply L.
Qed.

(** [a = [3, 1...2]; b = {a => "v#{a}"}; yield(b, C::D, a..b); [3, 1...2]], where the last
    array is a literal made at compile time (here the object that is also [a]): literals that
    need objects, a hash, interpolation, constants, ranges and yield *)
Example C29_operations_example :
  let body := NSeq [NAssign (NLVar 1) (NArray [NInt 3; NRange (NInt 1) (NInt 2) true]);
        NAssign (NLVar 2) (NOp bHash [NLVar 1; NOp bConcat [NSym 4; NOp bToS [NLVar 1]]]);
        NOp bYield [NLVar 2; NOp (bScope 9) [NOp (bConst 8 0) []]; NRange (NLVar 1) (NLVar 2) false];
        NLit (Heap (HObj 1))] in
  code_of iprims cx0 body (code0 body) /\ supported cx0 body /\ holds cx0 s0 env0 /\
  match eval0 10 body with
  | Val v s => elems v (s_w s) = elems (s_rho s 1) (s_w s) /\ v <> s_rho s 1
               /\ length (iw_log (s_w s)) = 1%nat
  | _ => False
  end.
Proof.
  cbv zeta. split; [apply code0_ok; vm_compute; reflexivity|]. split; [reflexivity|].
  split; [exact holds0|]. vm_compute. repeat split; discriminate.
Qed.

(** The full statement is false: a value that waits on the stack when [break]
    leaves a loop stays there.  [10 + while true; 1 + (break 5) end] is 6. *)
Theorem C29_break_in_operand_refuted : exists body v s' n v' env' w',
  compiles0 body = true /\ sized cx0 body = true /\
  eval0 5 body = Val v s' /\ run0 n body = VDone (HRet v') env' w' /\ v' <> v.
Proof.
  exists (NBin BAdd (NInt 10) (NWhile (NBool true) (NBin BAdd (NInt 1) (NBreak (NInt 5))) true)).
  eexists _, _, 60%nat, _, _, _. vm_compute.
  repeat split; try reflexivity. discriminate.
Qed.
Print Assumptions C29_break_in_operand_refuted.

(** [rescue] empties the stack: [1 + begin raise(3) rescue 2 end] reads below it. *)
Theorem C29_rescue_in_operand_refuted : exists body v s' n,
  compiles0 body = true /\ sized cx0 body = true /\
  eval0 5 body = Val v s' /\ run0 n body = VStuck.
Proof.
  exists (NBin BAdd (NInt 1) (NBegin (raise (NInt 3)) [([NSym 50], None, NInt 2)] None None)).
  eexists _, _, 60%nat. vm_compute. repeat split; reflexivity.
Qed.
Print Assumptions C29_rescue_in_operand_refuted.

(** The end of a range is evaluated before its start: [(log 1)..(log 2)] logs 2 first. *)
Theorem C29_range_order_refuted : exists body v s' n v' env' w',
  compiles0 body = true /\ sized cx0 body = true /\
  eval0 5 body = Val v s' /\ iw_log (s_w s') = [[integer 1]; [integer 2]] /\
  run0 n body = VDone (HRet v') env' w' /\ iw_log w' = [[integer 2]; [integer 1]].
Proof.
  exists (NRange (NSend NSelf 7 [NInt 1] false) (NSend NSelf 7 [NInt 2] false) false).
  eexists _, _, 60%nat, _, _, _. vm_compute. repeat split; reflexivity.
Qed.
Print Assumptions C29_range_order_refuted.

(** ** C31 *)

(** The code of an expression generated outside loops takes the stack [stk], with
    the value of the expression on top if it is used.  Inside, loops may be
    left by [break] and [next] at any point where nothing waits on the stack. *)
Theorem C31_balanced_partial : forall W (P : prims W) cx n (u : bool) st st' G f s env stk v s',
  prims_ok P -> slots_ok cx -> id32 (sc_stderr cx) = true ->
  sized cx n = true -> ok (is_block cx) (mkfctx Lout false) u n = true ->
  gen cx n u st = Ok st' -> in_loop st = false -> ens_top st = false ->
  placed G st st' -> good G -> holds cx s env ->
  eval P (sc_setter cx) (sc_stderr cx) f n s = Val v s' ->
  exists k env', holds cx s' env' /\
    vrun P G k (mkvst (cur st) stk env (s_w s))
    = VRunning (mkvst (cur st') (if u then v :: stk else stk) env' (s_w s')).
Proof.
  intros W P cx n u st st' G f s env stk v s' PO SL SE SZ OK GE IL ET PL GG H EV.
  pose proof (placed_reach P cx PO SL SE n u st st' G f (mkfctx Lout false) s env stk
                SZ GE IL ET PL GG OK eq_refl H ltac:(discriminate)) as R.
  rewrite EV in R. cbn [reach used fst snd] in R. destruct R as (env' & [k S] & HH).
  exists k, env'. split; [exact HH|].
  rewrite <- (Nat.add_0_r k). rewrite (steps_vrun P G _ _ _ S). reflexivity.
Qed.
Print Assumptions C31_balanced_partial.

(** [1 + (while true; break 5 end)]: the loop is an operand, generated when the 1
    is already on the stack. *)
Example C31_example :
  let n := NWhile (NBool true) (NBreak (NInt 5)) true in
  let st := emit (IVal 3) (empty_cg [] [] [] 0) in
  exists st', gen cx0 n true st = Ok st' /\ ok false (mkfctx Lout false) true n = true /\
    in_loop st = false /\ ens_top st = false /\ placed (load st') st st' /\ good (load st') /\
    eval0 3 n = Val (integer 5) s0.
Proof.
  cbv zeta. eexists. split; [vm_compute; reflexivity|]. repeat split; try reflexivity;
    try (exists []; rewrite app_nil_r; reflexivity); try (vm_compute; congruence).
Qed.

(** A Bignum literal that is not used stays on the stack:
    [[1, (2**70 literal; 2)]] is an array of the literal and 2. *)
Theorem C31_bignum_statement_refuted : exists body v s' n env' w',
  compiles0 body = true /\ sized cx0 body = true /\
  eval0 5 body = Val v s' /\ elems v (s_w s') = Some [integer 1; integer 2] /\
  run0 n body = VDone (HRet v) env' w' /\ elems v w' = Some [bignum (2 ^ 70); integer 2].
Proof.
  exists (NArray [NInt 1; NSeq [NBig (2 ^ 70); NInt 2]]).
  eexists _, _, 60%nat, _, _. vm_compute. repeat split; reflexivity.
Qed.
Print Assumptions C31_bignum_statement_refuted.

(** [while true; a = next end]: every round leaves a value on the stack, which
    grows without bound. *)
Theorem C31_next_grows_stack_refuted : exists body, compiles0 body = true /\
  sized cx0 body = true /\ (forall f, eval0 f body = Fuel) /\
  forall k, exists n st, run0 n body = VRunning st /\ v_pc st = 0 /\ length (v_stk st) = k.
Proof.
  exists (NWhile (NBool true) (NAssign (NLVar 1) (NNext NNil)) true).
  split; [reflexivity|]. split; [reflexivity|]. split.
  { assert (L : forall k s, eval_loop (fun s => Val (vbool true) s) (fun s => Nxt nil s) true k s
                            = Fuel (W:=iworld)).
    { induction k as [|k IH]; intros s; [reflexivity|]. cbn. apply IH. }
    intros f. apply L. }
  set (body := NWhile _ _ _).
  assert (R : forall k stk, vrun iprims (code0 body) (4 * k) (mkvst 0 stk env0 w0)
                            = VRunning (mkvst 0 (repeat nil k ++ stk) env0 w0)).
  { induction k as [|k IH]; intros stk; [reflexivity|].
    replace (4 * Datatypes.S k)%nat with (4 + 4 * k)%nat by lia.
    assert (X : vrun iprims (code0 body) (4 + 4 * k) (mkvst 0 stk env0 w0)
                = vrun iprims (code0 body) (4 * k) (mkvst 0 (nil :: stk) env0 w0)).
    { rewrite (steps_vrun iprims _ 4 _ (mkvst 0 (nil :: stk) env0 w0)); [reflexivity|].
      do 4 (eapply steps_S; [vm_compute; reflexivity|]). apply steps_O. }
    rewrite X, IH. do 2 f_equal. clear. induction k as [|k IH]; [reflexivity|].
    cbn. f_equal. exact IH. }
  intros k. eexists (4 * k)%nat, _. split; [apply R|]. split; [reflexivity|].
  cbn [v_stk]. rewrite app_nil_r. apply repeat_length.
Qed.
Print Assumptions C31_next_grows_stack_refuted.

(** ** C33 *)
Lemma selects_eval {W} (P : prims W) ev v whens els s n s' :
  selects P ev v whens els s n s' ->
  eval_branches P ev v (ev els) whens s = ev n s'.
Proof.
  induction 1 as [els s|body r els s n s' _ IH|l labs body r els s x s1 b w A B C
                 |l labs body r els s x s1 b w n s' A B C _ IH]; cbn [eval_branches eval_labels].
  - reflexivity.
  - exact IH.
  - rewrite A. cbn [bindv]. rewrite B. cbn [prim bindv]. rewrite C. reflexivity.
  - rewrite A. cbn [bindv]. rewrite B. cbn [prim bindv]. rewrite C. exact IH.
Qed.

(** [case c when .. else .. end] ends as the first branch one of whose labels
    matches; no label after it is evaluated.  Also with the dispatch tables,
    for labels that are integer or other literals, provided [===] agrees with
    identity on them and no two branches have the same label ([plain_case]). *)
Theorem C33_first_match_partial : forall W (P : prims W) cx c whens els G f s env v s1 n s2 o,
  let body := NCase (Some c) whens els in
  let ev := eval P (sc_setter cx) (sc_stderr cx) f in
  code_of P cx body G -> supported cx body -> holds cx s env ->
  ev c s = Val v s1 -> plain_case P whens v (s_w s1) = true ->
  selects P ev v whens els s1 n s2 ->
  ev n s2 = o -> o <> Fuel -> o <> Out ->
  ends_as P cx G env (s_w s) o.
Proof.
  intros W P cx c whens els G f s env v s1 n s2 o body ev C K H EC PC SEL E NF NO.
  eapply (C29_ends_as_source_partial _ _ _ body _ f); eauto.
  change (bindv (ev c s) (eval_case P ev whens els) = o).
  rewrite EC. cbn [bindv]. unfold eval_case. rewrite PC.
  rewrite (selects_eval _ _ _ _ _ _ _ _ SEL). exact E.
Qed.
Print Assumptions C33_first_match_partial.

(** Without a value it is the first branch whose condition holds. *)
Theorem C33_first_true_partial : forall W (P : prims W) cx whens els G f s env n s2 o,
  let body := NCase None whens els in
  let ev := eval P (sc_setter cx) (sc_stderr cx) f in
  code_of P cx body G -> supported cx body -> holds cx s env ->
  first_true ev whens els s n s2 ->
  ev n s2 = o -> o <> Fuel -> o <> Out ->
  ends_as P cx G env (s_w s) o.
Proof.
  intros W P cx whens els G f s env n s2 o body ev C K H SEL E NF NO.
  eapply (C29_ends_as_source_partial _ _ _ body _ f); eauto.
  change (eval_conds ev (ev els) whens s = o). rewrite <- E. clear - SEL.
  induction SEL as [els s|c labs body r els s v s1 A B|c body r els s v s1 n s' A B _ IH];
    cbn [eval_conds eval_any].
  - reflexivity.
  - rewrite A. cbn [bindv]. rewrite B. reflexivity.
  - rewrite A. cbn [bindv]. rewrite B. exact IH.
Qed.
Print Assumptions C33_first_true_partial.

(** [case 4 when 1, 2 then 10 when 3, 4 then 20 else 30 end], by the table for
    integers, and [case :2 when nil, :1 then 10 when :2 then 20 else 30 end], by
    the table for other literals, and with a label that is computed. *)
Example C33_example :
  let whens1 := [([NInt 1; NInt 2], NInt 10); ([NInt 3; NInt 4], NInt 20)] in
  let whens2 := [([NNil; NSym 1], NInt 10); ([NSym 2], NInt 20)] in
  let whens3 := [([NInt 1; NBin BAdd (NInt 1) (NInt 1)], NInt 10); ([NInt 3; NInt 4], NInt 20)] in
  let test c v whens :=
    let body := NCase (Some c) whens (NInt 30) in
    code_of iprims cx0 body (code0 body) /\ supported cx0 body /\
    eval0 3 c = Val v s0 /\ plain_case iprims whens v w0 = true /\
    exists s2, selects iprims (eval iprims (sc_setter cx0) 50 3) v whens (NInt 30) s0 (NInt 20) s2 in
  test (NInt 4) (integer 4) whens1 /\ test (NSym 2) (symbol 2) whens2 /\
  test (NInt 4) (integer 4) whens3.
Proof.
  cbv zeta. repeat apply conj; try reflexivity; try (apply code0_ok; vm_compute; reflexivity).
  all: eexists; repeat first [ eapply sel_next
    | eapply (sel_miss iprims); [reflexivity|vm_compute; reflexivity|reflexivity|]
    | eapply (sel_hit iprims); [reflexivity|vm_compute; reflexivity|reflexivity] ].
Qed.

(** With the dispatch table the last of two branches with the same label wins. *)
Theorem C33_duplicate_label_refuted : exists c whens els n env w,
  compiles0 (NCase (Some c) whens els) = true /\
  selects iprims (eval iprims (sc_setter cx0) 50 1) (integer 1) whens els s0 (NInt 10) s0 /\
  eval0 1 c = Val (integer 1) s0 /\
  run0 n (NCase (Some c) whens els) = VDone (HRet (integer 20)) env w.
Proof.
  exists (NInt 1), [([NInt 1], NInt 10); ([NInt 1], NInt 20)], (NInt 30), 30%nat, env0, w0.
  split; [reflexivity|]. split; [|split; [reflexivity|vm_compute; reflexivity]].
  apply (sel_hit iprims _ _ _ _ _ _ _ s0 (integer 1) s0 true_val w0); reflexivity.
Qed.
Print Assumptions C33_duplicate_label_refuted.

(** In a case without value all conditions of a branch must hold:
    [case when true, false then 10 else 30 end] is 30. *)
Theorem C33_conditions_all_refuted : exists whens els n env w,
  compiles0 (NCase None whens els) = true /\
  first_true (eval iprims (sc_setter cx0) 50 1) whens els s0 (NInt 10) s0 /\
  run0 n (NCase None whens els) = VDone (HRet (integer 30)) env w.
Proof.
  exists [([NBool true; NBool false], NInt 10)], (NInt 30), 30%nat, env0, w0.
  split; [reflexivity|]. split; [|vm_compute; reflexivity].
  eapply ft_hit; reflexivity.
Qed.
Print Assumptions C33_conditions_all_refuted.

(** [===] of an integer with a float compares numbers (ops.rs:307-320), the
    dispatch table does not: [case 1.0 when 1 then 10 else 30 end] is 30. *)
Definition fprims : prims iworld := mkprims iworld
  (p_self iprims)
  (fun op l r w => match op with BTEq => POk (vbool (ModelInt.eval_eq2 r l)) w | _ => p_bin iprims op l r w end)
  (p_addi iprims) (p_subi iprims) (p_cmp iprims) (p_cmpi iprims) (p_un iprims)
  (p_index iprims) (p_indexi iprims) (p_setindex iprims) (p_setindexi iprims)
  (p_getg iprims) (p_setg iprims) (p_geti iprims) (p_seti iprims)
  (p_send iprims) (p_array iprims) (p_op iprims) (p_store iprims) (p_range iprims) (p_dup iprims) (p_elems iprims) (p_top iprims)
  (p_rescue iprims) (p_keyeq iprims) (p_defd iprims).

Theorem C33_float_refuted : exists c whens els v n env w,
  compiles0 (NCase (Some c) whens els) = true /\
  eval fprims (sc_setter cx0) 50 1 c s0 = Val v s0 /\
  selects fprims (eval fprims (sc_setter cx0) 50 1) v whens els s0 (NInt 10) s0 /\
  vrun fprims (code0 (NCase (Some c) whens els)) n (mkvst 0 [] env0 w0)
  = VDone (HRet (integer 30)) env w.
Proof.
  exists (NFloat 4607182418800017408), [([NInt 1], NInt 10)], (NInt 30),
    (float 4607182418800017408), 30%nat, env0, w0.
  split; [reflexivity|]. split; [reflexivity|]. split; [|vm_compute; reflexivity].
  apply (sel_hit fprims _ _ _ _ _ _ _ s0 (integer 1) s0 true_val w0); vm_compute; reflexivity.
Qed.
Print Assumptions C33_float_refuted.

(** ** C34 *)

(** The clauses of a [begin] *)
Lemma caught_eval {W} (P : prims W) ev std e l s n s' : caught P ev std e l s n s' ->
  eval_clauses P ev std e l s = CDone (ev n s').
Proof.
  induction 1 as [exs asg body r s vs s1 A B|exs asg body r s vs s1 n s' A B _ IH];
    cbn [eval_clauses]; rewrite A, B; [reflexivity|exact IH].
Qed.
Lemma uncaught_eval {W} (P : prims W) ev std e l s s' : uncaught P ev std e l s s' ->
  eval_clauses P ev std e l s = CNone s'.
Proof.
  induction 1 as [s|exs asg body r s vs s1 s' A B _ IH]; cbn [eval_clauses];
    [reflexivity|]. rewrite A, B. exact IH.
Qed.

(** [finished ev b rs els s o]: leaving [begin b rescue .. else .. end], without
    its ensure clause, with the outcome [o]: a value of the body or of the else
    clause, a return that stands in the body, a value of the clause that has
    caught an exception, an exception that no clause has caught. *)
Inductive finished {W : Type} (P : prims W) (ev : node -> sst (W:=W) -> outcome) (std : Z)
  (b : node) : list (list node * option node * node) -> option node -> sst (W:=W) ->
  outcome (W:=W) -> Prop :=
| fin_value : forall rs s v s1, ev b s = Val v s1 -> finished P ev std b rs None s (Val v s1)
| fin_else : forall rs e s v s1 v' s2, ev b s = Val v s1 -> ev e s1 = Val v' s2 ->
    finished P ev std b rs (Some e) s (Val v' s2)
| fin_return : forall rs els s v s1, ev b s = Ret false v s1 ->
    finished P ev std b rs els s (Ret true v s1)
| fin_caught : forall rs els s e s1 n s2 v s3, ev b s = Exn e s1 ->
    caught P ev std e rs s1 n s2 -> ev n s2 = Val v s3 ->
    finished P ev std b rs els s (Val v s3)
| fin_uncaught : forall r rs els s e s1 s2, ev b s = Exn e s1 ->
    uncaught P ev std e (r :: rs) s1 s2 ->
    finished P ev std b (r :: rs) els s (Exn e s2).

(** The same outcome in another state *)
Definition with_state {W : Type} (o : outcome (W:=W)) (s : sst (W:=W)) : outcome :=
  match o with
  | Val v _ => Val v s | Brk v _ => Brk v s | Nxt v _ => Nxt v s
  | Ret d v _ => Ret d v s | Exn v _ => Exn v s | o => o
  end.
Definition state_of {W : Type} (o : outcome (W:=W)) : option (sst (W:=W)) :=
  match o with
  | Val _ s | Brk _ s | Nxt _ s | Ret _ _ s | Exn _ s => Some s
  | _ => None
  end.

(** In these cases the ensure clause runs, once, where the rest has ended, and
    if it ends normally the outcome is kept. *)
Theorem C34_ensure_runs_partial : forall W (P : prims W) cx b rs els ens G f s env o s1 v s2,
  let body := NBegin b rs els (Some ens) in
  let ev := eval P (sc_setter cx) (sc_stderr cx) f in
  code_of P cx body G -> supported cx body -> holds cx s env ->
  finished P ev (sc_stderr cx) b rs els s o -> state_of o = Some s1 -> ev ens s1 = Val v s2 ->
  ends_as P cx G env (s_w s) (with_state o s2).
Proof.
  intros W P cx b rs els ens G f s env o s1 v s2 body ev C K H F ST EN.
  eapply (C29_ends_as_source_partial _ _ _ body _ f); eauto.
  2, 3: destruct F; discriminate.
  change (eval_begin P ev (sc_stderr cx) b rs els (Some ens) s = with_state o s2).
  unfold eval_begin.
  destruct F as [rs s v0 s3 A|rs e s v0 s3 v' s4 A B|rs els s v0 s3 A
                |rs els s e s3 n s4 v0 s5 A B D|r rs els s e s3 s4 A B];
    rewrite A; cbn [state_of] in ST; injection ST as <-.
  - cbn [is_val finish after with_state]. rewrite EN. reflexivity.
  - rewrite B. cbn [is_val finish after with_state]. rewrite EN. reflexivity.
  - cbn [negb finish after with_state]. rewrite EN. reflexivity.
  - rewrite (caught_eval _ _ _ _ _ _ _ _ B), D.
    cbn [is_val finish after with_state]. rewrite EN.
    destruct B; reflexivity.
  - rewrite (uncaught_eval _ _ _ _ _ _ _ B).
    cbn [is_val finish after with_state]. rewrite EN. reflexivity.
Qed.
Print Assumptions C34_ensure_runs_partial.

(** If the ensure clause itself leaves by return or an exception, that counts. *)
Theorem C34_ensure_overrides_partial : forall W (P : prims W) cx b rs els ens G f s env o s1 o',
  let body := NBegin b rs els (Some ens) in
  let ev := eval P (sc_setter cx) (sc_stderr cx) f in
  code_of P cx body G -> supported cx body -> holds cx s env ->
  finished P ev (sc_stderr cx) b rs els s o -> state_of o = Some s1 ->
  ev ens s1 = o' -> is_val o' = false -> o' <> Fuel -> o' <> Out ->
  ends_as P cx G env (s_w s) o'.
Proof.
  intros W P cx b rs els ens G f s env o s1 o' body ev C K H F ST EN NV NF NO.
  eapply (C29_ends_as_source_partial _ _ _ body _ f); eauto.
  change (eval_begin P ev (sc_stderr cx) b rs els (Some ens) s = o').
  assert (Q : forall o, state_of o = Some s1 -> after ev ens o = o').
  { intros [] Q; try discriminate Q; cbn [state_of] in Q; injection Q as ->; cbn [after];
      rewrite EN; destruct o'; reflexivity || discriminate. }
  unfold eval_begin.
  destruct F as [rs s v0 s3 A|rs e s v0 s3 v' s4 A B|rs els s v0 s3 A
                |rs els s e s3 n s4 v0 s5 A B D|r rs els s e s3 s4 A B];
    rewrite A; pose proof ST as ST'; cbn [state_of] in ST'; injection ST' as ->.
  - cbn [is_val finish]. apply Q, ST.
  - rewrite B. cbn [is_val finish]. apply Q, ST.
  - cbn [negb finish]. apply Q, ST.
  - rewrite (caught_eval _ _ _ _ _ _ _ _ B), D. cbn [is_val finish].
    destruct B; apply Q, ST.
  - rewrite (uncaught_eval _ _ _ _ _ _ _ B). cbn [finish]. apply Q, ST.
Qed.
Print Assumptions C34_ensure_overrides_partial.

(** [begin raise(3); rescue => 1; log(1); 2 ensure log(9) end], and a [return]. *)
Example C34_example :
  let ens := log (NInt 9) in
  let rs := [([NSym 50], Some (NLVar 1), NSeq [log (NInt 1); NInt 2])] in
  let b1 := NBegin (raise (NInt 3)) rs None (Some ens) in
  let b2 := NBegin (NReturn (NInt 4)) rs None (Some ens) in
  let ev := eval iprims (sc_setter cx0) 50 5 in
  code_of iprims cx0 b1 (code0 b1) /\ supported cx0 b1 /\
  (exists s1, finished iprims ev 50 (raise (NInt 3)) rs None s0 (Val (integer 2) s1) /\
              s_rho s1 1 = integer 3 /\ iw_log (s_w s1) = [[integer 1]]) /\
  code_of iprims cx0 b2 (code0 b2) /\ supported cx0 b2 /\
  finished iprims ev 50 (NReturn (NInt 4)) rs None s0 (Ret true (integer 4) s0).
Proof.
  cbv zeta. split; [apply code0_ok; vm_compute; reflexivity|]. split; [reflexivity|]. split.
  { eexists. split; [|split].
    - eapply fin_caught; [vm_compute; reflexivity| |].
      + eapply ct_hit; [vm_compute; reflexivity|reflexivity].
      + vm_compute. reflexivity.
    - reflexivity.
    - reflexivity. }
  split; [apply code0_ok; vm_compute; reflexivity|]. split; [reflexivity|].
  eapply fin_return. reflexivity.
Qed.

(** [skips body h]: run as a method, [body] ends as [h] without having logged 9;
    [ensured b rs]: [begin b rescue .. ensure log(9) end]. *)
Definition skips (body : node) (h : halt) : Prop :=
  compiles0 body = true /\ sized cx0 body = true /\
  exists n env w, run0 n body = VDone h env w /\ ~ In [integer 9] (iw_log w).
Definition ensured (b : node) (rs : list (list node * option node * node)) : node :=
  NBegin b rs None (Some (log (NInt 9))).

Ltac skips_tac := split; [reflexivity|]; split; [reflexivity|];
  eexists 60%nat, _, _; split; [vm_compute; reflexivity|]; cbn [iw_log In]; intuition discriminate.

(** Without a rescue clause an exception skips the ensure clause. *)
Theorem C34_exception_refuted : exists b e s,
  eval0 3 b = Exn e s /\ skips (ensured b []) (HExn e).
Proof. exists (raise (NInt 3)). do 2 eexists. split; [vm_compute; reflexivity|]. skips_tac. Qed.
Print Assumptions C34_exception_refuted.

(** So does an exception in a rescue clause, *)
Theorem C34_exception_in_rescue_refuted : exists b rs e s,
  eval0 3 (NBegin b rs None None) = Exn e s /\ skips (ensured b rs) (HExn e).
Proof.
  exists (raise (NInt 3)), [([NSym 50], None, raise (NInt 4))]. do 2 eexists.
  split; [vm_compute; reflexivity|]. skips_tac.
Qed.
Print Assumptions C34_exception_in_rescue_refuted.

(** and a return in one, *)
Theorem C34_return_in_rescue_refuted : exists b rs v d s,
  eval0 3 (NBegin b rs None None) = Ret d v s /\ skips (ensured b rs) (HRet v).
Proof.
  exists (raise (NInt 3)), [([NSym 50], None, NReturn (NInt 4))]. do 3 eexists.
  split; [vm_compute; reflexivity|]. skips_tac.
Qed.
Print Assumptions C34_return_in_rescue_refuted.

(** a return from an inner begin, whether that has an ensure clause or not, *)
Theorem C34_inner_return_refuted : exists b v d s,
  eval0 3 b = Ret d v s /\ skips (ensured b []) (HRet v).
Proof.
  exists (NBegin (NReturn (NInt 1)) [] None None). do 3 eexists.
  split; [vm_compute; reflexivity|]. skips_tac.
Qed.
Print Assumptions C34_inner_return_refuted.
Theorem C34_inner_ensure_return_refuted : exists b v d s,
  eval0 3 b = Ret d v s /\ skips (ensured b []) (HRet v).
Proof.
  exists (NBegin (NReturn (NInt 1)) [] None (Some (log (NInt 8)))). do 3 eexists.
  split; [vm_compute; reflexivity|]. skips_tac.
Qed.
Print Assumptions C34_inner_ensure_return_refuted.

(** a break, *)
Theorem C34_break_refuted : exists b v s,
  eval0 3 b = Brk v s /\ skips (NWhile (NBool true) (ensured b []) true) (HRet v).
Proof. exists (NBreak (NInt 1)). do 2 eexists. split; [vm_compute; reflexivity|]. skips_tac. Qed.
Print Assumptions C34_break_refuted.

(** and a next. *)
Theorem C34_next_refuted : exists b v s,
  eval0 3 b = Nxt v s /\
  skips (NWhile (NUn UNot (NLVar 1)) (ensured b []) true) (HRet nil).
Proof.
  exists (NSeq [NAssign (NLVar 1) (NInt 1); NNext NNil]). do 2 eexists.
  split; [vm_compute; reflexivity|]. skips_tac.
Qed.
Print Assumptions C34_next_refuted.
