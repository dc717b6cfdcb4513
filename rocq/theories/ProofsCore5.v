(** Conditions, loops and the ways of leaving them: the code generated for them
    does what they mean. *)
From Coq Require Import ZArith List Bool Lia Permutation.
From Verif Require Import Base ModelValue ModelInst ProofsInst ModelCodegen ModelVM
  SpecCore ProofsValue ProofsCore1 ProofsCore2 ProofsCore3 ProofsCore4.
Import ListNotations.
Open Scope Z_scope.

Section Compile.
Context {W : Type}.
Variable P : prims W.
Variable cx : sctx.
Hypothesis PO : prims_ok P.

Notation setter := (sc_setter cx).
Notation std := (sc_stderr cx).
Notation blk := (blk cx).
Notation reach := (reach P cx).
Notation stops := (stops P cx).
Notation erel := (erel cx).
Notation star := (star P).
Notation compiled := (compiled P cx setter std).
Notation cgen := (cgen P cx).
Notation sem := (sem P cx).
Notation EV f := (eval P setter std f).

Lemma to_bool_vbool b : to_bool (vbool b) = b.
Proof. destruct b; reflexivity. Qed.

(** [op]: the truth value with which the jump is not taken *)
Definition cond_sem (op : bool) (c : node) (st st' : cg) (G : prog) (E : renv) (t : Z -> Z) : Prop :=
  good G -> tgt_ok E -> 0 <= t (cur st') < 2 ^ 31 ->
  sem (in_loop st) (ens_top st) (fun cc => ok blk cc true c) (fun f => EV f c) (cur st) (cur st')
    (fun v stk => (if Bool.eqb (to_bool v) op then cur st' else t (cur st'), stk)) G E.

Lemma jump_fits (G : prog) b d o : good G -> 0 <= d < 2 ^ 31 -> 0 <= b <= zlength (pr_code G) ->
  fits (IJ o (d - b)).
Proof. intros HG D B. pose proof (g_short _ HG). cbn. unfold i32_ok. lia. Qed.

Lemma cond_plain (op : bool) c st st' : compiled c ->
  (st <- gen cx c true st ;; Ok (emit (IJ (if op then oJMP_F else oJMP_T) 0) st)) = Ok st' ->
  run blk [cur st'] st st' (cond_sem op c st st').
Proof.
  intros HC H. ub H. okinv H. set (o := if op then oJMP_F else oJMP_T).
  pose proof (HC _ _ _ B) as R1. pose proof (run_jump blk (JJ o) st0) as R2. cbn [jinst] in R2. cbv zeta in R2.
  set (st1 := emit (IJ o 0) st0) in *. facts R1. facts R2.
  eapply run_weaken; [exact (run_len _ _ _ _ _ (run_trans _ _ _ _ _ _ _ _ R1 R2))|reflexivity|]. cbv beta.
  intros G E t (LEN & M1 & M2) HG HT TB f cc h s env stk OK CO CV ER CL.
  pose proof (cur_nonneg st1) as NN.
  assert (FJ : fits (IJ o (t (cur st1) - cur st1))) by (apply (jump_fits G); auto).
  rewrite <- (bindv_Val (EV f c s)). eapply reach_bind.
  - apply (M1 HG HT); subs.
  - intros v s1 env1 _ ER1. cbn [used fst snd].
    assert (X : exec P G (IJ o (t (cur st1) - cur st1)) (cur st0) (cur st1)
                 (mkvst (cur st0) (v :: stk) env1 (s_w s1)) =
              SNext (mkvst (if Bool.eqb (to_bool v) op then cur st1 else t (cur st1)) stk env1 (s_w s1))).
    { unfold o. destruct op; cbn [exec v_stk v_env v_w]; unfold jmp_cond; destruct (to_bool v);
        cbn [eqb negb]; do 2 f_equal; lia. }
    eapply reach_next; [exact M2|exact FJ|exact X|].
    apply reach_val; [reflexivity|reflexivity|exact ER1].
Qed.

Lemma cond_cmp op c0 l r st st' : compiled l -> compiled r -> cmp_of op = Some c0 ->
  gen_cmp_jmp c0 (gen cx l) (gen cx r) (is_imm_i32 r) st = Ok st' ->
  run blk [cur st'] st st' (cond_sem true (NBin op l r) st st').
Proof.
  intros HL HR HO H. unfold gen_cmp_jmp in H. ub H. pose proof (HL _ _ _ B) as R1. facts R1.
  assert (EB : forall f s, EV f (NBin op l r) s = bindv (EV f l s) (fun v s =>
     bindv (EV f r s) (fun w s => match p_cmp P c0 v w (s_w s) with
       | POk b w => Val (vbool b) (set_w w s) | PRaise e w => Exn e (set_w w s) end))).
  { intros f s. cbn [eval]. unfold eval_binop. destruct op; try discriminate HO; injection HO as <-; reflexivity. }
  assert (EO : forall cc, ok blk cc true (NBin op l r) = ok blk cc true l && ok blk (pend cc) true r).
  { intros cc. destruct op; try discriminate HO; reflexivity. }
  destruct (is_imm_i32 r) as [i|] eqn:IM.
  - apply imm_i32 in IM as [IR ->]. okinv H.
    pose proof (run_jump blk (JJI c0 i) st0) as R2. cbn [jinst] in R2. cbv zeta in R2.
    set (st1 := emit (IJI c0 i 0) st0) in *. facts R2.
    eapply run_weaken; [exact (run_len _ _ _ _ _ (run_trans _ _ _ _ _ _ _ _ R1 R2))|reflexivity|]. cbv beta.
    intros G E t (LEN & M1 & M2) HG HT TB f cc h s env stk OK CO CV ER CL.
    pose proof (cur_nonneg st1) as NN. pose proof (g_short _ HG) as GS.
    assert (FJ : fits (IJI c0 i (t (cur st1) - cur st1))).
    { cbn. unfold i32_ok. unfold in_i32 in IR. split; lia. }
    rewrite EO in OK. apply andb_prop in OK as [OK1 _]. rewrite EB. eapply reach_bind.
    + apply (M1 HG HT); subs.
    + intros v s1 env1 _ ER1. cbn [used fst snd eval bindv].
      assert (X : exec P G (IJI c0 i (t (cur st1) - cur st1)) (cur st0) (cur st1)
                 (mkvst (cur st0) (v :: stk) env1 (s_w s1)) =
              match p_cmp P c0 v (integer i) (s_w s1) with
              | POk b w => SNext (mkvst (if b then cur st1 else t (cur st1)) stk env1 w)
              | PRaise e w => SRaise e (cur st0 + 5) stk env1 w
              end).
      { cbn [exec v_stk v_env v_w]. rewrite (ok_cmpi P PO) by exact IR.
        destruct (p_cmp P c0 v (integer i) (s_w s1)) as [b w|]; [|reflexivity].
        unfold jmp_cond; destruct b; do 2 f_equal; lia. }
      pose proof (ia_nxt _ _ _ _ _ M2) as NX.
      assert (ZL : zlength (encode (IJI c0 i (t (cur st1) - cur st1))) = 9) by reflexivity.
      destruct (p_cmp P c0 v (integer i) (s_w s1)) as [b w|e w].
      * eapply reach_next; [exact M2|exact FJ|exact X|].
        apply reach_val; [|reflexivity|apply erel_w, ER1].
        rewrite to_bool_vbool. destruct b; reflexivity.
      * apply stops_reach. eapply step_raise; [exact M2|cov|exact FJ|exact X|lia|apply erel_w, ER1].
  - ub H. okinv H. pose proof (HR _ _ _ B0) as R2.
    pose proof (run_jump blk (JJ (oJMP_F_cmp c0)) st1) as R3. cbn [jinst] in R3. cbv zeta in R3.
    set (st2 := emit (IJ (oJMP_F_cmp c0) 0) st1) in *. facts R2. facts R3.
    eapply run_weaken; [exact (run_len _ _ _ _ _ (run_trans _ _ _ _ _ _ _ _ R1 (run_trans _ _ _ _ _ _ _ _ R2 R3)))|reflexivity|].
    cbv beta.
    intros G E t (LEN & M1 & M2 & M3) HG HT TB f cc h s env stk OK CO CV ER CL.
    pose proof (cur_nonneg st2) as NN.
    assert (FJ : fits (IJ (oJMP_F_cmp c0) (t (cur st2) - cur st2))) by (apply (jump_fits G); auto).
    rewrite EO in OK. apply andb_prop in OK as [OK1 OK2]. rewrite EB. eapply reach_bind.
    + apply (M1 HG HT); subs.
    + intros v s1 env1 _ ER1. cbn [used fst snd]. eapply reach_bind_pend.
      * apply (M2 HG HT); subs.
      * intros w0 s2 env2 _ ER2. cbn [used fst snd].
        assert (X : exec P G (IJ (oJMP_F_cmp c0) (t (cur st2) - cur st2)) (cur st1) (cur st2)
                 (mkvst (cur st1) (w0 :: v :: stk) env2 (s_w s2)) =
              match p_cmp P c0 v w0 (s_w s2) with
              | POk b w => SNext (mkvst (if b then cur st2 else t (cur st2)) stk env2 w)
              | PRaise e w => SRaise e (cur st1 + 1) stk env2 w
              end).
        { cbn [exec v_stk v_env v_w].
          destruct (p_cmp P c0 v w0 (s_w s2)) as [b w|]; [|reflexivity].
          unfold jmp_cond; destruct b; do 2 f_equal; lia. }
        pose proof (inst_lt _ _ _ _ _ M3) as NX.
        destruct (p_cmp P c0 v w0 (s_w s2)) as [b w|e w].
        -- eapply reach_next; [exact M3|exact FJ|exact X|].
           apply reach_val; [|reflexivity|apply erel_w, ER2].
           rewrite to_bool_vbool. destruct b; reflexivity.
        -- apply stops_reach. eapply step_raise; [exact M3|cov|exact FJ|exact X|lia|apply erel_w, ER2].
Qed.

Definition parts (n : node) : Prop :=
  match n with NBin _ l r => compiled l /\ compiled r | _ => True end.

Lemma cond_ok c st st' : compiled c -> parts c -> jmp_if_false (gen cx) c st = Ok st' ->
  run blk [cur st'] st st' (cond_sem true c st st').
Proof.
  intros HC PC H.
  destruct c; try exact (cond_plain true _ _ _ HC H).
  cbn [jmp_if_false] in H. destruct (cmp_of op) as [c0|] eqn:CO.
  - destruct PC as [PL PR]. exact (cond_cmp _ _ _ _ _ _ PL PR CO H).
  - exact (cond_plain true _ _ _ HC H).
Qed.

Lemma if_ok c a b : compiled c -> parts c -> compiled a -> compiled b -> compiled (NIf c a b).
Proof.
  intros HC PC HA HB u st st' H. cbn [gen] in H. unfold gen_if in H. ub H. cbv zeta in H. ub H.
  rename st0 into st1, st1 into st2.
  pose proof (cond_ok _ _ _ HC PC B) as R1. pose proof (HA _ _ _ B0) as R2. facts R1. facts R2.
  destruct (u || negb (is_empty b)) eqn:UE.
  - ub H. ub H. rename st0 into st4, st3 into st5.
    pose proof (run_jump blk (JJ oJMP) st2) as R3. cbn [jinst] in R3. cbv zeta in R3.
    set (st3 := emit (IJ oJMP 0) st2) in *. facts R3.
    pose proof (run_len _ _ _ _ _ (run_trans _ _ _ _ _ _ _ _ R1 (run_trans _ _ _ _ _ _ _ _ R2 R3))) as R.
    destruct (run_patch blk _ (cur st1) (cur st3) st st3 st4 _ R B1) as (R' & CU & _). clear R.
    facts R'. cbn [app] in R'.
    pose proof (HB _ _ _ B2) as R4. facts R4.
    pose proof (run_len _ _ _ _ _ (run_trans _ _ _ _ _ _ _ _ R' R4)) as R5. cbn [app] in R5.
    destruct (run_patch blk _ (cur st3) (cur st5) st st5 st' _ R5 H) as (R6 & CU2 & _).
    eapply run_weaken; [exact R6|reflexivity|]. cbv beta.
    intros G E t (LEN2 & (LEN & M1 & M2 & M3) & M4) HG HT f cc h s env stk OK CO CV ER CL.
    rewrite CU2 in *. rewrite CU in *.
    pose proof (inst_lt _ _ _ _ _ M3) as LT. pose proof (g_short _ HG) as GS.
    pose proof (cur_nonneg st1). pose proof (cur_nonneg st3).
    unfold cond_sem in M1. rewrite upd_same in M1.
    rewrite upd_other in M3 by lia. rewrite upd_same in M3.
    cbn [ok] in OK. apply andb_prop in OK as [OK OKB]. apply andb_prop in OK as [OKC OKA].
    cbn [eval]. eapply reach_bind.
    + apply (M1 HG HT); first [lia|subs].
    + intros v s1 env1 _ ER1. cbn [fst snd].
      destruct (to_bool v); cbn [eqb].
      * rewrite <- (bindv_Val (EV f a s1)). eapply reach_bind.
        -- apply (M2 HG HT); subs.
        -- intros v1 s2 env2 _ ER2. cbn [used fst snd].
           eapply reach_next; [exact M3|apply (jump_fits G); auto; lia|reflexivity|].
           replace (cur st3 + (cur st5 - cur st3)) with (cur st5) by lia.
           apply reach_val; [reflexivity|reflexivity|exact ER2].
      * apply (M4 HG HT); subs.
  - apply orb_false_iff in UE as [-> EM]. apply negb_false_iff in EM.
    destruct b; try discriminate EM. destruct l; [|discriminate EM].
    pose proof (run_len _ _ _ _ _ (run_trans _ _ _ _ _ _ _ _ R1 R2)) as R.
    destruct (run_patch blk _ (cur st1) (cur st2) st st2 st' _ R H) as (R' & CU & _).
    eapply run_weaken; [exact R'|reflexivity|]. cbv beta.
    intros G E t (LEN & M1 & M2) HG HT f cc h s env stk OK CO CV ER CL.
    rewrite CU in *. unfold cond_sem in M1. rewrite upd_same in M1. pose proof (g_short _ HG) as GS.
    pose proof (cur_nonneg st2).
    cbn [ok] in OK. apply andb_prop in OK as [OK OKB]. apply andb_prop in OK as [OKC OKA].
    cbn [eval eval_seq]. eapply reach_bind.
    + apply (M1 HG HT); first [lia|subs].
    + intros v s1 env1 _ ER1. cbn [fst snd].
      destruct (to_bool v); cbn [eqb].
      * apply (M2 HG HT); subs.
      * apply reach_val; [reflexivity|reflexivity|exact ER1].
Qed.

(** ** break, next, return *)
Lemma tgt_fits (G : prog) b d : good G -> -1 <= d < 2 ^ 31 -> 0 <= b <= zlength (pr_code G) ->
  fits (IJ oJMP (d - b)).
Proof. intros [HS _ _] H1 H2. cbn. unfold i32_ok. lia. Qed.

Lemma is_block_kind : is_block cx = true -> sc_kind cx = KBlock.
Proof. unfold is_block. destruct (sc_kind cx); try discriminate; reflexivity. Qed.

Lemma break_ok e : compiled e -> compiled (NBreak e).
Proof.
  intros HE u st st' H. cbn [gen] in H. destruct (in_loop st) eqn:IL.
  - ub H. pose proof (HE _ _ _ B) as R1.
    pose proof (eq_trans (proj1 (run_top _ _ _ _ _ R1)) IL) as IL1.
    pose proof (run_escape blk EBreak _ _ IL1 H) as R2. clear IL1. facts R1. facts R2.
    eapply run_weaken; [exact (run_len _ _ _ _ _ (run_trans _ _ _ _ _ _ _ _ R1 R2))|reflexivity|]. cbv beta.
    intros G E t (LEN & M1 & M2) HG HT f c h s env stk OK CO CV ER CL. cbv beta.
    assert (LK : f_loop c <> Lout).
    { intros K. destruct CO as [A _]. unfold is_out in A. rewrite K in A. cbn in A. congruence. }
    cbn [ok] in OK. destruct (f_loop c) eqn:FL; try discriminate OK; [|congruence].
    cbn [eval]. eapply reach_bind.
    + apply (M1 HG HT); subs.
    + intros v s1 env1 _ ER1. cbn [used fst snd].
      cbn [reach ProofsCore2.reach]. cbn [ProofsCore2.stops]. rewrite FL. exists env1. split; [|exact ER1].
      pose proof (cur_nonneg st'). destruct HT as (T1' & T2' & T3' & T4').
      eapply step_next; [exact M2|apply (tgt_fits G); auto; lia|].
      cbn [exec v_stk v_env v_w]. do 2 f_equal. lia.
  - destruct (sc_kind cx) eqn:KB; try discriminate H. ub H. okinv H.
    pose proof (HE _ _ _ B) as R1. pose proof (run_emit blk (I0 oBREAK) st0) as R2. facts R1. facts R2.
    eapply run_weaken; [exact (run_trans _ _ _ _ _ _ _ _ R1 R2)|reflexivity|]. cbv beta.
    intros G E t (M1 & M2) HG HT f c h s env stk OK CO CV ER CL.
    assert (FL : f_loop c = Lout).
    { destruct CO as [A _]. unfold is_out in A. destruct (f_loop c); auto; cbn in A; congruence. }
    cbn [ok] in OK. rewrite FL in OK. apply andb_prop in OK as [BK OK].
    cbn [eval]. eapply reach_bind.
    + apply (M1 HG HT); subs.
    + intros v s1 env1 _ ER1. cbn [used fst snd]. cbn [ProofsCore2.reach ProofsCore2.stops]. rewrite FL.
      split; [exact BK|]. exists env1. split; [|exact ER1].
      eapply step_halt; [exact M2|exact I|reflexivity].
Qed.

Lemma next_ok e : compiled e -> compiled (NNext e).
Proof.
  intros HE u st st' H. cbn [gen] in H. destruct (in_loop st) eqn:IL.
  - ub H. pose proof (HE _ _ _ B) as R1.
    pose proof (eq_trans (proj1 (run_top _ _ _ _ _ R1)) IL) as IL1.
    pose proof (run_escape blk ENext _ _ IL1 H) as R2. clear IL1. facts R1. facts R2.
    eapply run_weaken; [exact (run_len _ _ _ _ _ (run_trans _ _ _ _ _ _ _ _ R1 R2))|reflexivity|]. cbv beta.
    intros G E t (LEN & M1 & M2) HG HT f c h s env stk OK CO CV ER CL.
    assert (LK : f_loop c <> Lout).
    { intros K. destruct CO as [A _]. unfold is_out in A. rewrite K in A. cbn in A. congruence. }
    cbn [ok] in OK. destruct (f_loop c) eqn:FL; try discriminate OK; [|congruence].
    destruct u; [discriminate OK|]. cbn [negb andb] in OK.
    cbn [eval]. eapply reach_bind.
    + apply (M1 HG HT); subs.
    + intros v s1 env1 _ ER1. cbn [used fst snd].
      cbn [ProofsCore2.reach ProofsCore2.stops]. rewrite FL. exists env1. split; [|exact ER1].
      pose proof (cur_nonneg st'). destruct HT as (T1' & T2' & T3' & T4').
      eapply step_plus; [exact M2|apply (tgt_fits G); auto; lia|].
      cbn [exec v_stk v_env v_w]. do 2 f_equal. lia.
  - destruct (sc_kind cx) eqn:KB; try discriminate H. ub H. okinv H.
    pose proof (HE _ _ _ B) as R1. pose proof (run_emit blk (I0 oRETURN) st0) as R2. facts R1. facts R2.
    eapply run_weaken; [exact (run_trans _ _ _ _ _ _ _ _ R1 R2)|reflexivity|]. cbv beta.
    intros G E t (M1 & M2) HG HT f c h s env stk OK CO CV ER CL.
    assert (FL : f_loop c = Lout).
    { destruct CO as [A _]. unfold is_out in A. destruct (f_loop c); auto; cbn in A; congruence. }
    cbn [ok] in OK. rewrite FL in OK. apply andb_prop in OK as [BK OK].
    cbn [eval]. eapply reach_bind.
    + apply (M1 HG HT); subs.
    + intros v s1 env1 _ ER1. cbn [used fst snd]. cbn [ProofsCore2.reach ProofsCore2.stops]. rewrite FL.
      split; [exact BK|]. exists env1. split; [|exact ER1].
      eapply step_halt; [exact M2|exact I|reflexivity].
Qed.

Lemma return_ok e : compiled e -> compiled (NReturn e).
Proof.
  intros HE u st st' H. cbn [gen] in H. ub H. pose proof (HE _ _ _ B) as R1. facts R1.
  destruct (ens_top st0) eqn:ET.
  - assert (H' : add_ret blk (emit (IJ oJMP 0) st0) = Ok st').
    { unfold ens_top in ET. destruct (jds st0) as [|x r]; [discriminate ET|]. rewrite ET in H. exact H. }
    clear H. pose proof (run_add_ret blk _ _ ET H') as R2. facts R2.
    eapply run_weaken; [exact (run_len _ _ _ _ _ (run_trans _ _ _ _ _ _ _ _ R1 R2))|reflexivity|]. cbv beta.
    intros G E t (LEN & M1 & M2) HG HT f c h s env stk OK CO CV ER CL.
    cbn [ok] in OK. cbn [eval]. eapply reach_bind.
    + apply (M1 HG HT); subs.
    + intros v s1 env1 _ ER1. cbn [used fst snd]. cbn [ProofsCore2.reach ProofsCore2.stops].
      destruct CO as [_ CR]. destruct HT as (T1' & T2' & T3' & T4').
      destruct (r_ret E) as [tr|]; [|cbn in CR; congruence].
      rewrite <- (T4' tr eq_refl) in M2, T3'.
      exists env1, stk. split; [|exact ER1]. pose proof (cur_nonneg st').
      eapply step_next; [exact M2|apply (tgt_fits G); auto; lia|].
      cbn [exec v_stk v_env v_w]. do 2 f_equal. lia.
  - assert (H' : st' = emit (I0 (if is_block cx then oMRETURN else oRETURN)) st0).
    { unfold ens_top in ET. destruct (jds st0) as [|x r]; [okinv H; reflexivity|]. rewrite ET in H.
      okinv H. reflexivity. }
    clear H. subst st'.
    pose proof (run_emit blk (I0 (if is_block cx then oMRETURN else oRETURN)) st0) as R2. facts R2.
    eapply run_weaken; [exact (run_trans _ _ _ _ _ _ _ _ R1 R2)|reflexivity|]. cbv beta.
    intros G E t (M1 & M2) HG HT f c h s env stk OK CO CV ER CL.
    cbn [ok] in OK. cbn [eval]. eapply reach_bind.
    + apply (M1 HG HT); subs.
    + intros v s1 env1 _ ER1. cbn [used fst snd]. cbn [ProofsCore2.reach ProofsCore2.stops].
      destruct CO as [_ CR]. destruct (r_ret E) as [tr|]; [cbn in CR; congruence|].
      exists env1. split; [|exact ER1]. unfold ProofsCore2.blk. destruct (is_block cx);
      (eapply step_halt; [exact M2|exact I|reflexivity]).
Qed.

(** ** Loops *)
Lemma stops_loop G E E' c c' h f k st stk o :
  r_ret E' = r_ret E -> (k <= f)%nat ->
  match o with Brk _ _ | Nxt _ _ | Val _ _ => False | _ => True end ->
  stops G E' c' h f st stk o -> stops G E c h k st stk o.
Proof.
  intros ER LE NB. destruct o as [v s|v s|v s|d v s|v s| |]; cbn [ProofsCore2.stops]; try contradiction; auto.
  - rewrite ER. auto.
  - intros R. eapply runs_le; eassumption.
Qed.

Definition cond_gen (op : bool) (c : node) (st : cg) : res cg :=
  if op then jmp_if_false (gen cx) c st
  else st <- gen cx c true st ;; Ok (emit (IJ oJMP_T 0) st).

Lemma cond_gen_ok op c st st' : compiled c -> parts c -> cond_gen op c st = Ok st' ->
  run blk [cur st'] st st' (cond_sem op c st st').
Proof.
  intros HC PC H. destruct op; [exact (cond_ok _ _ _ HC PC H)|exact (cond_plain false _ _ _ HC H)].
Qed.

Lemma while_ok c body op : compiled c -> parts c -> compiled body -> compiled (NWhile c body op).
Proof.
  intros HC PC HB u st st' H. cbn [gen] in H. unfold gen_while in H.
  fold (cond_gen op c (set_loops (mkloop true [] :: loops st) st)) in H.
  set (sl := set_loops (mkloop true [] :: loops st) st) in *.
  ub H. cbv zeta in H. ub H. ub H. rename st0 into st1, st1 into st2, st2 into st4.
  set (st3 := gen_jmp_back (cur sl) st2) in *.
  set (st5 := if u then emit (I0 oPUSH_NIL) st4 else st4) in *.
  set (st6 := emit (IJ oJMP 0) st5) in *.
  destruct (loops st6) as [|x r] eqn:LP; [discriminate H|]. ub H. rename st0 into st7.
  change (if u then st7 else emit (I0 oPOP) st7) with (popped u st7) in H.
  pose proof (cond_gen_ok _ _ _ _ HC PC B) as R1. pose proof (HB _ _ _ B0) as R2.
  pose proof (proj1 (run_hole _ _ _ _ _ _ R1)) as LT1.
  pose proof (run_emit blk (IJ oJMP_BACK (pos_diff (cur st2) (cur sl) - 5)) st2) as R3.
  change (emit (IJ oJMP_BACK (pos_diff (cur st2) (cur sl) - 5)) st2) with st3 in R3.
  facts R1. facts R2. facts R3.
  pose proof (run_trans _ _ _ _ _ _ _ _ R1 (run_trans _ _ _ _ _ _ _ _ R2 R3)) as R. cbn [app] in R.
  destruct (run_patch blk _ (cur st1) (cur st3) sl st3 st4 _ R B1) as (R' & CU & _). clear R.
  pose proof (run_when cx u (I0 oPUSH_NIL) st4) as R5. fold st5 in R5.
  pose proof (run_jump blk (JJ oJMP) st5) as R6. cbn [jinst] in R6. cbv zeta in R6. fold st6 in R6.
  facts R'. facts R5. facts R6.
  pose proof (run_len _ _ _ _ _ (run_trans _ _ _ _ _ _ _ _ R' (run_trans _ _ _ _ _ _ _ _ R5 R6))) as R. cbn [app] in R.
  destruct (run_loop blk _ _ _ _ _ _ _ _ R LP B2) as (R7 & CU7 & _). clear R.
  pose proof (run_popped P cx u st7) as R8. facts R7. facts R8.
  pose proof (run_len _ _ _ _ _ (run_trans _ _ _ _ _ _ _ _ R7 R8)) as R. cbn [app] in R.
  destruct (run_patch blk _ (cur st6) (cur (popped u st7)) st _ st' _ R H) as (R9 & CU9 & _). clear R.
  eapply run_weaken; [exact R9|reflexivity|]. cbv beta.
  intros G E t (LEN2 & (LEN & (M1 & M2 & M3) & M5 & M6) & M8) HG HT f cc h s env stk OK CO CV ER CL.
  rewrite CU9 in *. rewrite CU7 in *. rewrite CU in *.
  unfold cond_sem in M1. change (cur sl) with (cur st) in *.
  pose proof (g_short _ HG) as GS. pose proof (cur_nonneg st). pose proof (cur_nonneg st1).
  pose proof (inst_lt _ _ _ _ _ M3) as LT3. pose proof (inst_lt _ _ _ _ _ M6) as LT6.
  set (E' := set_tgts E (cur st6) (cur st)) in *.
  assert (HT' : tgt_ok E').
  { destruct HT as (T1' & T2' & T3' & T4'). unfold tgt_ok, E'. cbn [set_tgts r_brk r_nxt r_ret rt_of].
    split; [lia|]. split; [lia|]. split; [exact T3'|exact T4']. }
  rewrite upd_same in M1. rewrite upd_same in M6.
  assert (PD : pos_diff (cur st2) (cur st) = cur st - cur st2).
  { apply pos_diff_ok. unfold i32_ok. lia. }
  rewrite PD in M3.
  pose proof (ia_nxt _ _ _ _ _ M3) as N3.
  assert (Z3 : zlength (encode (IJ oJMP_BACK (cur st - cur st2 - 5))) = 5) by reflexivity.
  set (c' := mkfctx Lfree (f_clean cc)) in *.
  cbn [ok] in OK. fold c' in OK. apply andb_prop in OK as [OK1 OK2].
  assert (CO' : ctx_ok (in_loop sl) (ens_top sl) c' E').
  { destruct CO as [A1 A2]. constructor; [reflexivity|]. cbn. exact A2. }
  assert (CV' : forall lo hi, cur st <= lo -> hi <= cur (popped u st7) -> covered E' h lo hi).
  { intros lo hi L1 L2. eapply covered_sub; [exact CV|exact L1|exact L2]. }
  (* leaving the loop *)
  assert (EXIT : forall k s1 env1, erel s1 env1 ->
     reach G E cc h k (mkvst (cur st3) stk env1 (s_w s1)) stk (Val nil s1)
       (fun v => used (cur (popped u st7)) u v stk)).
  { intros k s1 env1 ER1.
    eapply reach_star with (st' := mkvst (cur st5) (if u then nil :: stk else stk) env1 (s_w s1)).
    - unfold st5. destruct u; [|rewrite CU; apply star_refl].
      eapply step_next; [exact M5|exact I|reflexivity].
    - eapply reach_star; [eapply step_next; [exact M6|apply (jump_fits G); auto; lia|reflexivity]|].
      replace (cur st6 + (cur (popped u st7) - cur st6)) with (cur (popped u st7)) by lia.
      apply reach_val; [reflexivity|reflexivity|exact ER1]. }
  assert (BREAK : forall k a v s1, (exists env1, star G a (mkvst (cur st6) (v :: stk) env1 (s_w s1)) /\ erel s1 env1) ->
     reach G E cc h k a stk (Val v s1) (fun v => used (cur (popped u st7)) u v stk)).
  { intros k a v s1 (env1 & S1 & ER1). eapply reach_star; [exact S1|].
    eapply reach_star; [apply M8|]. apply reach_val; [reflexivity|reflexivity|exact ER1]. }
  assert (LOOP : forall k s1 env1, (k <= f)%nat -> erel s1 env1 ->
     reach G E cc h k (mkvst (cur st) stk env1 (s_w s1)) stk (eval_loop (EV f c) (EV f body) op k s1)
       (fun v => used (cur (popped u st7)) u v stk)).
  { assert (AGAIN : forall k a s1 env1,
       (forall s1 env1, (k <= f)%nat -> erel s1 env1 ->
          reach G E cc h k (mkvst (cur st) stk env1 (s_w s1)) stk (eval_loop (EV f c) (EV f body) op k s1)
           (fun v => used (cur (popped u st7)) u v stk)) ->
       (k <= f)%nat -> plus P G a (mkvst (cur st) stk env1 (s_w s1)) -> erel s1 env1 ->
       reach G E cc h (S k) a stk (eval_loop (EV f c) (EV f body) op k s1)
           (fun v => used (cur (popped u st7)) u v stk)).
    { intros k a s1 env1 IH LK PL ER1. specialize (IH s1 env1 LK ER1).
      destruct (eval_loop (EV f c) (EV f body) op k s1) as [v s2|v s2|v s2|d v s2|v s2| |];
        try (eapply (reach_star P cx) in IH; [exact IH|apply star_of_plus, PL]).
      - cbn [ProofsCore2.reach ProofsCore2.stops] in *. eapply plus_runs; eassumption. }
    induction k as [|k IH]; intros s1 env1 LK ER1; cbn [eval_loop].
    - cbn [ProofsCore2.reach ProofsCore2.stops]. exists O. eexists. split; [lia|constructor].
    - fold (eval_loop (EV f c) (EV f body) op).
      specialize (M1 HG HT' ltac:(lia) f c' h s1 env1 stk OK1 CO' ltac:(apply CV'; lia) ER1 CL).
      cbv beta in M1.
      destruct (EV f c s1) as [v s2|v s2|v s2|d v s2|v s2| |] eqn:EC.
      + destruct M1 as (env2 & S2 & ER2). cbn [fst snd] in S2.
        destruct (Bool.eqb (to_bool v) op).
        * specialize (M2 HG HT' f c' h s2 env2 stk OK2).
          specialize (M2 ltac:(ctx) ltac:(apply CV'; lia) ER2 CL). cbv beta in M2.
          assert (PS : plus P G (mkvst (cur st) stk env1 (s_w s1)) (mkvst (cur st1) stk env2 (s_w s2))).
          { apply star_plus; [exact S2|]. intros Q. injection Q as Q _ _. revert Q LT1. clear. lia. }
          destruct (EV f body s2) as [v2 s3|v2 s3|v2 s3|d v2 s3|v2 s3| |] eqn:EB.
          -- destruct M2 as (env3 & S3 & ER3). cbn [used fst snd] in S3.
             eapply AGAIN; [intros; apply IH; assumption|lia| |exact ER3].
             eapply plus_trans_star; [exact PS|]. eapply star_trans; [exact S3|].
             eapply step_next; [exact M3|cbn; unfold i32_ok; lia|].
             cbn [exec v_stk v_env v_w]. do 2 f_equal. lia.
          -- apply BREAK. cbn [ProofsCore2.reach ProofsCore2.stops f_loop c'] in M2.
             destruct M2 as (env3 & S3 & ER3). exists env3. split; [|exact ER3].
             eapply star_trans; [exact S2|exact S3].
          -- cbn [ProofsCore2.reach ProofsCore2.stops f_loop c'] in M2.
             destruct M2 as (env3 & S3 & ER3). eapply AGAIN; [intros; apply IH; assumption|lia| |exact ER3].
             eapply plus_star; [exact S2|exact S3].
          -- apply stops_reach. eapply stops_loop with (E' := E') (f := f); [reflexivity|exact LK|exact I|].
             eapply stops_star; [exact S2|exact M2].
          -- apply stops_reach. eapply stops_loop with (E' := E') (f := f); [reflexivity|exact LK|exact I|].
             eapply stops_star; [exact S2|exact M2].
          -- apply stops_reach. eapply stops_loop with (E' := E') (f := f); [reflexivity|exact LK|exact I|].
             eapply stops_star; [exact S2|exact M2].
          -- exact I.
        * eapply reach_star; [exact S2|]. apply EXIT. exact ER2.
      + apply BREAK. cbn [ProofsCore2.reach ProofsCore2.stops f_loop c'] in M1. exact M1.
      + cbn [ProofsCore2.reach ProofsCore2.stops f_loop c'] in M1.
        destruct M1 as (env3 & S3 & ER3). eapply AGAIN; [intros; apply IH; assumption|lia|exact S3|exact ER3].
      + apply stops_reach. eapply stops_loop with (E' := E') (f := f); [reflexivity|exact LK|exact I|exact M1].
      + apply stops_reach. eapply stops_loop with (E' := E') (f := f); [reflexivity|exact LK|exact I|exact M1].
      + apply stops_reach. eapply stops_loop with (E' := E') (f := f); [reflexivity|exact LK|exact I|exact M1].
      + exact I. }
  cbn [eval]. apply LOOP; [lia|exact ER].
  Unshelve. all: exact cc.
Qed.
End Compile.
