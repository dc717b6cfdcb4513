(** Assignments, sequences, conditions and loops: the code generated for them
    does what they mean. *)
From Coq Require Import ZArith List Bool Lia Permutation.
From Verif Require Import Base ModelValue ModelInst ProofsInst ModelCodegen ModelVM
  SpecCore ProofsValue ProofsCore1 ProofsCore2 ProofsCore3.
Import ListNotations.
Open Scope Z_scope.

Section Compile.
Context {W : Type}.
Variable P : prims W.
Variable cx : sctx.
Hypothesis PO : prims_ok P.
Hypothesis SC : scoped cx.

Notation setter := (sc_setter cx).
Notation std := (sc_stderr cx).
Notation blk := (blk cx).
Notation reach := (reach P cx).
Notation erel := (erel cx).
Notation star := (star P).
Notation compiled := (compiled P cx setter std).
Notation cgen := (cgen P cx).
Notation sem := (sem P cx).
Notation EV f := (eval P setter std f).

Definition var_target (n : node) : bool :=
  match n with NLVar _ | NIdent _ | NIVar _ | NGVar _ => true | _ => false end.

Definition tsized (n : node) : bool :=
  match n with
  | NIVar x | NGVar x => id32 x
  | NSend _ x _ _ => id32 (setter x)
  | NOp (bConst x _) _ | NOp (bCvar x) _ | NOp (bScope x) _ => id32 x
  | _ => true
  end.

Lemma run_setvar lhs st st' : var_target lhs = true -> tsized lhs = true ->
  gen_assign cx (gen cx) lhs st = Ok st' ->
  run blk [] st st' (fun G E t => forall v stk s env, erel s env ->
    exists env', star G (mkvst (cur st) (v :: stk) env (s_w s))
                        (mkvst (cur st') stk env' (s_w (assign_var P lhs v s)))
                 /\ erel (assign_var P lhs v s) env').
Proof.
  intros VT TS H.
  assert (L : forall x, emit_set_local cx x st = Ok st' ->
    run blk [] st st' (fun G E t => forall v stk (s : sst (W:=W)) env, erel s env ->
      exists env', star G (mkvst (cur st) (v :: stk) env (s_w s))
                          (mkvst (cur st') stk env' (s_w s))
                   /\ erel (set_var x v s) env')).
  { intros x HX. unfold emit_set_local in HX.
    destruct (get_local_var cx x) as [[o i]|] eqn:LV; [|discriminate].
    okinv HX. eapply run_weaken; [apply run_emit|reflexivity|]. cbv beta.
    intros G E t A v stk s env ER.
    destruct (erel_set cx s env x o i v SC ER LV) as (env' & ES & ER').
    destruct (proj2 SC _ _ _ LV) as [HO HI].
    exists env'. split; [|exact ER'].
    destruct (Z.eqb_spec o 0) as [->|NZ].
    - eapply step_next; [exact A|exact HI|]. cbn [exec step32 v_stk v_env v_w].
      rewrite ES. reflexivity.
    - eapply step_next; [exact A|split; assumption|]. cbn [exec v_stk v_env v_w].
      rewrite ES. reflexivity. }
  destruct lhs; try discriminate VT; cbn [gen_assign] in H.
  - exact (L _ H).
  - okinv H. eapply run_weaken; [apply run_emit|reflexivity|]. cbv beta.
    intros G E t A v stk s env ER. exists env. split; [|apply erel_w, ER].
    eapply step_next; [exact A|apply id32_fits, TS|reflexivity].
  - okinv H. eapply run_weaken; [apply run_emit|reflexivity|]. cbv beta.
    intros G E t A v stk s env ER. exists env. split; [|apply erel_w, ER].
    eapply step_next; [exact A|apply id32_fits, TS|reflexivity].
  - exact (L _ H).
Qed.

Definition asub (n : node) : Prop :=
  match n with
  | NIndex b i => compiled b /\ compiled i
  | NSend r _ _ _ => compiled r
  | NOp _ (p :: _) => compiled p
  | _ => True
  end.

(** [kr]: the right-hand side is a constant *)
Definition okasg (lhs : node) (kr : bool) (okr : fctx -> bool -> bool) (c : fctx) (u : bool) : bool :=
  match lhs with
  | NLVar _ | NIdent _ | NIVar _ | NGVar _ => okr c true
  | NOp (bConst _ _) _ | NOp (bCvar _) _ => okr c true
  | NOp (bScope _) (p :: _) => (constant p || kr) && ok blk (pend c) true p && okr c true
  | NIndex b i => ok blk c true b && ok blk (pend c) true i && okr (pend c) true
  | NSend o _ _ _ => negb u && ok blk c true o && okr (pend c) true
  | _ => false
  end.

Lemma run_T H a b M : run blk H a b M -> run blk H a b (fun _ _ _ => True).
Proof. intros R. eapply run_weaken; [exact R|reflexivity|auto]. Qed.

(** an instruction that stores the value [v] *)
Lemma store_ok G E c h f pos i nxt k env (s : sst (W:=W)) t r (v : value) (stk : list value) (u : bool) :
  inst_at G E pos i nxt -> covered E h pos nxt -> fits i ->
  exec P G i pos nxt (mkvst pos k env (s_w s)) = stored nxt t env r ->
  t = (if u then v :: stk else stk) -> erel s env ->
  reach G E c h f (mkvst pos k env (s_w s)) stk (after_store r v s) (fun v => used nxt u v stk).
Proof.
  intros A C F X -> R. pose proof (inst_lt _ _ _ _ _ A). destruct r as [x w|e w]; cbn [after_store].
  - eapply reach_next; [exact A|exact F|rewrite X; reflexivity|].
    apply reach_val; [reflexivity|reflexivity|apply erel_w, R].
  - apply stops_reach. eapply step_raise; [exact A|exact C|exact F|rewrite X; reflexivity|lia|apply erel_w, R].
Qed.

Lemma gen_assign2_ok lhs kr okr evr gr :
  asub lhs -> tsized lhs = true -> cgen okr evr gr ->
  (kr = true -> exists v, forall f s, evr f s = Val v s) ->
  cgen (okasg lhs kr okr) (fun f => eval_assign P (EV f) setter lhs (evr f))
       (gen_assign2 cx (gen cx) lhs gr).
Proof.
  intros AS TS HR KR u st st' H.
  destruct (var_target lhs) eqn:VT.
  { assert (H' : (st <- (st <- gr true st ;; Ok (if u then emit (I32 oDUP 1) st else st)) ;;
                  gen_assign cx (gen cx) lhs st) = Ok st')
      by (destruct lhs; try discriminate VT; exact H).
    clear H. rename H' into H. ub H. ub B. okinv B.
    pose proof (HR _ _ _ B0) as R1. pose proof (run_dup P cx u st1) as R2.
    set (st2 := if u then emit (I32 oDUP 1) st1 else st1) in *.
    pose proof (run_setvar _ _ _ VT TS H) as R3. facts R1. facts R2. facts R3.
    eapply run_weaken; [exact (run_trans _ _ _ _ _ _ _ _ R1 (run_trans _ _ _ _ _ _ _ _ R2 R3))|reflexivity|].
    cbv beta. intros G E t (M1 & M2 & M3) HG HT f c h s env stk OK CO CV ER CL.
    replace (eval_assign P (EV f) setter lhs (evr f) s)
      with (bindv (evr f s) (fun v s => Val v (assign_var P lhs v s)))
      by (destruct lhs; try discriminate VT; reflexivity).
    assert (OK' : okr c true = true) by (destruct lhs; try discriminate VT; exact OK).
    eapply reach_bind.
    - apply (M1 HG HT); subs.
    - intros v s1 env1 _ ER1. cbn [used fst snd]. eapply reach_star; [apply M2|].
      destruct (M3 v (if u then v :: stk else stk) s1 env1 ER1) as (env2 & S2 & ER2).
      eapply reach_star; [exact S2|]. apply reach_val; [reflexivity|reflexivity|exact ER2]. }
  destruct lhs; try discriminate VT; cbn [gen_assign2] in H; try discriminate H; unfold gen_assign_val in H.
  - (* attribute *)
    ub H. ub H. okinv H. cbn [asub] in AS. cbn [tsized] in TS.
    pose proof (AS _ _ _ B) as R1. pose proof (HR _ _ _ B0) as R2.
    pose proof (run_osend blk u (setter id) 1 st1) as R3. facts R1. facts R2. facts R3.
    eapply run_weaken; [exact (run_trans _ _ _ _ _ _ _ _ R1 (run_trans _ _ _ _ _ _ _ _ R2 R3))|reflexivity|].
    cbv beta. intros G E t (M1 & M2 & M3 & M4) HG HT f c h s env stk OK CO CV ER CL.
    cbn [okasg] in OK. apply andb_prop in OK as [OK OK2]. apply andb_prop in OK as [U OK1].
    destruct u; [discriminate U|].
    cbn [eval_assign]. eapply reach_bind.
    + apply (M1 HG HT); subs.
    + intros rv s1 env1 _ ER1. cbn [used fst snd]. eapply reach_bind_pend.
      * apply (M2 HG HT); subs.
      * intros v s2 env2 _ ER2. cbn [used fst snd].
        eapply reach_bind with (K1 := fun _ => (cur (emit_osend false (setter id) 1 st1), stk)).
        -- change (v :: rv :: stk) with (rev [v] ++ rv :: stk).
           eapply (osend_exec P cx false); [exact M3|cov|exact ER2|reflexivity|lia|exact TS|exact M4].
        -- intros x s3 env3 _ ER3. cbn [fst snd]. apply reach_val; [reflexivity|reflexivity|exact ER3].
  - (* element *)
    destruct AS as [HB HI]. ub H. pose proof (HB _ _ _ B) as R1. facts R1.
    destruct (is_imm_u32 lhs2) as [k|] eqn:IM.
    + apply imm_u32 in IM as [IK ->]. ub H. ub B0. okinv B0. okinv H.
      pose proof (HR _ _ _ B1) as R2. pose proof (run_dup P cx u st2) as R3.
      set (st3 := if u then emit (I32 oDUP 1) st2 else st2) in *.
      pose proof (run_when cx u (I32 oSINKN 2) st3) as R4.
      set (st4 := if u then emit (I32 oSINKN 2) st3 else st3) in *.
      pose proof (run_emit blk (I32 oSET_IDX_I k) st4) as R5.
      facts R2. facts R3. facts R4. facts R5.
      eapply run_weaken; [exact (run_trans _ _ _ _ _ _ _ _ R1 (run_trans _ _ _ _ _ _ _ _ R2
         (run_trans _ _ _ _ _ _ _ _ R3 (run_trans _ _ _ _ _ _ _ _ R4 R5))))|reflexivity|].
      cbv beta. intros G E t (M1 & M2 & M3 & M4 & M5) HG HT f c h s env stk OK CO CV ER CL.
      cbn [okasg] in OK. apply andb_prop in OK as [OK OK2]. apply andb_prop in OK as [OK1 _].
      cbn [eval_assign]. eapply reach_bind.
      * apply (M1 HG HT); subs.
      * intros bv s1 env1 _ ER1. cbn [used fst snd eval bindv]. eapply reach_bind_pend.
        -- apply (M2 HG HT); subs.
        -- intros v s2 env2 _ ER2. cbn [used fst snd]. eapply reach_star; [apply M3|].
           eapply reach_star with (st' := mkvst (cur st4) (v :: bv :: if u then v :: stk else stk) env2 (s_w s2)).
           { destruct u; [|apply star_refl].
             eapply step_next; [exact M4|cbn; unfold u32_ok; lia|reflexivity]. }
           assert (X : exec P G (I32 oSET_IDX_I k) (cur st4) (cur (emit (I32 oSET_IDX_I k) st4))
                   (mkvst (cur st4) (v :: bv :: if u then v :: stk else stk) env2 (s_w s2)) =
                   match p_setindex P bv (integer k) v (s_w s2) with
                   | POk _ w => SNext (mkvst (cur (emit (I32 oSET_IDX_I k) st4)) (if u then v :: stk else stk) env2 w)
                   | PRaise e w => SRaise e (cur (emit (I32 oSET_IDX_I k) st4)) (if u then v :: stk else stk) env2 w
                   end).
           { cbn [exec step32 v_stk v_env v_w]. rewrite (ok_setindexi P PO) by exact IK. reflexivity. }
           pose proof (inst_lt _ _ _ _ _ M5).
           destruct (p_setindex P bv (integer k) v (s_w s2)) as [x w|x w].
           ++ eapply reach_next; [exact M5|apply id32_fits, IK|exact X|].
              apply reach_val; [reflexivity|reflexivity|apply erel_w, ER2].
           ++ apply stops_reach. eapply step_raise; [exact M5|cov|apply id32_fits, IK|exact X|lia|apply erel_w, ER2].
    + ub H. ub H. ub B1. okinv B1. okinv H.
      pose proof (HI _ _ _ B0) as R2. pose proof (HR _ _ _ B2) as R3.
      pose proof (run_dup P cx u st3) as R4.
      set (st4 := if u then emit (I32 oDUP 1) st3 else st3) in *.
      pose proof (run_when cx u (I32 oSINKN 3) st4) as R5.
      set (st5 := if u then emit (I32 oSINKN 3) st4 else st4) in *.
      pose proof (run_emit blk (I0 oSET_INDEX) st5) as R6.
      facts R2. facts R3. facts R4. facts R5. facts R6.
      eapply run_weaken; [exact (run_trans _ _ _ _ _ _ _ _ R1 (run_trans _ _ _ _ _ _ _ _ R2
         (run_trans _ _ _ _ _ _ _ _ R3 (run_trans _ _ _ _ _ _ _ _ R4
           (run_trans _ _ _ _ _ _ _ _ R5 R6)))))|reflexivity|].
      cbv beta. intros G E t (M1 & M2 & M3 & M4 & M5 & M6) HG HT f c h s env stk OK CO CV ER CL.
      cbn [okasg] in OK. apply andb_prop in OK as [OK OK2]. apply andb_prop in OK as [OK1 OK3].
      cbn [eval_assign]. eapply reach_bind.
      * apply (M1 HG HT); subs.
      * intros bv s1 env1 _ ER1. cbn [used fst snd]. eapply reach_bind_pend.
        -- apply (M2 HG HT); subs.
        -- intros iv s2 env2 _ ER2. cbn [used fst snd]. eapply reach_bind_pend.
           ++ apply (M3 HG HT); subs.
           ++ intros v s3 env3 _ ER3. cbn [used fst snd]. eapply reach_star; [apply M4|].
              eapply reach_star with
                (st' := mkvst (cur st5) (v :: iv :: bv :: if u then v :: stk else stk) env3 (s_w s3)).
              { destruct u; [|apply star_refl].
                eapply step_next; [exact M5|cbn; unfold u32_ok; lia|reflexivity]. }
              assert (X : exec P G (I0 oSET_INDEX) (cur st5) (cur (emit (I0 oSET_INDEX) st5))
                   (mkvst (cur st5) (v :: iv :: bv :: if u then v :: stk else stk) env3 (s_w s3)) =
                   match p_setindex P bv iv v (s_w s3) with
                   | POk _ w => SNext (mkvst (cur (emit (I0 oSET_INDEX) st5)) (if u then v :: stk else stk) env3 w)
                   | PRaise e w => SRaise e (cur (emit (I0 oSET_INDEX) st5)) (if u then v :: stk else stk) env3 w
                   end) by reflexivity.
              pose proof (inst_lt _ _ _ _ _ M6).
              destruct (p_setindex P bv iv v (s_w s3)) as [x w|x w].
              ** eapply reach_next; [exact M6|exact I|exact X|].
                 apply reach_val; [reflexivity|reflexivity|apply erel_w, ER3].
              ** apply stops_reach.
                 eapply step_raise; [exact M6|cov|exact I|exact X|lia|apply erel_w, ER3].
  - (* constants and class variables *)
    destruct k; try discriminate H.
    + ub H. ub B. okinv B. okinv H.
      pose proof (HR _ _ _ B0) as R1. pose proof (run_dup P cx u st1) as R2.
      set (st2 := if u then emit (I32 oDUP 1) st1 else st1) in *.
      pose proof (run_emit blk (I0 oPUSH_NIL) st2) as R3. set (st3 := emit (I0 oPUSH_NIL) st2) in *.
      pose proof (run_emit blk (I32 oSET_CONST id) st3) as R4. facts R1. facts R2. facts R3. facts R4.
      eapply run_weaken; [exact (run_trans _ _ _ _ _ _ _ _ R1 (run_trans _ _ _ _ _ _ _ _ R2
        (run_trans _ _ _ _ _ _ _ _ R3 R4)))|reflexivity|].
      cbv beta. intros G E t (M1 & M2 & M3 & M4) HG HT f c h s env stk OK CO CV ER CL.
      cbn [okasg] in OK. cbn [tsized] in TS. cbn [eval_assign]. eapply reach_bind.
      * apply (M1 HG HT); subs.
      * intros v s1 env1 _ ER1. cbn [used fst snd]. eapply reach_star; [apply M2|].
        eapply reach_next; [exact M3|exact I|reflexivity|].
        eapply store_ok; [exact M4|cov|apply id32_fits, TS|reflexivity|reflexivity|exact ER1].
    + ub H. ub B. okinv B. okinv H.
      pose proof (HR _ _ _ B0) as R1. pose proof (run_dup P cx u st1) as R2.
      eapply run_weaken; [exact (run_trans _ _ _ _ _ _ _ _ R1 (run_trans _ _ _ _ _ _ _ _ R2
        (run_trans _ _ _ _ _ _ _ _ (run_emit blk _ _) (run_emit blk _ _))))|reflexivity|].
      intros G E t _ HG HT f c h s env stk OK. discriminate OK.
    + destruct l as [|p l]; [discriminate H|]. ub H. ub B. okinv B. ub H. okinv H. rename st0 into st3.
      cbn [asub] in AS. cbn [tsized] in TS.
      pose proof (HR _ _ _ B0) as R1. pose proof (run_dup P cx u st1) as R2.
      set (st2 := if u then emit (I32 oDUP 1) st1 else st1) in *.
      pose proof (AS _ _ _ B) as R3. pose proof (run_emit blk (I32 oSET_CONST id) st3) as R4.
      facts R1. facts R2. facts R3. facts R4.
      eapply run_weaken; [exact (run_trans _ _ _ _ _ _ _ _ R1 (run_trans _ _ _ _ _ _ _ _ R2
        (run_trans _ _ _ _ _ _ _ _ R3 R4)))|reflexivity|].
      cbv beta. intros G E t (M1 & M2 & M3 & M4) HG HT f c h s env stk OK CO CV ER CL.
      cbn [okasg] in OK. apply andb_prop in OK as [OK OKR]. apply andb_prop in OK as [OK OKP].
      cbn [eval_assign].
      assert (FIN : forall pv v s env, erel s env ->
        reach G E c h f (mkvst (cur st3) (pv :: v :: if u then v :: stk else stk) env (s_w s)) stk
          (if is_nil pv then Out else after_store (p_store P (bScope id) [pv] v (s_w s)) v s)
          (fun v => used (cur (emit (I32 oSET_CONST id) st3)) u v stk)).
      { intros pv v s0 env0 ER0. destruct (is_nil pv) eqn:NP; [exact I|].
        eapply store_ok; [exact M4|cov|apply id32_fits, TS| |reflexivity|exact ER0].
        cbn [exec step32 v_stk v_env v_w]. destruct pv as [x|]; [|reflexivity].
        unfold is_nil in NP. rewrite NP. reflexivity. }
      assert (EP : forall v s env, erel s env ->
        reach G E (pend c) h f (mkvst (cur st2) (v :: if u then v :: stk else stk) env (s_w s))
          (v :: if u then v :: stk else stk)
          (EV f p s) (fun pv => (cur st3, pv :: v :: if u then v :: stk else stk))).
      { intros v s0 env0 ER0. apply (M3 HG HT); subs. }
      apply orb_prop in OK as [OK|OK].
      * destruct (constant_eval P cx p OK) as [pv PV]. rewrite PV. cbn [bindv]. eapply reach_bind.
        -- apply (M1 HG HT); subs.
        -- intros v s1 env1 _ ER1. cbn [used fst snd]. eapply reach_star; [apply M2|].
           specialize (EP v _ _ ER1). rewrite PV in EP. destruct EP as (env2 & S2 & ER2).
           eapply reach_star; [exact S2|]. apply FIN, ER2.
      * destruct (KR OK) as [v V].
        assert (Q : reach G E c h f (mkvst (cur st) stk env (s_w s)) stk (evr f s)
          (fun v => used (cur st1) true v stk)) by (apply (M1 HG HT); subs).
        rewrite V in Q. destruct Q as (env1 & S1 & ER1). cbn [used fst snd] in S1.
        eapply reach_star; [exact S1|]. eapply reach_star; [apply M2|].
        eapply reach_bind_pend; [apply EP, ER1|]. intros pv s2 env2 _ ER2. cbn [fst snd].
        rewrite V. cbn [bindv]. apply FIN, ER2.
    + ub H. ub B. okinv B. okinv H.
      pose proof (HR _ _ _ B0) as R1. pose proof (run_dup P cx u st1) as R2.
      set (st2 := if u then emit (I32 oDUP 1) st1 else st1) in *.
      pose proof (run_emit blk (I32 oSET_CVAR id) st2) as R3. facts R1. facts R2. facts R3.
      eapply run_weaken; [exact (run_trans _ _ _ _ _ _ _ _ R1 (run_trans _ _ _ _ _ _ _ _ R2 R3))|reflexivity|].
      cbv beta. intros G E t (M1 & M2 & M3) HG HT f c h s env stk OK CO CV ER CL.
      cbn [okasg] in OK. cbn [tsized] in TS. cbn [eval_assign]. eapply reach_bind.
      * apply (M1 HG HT); subs.
      * intros v s1 env1 _ ER1. cbn [used fst snd]. eapply reach_star; [apply M2|].
        eapply store_ok; [exact M3|cov|apply id32_fits, TS|reflexivity|reflexivity|exact ER1].
    + ub H. ub B. okinv B. unfold emit_set_special in H.
      destruct ((id =? 0) || (id =? 1) || (100 <=? id)); [discriminate H|]. okinv H.
      pose proof (HR _ _ _ B0) as R1. pose proof (run_dup P cx u st1) as R2.
      eapply run_weaken; [exact (run_trans _ _ _ _ _ _ _ _ R1 (run_trans _ _ _ _ _ _ _ _ R2 (run_emit blk _ _)))|reflexivity|].
      intros G E t _ HG HT f c h s env stk OK. discriminate OK.
Qed.

Lemma assign_ok lhs r : asub lhs -> tsized lhs = true -> compiled r -> compiled (NAssign lhs r).
Proof.
  intros AS TS HR u st st' H. cbn [gen] in H.
  eapply run_weaken; [refine (gen_assign2_ok _ (constant r) _ _ _ AS TS HR _ _ _ _ H)|reflexivity|].
  - apply (constant_eval P cx).
  - cbv beta. intros G E t M HG HT f c h s env stk OK. apply (M HG HT).
    destruct lhs; exact OK.
Qed.

Lemma bindv_assoc (o : outcome (W:=W)) f g : bindv (bindv o f) g = bindv o (fun v s => bindv (f v s) g).
Proof. destruct o; reflexivity. Qed.

Lemma erel_ext (s s' : sst (W:=W)) env : (forall x, s_rho s x = s_rho s' x) -> erel s env -> erel s' env.
Proof. intros H R x o i Q. rewrite <- H. apply R, Q. Qed.

Lemma set_w_id (s : sst (W:=W)) : set_w (s_w s) s = s.
Proof. destruct s; reflexivity. Qed.

Lemma ok_asgop c u op lhs r : ok blk c u (NAssignOp op lhs r) = true ->
  is_var lhs = true /\ (if is_logic op then ok blk c true r else ok blk (pend c) true r) = true
  /\ (op = BLAnd -> exists x, lhs = NLVar x).
Proof.
  cbn [ok]. generalize (ok blk c true r), (ok blk (pend c) true r). intros a b.
  destruct op; cbn [is_logic]; destruct lhs; try discriminate; intros ->;
    (split; [reflexivity|]; split; [reflexivity|]; intros H; try discriminate H; eauto).
Qed.

Lemma assign_op_ok op lhs r : asub lhs -> tsized lhs = true -> compiled lhs -> compiled r ->
  compiled (NAssignOp op lhs r).
Proof.
  intros AS TS HL HR u st st' H. cbn [gen] in H.
  assert (HI : forall i, is_imm_i32 r = Some i -> in_i32 i = true /\
     forall f s, EV f r s = Val (integer i) s).
  { intros i Hi. apply imm_i32 in Hi as [A ->]. auto. }
  pose proof (gen_binop_ok P cx PO op _ _ _ _ _ _ (is_imm_i32 r) HL HR HI) as HB.
  eapply run_weaken; [refine (gen_assign2_ok _ false _ _ _ AS TS HB _ _ _ _ H); discriminate|reflexivity|].
  cbv beta. intros G E t M HG HT f c h s env stk OK CO CV ER CL.
  destruct (ok_asgop _ _ _ _ _ OK) as (VR & OKR & OKA).
  assert (OK' : okasg lhs false (okb op (fun c u => ok blk c u lhs) (fun c u => ok blk c u r)) c u = true).
  { unfold okasg, okb. destruct lhs; try discriminate VR; exact OKR. }
  specialize (M HG HT f c h s env stk OK' CO CV ER CL). cbv beta in M.
  assert (EQ : eval_assign P (EV f) setter lhs (eval_binop P op (EV f lhs) (EV f r)) s =
               bindv (eval_binop P op (EV f lhs) (EV f r) s) (fun v s => Val v (assign_var P lhs v s)))
    by (destruct lhs; try discriminate VR; reflexivity).
  rewrite EQ in M. clear EQ.
  set (old := match lhs with NLVar x => s_rho s x | NIVar x => p_geti P x (s_w s)
                           | NGVar x => p_getg P x (s_w s) | _ => nil end).
  assert (EL : EV f lhs s = Val old s) by (destruct lhs; try discriminate VR; reflexivity).
  unfold eval_binop in M. rewrite EL in M. cbn [bindv] in M.
  assert (EQ : EV f (NAssignOp op lhs r) s =
     op_assign P op old (EV f r) (fun v s => Val v (assign_var P lhs v s)) s).
  { cbn [eval]. unfold eval_assign_op.
    destruct lhs; try discriminate VR; reflexivity. }
  rewrite EQ. clear EQ.
  assert (SAME : (op = BLAnd /\ to_bool old = false) \/ (op = BLOr /\ to_bool old = true) ->
     reach G E c h f (mkvst (cur st) stk env (s_w s)) stk (Val old (assign_var P lhs old s))
       (fun v => used (cur st') u v stk) ->
     reach G E c h f (mkvst (cur st) stk env (s_w s)) stk (Val old s)
       (fun v => used (cur st') u v stk)).
  { intros CS (env' & S & ER'). exists env'.
    destruct lhs; try discriminate VR; rename id into x.
    - cbn in S |- *. split; [exact S|]. eapply erel_ext; [|exact ER']. intros y. cbn.
      destruct (Z.eqb_spec y x) as [->|]; reflexivity.
    - assert (TO : to_bool old = true).
      { destruct CS as [[-> _]|[_ ->]]; [|reflexivity]. destruct (OKA eq_refl) as [y EY]. discriminate EY. }
      assert (EW : p_setg P x old (s_w s) = s_w s) by (apply (ok_setg P PO); exact TO).
      cbn [assign_var] in S, ER'. rewrite EW in S, ER'.
      split; [exact S|]. exact ER'.
    - assert (TO : to_bool old = true).
      { destruct CS as [[-> _]|[_ ->]]; [|reflexivity]. destruct (OKA eq_refl) as [y EY]. discriminate EY. }
      assert (EW : p_seti P x old (s_w s) = s_w s) by (apply (ok_seti P PO); exact TO).
      cbn [assign_var] in S, ER'. rewrite EW in S, ER'.
      split; [exact S|]. exact ER'. }
  unfold op_assign.
  destruct op; try (rewrite bindv_assoc in M; exact M).
  - destruct (to_bool old) eqn:TB; [exact M|]. apply SAME; [auto|exact M].
  - destruct (to_bool old) eqn:TB; [|exact M]. apply SAME; [auto|exact M].
Qed.

(** ** Multiple assignment *)
Lemma gen_assign_run lhs st st' : asub lhs -> gen_assign cx (gen cx) lhs st = Ok st' ->
  run blk [] st st' (fun _ _ _ => True).
Proof.
  intros AS H.
  assert (L : forall x, emit_set_local cx x st = Ok st' -> run blk [] st st' (fun _ _ _ => True)).
  { intros x HX. unfold emit_set_local in HX.
    destruct (get_local_var cx x) as [[o i]|]; [|discriminate]. okinv HX. eapply run_T, run_emit. }
  destruct lhs; cbn [gen_assign] in H; try discriminate H.
  - exact (L _ H).
  - okinv H. eapply run_T, run_emit.
  - okinv H. eapply run_T, run_emit.
  - exact (L _ H).
  - ub H. okinv H. eapply run_T. exact (run_trans _ _ _ _ _ _ _ _ (AS _ _ _ B)
      (run_trans _ _ _ _ _ _ _ _ (run_emit _ _ _) (run_osend _ _ _ _ _))).
  - destruct AS as [A1 A2]. ub H. destruct (is_imm_u32 lhs2).
    + okinv H. eapply run_T. exact (run_trans _ _ _ _ _ _ _ _ (A1 _ _ _ B)
        (run_trans _ _ _ _ _ _ _ _ (run_emit _ _ _) (run_emit _ _ _))).
    + ub H. okinv H. eapply run_T. exact (run_trans _ _ _ _ _ _ _ _ (A1 _ _ _ B)
        (run_trans _ _ _ _ _ _ _ _ (A2 _ _ _ B0)
          (run_trans _ _ _ _ _ _ _ _ (run_emit _ _ _) (run_emit _ _ _)))).
  - destruct k; try discriminate H; try (okinv H; eapply run_T, run_emit).
    + okinv H. eapply run_T. exact (run_trans _ _ _ _ _ _ _ _ (run_emit _ _ _) (run_emit _ _ _)).
    + okinv H. eapply run_T. exact (run_trans _ _ _ _ _ _ _ _ (run_emit _ _ _) (run_emit _ _ _)).
    + destruct l as [|p l]; [discriminate H|]. ub H. okinv H. eapply run_T.
      exact (run_trans _ _ _ _ _ _ _ _ (AS _ _ _ B) (run_emit _ _ _)).
    + unfold emit_set_special in H.
      destruct ((id =? 0) || (id =? 1) || (100 <=? id)); [discriminate H|]. okinv H. eapply run_T, run_emit.
Qed.

Definition local_ids (l : list node) : list Z :=
  map (fun x => match target_id x with Some i => i | None => 0 end) l.
Definition all_local (l : list node) : bool :=
  forallb (fun x => match target_id x with Some _ => true | None => false end) l.

Definition same_rho (s s' : sst (W:=W)) : Prop :=
  (forall x, s_rho s x = s_rho s' x) /\ s_w s = s_w s'.

Lemma assign_var_same x v s s' : target_id x <> None -> same_rho s s' ->
  same_rho (assign_var P x v s) (assign_var P x v s').
Proof.
  intros T [A B]. destruct x; try (exfalso; apply T; reflexivity);
    (split; [|exact B]; intros y; cbn; destruct (y =? id); auto).
Qed.

Lemma assign_all_same l : forall vs s s', all_local l = true -> same_rho s s' ->
  same_rho (assign_all P l vs s) (assign_all P l vs s').
Proof.
  induction l as [|x l IH]; intros vs s s' AL SR; [exact SR|].
  cbn [assign_all]. unfold all_local in AL. cbn [forallb] in AL.
  apply andb_prop in AL as [A1 A2]. apply IH; [exact A2|].
  apply assign_var_same; [|exact SR]. destruct (target_id x); [discriminate|discriminate A1].
Qed.

Lemma same_refl s : same_rho s s.
Proof. split; reflexivity. Qed.
Lemma same_trans a b c : same_rho a b -> same_rho b c -> same_rho a c.
Proof. intros [A B] [C D]. split; [intros x; rewrite A; apply C|congruence]. Qed.

Lemma assign_comm x v l : forall vs s, all_local l = true ->
  existsb (Z.eqb x) (local_ids l) = false ->
  same_rho (assign_all P l vs (set_var x v s)) (set_var x v (assign_all P l vs s)).
Proof.
  induction l as [|z l IH]; intros vs s AL NI; [apply same_refl|].
  unfold all_local in AL. cbn [forallb] in AL. apply andb_prop in AL as [A1 A2].
  unfold local_ids in NI. cbn [map existsb] in NI. apply orb_false_iff in NI as [N1 N2].
  cbn [assign_all]. eapply same_trans; [|apply IH; assumption].
  apply assign_all_same; [exact A2|].
  destruct z; cbn in A1; try discriminate A1; cbn in N1;
    (split; [|reflexivity]; intros y; cbn; destruct (Z.eqb_spec y id), (Z.eqb_spec y x); auto; lia).
Qed.

Lemma assigns_ok l : Forall asub l -> forall st st', gen_assigns cx (gen cx) l st = Ok st' ->
  run blk [] st st' (fun G E t => all_local l = true -> distinct (local_ids l) = true ->
    forall vs stk s env, length vs = length l -> erel s env ->
    exists env', star G (mkvst (cur st) (rev vs ++ stk) env (s_w s))
                        (mkvst (cur st') stk env' (s_w (assign_all P l vs s)))
                 /\ erel (assign_all P l vs s) env').
Proof.
  induction 1 as [|x l AX AL IH]; intros st st' H; cbn [gen_assigns] in H.
  - okinv H. eapply run_weaken; [apply run_refl|reflexivity|].
    intros G E t _ _ _ vs stk s env LV ER. destruct vs; [|discriminate LV].
    exists env. split; [apply star_refl|exact ER].
  - ub H. fold (gen_assigns cx (gen cx)) in B. pose proof (IH _ _ B) as R1.
    destruct (target_id x) as [i|] eqn:TI.
    2: { eapply run_weaken; [exact (run_trans _ _ _ _ _ _ _ _ R1 (gen_assign_run _ _ _ AX H))|reflexivity|].
         intros G E t _ LC. unfold all_local in LC. cbn [forallb] in LC. rewrite TI in LC. discriminate LC. }
    assert (VT : var_target x = true) by (destruct x; try discriminate TI; reflexivity).
    assert (TS : tsized x = true) by (destruct x; try discriminate TI; reflexivity).
    pose proof (run_setvar _ _ _ VT TS H) as R2.
    eapply run_weaken; [exact (run_trans _ _ _ _ _ _ _ _ R1 R2)|reflexivity|].
    cbv beta. intros G E t (M1 & M2) LC DI vs stk s env LV ER.
    unfold all_local in LC. cbn [forallb] in LC. apply andb_prop in LC as [_ LC].
    unfold local_ids in DI. cbn [map distinct] in DI. apply andb_prop in DI as [NI DI].
    destruct vs as [|v vs]; [discriminate LV|]. injection LV as LV.
    destruct (M1 LC DI vs (v :: stk) s env LV ER) as (env1 & S1 & ER1).
    destruct (M2 v stk _ env1 ER1) as (env2 & S2 & ER2).
    exists env2. cbn [assign_all hd tl rev]. rewrite <- app_assoc. cbn [app].
    assert (SM : same_rho (assign_all P l vs (assign_var P x v s)) (assign_var P x v (assign_all P l vs s))).
    { destruct x; try discriminate TI; cbn [assign_var]; injection TI as ->;
        (apply assign_comm; [exact LC|]); rewrite <- (negb_involutive (existsb _ _));
        cbn in NI; unfold local_ids; rewrite NI; reflexivity. }
    destruct SM as [SR SW]. split.
    + eapply star_trans; [exact S1|]. rewrite SW. exact S2.
    + eapply erel_ext; [|exact ER2]. intros y. symmetry. apply SR.
Qed.

Lemma rev_repeat (x : value) n : rev (repeat x n) = repeat x n.
Proof.
  induction n as [|n IH]; [reflexivity|]. cbn [repeat rev]. rewrite IH. symmetry. apply repeat_cons.
Qed.

Definition pad (n : nat) (l : list value) : list value :=
  firstn n l ++ repeat nil (n - length l).

Lemma assign_all_pad l : forall vs s, assign_all P l vs s = assign_all P l (pad (length l) vs) s.
Proof.
  induction l as [|x l IH]; intros vs s; [reflexivity|]. cbn [assign_all length].
  destruct vs as [|v vs].
  - unfold pad. cbn. rewrite IH. unfold pad. cbn. rewrite firstn_nil, Nat.sub_0_r. reflexivity.
  - unfold pad. cbn. apply IH.
Qed.

Lemma pad_length n l : length (pad n l) = n.
Proof. unfold pad. rewrite app_length, repeat_length, firstn_length. lia. Qed.

Lemma run_nils n : forall st, run blk [] st (Nat.iter n (emit (I0 oPUSH_NIL)) st) (fun G E t =>
  forall stk env (w : W), star G (mkvst (cur st) stk env w)
    (mkvst (cur (Nat.iter n (emit (I0 oPUSH_NIL)) st)) (repeat nil n ++ stk) env w)).
Proof.
  induction n as [|n IH]; intros st; cbn [Nat.iter].
  - eapply run_weaken; [apply run_refl|reflexivity|]. intros. apply star_refl.
  - eapply run_weaken; [exact (run_trans _ _ _ _ _ _ _ _ (IH st) (run_emit _ _ _))|reflexivity|].
    cbv beta. intros G E t (M1 & M2) stk env w. eapply star_trans; [apply M1|].
    eapply step_next; [exact M2|exact I|reflexivity].
Qed.

Lemma run_iter n i : forall st, run blk [] st (Nat.iter n (emit i) st) (fun _ _ _ => True).
Proof.
  induction n as [|n IH]; intros st; cbn [Nat.iter]; [apply run_refl|].
  eapply run_T. exact (run_trans _ _ _ _ _ _ _ _ (IH st) (run_emit _ _ _)).
Qed.

Lemma gens_first_ok ll l : Forall compiled l -> forall i st st', gens_first (gen cx) ll i l st = Ok st' ->
  run blk [] st st' (fun G E t => good G -> tgt_ok E -> forall f c h s env stk acc, length acc = i ->
    ok_rhs (ok blk (pend c)) ll i l = true -> ctx_ok (in_loop st) (ens_top st) c E ->
    covered E h (cur st) (cur st') -> erel s env ->
    reachl P cx G E (pend c) h f (mkvst (cur st) (rev (firstn ll acc) ++ stk) env (s_w s)) []
      (evals (EV f) l acc s) (fun vs => (cur st', rev (firstn ll vs) ++ stk))).
Proof.
  induction 1 as [|x l HX HL IH]; intros i st st' H; cbn [gens_first] in H.
  - okinv H. eapply run_weaken; [apply run_refl|reflexivity|].
    intros G E t _ _ _ f c h s env stk acc _ _ _ _ ER. cbn. exists env. split; [apply star_refl|exact ER].
  - ub H. fold (gens_first (gen cx) ll) in H.
    pose proof (HX _ _ _ B) as R1. pose proof (IH _ _ _ H) as R2. facts R1. facts R2.
    eapply run_weaken; [exact (run_trans _ _ _ _ _ _ _ _ R1 R2)|reflexivity|]. cbv beta.
    intros G E t (M1 & M2) HG HT f c h s env stk acc LA OK CO CV ER.
    cbn [ok_rhs] in OK. fold (ok_rhs (ok blk (pend c)) ll) in OK. apply andb_prop in OK as [OK1 OK2].
    specialize (M1 HG HT f (pend c) h s env (rev (firstn ll acc) ++ stk) OK1 (ctx_pend _ _ _ _ CO)).
    specialize (M1 ltac:(cov) ER ltac:(discriminate)).
    cbn [evals].
    destruct (EV f x s) as [v s1|v s1|v s1|d v s1|v s1| |];
      try (exact (stops_any P cx _ _ _ _ _ _ _ _ _ M1)).
    destruct M1 as (env1 & S1 & ER1). cbn [used fst snd] in S1.
    eapply reachl_star; [exact S1|].
    replace (if (i <? ll)%nat then v :: rev (firstn ll acc) ++ stk else rev (firstn ll acc) ++ stk)
      with (rev (firstn ll (acc ++ [v])) ++ stk).
    + apply M2; subs || auto. rewrite app_length. cbn. lia.
    + rewrite firstn_app, LA. destruct (Nat.ltb_spec i ll).
      * replace (ll - i)%nat with (S (ll - i - 1)) by lia. cbn [firstn]. rewrite firstn_nil.
        rewrite rev_app_distr. reflexivity.
      * replace (ll - i)%nat with O by lia. cbn [firstn]. rewrite app_nil_r. reflexivity.
Qed.

Lemma massign_ok lhs rhs : Forall asub lhs -> Forall compiled rhs ->
  len_lt lhs (2 ^ 32) = true -> compiled (NMAssign lhs rhs).
Proof.
  intros AS HR LL u st st' H. cbn [gen] in H. unfold gen_massign in H.
  set (ll := length lhs) in *. set (lr := length rhs) in *.
  assert (CASE : (exists r, rhs = [r] /\ (st <- gen cx r true st ;;
            let st := if u then emit (I32 oDUP 1) st else st in
            gen_assigns cx (gen cx) lhs (emit (I32 oTAKE (Z.of_nat ll)) st)) = Ok st') \/
     (length rhs <> 1%nat /\ (if u then
        let len := Nat.max ll lr in
        st <- gens (gen cx) rhs st ;;
        let st := Nat.iter (len - lr) (emit (I0 oPUSH_NIL)) st in
        let st := emit (I32 oDUP (Z.of_nat len)) st in
        let st := Nat.iter (len - ll) (emit (I0 oPOP)) st in
        st <- gen_assigns cx (gen cx) lhs st ;;
        Ok (emit (I32 oCREATE_ARRAY (Z.of_nat len)) st)
      else
        st <- gens_first (gen cx) ll O rhs st ;;
        gen_assigns cx (gen cx) lhs (Nat.iter (ll - lr) (emit (I0 oPUSH_NIL)) st)) = Ok st')).
  { destruct rhs as [|r [|r2 rhs]]; [right|left; exists r; auto|right];
      (split; [cbn; lia|exact H]). }
  clear H. destruct CASE as [(r & -> & H)|[NE H]].
  - ub H. cbv zeta in H. inversion HR as [|? ? HR1 _]; subst.
    set (st1 := if u then emit (I32 oDUP 1) st0 else st0) in *.
    pose proof (HR1 _ _ _ B) as R1. pose proof (run_dup P cx u st0) as R2. fold st1 in R2.
    pose proof (run_emit blk (I32 oTAKE (Z.of_nat ll)) st1) as R3.
    pose proof (assigns_ok _ AS _ _ H) as R4. facts R1. facts R2. facts R3. facts R4.
    eapply run_weaken; [exact (run_trans _ _ _ _ _ _ _ _ R1 (run_trans _ _ _ _ _ _ _ _ R2
         (run_trans _ _ _ _ _ _ _ _ R3 R4)))|reflexivity|].
    cbv beta. intros G E t (M1 & M2 & M3 & M4) HG HT f c h s env stk OK CO CV ER CL.
    cbn [ok] in OK. apply andb_prop in OK as [OK OK3]. apply andb_prop in OK as [OK OK2].
    apply andb_prop in OK as [OK0 OK1].
    cbn [eval]. unfold eval_massign. eapply reach_bind.
    + apply (M1 HG HT); subs.
    + intros v s1 env1 _ ER1. cbn [used fst snd]. eapply reach_star; [apply M2|].
      set (vs := match p_elems P v (s_w s1) with Some l => l | None => [v] end).
      set (k := if u then v :: stk else stk).
      destruct (M4 OK1 OK2 (pad ll vs) k s1 env1 (pad_length _ _) ER1) as (env2 & S2 & ER2).
      eapply reach_next; [exact M3|cbn; unfold u32_ok; unfold len_lt in LL; fold ll in LL; lia| |].
      * cbn [exec step32 v_stk v_env v_w]. rewrite Nat2Z.id. reflexivity.
      * eapply reach_star with (st' := mkvst (cur st') k env2
           (s_w (assign_all P lhs (pad ll vs) s1))).
        -- eapply star_trans; [|exact S2].
           match goal with |- star _ (mkvst _ (rev ?a ++ _) _ _) _ => replace a with (pad ll vs) end;
             [apply star_refl|].
           unfold pad, vs. destruct (p_elems P v (s_w s1)) as [l|].
           ++ rewrite firstn_length. f_equal. f_equal. lia.
           ++ assert (NZ : ll <> O) by (unfold ll; destruct lhs; [discriminate OK0|discriminate]).
              destruct ll as [|n]; [congruence|]. cbn. rewrite firstn_nil. reflexivity.
        -- rewrite (assign_all_pad lhs vs). apply reach_val; [reflexivity|reflexivity|exact ER2].
  - destruct u.
    + cbv zeta in H. ub H. ub H. okinv H.
      eapply run_weaken.
      * exact (run_trans _ _ _ _ _ _ _ _ (gens_ok P cx _ HR _ _ B)
           (run_trans _ _ _ _ _ _ _ _ (run_iter _ _ _)
           (run_trans _ _ _ _ _ _ _ _ (run_emit _ _ _)
           (run_trans _ _ _ _ _ _ _ _ (run_iter _ _ _)
           (run_trans _ _ _ _ _ _ _ _ (assigns_ok _ AS _ _ B0) (run_emit _ _ _)))))).
      * reflexivity.
      * intros G E t _ _ _ f c h s env stk OK. cbn [ok] in OK.
        destruct rhs as [|x [|y rhs]]; [|exfalso; apply NE; reflexivity|];
          apply andb_prop in OK as [_ OK]; discriminate OK.
    + ub H.
      destruct rhs as [|x rhs].
      { cbn in B. okinv B.
        pose proof (run_nils (ll - lr) st) as R1. pose proof (assigns_ok _ AS _ _ H) as R2.
        eapply run_weaken; [exact (run_trans _ _ _ _ _ _ _ _ R1 R2)|reflexivity|].
        cbv beta. intros G E t (M1 & M2) HG HT f c h s env stk OK CO CV ER CL.
        cbn [ok] in OK. apply andb_prop in OK as [OK OK3]. apply andb_prop in OK as [OK OK2].
        apply andb_prop in OK as [OK0 OK1].
        cbn [eval eval_massign evals bindl].
        destruct (M2 OK1 OK2 (pad ll []) stk s env (pad_length _ _) ER) as (env2 & S2 & ER2).
        eapply reach_star; [apply M1|].
        replace (repeat nil (ll - lr)) with (rev (pad ll [])).
        2: { unfold pad. rewrite firstn_nil. apply (rev_repeat nil). }
        eapply reach_star; [exact S2|].
        rewrite (assign_all_pad lhs []). apply reach_val; [reflexivity|reflexivity|exact ER2]. }
      cbn [gens_first] in B. fold (gens_first (gen cx) ll) in B. ub B.
      inversion HR as [|? ? HX HL]; subst.
      pose proof (HX _ _ _ B0) as R1. pose proof (gens_first_ok ll _ HL _ _ _ B) as R2.
      pose proof (run_nils (ll - lr) st0) as R3. pose proof (assigns_ok _ AS _ _ H) as R4.
      facts R1. facts R2. facts R3. facts R4.
      eapply run_weaken; [exact (run_trans _ _ _ _ _ _ _ _ R1 (run_trans _ _ _ _ _ _ _ _ R2
         (run_trans _ _ _ _ _ _ _ _ R3 R4)))|reflexivity|].
      cbv beta. intros G E t (M1 & M2 & M3 & M4) HG HT f c h s env stk OK CO CV ER CL.
      cbn [ok] in OK. apply andb_prop in OK as [OK OK3]. apply andb_prop in OK as [OK OK2].
      apply andb_prop in OK as [OK0 OK1].
      destruct rhs as [|y rhs]; [exfalso; apply NE; reflexivity|].
      apply andb_prop in OK3 as [OK3 OK4]. cbn [negb andb] in OK3.
      specialize (M1 HG HT f c h s env stk OK3 ltac:(ctx) ltac:(cov) ER CL). cbv beta in M1.
      cbn [eval eval_massign]. eapply reachl_bind with (K1 := fun vs => (cur st0, rev (firstn ll vs) ++ stk)).
      * change (evals (EV f) (x :: y :: rhs) [] s) with
          (match EV f x s with Val v s => evals (EV f) (y :: rhs) [v] s | o => LStop o end).
        destruct (EV f x s) as [v s1|v s1|v s1|d v s1|v s1| |]; try exact M1.
        destruct M1 as (env1 & S1 & ER1). cbn [used fst snd] in S1.
        eapply reachl_star; [exact S1|]. eapply reachl_pend.
        replace (if (0 <? ll)%nat then v :: stk else stk) with (rev (firstn ll [v]) ++ stk)
          by (clear; destruct ll as [|[|]]; reflexivity).
        apply (M2 HG HT); first [assumption|ctx|cov|reflexivity].
      * intros vs s1 env1 EQ ER1. cbn [fst snd]. apply evals_length in EQ. cbn [length] in EQ.
        eapply reach_star; [apply M3|].
        destruct (M4 OK1 OK2 (pad ll vs) stk s1 env1 (pad_length _ _) ER1) as (env2 & S2 & ER2).
        replace (repeat nil (ll - lr) ++ rev (firstn ll vs) ++ stk) with (rev (pad ll vs) ++ stk).
        -- eapply reach_star; [exact S2|].
           rewrite (assign_all_pad lhs vs). apply reach_val; [reflexivity|reflexivity|exact ER2].
        -- unfold pad. rewrite rev_app_distr, (rev_repeat nil), <- app_assoc.
           replace (length vs) with lr by (unfold lr; cbn [length]; lia). reflexivity.
Qed.

(** ** Sequences *)
Lemma seq_ok l : Forall compiled l -> compiled (NSeq l).
Proof.
  assert (K : Forall compiled l -> forall u st st', comp_stmt (gen cx) u l st = Ok st' ->
    run blk [] st st' (fun G E t => good G -> tgt_ok E ->
      sem (in_loop st) (ens_top st) (fun c => ok_seq (ok blk c) u l) (fun f => eval_seq (EV f) l)
         (cur st) (cur st') (used (cur st') u) G E)).
  { induction 1 as [|x l HX HL IH]; intros u st st' H.
    - cbn in H. okinv H. destruct u.
      + eapply run_weaken; [apply run_emit|reflexivity|]. cbv beta.
        intros G E t M HG HT f c h s env stk OK CO CV ER CL. cbn [eval_seq].
        eapply reach_next; [exact M|exact I|reflexivity|].
        apply reach_val; [reflexivity|reflexivity|exact ER].
      + eapply run_weaken; [apply run_refl|reflexivity|].
        intros G E t M HG HT f c h s env stk OK CO CV ER CL.
        apply reach_val; [reflexivity|reflexivity|exact ER].
    - destruct l as [|y l].
      + exact (HX _ _ _ H).
      + cbn [comp_stmt] in H. fold (comp_stmt (gen cx) u) in H. ub H.
        change ((fix comp_stmt (l : list node) (st : cg) {struct l} : res cg :=
          match l with
          | [] => Ok (if u then emit (I0 oPUSH_NIL) st else st)
          | x :: r => match r with
                | [] => gen cx x u st
                | _ => st <- gen cx x false st ;; comp_stmt r st
                end
          end) (y :: l) st0) with (comp_stmt (gen cx) u (y :: l) st0) in H.
        pose proof (HX _ _ _ B) as R1. pose proof (IH _ _ _ H) as R2. facts R1. facts R2.
        eapply run_weaken; [exact (run_trans _ _ _ _ _ _ _ _ R1 R2)|reflexivity|]. cbv beta.
        intros G E t (M1 & M2) HG HT f c h s env stk OK CO CV ER CL.
        change (ok_seq (ok blk c) u (x :: y :: l)) with (ok blk c false x && ok_seq (ok blk c) u (y :: l)) in OK.
        apply andb_prop in OK as [OK1 OK2].
        change (eval_seq (EV f) (x :: y :: l) s) with
          (bindv (EV f x s) (fun _ s => eval_seq (EV f) (y :: l) s)).
        eapply reach_bind.
        * apply (M1 HG HT); subs.
        * intros v s1 env1 _ ER1. cbn [used fst snd]. apply (M2 HG HT); subs. }
  intros HL u st st' H. exact (K HL u st st' H).
Qed.
End Compile.
