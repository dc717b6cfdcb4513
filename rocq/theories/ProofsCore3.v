(** The code generated for a tree does what the tree means. *)
From Coq Require Import ZArith List Bool Lia Permutation.
From Verif Require Import Base ModelValue ModelInst ProofsInst ModelCodegen ModelVM
  SpecCore ProofsValue ProofsCore1 ProofsCore2.
Import ListNotations.
Open Scope Z_scope.

Ltac ub H :=
  match type of H with
  | rbind ?r _ = Ok _ =>
      let x := fresh "st" in let E := fresh "B" in
      destruct r as [x| |] eqn:E; cbn [rbind] in H; [|discriminate H|discriminate H]
  end.

Ltac okinv H :=
  match type of H with
  | Ok ?a = Ok ?b => let E := fresh in assert (E : b = a) by congruence; clear H; subst b
  end.

Ltac facts R :=
  let C := fresh "C" in let T := fresh "T" in let T' := fresh "T" in
  pose proof (run_cur _ _ _ _ _ R) as C;
  pose proof (run_top _ _ _ _ _ R) as [T T'].

Ltac ctx :=
  try apply ctx_pend;
  match goal with
  | CO : ctx_ok _ _ ?c ?E |- ctx_ok _ _ ?c ?E =>
      let A := fresh in let B := fresh in
      destruct CO as [A B]; constructor; [rewrite <- A|rewrite <- B]; congruence
  end.

Lemma imm_u32 n k : is_imm_u32 n = Some k ->
  id32 k = true /\ n = NInt k.
Proof.
  unfold is_imm_u32, id32. destruct n; try discriminate.
  destruct ((0 <=? i) && (i <=? 2 ^ 32 - 1)) eqn:E; [|discriminate].
  intros H. injection H as <-. split; [lia|reflexivity].
Qed.
Lemma imm_i32 n k : is_imm_i32 n = Some k -> in_i32 k = true /\ n = NInt k.
Proof.
  unfold is_imm_i32, in_i32. destruct n; try discriminate.
  destruct ((- 2 ^ 31 <=? i) && (i <=? 2 ^ 31 - 1)) eqn:E; [|discriminate].
  intros H. injection H as <-. split; [lia|reflexivity].
Qed.
Lemma id32_fits k : id32 k = true -> u32_ok k.
Proof. unfold id32, u32_ok. lia. Qed.

Ltac cov := eapply covered_sub; [eassumption|lia|lia].
Ltac subs := first [assumption|ctx|cov|discriminate].

Section Compile.
Context {W : Type}.
Variable P : prims W.
Variable cx : sctx.
Hypothesis PO : prims_ok P.
Hypothesis SC : scoped cx.

Notation setter := (sc_setter cx).
Notation std := (sc_stderr cx).
Notation blk := (blk cx).
Notation reach := (reach P cx).
Notation erel := (erel cx).
Notation star := (star P).
Notation compiled := (compiled P cx setter std).
Notation cgen := (cgen P cx).
Notation sem := (sem P cx).

Definition popped (u : bool) (st : cg) : cg := if u then st else emit (I0 oPOP) st.

Lemma run_popped u st : run blk [] st (popped u st) (fun G E t =>
  forall (v : value) stk env w, star G (mkvst (cur st) (v :: stk) env w)
    (mkvst (cur (popped u st)) (if u then v :: stk else stk) env w)).
Proof.
  destruct u; cbn [popped].
  - eapply run_weaken; [apply run_refl|reflexivity|]. intros. apply star_refl.
  - eapply run_weaken; [apply run_emit|reflexivity|]. intros G E t A v stk env w.
    eapply step_next; [exact A|exact I|reflexivity].
Qed.

(** a value that is pushed and dropped when not used *)
Lemma run_dup (u : bool) st : run blk [] st (if u then emit (I32 oDUP 1) st else st) (fun G E t =>
  forall (v : value) stk env w, star G (mkvst (cur st) (v :: stk) env w)
    (mkvst (cur (if u then emit (I32 oDUP 1) st else st)) (v :: (if u then v :: stk else stk)) env w)).
Proof.
  destruct u.
  - eapply run_weaken; [apply run_emit|reflexivity|]. intros G E t A v stk env w.
    eapply step_next; [exact A|cbn; unfold u32_ok; lia|reflexivity].
  - eapply run_weaken; [apply run_refl|reflexivity|]. intros. apply star_refl.
Qed.

(** ** Operators *)
Definition is_logic (op : binop) : bool :=
  match op with BLAnd | BLOr => true | _ => false end.

Lemma apply_bin_exec op G E h pos nxt f c l r env s t stk K :
  is_logic op = false ->
  inst_at G E pos (I0 (bin_inst op)) nxt -> covered E h pos nxt -> erel s env ->
  (forall v, K v = (nxt, v :: t)) ->
  reach G E c h f (mkvst pos (r :: l :: t) env (s_w s)) stk (apply_bin P op l r s) K.
Proof.
  intros NL A C R HK.
  assert (B : forall b, bin_of_op0 (bin_inst op) = Some b -> b = op ->
    apply_bin P op l r s = prim (p_bin P op l r (s_w s)) s ->
    reach G E c h f (mkvst pos (r :: l :: t) env (s_w s)) stk (apply_bin P op l r s) K).
  { intros b HB Eb ->. rewrite <- (bindv_Val (prim _ s)).
    eapply reach_prim; [exact A|exact C|exact I| |exact R|].
    - cbn [exec]. unfold step0. rewrite HB. subst b.
      destruct op; try discriminate NL; try discriminate HB; reflexivity.
    - intros v w _ R'. apply reach_val; [apply HK|reflexivity|exact R']. }
  assert (D : forall b, cmp_of_op0 (bin_inst op) = Some b ->
    apply_bin P op l r s = match p_cmp P b l r (s_w s) with
               | POk b w => Val (vbool b) (set_w w s)
               | PRaise e w => Exn e (set_w w s)
               end ->
    reach G E c h f (mkvst pos (r :: l :: t) env (s_w s)) stk (apply_bin P op l r s) K).
  { intros b HB ->.
    assert (X : exec P G (I0 (bin_inst op)) pos nxt (mkvst pos (r :: l :: t) env (s_w s)) =
       match p_cmp P b l r (s_w s) with
          | POk b w => SNext (mkvst nxt (vbool b :: t) env w)
          | PRaise e w => SRaise e nxt t env w
          end).
    { cbn [exec]. unfold step0. cbn [v_stk v_w v_env]. rewrite HB.
      destruct op; try discriminate NL; try discriminate HB; reflexivity. }
    destruct (p_cmp P b l r (s_w s)) as [x w|x w].
    - eapply reach_next; [exact A|exact I|exact X|].
      apply reach_val; [apply HK|reflexivity|apply erel_w, R].
    - apply stops_reach. pose proof (inst_lt _ _ _ _ _ A).
      eapply step_raise; [exact A|exact C|exact I|exact X|lia|apply erel_w, R]. }
  destruct op; try discriminate NL;
    first [eapply B; reflexivity | eapply D; reflexivity].
Qed.

Lemma run_when (b : bool) i st : run blk [] st (if b then emit i st else st) (fun G E t =>
  if b then inst_at G E (cur st) i (cur (emit i st)) else True).
Proof. destruct b; [apply run_emit|apply run_refl]. Qed.

Definition okb (op : binop) (okl okr : fctx -> bool -> bool) (c : fctx) (u : bool) : bool :=
  okl c true && (if is_logic op then okr c u else okr (pend c) true).

Lemma gen_binop_ok op okl okr evl evr gl gr imm :
  cgen okl evl gl -> cgen okr evr gr ->
  (forall i, imm = Some i -> in_i32 i = true /\ forall f s, evr f s = Val (integer i) s) ->
  cgen (okb op okl okr) (fun f => eval_binop P op (evl f) (evr f)) (gen_binop op gl gr imm).
Proof.
  intros HL HR HI u st st' H.
  destruct (is_logic op) eqn:LG.
  - (* && and || *)
    assert (H' : (st <- gl true st ;;
      let st := if u then emit (I32 oDUP 1) st else st in
      let st := emit (IJ (match op with BLAnd => oJMP_F | _ => oJMP_T end) 0) st in
      let src := cur st in
      let st := if u then emit (I0 oPOP) st else st in
      st <- gr u st ;;
      wcur src st) = Ok st') by (destruct op; try discriminate LG; exact H).
    clear H. rename H' into H. ub H. ub H.
    set (st2 := if u then emit (I32 oDUP 1) st0 else st0) in *.
    set (o := match op with BLAnd => oJMP_F | _ => oJMP_T end) in *.
    set (st3 := emit (IJ o 0) st2) in *.
    set (st4 := if u then emit (I0 oPOP) st3 else st3) in *.
    pose proof (HL _ _ _ B) as R1. pose proof (run_dup u st0) as R2. fold st2 in R2.
    pose proof (run_jump blk (JJ o) st2) as R3. cbn [jinst] in R3. fold st3 in R3. cbv zeta in R3.
    pose proof (run_when u (I0 oPOP) st3) as R4. fold st4 in R4.
    pose proof (HR _ _ _ B0) as R5.
    facts R1. facts R2. facts R3. facts R4. facts R5.
    assert (R := run_len _ _ _ _ _ (run_trans _ _ _ _ _ _ _ _ R1 (run_trans _ _ _ _ _ _ _ _ R2
              (run_trans _ _ _ _ _ _ _ _ R3 (run_trans _ _ _ _ _ _ _ _ R4 R5))))).
    destruct (run_patch blk [] (cur st3) (cur st1) st st1 st' _ R H) as (R' & CU & _).
    eapply run_weaken; [exact R'|reflexivity|]. cbv beta.
    intros G E t (LEN & M1 & M2 & M3 & M4 & M5) HG HT f c h s env stk OK CO CV ER CL.
    rewrite upd_same in M3. rewrite CU in *.
    unfold okb in OK. rewrite LG in OK. apply andb_prop in OK as [OK1 OK2].
    pose proof (g_short _ HG).
    assert (FJ : fits (IJ o (cur st1 - cur st3))).
    { cbn. unfold i32_ok. pose proof (cur_nonneg st3). pose proof (cur_nonneg st1). lia. }
    unfold eval_binop. eapply reach_bind.
    + apply (M1 HG HT); [exact OK1|ctx|eapply covered_sub; [exact CV|lia|lia]|exact ER|exact CL].
    + intros v s1 env1 _ ER1. cbn [used fst snd].
      eapply reach_star; [apply M2|].
      assert (JT : jmp_cond (cur st3) (cur st1 - cur st3) true = cur st3) by reflexivity.
      assert (JF : jmp_cond (cur st3) (cur st1 - cur st3) false = cur st1) by (unfold jmp_cond; lia).
      assert (GO : reach G E c h f (mkvst (cur st3) (if u then v :: stk else stk) env1 (s_w s1)) stk
                     (evr f s1) (fun v => used (cur st1) u v stk)).
      { eapply reach_star with (st' := mkvst (cur st4) stk env1 (s_w s1)).
        - destruct u.
          + eapply step_next; [exact M4|exact I|reflexivity].
          + apply star_refl.
        - apply (M5 HG HT); [exact OK2|ctx|eapply covered_sub; [exact CV|lia|lia]|exact ER1|exact CL]. }
      assert (STAY : reach G E c h f (mkvst (cur st1) (if u then v :: stk else stk) env1 (s_w s1)) stk
                     (Val v s1) (fun v => used (cur st1) u v stk)).
      { apply reach_val; [reflexivity|reflexivity|exact ER1]. }
      destruct op; try discriminate LG;
        (eapply reach_next; [exact M3|exact FJ|reflexivity|]);
        cbn [v_stk]; destruct (to_bool v); cbn [negb]; rewrite ?JT, ?JF; assumption.
  - (* the other operators *)
    assert (H' : (st <- match bini_inst op, imm with
            | Some oi, Some i => st <- gl true st ;; Ok (emit (II oi i) st)
            | _, _ => st <- gl true st ;;
                      st <- gr true st ;;
                      Ok (emit (I0 (bin_inst op)) st)
            end ;; Ok (popped u st)) = Ok st') by (destruct op; try discriminate LG; exact H).
    clear H. rename H' into H. ub H. okinv H.
    assert (CASE : (exists oi i, bini_inst op = Some oi /\ imm = Some i /\
                      (st <- gl true st ;; Ok (emit (II oi i) st)) = Ok st0) \/
                   (st <- gl true st ;; st <- gr true st ;; Ok (emit (I0 (bin_inst op)) st)) = Ok st0).
    { destruct (bini_inst op) as [oi|]; [|auto]. destruct imm as [i|]; [|auto].
      left. exists oi, i. auto. }
    clear B. destruct CASE as [(oi & i & Eo & Ei & H)|H].
    + (* immediate operand *)
      ub H. okinv H. destruct (HI _ Ei) as [HI1 HI2].
      pose proof (HL _ _ _ B) as R1. pose proof (run_emit blk (II oi i) st1) as R2.
      pose proof (run_popped u (emit (II oi i) st1)) as R3.
      facts R1. facts R2. facts R3.
      eapply run_weaken; [exact (run_trans _ _ _ _ _ _ _ _ R1 (run_trans _ _ _ _ _ _ _ _ R2 R3))|reflexivity|].
      cbv beta.
      intros G E t (M1 & M2 & M3) HG HT f c h s env stk OK CO CV ER CL.
      unfold okb in OK. rewrite LG in OK. apply andb_prop in OK as [OK1 OK2].
      unfold eval_binop. eapply reach_bind.
      * apply (M1 HG HT); [exact OK1|ctx|eapply covered_sub; [exact CV|lia|lia]|exact ER|exact CL].
      * intros v s1 env1 _ ER1. cbn [used fst snd].
        replace (match op with
          | BLAnd => if to_bool v then evr f s1 else Val v s1
          | BLOr => if to_bool v then Val v s1 else evr f s1
          | _ => bindv (evr f s1) (fun w s => apply_bin P op v w s) end)
          with (apply_bin P op v (integer i) s1)
          by (rewrite HI2; destruct op; try discriminate LG; reflexivity).
        assert (FI : fits (II oi i)).
        { cbn. unfold i32_ok. unfold in_i32 in HI1. lia. }
        assert (AF : forall v0, reach G E c h f (mkvst (cur (emit (II oi i) st1)) (v0 :: stk) env1 (s_w s1)) stk
                     (Val v0 s1) (fun v => used (cur (popped u (emit (II oi i) st1))) u v stk)).
        { intros v0. eapply reach_star; [apply M3|].
          apply reach_val; [reflexivity|reflexivity|exact ER1]. }
        assert (CV2 : covered E h (cur st1) (cur (emit (II oi i) st1)))
          by (eapply covered_sub; [exact CV|lia|lia]).
        pose proof (inst_lt _ _ _ _ _ M2) as LT.
        assert (D : forall b, cmp_of_opi oi = Some b ->
          apply_bin P op v (integer i) s1 = match p_cmp P b v (integer i) (s_w s1) with
               | POk b w => Val (vbool b) (set_w w s1)
               | PRaise e w => Exn e (set_w w s1)
               end ->
          reach G E c h f (mkvst (cur st1) (v :: stk) env1 (s_w s1)) stk
            (apply_bin P op v (integer i) s1)
            (fun v => used (cur (popped u (emit (II oi i) st1))) u v stk)).
        { intros b HB ->.
          assert (X : exec P G (II oi i) (cur st1) (cur (emit (II oi i) st1))
                        (mkvst (cur st1) (v :: stk) env1 (s_w s1)) =
             match p_cmp P b v (integer i) (s_w s1) with
                | POk b w => SNext (mkvst (cur (emit (II oi i) st1)) (vbool b :: stk) env1 w)
                | PRaise e w => SRaise e (cur (emit (II oi i) st1)) stk env1 w
                end).
          { rewrite <- (ok_cmpi P PO) by exact HI1.
            destruct oi; try discriminate HB; injection HB as <-; reflexivity. }
          destruct (p_cmp P b v (integer i) (s_w s1)) as [x w|x w].
          - eapply reach_next; [exact M2|exact FI|exact X|].
            eapply reach_star; [apply M3|].
            apply reach_val; [reflexivity|reflexivity|apply erel_w, ER1].
          - apply stops_reach.
            eapply step_raise; [exact M2|exact CV2|exact FI|exact X|lia|apply erel_w, ER1]. }
        assert (B2 : forall r, exec P G (II oi i) (cur st1) (cur (emit (II oi i) st1))
                        (mkvst (cur st1) (v :: stk) env1 (s_w s1)) =
                     push (cur (emit (II oi i) st1)) stk env1 r ->
                     apply_bin P op v (integer i) s1 = prim r s1 ->
          reach G E c h f (mkvst (cur st1) (v :: stk) env1 (s_w s1)) stk
            (apply_bin P op v (integer i) s1)
            (fun v => used (cur (popped u (emit (II oi i) st1))) u v stk)).
        { intros r X ->. rewrite <- (bindv_Val (prim r s1)).
          eapply reach_prim; [exact M2|exact CV2|exact FI|exact X|exact ER1|].
          intros v0 w _ R'. eapply reach_star; [apply M3|].
          apply reach_val; [reflexivity|reflexivity|exact R']. }
        destruct op; cbn in Eo; try discriminate Eo; injection Eo as <-;
          try (eapply D; reflexivity).
        -- eapply B2; [reflexivity|]. cbn. rewrite (ok_addi P PO) by exact HI1. reflexivity.
        -- eapply B2; [reflexivity|]. cbn. rewrite (ok_subi P PO) by exact HI1. reflexivity.
    + ub H. ub H. okinv H.
      pose proof (HL _ _ _ B) as R1. pose proof (HR _ _ _ B0) as R2.
      pose proof (run_emit blk (I0 (bin_inst op)) st2) as R3.
      pose proof (run_popped u (emit (I0 (bin_inst op)) st2)) as R4.
      facts R1. facts R2. facts R3. facts R4.
      eapply run_weaken; [exact (run_trans _ _ _ _ _ _ _ _ R1 (run_trans _ _ _ _ _ _ _ _ R2
          (run_trans _ _ _ _ _ _ _ _ R3 R4)))|reflexivity|].
      cbv beta.
      intros G E t (M1 & M2 & M3 & M4) HG HT f c h s env stk OK CO CV ER CL.
      unfold okb in OK. rewrite LG in OK. apply andb_prop in OK as [OK1 OK2].
      unfold eval_binop. eapply reach_bind.
      * apply (M1 HG HT); [exact OK1|ctx|eapply covered_sub; [exact CV|lia|lia]|exact ER|exact CL].
      * intros v s1 env1 _ ER1. cbn [used fst snd].
        replace (match op with
          | BLAnd => if to_bool v then evr f s1 else Val v s1
          | BLOr => if to_bool v then Val v s1 else evr f s1
          | _ => bindv (evr f s1) (fun w s => apply_bin P op v w s) end)
          with (bindv (evr f s1) (fun w s => apply_bin P op v w s))
          by (destruct op; try discriminate LG; reflexivity).
        eapply reach_bind_pend.
        -- apply (M2 HG HT); [exact OK2|ctx|eapply covered_sub; [exact CV|lia|lia]|exact ER1|discriminate].
        -- intros w s2 env2 _ ER2. cbn [used fst snd].
           rewrite <- (bindv_Val (apply_bin P op v w s2)).
           eapply reach_bind.
           ++ eapply apply_bin_exec; [exact LG|exact M3|eapply covered_sub; [exact CV|lia|lia]|exact ER2|].
              intros v0. instantiate (1 := fun v0 => (_, v0 :: stk)). reflexivity.
           ++ intros v0 s3 env3 _ ER3. cbn [fst snd]. eapply reach_star; [apply M4|].
              apply reach_val; [reflexivity|reflexivity|exact ER3].
Qed.

(** ** Literals and variables *)
Lemma run_lit v st st' : gen_lit v st = Ok st' ->
  (forall w, v = Imm w -> 0 <= w < 2 ^ 64) -> (forall i, v <> Heap (HObj i)) ->
  run blk [] st st' (fun G E t => forall stk env w,
    star G (mkvst (cur st) stk env w) (mkvst (cur st') (v :: stk) env w)).
Proof.
  unfold gen_lit. intros H RG NO. destruct v as [w|o]; cbn [packed] in H.
  - okinv H. eapply run_weaken; [apply run_emit|reflexivity|].
    intros G E t A stk env w0. eapply step_next; [exact A|exact (RG w eq_refl)|reflexivity].
  - destruct (run_const blk _ _ _ H) as [R L].
    eapply run_weaken; [exact R|reflexivity|]. cbv beta. intros G E t [A N] stk env w0.
    pose proof (zlength_nonneg (consts st)).
    eapply step_next; [exact A|cbn; unfold u32_ok; lia|].
    cbn [exec step32 v_stk v_env v_w]. unfold zlength. rewrite Nat2Z.id, N.
    rewrite (ok_dup P PO) by exact NO. reflexivity.
Qed.

(** a tree whose evaluation only pushes a value [v] *)
Lemma cgen_const okc ev g (vf : sst -> value) :
  (forall f s, ev f s = Val (vf s) s) ->
  (forall (u : bool) st st', g u st = Ok st' ->
     run blk [] st st' (fun G E t => good G -> forall c stk env s, okc c u = true -> erel s env ->
       star G (mkvst (cur st) stk env (s_w s))
              (mkvst (cur st') (if u then vf s :: stk else stk) env (s_w s)))) ->
  cgen okc ev g.
Proof.
  intros HE HG u st st' H. eapply run_weaken; [exact (HG _ _ _ H)|reflexivity|].
  cbv beta. intros G E t M HG' HT f c h s env stk OK CO CV ER CL. rewrite HE.
  eapply reach_star; [eapply M; eassumption|]. apply reach_val; [reflexivity|reflexivity|exact ER].
Qed.

Lemma imm_range r v : rv_ok r -> v = pack r -> forall w, v = Imm w -> 0 <= w < 2 ^ 64.
Proof. intros H -> w E. eapply pack_imm_range; eassumption. Qed.

Lemma gen_val_lit v st : (exists w, v = Imm w) -> gen_val v st = gen_lit v st.
Proof. intros [w ->]. reflexivity. Qed.

Lemma literal_run v (u : bool) st st' :
  (if u then gen_lit v st else Ok st) = Ok st' ->
  (forall w, v = Imm w -> 0 <= w < 2 ^ 64) -> (forall i, v <> Heap (HObj i)) ->
  run blk [] st st' (fun G E t => good G -> forall (c : fctx) stk env s, true = true -> erel s env ->
       star G (mkvst (cur st) stk env (s_w s))
              (mkvst (cur st') (if u then v :: stk else stk) env (s_w s))).
Proof.
  intros H RG NO. destruct u.
  - eapply run_weaken; [exact (run_lit _ _ _ H RG NO)|reflexivity|]. cbv beta. auto.
  - okinv H. eapply run_weaken; [apply run_refl|reflexivity|]. intros. apply star_refl.
Qed.

Lemma push_run i v (u : bool) st :
  (forall G pos nxt stk env w, exec P G i pos nxt (mkvst pos stk env w)
                             = SNext (mkvst nxt (v :: stk) env w)) -> fits i ->
  run blk [] st (if u then emit i st else st)
    (fun G E t => good G -> forall (c : fctx) stk env s, true = true -> erel s env ->
       star G (mkvst (cur st) stk env (s_w s))
              (mkvst (cur (if u then emit i st else st)) (if u then v :: stk else stk) env (s_w s))).
Proof.
  intros X F. destruct u.
  - eapply run_weaken; [apply run_emit|reflexivity|]. cbv beta.
    intros G E t A _ _ stk env s _ _. eapply step_next; [exact A|exact F|apply X].
  - eapply run_weaken; [apply run_refl|reflexivity|]. intros. apply star_refl.
Qed.

Lemma nil_ok : compiled NNil.
Proof.
  apply (cgen_const _ _ _ (fun _ => nil)); [reflexivity|].
  intros u st st' H. cbn [gen] in H. okinv H. apply (push_run (I0 oPUSH_NIL)); [reflexivity|exact I].
Qed.
Lemma self_ok : compiled NSelf.
Proof.
  apply (cgen_const _ _ _ (fun _ => p_self P)); [reflexivity|].
  intros u st st' H. cbn [gen] in H. okinv H. apply (push_run (I0 oPUSH_SELF)); [reflexivity|exact I].
Qed.
Lemma bool_ok b : compiled (NBool b).
Proof.
  apply (cgen_const _ _ _ (fun _ => vbool b)); [reflexivity|].
  intros u st st' H. cbn [gen] in H. apply literal_run.
  - destruct u; [|exact H]. rewrite <- gen_val_lit; [exact H|]. destruct b; eexists; reflexivity.
  - intros w E. apply (pack_imm_range (if b then RTrue else RFalse)); [destruct b; exact I|].
    rewrite <- E. destruct b; reflexivity.
  - intros x. destruct b; discriminate.
Qed.
Lemma int_ok i : in_i64 i = true -> compiled (NInt i).
Proof.
  intros S. apply (cgen_const _ _ _ (fun _ => integer i)); [reflexivity|].
  intros u st st' H. cbn [gen] in H. apply literal_run; [exact H| |].
  2: { intros x. unfold integer, fixnum. destruct (is_i63 i); discriminate. }
  intros w E. destruct (integer_cases i) as [[I1 I2]|[I1 I2]]; [unfold in_i64 in S; lia| |].
  - apply (pack_imm_range (RInteger i)); [exact I1|exact E].
  - rewrite I2 in E. discriminate.
Qed.
Lemma float_ok x : in_u64 x = true -> compiled (NFloat x).
Proof.
  intros S. apply (cgen_const _ _ _ (fun _ => float x)); [reflexivity|].
  intros u st st' H. cbn [gen] in H. apply literal_run; [exact H| |].
  2: { intros j. unfold float. destruct (f64_is_zero x); [discriminate|].
       cbv zeta. destruct (_ =? 4); discriminate. }
  intros w E. apply (float_immediate x w); [unfold in_u64 in S; lia|exact E].
Qed.
Lemma sym_ok x : id32 x = true -> compiled (NSym x).
Proof.
  intros S. apply (cgen_const _ _ _ (fun _ => symbol x)); [reflexivity|].
  intros u st st' H. cbn [gen] in H. apply literal_run.
  - destruct u; [|exact H]. rewrite <- gen_val_lit; [exact H|]. eexists; reflexivity.
  - intros w E. apply (pack_imm_range (RSymbol x)); [|exact E]. unfold id32 in S. cbn. lia.
  - discriminate.
Qed.
Lemma big_ok i : compiled (NBig i).
Proof.
  apply (cgen_const _ _ _ (fun _ => bignum i)); [reflexivity|].
  intros u st st' H. cbn [gen] in H. destruct (run_const blk _ _ _ H) as [R L].
  eapply run_weaken; [exact R|reflexivity|]. cbv beta. intros G E t [A N] _ c stk env s OK _.
  cbn [ok] in OK. subst u.
  pose proof (zlength_nonneg (consts st)).
  eapply step_next; [exact A|cbn; unfold u32_ok; lia|].
  cbn [exec step32 v_stk v_env v_w]. unfold zlength. rewrite Nat2Z.id, N.
  rewrite (ok_dup P PO) by (intros x; unfold bignum, integer, fixnum; destruct (in_i64 i), (is_i63 i); discriminate). reflexivity.
Qed.

(** a literal that needs an object *)
Lemma obj_ok v : compiled (NLit v).
Proof.
  intros u st st' H. cbn [gen] in H. destruct u.
  2: { okinv H. eapply run_weaken; [apply run_refl|reflexivity|].
       intros G E t _ _ _ f c h s env stk OK. discriminate OK. }
  destruct (run_const blk _ _ _ H) as [R L].
  eapply run_weaken; [exact R|reflexivity|]. cbv beta.
  intros G E t [A N] HG HT f c h s env stk OK CO CV ER CL. cbn [eval].
  pose proof (zlength_nonneg (consts st)). destruct (p_dup P v (s_w s)) as [x w] eqn:D.
  eapply reach_next; [exact A|cbn; unfold u32_ok; lia| |].
  - cbn [exec step32 v_stk v_env v_w]. unfold zlength. rewrite Nat2Z.id, N, D. reflexivity.
  - apply reach_val; [reflexivity|reflexivity|apply erel_w, ER].
Qed.

(** a tree that pushes a value, which is popped if not used *)
Lemma push_pop_run i (vf : sst -> value) u st :
  fits i ->
  (forall G pos nxt stk env s, erel s env ->
     exec P G i pos nxt (mkvst pos stk env (s_w s)) = SNext (mkvst nxt (vf s :: stk) env (s_w s))) ->
  run blk [] st (popped u (emit i st))
    (fun G E t => good G -> forall (c : fctx) stk env s, true = true -> erel s env ->
       star G (mkvst (cur st) stk env (s_w s))
              (mkvst (cur (popped u (emit i st))) (if u then vf s :: stk else stk) env (s_w s))).
Proof.
  intros F X. eapply run_weaken;
    [exact (run_trans _ _ _ _ _ _ _ _ (run_emit blk i st) (run_popped u (emit i st)))|reflexivity|].
  cbv beta. intros G E t [M1 M2] _ _ stk env s _ ER.
  eapply star_trans; [|apply M2]. eapply step_next; [exact M1|exact F|apply X, ER].
Qed.

Lemma gvar_ok x : id32 x = true -> compiled (NGVar x).
Proof.
  intros S. apply (cgen_const _ _ _ (fun s => p_getg P x (s_w s))); [reflexivity|].
  intros u st st' H. cbn [gen] in H. okinv H. apply push_pop_run.
  - unfold id32 in S. cbn. unfold u32_ok. lia.
  - reflexivity.
Qed.
Lemma ivar_ok x : id32 x = true -> compiled (NIVar x).
Proof.
  intros S. apply (cgen_const _ _ _ (fun s => p_geti P x (s_w s))); [reflexivity|].
  intros u st st' H. cbn [gen] in H. okinv H. apply push_pop_run.
  - unfold id32 in S. cbn. unfold u32_ok. lia.
  - reflexivity.
Qed.
Lemma lvar_ok x : compiled (NLVar x).
Proof.
  apply (cgen_const _ _ _ (fun s => s_rho s x)); [reflexivity|].
  intros u st st' H. cbn [gen] in H. ub H. okinv H.
  unfold emit_get_local in B. destruct (get_local_var cx x) as [[o i]|] eqn:L; [|discriminate].
  okinv B. destruct SC as [_ SB]. destruct (SB _ _ _ L).
  fold (popped u (emit (if o =? 0 then I32 oGET_LOCAL i else I2 oGET_DYNLOCAL i o) st)).
  apply push_pop_run.
  - destruct (o =? 0); cbn; unfold u32_ok; lia.
  - intros G pos nxt stk env s ER. pose proof (ER _ _ _ L) as Q.
    destruct (Z.eqb_spec o 0) as [->|]; cbn [exec step32 v_env]; rewrite Q; reflexivity.
Qed.

(** ** Sends *)
Lemma popn_ok vs stk n : n = Z.of_nat (length vs) -> popn n (rev vs ++ stk) = Some (vs, stk).
Proof.
  intros ->. unfold popn. rewrite Nat2Z.id, app_length, rev_length.
  destruct (Nat.ltb_spec (length vs + length stk) (length vs)); [lia|].
  rewrite firstn_app, skipn_app, rev_length, Nat.sub_diag.
  cbn [firstn skipn]. rewrite app_nil_r, firstn_all2, skipn_all2 by (rewrite rev_length; lia).
  rewrite rev_involutive. reflexivity.
Qed.

Lemma osend_exec u id vs rv t G E h f c pos nxt ic n env s stk :
  inst_at G E pos (ISendO u id n None ic) nxt -> covered E h pos nxt -> erel s env ->
  n = Z.of_nat (length vs) -> n < 2 ^ 16 -> id32 id = true -> 0 <= ic < 2 ^ 32 ->
  reach G E c h f (mkvst pos (rev vs ++ rv :: t) env (s_w s)) stk
    (prim (p_send P id rv vs (s_w s)) s) (fun v => used nxt u v t).
Proof.
  intros A C ER EN LN LI IC.
  assert (F : fits (ISendO u id n None ic)).
  { cbn. unfold u32_ok, u16_ok, id32 in *. repeat split; lia. }
  assert (X : exec P G (ISendO u id n None ic) pos nxt (mkvst pos (rev vs ++ rv :: t) env (s_w s))
     = match p_send P id rv vs (s_w s) with
              | POk v w => SNext (mkvst nxt (if u then v :: t else t) env w)
              | PRaise e w => SRaise e nxt t env w
              end).
  { cbn [exec v_stk v_env v_w]. rewrite popn_ok by exact EN. reflexivity. }
  pose proof (inst_lt _ _ _ _ _ A).
  destruct (p_send P id rv vs (s_w s)) as [v w|e w]; cbn [prim].
  - eapply reach_next; [exact A|exact F|exact X|].
    apply reach_val; [reflexivity|reflexivity|apply erel_w, ER].
  - apply stops_reach. eapply step_raise; [exact A|exact C|exact F|exact X|lia|apply erel_w, ER].
Qed.

Lemma ident_ok x : id32 x = true -> compiled (NIdent x).
Proof.
  intros S u st st' H. cbn [gen] in H. okinv H.
  pose proof (run_emit blk (I0 oPUSH_SELF) st) as R1.
  pose proof (run_osend blk u x 0 (emit (I0 oPUSH_SELF) st)) as R2.
  facts R1. facts R2.
  eapply run_weaken; [exact (run_trans _ _ _ _ _ _ _ _ R1 R2)|reflexivity|]. cbv beta.
  intros G E t (M1 & M2 & M3) HG HT f c h s env stk OK CO CV ER CL. cbn [eval].
  eapply reach_next; [exact M1|exact I|reflexivity|].
  apply (osend_exec u x [] (p_self P) stk) with (ic := caches (emit (I0 oPUSH_SELF) st)) (n := 0);
    try assumption; try lia; try reflexivity.
  eapply covered_sub; [exact CV|lia|lia].
Qed.

(** ** Lists of operands *)
Lemma evals_length ev l : forall acc s vs s', evals (W:=W) ev l acc s = LVals vs s' ->
  length vs = (length acc + length l)%nat.
Proof.
  induction l as [|x l IH]; intros acc s vs s' H; cbn in H.
  - injection H as <- _. cbn. lia.
  - destruct (ev x s); try discriminate. apply IH in H. rewrite H, app_length. cbn. lia.
Qed.

Notation EV f := (eval P setter std f).

Lemma gens_ok l : Forall compiled l -> forall st st', gens (gen cx) l st = Ok st' ->
  run blk [] st st' (fun G E t => good G -> tgt_ok E -> forall f c h s env stk acc,
    forallb (ok blk (pend c) true) l = true -> ctx_ok (in_loop st) (ens_top st) c E ->
    covered E h (cur st) (cur st') -> erel s env ->
    reachl P cx G E (pend c) h f (mkvst (cur st) (rev acc ++ stk) env (s_w s)) []
      (evals (EV f) l acc s) (fun vs => (cur st', rev vs ++ stk))).
Proof.
  induction 1 as [|x l HX HL IH]; intros st st' H; cbn [gens] in H.
  - okinv H. eapply run_weaken; [apply run_refl|reflexivity|].
    intros G E t _ _ _ f c h s env stk acc _ _ _ ER. cbn. exists env. split; [apply star_refl|exact ER].
  - ub H. pose proof (HX _ _ _ B) as R1. pose proof (IH _ _ H) as R2. facts R1. facts R2.
    eapply run_weaken; [exact (run_trans _ _ _ _ _ _ _ _ R1 R2)|reflexivity|]. cbv beta.
    intros G E t (M1 & M2) HG HT f c h s env stk acc OK CO CV ER.
    cbn [forallb] in OK. apply andb_prop in OK as [OK1 OK2].
    specialize (M1 HG HT f (pend c) h s env (rev acc ++ stk) OK1 (ctx_pend _ _ _ _ CO)).
    specialize (M1 ltac:(eapply covered_sub; [exact CV|lia|lia]) ER ltac:(discriminate)).
    cbn [evals].
    destruct (EV f x s) as [v s1|v s1|v s1|d v s1|v s1| |];
      try (exact (stops_any P cx _ _ _ _ _ _ _ _ _ M1)).
    destruct M1 as (env1 & S1 & ER1). cbn [used fst snd] in S1.
    eapply reachl_star; [exact S1|].
    change (v :: rev acc ++ stk) with ((v :: rev acc) ++ stk).
    replace (v :: rev acc) with (rev (acc ++ [v])) by (rewrite rev_app_distr; reflexivity).
    apply M2; auto; [ctx|eapply covered_sub; [exact CV|lia|lia]].
Qed.


Lemma args_ok l : Forall compiled l -> forall st st', gens (gen cx) l st = Ok st' ->
  run blk [] st st' (fun G E t => good G -> tgt_ok E -> forall f c h s env stk,
    ok_args (fun c => ok blk c true) c l = true -> ctx_ok (in_loop st) (ens_top st) c E ->
    covered E h (cur st) (cur st') -> erel s env -> (f_clean c = true -> stk = []) ->
    reachl P cx G E c h f (mkvst (cur st) stk env (s_w s)) stk
      (evals (EV f) l [] s) (fun vs => (cur st', rev vs ++ stk))).
Proof.
  destruct 1 as [|x l HX HL]; intros st st' H; cbn [gens] in H.
  - okinv H. eapply run_weaken; [apply run_refl|reflexivity|].
    intros G E t _ _ _ f c h s env stk _ _ _ ER _. cbn. exists env. split; [apply star_refl|exact ER].
  - ub H. pose proof (HX _ _ _ B) as R1. pose proof (gens_ok _ HL _ _ H) as R2. facts R1. facts R2.
    eapply run_weaken; [exact (run_trans _ _ _ _ _ _ _ _ R1 R2)|reflexivity|]. cbv beta.
    intros G E t (M1 & M2) HG HT f c h s env stk OK CO CV ER CL.
    cbn [ok_args] in OK. apply andb_prop in OK as [OK1 OK2].
    specialize (M1 HG HT f c h s env stk OK1 CO ltac:(cov) ER CL).
    cbn [evals].
    destruct (EV f x s) as [v s1|v s1|v s1|d v s1|v s1| |]; try exact M1.
    destruct M1 as (env1 & S1 & ER1). cbn [used fst snd] in S1.
    eapply reachl_star; [exact S1|].
    change (v :: stk) with (rev [v] ++ stk). eapply reachl_pend.
    apply (M2 HG HT); subs.
Qed.

Lemma send_ok r x args : id32 x = true -> len_lt args (2 ^ 16) = true ->
  compiled r -> Forall compiled args -> compiled (NSend r x args false).
Proof.
  intros S LA HR HA u st st' H. cbn [gen] in H. ub H. ub H. okinv H.
  pose proof (HR _ _ _ B) as R1. pose proof (gens_ok _ HA _ _ B0) as R2.
  pose proof (run_osend blk u x (Z.of_nat (length args)) st1) as R3.
  facts R1. facts R2. facts R3.
  eapply run_weaken; [exact (run_trans _ _ _ _ _ _ _ _ R1 (run_trans _ _ _ _ _ _ _ _ R2 R3))|reflexivity|].
  cbv beta. intros G E t (M1 & M2 & M3 & M4) HG HT f c h s env stk OK CO CV ER CL.
  cbn [ok negb andb orb] in OK. apply andb_prop in OK as [OK1 OK2].
  cbn [eval andb]. eapply reach_bind.
  - apply (M1 HG HT); subs.
  - intros rv s1 env1 _ ER1. cbn [used fst snd].
    eapply reachl_bind.
    + eapply reachl_pend. change (rv :: stk) with (rev [] ++ rv :: stk).
      apply (M2 HG HT); subs.
    + intros vs s2 env2 EQ ER2. cbn [fst snd]. apply evals_length in EQ. cbn in EQ.
      eapply reach_K; [|eapply (osend_exec u x vs rv stk); try eassumption].
      * reflexivity.
      * cov.
      * rewrite EQ. reflexivity.
      * unfold len_lt in LA. lia.
Qed.

Lemma index_ok b i : compiled b -> compiled i -> compiled (NIndex b i).
Proof.
  intros HB HI u st st' H. cbn [gen] in H. ub H.
  pose proof (HB _ _ _ B) as R1. facts R1.
  destruct (is_imm_u32 i) as [k|] eqn:IM.
  - okinv H. apply imm_u32 in IM as [IK ->].
    change (if u then ?a else emit (I0 oPOP) ?a) with (popped u a).
    set (st1 := emit (I32 oGET_IDX_I k) st0).
    pose proof (run_emit blk (I32 oGET_IDX_I k) st0) as R2. fold st1 in R2.
    pose proof (run_popped u st1) as R3. facts R2. facts R3.
    eapply run_weaken; [exact (run_trans _ _ _ _ _ _ _ _ R1 (run_trans _ _ _ _ _ _ _ _ R2 R3))|reflexivity|].
    cbv beta. intros G E t (M1 & M2 & M3) HG HT f c h s env stk OK CO CV ER CL.
    cbn [ok] in OK. apply andb_prop in OK as [OK1 _].
    cbn [eval]. eapply reach_bind.
    + apply (M1 HG HT); subs.
    + intros bv s1 env1 _ ER1. cbn [used fst snd bindv].
      rewrite <- (bindv_Val (prim _ s1)).
      eapply reach_prim; [exact M2|cov|apply id32_fits, IK| |exact ER1|].
      * cbn [exec step32 v_stk v_env v_w]. rewrite (ok_indexi P PO) by exact IK. reflexivity.
      * intros v w _ ER2. eapply reach_star; [apply M3|].
        apply reach_val; [reflexivity|reflexivity|exact ER2].
  - ub H. okinv H.
    change (if u then ?a else emit (I0 oPOP) ?a) with (popped u a).
    set (st2 := emit (I0 oGET_INDEX) st1).
    pose proof (HI _ _ _ B0) as R2.
    pose proof (run_emit blk (I0 oGET_INDEX) st1) as R3. fold st2 in R3.
    pose proof (run_popped u st2) as R4. facts R2. facts R3. facts R4.
    eapply run_weaken; [exact (run_trans _ _ _ _ _ _ _ _ R1 (run_trans _ _ _ _ _ _ _ _ R2
       (run_trans _ _ _ _ _ _ _ _ R3 R4)))|reflexivity|].
    cbv beta. intros G E t (M1 & M2 & M3 & M4) HG HT f c h s env stk OK CO CV ER CL.
    cbn [ok] in OK. apply andb_prop in OK as [OK1 OK2].
    cbn [eval]. eapply reach_bind.
    + apply (M1 HG HT); subs.
    + intros bv s1 env1 _ ER1. cbn [used fst snd].
      eapply reach_bind_pend.
      * apply (M2 HG HT); subs.
      * intros iv s2 env2 _ ER2. cbn [used fst snd].
        rewrite <- (bindv_Val (prim _ s2)).
        eapply reach_prim; [exact M3|cov|exact I|reflexivity|exact ER2|].
        intros v w _ ER3. eapply reach_star; [apply M4|].
        apply reach_val; [reflexivity|reflexivity|exact ER3].
Qed.

Lemma array_ok l : len_lt l (2 ^ 32) = true -> Forall compiled l -> compiled (NArray l).
Proof.
  intros LL HL u st st' H.
  assert (Q : u = false /\ l = [] \/
    (st0 <- gens (gen cx) l st ;;
     Ok (popped u (emit (I32 oCREATE_ARRAY (Z.of_nat (length l))) st0))) = Ok st').
  { destruct l; [|right; exact H]. destruct u; [right; exact H|left; auto]. }
  destruct Q as [[-> ->]|Q].
  { cbn [gen] in H. okinv H. eapply run_weaken; [apply run_refl|reflexivity|].
    intros G E t _ _ _ f c h s env stk OK. discriminate OK. }
  clear H. rename Q into H. ub H. okinv H.
  set (i := I32 oCREATE_ARRAY (Z.of_nat (length l))). set (st1 := emit i st0).
  pose proof (args_ok _ HL _ _ B) as R1. pose proof (run_emit blk i st0) as R2. fold st1 in R2.
  pose proof (run_popped u st1) as R3. facts R1. facts R2. facts R3.
  eapply run_weaken; [exact (run_trans _ _ _ _ _ _ _ _ R1 (run_trans _ _ _ _ _ _ _ _ R2 R3))|reflexivity|].
  cbv beta. intros G E t (M1 & M2 & M3) HG HT f c h s env stk OK CO CV ER CL.
  cbn [ok] in OK. apply andb_prop in OK as [_ OK]. cbn [eval]. eapply reachl_bind.
  - apply (M1 HG HT); subs.
  - intros vs s1 env1 EQ ER1. cbn [fst snd]. apply evals_length in EQ. cbn in EQ.
    destruct (p_array P vs (s_w s1)) as [v w] eqn:EA.
    eapply reach_next; [exact M2| | |].
    + cbn. unfold u32_ok. unfold len_lt in LL. lia.
    + cbn [exec i step32 v_stk v_env v_w]. rewrite popn_ok by (rewrite EQ; reflexivity).
      rewrite EA. reflexivity.
    + eapply reach_star; [apply M3|]. apply reach_val; [reflexivity|reflexivity|apply erel_w, ER1].
Qed.

(** ** Operations *)
Definition bop_fits (k : bop) (n : nat) : Prop :=
  match k with
  | bHash => Z.even (Z.of_nat n) = true
  | bYield | bConcat => True
  | bToS | bRegexp | bSplat => n = 1%nat
  | bScope x => id32 x = true /\ n = 1%nat
  | bConst x y => id32 x = true /\ id32 y = true /\ n = 0%nat
  | bTop x | bCvar x | bSvar x => id32 x = true /\ n = 0%nat
  | bCall x m kw b _ hspl _ => id32 x = true /\ 0 <= m < 2 ^ 16 /\
      Z.of_nat n = 1 + m + (if kw then 1 else 0) + (if hspl then 1 else 0) + (if b then 1 else 0)
  | bSuper => (1 <= n)%nat /\ Z.of_nat n <= 2 ^ 16
  end.
Definition op_cache (k : bop) (ic : Z) : Prop :=
  match k with bCall _ _ _ _ _ _ _ => 0 <= ic < 2 ^ 32 | _ => True end.
Lemma run_op k n st : run blk [] st (emit_op k n st) (fun G E t =>
  inst_at G E (cur st) (bop_inst k n (caches st)) (cur (emit_op k n st)) /\ op_cache k (caches st)).
Proof.
  destruct k; try (eapply run_weaken; [apply run_emit|reflexivity|]; intros G E t A; split; [exact A|exact I]).
  unfold emit_op. cbn [op_cache]. set (i := bop_inst _ _ _).
  exists [It i], []. split; [|split; [reflexivity|]].
  - pose proof (ext_emit blk st i (It i) eq_refl eq_refl eq_refl) as [].
    constructor; auto. cbn. lia.
  - intros G E t L. split; [|destruct L; cbn in *; lia].
    eapply layout_inst; [exact L|reflexivity|apply cur_emit].
Qed.
Lemma argflag_bits kw b d hs sp :
  Z.testbit (argflag kw b d hs sp) 0 = kw /\ Z.testbit (argflag kw b d hs sp) 1 = b /\
  Z.testbit (argflag kw b d hs sp) 2 = d /\ Z.testbit (argflag kw b d hs sp) 3 = hs /\
  Z.testbit (argflag kw b d hs sp) 4 = sp.
Proof. destruct kw, b, d, hs, sp; repeat split. Qed.
Lemma bop_fit k n ic : bop_fits k n -> Z.of_nat n < 2 ^ 32 -> op_cache k ic ->
  fits (bop_inst k (Z.of_nat n) ic).
Proof.
  destruct k; cbn [bop_fits bop_inst]; intros H L C; cbn [fits op_cache blk_ok] in *;
    unfold u32_ok, u16_ok, id32 in *; try exact I; try lia.
  repeat split; try lia; destruct kw, amp, del, hspl, spl; cbn; lia.
Qed.

Lemma bop_exec k vs G pos nxt stk env w ic : bop_fits k (length vs) ->
  exec P G (bop_inst k (Z.of_nat (length vs)) ic) pos nxt (mkvst pos (rev vs ++ stk) env w)
  = push nxt stk env (match k with bTop x => p_top P x w | _ => p_op P k vs w end).
Proof.
  assert (A0 : forall n k, n = Z.of_nat (length vs) ->
    opn P k n nxt (mkvst pos (rev vs ++ stk) env w) = push nxt stk env (p_op P k vs w)).
  { intros n k0 E. unfold opn. cbn [v_stk v_env v_w]. rewrite popn_ok by exact E. reflexivity. }
  assert (A1 : forall k, length vs = 1%nat ->
    op1 P k nxt (mkvst pos (rev vs ++ stk) env w) = push nxt stk env (p_op P k vs w)).
  { intros k0 E. destruct vs as [|x [|? ?]]; try discriminate E. reflexivity. }
  destruct k; cbn [bop_fits bop_inst]; intros H; cbn [exec step32 step0 bin_of_op0 cmp_of_op0].
  - apply A0. rewrite Z.even_spec in H. destruct H as [m ->].
    rewrite (Z.mul_comm 2 m), Z.div_mul by lia. lia.
  - apply A0. reflexivity.
  - unfold step0. cbn [bin_of_op0 cmp_of_op0]. apply A1, H.
  - apply A0. reflexivity.
  - unfold step0. cbn [bin_of_op0 cmp_of_op0]. apply A1, H.
  - unfold step0. cbn [bin_of_op0 cmp_of_op0]. apply A1, H.
  - destruct H as (_ & _ & H). apply A0. rewrite H. reflexivity.
  - destruct H as (_ & H). destruct vs; [|discriminate H]. reflexivity.
  - destruct H as (_ & H). apply A1, H.
  - destruct H as (_ & H). apply A0. rewrite H. reflexivity.
  - destruct H as (_ & H). apply A0. rewrite H. reflexivity.
  - destruct H as (_ & _ & H). destruct (argflag_bits kw amp del hspl spl) as (-> & -> & -> & -> & ->).
    apply A0. lia.
  - apply A0. lia.
Qed.

Lemma op_ok k l : len_lt l (2 ^ 32) = true -> bop_fits k (length l) -> Forall compiled l ->
  compiled (NOp k l).
Proof.
  intros LL BF HL u st st' H.
  assert (Q : u = false /\ k = bHash /\ l = [] \/
    (st0 <- gens (gen cx) l st ;;
     Ok (popped u (emit_op k (Z.of_nat (length l)) st0))) = Ok st').
  { destruct k; try (right; exact H). destruct l; [|right; exact H].
    destruct u; [right; exact H|left; auto]. }
  destruct Q as [(-> & -> & ->)|Q].
  { cbn [gen] in H. okinv H. eapply run_weaken; [apply run_refl|reflexivity|].
    intros G E t _ _ _ f c h s env stk OK. discriminate OK. }
  clear H. rename Q into H. ub H. okinv H.
  set (st1 := emit_op k (Z.of_nat (length l)) st0).
  pose proof (args_ok _ HL _ _ B) as R1. pose proof (run_op k (Z.of_nat (length l)) st0) as R2. fold st1 in R2.
  pose proof (run_popped u st1) as R3. facts R1. facts R2. facts R3.
  eapply run_weaken; [exact (run_trans _ _ _ _ _ _ _ _ R1 (run_trans _ _ _ _ _ _ _ _ R2 R3))|reflexivity|].
  cbv beta. intros G E t (M1 & (M2 & MC) & M3) HG HT f c h s env stk OK CO CV ER CL.
  cbn [ok] in OK. apply andb_prop in OK as [_ OK]. cbn [eval]. eapply reachl_bind.
  - apply (M1 HG HT); subs.
  - intros vs s1 env1 EQ ER1. cbn [fst snd]. apply evals_length in EQ. cbn in EQ.
    rewrite <- (bindv_Val (prim _ s1)).
    eapply reach_prim; [exact M2|cov| | |exact ER1|].
    + apply bop_fit; [exact BF|unfold len_lt in LL; lia|exact MC].
    + rewrite <- EQ. apply bop_exec. rewrite EQ. exact BF.
    + intros v w _ ER2. eapply reach_star; [apply M3|].
      apply reach_val; [reflexivity|reflexivity|exact ER2].
Qed.

(** ** Ranges *)
Lemma constant_eval n : constant n = true -> exists v, forall f s, EV f n s = Val v s.
Proof. destruct n; try discriminate; intros _; eexists; reflexivity. Qed.
Lemma still_eval n f s : still n = true -> exists v, EV f n s = Val v s.
Proof.
  unfold still. intros H. destruct (constant n) eqn:C.
  - destruct (constant_eval n C) as [v V]. exists v. apply V.
  - destruct n; try discriminate H; eexists; reflexivity.
Qed.

Lemma range_ok a b ex : compiled a -> compiled b -> compiled (NRange a b ex).
Proof.
  intros HA HB u st st' H. cbn [gen] in H. ub H. ub H. ub H. okinv H.
  change (if u then ?a else emit (I0 oPOP) ?a) with (popped u a).
  set (st3 := emit (I0 oCREATE_RANGE) st2).
  assert (R0 : run blk [] st st0 (fun G E t => forall stk env w,
     star G (mkvst (cur st) stk env w) (mkvst (cur st0) (vbool ex :: stk) env w))).
  { apply run_lit.
    - rewrite <- gen_val_lit; [exact B|]. destruct ex; eexists; reflexivity.
    - intros w E. apply (pack_imm_range (if ex then RTrue else RFalse)); [destruct ex; exact I|].
      rewrite <- E. destruct ex; reflexivity.
    - intros x. destruct ex; discriminate. }
  pose proof (HB _ _ _ B0) as R1. pose proof (HA _ _ _ B1) as R2.
  pose proof (run_emit blk (I0 oCREATE_RANGE) st2) as R3. fold st3 in R3.
  pose proof (run_popped u st3) as R4. facts R0. facts R1. facts R2. facts R3. facts R4.
  eapply run_weaken; [exact (run_trans _ _ _ _ _ _ _ _ R0 (run_trans _ _ _ _ _ _ _ _ R1
    (run_trans _ _ _ _ _ _ _ _ R2 (run_trans _ _ _ _ _ _ _ _ R3 R4))))|reflexivity|].
  cbv beta. intros G E t (M0 & M1 & M2 & M3 & M4) HG HT f c h s env stk OK CO CV ER CL.
  cbn [ok] in OK. apply andb_prop in OK as [OK OKB]. apply andb_prop in OK as [OK OKA].
  cbn [eval].
  eapply reach_star; [apply M0|].
  assert (EA : forall s env stk, erel s env -> reach G E (pend c) h f
    (mkvst (cur st1) stk env (s_w s)) stk (EV f a s) (fun v => (cur st2, v :: stk))).
  { intros s0 env0 stk0 ER0. apply (M2 HG HT); subs. }
  assert (EB : forall s env stk, erel s env -> reach G E (pend c) h f
    (mkvst (cur st0) stk env (s_w s)) stk (EV f b s) (fun v => (cur st1, v :: stk))).
  { intros s0 env0 stk0 ER0. apply (M1 HG HT); subs. }
  assert (FIN : forall s env av bv, erel s env -> reach G E c h f
    (mkvst (cur st2) (av :: bv :: vbool ex :: stk) env (s_w s)) stk
    (prim (p_range P av bv ex (s_w s)) s) (fun v => used (cur (popped u st3)) u v stk)).
  { intros s0 env0 av bv ER0. rewrite <- (bindv_Val (prim _ s0)).
    eapply reach_prim; [exact M3|cov|exact I| |exact ER0|].
    - cbn [exec]. unfold step0. cbn [bin_of_op0 cmp_of_op0 v_stk v_env v_w].
      replace (to_bool (vbool ex)) with ex by (destruct ex; reflexivity). reflexivity.
    - intros v w _ ER2. eapply reach_star; [apply M4|].
      apply reach_val; [reflexivity|reflexivity|exact ER2]. }
  apply orb_prop in OK as [OK|OK]; [apply orb_prop in OK as [OK|OK]|].
  - destruct (constant_eval _ OK) as [va VA]. rewrite VA. cbn [bindv].
    eapply reach_bind_pend; [apply EB, ER|]. intros bv s1 env1 _ ER1. cbn [fst snd].
    specialize (EA _ _ (bv :: vbool ex :: stk) ER1). rewrite VA in EA.
    destruct EA as (env2 & S2 & ER2). eapply reach_star; [exact S2|]. apply FIN, ER2.
  - destruct (constant_eval _ OK) as [vb VB].
    specialize (EB _ _ (vbool ex :: stk) ER). rewrite VB in EB.
    destruct EB as (env2 & S2 & ER2). eapply reach_star; [exact S2|]. cbn [fst snd].
    eapply reach_bind_pend; [apply EA, ER2|]. intros av s1 env1 _ ER1. cbn [fst snd].
    rewrite VB. cbn [bindv]. apply FIN, ER1.
  - apply andb_prop in OK as [SA SB].
    destruct (still_eval a f s SA) as [va VA]. destruct (still_eval b f s SB) as [vb VB].
    rewrite VA. cbn [bindv]. rewrite VB. cbn [bindv].
    specialize (EB _ _ (vbool ex :: stk) ER). rewrite VB in EB.
    destruct EB as (env2 & S2 & ER2). eapply reach_star; [exact S2|]. cbn [fst snd].
    specialize (EA _ _ (vb :: vbool ex :: stk) ER2). rewrite VA in EA.
    destruct EA as (env3 & S3 & ER3). eapply reach_star; [exact S3|]. apply FIN, ER3.
Qed.

Lemma un_ok op e : compiled e -> compiled (NUn op e).
Proof.
  intros HE u st st' H. cbn [gen] in H. ub H. okinv H.
  pose proof (HE _ _ _ B) as R1. facts R1.
  destruct op.
  4: { eapply run_weaken; [exact (run_trans _ _ _ _ _ _ _ _ R1 (run_popped u st0))|reflexivity|].
       intros G E t _ _ _ f c h s env stk OK. discriminate OK. }
  - change (if u then ?a else emit (I0 oPOP) ?a) with (popped u a).
    set (st1 := emit (I0 oBNOT) st0).
    pose proof (run_emit blk (I0 oBNOT) st0) as R2. fold st1 in R2.
    pose proof (run_popped u st1) as R3. facts R2. facts R3.
    eapply run_weaken; [exact (run_trans _ _ _ _ _ _ _ _ R1 (run_trans _ _ _ _ _ _ _ _ R2 R3))|reflexivity|].
    cbv beta. intros G E t (M1 & M2 & M3) HG HT f c h s env stk OK CO CV ER CL.
    cbn [ok] in OK. cbn [eval]. eapply reach_bind.
    + apply (M1 HG HT); subs.
    + intros v s1 env1 _ ER1. cbn [used fst snd].
      rewrite <- (bindv_Val (prim _ s1)).
      eapply reach_prim; [exact M2|cov|exact I|reflexivity|exact ER1|].
      intros v0 w _ ER3. eapply reach_star; [apply M3|].
      apply reach_val; [reflexivity|reflexivity|exact ER3].
  - change (if u then ?a else emit (I0 oPOP) ?a) with (popped u a).
    set (st1 := emit (I0 oNOT) st0).
    pose proof (run_emit blk (I0 oNOT) st0) as R2. fold st1 in R2.
    pose proof (run_popped u st1) as R3. facts R2. facts R3.
    eapply run_weaken; [exact (run_trans _ _ _ _ _ _ _ _ R1 (run_trans _ _ _ _ _ _ _ _ R2 R3))|reflexivity|].
    cbv beta. intros G E t (M1 & M2 & M3) HG HT f c h s env stk OK CO CV ER CL.
    cbn [ok] in OK. cbn [eval]. eapply reach_bind.
    + apply (M1 HG HT); subs.
    + intros v s1 env1 _ ER1. cbn [used fst snd].
      eapply reach_next; [exact M2|exact I|reflexivity|].
      eapply reach_star; [apply M3|].
      apply reach_val; [reflexivity|reflexivity|exact ER1].
  - change (if u then ?a else emit (I0 oPOP) ?a) with (popped u a).
    set (st1 := emit (I0 oNEG) st0).
    pose proof (run_emit blk (I0 oNEG) st0) as R2. fold st1 in R2.
    pose proof (run_popped u st1) as R3. facts R2. facts R3.
    eapply run_weaken; [exact (run_trans _ _ _ _ _ _ _ _ R1 (run_trans _ _ _ _ _ _ _ _ R2 R3))|reflexivity|].
    cbv beta. intros G E t (M1 & M2 & M3) HG HT f c h s env stk OK CO CV ER CL.
    cbn [ok] in OK. cbn [eval]. eapply reach_bind.
    + apply (M1 HG HT); subs.
    + intros v s1 env1 _ ER1. cbn [used fst snd].
      rewrite <- (bindv_Val (prim _ s1)).
      eapply reach_prim; [exact M2|cov|exact I|reflexivity|exact ER1|].
      intros v0 w _ ER3. eapply reach_star; [apply M3|].
      apply reach_val; [reflexivity|reflexivity|exact ER3].
Qed.

Lemma bin_ok op l r : compiled l -> compiled r -> compiled (NBin op l r).
Proof.
  intros HL HR u st st' H. cbn [gen] in H.
  pose proof (gen_binop_ok op _ _ _ _ _ _ (is_imm_i32 r) HL HR) as K.
  assert (HI : forall i, is_imm_i32 r = Some i -> in_i32 i = true /\
     forall f s, EV f r s = Val (integer i) s).
  { intros i Hi. apply imm_i32 in Hi as [A ->]. auto. }
  eapply run_weaken; [exact (K HI _ _ _ H)|reflexivity|]. cbv beta.
  intros G E t M HG HT f c h s env stk OK. apply (M HG HT).
  destruct op; exact OK.
Qed.
End Compile.
