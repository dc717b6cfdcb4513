(** Rescue and ensure: the code generated for them does what they mean. *)
From Coq Require Import ZArith List Bool Lia Permutation.
From Verif Require Import Base ModelValue ModelInst ProofsInst ModelCodegen ModelVM
  SpecCore ProofsValue ProofsCore1 ProofsCore2 ProofsCore3 ProofsCore4 ProofsCore5 ProofsCore6.
Import ListNotations.
Open Scope Z_scope.

Section Compile.
Context {W : Type}.
Variable P : prims W.
Variable cx : sctx.
Hypothesis PO : prims_ok P.
Hypothesis SC : scoped cx.

Notation setter := (sc_setter cx).
Notation std := (sc_stderr cx).
Notation blk := (blk cx).
Notation reach := (reach P cx).
Notation reachl := (reachl P cx).
Notation stops := (stops P cx).
Notation erel := (erel cx).
Notation star := (star P).
Notation compiled := (compiled P cx setter std).
Notation cgen := (cgen P cx).
Notation sem := (sem P cx).
Notation EV f := (eval P setter std f).
Notation upto t := (0 <= t < 2 ^ 31).

(** ** A call with [&.]: the value that is compared with nil is the last one computed, so
    only without arguments it is the receiver; what is left on the stack for nil is not removed *)
Lemma send_safe_ok r x args : id32 x = true -> len_lt args (2 ^ 16) = true ->
  compiled r -> Forall compiled args -> compiled (NSend r x args true).
Proof.
  intros S LA HR HA u st st' H. cbn [gen] in H. ub H. ub H. rename st0 into st1, st1 into st2.
  pose proof (HR _ _ _ B) as R1. pose proof (gens_ok P cx _ HA _ _ B0) as R2.
  cbv zeta in H.
  set (st3 := emit (I32 oDUP 1) st2) in *. set (st4 := emit (I0 oPUSH_NIL) st3) in *.
  set (st5 := emit (I0 oNE) st4) in *. set (st6 := emit (IJ oJMP_F 0) st5) in *.
  set (st7 := emit_osend u x (Z.of_nat (length args)) st6) in *.
  pose proof (run_emit blk (I32 oDUP 1) st2) as R3. fold st3 in R3.
  pose proof (run_emit blk (I0 oPUSH_NIL) st3) as R4. fold st4 in R4.
  pose proof (run_emit blk (I0 oNE) st4) as R5. fold st5 in R5.
  pose proof (run_jump blk (JJ oJMP_F) st5) as R6. cbn [jinst] in R6. cbv zeta in R6. fold st6 in R6.
  pose proof (run_osend blk u x (Z.of_nat (length args)) st6) as R7. fold st7 in R7.
  facts R1. facts R2. facts R3. facts R4. facts R5. facts R6. facts R7.
  pose proof (run_len _ _ _ _ _ (run_trans _ _ _ _ _ _ _ _ R1 (run_trans _ _ _ _ _ _ _ _ R2
    (run_trans _ _ _ _ _ _ _ _ R3 (run_trans _ _ _ _ _ _ _ _ R4 (run_trans _ _ _ _ _ _ _ _ R5
      (run_trans _ _ _ _ _ _ _ _ R6 R7))))))) as R. cbn [app] in R.
  destruct (run_patch blk [] (cur st6) (cur st7) _ _ _ _ R H) as (R8 & CU & _).
  eapply run_weaken; [exact R8|reflexivity|]. cbv beta.
  intros G E t (LEN & M1 & M2 & M3 & M4 & M5 & M6 & M7 & M8) HG HT f c h s env stk OK CO CV ER CL.
  rewrite upd_same in M6. rewrite CU in *.
  cbn [ok negb orb] in OK. apply andb_prop in OK as [OK OK2]. apply andb_prop in OK as [OK0 OK1].
  apply andb_prop in OK0 as [-> NA]. destruct args as [|a args]; [|discriminate NA]. clear NA OK2.
  cbn [gens] in B0. okinv B0. pose proof (g_short _ HG).
  assert (FJ : fits (IJ oJMP_F (cur st7 - cur st6))).
  { cbn. unfold i32_ok. pose proof (cur_nonneg st6). pose proof (cur_nonneg st7). lia. }
  cbn [eval andb]. eapply reach_bind.
  - apply (M1 HG HT); subs.
  - intros rv s1 env1 _ ER1. cbn [used fst snd].
    eapply reach_next; [exact M3|cbn; unfold u32_ok; lia|reflexivity|]. 
    match goal with |- reach _ _ _ _ _ ?st _ _ _ =>
      change st with (mkvst (cur st3) (rv :: rv :: stk) env1 (s_w s1)) end.
    eapply reach_next; [exact M4|exact I|reflexivity|].
    eapply reach_next; [exact M5|exact I| |].
    { unfold exec. cbn -[vbool is_nil]. rewrite (ok_nenil P PO). reflexivity. }
    eapply reach_next; [exact M6|exact FJ|reflexivity|].
    replace (to_bool (vbool (negb (is_nil rv)))) with (negb (is_nil rv)) by (destruct (is_nil rv); reflexivity).
    destruct (is_nil rv) eqn:NV; cbn [negb].
    + replace (jmp_cond (cur st6) (cur st7 - cur st6) false) with (cur st7) by (unfold jmp_cond; lia).
      assert (rv = nil) as ->.
      { destruct rv as [w|]; [|discriminate NV]. cbn in NV. apply Z.eqb_eq in NV. subst. reflexivity. }
      apply reach_val; [reflexivity|reflexivity|exact ER1].
    + change (jmp_cond (cur st6) (cur st7 - cur st6) true) with (cur st6). cbn [evals bindl].
      eapply reach_K; [|eapply (osend_exec P cx true x [] rv stk); try eassumption].
      * reflexivity.
      * cov.
      * reflexivity.
      * reflexivity.
Qed.

(** ** Ensure clauses *)
Definition okens (c : fctx) (ens : option node) : bool :=
  match ens with Some e => ok blk (pend c) false e | None => true end.
Definition oparts (ens : option node) : Prop :=
  match ens with Some e => compiled e | None => True end.
Definition before (f : nat) (ens : option node) (fn : sst (W:=W) -> outcome (W:=W)) (s : sst (W:=W)) : outcome (W:=W) :=
  match ens with Some e => bindv (EV f e s) (fun _ s => fn s) | None => fn s end.

Lemma ensure_ok ens st st' : oparts ens -> gen_ensure (gen cx) ens st = Ok st' ->
  run blk [] st st' (fun G E t => good G -> tgt_ok E ->
    forall f c h stk stk0 fn K, okens c ens = true ->
      ctx_ok (in_loop st) (ens_top st) c E -> covered E h (cur st) (cur st') ->
      (forall s env, erel s env ->
         reach G E c h f (mkvst (cur st') stk env (s_w s)) stk0 (fn s) K) ->
      forall s env, erel s env ->
      reach G E c h f (mkvst (cur st) stk env (s_w s)) stk0 (before f ens fn s) K).
Proof.
  intros HE H. destruct ens as [e|]; cbn [gen_ensure] in H.
  - eapply run_weaken; [exact (HE _ _ _ H)|reflexivity|]. cbv beta.
    intros G E t M HG HT f c h stk stk0 fn K OK CO CV N s env ER. unfold before.
    eapply (reach_bind_pend P cx _ _ _ _ _ _ _ stk).
    + apply (M HG HT); subs.
    + intros v s1 env1 _ ER1. cbn [used fst snd]. apply N. exact ER1.
  - okinv H. eapply run_weaken; [apply run_refl|reflexivity|]. cbv beta.
    intros G E t _ HG HT f c h stk stk0 fn K OK CO CV N s env ER. apply N. exact ER.
Qed.

(** ** The copies of the ensure clause for returns *)
Lemma ret_dests_ok ens ne R H a b b' M :
  oparts ens ->
  run blk (R ++ H) a b M ->
  gen_ret_dests (gen cx) ens (if blk then mkjd ne [] R else mkjd ne R []) b = Ok b' ->
  exists rt, cur b <= cur b' /\ (R <> [] -> cur b < rt <= cur b') /\
  run blk H a b' (fun G E t =>
    (exists t', (forall p, In p R -> t' p = rt) /\
                (forall p, p <= cur b -> ~ In p R -> t' p = t p) /\ M G E t') /\
    (good G -> tgt_ok E ->
     (forall stk env w, star G (mkvst (cur b) stk env w) (mkvst (cur b') stk env w)) /\
     (R <> [] -> forall f c h v junk stk0 K, okens c ens = true ->
        ctx_ok (in_loop b) (ens_top b) c E -> covered E h (cur b) (cur b') ->
        forall s env, erel s env ->
        reach G E c h f (mkvst rt (v :: junk) env (s_w s)) stk0
          (before f ens (fun s => Ret true v s) s) K))).
Proof.
  intros HE RM WW. unfold gen_ret_dests in WW.
  assert (ND : no_dests (if blk then mkjd ne [] R else mkjd ne R []) = match R with [] => true | _ => false end).
  { destruct blk, R; reflexivity. }
  rewrite ND in WW. clear ND. destruct (list_eq_dec Z.eq_dec R []) as [->|NE].
  - okinv WW. exists 0. split; [lia|]. split; [intros Q; destruct (Q eq_refl)|].
    eapply run_weaken; [exact RM|reflexivity|]. cbv beta. intros G E t MM. split.
    + exists t. split; [intros p []|]. split; [reflexivity|exact MM].
    + intros HG HT. split; [intros; apply star_refl|]. intros Q; destruct (Q eq_refl).
  - replace (match R with [] => true | _ => false end) with false in WW by (destruct R; congruence).
    cbv zeta in WW.
    set (st1 := emit (IJ oJMP 0) b) in *.
    pose proof (run_jump blk (JJ oJMP) b) as R1. cbn [jinst] in R1. cbv zeta in R1. fold st1 in R1.
    facts R1. pose proof (run_hole _ _ _ _ _ _ R1) as HO1.
    pose proof (run_trans _ _ _ _ _ _ _ _ RM R1) as R2.
    assert (X : exists st2 st3, wcurs R st1 = Ok st2 /\ gen_ensure (gen cx) ens st2 = Ok st3 /\
      wcur (cur st1) (emit (I0 (if blk then oMRETURN else oRETURN)) st3) = Ok b').
    { destruct blk; cbn [jd_ret jd_mret wcurs rbind] in WW.
      - ub WW. exists st. destruct R as [|p R]; [congruence|]. ub WW. ub B0. okinv B0. eauto.
      - ub WW. exists st. destruct R as [|p R]; [congruence|]. ub WW. ub B0. okinv B0. eauto. }
    destruct X as (st2 & st3 & W1 & W2 & W3). clear WW.
    set (i := I0 (if blk then oMRETURN else oRETURN)) in *. set (st4 := emit i st3) in *.
    destruct (run_patches blk R (H ++ [cur st1]) _ _ _ _
      ltac:(rewrite <- app_assoc in R2; exact R2) W1) as (R3 & CU2 & SE2).
    assert (TOP2 : in_loop st2 = in_loop st1 /\ ens_top st2 = ens_top st1)
      by (rewrite SE2; split; reflexivity). clear SE2. destruct TOP2 as [TL TE].
    pose proof (ensure_ok _ _ _ HE W2) as R4. facts R4.
    pose proof (run_emit blk i st3) as R5. fold st4 in R5. facts R5.
    pose proof (run_trans _ _ _ _ _ _ _ _ R3 (run_trans _ _ _ _ _ _ _ _ R4 R5)) as R6.
    cbn [app] in R6. rewrite app_nil_r in R6.
    destruct (run_patch blk H (cur st1) (cur st4) a st4 b' _
      ltac:(eapply run_weaken; [exact R6|symmetry; apply Permutation_cons_append|intros ? ? ? K; exact K]) W3)
      as (R7 & CU & SE).
    exists (cur st1). rewrite CU, CU2 in *. split; [lia|]. split; [lia|].
    eapply run_weaken; [exact (run_len _ _ _ _ _ R7)|reflexivity|]. cbv beta.
    intros G E t (LEN & (MM & M1) & M4 & M5). rewrite CU in *. split.
    + exists (upds (upd t (cur st1) (cur st4)) (rev R) (cur st1)). split.
      * intros p I. apply upds_in. apply -> in_rev. exact I.
      * split; [|exact MM]. intros p Lp NI. rewrite upds_notin by (intros Q; apply NI, in_rev, Q).
        apply upd_other. lia.
    + intros HG HT. pose proof (g_short _ HG). pose proof (cur_nonneg st1).
      rewrite upds_notin, upd_same in M1.
      2: { intros I. apply in_rev in I. pose proof (run_holes _ _ _ _ _ RM (cur st1)) as Q.
           specialize (Q ltac:(apply in_or_app; left; exact I)). lia. }
      split.
      * intros stk env w. eapply step_next; [exact M1|apply (jump_fits G); auto; lia|].
        cbn [exec v_stk v_env v_w]. do 2 f_equal. lia.
      * intros _ f c h v junk stk0 K OK CO CV s env ER.
        eapply (M4 HG HT); [exact OK|ctx|cov| |exact ER].
        intros s1 env1 ER1. cbn [ProofsCore2.reach ProofsCore2.stops]. exists env1.
        split; [|exact ER1]. eapply step_halt; [exact M5|exact I|].
        unfold i. destruct blk; reflexivity.
Qed.

(** ** Rescue clauses *)
Notation clause := (list node * option node * node)%type.

Definition clist (exs : list node) (st : cg) : res cg :=
  match exs with
  | [] => Ok (emit (I32 oRESCUE 1) (emit (I32 oGET_CONST_TOP std) st))
  | _ => st <- gens (gen cx) exs st ;;
         Ok (emit (I32 oRESCUE (Z.of_nat (length exs))) st)
  end.
Definition cassign (asg : option node) (st : cg) : res cg :=
  match asg with Some a => gen_assign cx (gen cx) a st | None => Ok (emit (I0 oPOP) st) end.

Definition clause_gen (u : bool) (b : clause) (st : cg) : res (Z * Z * cg) :=
  st <- clist (fst (fst b)) (emit (I32 oDUP 1) st) ;;
  let st := emit (IJ oJMP_F 0) st in
  let prev := cur st in
  st <- cassign (snd (fst b)) st ;;
  st <- gen cx (snd b) u st ;;
  let st := emit (IJ oJMP 0) st in
  Ok (prev, cur st, st).

Fixpoint clauses' (u : bool) (l : list clause) (ends : list Z) (st : cg) : res (list Z * cg) :=
  match l with
  | [] => Ok (ends, st)
  | b :: r =>
      x <- clause_gen u b st ;;
      let '(prev, e, st) := x in
      st <- wcur prev st ;;
      clauses' u r (ends ++ [e]) st
  end.

Lemma clauses_eq u l : forall prev ends st,
  (x <- gen_clauses cx (gen cx) u l prev ends st ;;
   let '(n, e, s) := x in s <- wcur_opt n s ;; Ok (e, s)) =
  (s <- wcur_opt prev st ;; clauses' u l ends s).
Proof.
  induction l as [|[[exs asg] rb] l IH]; intros prev ends st; cbn [gen_clauses clauses'].
  - reflexivity.
  - destruct (wcur_opt prev st) as [st1| |]; cbn [rbind]; try reflexivity.
    unfold clause_gen. cbn [fst snd]. fold (clist exs (emit (I32 oDUP 1) st1)).
    destruct (clist exs (emit (I32 oDUP 1) st1)) as [st2| |]; cbn [rbind]; try reflexivity.
    fold (cassign asg (emit (IJ oJMP_F 0) st2)).
    destruct (cassign asg (emit (IJ oJMP_F 0) st2)) as [st3| |]; cbn [rbind]; try reflexivity.
    destruct (gen cx rb u st3) as [st4| |]; cbn [rbind]; try reflexivity.
    fold (gen_clauses cx (gen cx) u). rewrite IH. reflexivity.
Qed.

Definition rparts (b : clause) : Prop :=
  Forall compiled (fst (fst b)) /\ Z.of_nat (length (fst (fst b))) < 2 ^ 32 /\
  match snd (fst b) with Some a => asub P cx a /\ tsized cx a = true | None => True end /\
  compiled (snd b).

Definition okclause (c : fctx) (u : bool) (b : clause) : bool :=
  forallb (ok blk (pend c) true) (fst (fst b))
  && match snd (fst b) with
     | Some (NLVar _ | NIdent _ | NIVar _ | NGVar _) | None => true
     | _ => false
     end
  && ok blk c u (snd b).

(** the list of a clause is compared with the exception, a copy of which is
    below it *)
Lemma clist_ok exs st st' : Forall compiled exs -> Z.of_nat (length exs) < 2 ^ 32 -> id32 std = true ->
  clist exs st = Ok st' ->
  run blk [] st st' (fun G E t => good G -> tgt_ok E ->
    forall f c h e stk, forallb (ok blk (pend c) true) exs = true ->
      ctx_ok (in_loop st) (ens_top st) c E -> covered E h (cur st) (cur st') ->
      forall s env, erel s env ->
      match clause_list P (EV f) std exs s with
      | LStop o => stops G E (pend c) h f (mkvst (cur st) (e :: stk) env (s_w s)) [] o
      | LVals vs s1 => exists env1, star G (mkvst (cur st) (e :: stk) env (s_w s))
          (mkvst (cur st') (vbool (p_rescue P e vs (s_w s1)) :: stk) env1 (s_w s1)) /\ erel s1 env1
      end).
Proof.
  intros HX HN HS H. unfold clist in H. destruct exs as [|x exs].
  - okinv H. set (st1 := emit (I32 oGET_CONST_TOP std) st).
    pose proof (run_emit blk (I32 oGET_CONST_TOP std) st) as R1. fold st1 in R1.
    pose proof (run_emit blk (I32 oRESCUE 1) st1) as R2. facts R1. facts R2.
    eapply run_weaken; [exact (run_trans _ _ _ _ _ _ _ _ R1 R2)|reflexivity|]. cbv beta.
    intros G E t (M1 & M2) HG HT f c h e stk OK CO CV s env ER. cbn [clause_list].
    pose proof (inst_lt _ _ _ _ _ M1).
    destruct (p_top P std (s_w s)) as [v w|ex w] eqn:PT.
    + exists env. split; [|apply erel_w, ER].
      eapply star_trans.
      * eapply step_next; [exact M1|apply id32_fits, HS|]. cbn [exec step32 v_stk v_env v_w]. rewrite PT. reflexivity.
      * eapply step_next; [exact M2|cbn; unfold u32_ok; lia|]. cbn [exec step32 v_stk v_env v_w].
        change (v :: e :: stk) with (rev [v] ++ e :: stk). rewrite popn_ok by reflexivity. reflexivity.
    + eapply step_raise; [exact M1|cov|apply id32_fits, HS| |split; [exact H|reflexivity]|apply erel_w, ER].
      cbn [exec step32 v_stk v_env v_w]. rewrite PT. reflexivity.
  - set (l := x :: exs) in *. ub H. okinv H. rename st0 into st1.
    pose proof (gens_ok P cx _ HX _ _ B) as R1.
    pose proof (run_emit blk (I32 oRESCUE (Z.of_nat (length l))) st1) as R2. facts R1. facts R2.
    eapply run_weaken; [exact (run_trans _ _ _ _ _ _ _ _ R1 R2)|reflexivity|]. cbv beta.
    intros G E t (M1 & M2) HG HT f c h e stk OK CO CV s env ER.
    change (clause_list P (EV f) std l s) with (evals (EV f) l [] s).
    pose proof (M1 HG HT f c h s env (e :: stk) [] OK ltac:(subs) ltac:(subs) ER) as M.
    cbn [rev app] in M.
    pose proof (evals_length (EV f) l [] s) as EL.
    destruct (evals (EV f) l [] s) as [vs s1|o]; cbn [ProofsCore2.reachl] in M; [|exact M].
    destruct M as (env1 & S & ER1). exists env1. split; [|exact ER1].
    eapply star_trans; [exact S|]. cbn [fst snd].
    eapply step_next; [exact M2|cbn [fits]; unfold u32_ok; lia|]. cbn [exec step32 v_stk v_env v_w].
    rewrite popn_ok; [reflexivity|]. specialize (EL _ _ eq_refl). cbn [length] in EL. rewrite EL. f_equal. 
Qed.

Lemma cassign_ok asg st st' : match asg with Some a => asub P cx a /\ tsized cx a = true | None => True end ->
  cassign asg st = Ok st' ->
  run blk [] st st' (fun G E t => match asg with
     | Some (NLVar _ | NIdent _ | NIVar _ | NGVar _) | None => true
     | _ => false
     end = true -> forall v stk s env, erel s env ->
    exists env', star G (mkvst (cur st) (v :: stk) env (s_w s))
      (mkvst (cur st') stk env'
         (s_w (match asg with Some a => assign_var P a v s | None => s end)))
      /\ erel (match asg with Some a => assign_var P a v s | None => s end) env').
Proof.
  intros HA H. destruct asg as [a|]; cbn [cassign] in H.
  - destruct HA as [HA TS]. destruct (var_target a) eqn:VT.
    + eapply run_weaken; [exact (run_setvar P cx SC a _ _ VT TS H)|reflexivity|]. cbv beta.
      intros G E t M _. exact M.
    + eapply run_weaken; [exact (gen_assign_run P cx _ _ _ HA H)|reflexivity|]. cbv beta.
      intros G E t _ OK. destruct a; discriminate.
  - okinv H. eapply run_weaken; [apply run_emit|reflexivity|]. cbv beta.
    intros G E t A _ v stk s env ER. exists env. split; [|exact ER].
    eapply step_next; [exact A|exact I|reflexivity].
Qed.

Lemma clause_ok u b st prev e st' : rparts b -> id32 std = true ->
  clause_gen u b st = Ok (prev, e, st') ->
  e = cur st' /\ prev < e /\
  run blk [prev; e] st st' (fun G E t => good G -> tgt_ok E ->
    upto (t e) -> upto (t prev) ->
    forall f c h x, okclause c u b = true ->
      ctx_ok (in_loop st) (ens_top st) c E -> covered E h (cur st) (cur st') ->
      forall s env, erel s env ->
      match clause_list P (EV f) std (fst (fst b)) s with
      | LStop o => reach G E c h f (mkvst (cur st) [x] env (s_w s)) [] o (fun v => used (t e) u v [])
      | LVals vs s1 =>
          if p_rescue P x vs (s_w s1)
          then reach G E c h f (mkvst (cur st) [x] env (s_w s)) []
                 (EV f (snd b) (match snd (fst b) with Some a => assign_var P a x s1 | None => s1 end))
                 (fun v => used (t e) u v [])
          else exists env1, star G (mkvst (cur st) [x] env (s_w s))
                 (mkvst (t prev) [x] env1 (s_w s1)) /\ erel s1 env1
      end).
Proof.
  intros (HX & HN & HA & HB) HS H. unfold clause_gen in H.
  ub H. rename st0 into st2. cbv zeta in H. ub H. rename st0 into st4. ub H. rename st0 into st5.
  set (st1 := emit (I32 oDUP 1) st) in *. set (st3 := emit (IJ oJMP_F 0) st2) in *.
  set (st6 := emit (IJ oJMP 0) st5) in *.
  assert (E : prev = cur st3 /\ e = cur st6 /\ st' = st6) by (repeat split; congruence).
  destruct E as (-> & -> & ->). clear H.
  pose proof (run_emit blk (I32 oDUP 1) st) as R1. fold st1 in R1.
  pose proof (clist_ok _ _ _ HX HN HS B) as R2.
  pose proof (run_jump blk (JJ oJMP_F) st2) as R3. cbn [jinst] in R3. cbv zeta in R3. fold st3 in R3.
  pose proof (cassign_ok _ _ _ HA B0) as R4.
  pose proof (HB _ _ _ B1) as R5.
  pose proof (run_jump blk (JJ oJMP) st5) as R6. cbn [jinst] in R6. cbv zeta in R6. fold st6 in R6.
  facts R1. facts R2. facts R3. facts R4. facts R5. facts R6.
  pose proof (run_hole _ _ _ _ _ _ R6) as HO6.
  split; [reflexivity|]. split; [lia|].
  eapply run_weaken; [exact (run_len _ _ _ _ _ (run_trans _ _ _ _ _ _ _ _ R1 (run_trans _ _ _ _ _ _ _ _ R2
    (run_trans _ _ _ _ _ _ _ _ R3 (run_trans _ _ _ _ _ _ _ _ R4 (run_trans _ _ _ _ _ _ _ _ R5 R6))))))
    |reflexivity|]. cbv beta.
  intros G E t (LEN & M1 & M2 & M3 & M4 & M5 & M6) HG HT TB1 TB2 f c h x OK CO CV s env ER.
  pose proof (g_short _ HG). pose proof (cur_nonneg st3). pose proof (cur_nonneg st6).
  unfold okclause in OK. apply andb_prop in OK as [OK OKB]. apply andb_prop in OK as [OKX OKA].
  assert (S1 : star G (mkvst (cur st) [x] env (s_w s)) (mkvst (cur st1) [x; x] env (s_w s))).
  { eapply step_next; [exact M1|cbn; unfold u32_ok; lia|reflexivity]. }
  pose proof (M2 HG HT f c h x [x] OKX ltac:(subs) ltac:(subs) s env ER) as L.
  destruct (clause_list P (EV f) std (fst (fst b)) s) as [vs s1|o].
  - destruct L as (env1 & S2 & ER1).
    assert (S3 : star G (mkvst (cur st) [x] env (s_w s))
      (mkvst (cur st2) (vbool (p_rescue P x vs (s_w s1)) :: [x]) env1 (s_w s1)))
      by (eapply star_trans; eassumption).
    destruct (p_rescue P x vs (s_w s1)).
    + eapply reach_star; [exact S3|].
      eapply reach_next; [exact M3|apply (jump_fits G); auto; lia|reflexivity|]. cbn [v_stk v_env v_w].
      unfold jmp_cond. rewrite to_bool_vbool. cbn [negb].
      destruct (M4 OKA x [] s1 env1 ER1) as (env2 & S4 & ER2).
      eapply reach_star; [exact S4|].
      set (s2 := match snd (fst b) with Some a => assign_var P a x s1 | None => s1 end) in *.
      rewrite <- (bindv_Val (EV f (snd b) s2)). eapply reach_bind.
      * apply (M5 HG HT); first [subs|reflexivity].
      * intros v1 s3 env3 _ ER3. cbn [used fst snd].
        eapply reach_next; [exact M6|apply (jump_fits G); auto; lia|reflexivity|].
        replace (cur st6 + (t (cur st6) - cur st6)) with (t (cur st6)) by lia.
        apply reach_val; [reflexivity|reflexivity|exact ER3].
    + exists env1. split; [|exact ER1]. eapply star_trans; [exact S3|].
      eapply step_next; [exact M3|apply (jump_fits G); auto; lia|]. cbn [exec v_stk v_env v_w].
      unfold jmp_cond. rewrite to_bool_vbool. cbn [negb]. do 2 f_equal. lia.
  - eapply reach_star; [exact S1|]. apply stops_reach. eapply stops_pend. exact L.
Qed.

Lemma clauses_ok u l : Forall rparts l -> id32 std = true -> forall ends st ends' st',
  clauses' u l ends st = Ok (ends', st') ->
  exists new, ends' = ends ++ new /\ run blk new st st' (fun G E t => good G -> tgt_ok E ->
    forall te, upto te -> (forall p, In p new -> t p = te) ->
    forall f c h x, forallb (okclause c u) l = true ->
      ctx_ok (in_loop st) (ens_top st) c E -> covered E h (cur st) (cur st') ->
      forall s env, erel s env ->
      match eval_clauses P (EV f) std x l s with
      | CDone o => reach G E c h f (mkvst (cur st) [x] env (s_w s)) [] o (fun v => used te u v [])
      | CNone s1 => exists env1, star G (mkvst (cur st) [x] env (s_w s))
                 (mkvst (cur st') [x] env1 (s_w s1)) /\ erel s1 env1
      end).
Proof.
  intros HR HS. induction HR as [|b l HB HL IH]; intros ends st ends' st' H; cbn [clauses'] in H.
  - assert (E : ends' = ends /\ st' = st) by (split; congruence). destruct E as [-> ->].
    exists []. rewrite app_nil_r. split; [reflexivity|].
    eapply run_weaken; [apply run_refl|reflexivity|]. cbv beta.
    intros G E t _ HG HT te TB TE f c h x OK CO CV s env ER. cbn [eval_clauses].
    exists env. split; [apply star_refl|exact ER].
  - ub H. destruct st0 as [[prev e] st1]. ub H. rename st0 into st2.
    destruct (clause_ok _ _ _ _ _ _ HB HS B) as (E1 & LT & R1). facts R1.
    destruct (run_patch _ _ _ (cur st1) _ _ _ _ R1 B0) as (R2 & CU & _). facts R2.
    destruct (IH _ _ _ _ H) as (new & -> & R3). facts R3. clear IH.
    exists (e :: new). rewrite <- app_assoc. split; [reflexivity|].
    eapply run_weaken; [exact (run_len _ _ _ _ _ (run_trans _ _ _ _ _ _ _ _ R2 R3))|reflexivity|]. cbv beta.
    intros G E t (LEN & M1 & M3) HG HT te TB TE f c h x OK CO CV s env ER.
    rewrite CU in *.
    pose proof (g_short _ HG). pose proof (cur_nonneg st1).
    rewrite upd_same, upd_other in M1 by lia. rewrite (TE e) in M1 by (left; reflexivity).
    cbn [forallb] in OK. apply andb_prop in OK as [OK1 OK2].
    specialize (M1 HG HT TB ltac:(lia) f c h x OK1 ltac:(ctx) ltac:(cov) s env ER).
    destruct b as [[exs asg] rb]. cbn [fst snd eval_clauses] in *.
    fold (eval_clauses P (EV f) std x).
    destruct (clause_list P (EV f) std exs s) as [vs s1|o]; [|exact M1].
    destruct (p_rescue P x vs (s_w s1)); [exact M1|].
    destruct M1 as (env1 & S & ER1).
    assert (N : forall p, In p new -> t p = te) by (intros p I; apply TE; right; exact I).
    pose proof (M3 HG HT te TB N f c h x OK2 ltac:(ctx) ltac:(cov) s1 env1 ER1) as M.
    destruct (eval_clauses P (EV f) std x l s1) as [s2|o].
    + destruct M as (env2 & S2 & ER2). exists env2. split; [eapply star_trans; eassumption|exact ER2].
    + eapply reach_star; eassumption.
Qed.

Definition rescue_part (u : bool) (rescues : list clause) (ens : option node) (st : cg)
  : res (option Z * list Z * cg) :=
  match rescues with
  | [] => Ok (None, [], st)
  | _ =>
      let st := emit (IJ oJMP 0) st in
      let else_dest := cur st in
      x <- gen_clauses cx (gen cx) u rescues None [] st ;;
      let '(prev, ends, st) := x in
      st <- wcur_opt prev st ;;
      st <- gen_ensure (gen cx) ens st ;;
      let st := emit (I0 oTHROW) st in
      st <- wcur else_dest st ;;
      Ok (Some else_dest, ends, st)
  end.

Lemma rescue_ok u rescues ens st dest ends st' : Forall rparts rescues -> oparts ens -> id32 std = true ->
  rescue_part u rescues ens st = Ok (dest, ends, st') ->
  (rescues = [] -> dest = None /\ ends = []) /\
  (rescues <> [] -> exists q, dest = Some q /\ cur st < q <= cur st') /\
  run blk ends st st' (fun G E t => good G -> tgt_ok E ->
    (forall stk env w, star G (mkvst (cur st) stk env w) (mkvst (cur st') stk env w)) /\
    forall q te, dest = Some q -> upto te -> (forall p, In p ends -> t p = te) ->
    forall f c h x, forallb (okclause c u) rescues = true -> okens c ens = true ->
      ctx_ok (in_loop st) (ens_top st) c E -> covered E h (cur st) (cur st') ->
      forall s env, erel s env ->
      match eval_clauses P (EV f) std x rescues s with
      | CDone o => reach G E c h f (mkvst q [x] env (s_w s)) [] o (fun v => used te u v [])
      | CNone s1 => forall K, reach G E c h f (mkvst q [x] env (s_w s)) []
                                (before f ens (fun s => Exn x s) s1) K
      end).
Proof.
  intros HR HE HS H.
  assert (D : rescues = [] \/ rescues <> []) by (destruct rescues; [left; reflexivity|right; discriminate]).
  destruct D as [->|NE].
  - cbn [rescue_part] in H.
    assert (Q : dest = None /\ ends = [] /\ st' = st) by (repeat split; congruence).
    destruct Q as (-> & -> & ->). split; [auto|]. split; [congruence|].
    eapply run_weaken; [apply run_refl|reflexivity|]. cbv beta. intros G E t _ HG HT.
    split; [intros; apply star_refl|]. discriminate.
  - assert (H' : (let st := emit (IJ oJMP 0) st in
      x <- gen_clauses cx (gen cx) u rescues None [] st ;;
      let '(prev, ends, st1) := x in
      st1 <- wcur_opt prev st1 ;;
      st1 <- gen_ensure (gen cx) ens st1 ;;
      st1 <- wcur (cur st) (emit (I0 oTHROW) st1) ;;
      Ok (Some (cur st), ends, st1)) = Ok (dest, ends, st')).
    { destruct rescues; [congruence|exact H]. }
    clear H. rename H' into H. cbv zeta in H.
    set (st1 := emit (IJ oJMP 0) st) in *.
    assert (Q : (s <- wcur_opt None st1 ;; clauses' u rescues [] s) =
              (x <- gen_clauses cx (gen cx) u rescues None [] st1 ;;
               let '(n, e, s) := x in s <- wcur_opt n s ;; Ok (e, s)))
      by (symmetry; apply clauses_eq).
    cbn [wcur_opt rbind] in Q.
    ub H. destruct st0 as [[prev ends0] st2]. cbn [rbind] in Q.
    ub H. rename st0 into st3. cbn [rbind] in Q. ub H. rename st0 into st4. ub H. rename st0 into st6.
    set (st5 := emit (I0 oTHROW) st4) in *.
    assert (Z : dest = Some (cur st1) /\ ends = ends0 /\ st' = st6) by (repeat split; congruence).
    destruct Z as (-> & -> & ->). clear H.
    pose proof (run_jump blk (JJ oJMP) st) as R1. cbn [jinst] in R1. cbv zeta in R1. fold st1 in R1.
    destruct (clauses_ok _ _ HR HS _ _ _ _ Q) as (new & EN & R2). cbn [app] in EN. subst ends0.
    pose proof (ensure_ok _ _ _ HE B1) as R3.
    pose proof (run_emit blk (I0 oTHROW) st4) as R4. fold st5 in R4.
    pose proof (run_hole _ _ _ _ _ _ R1) as HO1. pose proof (run_holes _ _ _ _ _ R2) as HO2.
    facts R1. facts R2. facts R3. facts R4.
    pose proof (run_end _ _ _ _ _ (run_trans _ _ _ _ _ _ _ _ R1 (run_trans _ _ _ _ _ _ _ _ R2 R3))) as R5.
    pose proof (run_trans _ _ _ _ _ _ _ _ R5 R4) as R6. cbn [app] in R6. rewrite !app_nil_r in R6.
    destruct (run_patch blk new (cur st1) (cur st5) _ _ _ _ R6 B2) as (R7 & CU & _).
    split; [congruence|]. split; [intros _; exists (cur st1); split; [reflexivity|rewrite CU; lia]|].
    eapply run_weaken; [exact (run_len _ _ _ _ _ R7)|reflexivity|]. cbv beta.
    intros G E t (LEN & (FX & M1 & M2 & M3) & M4) HG HT. rewrite CU in *.
    rewrite upd_same in M1. pose proof (g_short _ HG). pose proof (cur_nonneg st).
    split.
    + intros stk env w. eapply step_next; [exact M1|apply (jump_fits G); auto; lia|].
      cbn [exec v_stk v_env v_w]. do 2 f_equal. lia.
    + intros q te EQ TB TE f c h x OKR OKE CO CV s env ER.
      assert (q = cur st1) by congruence. subst q. clear EQ.
      assert (TE' : forall p, In p new -> upd t (cur st1) (cur st5) p = te).
      { intros p I. rewrite upd_other; [exact (TE p I)|]. specialize (HO2 p I). lia. }
      pose proof (M2 HG HT te TB TE' f c h x OKR ltac:(ctx) ltac:(cov) s env ER) as M.
      destruct (eval_clauses P (EV f) std x rescues s) as [s1|o]; [|exact M].
      intros K. destruct M as (env1 & S & ER1). eapply reach_star; [exact S|].
      eapply (M3 HG HT); [exact OKE|ctx|cov| |exact ER1].
      intros s2 env2 ER2. cbn [ProofsCore2.reach].
      destruct M4 as [A4 N4 _ _ _].
      eapply raise_at; [|rewrite FX by lia; apply CV; lia|exact ER2].
      rewrite (rstep_at P _ _ (I0 oTHROW) (cur st5)); [reflexivity|exact A4|exact N4|exact I].
Qed.

(** ** The else clause *)
Definition els_part (u : bool) (els : option node) (st : cg) : res cg :=
  match els with
  | Some e => gen cx e u (if u then emit (I0 oPOP) st else st)
  | None => Ok st
  end.

Lemma els_ok u els st st' : oparts els -> els_part u els st = Ok st' ->
  run blk [] st st' (fun G E t => good G -> tgt_ok E ->
    forall f c h stk v, match els with Some e => ok blk c u e | None => true end = true ->
      ctx_ok (in_loop st) (ens_top st) c E -> covered E h (cur st) (cur st') ->
      (f_clean c = true -> stk = []) ->
      forall s env, erel s env ->
      reach G E c h f (mkvst (cur st) (if u then v :: stk else stk) env (s_w s)) stk
        (match els with Some e => EV f e s | None => Val v s end) (fun v => used (cur st') u v stk)).
Proof.
  intros HE H. destruct els as [e|]; cbn [els_part] in H.
  - pose proof (HE _ _ _ H) as R2. destruct u.
    + pose proof (run_emit blk (I0 oPOP) st) as R1. facts R1. facts R2.
      eapply run_weaken; [exact (run_trans _ _ _ _ _ _ _ _ R1 R2)|reflexivity|]. cbv beta.
      intros G E t (M1 & M2) HG HT f c h stk v OK CO CV CL s env ER.
      eapply reach_next; [exact M1|exact I|reflexivity|]. cbn [v_env v_w].
      apply (M2 HG HT); subs.
    + eapply run_weaken; [exact R2|reflexivity|]. cbv beta.
      intros G E t M2 HG HT f c h stk v OK CO CV CL s env ER. apply (M2 HG HT); subs.
  - okinv H. eapply run_weaken; [apply run_refl|reflexivity|]. cbv beta.
    intros G E t _ HG HT f c h stk v OK CO CV CL s env ER.
    apply reach_val; [reflexivity|reflexivity|exact ER].
Qed.

Lemma stops_env G E E' c h f a stk o :
  r_brk E = r_brk E' -> r_nxt E = r_nxt E' -> r_ret E = r_ret E' ->
  stops G E c h f a stk o -> stops G E' c h f a stk o.
Proof.
  intros A B C. destruct o; cbn [ProofsCore2.stops]; auto.
  - rewrite A. auto.
  - rewrite B. auto.
  - rewrite C. auto.
Qed.

Lemma reach_env G E E' c h f a stk o K :
  r_brk E = r_brk E' -> r_nxt E = r_nxt E' -> r_ret E = r_ret E' ->
  reach G E c h f a stk o K -> reach G E' c h f a stk o K.
Proof.
  intros A B C. destruct o; cbn [ProofsCore2.reach]; auto; apply stops_env; assumption.
Qed.

(** A place that can be reached and left by no step is the only one. *)
Lemma steps_end G n : forall a b, steps P G n a b -> (forall x, vstep P G b <> SNext x) ->
  forall m c, steps P G m a c -> (forall x, vstep P G c <> SNext x) -> b = c.
Proof.
  induction n as [|n IH]; intros a b S NB m c T NC.
  - inversion S; subst. inversion T; subst; [reflexivity|]. edestruct NB; eassumption.
  - inversion S; subst. inversion T; subst; [edestruct NC; eassumption|].
    match goal with A : vstep P G a = SNext ?x, B : vstep P G a = SNext ?y |- _ =>
      assert (x = y) by congruence; subst end.
    eapply IH; eassumption.
Qed.

Lemma star_end G a b c : star G a b -> star G a c ->
  (forall x, vstep P G b <> SNext x) -> (forall x, vstep P G c <> SNext x) -> b = c.
Proof. intros [n S] [m T] NB NC. eapply steps_end; eassumption. Qed.

Lemma off_code G pc stk env w : pc < 0 \/ zlength (pr_code G) <= pc ->
  forall x, vstep P G (mkvst pc stk env w) <> SNext x.
Proof.
  intros O x. unfold vstep, rstep. cbn [v_pc]. destruct (Z.ltb_spec pc 0); [discriminate|].
  destruct O as [O|O]; [lia|].
  rewrite skipn_all2 by (unfold zlength in O; lia). discriminate.
Qed.

Definition set_handler (dest : option Z) (lo hi : Z) (st : cg) : cg :=
  match dest with
  | Some d => set_extab (extab st ++ [mkex lo hi d false]) st
  | None => st
  end.
Definition handler_env (dest : option Z) (lo hi : Z) (E : renv) : renv :=
  match dest with
  | Some d => set_hf E (fun pc => if (lo <? pc) && (pc <=? hi) then Some (d, false) else r_hf E pc)
  | None => E
  end.

Lemma run_handler dest H a b lo hi M : run blk H a b M -> cur a <= lo -> (dest <> None -> hi < cur b) ->
  run blk H a (set_handler dest lo hi b) (fun G E t => M G (handler_env dest lo hi E) t).
Proof.
  intros R A B. destruct dest as [d|]; cbn [set_handler handler_env]; [|exact R].
  apply run_extab; [exact R|exact A|apply B; discriminate].
Qed.

Lemma handler_env_eq dest lo hi E : let E2 := handler_env dest lo hi E in
  r_brk E2 = r_brk E /\ r_nxt E2 = r_nxt E /\ r_ret E2 = r_ret E /\ rt_of E2 = rt_of E.
Proof. destruct dest; cbn; auto. Qed.

Lemma finish_val f ens v (s : sst (W:=W)) b : b = true ->
  finish (EV f) ens b (Val v s) = before f ens (fun s => Val v s) s.
Proof. intros ->. destruct ens; reflexivity. Qed.
Lemma finish_exn f ens v (s : sst (W:=W)) :
  finish (EV f) ens true (Exn v s) = before f ens (fun s => Exn v s) s.
Proof. destruct ens; reflexivity. Qed.
Lemma finish_ret f ens d v (s : sst (W:=W)) :
  finish (EV f) ens true (Ret d v s) = before f ens (fun s => Ret d v s) s.
Proof. destruct ens; reflexivity. Qed.

Lemma finish_stops G E c h f a stk o ens K : is_val o = false ->
  stops G E c h f a stk o -> reach G E c h f a stk (finish (EV f) ens false o) K.
Proof.
  intros NV S. destruct ens as [e|].
  - destruct o; try discriminate NV; exact I || exact S.
  - cbn [finish]. apply stops_reach. exact S.
Qed.

Lemma begin_ok body rescues els ens :
  compiled body -> Forall rparts rescues -> oparts els -> oparts ens -> id32 std = true ->
  compiled (NBegin body rescues els ens).
Proof.
  intros HB HR HL HE HS u st st' H. cbn [gen] in H. unfold gen_begin in H. cbv zeta in H.
  set (ne := match ens with Some _ => true | None => false end) in *.
  ub H. rename st0 into st1. destruct (jds st1) as [|jd jr] eqn:EJ; [discriminate|].
  fold (rescue_part u rescues ens (set_jds jr st1)) in H.
  pose proof (HB _ _ _ B) as R0.
  destruct (run_pop blk ne [] _ _ _ _ _ R0 EJ) as (R & EJD & EJR & R1). subst jr.
  set (st1' := set_jds (jds st) st1) in *.
  ub H. destruct st0 as [[dest ends] st2].
  fold (els_part u els st2) in H.
  ub H. rename st0 into st3. ub H. rename st0 into st4. ub H. rename st0 into st5.
  change (cur st1') with (cur st1) in *.
  fold (set_handler dest (cur st) (cur st1) st5) in H. set (st6 := set_handler dest (cur st) (cur st1) st5) in *.
  destruct (rescue_ok _ _ _ _ _ _ _ HR HE HS B0) as (RN & RS & R2).
  pose proof (els_ok _ _ _ _ HL B1) as R3.
  facts R1. facts R2. facts R3. change (cur st1') with (cur st1) in *.
  pose proof (run_holes _ _ _ _ _ R1) as HO1. pose proof (run_holes _ _ _ _ _ R2) as HO2.
  rewrite app_nil_r in R1, HO1. change (cur st1') with (cur st1) in *.
  pose proof (run_trans _ _ _ _ _ _ _ _ R1 (run_trans _ _ _ _ _ _ _ _ R2 R3)) as RA.
  rewrite app_nil_r in RA. subst jd.
  destruct (ret_dests_ok ens ne R ends st st3 st4 _ HE RA B2) as (rt & RTL & RTB & RB).
  facts RB.
  destruct (run_patches blk ends [] _ _ _ _ ltac:(rewrite app_nil_r; exact RB) B3) as (RC & CU5 & SE5).
  facts RC.
  pose proof (run_handler dest [] st st5 (cur st) (cur st1) _ RC) as RD. fold st6 in RD.
  assert (DL : dest <> None -> cur st1 < cur st5).
  { intros ND. destruct rescues as [|r0 rs]; [destruct (RN eq_refl); congruence|].
    destruct (RS ltac:(discriminate)) as (q & EQ & LT). lia. }
  specialize (RD ltac:(lia) DL).
  assert (CU6 : cur st6 = cur st5) by (unfold st6, set_handler; destruct dest; reflexivity).
  facts RD.
  pose proof (ensure_ok _ _ _ HE H) as RF. facts RF.
  eapply run_weaken; [exact (run_len _ _ _ _ _ (run_trans _ _ _ _ _ _ _ _ RD RF))|reflexivity|]. cbv beta.
  intros G E t (LEN & (MX & M4) & MF) HG HT f c h s env stk OK CO CV ER CL.
  destruct MX as (t' & TR & TO & M1 & M2 & M3).
  set (E2 := handler_env dest (cur st) (cur st1) E) in *.
  destruct (handler_env_eq dest (cur st) (cur st1) E) as (EB & EN & ET & EO).
  fold E2 in EB, EN, ET, EO.
  assert (HT2 : tgt_ok E2) by (unfold tgt_ok; rewrite EB, EN, ET, EO; exact HT).
  assert (CV2 : covered E2 h (cur st1) (cur st')).
  { intros pc Hpc. unfold E2, handler_env. destruct dest; [|apply CV; lia].
    cbn [set_hf r_hf]. replace (pc <=? cur st1) with false by lia. rewrite andb_false_r. apply CV. lia. }
  assert (CO2 : ctx_ok (in_loop st) (ens_top st) c E2).
  { destruct CO as [A1 A2]. constructor; [exact A1|rewrite ET; exact A2]. }
  cbn [ok] in OK. apply andb_prop in OK as [OK OK5]. apply andb_prop in OK as [OK OK4].
  apply andb_prop in OK as [OK OK3]. apply andb_prop in OK as [OK1 OK2].
  change (forallb (okclause c u) rescues = true) in OK3. change (okens c ens = true) in OK5.
  pose proof (g_short _ HG) as GS. pose proof (cur_nonneg st) as CN.
  destruct (M4 HG HT2) as [SK RET]. clear M4. destruct (M2 HG HT2) as [SKR HND]. clear M2.
  specialize (M3 HG HT2). specialize (MF HG HT).
  assert (TE : forall p, In p ends -> t' p = cur st4).
  { intros p I. rewrite TO.
    - apply upds_in. apply -> in_rev. exact I.
    - specialize (HO2 p I). lia.
    - intros J. specialize (HO1 p J). specialize (HO2 p I). lia. }
  (* after the last part *)
  assert (TAIL : forall v s1 env1, erel s1 env1 ->
    reach G E c h f (mkvst (cur st4) (if u then v :: stk else stk) env1 (s_w s1)) stk
      (before f ens (fun s => Val v s) s1) (fun v => used (cur st') u v stk)).
  { intros v s1 env1 ER1. rewrite <- CU5, <- CU6. eapply MF; [exact OK5|ctx|cov| |exact ER1].
    intros s2 env2 ER2. apply reach_val; [reflexivity|reflexivity|exact ER2]. }
  assert (DONE : forall a o, reach G E2 c h f a stk o (fun v => used (cur st4) u v stk) ->
    reach G E c h f a stk (finish (EV f) ens (is_val o) o) (fun v => used (cur st') u v stk)).
  { intros a o RO. destruct (is_val o) eqn:IV.
    - destruct o; try discriminate IV. rewrite finish_val by reflexivity.
      destruct RO as (env1 & S & ER1). eapply reach_star; [exact S|]. cbn [used fst snd]. apply TAIL. exact ER1.
    - apply finish_stops; [exact IV|]. apply (stops_env _ E2); auto.
      destruct o; try discriminate IV; exact RO. }
  set (b0 := mkvst (cur st) stk env (s_w s)) in *.
  (* the body *)
  assert (BODY : forall rt' h1, (forall p, In p R -> t' p = rt') -> -1 <= rt' < 2 ^ 31 ->
    covered E2 h1 (cur st) (cur st1) ->
    reach G (set_ret E2 (if ne then Some rt' else None) rt') c h1 f b0 stk
      (EV f body s) (fun v => used (cur st1) u v stk)).
  { intros rt' h1 HR' HB' HC'. apply (M1 rt' (if ne then Some rt' else None) HR' HG).
    - destruct HT2 as (T1' & T2' & T3' & T4'). unfold tgt_ok. cbn [set_ret r_brk r_nxt r_ret rt_of].
      repeat (split; [assumption|]). intros t0. destruct ne; congruence.
    - exact OK2.
    - destruct CO as [A1 A2]. constructor; [exact A1|]. unfold ens_top. cbn [push_jd set_jds jds jd_ens].
      cbn [set_ret r_ret]. destruct ne; reflexivity.
    - exact HC'.
    - exact ER.
    - exact CL. }
  set (hb := match dest with Some q => Some (q, false) | None => h end).
  assert (HC1 : covered E2 hb (cur st) (cur st1)).
  { intros pc Hpc. unfold E2, hb, handler_env. destruct dest; [|apply CV; lia].
    cbn [set_hf r_hf]. replace (cur st <? pc) with true by lia. replace (pc <=? cur st1) with true by lia.
    reflexivity. }
  assert (RX : exists rtx, (forall p, In p R -> t' p = rtx) /\ -1 <= rtx < 2 ^ 31 /\ (R <> [] -> rtx = rt)).
  { destruct (list_eq_dec Z.eq_dec R []) as [->|NE].
    - exists (-1). split; [intros p []|]. split; [lia|congruence].
    - exists rt. specialize (RTB NE). split; [exact TR|]. split; [lia|auto]. }
  destruct RX as (rtx & RX1 & RX2 & RX3).
  pose proof (BODY rtx hb RX1 RX2 HC1) as MB.
  cbn [eval]. unfold eval_begin.
  destruct (EV f body s) as [v s1|v s1|v s1|d v s1|v s1| |] eqn:EV1.
  - (* a value *)
    apply (DONE b0). destruct MB as (env1 & S & ER1). eapply reach_star; [exact S|].
    cbn [used fst snd]. eapply reach_star; [apply SKR|].
    rewrite <- (bindv_Val (match els with Some e => EV f e s1 | None => Val v s1 end)).
    eapply reach_bind.
    + apply M3; subs.
    + intros v1 s2 env2 _ ER2. cbn [used fst snd]. eapply reach_star; [apply SK|].
      apply reach_val; [reflexivity|reflexivity|exact ER2].
  - (* break *)
    apply finish_stops; [reflexivity|]. cbn [ProofsCore2.reach ProofsCore2.stops set_ret r_brk] in MB |- *.
    rewrite <- EB. exact MB.
  - apply finish_stops; [reflexivity|]. cbn [ProofsCore2.reach ProofsCore2.stops set_ret r_nxt] in MB |- *.
    rewrite <- EN. exact MB.
  - (* return *)
    cbn [ProofsCore2.reach ProofsCore2.stops set_ret r_ret] in MB. unfold ne in *.
    destruct ens as [e|] eqn:EE.
    + destruct d; [exact I|]. cbn [negb].
      destruct (list_eq_dec Z.eq_dec R []) as [RE|NE].
      * exfalso.
        pose proof (BODY (-1) hb ltac:(rewrite RE; intros p []) ltac:(lia) HC1) as B1'.
        pose proof (BODY (2 ^ 31 - 1) hb ltac:(rewrite RE; intros p []) ltac:(lia) HC1) as B2'.
        cbn [ProofsCore2.reach ProofsCore2.stops set_ret r_ret] in B1', B2'.
        destruct B1' as (e1 & j1 & S1 & _). destruct B2' as (e2 & j2 & S2 & _).
        assert (O1 : -1 < 0 \/ zlength (pr_code G) <= -1) by lia.
        assert (O2 : 2 ^ 31 - 1 < 0 \/ zlength (pr_code G) <= 2 ^ 31 - 1) by lia.
        assert (Q := star_end _ _ _ _ S1 S2 (off_code G _ _ _ _ O1) (off_code G _ _ _ _ O2)). discriminate Q.
      * rewrite (RX3 NE) in MB. destruct MB as (env1 & junk & S & ER1).
        rewrite finish_ret. eapply reach_star; [exact S|].
        apply (reach_env _ E2); auto. apply (RET NE); subs.
    + cbn [finish ProofsCore2.reach ProofsCore2.stops]. destruct d; exact MB.
  - (* an exception *)
    cbn [ProofsCore2.reach ProofsCore2.stops] in MB. unfold hb in MB.
    destruct rescues as [|r0 rs].
    + destruct (RN eq_refl) as [-> _]. apply finish_stops; [reflexivity|]. exact MB.
    + destruct (RS ltac:(discriminate)) as (q & -> & QB).
      destruct MB as (env1 & S & ER1).
      pose proof (CL OK1) as ->.
      pose proof (HND q (cur st4) eq_refl ltac:(lia) TE f c h v OK3 OK5 ltac:(ctx) ltac:(cov) s1 env1 ER1) as MC.
      destruct (eval_clauses P (EV f) std v (r0 :: rs) s1) as [s2|o].
      * rewrite finish_exn. eapply reach_star; [exact S|]. apply (reach_env _ E2); auto.
      * apply (DONE b0). eapply reach_star; [exact S|]. exact MC.
  - apply finish_stops; [reflexivity|]. exact MB.
  - destruct ens; exact I.
Qed.
End Compile.
