(** Case expressions: the code generated for them does what they mean. *)
From Coq Require Import ZArith List Bool Lia Permutation.
From Verif Require Import Base ModelValue ModelInst ProofsInst ModelCodegen ModelVM
  SpecCore ProofsValue ProofsCore1 ProofsCore2 ProofsCore3 ProofsCore4 ProofsCore5.
Import ListNotations.
Open Scope Z_scope.

Lemma run_holes blk H a b M : run blk H a b M -> forall p, In p H -> cur a < p <= cur b.
Proof.
  intros R p I. apply in_split in I as (x & y & ->).
  eapply (run_hole blk (x ++ y)). eapply run_weaken; [exact R| |intros ? ? ? K; exact K].
  symmetry. apply Permutation_middle.
Qed.

Lemma find_unique {A} (f : A -> bool) l x :
  (length (filter f l) <= 1)%nat -> In x l -> f x = true -> find f l = Some x.
Proof.
  induction l as [|y l IH]; intros L I F; [destruct I|]. cbn [filter find] in *.
  destruct (f y) eqn:FY.
  - destruct I as [->|I]; [reflexivity|]. exfalso.
    assert (K : In x (filter f l)) by (apply filter_In; auto).
    destruct (filter f l); [destruct K|cbn in L; lia].
  - destruct I as [->|I]; [congruence|]. apply IH; auto.
Qed.

Section Compile.
Context {W : Type}.
Variable P : prims W.
Variable cx : sctx.
Hypothesis PO : prims_ok P.

Notation setter := (sc_setter cx).
Notation std := (sc_stderr cx).
Notation blk := (blk cx).
Notation reach := (reach P cx).
Notation stops := (stops P cx).
Notation erel := (erel cx).
Notation star := (star P).
Notation compiled := (compiled P cx setter std).
Notation cgen := (cgen P cx).
Notation sem := (sem P cx).
Notation EV f := (eval P setter std f).

Definition wparts (b : list node * node) : Prop := Forall compiled (fst b) /\ compiled (snd b).

Notation upto t := (0 <= t < 2 ^ 31).

(** ** Without a value to compare *)
Lemma bool_labels_run labs : Forall compiled labs -> forall ds st ds' st',
  bool_labels (gen cx) labs ds st = Ok (ds', st') ->
  exists new, ds' = ds ++ new /\ run blk new st st' (fun _ _ _ => True).
Proof.
  induction 1 as [|x labs HX HL IH]; intros ds st ds' st' H; cbn [bool_labels] in H.
  - assert (E : ds' = ds /\ st' = st) by (split; congruence). destruct E as [-> ->].
    exists []. rewrite app_nil_r. split; [reflexivity|apply run_refl].
  - ub H. fold (bool_labels (gen cx)) in H.
    destruct (IH _ _ _ _ H) as (new & -> & R).
    pose proof (run_jump blk (JJ oJMP_F) st0) as R2. cbn [jinst] in R2. cbv zeta in R2.
    exists (cur (emit (IJ oJMP_F 0) st0) :: new). rewrite <- app_assoc. split; [reflexivity|].
    eapply run_weaken; [exact (run_trans _ _ _ _ _ _ _ _ (HX _ _ _ B)
       (run_trans _ _ _ _ _ _ _ _ R2 R))|reflexivity|auto].
Qed.

Lemma bool_branches_ok (u : bool) l : Forall wparts l -> forall ends st ends' st',
  bool_branches (gen cx) u l ends st = Ok (ends', st') ->
  exists new, ends' = ends ++ new /\ run blk new st st' (fun G E t => good G -> tgt_ok E ->
    forall tend, upto tend -> (forall p, In p new -> t p = tend) ->
    forall f c h els stk,
      forallb (fun b => (length (fst b) =? 1)%nat
                        && forallb (ok blk c true) (fst b) && ok blk c u (snd b)) l = true ->
      ctx_ok (in_loop st) (ens_top st) c E -> covered E h (cur st) (cur st') ->
      (f_clean c = true -> stk = []) ->
      (forall s env, erel s env ->
         reach G E c h f (mkvst (cur st') stk env (s_w s)) stk (els s) (fun v => used tend u v stk)) ->
      forall s env, erel s env ->
      reach G E c h f (mkvst (cur st) stk env (s_w s)) stk (eval_conds (EV f) els l s)
        (fun v => used tend u v stk)).
Proof.
  induction 1 as [|[labs body] l [HLS HB] HL IH]; intros ends st ends' st' H; cbn [bool_branches] in H.
  - assert (E : ends' = ends /\ st' = st) by (split; congruence). destruct E as [-> ->].
    exists []. rewrite app_nil_r. split; [reflexivity|].
    eapply run_weaken; [apply run_refl|reflexivity|]. cbv beta.
    intros G E t _ HG HT tend TB TE f c h els stk OK CO CV CL EL s env ER. exact (EL s env ER).
  - ub H. destruct st0 as [ds st1]. ub H. rename st0 into st2. ub H. rename st0 into st4.
    fold (bool_branches (gen cx) u) in H.
    set (st3 := emit (IJ oJMP 0) st2) in *.
    destruct (IH _ _ _ _ H) as (new & -> & R5). clear IH.
    cbn [fst snd] in HLS, HB.
    pose proof (HB _ _ _ B0) as R2.
    pose proof (run_jump blk (JJ oJMP) st2) as R3. cbn [jinst] in R3. cbv zeta in R3. fold st3 in R3.
    exists (cur st3 :: new). rewrite <- app_assoc. split; [reflexivity|].
    assert (CASE : (exists x, labs = [x] /\ ds = [cur st1] /\
               run blk [cur st1] st st1 (cond_sem P cx true x st st1)) \/
             (length labs <> 1%nat /\ run blk ds st st1 (fun _ _ _ => True))).
    { destruct labs as [|x [|y labs]].
      - right. split; [discriminate|]. destruct (bool_labels_run _ HLS _ _ _ _ B) as (n & -> & R). exact R.
      - left. exists x. split; [reflexivity|]. inversion HLS as [|? ? HX _]; subst.
        cbn [bool_labels] in B. ub B.
        assert (E : ds = [cur (emit (IJ oJMP_F 0) st0)] /\ st1 = emit (IJ oJMP_F 0) st0)
          by (split; cbn in B; congruence). destruct E as [-> ->]. split; [reflexivity|].
        apply cond_plain; [exact HX|]. rewrite B2. reflexivity.
      - right. split; [discriminate|]. destruct (bool_labels_run _ HLS _ _ _ _ B) as (n & -> & R). exact R. }
    destruct CASE as [(x & -> & -> & R1)|[NE R1]].
    + pose proof (run_trans _ _ _ _ _ _ _ _ R1 (run_trans _ _ _ _ _ _ _ _ R2 R3)) as R. cbn [app] in R.
      facts R1. facts R2. facts R3.
      destruct (run_patches blk [cur st1] [cur st3] _ _ _ _ R B1) as (R4 & CU & _). clear R.
      facts R4. facts R5.
      pose proof (run_hole _ _ _ _ _ _ R3) as HO3.
      pose proof (run_len _ _ _ _ _ (run_trans _ _ _ _ _ _ _ _ R4 R5)) as R.
      eapply run_weaken; [exact R|reflexivity|]. cbv beta.
      intros G E t (LEN & (M1 & M2 & M3) & M5) HG HT tend TB TE f c h els stk OK CO CV CL EL s env ER.
      cbn [rev app upds] in M1, M3. unfold cond_sem in M1. rewrite upd_same in M1.
      rewrite upd_other in M3 by lia. rewrite (TE (cur st3)) in M3 by (left; reflexivity).
      rewrite CU in *. pose proof (g_short _ HG). pose proof (cur_nonneg st3).
      cbn [forallb fst snd length Nat.eqb] in OK. apply andb_prop in OK as [OK OKR].
      apply andb_prop in OK as [OKX OKB]. cbn [andb] in OKX. apply andb_prop in OKX as [OKX _].
      cbn [eval_conds eval_any]. fold (eval_conds (EV f) els). eapply reach_bind.
      * apply (M1 HG HT); first [lia|subs].
      * intros v s1 env1 _ ER1. cbn [fst snd]. destruct (to_bool v); cbn [eqb].
        -- rewrite <- (bindv_Val (EV f body s1)). eapply reach_bind.
           ++ apply (M2 HG HT); subs.
           ++ intros v1 s2 env2 _ ER2. cbn [used fst snd].
              eapply reach_next; [exact M3|apply (jump_fits G); auto; lia|reflexivity|].
              replace (cur st3 + (tend - cur st3)) with tend by lia.
              apply reach_val; [reflexivity|reflexivity|exact ER2].
        -- eapply (M5 HG HT tend TB); first [assumption|ctx|cov|idtac].
           intros p I. apply TE. right. exact I.
    + pose proof (run_trans _ _ _ _ _ _ _ _ R1 (run_trans _ _ _ _ _ _ _ _ R2 R3)) as R. cbn [app] in R.
      destruct (run_patches blk ds [cur st3] _ _ _ _ R B1) as (R4 & CU & _). clear R.
      eapply run_weaken; [exact (run_trans _ _ _ _ _ _ _ _ R4 R5)|reflexivity|]. cbv beta.
      intros G E t _ HG HT tend TB TE f c h els stk OK. exfalso.
      cbn [forallb fst] in OK. apply andb_prop in OK as [OK _]. apply andb_prop in OK as [OK _].
      apply andb_prop in OK as [OK _]. apply Nat.eqb_eq in OK. contradiction.
Qed.

Lemma case_none_ok whens els : Forall wparts whens -> compiled els ->
  compiled (NCase None whens els).
Proof.
  intros HW HE u st st' H. cbn [gen gen_case] in H. ub H. destruct st0 as [ends st1].
  ub H. rename st0 into st2.
  destruct (bool_branches_ok u _ HW _ _ _ _ B) as (new & EN & R1). cbn [app] in EN. subst ends.
  pose proof (HE _ _ _ B0) as R2. facts R1. facts R2.
  pose proof (run_len _ _ _ _ _ (run_trans _ _ _ _ _ _ _ _ R1 R2)) as R. 
  destruct (run_patches blk new [] _ _ _ _ R H) as (R4 & CU & _).
  eapply run_weaken; [exact R4|reflexivity|]. cbv beta.
  intros G E t (LEN & M1 & M2) HG HT f c h s env stk OK CO CV ER CL.
  rewrite CU in *. pose proof (g_short _ HG). pose proof (cur_nonneg st2).
  cbn [ok] in OK. apply andb_prop in OK as [OK1 OK2]. cbn [eval].
  eapply (M1 HG HT (cur st2)); first [assumption|ctx|cov|idtac].
  - lia.
  - intros p I. apply upds_in. apply -> in_rev. exact I.
  - intros s1 env1 ER1. apply (M2 HG HT); subs.
Qed.

(** ** One label after the other *)

(** The same generator with the jump to the next branch patched at the end of
    the branch. *)
Definition seq_branch (u : bool) (labs : list node) (body : node) (st : cg) : res (Z * Z * cg) :=
  x <- seq_labels (gen cx) labs [] st ;;
  let '(dests, st) := x in
  let st := emit (IJ oJMP 0) st in
  let next := cur st in
  st <- wcurs dests st ;;
  let st := emit (I0 oPOP) st in
  st <- gen cx body u st ;;
  let st := emit (IJ oJMP 0) st in
  Ok (next, cur st, st).

Fixpoint seq_branches' (u : bool) (l : list (list node * node)) (ends : list Z) (st : cg)
  : res (list Z * cg) :=
  match l with
  | [] => Ok (ends, st)
  | (labs, body) :: r =>
      x <- seq_branch u labs body st ;;
      let '(next, e, st) := x in
      st <- wcur next st ;;
      seq_branches' u r (ends ++ [e]) st
  end.

Lemma seq_branches_eq u l : forall next ends st,
  (x <- seq_branches (gen cx) u l next ends st ;;
   let '(n, e, s) := x in s <- wcur_opt n s ;; Ok (e, s)) =
  (s <- wcur_opt next st ;; seq_branches' u l ends s).
Proof.
  induction l as [|[labs body] l IH]; intros next ends st; cbn [seq_branches seq_branches'].
  - reflexivity.
  - destruct (wcur_opt next st) as [st1| |]; cbn [rbind]; try reflexivity.
    unfold seq_branch.
    destruct (seq_labels (gen cx) labs [] st1) as [[ds st2]| |]; cbn [rbind]; try reflexivity.
    destruct (wcurs ds (emit (IJ oJMP 0) st2)) as [st3| |]; cbn [rbind]; try reflexivity.
    destruct (gen cx body u (emit (I0 oPOP) st3)) as [st4| |]; cbn [rbind]; try reflexivity.
    fold (seq_branches (gen cx) u). rewrite IH. reflexivity.
Qed.

Lemma seq_labels_ok labs : Forall compiled labs -> forall ds st ds' st',
  seq_labels (gen cx) labs ds st = Ok (ds', st') ->
  exists new, ds' = ds ++ new /\ run blk new st st' (fun G E t => good G -> tgt_ok E ->
    forall ty, upto ty -> (forall p, In p new -> t p = ty) ->
    forall f c h v yes no stk K,
      forallb (ok blk (pend c) true) labs = true ->
      ctx_ok (in_loop st) (ens_top st) c E -> covered E h (cur st) (cur st') ->
      (forall s env, erel s env ->
         reach G E c h f (mkvst ty (v :: stk) env (s_w s)) stk (yes s) K) ->
      (forall s env, erel s env ->
         reach G E c h f (mkvst (cur st') (v :: stk) env (s_w s)) stk (no s) K) ->
      forall s env, erel s env ->
      reach G E c h f (mkvst (cur st) (v :: stk) env (s_w s)) stk (eval_labels P (EV f) v yes no labs s) K).
Proof.
  induction 1 as [|x labs HX HL IH]; intros ds st ds' st' H; cbn [seq_labels] in H.
  - assert (E : ds' = ds /\ st' = st) by (split; congruence). destruct E as [-> ->].
    exists []. rewrite app_nil_r. split; [reflexivity|].
    eapply run_weaken; [apply run_refl|reflexivity|]. cbv beta.
    intros G E t _ HG HT ty TB TE f c h v yes no stk K OK CO CV Y N s env ER. exact (N s env ER).
  - ub H. fold (seq_labels (gen cx)) in H. rename st0 into st2.
    set (st1 := emit (I32 oDUP 1) st) in *. set (st3 := emit (I32 oSINKN 1) st2) in *.
    set (st4 := emit (I0 oTEQ) st3) in *. set (st5 := emit (IJ oJMP_T 0) st4) in *.
    destruct (IH _ _ _ _ H) as (new & -> & R6). clear IH.
    pose proof (run_emit blk (I32 oDUP 1) st) as R1. fold st1 in R1.
    pose proof (HX _ _ _ B) as R2.
    pose proof (run_emit blk (I32 oSINKN 1) st2) as R3. fold st3 in R3.
    pose proof (run_emit blk (I0 oTEQ) st3) as R4. fold st4 in R4.
    pose proof (run_jump blk (JJ oJMP_T) st4) as R5. cbn [jinst] in R5. cbv zeta in R5. fold st5 in R5.
    exists (cur st5 :: new). rewrite <- app_assoc. split; [reflexivity|].
    facts R1. facts R2. facts R3. facts R4. facts R5. facts R6.
    eapply run_weaken; [exact (run_len _ _ _ _ _ (run_trans _ _ _ _ _ _ _ _ R1 (run_trans _ _ _ _ _ _ _ _ R2
      (run_trans _ _ _ _ _ _ _ _ R3 (run_trans _ _ _ _ _ _ _ _ R4 (run_trans _ _ _ _ _ _ _ _ R5 R6))))))|reflexivity|].
    cbv beta.
    intros G E t (LEN & M1 & M2 & M3 & M4 & M5 & M6) HG HT ty TB TE f c h v yes no stk K OK CO CV Y N s env ER.
    rewrite (TE (cur st5)) in M5 by (left; reflexivity).
    pose proof (g_short _ HG). pose proof (cur_nonneg st5).
    cbn [forallb] in OK. apply andb_prop in OK as [OK1 OK2].
    cbn [eval_labels]. fold (eval_labels P (EV f) v yes no).
    eapply reach_next; [exact M1|cbn; unfold u32_ok; lia|reflexivity|]. cbn [firstn Z.to_nat v_stk app].
    change (firstn (Pos.to_nat 1) (v :: stk) ++ v :: stk) with (v :: v :: stk).
    eapply reach_bind_pend.
    + apply (M2 HG HT); subs.
    + intros lab s1 env1 _ ER1. cbn [used fst snd].
      eapply reach_next; [exact M3|cbn; unfold u32_ok; lia|reflexivity|].
      change (firstn (Z.to_nat 1) (v :: v :: stk) ++ lab :: skipn (Z.to_nat 1) (v :: v :: stk))
        with (v :: lab :: v :: stk).
      cbn [v_env v_w].
      eapply reach_prim; [exact M4|cov|exact I|reflexivity|exact ER1|].
      intros b w _ ER2.
      eapply reach_next; [exact M5|apply (jump_fits G); auto; lia|reflexivity|]. cbn [v_env v_w].
      unfold jmp_cond. destruct (to_bool b); cbn [negb].
      * replace (cur st5 + (ty - cur st5)) with ty by lia. exact (Y _ _ ER2).
      * change w with (s_w (set_w w s1)).
        eapply (M6 HG HT ty TB); first [eassumption|ctx|cov|idtac].
        intros p I. apply TE. right. exact I.
Qed.

Lemma seq_branch_ok (u : bool) labs body st next e st' : Forall compiled labs -> compiled body ->
  seq_branch u labs body st = Ok (next, e, st') ->
  e = cur st' /\ next < e /\
  run blk [next; e] st st' (fun G E t => good G -> tgt_ok E ->
    upto (t e) -> upto (t next) ->
    forall f c h v no stk,
      forallb (ok blk (pend c) true) labs = true -> ok blk c u body = true ->
      ctx_ok (in_loop st) (ens_top st) c E -> covered E h (cur st) (cur st') ->
      (f_clean c = true -> stk = []) ->
      (forall s env, erel s env ->
         reach G E c h f (mkvst (t next) (v :: stk) env (s_w s)) stk (no s) (fun v => used (t e) u v stk)) ->
      forall s env, erel s env ->
      reach G E c h f (mkvst (cur st) (v :: stk) env (s_w s)) stk
        (eval_labels P (EV f) v (EV f body) no labs s) (fun v => used (t e) u v stk)).
Proof.
  intros HL HB H. unfold seq_branch in H. ub H. destruct st0 as [ds st1]. cbv zeta in H.
  ub H. rename st0 into st3. ub H. rename st0 into st5.
  set (st2 := emit (IJ oJMP 0) st1) in *. set (st4 := emit (I0 oPOP) st3) in *.
  set (st6 := emit (IJ oJMP 0) st5) in *.
  assert (E : next = cur st2 /\ e = cur st6 /\ st' = st6) by (repeat split; congruence).
  destruct E as (-> & -> & ->).
  destruct (seq_labels_ok _ HL _ _ _ _ B) as (new & EN & R1). cbn [app] in EN. subst ds.
  pose proof (run_jump blk (JJ oJMP) st1) as R2. cbn [jinst] in R2. cbv zeta in R2. fold st2 in R2.
  facts R1. facts R2.
  pose proof (run_holes _ _ _ _ _ R1) as HO1. pose proof (run_hole _ _ _ _ _ _ R2) as HO2.
  destruct (run_patches blk new [cur st2] _ _ _ _ (run_trans _ _ _ _ _ _ _ _ R1 R2) B0) as (R3 & CU & _).
  facts R3.
  pose proof (run_emit blk (I0 oPOP) st3) as R4. fold st4 in R4.
  pose proof (HB _ _ _ B1) as R5.
  pose proof (run_jump blk (JJ oJMP) st5) as R6. cbn [jinst] in R6. cbv zeta in R6. fold st6 in R6.
  facts R4. facts R5. facts R6. pose proof (run_hole _ _ _ _ _ _ R6) as HO6.
  rewrite CU in *.
  split; [reflexivity|]. split; [lia|].
  eapply run_weaken; [exact (run_len _ _ _ _ _ (run_trans _ _ _ _ _ _ _ _ R3
    (run_trans _ _ _ _ _ _ _ _ R4 (run_trans _ _ _ _ _ _ _ _ R5 R6))))|reflexivity|]. cbv beta.
  intros G E t (LEN & (M1 & M2) & M4 & M5 & M6) HG HT TB1 TB2 f c h v no stk OKL OKB CO CV CL N s env ER.
  rewrite upds_notin in M2.
  2: { intros I. apply in_rev in I. apply HO1 in I. lia. }
  pose proof (g_short _ HG). pose proof (cur_nonneg st2). pose proof (cur_nonneg st6).
  eapply (M1 HG HT (cur st2)); first [eassumption|ctx|cov|idtac].
  - lia.
  - intros p I. apply upds_in. apply -> in_rev. exact I.
  - intros s1 env1 ER1. cbv beta.
    eapply reach_next; [exact M4|exact I|reflexivity|]. cbn [v_env v_w].
    rewrite <- (bindv_Val (EV f body s1)). eapply reach_bind.
    + apply (M5 HG HT); subs.
    + intros v1 s2 env2 _ ER2. cbn [used fst snd].
      eapply reach_next; [exact M6|apply (jump_fits G); auto; lia|reflexivity|].
      replace (cur st6 + (t (cur st6) - cur st6)) with (t (cur st6)) by lia.
      apply reach_val; [reflexivity|reflexivity|exact ER2].
  - intros s1 env1 ER1.
    eapply reach_next; [exact M2|apply (jump_fits G); auto; lia|reflexivity|]. cbn [v_stk v_env v_w].
    replace (cur st2 + (t (cur st2) - cur st2)) with (t (cur st2)) by lia. apply N. exact ER1.
Qed.

Definition cparts (b : list node * node) : Prop := Forall compiled (fst b) /\ compiled (snd b).

Lemma seq_branches_ok (u : bool) whens : Forall cparts whens -> forall ends st ends' st',
  seq_branches' u whens ends st = Ok (ends', st') ->
  exists new, ends' = ends ++ new /\ run blk new st st' (fun G E t => good G -> tgt_ok E ->
    forall te, upto te -> (forall p, In p new -> t p = te) ->
    forall f c h v els stk,
      forallb (fun b => forallb (ok blk (pend c) true) (fst b) && ok blk c u (snd b)) whens = true ->
      ctx_ok (in_loop st) (ens_top st) c E -> covered E h (cur st) (cur st') ->
      (f_clean c = true -> stk = []) ->
      (forall s env, erel s env ->
         reach G E c h f (mkvst (cur st') (v :: stk) env (s_w s)) stk (els s) (fun v => used te u v stk)) ->
      forall s env, erel s env ->
      reach G E c h f (mkvst (cur st) (v :: stk) env (s_w s)) stk
        (eval_branches P (EV f) v els whens s) (fun v => used te u v stk)).
Proof.
  induction 1 as [|[labs body] whens [HL HB] HW IH]; intros ends st ends' st' H; cbn [seq_branches'] in H.
  - assert (E : ends' = ends /\ st' = st) by (split; congruence). destruct E as [-> ->].
    exists []. rewrite app_nil_r. split; [reflexivity|].
    eapply run_weaken; [apply run_refl|reflexivity|]. cbv beta.
    intros G E t _ HG HT te TB TE f c h v els stk OK CO CV CL N s env ER. exact (N s env ER).
  - ub H. destruct st0 as [[next e] st1]. ub H. rename st0 into st2. cbn [fst snd] in *.
    destruct (seq_branch_ok _ _ _ _ _ _ _ HL HB B) as (E1 & LT & R1). facts R1.
    destruct (run_patch _ _ _ (cur st1) _ _ _ _ R1 B0) as (R2 & CU & _). facts R2.
    destruct (IH _ _ _ _ H) as (new & -> & R3). facts R3. clear IH.
    exists (e :: new). rewrite <- app_assoc. split; [reflexivity|].
    eapply run_weaken; [exact (run_len _ _ _ _ _ (run_trans _ _ _ _ _ _ _ _ R2 R3))|reflexivity|]. cbv beta.
    intros G E t (LEN & M1 & M3) HG HT te TB TE f c h v els stk OK CO CV CL N s env ER.
    rewrite CU in *.
    pose proof (g_short _ HG). pose proof (cur_nonneg st1).
    rewrite upd_same, upd_other in M1 by lia. rewrite (TE e) in M1 by (left; reflexivity).
    cbn [forallb fst snd] in OK. apply andb_prop in OK as [OK1 OK2]. apply andb_prop in OK1 as [OKL OKB].
    cbn [eval_branches]. fold (eval_branches P (EV f) v els).
    eapply (M1 HG HT); first [eassumption|ctx|cov|idtac].
    + lia.
    + intros s1 env1 ER1.
      eapply (M3 HG HT te TB); first [eassumption|ctx|cov|idtac].
      intros p I. apply TE. right. exact I.
Qed.

Lemma seq_case_ok whens els c0 (u : bool) st st' : compiled c0 -> Forall cparts whens -> compiled els ->
  (st1 <- gen cx c0 true st ;;
   x <- seq_branches (gen cx) u whens None [] st1 ;;
   let '(next, ends, st) := x in
   st <- wcur_opt next st ;;
   st <- gen cx els u (emit (I0 oPOP) st) ;;
   wcurs ends st) = Ok st' ->
  all_labels is_lit whens = false ->
  run blk [] st st' (fun G E t => good G -> tgt_ok E ->
    sem (in_loop st) (ens_top st) (fun c => ok blk c u (NCase (Some c0) whens els))
      (fun f => EV f (NCase (Some c0) whens els)) (cur st) (cur st') (used (cur st') u) G E).
Proof.
  intros HC HW HE H AL. ub H. rename st0 into st1.
  assert (Q : (s <- wcur_opt None st1 ;; seq_branches' u whens [] s) =
              (x <- seq_branches (gen cx) u whens None [] st1 ;;
               let '(n, e, s) := x in s <- wcur_opt n s ;; Ok (e, s)))
    by (symmetry; apply seq_branches_eq).
  cbn [wcur_opt rbind] in Q.
  ub H. destruct st0 as [[next ends] st2]. cbn [rbind] in Q.
  ub H. rename st0 into st3. cbn [rbind] in Q. ub H. rename st0 into st5.
  pose proof (HC _ _ _ B) as R1. facts R1.
  destruct (seq_branches_ok u _ HW _ _ _ _ Q) as (new & EN & R2). cbn [app] in EN. subst ends. facts R2.
  set (st4 := emit (I0 oPOP) st3) in *.
  pose proof (run_emit blk (I0 oPOP) st3) as R3. fold st4 in R3.
  pose proof (HE _ _ _ B2) as R4. facts R3. facts R4.
  pose proof (run_len _ _ _ _ _ (run_trans _ _ _ _ _ _ _ _ R1 (run_trans _ _ _ _ _ _ _ _ R2
     (run_trans _ _ _ _ _ _ _ _ R3 R4)))) as R.
  destruct (run_patches blk new [] _ _ _ _ R H) as (R5 & CU & _).
  eapply run_weaken; [exact R5|reflexivity|]. cbv beta.
  intros G E t (LEN & M1 & M2 & M3 & M4) HG HT f c h s env stk OK CO CV ER CL.
  rewrite CU in *. pose proof (g_short _ HG). pose proof (cur_nonneg st5).
  cbn [ok] in OK. apply andb_prop in OK as [OK OK3]. apply andb_prop in OK as [OK1 OK2]. cbn [eval].
  eapply reach_bind.
  - apply (M1 HG HT); subs.
  - intros v s1 env1 _ ER1. cbn [used fst snd]. unfold eval_case, plain_case. rewrite AL.
    eapply (M2 HG HT (cur st5)); first [eassumption|ctx|cov|idtac].
    + lia.
    + intros p I. apply upds_in. apply -> in_rev. exact I.
    + intros s2 env2 ER2.
      eapply reach_next; [exact M3|exact I|reflexivity|]. cbn [v_env v_w].
      apply (M4 HG HT); subs.
Qed.

(** ** Through a table *)
Lemma fold_lab {K} (lab : node -> option K) (d : Z) labs : forall map,
  exists t, fold_left (fun m n => match lab n with Some k => (k, d) :: m | None => m end) labs map
            = t ++ map /\
    (forall k e, In (k, e) t -> e = d /\ exists n, In n labs /\ lab n = Some k) /\
    (forall n k, In n labs -> lab n = Some k -> In (k, d) t).
Proof.
  induction labs as [|x labs IH]; intros map; cbn [fold_left].
  - exists []. split; [reflexivity|]. split; [intros k e []|intros n k []].
  - destruct (IH (match lab x with Some k => (k, d) :: map | None => map end)) as (t & E & A & B).
    destruct (lab x) as [k0|] eqn:LX.
    + exists (t ++ [(k0, d)]). split; [rewrite E, <- app_assoc; reflexivity|]. split.
      * intros k e I. apply in_app_or in I as [I|[I|[]]].
        -- destruct (A _ _ I) as (-> & n & N1 & N2). split; [reflexivity|]. exists n. split; [right|]; assumption.
        -- assert (k = k0 /\ e = d) as [-> ->] by (split; congruence).
           split; [reflexivity|]. exists x. split; [left; reflexivity|exact LX].
      * intros n k [->|I] L; apply in_or_app; [right; left; congruence|left; eauto].
    + exists t. split; [exact E|]. split.
      * intros k e I. destruct (A _ _ I) as (-> & n & N1 & N2). split; [reflexivity|].
        exists n. split; [right|]; assumption.
      * intros n k [->|I] L; [congruence|eauto].
Qed.

Lemma table_branches_ok {K} (lab : node -> option K) (u : bool) start whens :
  Forall (fun b => compiled (snd b)) whens -> forall map ends st map' ends' st',
  0 <= start <= cur st ->
  table_branches (gen cx) lab u start whens map ends st = Ok (map', ends', st') ->
  exists new tbl, ends' = ends ++ new /\ map' = tbl ++ map /\
    (forall b n k, In b whens -> In n (fst b) -> lab n = Some k -> exists d, In (k, d) tbl) /\
    run blk new st st' (fun G E t => good G -> tgt_ok E ->
      forall te, upto te -> (forall p, In p new -> t p = te) ->
      forall k d, In (k, d) tbl -> exists b, In b whens /\ (exists n, In n (fst b) /\ lab n = Some k) /\
      forall f c h stk, ok blk c u (snd b) = true ->
        ctx_ok (in_loop st) (ens_top st) c E -> covered E h (cur st) (cur st') ->
        (f_clean c = true -> stk = []) ->
        forall s env, erel s env ->
        reach G E c h f (mkvst (start + d) stk env (s_w s)) stk (EV f (snd b) s) (fun v => used te u v stk)).
Proof.
  induction 1 as [|[labs body] whens HB HW IH]; intros map ends st map' ends' st' SB H;
    cbn [table_branches] in H.
  - assert (E : map' = map /\ ends' = ends /\ st' = st) by (repeat split; congruence).
    destruct E as (-> & -> & ->).
    exists [], []. rewrite app_nil_r. split; [reflexivity|]. split; [reflexivity|].
    split; [intros b n k []|].
    eapply run_weaken; [apply run_refl|reflexivity|]. cbv beta.
    intros G E t _ HG HT te TB TE k d [].
  - cbv zeta in H. ub H. fold (table_branches (gen cx) lab u start) in H. rename st0 into st1.
    set (st2 := emit (IJ oJMP 0) st1) in *. cbn [snd] in HB.
    pose proof (HB _ _ _ B) as R1.
    pose proof (run_jump blk (JJ oJMP) st1) as R2. cbn [jinst] in R2. cbv zeta in R2. fold st2 in R2.
    facts R1. facts R2. pose proof (run_hole _ _ _ _ _ _ R2) as HO2.
    set (dd := pos_diff start (cur st)) in *.
    destruct (fold_lab lab dd labs map) as (t1 & E1 & A1 & A2). rewrite E1 in H. clear E1.
    assert (SB2 : 0 <= start <= cur st2) by lia.
    destruct (IH _ _ _ _ _ _ SB2 H) as (new & tbl & -> & -> & C1 & R3). clear IH. facts R3.
    exists (cur st2 :: new), (tbl ++ t1). rewrite <- !app_assoc.
    split; [reflexivity|]. split; [reflexivity|]. split.
    { intros b n k [<-|I] N L.
      - exists dd. apply in_or_app. right. eapply A2; eassumption.
      - destruct (C1 _ _ _ I N L) as (d & ID). exists d. apply in_or_app. left. exact ID. }
    eapply run_weaken; [exact (run_len _ _ _ _ _ (run_trans _ _ _ _ _ _ _ _ R1
      (run_trans _ _ _ _ _ _ _ _ R2 R3)))|reflexivity|]. cbv beta.
    intros G E t (LEN & M1 & M2 & M3) HG HT te TB TE k d I.
    rewrite (TE (cur st2)) in M2 by (left; reflexivity).
    pose proof (g_short _ HG). pose proof (cur_nonneg st).
    apply in_app_or in I as [I|I].
    + destruct (M3 HG HT te TB (fun p Q => TE p (or_intror Q)) k d I) as (b & B1 & B2 & B3).
      exists b. split; [right; exact B1|]. split; [exact B2|].
      intros f c h stk OK CO CV CL s env ER. apply B3; subs.
    + destruct (A1 _ _ I) as (-> & n & N1 & N2). exists (labs, body).
      split; [left; reflexivity|]. split; [exists n; auto|]. cbn [fst snd].
      intros f c h stk OK CO CV CL s env ER.
      unfold dd. rewrite pos_diff_ok by (unfold i32_ok; lia).
      replace (start + (cur st - start)) with (cur st) by lia.
      rewrite <- (bindv_Val (EV f body s)). eapply reach_bind.
      * apply (M1 HG HT); subs.
      * intros v1 s2 env2 _ ER2. cbn [used fst snd].
        eapply reach_next; [exact M2|apply (jump_fits G); auto; lia|reflexivity|].
        replace (cur st2 + (te - cur st2)) with te by lia.
        apply reach_val; [reflexivity|reflexivity|exact ER2].
Qed.

Lemma eval_literal n l f s : literal n = Some l -> EV f n s = Val l s.
Proof. destruct n; cbn [literal]; intros H; try discriminate; cbn [eval]; congruence. Qed.

(** When [===] answers as identity does, the branch taken is the first that
    has the value among its labels. *)
Lemma eval_labels_lit f v yes no ints labs s :
  forallb (fun l => match literal l with
                    | Some x => match p_bin P BTEq x v (s_w s) with
                                | POk b _ => Bool.eqb (to_bool b) (same_value P ints l v (s_w s))
                                | PRaise _ _ => false
                                end
                    | None => true
                    end) labs = true ->
  forallb is_lit labs = true ->
  eval_labels P (EV f) v yes no labs s =
  if existsb (fun l => same_value P ints l v (s_w s)) labs then yes s else no s.
Proof.
  induction labs as [|x labs IH]; intros A B; [reflexivity|].
  cbn [forallb existsb eval_labels] in *. fold (eval_labels P (EV f) v yes no).
  apply andb_prop in A as [A1 A2]. apply andb_prop in B as [B1 B2].
  unfold is_lit in B1. destruct (literal x) as [l|] eqn:L; [|discriminate].
  rewrite (eval_literal _ _ _ _ L). cbn [bindv].
  destruct (p_bin P BTEq l v (s_w s)) as [b w|] eqn:Q; [|discriminate].
  pose proof (ok_teq _ PO _ _ _ _ _ _ L Q) as ->.
  apply Bool.eqb_prop in A1. rewrite <- A1. cbn [prim bindv].
  rewrite set_w_id. destruct (to_bool b); [reflexivity|]. cbn [orb]. apply IH; assumption.
Qed.

Lemma eval_branches_lit f v els ints whens s :
  all_labels (fun l => match literal l with
                    | Some x => match p_bin P BTEq x v (s_w s) with
                                | POk b _ => Bool.eqb (to_bool b) (same_value P ints l v (s_w s))
                                | PRaise _ _ => false
                                end
                    | None => true
                    end) whens = true ->
  all_labels is_lit whens = true ->
  eval_branches P (EV f) v els whens s =
  match find (fun b => existsb (fun l => same_value P ints l v (s_w s)) (fst b)) whens with
  | Some b => EV f (snd b) s
  | None => els s
  end.
Proof.
  induction whens as [|[labs body] whens IH]; intros A B; [reflexivity|].
  unfold all_labels in *. cbn [forallb fst] in A, B.
  apply andb_prop in A as [A1 A2]. apply andb_prop in B as [B1 B2].
  cbn [eval_branches find fst snd]. fold (eval_branches P (EV f) v els).
  rewrite (eval_labels_lit _ _ _ _ _ _ _ A1 B1).
  destruct (existsb _ labs); [reflexivity|]. apply IH; assumption.
Qed.

Lemma find_none_all {A} (f : A -> bool) l : (forall x, In x l -> f x = false) -> find f l = None.
Proof.
  induction l as [|x l IH]; intros H; [reflexivity|]. cbn [find].
  rewrite (H x) by (left; reflexivity). apply IH. intros y I. apply H. right. exact I.
Qed.

(** A table whose keys match as the labels do. *)
Lemma table_lookup {K} (lab : node -> option K) (hit : K -> bool) (same : node -> bool)
  (whens : list (list node * node)) (tbl : list (K * Z)) :
  (forall b n, In b whens -> In n (fst b) -> exists k, lab n = Some k /\ same n = hit k) ->
  (forall b n k, In b whens -> In n (fst b) -> lab n = Some k -> exists d, In (k, d) tbl) ->
  (length (filter (fun b => existsb same (fst b)) whens) <= 1)%nat ->
  match find (fun e => hit (fst e)) tbl with
  | Some (k, d) => In (k, d) tbl /\ forall b, In b whens -> (exists n, In n (fst b) /\ lab n = Some k) ->
      find (fun b => existsb same (fst b)) whens = Some b
  | None => find (fun b => existsb same (fst b)) whens = None
  end.
Proof.
  intros HS HT HF. destruct (find _ tbl) as [[k d]|] eqn:F.
  - apply find_some in F as [I Hk]. cbn [fst] in Hk. split; [exact I|].
    intros b IB (n & IN & L). apply find_unique; [exact HF|exact IB|].
    apply existsb_exists. exists n. split; [exact IN|].
    destruct (HS _ _ IB IN) as (k' & L' & ->). congruence.
  - apply find_none_all. intros b IB. destruct (existsb same (fst b)) eqn:X; [|reflexivity].
    apply existsb_exists in X as (n & IN & SN). destruct (HS _ _ IB IN) as (k & L & E).
    destruct (HT _ _ _ IB IN L) as (d & ID). pose proof (find_none _ _ F _ ID) as Q. cbn [fst] in Q.
    congruence.
Qed.

Lemma map_opt_all {A B} (f : A -> option B) l r : map_opt f l = Some r ->
  (forall x, In x l -> exists y, f x = Some y /\ In y r).
Proof.
  revert r. induction l as [|a l IH]; intros r H x I; [destruct I|]. cbn [map_opt] in H.
  destruct (f a) as [y|] eqn:FA; [|discriminate]. destruct (map_opt f l) as [r'|] eqn:E; [|discriminate].
  injection H as <-. destruct I as [->|I].
  - exists y. split; [exact FA|left; reflexivity].
  - destruct (IH _ eq_refl _ I) as (z & Z1 & Z2). exists z. split; [exact Z1|right; exact Z2].
Qed.

Lemma map_opt_none {A B} (f : A -> option B) l : map_opt f l = None -> exists x, In x l /\ f x = None.
Proof.
  induction l as [|a l IH]; intros H; [discriminate|]. cbn [map_opt] in H.
  destruct (f a) as [y|] eqn:FA; [|exists a; split; [left; reflexivity|exact FA]].
  destruct (map_opt f l) as [r'|]; [discriminate|]. destruct (IH eq_refl) as (x & X1 & X2).
  exists x. split; [right; exact X1|exact X2].
Qed.

Lemma fold_min l : forall a x, In x l -> fold_left Z.min l a <= x.
Proof.
  assert (LE : forall l a, fold_left Z.min l a <= a).
  { induction l0 as [|y l0 IH]; intros a; cbn [fold_left]; [lia|]. specialize (IH (Z.min a y)). lia. }
  induction l as [|y l IH]; intros a x I; [destruct I|]. cbn [fold_left]. destruct I as [->|I].
  - specialize (LE l (Z.min a x)). lia.
  - apply IH. exact I.
Qed.

Lemma fold_max l : forall a x, In x l -> x <= fold_left Z.max l a.
Proof.
  assert (LE : forall l a, a <= fold_left Z.max l a).
  { induction l0 as [|y l0 IH]; intros a; cbn [fold_left]; [lia|]. specialize (IH (Z.max a y)). lia. }
  induction l as [|y l IH]; intros a x I; [destruct I|]. cbn [fold_left]. destruct I as [->|I].
  - specialize (LE l (Z.max a x)). lia.
  - apply IH. exact I.
Qed.

Lemma assocZ_find {A} k (l : list (Z * A)) :
  assocZ k l = match find (fun e => k =? fst e) l with Some (_, d) => Some d | None => None end.
Proof.
  induction l as [|[j a] l IH]; [reflexivity|]. cbn [assocZ find fst]. destruct (k =? j); [reflexivity|exact IH].
Qed.

Lemma all_int_labels whens labels : all_int whens = Some labels ->
  forall b n, In b whens -> In n (fst b) -> exists k, n = NInt k /\ opt_min labels <= k <= opt_max labels.
Proof.
  intros H b n IB IN. destruct (map_opt_all _ _ _ H _ IB) as (r & R1 & R2). cbv beta in R1.
  destruct (map_opt_all _ _ _ R1 _ IN) as (k & K1 & K2).
  destruct n; try discriminate. injection K1 as ->. exists k. split; [reflexivity|].
  assert (IC : In k (concat labels)) by (apply in_concat; eauto).
  unfold opt_min, opt_max. split; [apply fold_min|apply fold_max]; exact IC.
Qed.

Lemma all_labels_of f whens : (forall b n, In b whens -> In n (fst b) -> f n = true) ->
  all_labels f whens = true.
Proof.
  intros H. apply forallb_forall. intros b IB. apply forallb_forall. intros n IN. eapply H; eassumption.
Qed.

Lemma all_lit_labels whens labels : all_lit whens = Some labels ->
  forall b n, In b whens -> In n (fst b) -> exists l, literal n = Some l /\ lit_label n = Some l.
Proof.
  intros H b n IB IN. destruct (map_opt_all _ _ _ H _ IB) as (r & R1 & R2). cbv beta in R1.
  destruct (map_opt_all _ _ _ R1 _ IN) as (k & K1 & K2). exists k. split; [|exact K1].
  destruct n; exact K1.
Qed.

Lemma all_lit_none whens : all_lit whens = None -> all_labels is_lit whens = false.
Proof.
  intros H. apply map_opt_none in H as (b & IB & H). apply map_opt_none in H as (n & IN & H).
  destruct (all_labels is_lit whens) eqn:A; [|reflexivity]. exfalso.
  pose proof (proj1 (forallb_forall _ _) A _ IB) as A1. pose proof (proj1 (forallb_forall _ _) A1 _ IN) as A2.
  unfold is_lit in A2. destruct n; discriminate.
Qed.

Lemma all_int_none whens : all_int whens = None -> all_labels is_int whens = false.
Proof.
  intros H. apply map_opt_none in H as (b & IB & H). apply map_opt_none in H as (n & IN & H).
  destruct (all_labels is_int whens) eqn:A; [|reflexivity]. exfalso.
  pose proof (proj1 (forallb_forall _ _) A _ IB) as A1. pose proof (proj1 (forallb_forall _ _) A1 _ IN) as A2.
  destruct n; discriminate.
Qed.

Lemma case_some_ok c0 whens els : compiled c0 -> Forall cparts whens -> compiled els ->
  compiled (NCase (Some c0) whens els).
Proof.
  intros HC HW HE u st st' H. cbn [gen gen_case] in H.
  assert (HW2 : Forall (fun b => compiled (snd b)) whens)
    by (eapply Forall_impl; [|exact HW]; intros b [_ K]; exact K).
  destruct (all_int whens) as [labels|] eqn:AI; [|destruct (all_lit whens) as [labels|] eqn:AL].
  3: { eapply seq_case_ok; try eassumption. apply all_lit_none. exact AL. }
  - (* integers *)
    ub H. rename st0 into st1. set (sA := set_map2 (g_map2 st1 ++ [(0, 0, [], 0)]) st1) in *.
    set (mid := Z.of_nat (length (g_map2 st1))) in *.
    set (st2 := emit (ICase oOPT_CASE2 mid 0) sA) in *. set (start := cur st2) in *.
    ub H. destruct st0 as [[map ends] st3]. cbv zeta in H.
    destruct (table_size_ok (opt_min labels) (opt_max labels)); [|discriminate].
    replace (Z.to_nat mid) with (length (g_map2 st1)) in H by (unfold mid; lia).
    set (x := (opt_min labels, opt_max labels, map, pos_diff start (cur st3))) in *.
    set (st3' := set_map2 (upd_nth (length (g_map2 st1)) x (g_map2 st3)) st3) in *.
    ub H. rename st0 into st4. ub H. rename st0 into st5.
    pose proof (HC _ _ _ B) as R1. facts R1.
    pose proof (run_jump blk (JC oOPT_CASE2 mid) sA) as R2. cbn [jinst] in R2. cbv zeta in R2.
    fold st2 in R2. fold start in R2. facts R2. pose proof (run_hole _ _ _ _ _ _ R2) as HO2.
    assert (SB : 0 <= start <= cur st2) by (unfold start; pose proof (cur_nonneg st2); lia).
    destruct (table_branches_ok int_label u start whens HW2 _ _ _ _ _ _ SB B0)
      as (new & tbl & EN & EM & C1 & R3). cbn [app] in EN. rewrite app_nil_r in EM. subst ends map.
    facts R3. pose proof (run_holes _ _ _ _ _ R3) as HO3.
    pose proof (run_map2 blk _ st1 st3 (0, 0, [], 0) x _ (run_trans _ _ _ _ _ _ _ _ R2 R3)) as R4.
    fold st3' in R4. cbn [app] in R4. facts R4.
    destruct (run_patch blk new start (cur st3) _ _ _ _ R4 B1) as (R5 & CU5 & _). facts R5.
    pose proof (HE _ _ _ B2) as R6. facts R6.
    pose proof (run_len _ _ _ _ _ (run_trans _ _ _ _ _ _ _ _ R1 (run_trans _ _ _ _ _ _ _ _ R5 R6))) as R.
    destruct (run_patches blk new [] _ _ _ _ ltac:(rewrite app_nil_r; cbn [app] in R; eapply run_weaken;
       [exact R|rewrite app_nil_r; reflexivity|intros ? ? ? K; exact K]) H) as (R7 & CU & _).
    eapply run_weaken; [exact R7|reflexivity|]. cbv beta.
    intros G E t (LEN & M1 & (MX & M2 & M3) & M6) HG HT f c h s env stk OK CO CV ER CL.
    change (cur st3') with (cur st3) in *. change (cur sA) with (cur st1) in *.
    change (in_loop st2) with (in_loop st1) in *. change (ens_top st2) with (ens_top st1) in *.
    rewrite CU, CU5 in *. pose proof (g_short _ HG). pose proof (cur_nonneg st5).
    rewrite upd_same in M2.
    cbn [ok] in OK. apply andb_prop in OK as [OK OK3]. apply andb_prop in OK as [OK1 OK2]. cbn [eval].
    eapply reach_bind.
    + apply (M1 HG HT); subs.
    + intros v s1 env1 _ ER1. cbn [used fst snd]. unfold eval_case.
      destruct (plain_case P whens v (s_w s1)) eqn:PL; [|exact I].
      pose proof (all_int_labels _ _ AI) as LB.
      assert (LI : all_labels is_int whens = true).
      { apply all_labels_of. intros b n IB IN. destruct (LB _ _ IB IN) as (k & -> & _). reflexivity. }
      assert (LL : all_labels is_lit whens = true).
      { apply all_labels_of. intros b n IB IN. destruct (LB _ _ IB IN) as (k & -> & _). reflexivity. }
      unfold plain_case in PL. rewrite LL, LI in PL. apply andb_prop in PL as [PL1 PL2].
      apply Nat.leb_le in PL2. rewrite (eval_branches_lit f v (EV f els) true whens s1 PL1 LL).
      assert (ELS : forall env2, erel s1 env2 ->
        reach G E c h f (mkvst (cur st3) stk env2 (s_w s1)) stk (EV f els s1)
          (fun v => used (cur st5) u v stk)).
      { intros env2 ER2. apply (M6 HG HT); subs. }
      assert (ML : (length (g_map2 st1) < length (pr_map2 G))%nat)
        by (apply nth_error_Some; rewrite MX; discriminate).
      pose proof (g_m2 _ HG) as GM. unfold zlength in GM.
      eapply reach_next; [exact M2|split; [unfold mid, u32_ok; lia|unfold i32_ok; lia]
        |cbn [exec v_stk]; unfold mid; rewrite Nat2Z.id, MX; reflexivity|]. cbn [v_env v_w].
      destruct (as_fixnum v) as [k|] eqn:AF.
      * assert (NONE : ~ (opt_min labels <= k <= opt_max labels) ->
          find (fun b => existsb (fun l => same_value P true l v (s_w s1)) (fst b)) whens = None).
        { intros NR. apply find_none_all. intros b IB.
          destruct (existsb _ (fst b)) eqn:X; [|reflexivity]. exfalso.
          apply existsb_exists in X as (n & IN & SN). destruct (LB _ _ IB IN) as (i & -> & RG).
          cbn [same_value] in SN. rewrite AF in SN. apply Z.eqb_eq in SN. subst. auto. }
        destruct ((opt_min labels <=? k) && (k <=? opt_max labels)) eqn:RG.
        -- set (hit := fun i : Z => k =? i).
           pose proof (table_lookup int_label hit (fun l => same_value P true l v (s_w s1)) whens tbl) as TL.
           rewrite assocZ_find.
           change (fun e : Z * Z => k =? fst e) with (fun e : Z * Z => hit (fst e)).
           assert (TL' : match find (fun e => hit (fst e)) tbl with
             | Some (k0, d) => In (k0, d) tbl /\ forall b, In b whens ->
                 (exists n, In n (fst b) /\ int_label n = Some k0) ->
                 find (fun b => existsb (fun l => same_value P true l v (s_w s1)) (fst b)) whens = Some b
             | None => find (fun b => existsb (fun l => same_value P true l v (s_w s1)) (fst b)) whens = None
             end).
           { apply TL; [|exact C1|exact PL2]. intros b n IB IN. destruct (LB _ _ IB IN) as (i & -> & _).
             exists i. split; [reflexivity|]. cbn [same_value]. rewrite AF. reflexivity. }
           destruct (find (fun e => hit (fst e)) tbl) as [[k0 d]|] eqn:FT.
           ++ destruct TL' as [IT FB].
              assert (TE : forall p, In p new -> upd (upds t (rev new) (cur st5)) start (cur st3) p = cur st5).
              { intros p I. pose proof (HO3 _ I). fold start in H2. rewrite upd_other by lia.
                apply upds_in. apply -> in_rev. exact I. }
              destruct (M3 HG HT (cur st5) ltac:(lia) TE k0 d IT) as (b & IB & LN & RB).
              rewrite (FB b IB LN).
              assert (OKB : ok blk c u (snd b) = true).
              { pose proof (proj1 (forallb_forall _ _) OK2 _ IB) as Q. cbv beta in Q.
                apply andb_prop in Q as [_ Q]. exact Q. }
              apply RB; subs.
           ++ rewrite TL'. rewrite pos_diff_ok by (unfold i32_ok; lia).
              replace (start + (cur st3 - start)) with (cur st3) by lia. apply ELS. exact ER1.
        -- rewrite NONE by lia. replace (start + (cur st3 - start)) with (cur st3) by lia.
           apply ELS. exact ER1.
      * replace (start + (cur st3 - start)) with (cur st3) by lia.
        rewrite find_none_all; [apply ELS; exact ER1|]. intros b IB.
        destruct (existsb _ (fst b)) eqn:X; [|reflexivity]. exfalso.
        apply existsb_exists in X as (n & IN & SN). destruct (LB _ _ IB IN) as (i & -> & RG).
        cbn [same_value] in SN. rewrite AF in SN. discriminate.
  - (* literals *)
    ub H. rename st0 into st1. set (sA := set_map (g_map st1 ++ [[]]) st1) in *.
    set (mid := Z.of_nat (length (g_map st1))) in *.
    set (st2 := emit (ICase oOPT_CASE mid 0) sA) in *. set (start := cur st2) in *.
    ub H. destruct st0 as [[map ends] st3]. cbv zeta in H.
    replace (Z.to_nat mid) with (length (g_map st1)) in H by (unfold mid; lia).
    set (st3' := set_map (upd_nth (length (g_map st1)) map (g_map st3)) st3) in *.
    ub H. rename st0 into st4. ub H. rename st0 into st5.
    pose proof (HC _ _ _ B) as R1. facts R1.
    pose proof (run_jump blk (JC oOPT_CASE mid) sA) as R2. cbn [jinst] in R2. cbv zeta in R2.
    fold st2 in R2. fold start in R2. facts R2. pose proof (run_hole _ _ _ _ _ _ R2) as HO2.
    assert (SB : 0 <= start <= cur st2) by (unfold start; pose proof (cur_nonneg st2); lia).
    destruct (table_branches_ok lit_label u start whens HW2 _ _ _ _ _ _ SB B0)
      as (new & tbl & EN & EM & C1 & R3). cbn [app] in EN. rewrite app_nil_r in EM. subst ends map.
    facts R3. pose proof (run_holes _ _ _ _ _ R3) as HO3.
    pose proof (run_map blk _ st1 st3 [] tbl _ (run_trans _ _ _ _ _ _ _ _ R2 R3)) as R4.
    fold st3' in R4. cbn [app] in R4. facts R4.
    destruct (run_patch blk new start (cur st3) _ _ _ _ R4 B1) as (R5 & CU5 & _). facts R5.
    pose proof (HE _ _ _ B2) as R6. facts R6.
    pose proof (run_len _ _ _ _ _ (run_trans _ _ _ _ _ _ _ _ R1 (run_trans _ _ _ _ _ _ _ _ R5 R6))) as R.
    destruct (run_patches blk new [] _ _ _ _ ltac:(rewrite app_nil_r; cbn [app] in R; eapply run_weaken;
       [exact R|rewrite app_nil_r; reflexivity|intros ? ? ? K; exact K]) H) as (R7 & CU & _).
    eapply run_weaken; [exact R7|reflexivity|]. cbv beta.
    intros G E t (LEN & M1 & (MX & M2 & M3) & M6) HG HT f c h s env stk OK CO CV ER CL.
    change (cur st3') with (cur st3) in *. change (cur sA) with (cur st1) in *.
    change (in_loop st2) with (in_loop st1) in *. change (ens_top st2) with (ens_top st1) in *.
    rewrite CU, CU5 in *. pose proof (g_short _ HG). pose proof (cur_nonneg st5).
    rewrite upd_same in M2.
    cbn [ok] in OK. apply andb_prop in OK as [OK OK3]. apply andb_prop in OK as [OK1 OK2]. cbn [eval].
    eapply reach_bind.
    + apply (M1 HG HT); subs.
    + intros v s1 env1 _ ER1. cbn [used fst snd]. unfold eval_case.
      destruct (plain_case P whens v (s_w s1)) eqn:PL; [|exact I].
      pose proof (all_lit_labels _ _ AL) as LB.
      assert (LI : all_labels is_int whens = false) by (apply all_int_none; exact AI).
      assert (LL : all_labels is_lit whens = true).
      { apply all_labels_of. intros b n IB IN. destruct (LB _ _ IB IN) as (k & K & _).
        unfold is_lit. rewrite K. reflexivity. }
      unfold plain_case in PL. rewrite LL, LI in PL. apply andb_prop in PL as [PL1 PL2].
      apply Nat.leb_le in PL2. rewrite (eval_branches_lit f v (EV f els) false whens s1 PL1 LL).
      assert (ELS : forall env2, erel s1 env2 ->
        reach G E c h f (mkvst (cur st3) stk env2 (s_w s1)) stk (EV f els s1)
          (fun v => used (cur st5) u v stk)).
      { intros env2 ER2. apply (M6 HG HT); subs. }
      assert (ML : (length (g_map st1) < length (pr_map G))%nat)
        by (apply nth_error_Some; rewrite MX; discriminate).
      pose proof (g_m1 _ HG) as GM. unfold zlength in GM.
      eapply reach_next; [exact M2|split; [unfold mid, u32_ok; lia|unfold i32_ok; lia]
        |cbn [exec v_stk]; unfold mid; rewrite Nat2Z.id, MX; reflexivity|]. cbn [v_env v_w].
      set (hit := fun x : value => p_keyeq P x v (s_w s1)).
      pose proof (table_lookup lit_label hit (fun l => same_value P false l v (s_w s1)) whens tbl) as TL.
      unfold assocV. change (fun p : value * Z => p_keyeq P (fst p) v (s_w s1))
        with (fun e : value * Z => hit (fst e)).
      assert (TL' : match find (fun e => hit (fst e)) tbl with
             | Some (k0, d) => In (k0, d) tbl /\ forall b, In b whens ->
                 (exists n, In n (fst b) /\ lit_label n = Some k0) ->
                 find (fun b => existsb (fun l => same_value P false l v (s_w s1)) (fst b)) whens = Some b
             | None => find (fun b => existsb (fun l => same_value P false l v (s_w s1)) (fst b)) whens = None
             end).
      { apply TL; [|exact C1|exact PL2]. intros b n IB IN. destruct (LB _ _ IB IN) as (i & L1 & L2).
        exists i. split; [exact L2|]. unfold same_value, hit. rewrite L1. reflexivity. }
      destruct (find (fun e => hit (fst e)) tbl) as [[k0 d]|] eqn:FT.
      * destruct TL' as [IT FB].
        assert (TE : forall p, In p new -> upd (upds t (rev new) (cur st5)) start (cur st3) p = cur st5).
        { intros p I. pose proof (HO3 _ I). fold start in H2. rewrite upd_other by lia.
          apply upds_in. apply -> in_rev. exact I. }
        destruct (M3 HG HT (cur st5) ltac:(lia) TE k0 d IT) as (b & IB & LN & RB).
        rewrite (FB b IB LN).
        assert (OKB : ok blk c u (snd b) = true).
        { pose proof (proj1 (forallb_forall _ _) OK2 _ IB) as Q. cbv beta in Q.
          apply andb_prop in Q as [_ Q]. exact Q. }
        apply RB; subs.
      * rewrite TL'. replace (start + (cur st3 - start)) with (cur st3) by lia. apply ELS. exact ER1.
Qed.
End Compile.
