(** Every tree is compiled correctly, and the code of a whole body. *)
From Coq Require Import ZArith List Bool Lia Permutation.
From Verif Require Import Base ModelValue ModelInst ProofsInst ModelCodegen ModelVM
  SpecCore ProofsValue ProofsCore1 ProofsCore2 ProofsCore3 ProofsCore4 ProofsCore5
  ProofsCore6 ProofsCore7 ProofsDefined.
Import ListNotations.
Open Scope nat_scope.

Section All.
Context {W : Type}.
Variable P : prims W.
Variable cx : sctx.
Hypothesis PO : prims_ok P.
Hypothesis SC : scoped cx.
Hypothesis SE : id32 (sc_stderr cx) = true.

Notation setter := (sc_setter cx).
Notation std := (sc_stderr cx).
Notation compiled := (compiled P cx setter std).

Definition whole (n : node) : Prop :=
  compiled n /\ asub P cx n /\ parts P cx n /\ tsized cx n = true.

Lemma tsized_of n : sized cx n = true -> tsized cx n = true.
Proof.
  destruct n; intros H; try reflexivity; cbn [sized tsized] in *; try exact H.
  - rewrite !andb_true_iff in H. tauto.
  - destruct k; try reflexivity; rewrite !andb_true_iff in H; tauto.
Qed.

Lemma whole_list k l : (forall n, nsize n <= k -> sized cx n = true -> whole n) ->
  sum (map nsize l) <= k -> forallb (sized cx) l = true -> Forall whole l.
Proof.
  intros IH LE SZ. rewrite forallb_forall in SZ. apply (Forall_sum nsize _ _ _ LE).
  intros x I Hx. apply IH; auto.
Qed.

Lemma whole_comp l : Forall whole l -> Forall compiled l.
Proof. apply Forall_impl. intros n H. apply H. Qed.
Lemma whole_asub l : Forall whole l -> Forall (asub P cx) l.
Proof. apply Forall_impl. intros n H. apply H. Qed.

Lemma all_whole k : forall n, nsize n <= k -> sized cx n = true -> whole n.
Proof.
  induction k as [|k IH]; intros n LE SZ; [destruct n; cbn in LE; lia|].
  assert (TS := tsized_of _ SZ).
  assert (ONE : forall m, nsize m <= k -> sized cx m = true -> compiled m).
  { intros m A B. apply (IH m A B). }
  assert (OPT : forall o, osize nsize o <= k ->
    match o with Some e => sized cx e | None => true end = true -> oparts P cx o).
  { intros [m|] A B; [|exact I]. apply ONE; assumption. }
  destruct n; cbn [sized nsize] in LE, SZ; rewrite ?andb_true_iff in SZ;
    unfold whole; cbn [asub parts]; (split; [|split; [|split; [|exact TS]]]); try exact I;
    repeat match goal with H : _ /\ _ |- _ => destruct H end; try (split; apply ONE; auto; lia);
    try (apply ONE; auto; lia).
  - apply nil_ok.
  - apply bool_ok. exact PO.
  - apply int_ok; [exact PO|exact SZ].
  - apply big_ok. exact PO.
  - apply float_ok; [exact PO|exact SZ].
  - apply sym_ok; [exact PO|exact SZ].
  - apply self_ok.
  - apply lvar_ok. exact SC.
  - apply gvar_ok. exact SZ.
  - apply ivar_ok. exact SZ.
  - apply ident_ok. exact SZ.
  - destruct safe_nav.
    + apply send_safe_ok; [exact PO|assumption|assumption|apply ONE; auto; lia|].
      eapply whole_comp, whole_list; [exact IH| |assumption]. lia.
    + apply send_ok; [assumption|assumption|apply ONE; auto; lia|].
      eapply whole_comp, whole_list; [exact IH| |assumption]. lia.
  - apply index_ok; [exact PO|apply ONE; auto; lia|apply ONE; auto; lia].
  - apply array_ok; [assumption|]. eapply whole_comp, whole_list; [exact IH| |assumption]. lia.
  - apply op_ok; [assumption| |eapply whole_comp, whole_list; [exact IH| |eassumption]; lia].
    destruct k0; cbn [bop_fits]; rewrite ?andb_true_iff, ?Nat.eqb_eq, ?Nat.leb_le, ?Z.ltb_lt, ?Z.leb_le, ?Z.eqb_eq in *;
      repeat split; tauto.
  - destruct l as [|p l]; [exact I|]. cbn [map sum] in LE.
    apply ONE; [unfold sum in LE; cbn [fold_right] in LE; lia|]. cbn [forallb] in *. rewrite ?andb_true_iff in *; tauto.
  - apply obj_ok.
  - apply range_ok; [exact PO|apply ONE; auto; lia|apply ONE; auto; lia].
  - apply bin_ok; [exact PO|apply ONE; auto; lia|apply ONE; auto; lia].
  - apply un_ok, ONE; auto; lia.
  - assert (X : whole n1) by (apply IH; auto; lia). destruct X as (X1 & X2 & X3 & X4).
    apply assign_ok; auto. apply ONE; auto; lia.
  - assert (X : whole n1) by (apply IH; auto; lia). destruct X as (X1 & X2 & X3 & X4).
    apply assign_op_ok; auto. apply ONE; auto; lia.
  - apply massign_ok; [exact SC| | |assumption].
    + eapply whole_asub, whole_list; [exact IH| |assumption]. lia.
    + eapply whole_comp, whole_list; [exact IH| |assumption]. lia.
  - apply seq_ok. eapply whole_comp, whole_list; [exact IH| |assumption]. lia.
  - assert (X : whole n1) by (apply IH; auto; lia). destruct X as (X1 & X2 & X3 & X4).
    apply if_ok; auto; apply ONE; auto; lia.
  - assert (X : whole n1) by (apply IH; auto; lia). destruct X as (X1 & X2 & X3 & X4).
    apply while_ok; auto; apply ONE; auto; lia.
  - apply break_ok, ONE; auto; lia.
  - apply next_ok, ONE; auto; lia.
  - apply return_ok, ONE; auto; lia.
  - assert (X : Forall (cparts P cx) whens).
    { match goal with H : forallb _ whens = true |- _ => rename H into HW end.
      rewrite forallb_forall in HW.
      eapply Forall_sum with (g := fun b => sum (map nsize (fst b)) + nsize (snd b)) (k := k); [lia|].
      intros x Ix Lx. specialize (HW x Ix). apply andb_prop in HW as [A B]. split.
      - eapply whole_comp, whole_list; [exact IH| |exact A]. lia.
      - apply ONE; auto; lia. }
    destruct c as [c|].
    + cbn [osize] in LE. apply case_some_ok; auto; apply ONE; auto; lia.
    + apply case_none_ok; auto. apply ONE; auto; lia.
  - assert (X : Forall (rparts P cx) rescues).
    { match goal with H : forallb _ rescues = true |- _ => rename H into HW end.
      rewrite forallb_forall in HW.
      eapply Forall_sum with (g := fun b => sum (map nsize (fst (fst b)))
        + osize nsize (snd (fst b)) + nsize (snd b)) (k := k); [lia|].
      intros x Ix Lx. specialize (HW x Ix). rewrite !andb_true_iff in HW.
      destruct HW as (((A & B) & C) & D). split; [|split; [|split]].
      - eapply whole_comp, whole_list; [exact IH| |exact B]. lia.
      - unfold len_lt in A. apply Z.ltb_lt in A. exact A.
      - destruct (snd (fst x)) as [a|]; [|exact I]. cbn [osize] in Lx.
        assert (Y : whole a) by (apply IH; auto; lia). split; apply Y.
      - apply ONE; auto; lia. }
    apply begin_ok; auto; [apply ONE; auto; lia| |]; apply OPT; auto; lia.
  - apply (defined_ok P cx SC _ _ k); auto. lia.
Qed.

Theorem all_compiled n : sized cx n = true -> compiled n.
Proof. intros H. apply (all_whole (nsize n) n (le_n _) H). Qed.

(** ** A whole body *)
Open Scope Z_scope.

Lemma fill_plain a : forall b n rt t pos,
  escs pos a = [] -> rets pos a = [] -> locs pos a = [] ->
  encodes (fill b n rt t pos a) = ibytes a.
Proof.
  induction a as [|x a IH]; intros b n rt t pos; cbn [escs rets locs fill]; [reflexivity|].
  destruct x as [i|[| | |j]]; intros E1 E2 E3; try discriminate;
    rewrite ibytes_cons; unfold encodes; cbn [map concat]; f_equal;
    exact (IH b n rt t _ E1 E2 E3).
Qed.

Lemma extends_slice {A} (a b c : list A) : extends b c -> slice_in a b c.
Proof.
  intros [x ->] k Hk. apply nth_error_app1. lia.
Qed.

Notation blk := (is_block cx).

(** A piece of code that stands in no loop and in no begin, wherever it lies *)
Definition E0 : renv := mkrenv 0 0 None 0 (fun _ => None).

Lemma placed_run M st st' G : run blk [] st st' M ->
  in_loop st = false -> ens_top st = false -> placed G st st' ->
  M G E0 (fun _ => 0).
Proof.
  intros (its & ex & X & PM & L) IL ET [PC PE P1 P2 P3 P4]. apply L.
  pose proof (e_noesc _ _ _ _ _ X IL) as NE. pose proof (e_noret _ _ _ _ _ X ET) as NR.
  assert (NL : locs (cur st) its = []).
  { apply Permutation_nil. symmetry. exact PM. }
  pose proof (e_code _ _ _ _ _ X) as EC. destruct PC as [post PC].
  constructor; auto using extends_slice.
  - exists (code st), post. split; [|reflexivity].
    rewrite fill_plain by assumption. rewrite PC, EC, <- app_assoc. reflexivity.
  - intros pc Hpc. rewrite PE by exact Hpc. rewrite (e_ex _ _ _ _ _ X).
    rewrite skipn_app, skipn_all, Nat.sub_diag. cbn [skipn app r_hf E0].
    destruct (find_ex ex pc); reflexivity.
Qed.

Lemma placed_reach n u st st' G f c s env stk :
  sized cx n = true -> gen cx n u st = Ok st' ->
  in_loop st = false -> ens_top st = false -> placed G st st' -> good G ->
  ok blk c u n = true -> f_loop c = Lout -> erel cx s env -> (f_clean c = true -> stk = []) ->
  reach P cx G E0 c None f (mkvst (cur st) stk env (s_w s)) stk
    (eval P setter std f n s) (fun v => used (cur st') u v stk).
Proof.
  intros SZ GE IL ET PL GG OK FL ER CL.
  pose proof (all_compiled n SZ u st st' GE) as R.
  pose proof (placed_run _ _ _ _ R IL ET PL) as M. cbv beta in M.
  assert (TT : tgt_ok E0).
  { unfold tgt_ok, E0. cbn. repeat split; try lia; discriminate. }
  apply (M GG TT); auto.
  - constructor; [rewrite IL; unfold is_out; rewrite FL; reflexivity|rewrite ET; reflexivity].
  - intros pc _. reflexivity.
Qed.

(** ** Running *)
Lemma steps_vrun G n a b : steps P G n a b -> forall m, vrun P G (n + m) a = vrun P G m b.
Proof. induction 1; intros m; [reflexivity|]. cbn [Nat.add vrun]. rewrite H. apply IHsteps. Qed.

Lemma halts_vrun G a h env w : halts P G a h env w -> exists n, vrun P G n a = VDone h env w.
Proof.
  intros (b & [n S] & H). exists (n + 1)%nat. rewrite (steps_vrun _ _ _ _ S).
  cbn [vrun]. rewrite H. reflexivity.
Qed.

Lemma runs_vrun G f a : runs P G f a -> exists b, vrun P G f a = VRunning b.
Proof.
  intros (n & b & L & S). revert f L. induction S as [a|n a b c H S IH]; intros f L.
  - assert (f = O) by lia. subst. exists a. reflexivity.
  - destruct f as [|f]; [exists a; reflexivity|]. cbn [vrun]. rewrite H. apply IH. lia.
Qed.

Lemma vrun_more G n m a h env w : vrun P G n a = VDone h env w ->
  vrun P G (n + m) a = VDone h env w.
Proof.
  revert a. induction n as [|n IH]; intros a; [discriminate|]. cbn [Nat.add vrun].
  destruct (vstep P G a); auto.
Qed.

Lemma vrun_det G n m a h env w h' env' w' : vrun P G n a = VDone h env w ->
  vrun P G m a = VDone h' env' w' -> h = h' /\ env = env' /\ w = w'.
Proof.
  intros A B. apply (vrun_more _ _ m) in A. apply (vrun_more _ _ n) in B.
  rewrite Nat.add_comm, A in B. injection B as -> -> ->. auto.
Qed.

Lemma vrun_stuck G n m a : vrun P G n a = VStuck -> vrun P G (n + m) a = VStuck.
Proof.
  revert a. induction n as [|n IH]; intros a; [discriminate|]. cbn [Nat.add vrun].
  destruct (vstep P G a); auto; discriminate.
Qed.

Lemma vrun_running G n m a b : (m <= n)%nat -> vrun P G n a = VRunning b ->
  exists c, vrun P G m a = VRunning c.
Proof.
  revert a m. induction n as [|n IH]; intros a m L.
  - assert (m = O) by lia. subst. intros _. exists a. reflexivity.
  - destruct m as [|m]; [exists a; reflexivity|]. cbn [vrun].
    destruct (vstep P G a); try discriminate. apply IH. lia.
Qed.

(** ** The code of a body *)
Lemma body_reach body k m m2 c0 st G f s env :
  sized cx body = true -> ok blk (mkfctx Lout true) true body = true ->
  gen_body cx body (empty_cg k m m2 c0) = Ok st -> 0 <= c0 ->
  loaded G st -> fitting G st -> holds cx s env ->
  match eval P setter std f body s with
  | Fuel => exists st, vrun P G f (mkvst 0 [] env (s_w s)) = VRunning st
  | Out => True
  | o => exists h s', ending blk o = Some (h, s') /\
         exists n env', vrun P G n (mkvst 0 [] env (s_w s)) = VDone h env' (s_w s')
                        /\ holds cx s' env'
  end.
Proof.
  intros SZ OK GB C0 [L1 L2 L3 L4 L5] [F1 F2 F3 F4] ER.
  unfold gen_body in GB. ub GB. okinv GB.
  set (st := emit (I0 oRETURN) st0) in *. set (e0 := empty_cg k m m2 c0) in *.
  assert (CE : cur e0 = 0) by reflexivity.
  assert (GG : good G) by (constructor; assumption).
  pose proof (all_compiled body SZ true e0 st0 B) as R.
  pose proof (run_emit blk (I0 oRETURN) st0) as R2.
  pose proof (run_top _ _ _ _ _ R) as [T1 T2].
  pose proof (run_caches _ _ _ _ _ R) as CC.
  pose proof (run_trans _ _ _ _ _ _ _ _ R R2) as R3.
  assert (PL : placed G e0 st).
  { constructor; auto.
    - rewrite L1. exists []. rewrite app_nil_r. reflexivity.
    - intros pc _. rewrite L2. reflexivity. }
  pose proof (placed_run _ _ _ _ R3 eq_refl eq_refl PL) as (M1 & M2).
  assert (TT : tgt_ok E0).
  { unfold tgt_ok, E0. cbn. repeat split; try lia; discriminate. }
  pose proof (M1 GG TT f (mkfctx Lout true) None s env [] OK) as Q.
  assert (CO : ctx_ok (in_loop e0) (ens_top e0) (mkfctx Lout true) E0) by (constructor; reflexivity).
  specialize (Q CO). specialize (Q (fun pc _ => eq_refl) ER (fun _ => eq_refl)).
  rewrite CE in Q. cbn [f_loop] in Q.
  destruct (eval P setter std f body s) as [v s'|v s'|v s'|d v s'|v s'| |];
    cbn [reach stops f_loop E0 r_ret ending] in *; auto.
  - destruct Q as (env' & S & ER'). do 2 eexists. split; [reflexivity|].
    assert (H : halts P G (mkvst 0 [] env (s_w s)) (HRet v) env' (s_w s')).
    { eapply halts_star; [exact S|]. cbn [used fst snd].
      eapply step_halt; [exact M2|exact I|reflexivity]. }
    apply halts_vrun in H as [n H]. exists n, env'. auto.
  - destruct Q as (_ & env' & H & ER'). do 2 eexists. split; [reflexivity|].
    apply halts_vrun in H as [n H]. exists n, env'. auto.
  - destruct Q as (_ & env' & H & ER'). do 2 eexists. split; [reflexivity|].
    apply halts_vrun in H as [n H]. exists n, env'. auto.
  - assert (FR : fin_ret P cx G (mkvst 0 [] env (s_w s)) v s') by (destruct d; exact Q).
    destruct FR as (env' & H & ER'). do 2 eexists. split; [reflexivity|].
    apply halts_vrun in H as [n H]. exists n, env'. auto.
  - destruct Q as (env' & H & ER'). do 2 eexists. split; [reflexivity|].
    apply halts_vrun in H as [n H]. exists n, env'. auto.
  - apply runs_vrun. exact Q.
Qed.

End All.
