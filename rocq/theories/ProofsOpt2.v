(** Code and its rewritten form run alike. *)
From Coq Require Import ZArith List Bool Lia.
From Verif Require Import Base ModelValue ModelInst ProofsInst ModelCodegen ModelVM SpecCore
  SpecOpt ProofsCore1 ProofsCore2 ProofsCore8 ProofsShape ProofsOpt.
Import ListNotations.
Ltac Zify.zify_post_hook ::= Z.div_mod_to_equations.
Open Scope Z_scope.

(** an instruction starts at [p] *)
Definition bnd' (l : list inst) (p : Z) : Prop := exists k, (k < length l)%nat /\ p = pos l k.

(** ** The code of a body *)
Record shaped (G : prog) (l : list inst) : Prop := {
  sh_code : pr_code G = encodes l;
  sh_wf : wf l;
  sh_small : lsz l < 2 ^ 31;
  sh_last : exists l0, l = l0 ++ [I0 oRETURN];
  sh_case : forall k t d m e, nth_error l k = Some (ICase oOPT_CASE t d) ->
    nth_error (pr_map G) (Z.to_nat (t mod 2 ^ 32)) = Some m -> In e (map snd m) ->
    bnd' l (pos l (S k) + e);
  sh_case2 : forall k t d lo hi m def e, nth_error l k = Some (ICase oOPT_CASE2 t d) ->
    nth_error (pr_map2 G) (Z.to_nat (t mod 2 ^ 32)) = Some (lo, hi, m, def) ->
    e = def \/ In e (map snd m) -> bnd' l (pos l (S k) + e);
  sh_ex : Forall (fun e => bnd' l (ex_dest e)) (pr_ex G)
}.

(** ** Where an instruction goes *)
Section Go.
Context {W : Type}.
Variable P : prims W.

Definition table_exit (G : prog) (i : inst) (e : Z) : Prop :=
  match i with
  | ICase oOPT_CASE t _ => exists m, nth_error (pr_map G) (Z.to_nat t) = Some m /\ In e (map snd m)
  | ICase oOPT_CASE2 t _ => exists lo hi m def,
      nth_error (pr_map2 G) (Z.to_nat t) = Some (lo, hi, m, def) /\ (e = def \/ In e (map snd m))
  | _ => False
  end.

Lemma assocV_in v (w : W) m e : assocV P v w m = Some e -> In e (map snd m).
Proof.
  unfold assocV. destruct (find _ m) as [[x y]|] eqn:F; [|discriminate].
  intros H. injection H as ->. apply find_some in F as [F _].
  apply in_map_iff. exists (x, e). auto.
Qed.
Lemma assocZ_in {A} k (m : list (Z * A)) e : assocZ k m = Some e -> In e (map snd m).
Proof.
  induction m as [|[j a] m IH]; [discriminate|]. cbn. destruct (k =? j).
  - intros H. injection H as ->. auto.
  - auto.
Qed.

Ltac crush :=
  repeat match goal with
  | H : SNext _ = SNext _ |- _ => injection H as <-
  | H : SHalt _ _ _ = SNext _ |- _ => discriminate H
  | H : SRaise _ _ _ _ _ = SNext _ |- _ => discriminate H
  | H : SStuck = SNext _ |- _ => discriminate H
  | H : context [match ?x with _ => _ end] |- _ => destruct x eqn:?
  end;
  cbn [v_pc]; repeat match goal with |- context [match ?x with _ => _ end] => destruct x eqn:? end.

Lemma step0_pc o p npc s s' : step0 P o p npc s = SNext s' -> v_pc s' = npc.
Proof.
  intros H. destruct o; cbn [step0 push] in H; unfold op1, opn, push, stored in H; crush; reflexivity.
Qed.
Lemma step32_pc G o n npc s s' : step32 P G o n npc s = SNext s' -> v_pc s' = npc.
Proof.
  intros H. destruct o; cbn [step32 push] in H; unfold op1, opn, push, stored in H; crush; reflexivity.
Qed.

Lemma exec_pc G i p npc s s' : exec P G i p npc s = SNext s' ->
  v_pc s' = npc /\ i <> I0 oRETURN \/ (exists d, disp i = Some d /\ v_pc s' = npc + d)
  \/ exists e, table_exit G i e /\ v_pc s' = npc + e.
Proof.
  intros H. destruct i; cbn [exec] in H.
  - left. split; [eapply step0_pc, H|]. intros E. injection E as ->. cbn in H.
    destruct (v_stk s); discriminate.
  - left. split; [eapply step32_pc, H|discriminate].
  - left. unfold opn, push in H. cbn [table_exit disp]. crush; split; reflexivity || discriminate.
  - cbn [disp]. unfold jmp_cond in H. destruct o; crush; cbn [v_pc];
      first [left; split; [reflexivity|discriminate]|right; left; eexists; split; reflexivity].
  - cbn [disp]. unfold jmp_cond in H. crush; cbn [v_pc];
      first [left; split; [reflexivity|discriminate]|right; left; eexists; split; reflexivity].
  - left. unfold opn, push in H. crush; split; reflexivity || discriminate.
  - left. unfold opn, push in H. crush; split; reflexivity || discriminate.
  - cbn [disp table_exit]. crush; cbn [v_pc]; try (right; left; eexists; split; reflexivity).
    + right. right. eexists. split; [|reflexivity]. eexists. split; [reflexivity|].
      eapply assocV_in; eassumption.
    + right. right. eexists. split; [|reflexivity]. do 4 eexists. split; [reflexivity|].
      right. eapply assocZ_in; eassumption.
    + right. right. eexists. split; [|reflexivity]. do 4 eexists. split; [reflexivity|auto].
  - left. unfold opn, push in H. crush; split; reflexivity || discriminate.
  - discriminate.
  - left. crush; split; reflexivity || discriminate.
  - left. unfold opn, push in H. crush; split; reflexivity || discriminate.
Qed.

(** the tables matter, the bytes do not *)
Lemma exec_code G c i p npc s : exec P (with_code c G) i p npc s = exec P G i p npc s.
Proof. destruct i; try reflexivity. Qed.
End Go.

Lemma vrun_prefix {W} (P : prims W) G n m a b : (m <= n)%nat -> vrun P G n a = VRunning b ->
  exists c, vrun P G m a = VRunning c.
Proof.
  revert a m. induction n as [|n IH]; intros a m L.
  - assert (m = O) by lia. subst. intros _. exists a. reflexivity.
  - destruct m as [|m]; [exists a; reflexivity|]. cbn [vrun].
    destruct (vstep P G a); try discriminate. apply IH. lia.
Qed.

(** ** One step *)
Section Sim.
Context {W : Type}.
Variable P : prims W.
Variable G : prog.
Variable l : list inst.
Hypothesis HS : shaped G l.

Lemma rstep_cell c cs k s : sizes l cs -> nth_error cs k = Some c -> v_pc s = pos l k ->
  rstep P (with_code (cbs cs) G) s
  = exec P G (cin c) (pos l k) (pos l k + Z.of_nat (length (encode (cin c)))) s.
Proof.
  intros SZ N E. unfold rstep. rewrite E. cbn [pr_code with_code].
  destruct (cbs_at _ _ _ _ SZ N) as (a & b & EQ & LA & _).
  pose proof (zlength_nonneg a). destruct (Z.ltb_spec (pos l k) 0); [lia|].
  rewrite EQ. replace (Z.to_nat (pos l k)) with (length a)
    by (rewrite <- LA; unfold zlength; lia).
  rewrite skipn_app, skipn_all, Nat.sub_diag. cbn [skipn app].
  destruct (decode_cell c b) as [r ->]. apply exec_code.
Qed.

Lemma rstep_inst i k s : nth_error l k = Some i -> v_pc s = pos l k ->
  rstep P G s = exec P G (norm i) (pos l k) (pos l (S k)) s.
Proof.
  intros N E.
  assert (X : rstep P (with_code (cbs (map CI l)) G) s = rstep P G s).
  { rewrite cbs_ci, <- (sh_code _ _ HS). destruct G. reflexivity. }
  rewrite <- X, (rstep_cell (CI i) _ k); [|apply rel_sizes, rel_init|apply map_nth_error, N|exact E].
  cbn [cin]. rewrite norm_encode, (pos_S _ _ _ N). reflexivity.
Qed.

Lemma norm_disp i d : disp (norm i) = Some d -> exists d0, disp i = Some d0 /\ d = i32 d0.
Proof. destruct i; cbn; intros H; try discriminate; injection H as <-; eauto. Qed.

(** the next instruction again starts somewhere *)
Lemma exec_bnd i k s s' : nth_error l k = Some i ->
  exec P G (norm i) (pos l k) (pos l (S k)) s = SNext s' -> bnd' l (v_pc s').
Proof.
  intros N H. apply exec_pc in H as [[H NR]|[(d & D & H)|(e & T & H)]].
  - exists (S k). split; [|exact H].
    assert (k < length l)%nat by (apply nth_error_Some; congruence).
    destruct (Nat.eq_dec (S k) (length l)) as [E|E]; [|lia]. exfalso.
    destruct (sh_last _ _ HS) as [l0 L]. rewrite L, app_length in E. cbn in E.
    rewrite L, nth_error_app2 in N by lia. replace (k - length l0)%nat with O in N by lia.
    cbn in N. injection N as <-. apply NR. reflexivity.
  - apply norm_disp in D as (d0 & D & ->).
    destruct (sh_wf _ _ HS _ _ _ N D) as (t & L & E). exists t. split; [exact L|]. congruence.
  - destruct i; try contradiction. cbn [norm table_exit] in T. destruct o.
    + destruct T as (m & A & B). rewrite H. eapply sh_case; eassumption.
    + destruct T as (lo & hi & m & def & A & B). rewrite H. eapply sh_case2; eassumption.
Qed.

Lemma find_bnd pc d b : find_ex (pr_ex G) pc = Some (d, b) -> bnd' l d.
Proof.
  unfold find_ex. destruct (find _ _) as [e|] eqn:F; [|discriminate].
  intros H. injection H as <- _. apply find_some in F as [F _].
  pose proof (sh_ex _ _ HS) as X. rewrite Forall_forall in X. apply X, F.
Qed.

(** unconditional jumps *)
Lemma jump_step i d k t s : nth_error l k = Some i -> is_jmp i = true -> disp i = Some d ->
  goes l (pos l (S k)) d t -> v_pc s = pos l k ->
  vstep P G s = SNext (mkvst (pos l t) (v_stk s) (v_env s) (v_w s)).
Proof.
  intros N J D [_ GO] E. unfold vstep. rewrite (rstep_inst _ _ _ N E).
  destruct i; try discriminate. cbn in D. injection D as ->.
  destruct o; try discriminate; cbn [norm exec]; rewrite GO; reflexivity.
Qed.

Lemma jreach_steps k j : jreach l k j -> forall stk env w,
  exists n, steps P G n (mkvst (pos l k) stk env w) (mkvst (pos l j) stk env w).
Proof.
  induction 1 as [k|k i d t j N J D GO _ IH]; intros stk env w; [exists O; constructor|].
  destruct (IH stk env w) as [n S]. exists (Datatypes.S n). econstructor; [|exact S].
  eapply jump_step; eauto.
Qed.

Variable cs : list cell.
Hypothesis HR : rel l cs.
Let G' := with_code (cbs cs) G.

Inductive sim (s : vst W) : sres W -> Prop :=
| sim_next s' n : steps P G (S n) s s' -> bnd' l (v_pc s') -> sim s (SNext s')
| sim_halt h env w n : vrun P G n s = VDone h env w -> sim s (SHalt h env w)
| sim_stuck n : vrun P G n s = VStuck -> sim s SStuck.

Lemma sim_same i k s : nth_error l k = Some i -> v_pc s = pos l k ->
  vstep P G' s = vstep P G s -> sim s (vstep P G' s).
Proof.
  intros N E ->. destruct (vstep P G s) eqn:V.
  - apply sim_next with (n := O); [econstructor; [exact V|constructor]|].
    unfold vstep in V. rewrite (rstep_inst _ _ _ N E) in V.
    destruct (exec _ _ _ _ _ _) eqn:X; try discriminate.
    + injection V as ->. eapply exec_bnd; eassumption.
    + destruct (find_ex _ _) as [[d b]|] eqn:F; [|discriminate]. injection V as <-.
      eapply find_bnd, F.
  - apply sim_halt with (n := 1%nat). cbn. rewrite V. reflexivity.
  - exfalso. unfold vstep in V. destruct (rstep P G s) as [|? ? ?|v1 pc1 k1 env1 w1|]; try discriminate.
    destruct (find_ex (pr_ex G) pc1) as [[d b]|]; discriminate.
  - apply sim_stuck with (n := 1%nat). cbn. rewrite V. reflexivity.
Qed.

(** a jump with another displacement *)
Lemma exec_jump o p npc d d' s :
  exec P G (IJ o d) p npc s = exec P G (IJ o d') p npc s \/
  exists stk env w, exec P G (IJ o d) p npc s = SNext (mkvst (npc + d) stk env w) /\
                    exec P G (IJ o d') p npc s = SNext (mkvst (npc + d') stk env w).
Proof.
  destruct o; cbn [exec]; unfold jmp_cond;
    repeat match goal with |- context [match ?x with _ => _ end] => destruct x end;
    eauto 10.
Qed.

Lemma sim_step s : bnd' l (v_pc s) -> sim s (vstep P G' s).
Proof.
  intros (k & KL & E). destruct (nth_lt l k KL) as [i N].
  destruct (rel_nth' _ _ _ _ HR N) as (c & M & R1).
  pose proof (rel_sizes _ _ HR) as SZ.
  pose proof (rstep_cell _ _ _ _ SZ M E) as RS. fold G' in RS.
  inversion R1; subst.
  - eapply sim_same; [exact N|exact E|]. unfold vstep. rewrite RS, (rstep_inst _ _ _ N E).
    cbn [cin]. rewrite norm_encode, (pos_S _ _ _ N). reflexivity.
  - cbn [cin] in RS. rewrite norm_encode in RS.
    replace (pos l k + Z.of_nat (length (encode (IJ o d')))) with (pos l (S k)) in RS
      by (rewrite (pos_S _ _ _ N); reflexivity).
    pose proof (rstep_inst _ _ _ N E) as RO. cbn [norm] in RS, RO.
    destruct (exec_jump o (pos l k) (pos l (S k)) (i32 d') (i32 d) s)
      as [X|(stk & env & w & A & B)].
    + eapply sim_same; [exact N|exact E|]. unfold vstep. rewrite RS, RO, X. reflexivity.
    + rewrite A in RS. rewrite B in RO.
      assert (VN : vstep P G' s = SNext (mkvst (pos l (S k) + i32 d') stk env w)).
      { unfold vstep. rewrite RS. reflexivity. }
      assert (VO : vstep P G s = SNext (mkvst (pos l (S k) + i32 d) stk env w)).
      { unfold vstep. rewrite RO. reflexivity. }
      rewrite VN. destruct H as [TL GT], H0 as [JL GJ]. rewrite GT in VO. rewrite GJ.
      destruct (jreach_steps _ _ H1 stk env w) as [n S].
      apply sim_next with (n := n); [econstructor; [exact VO|exact S]|].
      exists j. split; [exact JL|reflexivity].
  - cbn [cin exec] in RS.
    assert (JR : jreach l k f).
    { eapply jr_step; [exact N|exact H|reflexivity|exact H0|exact H1]. }
    destruct (jreach_steps _ _ JR (v_stk s) (v_env s) (v_w s)) as [n S].
    assert (ES : mkvst (pos l k) (v_stk s) (v_env s) (v_w s) = s) by (rewrite <- E; destruct s; reflexivity).
    rewrite ES in S. set (s2 := mkvst (pos l f) (v_stk s) (v_env s) (v_w s)) in S.
    assert (V : vstep P G s2 = vstep P G' s).
    { unfold vstep. rewrite RS, (rstep_inst (I0 p) f s2 H2 eq_refl). cbn [norm exec].
      destruct p; try discriminate; cbn [step0]; destruct s as [pc [|v stk] env w]; reflexivity. }
    rewrite <- V.
    assert (Q : match vstep P G s2 with SHalt _ _ _ | SStuck => True | _ => False end).
    { rewrite V. unfold vstep. rewrite RS. destruct p; try discriminate; cbn [step0];
        destruct (v_stk s); exact Logic.I. }
    destruct (vstep P G s2) eqn:V2; try contradiction.
    + apply sim_halt with (n := (n + 1)%nat). rewrite (steps_vrun P G _ _ _ S). cbn.
      rewrite V2. reflexivity.
    + apply sim_stuck with (n := (n + 1)%nat). rewrite (steps_vrun P G _ _ _ S). cbn.
      rewrite V2. reflexivity.
Qed.

(** ** Runs *)
Lemma sim_run n : forall s, bnd' l (v_pc s) ->
  match vrun P G' n s with
  | VDone h env w => exists m, vrun P G m s = VDone h env w
  | VStuck => exists m, vrun P G m s = VStuck
  | VRunning s' => exists m, (n <= m)%nat /\ vrun P G m s = VRunning s'
  end.
Proof.
  induction n as [|n IH]; intros s B; cbn [vrun].
  - exists O. split; [lia|reflexivity].
  - destruct (sim_step s B) as [s' m S B'|h env w m V|m V].
    + specialize (IH s' B'). destruct (vrun P G' n s') as [h env w|s2|].
      * destruct IH as [q V]. exists (Datatypes.S m + q)%nat. rewrite (steps_vrun P G _ _ _ S). exact V.
      * destruct IH as (q & L & V). exists (Datatypes.S m + q)%nat.
        split; [lia|]. rewrite (steps_vrun P G _ _ _ S). exact V.
      * destruct IH as [q V]. exists (Datatypes.S m + q)%nat. rewrite (steps_vrun P G _ _ _ S). exact V.
    + eauto.
    + eauto.
Qed.

Lemma sim_done s h env w : bnd' l (v_pc s) ->
  (exists n, vrun P G' n s = VDone h env w) <-> (exists n, vrun P G n s = VDone h env w).
Proof.
  intros B. split; intros [n V]; pose proof (sim_run n s B) as S.
  - rewrite V in S. exact S.
  - destruct (vrun P G' n s) as [h' env' w'|s'|] eqn:V'.
    + destruct S as [m S]. destruct (vrun_det P G _ _ _ _ _ _ _ _ _ V S) as (-> & -> & ->). eauto.
    + destruct S as (m & L & S). destruct (vrun_prefix P G _ _ _ _ L S) as [x X]. congruence.
    + destruct S as [m S]. apply (vrun_stuck P G _ n) in S. apply (vrun_more P G _ m) in V.
      rewrite Nat.add_comm in V. congruence.
Qed.

Lemma sim_stuck_iff s : bnd' l (v_pc s) ->
  (exists n, vrun P G' n s = VStuck) <-> (exists n, vrun P G n s = VStuck).
Proof.
  intros B. split; intros [n V]; pose proof (sim_run n s B) as S.
  - rewrite V in S. exact S.
  - destruct (vrun P G' n s) as [h' env' w'|s'|] eqn:V'.
    + destruct S as [m S]. apply (vrun_stuck P G _ m) in V. apply (vrun_more P G _ n) in S.
      rewrite Nat.add_comm in S. congruence.
    + destruct S as (m & L & S). destruct (vrun_prefix P G _ _ _ _ L S) as [x X]. congruence.
    + eauto.
Qed.

Lemma sim_div_iff s : bnd' l (v_pc s) ->
  (forall n, exists x, vrun P G' n s = VRunning x) <-> (forall n, exists x, vrun P G n s = VRunning x).
Proof.
  intros B. split; intros V n; pose proof (sim_run n s B) as S.
  - destruct (V n) as [x X]. rewrite X in S. destruct S as (m & L & S).
    exact (vrun_prefix P G _ _ _ _ L S).
  - destruct (vrun P G' n s) as [h' env' w'|s'|] eqn:V'.
    + destruct S as [m S]. destruct (V m) as [x X]. congruence.
    + eauto.
    + destruct S as [m S]. destruct (V m) as [x X]. congruence.
Qed.
End Sim.

(** ** Compiled bodies *)
Lemma hits_goes strict l0 l e d : grows l0 l -> (length l0 < length l)%nat -> lsz l < 2 ^ 31 ->
  0 <= e <= lsz l -> hits strict l0 e d ->
  exists t, goes l e d t /\ (strict = true -> e <= pos l t \/
    exists i, nth_error l t = Some i /\ is_jmp i = false).
Proof.
  intros GR LL SM EB (q & (t & TL & ->) & C & ST). exists t.
  pose proof (grows_pos _ _ t GR TL) as PT. pose proof (pos_le_lsz l t) as PL.
  pose proof (zlength_nonneg (encodes (firstn t l))) as P0.
  change (zlength (encodes (firstn t l))) with (pos l t) in P0.
  assert (E : i32 d = pos l t - e).
  { rewrite <- PT in C. rewrite <- (i32_id (pos l t - e)) by lia. unfold i32. f_equal. lia. }
  split; [split; [lia|lia]|]. intros S. destruct (ST S) as [Q|Q]; [left; lia|right].
  destruct Q as (k & i & N & J & E2). destruct (grows_nth _ _ _ _ GR N) as (j & F & K).
  assert (k < length l0)%nat by (apply nth_error_Some; congruence).
  assert (k = t) as -> by (apply (pos_inj l0); [lia|exact TL|symmetry; exact E2]).
  exists j. split; [exact F|]. rewrite (skel_jmp _ _ K). exact J.
Qed.

Lemma thits_bnd l0 l e x : grows l0 l -> (length l0 < length l)%nat -> lsz l < 2 ^ 31 ->
  0 <= e <= lsz l -> thits l0 e x -> bnd' l (e + x).
Proof.
  intros GR LL SM EB (q & (t & TL & ->) & ->). exists t. split; [lia|].
  pose proof (grows_pos _ _ t GR TL) as PT. pose proof (pos_le_lsz l t) as PL.
  pose proof (zlength_nonneg (encodes (firstn t l))) as P0.
  change (zlength (encodes (firstn t l))) with (pos l t) in P0.
  rewrite <- PT. unfold pos_diff. change (to_i32 (?v mod 2 ^ 32)) with (i32 v).
  rewrite i32_id by lia. lia.
Qed.

Lemma pos_bounds l k : 0 <= pos l k <= lsz l.
Proof. split; [apply zlength_nonneg|apply pos_le_lsz]. Qed.

Lemma extends_nth {A} (a b : list A) k x : extends a b -> nth_error a k = Some x -> nth_error b k = Some x.
Proof.
  intros [r ->] H. rewrite nth_error_app1; [exact H|]. apply nth_error_Some. congruence.
Qed.

Lemma body_shaped cx body k m m2 c st G :
  gen_body cx body (empty_cg k m m2 c) = Ok st -> loaded G st -> fitting G st ->
  exists l, shaped G l /\ (loops_ok body = true -> chains_end l).
Proof.
  intros GB [L1 L2 L3 L4 L5] [F1 F2 F3 _].
  assert (X : exists strict st0 l0, inv strict st0 l0 /\ st = emit (I0 oRETURN) st0 /\
              (loops_ok body = true -> strict = true)).
  { destruct (loops_ok body) eqn:LO.
    - destruct (gen_body_shape true cx body st k m m2 c (fun _ => LO) GB) as (s0 & l0 & I & E).
      exists true, s0, l0. auto.
    - destruct (gen_body_shape false cx body st k m m2 c) as (s0 & l0 & I & E);
        [discriminate|exact GB|]. exists false, s0, l0. split; [exact I|]. split; [exact E|discriminate]. }
  destruct X as (strict & st0 & l0 & I & -> & LS).
  set (l := l0 ++ [I0 oRETURN]).
  assert (GR : grows l0 l) by apply grows_app.
  assert (LL : (length l0 < length l)%nat) by (unfold l; rewrite app_length; cbn; lia).
  assert (CO : pr_code G = encodes l).
  { rewrite L1. unfold l. rewrite encodes_app, <- (i_code _ _ _ I). unfold emit, encodes. cbn. reflexivity. }
  assert (SM : lsz l < 2 ^ 31). { rewrite CO in F1. exact F1. }
  assert (NL : forall k i, nth_error l k = Some i -> disp i <> None ->
    nth_error l0 k = Some i /\ pos l (S k) = pos l0 (S k)).
  { intros q i N D. apply nth_snoc in N as [[A N]|[_ ->]]; [|exfalso; apply D; reflexivity].
    split; [exact N|]. apply grows_pos; [exact GR|lia]. }
  assert (HG : forall k i d, nth_error l k = Some i -> disp i = Some d ->
    exists t, goes l (pos l (S k)) d t /\ (strict = true -> pos l (S k) <= pos l t \/
      exists i, nth_error l t = Some i /\ is_jmp i = false)).
  { intros q i d N D. destruct (NL _ _ N) as [N0 PE]; [congruence|].
    eapply hits_goes; [exact GR|exact LL|exact SM|apply pos_bounds|]. rewrite PE.
    eapply i_tgt; eassumption. }
  exists l. split.
  - constructor.
    + exact CO.
    + intros q i d N D. destruct (HG _ _ _ N D) as (t & A & _). eauto.
    + exact SM.
    + exists l0. reflexivity.
    + intros q t d mm e N T HI. destruct (NL _ _ N) as [N0 PE]; [discriminate|].
      destruct (i_tab _ _ _ I _ _ _ _ N0) as (T0 & m' & A & B).
      assert (TB : (Z.to_nat t < length (g_map st0))%nat) by (apply nth_error_Some; congruence).
      apply (extends_nth _ _ _ _ L4) in A.
      assert (TB2 : (Z.to_nat t < length (pr_map G))%nat) by (apply nth_error_Some; congruence).
      rewrite Z.mod_small in T by lia. rewrite A in T. injection T as ->.
      rewrite PE. eapply thits_bnd; [exact GR|exact LL|exact SM| |apply B, HI].
      rewrite <- PE. apply pos_bounds.
    + intros q t d lo hi mm def e N T HI. destruct (NL _ _ N) as [N0 PE]; [discriminate|].
      destruct (i_tab _ _ _ I _ _ _ _ N0) as (T0 & lo' & hi' & m' & def' & A & B).
      apply (extends_nth _ _ _ _ L5) in A.
      assert (TB2 : (Z.to_nat t < length (pr_map2 G))%nat) by (apply nth_error_Some; congruence).
      rewrite Z.mod_small in T by lia. rewrite A in T. injection T as -> -> -> ->.
      rewrite PE. eapply thits_bnd; [exact GR|exact LL|exact SM| |apply B, HI].
      rewrite <- PE. apply pos_bounds.
    + rewrite L2. eapply Forall_impl; [|exact (i_ex _ _ _ I)]. intros e (t & TL & ->).
      exists t. split; [lia|]. symmetry. apply grows_pos; assumption.
  - intros LO. specialize (LS LO). subst strict.
    assert (Y : forall n t, (t < length l)%nat -> (length l - t <= n)%nat ->
      exists f i, jreach l t f /\ nth_error l f = Some i /\ is_jmp i = false).
    { induction n as [|n IH]; intros t TL LE; [lia|].
      destruct (nth_lt l t TL) as [i N]. destruct (is_jmp i) eqn:J.
      - destruct (is_jmp_form _ J) as (o & d & ->).
        destruct (HG _ _ _ N eq_refl) as (t' & GO & Q). destruct (Q eq_refl) as [Q1|(i' & N' & J')].
        + destruct (IH t') as (f & i & A & B & C).
          * exact (proj1 GO).
          * pose proof (pos_S _ _ _ N) as PS. pose proof (isz_pos (IJ o d)).
            assert (t < t')%nat; [|lia].
            destruct (Nat.lt_ge_cases t t') as [LT|GE]; [exact LT|].
            pose proof (pos_mono l _ _ GE). lia.
          * exists f, i. split; [|auto]. eapply jr_step; [exact N|exact J|reflexivity|exact GO|exact A].
        + exists t', i'. split; [|auto].
          eapply jr_step; [exact N|exact J|reflexivity|exact GO|constructor].
      - exists t, i. split; [constructor|auto]. }
    intros q o d t N GO. apply (Y (length l) t); [exact (proj1 GO)|lia].
Qed.
