(** Calls and variables (C72, C73). *)
From Verif Require Import Base ModelValue ModelArray ModelFrame SpecFrame ProofsFrame2 ProofsFrame6 ProofsFrame11 ProofsFrame12.

(** A machine with stack at [B] and heap from [h], before anything runs. *)
Definition empty_vm (m : Z -> Z) (B h : Z) : vm := mkvm m B h B 0 0 0 0.
(** room for the stack, and for 2^27 words of heap per action *)
Definition room (B h : Z) (n : nat) : Prop := 0 < B /\ B + 8192 <= h /\ h + 2 ^ 27 * Z.of_nat n < 2 ^ 60.

Lemma follow m B h ops s : room B h (length ops) -> runs no_sibling start ops s ->
  exists v0 x, init_frame (empty_vm m B h) = Ok v0 /\ steps ops (mkmach v0 [] []) = Ok x /\ rel s x h /\
    hp (v x) <= h + 2 ^ 27 * Z.of_nat (length ops).
Proof.
  intros (H1 & H2 & H3) HR. destruct (init_ok m B h H1 H2 ltac:(lia)) as (v0 & E0 & R0 & Eb & Eh).
  destruct (sims _ _ _ HR _ _ R0) as (x & E & R & _ & Hh); [cbn [v]; rewrite Eh; exact H3|].
  exists v0, x. split; [exact E0|]. split; [exact E|]. split; [exact R|]. cbn [v] in Hh. rewrite Eh in Hh. unfold grow in Hh. lia.
Qed.

(** Whatever calls, blocks, procs, returns and exceptions do, the machine never
    fails and shows in its innermost frame what the activations say. Missing:
    procs made while a sibling block of theirs is running. *)
Theorem C72_follows_partial : forall m B h ops s, room B h (length ops) -> runs no_sibling start ops s ->
  exists v0 x, init_frame (empty_vm m B h) = Ok v0 /\ steps ops (mkmach v0 [] []) = Ok x /\ agrees x s.
Proof.
  intros m B h ops s HR H. destruct (follow m B h ops s HR H) as (v0 & x & E0 & E & R & _).
  exists v0, x. split; [exact E0|]. split; [exact E|]. eapply rel_agrees; eauto.
Qed.
Print Assumptions C72_follows_partial.

(** A call that comes back, by a return or because an exception or a break
    leaves it, leaves its caller as it was: the frame, the place in the code,
    the operands that were not arguments; a result is there if one is wanted. *)
Definition head (x : mach) : Z := cfp (v x) + (if is_ruby (mem (v x)) (cfp (v x)) then 8 else 3).
Theorem C72_returns_partial : forall m B h before o body fin s0 s1 s2 s3 f fs n uv,
  room B h (length before + S (length body + 1)) ->
  runs no_sibling start before s0 -> frames s0 = f :: fs ->
  acts_as no_sibling s0 o s1 -> taken o = Some (n, uv) ->
  stays no_sibling (S (S (length fs))) s1 body s2 ->
  acts_as no_sibling s2 fin s3 -> fin = OReturn \/ fin = OUnwind -> length (frames s3) = S (length fs) ->
  exists v0 x0 x3, init_frame (empty_vm m B h) = Ok v0 /\ steps before (mkmach v0 [] []) = Ok x0 /\
    steps (o :: body ++ [fin]) x0 = Ok x3 /\
    cfp (v x3) = cfp (v x0) /\
    sp (v x3) = sp (v x0) - n + (match fin with OReturn => if uv then 1 else 0 | _ => 0 end) /\
    (is_ruby (mem (v x0)) (cfp (v x0)) = true -> iseq (v x3) = iseq (v x0) /\ pc (v x3) = pc (v x0)) /\
    (forall p, head x0 <= p < sp (v x0) - n -> mem (v x3) p = mem (v x0) p).
Proof.
  intros m B h before o body fin s0 s1 s2 s3 f fs n uv (H1 & H2 & H3) R0 E0 A0 T ST A3 HF HL.
  destruct (follow m B h before s0) as (v0 & x0 & Ei & Ex0 & RL0 & Hh0); [split; [|split]; lia|exact R0|].
  assert (RR : runs no_sibling s0 (o :: body ++ [fin]) s3).
  { econstructor; [exact A0|]. eapply runs_app; [eapply stays_runs; exact ST|]. econstructor; [exact A3|constructor]. }
  destruct (sims _ _ _ RR _ _ RL0) as (x3 & Ex3 & RL3 & Eb & _).
  { cbn [length]. rewrite app_length. cbn [length]. unfold grow. lia. }
  exists v0, x0, x3. split; [exact Ei|]. split; [exact Ex0|]. split; [exact Ex3|].
  destruct (call_back _ _ _ _ _ _ _ _ _ _ _ _ _ RL0 E0 A0 T ST A3 HF HL) as (r & w & EO & EN & E3 & GR).
  set (res := match fin with OReturn => if uv then [w] else [] | _ => [] end) in *.
  assert (EZ : Z.of_nat (length res) = match fin with OReturn => if uv then 1 else 0 | _ => 0 end).
  { unfold res. destruct HF as [-> | ->]; [destruct uv|]; reflexivity. }
  rewrite <- EZ.
  destruct (rel_agrees _ _ _ RL0) as (f0 & fs0 & a0 & F0 & N0 & S0). rewrite E0 in F0. injection F0 as <- <-.
  destruct (rel_agrees _ _ _ RL3) as (f3 & fs3 & a3 & F3 & N3 & S3). rewrite E3 in F3. injection F3 as <- <-.
  cbn [f_act top_ops] in N3. destruct (GR _ _ N0) as (a3' & N3' & AL). assert (a3' = a3) by congruence. subst a3'.
  pose proof (see_used _ _ _ _ _ S0) as U0. pose proof (see_used _ _ _ _ _ S3) as U3.
  pose proof (see_frame _ _ _ _ _ S0) as C0. pose proof (see_frame _ _ _ _ _ S3) as C3.
  cbn [total] in U0, U3. unfold frame_size in U0, U3. cbn [f_act top_ops f_ops] in *. rewrite N0 in U0. rewrite N3 in U3.
  rewrite (grown_total _ _ fs GR) in U3.
  2:{ intros k g Hg. apply (rel_frames _ _ _ RL0 (S k) g). rewrite E0. exact Hg. }
  rewrite app_length in U3, C3. rewrite Eb in U3.
  destruct AL as (A1 & _ & _ & A4 & _ & A6 & _). rewrite A1 in *. rewrite A4 in U3.
  assert (ESP : sp (v x3) = sp (v x0) - n + Z.of_nat (length res)) by lia.
  split; [lia|]. split; [exact ESP|]. split.
  - rewrite (see_kind _ _ _ _ _ S0). intros Hk.
    destruct (see_code _ _ _ _ _ S0 Hk) as (-> & ->). destruct (see_code _ _ _ _ _ S3) as (-> & ->); [congruence|]. split; [exact A6|reflexivity].
  - intros p Hp. unfold head in Hp. rewrite (see_kind _ _ _ _ _ S0) in Hp.
    set (j := Z.to_nat (sp (v x0) - n - 1 - p)).
    assert (Hj : (j < length r)%nat) by (unfold j; lia).
    destruct (nth_error r j) as [u|] eqn:Eu; [|apply nth_error_None in Eu; lia].
    pose proof (see_ops _ _ _ _ _ S0 (Z.to_nat n + j) u) as O0. pose proof (see_ops _ _ _ _ _ S3 (length res + j) u) as O3.
    cbn [f_ops top_ops] in O3.
    assert (N : Z.of_nat (Z.to_nat n) = n) by (destruct (enters_shape _ _ _ _ _ _ A0 T) as (? & ? & ws & ? & ? & _ & _ & <- & _); lia).
    rewrite nth_error_app2 in O3 by lia. replace (length res + j - length res)%nat with j in O3 by lia. specialize (O3 Eu).
    rewrite EO in O0. assert (LF : length (firstn (Z.to_nat n) (f_ops f)) = Z.to_nat n) by (rewrite firstn_length; lia).
    rewrite nth_error_app2, LF in O0 by lia. replace (Z.to_nat n + j - Z.to_nat n)%nat with j in O0 by lia. specialize (O0 Eu).
    replace p with (sp (v x0) - 1 - Z.of_nat (Z.to_nat n + j)) at 2 by (unfold j; lia). rewrite O0.
    replace p with (sp (v x3) - 1 - Z.of_nat (length res + j)) by (unfold j; lia). exact O3.
Qed.
Print Assumptions C72_returns_partial.

(** ---- variables ---- *)
Lemma touch_not G a i s o s1 : acts_as G s o s1 -> ~ writes s o a i -> forall x w, nth_error (acts s) a = Some x -> nth_error (a_vars x) i = Some w ->
  exists y, nth_error (acts s1) a = Some y /\ nth_error (a_vars y) i = Some w.
Proof.
  intros H NW y u Hy Hu.
  assert (APP : forall l z, nth_error l a = Some y -> exists y', nth_error (l ++ [z]) a = Some y' /\ nth_error (a_vars y') i = Some u).
  { intros l z Hl. exists y. split; [|exact Hu]. rewrite nth_error_app1; [exact Hl|]. apply nth_error_Some. congruence. }
  destruct H; cbn [acts] in *; try (exists y; split; assumption); try (apply APP; assumption).
  destruct (Nat.eq_dec a0 a) as [->|NA].
  - assert (x = y) by congruence. subst x. exists (set_var y i0 w).
    rewrite (nth_put l a (set_var y i0 w)) by (apply nth_error_Some; congruence). rewrite Nat.eqb_refl. split; [reflexivity|].
    cbn [a_vars set_var]. rewrite nth_put by assumption. destruct (Nat.eqb_spec i i0) as [->|]; [|exact Hu].
    exfalso. apply NW. exists d, f, fs. auto.
  - exists y. split; [|exact Hu]. rewrite nth_put by (apply nth_error_Some; congruence).
    destruct (Nat.eqb_spec a a0); [congruence|exact Hy].
Qed.
Lemma untouched_keeps G a i s l s1 : untouched G a i s l s1 -> forall x w, nth_error (acts s) a = Some x -> nth_error (a_vars x) i = Some w ->
  exists y, nth_error (acts s1) a = Some y /\ nth_error (a_vars y) i = Some w.
Proof.
  induction 1 as [s|s o s1 l s2 NW HA HU IH]; intros x w Hx Hw; [exists x; auto|].
  destruct (touch_not _ _ _ _ _ _ HA NW _ _ Hx Hw) as (y & Hy & Hw'). eauto.
Qed.
Lemma untouched_runs G a i s l s1 : untouched G a i s l s1 -> runs G s l s1.
Proof. induction 1; econstructor; eauto. Qed.

(** A variable is one place: what was written to it last, by whichever of the
    frames and closures that see it, is what every one of them reads. Missing:
    procs made while a sibling block of theirs is running, see below. *)
Theorem C73_shared_partial : forall m B h before s1 d i w a during s3 e,
  room B h (length before + S (length during)) ->
  runs no_sibling start before s1 -> last_write no_sibling s1 d i w a during s3 e ->
  exists v0 x p, init_frame (empty_vm m B h) = Ok v0 /\
    steps (before ++ OSet d (Z.of_nat i) :: during) (mkmach v0 [] []) = Ok x /\
    var_slot e (Z.of_nat i) (v x) = Ok p /\ mem (v x) p = w.
Proof.
  intros m B h before s1 d i w a during s3 e HR R1 [(f & fs & r & F1 & NE & O1 & U1) (s2 & A2 & UT) (g & gs & F3 & NE3 & U3)].
  assert (RR : runs no_sibling start (before ++ OSet d (Z.of_nat i) :: during) s3).
  { eapply runs_app; [exact R1|]. econstructor; [exact A2|]. eapply untouched_runs; eauto. }
  destruct (fun Q => follow m B h _ _ Q RR) as (v0 & x & E0 & E & R & _); [rewrite app_length; exact HR|].
  assert (X2 : exists y, nth_error (acts s2) a = Some y /\ nth_error (a_vars y) i = Some w).
  { inversion A2; subst; cbn [acts frames] in *. injection F1 as -> ->. apply Nat2Z.inj in H0. subst i0.
    assert (a0 = a) by congruence. subst a0. assert (w0 = w) by congruence. subst w0.
    exists (set_var x0 i w). rewrite nth_put by (apply nth_error_Some; congruence). rewrite Nat.eqb_refl. split; [reflexivity|].
    cbn [a_vars set_var]. rewrite nth_put by assumption. rewrite Nat.eqb_refl. reflexivity. }
  destruct X2 as (y & Hy & Hw). destruct (untouched_keeps _ _ _ _ _ _ UT _ _ Hy Hw) as (z & Hz & Hzw).
  destruct (rel_agrees _ _ _ R) as (f0 & fs0 & a0 & F0 & N0 & S0). rewrite F3 in F0. injection F0 as <- <-.
  destruct (see_vars _ _ _ _ _ S0 NE3 _ _ _ _ _ U3 Hz Hzw) as (p & Ep & Em).
  exists v0, x, p. auto.
Qed.
Print Assumptions C73_shared_partial.

(** ---- examples ---- *)
Ltac ok := solve [cbn; unfold fits, code_ok; cbn; repeat split; first [lia | reflexivity | discriminate | (eexists; split; reflexivity)]].
Ltac sok := repeat match goal with |- _ /\ _ => split end; try ok.

(** A program: a method with one variable gives a block to another method. *)
Definition vm0 : vm := empty_vm (fun _ => 0) 1 10000.
Definition native0 : act := mkact false true 36 [] None 0 None.
Definition main_act (a : Z) : act := mkact true true 36 [a] None 100 None.
Definition giver : act := mkact true true 36 [] None 200 (Some (7, 1%nat)).
Definition block_act (u : Z) : act := mkact true true 36 [u] (Some 1%nat) 300 None.
Definition lambda_act : act := mkact true true 36 [] (Some 2%nat) 400 None.

Definition enter_main : list op := [OPush 36; OPush 36; OCall true 100 1 None; OPush 3; OSet 0 0].
Definition st1 (a : Z) : state := mkstate [native0; main_act a] [mkframe 1 [] 0; mkframe 0 [] 0] [].
Lemma run_main G : runs G start enter_main (st1 3).
Proof.
  unfold start, enter_main, st1, native0, main_act.
  eapply R_cons; [apply A_push; ok|]. cbn.
  eapply R_cons; [apply A_push; ok|]. cbn.
  eapply R_cons; [apply (A_call G _ _ _ _ true 100 [36] 36 [] None); ok|]. cbn.
  eapply R_cons; [apply A_push; ok|]. cbn.
  eapply R_cons; [apply (A_set G _ _ _ _ 0%nat 0%nat 1%nat (main_act 36) 3 []); ok|]. cbn.
  apply R_nil.
Qed.
(* the other method is called with a block, makes a lambda, and yields *)
Definition give_block : list op := [OPush 36; OCall true 200 0 (Some 7)].
Definition st2 : state := mkstate [native0; main_act 3; giver] [mkframe 2 [] 0; mkframe 1 [] 0; mkframe 0 [] 0] [].
Lemma run_give G : runs G (st1 3) give_block st2.
Proof.
  unfold st1, give_block, st2, native0, main_act, giver.
  eapply R_cons; [apply A_push; ok|]. cbn.
  eapply R_cons; [apply (A_call G _ _ _ _ true 200 [] 36 [] (Some 7)); ok|]. cbn.
  apply R_nil.
Qed.
Definition yield_lambda : list op := [OCapture 0; OPush 36; OYield 300 1].
Definition st3 : state := mkstate [native0; main_act 3; giver; block_act 36]
  [mkframe 3 [] 0; mkframe 2 [] 0; mkframe 1 [] 0; mkframe 0 [] 0] [2%nat].
Lemma method_here l a x : nth_error l a = Some x -> a_parent x = None -> method_of l a a.
Proof. intros H E. split; [exists O; reflexivity|]. exists x. auto. Qed.
Lemma run_yield (G : state -> nat -> Prop) : G st2 2%nat -> runs G st2 yield_lambda st3.
Proof.
  intros HG. unfold yield_lambda, st3.
  eapply R_cons; [apply (A_capture G _ _ _ 0%nat (mkframe 2 [] 0)); [reflexivity|ok|exact HG]|]. cbn.
  eapply R_cons; [apply A_push; ok|]. cbn.
  eapply R_cons.
  { eapply (A_yield G _ _ _ _ 300 [36] [] 2%nat 7 giver 1%nat (main_act 3)); try ok.
    - eapply method_here; reflexivity.
    - exists (mkframe 1 [] 0). split; [right; left; reflexivity|reflexivity]. }
  cbn. apply R_nil.
Qed.

Lemma sib2 : no_sibling st2 2%nat.
Proof. intros b x p _ _ Hb Hp. destruct b as [|[|[|[|b]]]]; cbn in Hb; try discriminate; injection Hb as <-; discriminate. Qed.
Lemma sib3 : no_sibling st3 3%nat.
Proof.
  intros b x p _ _ Hb Hp _ _. destruct b as [|[|[|[|[|b]]]]]; cbn in Hb; try discriminate; injection Hb as <-; try discriminate.
  exists O. reflexivity.
Qed.

Example C72_follows_partial_ex : room 1 10000 (length (enter_main ++ give_block ++ yield_lambda)) /\
  runs no_sibling start (enter_main ++ give_block ++ yield_lambda) st3.
Proof.
  split; [unfold room; cbn; lia|]. eapply runs_app; [apply run_main|]. eapply runs_app; [apply run_give|]. apply run_yield, sib2.
Qed.
(* the call of the other method, which makes a lambda, yields to the block, and returns *)
Definition st3_back : state := mkstate (acts st3) [mkframe 1 [36] 0; mkframe 0 [] 0] [2%nat].
Example C72_returns_partial_ex : exists s0 s1 s2,
  room 1 10000 (length (enter_main ++ [OPush 36]) + S (length (yield_lambda ++ [OPush 36; OReturn]) + 1)) /\
  runs no_sibling start (enter_main ++ [OPush 36]) s0 /\ frames s0 = [mkframe 1 [36] 0; mkframe 0 [] 0] /\
  acts_as no_sibling s0 (OCall true 200 0 (Some 7)) s1 /\
  stays no_sibling 3 s1 (yield_lambda ++ [OPush 36; OReturn]) s2 /\ acts_as no_sibling s2 OReturn st3_back /\
  length (frames st3_back) = 2%nat.
Proof.
  exists (mkstate [native0; main_act 3] [mkframe 1 [36] 0; mkframe 0 [] 0] []), st2,
    (mkstate (acts st3) [mkframe 2 [36] 0; mkframe 1 [] 0; mkframe 0 [] 0] [2%nat]).
  split; [unfold room; cbn; lia|]. split; [|split; [reflexivity|split; [|split; [|split; [|reflexivity]]]]].
  - eapply runs_app; [apply run_main|]. eapply R_cons; [apply A_push; ok|]. apply R_nil.
  - apply (A_call no_sibling [native0; main_act 3] (mkframe 1 [36] 0) [mkframe 0 [] 0] [] true 200 [] 36 [] (Some 7)); ok.
  - unfold yield_lambda, st3, st2. cbn.
    eapply S_cons; [cbn; lia|apply (A_capture no_sibling _ _ _ 0%nat (mkframe 2 [] 0)); [reflexivity|ok|exact sib2]|]. cbn.
    eapply S_cons; [cbn; lia|apply A_push; ok|]. cbn.
    eapply S_cons; [cbn; lia| |].
    { eapply (A_yield no_sibling _ _ _ _ 300 [36] [] 2%nat 7 giver 1%nat (main_act 3)); try ok.
      - eapply method_here; reflexivity.
      - exists (mkframe 1 [] 0). split; [right; left; reflexivity|reflexivity]. }
    cbn. eapply S_cons; [cbn; lia|apply A_push; ok|]. cbn.
    eapply S_cons; [cbn; lia|eapply (A_return no_sibling _ _ _ _ _ (block_act 36) 36 []); reflexivity|]. cbn.
    apply S_nil. cbn. lia.
  - unfold st3_back, st3. cbn. apply (A_return no_sibling _ (mkframe 2 [36] 0) (mkframe 1 [] 0) _ _ giver 36 []); reflexivity.
Qed.

(* the block is made a proc, sets the variable of the first method, and both methods' frames end *)
Definition st4 (a : Z) : state := mkstate [native0; main_act a; giver; block_act 36]
  [mkframe 3 [11] 0; mkframe 2 [] 0; mkframe 1 [] 0; mkframe 0 [] 0] [2%nat; 3%nat].
Definition st5 (a : Z) (h : list nat) : state := mkstate [native0; main_act a; giver; block_act 36]
  [mkframe 1 [36] 0; mkframe 0 [] 0] h.
Definition leave : list op := [OPush 36; OReturn; OReturn].
Example C73_shared_partial_ex :
  room 1 10000 (length (enter_main ++ give_block ++ yield_lambda ++ [OCapture 0; OPush 11]) + S (length leave)) /\
  runs no_sibling start (enter_main ++ give_block ++ yield_lambda ++ [OCapture 0; OPush 11]) (st4 3) /\
  last_write no_sibling (st4 3) 1 0 11 1 leave (st5 11 [2%nat; 3%nat]) 0.
Proof.
  split; [unfold room; cbn; lia|]. split.
  - eapply runs_app; [apply run_main|]. eapply runs_app; [apply run_give|]. eapply runs_app; [apply run_yield, sib2|].
    eapply R_cons; [apply (A_capture no_sibling _ _ _ 0%nat (mkframe 3 [] 0)); [reflexivity|ok|exact sib3]|]. cbn.
    eapply R_cons; [apply A_push; ok|]. apply R_nil.
  - split.
    + exists (mkframe 3 [11] 0), [mkframe 2 [] 0; mkframe 1 [] 0; mkframe 0 [] 0], []. repeat split. discriminate.
    + eexists. split; [apply (A_set no_sibling _ (mkframe 3 [11] 0) _ _ 1%nat 0%nat 1%nat (main_act 3) 11 []); ok|]. cbn.
      assert (NW : forall s o, match o with OSet _ _ => False | _ => True end -> ~ writes s o 1 0).
      { intros s o H (d & f & fs & -> & _). exact H. }
      eapply U_cons; [apply NW; exact I|apply A_push; ok|]. cbn.
      eapply U_cons; [apply NW; exact I|eapply (A_return no_sibling _ _ _ _ _ (block_act 36) 36 []); reflexivity|]. cbn.
      eapply U_cons; [apply NW; exact I|eapply (A_return no_sibling _ _ _ _ _ giver 36 []); reflexivity|]. cbn.
      apply U_nil.
    + exists (mkframe 1 [36] 0), [mkframe 0 [] 0]. repeat split. discriminate.
Qed.

(** The block calls the lambda, which yields to the block a second time; the
    second run of the block makes itself a proc; then the first run sets the
    variable. The method that owns the variable does not see it. *)
Definition call_lambda : list op :=
  [OPush 36; ONative 0; OProc 0 36 400 0; OPush 36; OYield 300 1; OCapture 0; OPush 36; OReturn; OReturn; OUnwind; OPush 11].
Definition st6 (a : Z) : state :=
  mkstate [native0; main_act a; giver; block_act 36; native0; lambda_act; block_act 36]
  [mkframe 3 [11] 0; mkframe 2 [] 0; mkframe 1 [] 0; mkframe 0 [] 0] [2%nat; 6%nat].
Definition st7 (a : Z) : state :=
  mkstate [native0; main_act a; giver; block_act 36; native0; lambda_act; block_act 36]
  [mkframe 1 [36] 0; mkframe 0 [] 0] [2%nat; 6%nat].
Lemma run_lambda : runs any st3 call_lambda (st6 3).
Proof.
  unfold call_lambda, st6, st3.
  eapply R_cons; [apply A_push; ok|]. cbn.
  eapply R_cons; [apply (A_native any _ _ _ _ [] 36 []); ok|]. cbn.
  eapply R_cons; [apply (A_proc any _ _ _ _ 400 [] [] 0%nat 2%nat 36); ok|]. cbn.
  eapply R_cons; [apply A_push; ok|]. cbn.
  eapply R_cons.
  { eapply (A_yield any _ _ _ _ 300 [36] [] 2%nat 7 giver 1%nat (main_act 3)); try ok.
    - split; [exists 1%nat; reflexivity|]. exists giver. split; reflexivity.
    - exists (mkframe 1 [] 0). split; [cbn; tauto|reflexivity]. }
  cbn.
  eapply R_cons; [apply (A_capture any _ _ _ 0%nat (mkframe 6 [] 0)); [reflexivity|ok|exact I]|]. cbn.
  eapply R_cons; [apply A_push; ok|]. cbn.
  eapply R_cons; [eapply (A_return any _ _ _ _ _ (block_act 36) 36 []); reflexivity|]. cbn.
  eapply R_cons; [eapply (A_return any _ _ _ _ _ lambda_act 36 []); reflexivity|]. cbn.
  eapply R_cons; [apply A_unwind|]. cbn.
  eapply R_cons; [apply A_push; ok|]. cbn.
  apply R_nil.
Qed.
Theorem C73_shared_refuted : exists before s1 d i w a during s3 e v0 x p,
  room 1 10000 (length before + S (length during)) /\
  runs any start before s1 /\ last_write any s1 d i w a during s3 e /\
  init_frame vm0 = Ok v0 /\ steps (before ++ OSet d (Z.of_nat i) :: during) (mkmach v0 [] []) = Ok x /\
  var_slot e (Z.of_nat i) (v x) = Ok p /\ mem (v x) p <> w.
Proof.
  exists (enter_main ++ give_block ++ yield_lambda ++ call_lambda), (st6 3), 1%nat, 0%nat, 11, 1%nat, leave, (st7 11), 0%nat.
  destruct (init_frame vm0) as [v0| |] eqn:E0; [|vm_compute in E0; discriminate|vm_compute in E0; discriminate].
  destruct (steps ((enter_main ++ give_block ++ yield_lambda ++ call_lambda) ++ OSet 1 (Z.of_nat 0) :: leave) (mkmach v0 [] [])) as [x| |] eqn:E1.
  2,3: exfalso; revert E1; vm_compute in E0; injection E0 as <-; vm_compute; discriminate.
  exists v0, x, (lfp (v x) + 0).
  split; [unfold room; cbn; lia|]. split; [|split; [|split; [reflexivity|split; [exact E1|split; [reflexivity|]]]]].
  - eapply runs_app; [apply run_main|]. eapply runs_app; [apply run_give|]. eapply runs_app; [apply run_yield; exact I|]. apply run_lambda.
  - split.
    + exists (mkframe 3 [11] 0), [mkframe 2 [] 0; mkframe 1 [] 0; mkframe 0 [] 0], []. repeat split. discriminate.
    + eexists. split; [apply (A_set any _ (mkframe 3 [11] 0) _ _ 1%nat 0%nat 1%nat (main_act 3) 11 []); ok|]. cbn.
      assert (NW : forall s o, match o with OSet _ _ => False | _ => True end -> ~ writes s o 1 0).
      { intros s o H (d & f & fs & -> & _). exact H. }
      eapply U_cons; [apply NW; exact I|apply A_push; ok|]. cbn.
      eapply U_cons; [apply NW; exact I|eapply (A_return any _ _ _ _ _ (block_act 36) 36 []); reflexivity|]. cbn.
      eapply U_cons; [apply NW; exact I|eapply (A_return any _ _ _ _ _ giver 36 []); reflexivity|]. cbn.
      apply U_nil.
    + exists (mkframe 1 [36] 0), [mkframe 0 [] 0]. repeat split. discriminate.
  - revert E1. vm_compute in E0. injection E0 as <-. vm_compute. intros E. injection E as <-. vm_compute. discriminate.
Qed.
Print Assumptions C73_shared_refuted.
