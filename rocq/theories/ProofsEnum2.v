(** Resuming an enumerator's fiber on the machine of ModelFiber.v. *)
From Coq Require Import ZArith List Bool Arith Lia.
From Verif Require Import ModelFiber ModelEnum SpecFiber SpecEnum ProofsFiber ProofsFiber2.
Import ListNotations.

Section Machine.
Variable K G : Type.
Variable next : K -> G -> G * op K.

(** the running stack is not one that is free *)
Definition own_stack (m : mach K G) : Prop := ~ In (m_cur m) (m_pool m) /\ m_cur m < m_nsid m.
(** the fiber [f] runs code [a]; [vm], on stack [c], waits for it *)
Definition running (m : mach K G) (f : fid) (a : K) (c : sid) (vm : vmid) (k : outcome -> K) : Prop :=
  exists x n k0, m_k m = a /\ m_vm m = Some f /\ m_cur m <> c /\ m_base m (m_cur m) = f /\ m_fib m f = Some x /\
    f_state x = Running /\ f_kind x = KEnum k0 /\ f_handle x = true /\
    f_main x = (c, n) /\ m_mem m c = (n, CResume f vm k).
Definition back (m m' : mach K G) (f : fid) (st : fib K) (r : outcome) (c : sid) (vm : vmid) (k : outcome -> K) (g : G) : Prop :=
  m_k m' = k (native r) /\ m_vm m' = vm /\ m_cur m' = c /\ m_g m' = g /\ m_pool m' = m_pool m /\ m_nsid m' = m_nsid m /\ idle m' f st.

Lemma set_same {A} i (a : A) m : set i a m i = a.
Proof. unfold set. rewrite Nat.eqb_refl. reflexivity. Qed.
Lemma set_other {A} i j (a : A) m : j <> i -> set i a m j = m j.
Proof. intros H. unfold set. apply Nat.eqb_neq in H. rewrite H. reflexivity. Qed.

Lemma run_fiber a g r st g' : advance next a g r st g' -> forall m f c vm k, m_g m = g -> running m f a c vm k ->
  exists tr m', runs next m tr m' /\ back m m' f st r c vm k g'.
Proof.
  induction 1 as [a g g1 a1 r st g' E H IH|a g g1 args k1 E|a g g1 q E]; intros m f c vm k Hg (x & n & k0 & R1 & R2 & R3 & R4 & R5 & R6 & R7 & R9 & R10 & R11).
  - destruct (IH (go K G (with_g K G m g1) a1) f c vm k) as (tr & m' & X1 & X2).
    + reflexivity.
    + exists x, n, k0. cbn. repeat split; assumption.
    + exists ([] ++ tr), m'. split; [|exact X2]. eapply R_step; [|exact X1]. unfold step. rewrite R1, Hg, E. reflexivity.
  - eexists _, _. split.
    + eapply R_step; [|apply R_none]. unfold step. rewrite R1, Hg, E. unfold fiber_yield, handle. cbn [m_vm with_g m_fib]. rewrite R2, R5, R9.
      unfold yield_context. cbn [m_fib with_res with_g]. rewrite R5, R10. unfold load. cbn [m_mem with_fib with_mem m_cur with_res with_g fst].
      rewrite set_other by congruence. rewrite R11. cbn [fst]. rewrite Nat.eqb_refl. cbn [negb]. cbn [also]. reflexivity.
    + unfold back. cbn. repeat (split; [reflexivity|]). exists (with_rsp K x (m_cur m, fst (m_mem m (m_cur m)))), (m_cur m), (fst (m_mem m (m_cur m))), k0. cbn.
      split; [apply set_same|]. repeat (split; [assumption || reflexivity|]). split; [rewrite set_other by congruence; rewrite set_same; cbn; try rewrite R2; reflexivity|]. auto.
  - eexists _, _. split.
    + eapply R_step; [|apply R_none]. unfold step. rewrite R1, Hg, E. unfold fiber_end. cbn [m_vm with_g m_fib]. rewrite R2, R5.
      cbn [m_base with_res with_g m_cur m_fib]. rewrite R4, R5. unfold yield_context. cbn [m_fib with_fib with_res with_g]. rewrite set_same.
      cbn [f_main with_state]. rewrite R10. unfold load. cbn [m_mem with_fib with_mem m_cur with_res with_g fst].
      rewrite set_other by congruence. rewrite R11. cbn [fst]. rewrite Nat.eqb_refl. cbn [negb]. cbn [also]. reflexivity.
    + unfold back. cbn. rewrite R7. cbn. repeat (split; [reflexivity|]). eexists. split; [apply set_same|reflexivity].
Qed.

(** the two ways of resuming a fiber *)
Definition asks (o : op K) (f : fid) (st : fib K) (k : outcome -> K) : Prop :=
  o = OResume f [] k \/ o = ONext f k /\ st <> FDead.
Definition returned (m m' : mach K G) (f : fid) (st : fib K) (r : outcome) (k : outcome -> K) (g : G) : Prop :=
  m_k m' = k (native r) /\ m_vm m' = m_vm m /\ m_cur m' = m_cur m /\ m_g m' = g /\ idle m' f st /\ own_stack m'.

Lemma run_next m tr m1 tr' m' : step next m = MStep tr m1 -> runs next m1 tr' m' -> runs next m (tr ++ tr') m'.
Proof. intros. eapply R_step; eassumption. Qed.

Lemma resume_new m f a k r st' g' tr0 m0 : own_stack m -> idle m f (FNew a) ->
  resume f FNil k m = MStep tr0 m0 -> advance next a (m_g m) r st' g' ->
  exists tr m', runs next m0 tr m' /\ returned m m' f st' r k g'.
Proof.
  intros (O1 & O2) (x & X1 & X2 & X3) E A. unfold resume in E. rewrite X1, X2 in E. unfold initialize in E.
  set (sp := match m_pool m with s :: l => (s, with_pool K G m l (m_nsid m)) | [] => (m_nsid m, with_pool K G m [] (S (m_nsid m))) end) in E.
  assert (Q : exists s m1, sp = (s, m1) /\ s <> m_cur m /\ m_fib m1 = m_fib m /\ m_mem m1 = m_mem m /\ m_base m1 = m_base m /\ m_cur m1 = m_cur m /\
    m_vm m1 = m_vm m /\ m_g m1 = m_g m /\ own_stack m1).
  { unfold sp, own_stack. destruct (m_pool m) as [|s l]; eexists _, _; (split; [reflexivity|]); cbn.
    - repeat split; auto; lia.
    - repeat split; auto; [intros ->; apply O1; left; reflexivity|intros W; apply O1; right; exact W]. }
  destruct Q as (s & m1 & -> & Q1 & Q2 & Q3 & Q4 & Q5 & Q6 & Q7 & Q8).  cbn [fst m_fib with_fib with_base with_mem] in E. rewrite set_same in E.
  unfold switch_context in E. cbn [m_fib with_fib with_base with_mem] in E. rewrite set_same in E. cbn [push_val f_rsp with_main f_kind f_state f_vals f_stack f_main f_handle] in E.
  unfold load in E. cbn [m_mem with_fib with_mem m_cur with_base] in E. rewrite set_other in E by congruence. rewrite set_same in E. rewrite Nat.eqb_refl in E. cbn [negb] in E.
  unfold new_context in E. cbn [m_fib with_run with_mem with_fib] in E. rewrite set_same in E. cbn [with_handle f_kind push_val with_main] in E. rewrite X3 in E.
  injection E as <- <-.
  match goal with |- exists tr m', runs next ?M tr m' /\ _ => set (m2 := M) end.
  assert (Rn : running m2 f a (m_cur m) (m_vm m) k).
  { unfold m2. eexists _, _, a. cbn. rewrite Q5, Q6. split; [reflexivity|]. split; [reflexivity|]. split; [exact Q1|]. split; [apply set_same|].
    split; [apply set_same|]. cbn. repeat (split; [assumption || reflexivity|]). rewrite set_other by congruence. rewrite set_same. reflexivity. }
  destruct (run_fiber a (m_g m) r st' g' A m2 f _ _ k ltac:(unfold m2; cbn; congruence) Rn) as (tr & m' & Y1 & Y2 & Y3 & Y4 & Y5 & Y6 & Y7 & Y8).
  exists tr, m'. split; [exact Y1|]. unfold returned, own_stack. rewrite Y4, Y6, Y7. repeat (split; [assumption || reflexivity|]).
  unfold m2. cbn. rewrite <- Q5. exact Q8.
Qed.
Lemma resume_wait m f k1 k r st' g' tr0 m0 : own_stack m -> idle m f (FWait k1) ->
  resume f FNil k m = MStep tr0 m0 -> advance next (k1 (Value FNil)) (m_g m) r st' g' ->
  exists tr m', runs next m0 tr m' /\ returned m m' f st' r k g'.
Proof.
  intros O (x & s & n & k0 & X1 & X2 & X3 & X4 & X5 & X6 & X7 & X8) E A. unfold resume in E. rewrite X1, X2 in E.
  unfold switch_context in E. cbn [m_fib with_fib] in E. rewrite set_same in E. cbn [push_val f_rsp with_main] in E. rewrite X5 in E.
  unfold load in E. cbn [m_mem with_fib with_mem m_cur] in E. rewrite set_other in E by congruence. rewrite X6 in E. rewrite Nat.eqb_refl in E. cbn [negb] in E.
  cbn [m_fib with_run with_mem with_fib] in E. rewrite set_same in E. cbn [f_vals push_val with_main] in E.
  injection E as <- <-.
  match goal with |- exists tr m', runs next ?M tr m' /\ _ => set (m2 := M) end.
  assert (Rn : running m2 f (k1 (Value FNil)) (m_cur m) (m_vm m) k).
  { unfold m2. eexists _, _, k0. cbn. split; [reflexivity|]. split; [reflexivity|]. split; [exact X8|]. split; [exact X7|].
    split; [apply set_same|]. cbn. repeat (split; [assumption || reflexivity|]). rewrite set_other by congruence. rewrite set_same. reflexivity. }
  destruct (run_fiber _ (m_g m) r st' g' A m2 f _ _ k ltac:(unfold m2; cbn; congruence) Rn) as (tr & m' & Y1 & Y2 & Y3 & Y4 & Y5 & Y6 & Y7 & Y8).
  exists tr, m'. split; [exact Y1|]. unfold returned, own_stack. rewrite Y4, Y6, Y7. repeat (split; [assumption || reflexivity|]).
  unfold m2. cbn. exact O.
Qed.
Lemma resume_steps m f st k : own_stack m -> idle m f st -> st <> FDead -> exists tr0 m0, resume f FNil k m = MStep tr0 m0.
Proof.
  intros (O1 & O2) I N. destruct st as [a|k1|]; [| |congruence].
  - destruct I as (x & X1 & X2 & X3). unfold resume. rewrite X1, X2. unfold initialize.
    set (sp := match m_pool m with s :: l => (s, with_pool K G m l (m_nsid m)) | [] => (m_nsid m, with_pool K G m [] (S (m_nsid m))) end).
    assert (Q : exists s m1, sp = (s, m1) /\ s <> m_cur m /\ m_cur m1 = m_cur m).
    { unfold sp. destruct (m_pool m) as [|s l]; eexists _, _; (split; [reflexivity|]); cbn; (split; [|reflexivity]); [lia|intros ->; apply O1; left; reflexivity]. }
    destruct Q as (s & m1 & -> & Q1 & Q5). cbn [fst m_fib with_fib with_base with_mem]. rewrite set_same.
    unfold switch_context. cbn [m_fib with_fib with_base with_mem]. rewrite set_same. cbn [push_val f_rsp with_main f_kind f_state f_vals f_stack f_main f_handle].
    unfold load. cbn [m_mem with_fib with_mem m_cur with_base]. rewrite set_other by congruence. rewrite set_same. rewrite Nat.eqb_refl. cbn [negb].
    unfold new_context. cbn [m_fib with_run with_mem with_fib]. rewrite set_same. cbn [with_handle f_kind push_val with_main]. rewrite X3. eexists _, _. reflexivity.
  - destruct I as (x & s & n & k0 & X1 & X2 & X3 & X4 & X5 & X6 & X7 & X8). unfold resume. rewrite X1, X2.
    unfold switch_context. cbn [m_fib with_fib]. rewrite set_same. cbn [push_val f_rsp with_main]. rewrite X5.
    unfold load. cbn [m_mem with_fib with_mem m_cur]. rewrite set_other by congruence. rewrite X6. rewrite Nat.eqb_refl. cbn [negb].
    cbn [m_fib with_run with_mem with_fib]. rewrite set_same. cbn [f_vals push_val with_main]. eexists _, _. reflexivity.
Qed.
Lemma resume_fiber m f st k r st' g' : own_stack m -> idle m f st -> resumed next st (m_g m) r st' g' ->
  exists tr0 m0 tr m', resume f FNil k m = MStep tr0 m0 /\ runs next m0 tr m' /\ returned m m' f st' r k g'.
Proof.
  intros O I U. inversion U; subst.
  - destruct (resume_steps m f (FNew k0) k O I ltac:(discriminate)) as (tr0 & m0 & E). exists tr0, m0.
    destruct (resume_new m f k0 k r st' g' tr0 m0 O I E H) as (tr & m' & X). exists tr, m'. split; [exact E|exact X].
  - destruct (resume_steps m f (FWait k0) k O I ltac:(discriminate)) as (tr0 & m0 & E). exists tr0, m0.
    destruct (resume_wait m f k0 k r st' g' tr0 m0 O I E H) as (tr & m' & X). exists tr, m'. split; [exact E|exact X].
  - destruct I as (x & X1 & X2). exists [EReturn (m_vm m) f (Raise DeadFiber)], (go K G m (k (Raise DeadFiber))), [], (go K G m (k (Raise DeadFiber))).
    split; [unfold resume; rewrite X1, X2; reflexivity|]. split; [apply R_none|]. unfold returned. cbn. repeat (split; [reflexivity|]).
    split; [exists x; auto|exact O].
Qed.
(** a step of the program that resumes the fiber *)
Lemma machine m f st k r st' g' : own_stack m -> idle m f st ->
  let (g, o) := next (m_k m) (m_g m) in
  o = OResume f [] k \/ o = ONext f k /\ st <> FDead ->
  resumed next st g r st' g' -> exists tr m', runs next m tr m' /\ returned m m' f st' r k g'.
Proof.
  intros O I. destruct (next (m_k m) (m_g m)) as [g o] eqn:E. intros H U.
  assert (I1 : idle (with_g K G m g) f st) by (destruct st; exact I).
  destruct (resume_fiber (with_g K G m g) f st k r st' g' O I1 U) as (tr0 & m0 & tr & m' & Q1 & Q2 & Q3).
  destruct H as [->|(-> & N)]; eexists (_ ++ tr), m'; (split; [|exact Q3]); (eapply R_step; [|exact Q2]); unfold step; rewrite E.
  - cbn [resume_builtin]. rewrite Q1. reflexivity.
  - unfold next_builtin. assert (W : exists x, m_fib (with_g K G m g) f = Some x /\ f_state x <> Dead).
    { destruct st as [a|k1|]; [| |congruence]; [destruct I as (x & X1 & X2 & _)|destruct I as (x & s & n & k0 & X1 & X2 & _)]; exists x; rewrite X2; split; [exact X1|discriminate|exact X1|discriminate]. }
    destruct W as (x & W1 & W2). rewrite W1. destruct (f_state x); [| |congruence]; rewrite Q1; reflexivity.
Qed.

Lemma reachable_own k g tr m : runs next (boot k g) tr m -> kept tr -> own_stack m.
Proof.
  intros H HK. destruct (boot_inv K G next k g tr m H HK) as (st & ph & I & _). pose proof (i_cur _ _ _ _ _ _ _ _ I) as C.
  unfold own_stack. destruct (m_vm m) as [f|] eqn:E; cbn in C.
  - destruct (m_fib m f) as [x|] eqn:Ef; [|discriminate]. destruct (i_stk _ _ _ _ _ _ _ _ I _ _ _ Ef C) as (A1 & A2 & _). split; [exact A2|lia].
  - injection C as <-. destruct (i_pool _ _ _ _ _ _ _ _ I) as (_ & P). pose proof (i_nsid _ _ _ _ _ _ _ _ I). split; [|lia]. intros W. apply P in W. lia.
Qed.
End Machine.
