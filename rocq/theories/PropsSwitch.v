(** C116: changing stacks keeps every caller's registers and stack. *)
From Coq Require Import ZArith List Bool Lia.
From Verif Require Import ModelSwitch SpecSwitch ProofsSwitch ProofsSwitch2 ProofsSwitch3 ProofsSwitch4.
Import ListNotations.
Local Open Scope Z_scope.

(** A resume of a fiber that is not being run: if the fiber has yielded, its call
    of yield returns, with the registers, the stack pointer and the return
    address it had; if not, [new_context] is called on a stack of the fiber's
    own, aligned as the calling convention wants it. *)
Theorem C116_resume : forall A ml mh m w ra f b m',
  reach A ml mh m w -> ~ In f (map fst (chain w)) -> on_stack A ml mh m w ->
  (pool m = [] -> b <> 0 /\ b mod 4096 = 0 /\ fresh ml mh m b STACK_SIZE) ->
  resume A ra f b m = Some m' ->
  match susp w f with
  | Some s => back A s (cp m')
  | None => first_entry A f m'
  end /\ forall a, mem (cp m') a <> mem (cp m) a -> resume_writes A m m' w f a.
Proof.
  intros A ml mh m w ra f b m' R N On Al E. destruct (reach_inv A ml mh m w R) as [I NO].
  destruct (resume_ok A ml mh m w ra f b m' I NO N On Al E) as (_ & _ & H). exact H.
Qed.
Print Assumptions C116_resume.

(** A yield of the running fiber: the call that resumed it returns. *)
Theorem C116_yield : forall A ml mh m w ra f s l,
  reach A ml mh m w -> chain w = (f, s) :: l -> on_stack A ml mh m w ->
  back A s (cp (fiber_yield A ra f m))
  /\ forall a, mem (cp (fiber_yield A ra f m)) a <> mem (cp m) a ->
       regs (cp m) SP - room A <= a < regs (cp m) SP \/ a = f.
Proof.
  intros A ml mh m w ra f s l R Ch On. destruct (reach_inv A ml mh m w R) as [I NO].
  destruct (yield_ok A ml mh m w ra f s l I NO Ch On) as (_ & _ & H). exact H.
Qed.
Print Assumptions C116_yield.

(** The end of a fiber: [guard] is called with the fiber as its argument, the
    fiber is dead, and the call that resumed it returns. *)
Theorem C116_finish : forall A ml mh m w ra k f s l x,
  reach A ml mh m w -> chain w = (f, s) :: l -> fibs m f = Some x ->
  regs (cp m) SP = entry_sp A (stack x) + popped A -> 0 <= k < STACK_SIZE - 1024 ->
  called A GUARD f (cp (after_skip A m)) /\ back A s (cp (finish A ra k m))
  /\ fibs (finish A ra k m) f = Some (mkfcb (stack x) Dead)
  /\ (forall g, g <> f -> fibs (finish A ra k m) g = fibs m g)
  /\ forall ra' b, resume A ra' f b (finish A ra k m) = None.
Proof.
  intros A ml mh m w ra k f s l x R Ch F Hs Hk. destruct (reach_inv A ml mh m w R) as [I NO].
  destruct (finish_ok A ml mh m w ra k f s l x I NO Ch F Hs Hk) as (_ & _ & H1 & H2 & H3).
  destruct (skip_ok A ml mh m w f s l x I Ch F Hs) as (H4 & _).
  split; [exact H4|]. split; [exact H1|]. split; [exact H2|]. split; [exact H3|].
  intros ra' b. unfold resume. rewrite H2. reflexivity.
Qed.
Print Assumptions C116_finish.

(** The stacks of two fibers have no byte in common, nor do that of a fiber and
    one waiting to be used again or the main stack. *)
Theorem C116_stacks : forall A ml mh m w f x,
  reach A ml mh m w -> fibs m f = Some x -> state x <> Created ->
  stack x mod 4096 = 0
  /\ (forall g y, fibs m g = Some y -> state y <> Created -> g <> f -> disjoint (stack x) STACK_SIZE (stack y) STACK_SIZE)
  /\ (forall b, In b (pool m) -> disjoint (stack x) STACK_SIZE b STACK_SIZE)
  /\ disjoint (stack x) STACK_SIZE ml (mh - ml).
Proof.
  intros A ml mh m w f x R F S. destruct (reach_inv A ml mh m w R) as [I _].
  assert (NZ : forall g y, fibs m g = Some y -> state y <> Created -> stack y <> 0).
  { intros g y G Sy E. apply Sy. now apply (i_stk _ _ _ _ _ I g y G). }
  pose proof (B_stack ml mh m f x F (NZ f x F S)) as Bf.
  split; [apply (i_stk _ _ _ _ _ I f x F)|]. split; [|split].
  - intros g y G Sy N. apply (i_disj _ _ _ _ _ I _ _ _ _ _ _ Bf (B_stack ml mh m g y G (NZ g y G Sy))). congruence.
  - intros b B. apply In_nth_error in B as [i B]. apply (i_disj _ _ _ _ _ I _ _ _ _ _ _ Bf (B_pool ml mh m i b B)). discriminate.
  - apply (i_disj _ _ _ _ _ I _ _ _ _ _ _ Bf (B_main ml mh m)). discriminate.
Qed.
Print Assumptions C116_stacks.

(** An execution: the main program makes two fibers and resumes the first, which
    moves its stack pointer, changes registers and resumes the second, which
    yields; then the first yields. *)
Definition ML : Z := 268435456. Definition MH : Z := ML + 1048576.
Definition c_main : cpu := mkcpu (fun r => match r with SP => ML + 4096 | RBX => 71 | R12 => 72 | _ => 0 end) (fun _ => 0) 0.
Definition b1 : Z := 16777216. Definition b2 : Z := 33554432.
Definition e0 : mach := mkmach c_main (fun _ => None) [].
Definition e2 : mach := new_fiber 8192 (new_fiber 4096 e0).
Definition opt (o : option mach) : mach := match o with Some m => m | None => e0 end.
Definition e3 A : mach := opt (resume A 500 4096 b1 e2).
Definition mv (d v : Z) (m : mach) : mach :=
  mkmach (putr RBX v (putr (X 20) v (putr SP (regs (cp m) SP - d) (cp m)))) (fibs m) (pool m).
Definition e4 A : mach := mv 160 81 (e3 A).
Definition e5 A : mach := opt (resume A 600 8192 b2 (e4 A)).
Definition e6 A : mach := mv 320 91 (e5 A).
Definition e7 A : mach := fiber_yield A 700 8192 (e6 A).
Definition e8 A : mach := fiber_yield A 800 4096 (e7 A).
Example C116_example : forall A,
  let show m := (pc (cp m), regs (cp m) SP, regs (cp m) (match A with Arm64 => X 20 | _ => RBX end)) in
  map show [e3 A; e5 A; e7 A; e8 A]
  = [(NEW_CONTEXT, entry_sp A b1, 0); (NEW_CONTEXT, entry_sp A b2, 0);
     (600, entry_sp A b1 - 160, 81); (500, ML + 4096, match A with Arm64 => 0 | _ => 71 end)].
Proof. intros []; vm_compute; reflexivity. Qed.
Definition w0 : who := mkwho [] (fun _ => None).
Lemma e0_reach A : reach A ML MH e0 w0.
Proof. constructor. Qed.
Lemma e2_reach A : reach A ML MH e2 w0.
Proof.
  eapply R_act; [eapply R_act; [apply (e0_reach A)|apply (X_new A ML MH e0 w0 4096)]|apply (X_new A ML MH (new_fiber 4096 e0) w0 8192)].
  - reflexivity.
  - intros t a n []; unfold disjoint; cbn in *; try discriminate; try (unfold ML, MH; lia). destruct i; discriminate.
  - reflexivity.
  - intros t a n []; unfold disjoint; cbn in *; try (unfold ML, MH; lia).
    + unfold setf in H. destruct (Z.eqb_spec f 4096); [lia|discriminate].
    + unfold setf in H. destruct (Z.eqb_spec f 4096); [injection H as <-; cbn in H0; lia|discriminate].
    + destruct i; discriminate.
Qed.
Lemma b1_fresh : fresh ML MH e2 b1 STACK_SIZE.
Proof.
  intros t a n []; unfold disjoint, e2, new_fiber, b1, STACK_SIZE in *; cbn in *; try (unfold ML, MH; lia).
  - unfold setf in H. destruct (Z.eqb_spec f 8192); [lia|]. destruct (Z.eqb_spec f 4096); [lia|discriminate].
  - unfold setf in H. destruct (Z.eqb_spec f 8192); [injection H as <-; cbn in H0; lia|].
    destruct (Z.eqb_spec f 4096); [injection H as <-; cbn in H0; lia|discriminate].
  - destruct i; discriminate.
Qed.
Lemma e2_on A : on_stack A ML MH e2 w0.
Proof. exists ML, MH. split; [split; reflexivity|]. destruct A; vm_compute; split; discriminate. Qed.
Definition w3 : who := mkwho [(4096, snap_of 500 (cp e2))] (sets 4096 None (fun _ => None)).
Lemma e3_reach A : reach A ML MH (e3 A) w3.
Proof.
  eapply R_act; [apply e2_reach|]. apply (X_resume A ML MH e2 w0 500 4096 b1 (e3 A)).
  - intros [].
  - apply e2_on.
  - intros _. split; [discriminate|]. split; [reflexivity|]. apply b1_fresh.
  - reflexivity.
Qed.
(** the hypotheses of the theorems *)
Example C116_resume_used : forall A, exists x, fibs (e3 A) 4096 = Some x /\ regs (cp (e3 A)) SP = entry_sp A (stack x)
  /\ called A NEW_CONTEXT 4096 (cp (e3 A)).
Proof.
  intros A. destruct (C116_resume A ML MH e2 w0 500 4096 b1 (e3 A) (e2_reach A)) as [H _].
  - intros [].
  - apply e2_on.
  - intros _. split; [discriminate|]. split; [reflexivity|]. apply b1_fresh.
  - reflexivity.
  - destruct H as (x & H1 & H2 & H3 & _). exists x. auto.
Qed.
Lemma e4_reach A : reach A ML MH (e4 A) w3.
Proof. eapply R_act; [apply e3_reach|]. apply (X_code A ML MH (e3 A) w3 (cp (e4 A))). reflexivity. Qed.
Lemma e4_on A : on_stack A ML MH (e4 A) w3.
Proof.
  exists b1, (b1 + STACK_SIZE - 24). split.
  - exists (mkfcb b1 Running). split; [destruct A; vm_compute; reflexivity|]. repeat split; discriminate.
  - destruct A; vm_compute; split; discriminate.
Qed.
Example C116_yield_used : forall A, pc (cp (fiber_yield A 800 4096 (e4 A))) = 500 /\ regs (cp (fiber_yield A 800 4096 (e4 A))) SP = ML + 4096.
Proof.
  intros A. destruct (C116_yield A ML MH (e4 A) w3 800 4096 (snap_of 500 (cp e2)) [] (e4_reach A) eq_refl (e4_on A)) as [(H1 & H2 & _) _].
  split; [exact H1|exact H2].
Qed.
(** the end of the first fiber *)
Definition e9 A : mach := mkmach (putr SP (entry_sp A b1 + popped A) (cp (e4 A))) (fibs (e4 A)) (pool (e4 A)).
Example C116_finish_used : forall A, pc (cp (finish A 900 64 (e9 A))) = 500 /\ pc (cp (after_skip A (e9 A))) = GUARD
  /\ exists x, fibs (finish A 900 64 (e9 A)) 4096 = Some (mkfcb x Dead).
Proof.
  intros A. assert (R : reach A ML MH (e9 A) w3).
  { eapply R_act; [apply e4_reach|]. apply (X_code A ML MH (e4 A) w3 (cp (e9 A))). reflexivity. }
  destruct (C116_finish A ML MH (e9 A) w3 900 64 4096 (snap_of 500 (cp e2)) [] (mkfcb b1 Running) R eq_refl) as ((H1 & _) & (H2 & _) & H3 & _).
  - destruct A; vm_compute; reflexivity.
  - reflexivity.
  - vm_compute. split; congruence.
  - split; [exact H2|]. split; [exact H1|]. exists b1. exact H3.
Qed.
Example C116_stacks_used : forall A : arch, stack (mkfcb b1 Running) mod 4096 = 0 /\ disjoint b1 STACK_SIZE ML (MH - ML).
Proof.
  intros A. destruct (C116_stacks A ML MH (e3 A) w3 4096 (mkfcb b1 Running) (e3_reach A)) as (H1 & _ & _ & H2);
    [destruct A; vm_compute; reflexivity|discriminate|]. auto.
Qed.

(** That the fiber is not being run is not checked.  A fiber that resumes itself
    starts its body a second time, on the same stack, and its next yield does not
    return to the call that resumed it. *)
Theorem C116_active_refuted : exists A ml mh m w f s ra b m',
  reach A ml mh m w /\ chain w = [(f, s)] /\ on_stack A ml mh m w /\ resume A ra f b m = Some m'
  /\ pc (cp m') = NEW_CONTEXT /\ (exists x, fibs m' f = Some x /\ regs (cp m') SP = entry_sp A (stack x) /\ regs (cp m) SP < regs (cp m') SP)
  /\ forall ra', pc (cp (fiber_yield A ra' f m')) <> s_ra s.
Proof.
  exists X64, ML, MH, (e4 X64), w3, 4096, (snap_of 500 (cp e2)), 600, 0, (opt (resume X64 600 4096 0 (e4 X64))).
  split; [apply e4_reach|]. split; [reflexivity|]. split; [apply e4_on|]. split; [reflexivity|]. split; [vm_compute; reflexivity|].
  split.
  - exists (mkfcb b1 Running). split; [vm_compute; reflexivity|]. split; vm_compute; reflexivity.
  - intros ra'. replace (pc (cp (fiber_yield X64 ra' 4096 (opt (resume X64 600 4096 0 (e4 X64)))))) with 600; [discriminate|].
    vm_compute. reflexivity.
Qed.
Print Assumptions C116_active_refuted.

(** In Microsoft's convention the 32 bytes above the return address belong to the
    called function, which may keep its arguments there.  For [new_context] the
    address of [guard] is in these bytes, and 16 of them are beyond the end of the
    stack: a store there makes the end of the fiber go elsewhere. *)
Definition home (c : cpu) (a : Z) : Prop := regs c SP + 8 <= a < regs c SP + 40.
Theorem C116_home_refuted : exists ml mh m w f x,
  reach Win64 ml mh m w /\ fibs m f = Some x /\ called Win64 NEW_CONTEXT f (cp m)
  /\ (exists a, home (cp m) a /\ stack x + STACK_SIZE <= a)
  /\ exists a, home (cp m) a /\ forall v,
       let c := putr SP (regs (cp m) SP + popped Win64) (putm a v (cp m)) in
       pc (cp (after_skip Win64 (mkmach c (fibs m) (pool m)))) = v.
Proof.
  exists ML, MH, (e3 Win64), w3, 4096, (mkfcb b1 Running). split; [apply e3_reach|]. split; [vm_compute; reflexivity|].
  split; [split; [vm_compute; reflexivity|split; vm_compute; reflexivity]|].
  split; [exists (b1 + STACK_SIZE)|exists (b1 + STACK_SIZE - 16)]; (split; [vm_compute; split; congruence|]).
  - vm_compute. congruence.
  - intros v. vm_compute. reflexivity.
Qed.
Print Assumptions C116_home_refuted.
