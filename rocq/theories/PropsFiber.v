(** C42: fibers.  Model: ModelFiber.v; what is expected: SpecFiber.v. *)
From Coq Require Import ZArith List Bool Arith Lia.
From Verif Require Import ModelFiber SpecFiber ProofsFiber ProofsFiber2 ProofsFiber3.
Import ListNotations.

(** *** A small language of programs, for the examples *)
Inductive prog : Type := Do (o : op prog).
Definition perform (p : prog) (g : unit) : unit * op prog := match p with Do o => (g, o) end.
(** up to [n] steps *)
Fixpoint exec (n : nat) (m : mach prog unit) : list (event prog) * mach prog unit :=
  match n with
  | O => ([], m)
  | S n => match step perform m with
           | MStep tr m => let (tr', m') := exec n m in (tr ++ tr', m')
           | _ => ([], m)
           end
  end.
Lemma exec_runs n : forall m, runs perform m (fst (exec n m)) (snd (exec n m)).
Proof.
  induction n as [|n IH]; intros m; [constructor|]. cbn. destruct (step perform m) as [tr m1|r|] eqn:E; [|constructor|constructor].
  specialize (IH m1). destruct (exec n m1) as [tr' m']. cbn in *. econstructor; eassumption.
Qed.
Definition trace n p := fst (exec n (boot p tt)).
Definition after n p := snd (exec n (boot p tt)).
Lemma trace_runs n p : runs perform (boot p tt) (trace n p) (after n p).
Proof. apply exec_runs. Qed.
Lemma no_drop_kept {K} (tr : list (event K)) : (forall t f, ~ In (EDrop t f) tr) -> kept tr.
Proof. intros H l t f r ->. exfalso. apply (H t f). apply in_or_app. right. left. reflexivity. Qed.

(** A generator with one parameter: it yields its argument, then the value it is
    resumed with, and ends with the third one.  Two of them are resumed in turn. *)
Definition gen : kind prog := KFiber 1 1 (fun vars =>
  Do (OYield vars (fun r1 => Do (OYield [match r1 with Value v => v | _ => FNil end] (fun r2 => Do (OEnd r2)))))).
Definition res f v (k : prog) : prog := Do (OResume f [FObj v] (fun _ => k)).
Definition two : prog := Do (ONew gen (fun a => Do (ONew gen (fun b =>
  res a 1 (res b 10 (res a 2 (res a 3 (res b 20 (res a 4 (Do (OTau (Do (OEnd (Value FNil)))))))))))))).
Example two_trace : trace 50 two =
  [ENew None 0 gen; ENew None 1 gen;
   EResume None 0 false (FObj 1); EStart 0 [FObj 1]; EYield 0 (FObj 1); EReturn None 0 (Value (FObj 1));
   EResume None 1 false (FObj 10); EStart 1 [FObj 10]; EYield 1 (FObj 10); EReturn None 1 (Value (FObj 10));
   EResume None 0 false (FObj 2); EBack 0 (FObj 2); EYield 0 (FObj 2); EReturn None 0 (Value (FObj 2));
   EResume None 0 false (FObj 3); EBack 0 (FObj 3); EEnd 0 (Value (FObj 3)); EReturn None 0 (Value (FObj 3));
   EResume None 1 false (FObj 20); EBack 1 (FObj 20); EYield 1 (FObj 20); EReturn None 1 (Value (FObj 20));
   EResume None 0 false (FObj 4); EReturn None 0 (Raise DeadFiber)].
Proof. vm_compute. reflexivity. Qed.
Lemma two_ok : kept (trace 50 two) /\ plain_blocks (trace 50 two) /\ no_break (trace 50 two).
Proof.
  rewrite two_trace. split; [apply no_drop_kept; intros t f W; cbn in W; intuition discriminate|]. split.
  - intros t f p l s W. cbn in W. repeat (destruct W as [W|W]; [try discriminate; injection W; intros; subst; left; lia|]). destruct W.
  - intros f v W. cbn in W. intuition discriminate.
Qed.

(** *** C42: control and values *)
(** In every execution, resume, yield, the end of a fiber and the failure of a
    late resume follow each other as [obeys] says: a new fiber starts with the
    value it is resumed with, a waiting one goes on with it, a yield and an end go
    back to the very call of resume that is waiting, with the value, and a finished
    fiber raises and changes nothing.  Missing, and refuted below: blocks with
    other parameters, and `break`. *)
Theorem C42_protocol_partial : forall (K G : Type) (next : K -> G -> G * op K) k g tr m,
  runs next (boot k g) tr m -> kept tr -> plain_blocks tr -> no_break tr ->
  exists st ph, obeys tr (m_vm m :: st) ph.
Proof.
  intros K G next k g tr m H HK HP HB. destruct (boot_inv K G next k g tr m H HK) as (st & ph & _ & O). exists st, ph. auto.
Qed.
Print Assumptions C42_protocol_partial.
Example C42_protocol_example : exists st ph, obeys (trace 50 two) (m_vm (after 50 two) :: st) ph.
Proof.
  destruct two_ok as (A & B & C). exact (C42_protocol_partial _ _ perform two tt _ _ (trace_runs 50 two) A B C).
Qed.

(** A fiber that makes a fiber, resumes it and drops it; another one then gets the
    same stack.  An enumerator ends with StopIteration. *)
Definition inner : kind prog := KFiber 0 0 (fun _ =>
  Do (ONew gen (fun b => Do (OResume b [FObj 1] (fun r => Do (ODrop b (Do (OEnd r)))))))).
Definition nest : prog :=
  Do (ONew inner (fun a => Do (OResume a [] (fun _ => Do (ODrop a
    (Do (ONew (KEnum (Do (OYield [] (fun r => Do (OEnd r))))) (fun e =>
      Do (ONext e (fun _ => Do (ONext e (fun _ => Do (ONext e (fun r => Do (OEnd r))))))))))))))).
Example nest_trace : tl (trace 50 nest) =
  [EResume None 0 false FNil; EStart 0 []; ENew (Some 0) 1 gen; EResume (Some 0) 1 false (FObj 1); EStart 1 [FObj 1];
   EYield 1 (FObj 1); EReturn (Some 0) 1 (Value (FObj 1)); EDrop (Some 0) 1; EEnd 0 (Value (FObj 1)); EReturn None 0 (Value (FObj 1));
   EDrop None 0; ENew None 2 (KEnum (Do (OYield [] (fun r => Do (OEnd r)))));
   EResume None 2 true FNil; EStart 2 []; EYield 2 FNil; EReturn None 2 (Value FNil);
   EResume None 2 true FNil; EBack 2 FNil; EEnd 2 (Value FNil); EReturn None 2 (Raise Stop);
   EResume None 2 true FNil; EReturn None 2 (Raise Stop)] /\ m_nsid (after 50 nest) = 3.
Proof. vm_compute. split; reflexivity. Qed.

(** *** C42: the values of one fiber, in order *)
(** The results of the resumes of a fiber are what it yields, in order, then once
    what it ends with, then exceptions; the first value given to resume starts it,
    its yields return the following ones in order; it is started at most once. *)
Theorem C42_values_partial : forall (K G : Type) (next : K -> G -> G * op K) k g tr m f,
  runs next (boot k g) tr m -> kept tr -> plain_blocks tr -> no_break tr ->
  results f tr = [] /\ yields f tr = [] /\ ended f tr = [] /\ sent f tr = [] /\ received f tr = [] /\ starts f tr = [] \/
  exists t b v0, In (ENew t f b) tr /\ starts f tr = [first_values b v0] /\
    (ended f tr = [] /\ results f tr = yields f tr /\ sent f tr = v0 :: received f tr \/
     exists r late w, ended f tr = [r] /\ results f tr = yields f tr ++ last_result b r :: late /\
       Forall (fun r => r = Raise DeadFiber \/ r = Raise Stop) late /\
       sent f tr = v0 :: received f tr ++ w /\ length w = length late).
Proof.
  intros K G next k g tr m f H HK HP HB. destruct (boot_inv K G next k g tr m H HK) as (st & ph & _ & O).
  specialize (O HP HB). pose proof (obeys_vals K _ _ _ O f) as V.
  assert (A : forall b, going K f tr b -> made_b K f tr b -> exists t b v0, In (ENew t f b) tr /\ starts f tr = [first_values b v0] /\
    (ended f tr = [] /\ results f tr = yields f tr /\ sent f tr = v0 :: received f tr \/
     exists r late w, ended f tr = [r] /\ results f tr = yields f tr ++ last_result b r :: late /\
       Forall (fun r => r = Raise DeadFiber \/ r = Raise Stop) late /\ sent f tr = v0 :: received f tr ++ w /\ length w = length late)).
  { intros b (v0 & A1 & A2 & A3 & A4) (t & M). exists t, b, v0. auto 6. }
  assert (B : forall b, over K f tr b -> made_b K f tr b -> exists t b v0, In (ENew t f b) tr /\ starts f tr = [first_values b v0] /\
    (ended f tr = [] /\ results f tr = yields f tr /\ sent f tr = v0 :: received f tr \/
     exists r late w, ended f tr = [r] /\ results f tr = yields f tr ++ last_result b r :: late /\
       Forall (fun r => r = Raise DeadFiber \/ r = Raise Stop) late /\ sent f tr = v0 :: received f tr ++ w /\ length w = length late)).
  { intros b (v0 & r & late & w & A1 & A2 & A3 & A4 & A5 & A6) (t & M). exists t, b, v0. split; [exact M|]. split; [exact A6|]. right.
    exists r, late, w. auto 6. }
  destruct (ph f) as [|b|b|b| |]; cbn in V.
  - left. exact V.
  - left. apply V.
  - right. destruct V. eapply A; eassumption.
  - right. destruct V. eapply A; eassumption.
  - right. destruct V as (b & V1 & V2). eapply B; eassumption.
  - destruct V as [V|[(b & V1 & V2)|(b & V1 & V2)]]; [left; exact V|right; eapply A; eassumption|right; eapply B; eassumption].
Qed.
Print Assumptions C42_values_partial.
Example C42_values_example :
  results 0 (trace 50 two) = [Value (FObj 1); Value (FObj 2); Value (FObj 3); Raise DeadFiber] /\
  yields 0 (trace 50 two) = [Value (FObj 1); Value (FObj 2)] /\ ended 0 (trace 50 two) = [Value (FObj 3)] /\
  sent 0 (trace 50 two) = [FObj 1; FObj 2; FObj 3; FObj 4] /\ received 0 (trace 50 two) = [FObj 2; FObj 3].
Proof. vm_compute. repeat split. Qed.

(** *** C42: the code of every fiber is done in order *)
(** Whatever other fibers do in between, what a fiber takes part in is what its code
    alone does from its start on, each step going on where the last one ended; the same holds for the main program. *)
Theorem C42_in_order : forall (K G : Type) (next : K -> G -> G * op K) k g tr m,
  runs next (boot k g) tr m -> kept tr ->
  (exists p, does next None k (events_of None tr) p) /\
  forall t f b, In (ENew t f b) tr ->
    events_of (Some f) tr = [] \/
    exists vars l p, events_of (Some f) tr = EStart f vars :: l /\ does next (Some f) (body b vars) l p.
Proof.
  intros K G next k g tr m H HK. destruct (boot_inv K G next k g tr m H HK) as (st & ph & I & _). split.
  - apply (inv_main K G next k m tr st ph I).
  - intros t f b HM. apply (inv_fiber K G next k m tr st ph t f b I HM).
Qed.
Print Assumptions C42_in_order.
Example C42_in_order_example :
  events_of (Some 1) (trace 50 two) = [EStart 1 [FObj 10]; EYield 1 (FObj 10); EBack 1 (FObj 20); EYield 1 (FObj 20)] /\
  exists vars l p, events_of (Some 1) (trace 50 two) = EStart 1 vars :: l /\ does perform (Some 1) (body gen vars) l p.
Proof.
  split; [vm_compute; reflexivity|].
  destruct (proj2 (C42_in_order _ _ perform two tt _ _ (trace_runs 50 two) (proj1 two_ok)) None 1 gen) as [H|H]; [|vm_compute in H; discriminate|exact H].
  change (In (ENew None 1 gen) (trace 50 two)). rewrite two_trace. right. left. reflexivity.
Qed.

(** *** C42: when resuming is undefined *)
(** The machine never follows a stale stack pointer and never uses a fiber that does
    not exist, unless the program resumes a fiber that is running or waiting for
    one it has resumed, or keeps a fiber whose life has ended. *)
Theorem C42_undefined : forall (K G : Type) (next : K -> G -> G * op K) k g tr m,
  runs next (boot k g) tr m -> kept tr -> step next m = MUndef ->
  exists f, about (snd (next (m_k m) (m_g m))) = Some f /\ (active f false tr = true \/ missing f tr).
Proof.
  intros K G next k g tr m H HK HU. destruct (boot_inv K G next k g tr m H HK) as (st & ph & I & _).
  pose proof (step_fine K G next k m tr st ph I) as F. rewrite HU in F. exact F.
Qed.
Print Assumptions C42_undefined.
(** a fiber that resumes itself *)
Definition self : prog := Do (ONew (KFiber 0 0 (fun _ => Do (OResume 0 [] (fun r => Do (OEnd r))))) (fun f => Do (OResume f [] (fun r => Do (OEnd r))))).
Example C42_undefined_example : step perform (after 2 self) = MUndef /\ active 0 false (trace 2 self) = true.
Proof. split; vm_compute; reflexivity. Qed.
(** In Ruby resuming an active fiber raises FiberError; here it is undefined
    behaviour, whoever does it. *)
Theorem C42_active_refuted : exists (p : prog) tr m f args k,
  runs perform (boot p tt) tr m /\ kept tr /\ plain_blocks tr /\ no_break tr /\ ~ missing f tr /\
  perform (m_k m) (m_g m) = (m_g m, OResume f args k) /\ step perform m = MUndef.
Proof.
  exists self, (trace 2 self), (after 2 self), 0, [], (fun r => Do (OEnd r)).
  assert (E : trace 2 self = [ENew None 0 (KFiber 0 0 (fun _ => Do (OResume 0 [] (fun r => Do (OEnd r))))); EResume None 0 false FNil; EStart 0 []]) by (vm_compute; reflexivity).
  split; [apply trace_runs|]. rewrite E. split; [apply no_drop_kept; intros t f W; cbn in W; intuition discriminate|]. split.
  - intros t f p l s W. cbn in W. repeat (destruct W as [W|W]; [try discriminate; injection W; intros; subst; right; auto|]). destruct W.
  - split; [intros f v W; cbn in W; intuition discriminate|]. split; [|vm_compute; auto].
    intros [W|(t & W)]; [|cbn in W; intuition discriminate]. apply (W None (KFiber 0 0 (fun _ => Do (OResume 0 [] (fun r => Do (OEnd r)))))). left. reflexivity.
Qed.
Print Assumptions C42_active_refuted.

(** *** C42: break *)
(** `break` ends a fiber's block; in Ruby that is a LocalJumpError, here resume gives
    the value as if the block had ended with it. *)
Definition broken : prog := Do (ONew (KFiber 0 0 (fun _ => Do (OEnd (Break (FObj 7))))) (fun f => Do (OResume f [] (fun r => Do (OEnd r))))).
Theorem C42_break_refuted : exists (p : prog) tr m,
  runs perform (boot p tt) tr m /\ kept tr /\ plain_blocks tr /\ (forall st ph, ~ obeys tr st ph) /\
  exists t f v, In (EEnd f (Break v)) tr /\ In (EReturn t f (Value v)) tr.
Proof.
  exists broken, (trace 3 broken), (after 3 broken). split; [apply trace_runs|].
  assert (E : trace 3 broken = [ENew None 0 (KFiber 0 0 (fun _ => Do (OEnd (Break (FObj 7))))); EResume None 0 false FNil; EStart 0 [];
     EEnd 0 (Break (FObj 7)); EReturn None 0 (Value (FObj 7))]) by (vm_compute; reflexivity). rewrite E.
  split; [apply no_drop_kept; intros t f W; cbn in W; intuition discriminate|]. split.
  - intros t f p l s W. cbn [In] in W. destruct W as [W|[W|[W|[W|[W|[]]]]]]; try discriminate W. injection W as _ _ <- <- _. right. split; reflexivity.
  - split.
    + intros st ph O. pose proof (obeys_vals _ _ _ _ O 0) as V.
      assert (Q : forall b, ~ over prog 0 [ENew None 0 (KFiber 0 0 (fun _ => Do (OEnd (Break (FObj 7))))); EResume None 0 false FNil; EStart 0 [];
         EEnd 0 (Break (FObj 7)); EReturn None 0 (Value (FObj 7))] b).
      { intros b (v0 & r & late & w & A1 & A2 & _). cbn in A1, A2. injection A2 as <-. destruct b; discriminate. }
      destruct (ph 0) as [|b|b|b| |]; cbn [vals] in V.
      * destruct V as (V & _). discriminate.
      * destruct V as ((V & _) & _). discriminate.
      * destruct V as ((v0 & V & _) & _). discriminate.
      * destruct V as ((v0 & V & _) & _). discriminate.
      * destruct V as (b & V & _). apply (Q b V).
      * destruct V as [(V & _)|[(b & (v0 & V & _) & _)|(b & V & _)]]; [discriminate|discriminate|apply (Q b V)].
    + exists None, 0, (FObj 7). split; cbn; auto 10.
Qed.
Print Assumptions C42_break_refuted.

(** *** C42: the first value *)
(** The value given to the first resume goes to the first local variable of the
    block as it is, whether that is a parameter or not: in
    [Fiber.new { x = x; x }.resume(5)] the variable x, which nothing was assigned
    to, is 5 and not nil; in [Fiber.new { |a, b| ... }.resume([1, 2])] the array
    is not taken apart. *)
Definition with_block (p l : nat) (v : fval) : prog :=
  Do (ONew (KFiber p l (fun vars => Do (OEnd (Value (hd FNil vars))))) (fun f => Do (OResume f [v] (fun r => Do (OEnd r))))).
Lemma starts_wrong p l v : first_vars l v <> bind_block p l v -> forall st ph, ~ obeys (trace 2 (with_block p l v)) st ph.
Proof.
  intros HN st ph O. pose proof (obeys_vals _ _ _ _ O 0) as V.
  assert (E : trace 2 (with_block p l v) = [ENew None 0 (KFiber p l (fun vars => Do (OEnd (Value (hd FNil vars))))); EResume None 0 false v; EStart 0 (first_vars l v)]) by reflexivity.
  rewrite E in V.
  assert (M : forall b, made_b prog 0 [ENew None 0 (KFiber p l (fun vars => Do (OEnd (Value (hd FNil vars))))); EResume None 0 false v; EStart 0 (first_vars l v)] b ->
     b = KFiber p l (fun vars => Do (OEnd (Value (hd FNil vars))))).
  { intros b (t & W). cbn in W. repeat (destruct W as [W|W]; [try discriminate; injection W; auto|]). destruct W. }
  assert (Q : forall b, going prog 0 [ENew None 0 (KFiber p l (fun vars => Do (OEnd (Value (hd FNil vars))))); EResume None 0 false v; EStart 0 (first_vars l v)] b ->
     made_b prog 0 [ENew None 0 (KFiber p l (fun vars => Do (OEnd (Value (hd FNil vars))))); EResume None 0 false v; EStart 0 (first_vars l v)] b -> False).
  { intros b (v0 & _ & _ & A3 & A4) W. apply M in W. subst b. cbn in A3, A4. injection A3 as <-. injection A4. exact HN. }
  destruct (ph 0) as [|b|b|b| |]; cbn [vals] in V.
  - destruct V as (_ & _ & _ & V & _). discriminate.
  - destruct V as ((_ & _ & _ & V & _) & _). discriminate.
  - destruct V as (V & W). apply (Q b V W).
  - destruct V as (V & W). apply (Q b V W).
  - destruct V as (b & (v0 & r & late & w & V & _) & _). cbn in V. discriminate.
  - destruct V as [(_ & _ & _ & V & _)|[(b & V & W)|(b & (v0 & r & late & w & V & _) & _)]]; [discriminate|apply (Q b V W)|cbn in V; discriminate].
Qed.
Lemma block_trace p l v : trace 2 (with_block p l v) =
  [ENew None 0 (KFiber p l (fun vars => Do (OEnd (Value (hd FNil vars))))); EResume None 0 false v; EStart 0 (first_vars l v)].
Proof. reflexivity. Qed.
Lemma block_ok p l v : kept (trace 2 (with_block p l v)) /\ no_break (trace 2 (with_block p l v)).
Proof.
  rewrite block_trace. split; [apply no_drop_kept; intros t f W; cbn [In] in W; intuition discriminate|].
  intros f w W. cbn [In] in W. intuition discriminate.
Qed.
Theorem C42_first_local_refuted : exists (p : prog) tr m,
  runs perform (boot p tt) tr m /\ kept tr /\ no_break tr /\ (forall st ph, ~ obeys tr st ph) /\
  exists f s v, In (ENew None f (KFiber 0 1 s)) tr /\ v <> FNil /\ In (EStart f [v]) tr.
Proof.
  exists (with_block 0 1 (FObj 5)), (trace 2 (with_block 0 1 (FObj 5))), (after 2 (with_block 0 1 (FObj 5))). split; [apply trace_runs|].
  split; [apply block_ok|]. split; [apply block_ok|]. split; [apply starts_wrong; discriminate|]. rewrite block_trace.
  exists 0, (fun vars => Do (OEnd (Value (hd FNil vars)))), (FObj 5). split; [left; reflexivity|]. split; [discriminate|]. cbn. auto.
Qed.
Print Assumptions C42_first_local_refuted.
Theorem C42_destructure_refuted : exists (p : prog) tr m,
  runs perform (boot p tt) tr m /\ kept tr /\ no_break tr /\ (forall st ph, ~ obeys tr st ph) /\
  exists f s a b, In (ENew None f (KFiber 2 2 s)) tr /\ In (EStart f [FArr [a; b]; FNil]) tr.
Proof.
  exists (with_block 2 2 (FArr [FObj 1; FObj 2])), (trace 2 (with_block 2 2 (FArr [FObj 1; FObj 2]))), (after 2 (with_block 2 2 (FArr [FObj 1; FObj 2]))).
  split; [apply trace_runs|].
  split; [apply block_ok|]. split; [apply block_ok|]. split; [apply starts_wrong; discriminate|]. rewrite block_trace.
  exists 0, (fun vars => Do (OEnd (Value (hd FNil vars)))), (FObj 1), (FObj 2). split; [left; reflexivity|]. cbn. auto.
Qed.
Print Assumptions C42_destructure_refuted.
(** In Ruby [resume] takes any number of arguments; here more than one is an
    ArgumentError, and the fiber is not run. *)
Definition many : prog := Do (ONew gen (fun f => Do (OResume f [FObj 1; FObj 2] (fun r => Do (OEnd r))))).
Theorem C42_many_refuted : exists (p : prog) tr m f a b k,
  runs perform (boot p tt) tr m /\ ~ missing f tr /\ active f false tr = false /\
  perform (m_k m) (m_g m) = (m_g m, OResume f [a; b] k) /\
  exists m', step perform m = MStep [] m' /\ m_k m' = k (Raise ArgError).
Proof.
  exists many, (trace 1 many), (after 1 many), 0, (FObj 1), (FObj 2), (fun r => Do (OEnd r)). split; [apply trace_runs|].
  split; [intros [W|(t & W)]; [apply (W None gen); left; reflexivity|cbn in W; intuition discriminate]|].
  split; [reflexivity|]. split; [reflexivity|]. eexists. split; reflexivity.
Qed.
Print Assumptions C42_many_refuted.
