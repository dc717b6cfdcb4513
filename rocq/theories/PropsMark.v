(** What a collection visits in frames and closures (C97). *)
From Verif Require Import Base ModelValue ModelArray ModelFrame SpecFrame ProofsFrame11 ProofsFrame12 PropsFrame2 ModelMark SpecMark ProofsMark.

(** However a program has called, yielded, made procs, returned and raised, the
    marking of the machine comes to an end and visits every operand, the
    receiver of every frame, every variable that a frame sees, whether it is on
    the stack or has been moved to the heap, and the temporaries. Missing: procs
    made while a sibling block of theirs is running (see C73_shared_refuted), and
    receivers and blocks of environments that are no longer on the stack (below). *)
Theorem C97_running_partial : forall m B h ops s temp, room B h (length ops) -> runs no_sibling start ops s ->
  exists v0 x n, init_frame (empty_vm m B h) = Ok v0 /\ steps ops (mkmach v0 [] []) = Ok x /\
    forall k, (n <= k)%nat -> exists l, vm_mark k temp (v x) = Ok l /\
      (forall w, usable s w -> In w l) /\ (forall w, In w temp -> In w l).
Proof.
  intros m B h ops s temp HR H. destruct (follow m B h ops s HR H) as (v0 & x & E0 & E & R & _).
  exists v0, x, (length (acts s) + length (frames s))%nat. split; [exact E0|]. split; [exact E|]. intros k Hk.
  destruct (all_marked s x h temp k R ltac:(lia) ltac:(lia)) as (r & Er & Hr); [|exists r; auto].
  destruct (rel_agrees _ _ _ R) as (f & fs & a & EF & _). congruence.
Qed.
Print Assumptions C97_running_partial.

(** The marking of a proc visits its receiver and every variable its code sees. *)
Theorem C97_proc_partial : forall m B h ops s j p self, room B h (length ops) -> runs no_sibling start ops s ->
  nth_error (held s) j = Some p ->
  exists v0 x n e, init_frame (empty_vm m B h) = Ok v0 /\ steps ops (mkmach v0 [] []) = Ok x /\ nth_error (procs x) j = Some e /\
    forall k, (n <= k)%nat -> exists l, proc_mark k (mem (v x)) self e = Ok l /\ In self l /\ forall w, closed_over s p w -> In w l.
Proof.
  intros m B h ops s j p self HR H Hj. destruct (follow m B h ops s HR H) as (v0 & x & E0 & E & R & _).
  destruct (proc_marked s x h self j p (length (acts s)) R Hj ltac:(lia)) as (e & _ & Ee & _).
  exists v0, x, (length (acts s)), e. split; [exact E0|]. split; [exact E|]. split; [exact Ee|]. intros k Hk.
  destruct (proc_marked s x h self j p k R Hj Hk) as (e' & l & Ee' & El & Hl). assert (e' = e) by congruence. subst e'.
  exists l. auto.
Qed.
Print Assumptions C97_proc_partial.

(** In the state of C73_shared_partial_ex the variable of the first method is on the heap
    and holds 11; both procs see it. *)
Example C97_running_partial_ex : let ops := (enter_main ++ give_block ++ yield_lambda ++ [OCapture 0; OPush 11]) ++ OSet 1 0 :: leave in
  room 1 10000 (length ops) /\ runs no_sibling start ops (st5 11 [2%nat; 3%nat]) /\
  usable (st5 11 [2%nat; 3%nat]) 11 /\ closed_over (st5 11 [2%nat; 3%nat]) 3 11.
Proof.
  destruct C73_shared_partial_ex as (_ & R1 & [_ (s2 & A2 & UT) _]). cbn zeta. split; [unfold room; cbn; lia|]. split; [|split].
  - eapply runs_app; [exact R1|]. econstructor; [exact A2|]. eapply untouched_runs; exact UT.
  - eapply (U_var _ (mkframe 1 [36] 0) 1%nat (main_act 11)); [left; reflexivity|exists O; reflexivity|reflexivity|left; reflexivity].
  - exists 1%nat, (main_act 11). split; [exists 1%nat; reflexivity|]. split; [reflexivity|left; reflexivity].
Qed.
Example C97_proc_partial_ex : nth_error (held (st5 11 [2%nat; 3%nat])) 1 = Some 3%nat. Proof. reflexivity. Qed.

(** What is visited of an environment alone. *)
Definition env_visits (s : vm) (e w : Z) : Prop := exists k l, env_mark k (mem s) e = Ok l /\ In w l.
Definition vm_visits (s : vm) (w : Z) : Prop := exists k l, vm_mark k [] s = Ok l /\ In w l.
Lemma env_mark_more m : forall k e l k', env_mark k m e = Ok l -> (k <= k')%nat -> env_mark k' m e = Ok l.
Proof.
  induction k as [|k IH]; intros e l k' H L; [discriminate|]. destruct k' as [|k']; [lia|]. cbn [env_mark] in *.
  destruct (is_ruby m e); [|exact H]. destruct (outer m e) as [o| |]; cbn [rbind] in *; try discriminate.
  destruct o as [d|]; [|exact H]. destruct (env_mark k m d) as [r| |] eqn:E; try discriminate.
  rewrite (IH _ _ k' E ltac:(lia)). exact H.
Qed.
Lemma frame_mark_more s : forall k c l k', frame_mark k s c = Ok l -> (k <= k')%nat -> frame_mark k' s c = Ok l.
Proof.
  intros k c l k' H L. unfold frame_mark in *. destruct (is_ruby (mem s) c); [|exact H].
  destruct (ep (mem s) c) as [e| |]; cbn [rbind] in *; try discriminate.
  destruct (outer (mem s) e) as [o| |]; cbn [rbind] in *; try discriminate. destruct o as [d|]; [|exact H].
  destruct (env_mark k (mem s) d) as [r| |] eqn:E; try discriminate. rewrite (env_mark_more _ _ _ _ k' E L). exact H.
Qed.
Lemma frames_mark_more s : forall k d c l k' d', frames_mark k d s c = Ok l -> (k <= k')%nat -> (d <= d')%nat -> frames_mark k' d' s c = Ok l.
Proof.
  induction k as [|k IH]; intros d c l k' d' H L L'; [discriminate|]. destruct k' as [|k']; [lia|]. cbn [frames_mark] in *.
  destruct (frame_mark d s c) as [r| |] eqn:E; cbn [rbind] in *; try discriminate. rewrite (frame_mark_more _ _ _ _ d' E L'). cbn [rbind].
  destruct (prev (mem s) c) as [p|]; [|exact H]. destruct (frames_mark k d s p) as [q| |] eqn:E2; try discriminate.
  rewrite (IH _ _ _ k' d' E2 ltac:(lia) L'). exact H.
Qed.
Lemma env_not s e w k l : env_mark k (mem s) e = Ok l -> ~ In w l -> ~ env_visits s e w.
Proof.
  intros E N (k' & l' & E' & I). apply N. destruct (Nat.le_ge_cases k k') as [L|L].
  - rewrite (env_mark_more _ _ _ _ _ E L) in E'. congruence.
  - rewrite (env_mark_more _ _ _ _ _ E' L) in E. congruence.
Qed.
Lemma vm_not s w k l : vm_mark k [] s = Ok l -> ~ In w l -> ~ vm_visits s w.
Proof.
  unfold vm_mark. intros E N (k' & l' & E' & I). apply N. unfold vm_mark in E'.
  destruct (frames_mark k k s (cfp s)) as [r| |] eqn:F; try discriminate. destruct (frames_mark k' k' s (cfp s)) as [r'| |] eqn:F'; try discriminate.
  cbn [rbind] in *. assert (r = r').
  { destruct (Nat.le_ge_cases k k') as [L|L].
    - rewrite (frames_mark_more _ _ _ _ _ k' k' F L L) in F'. congruence.
    - rewrite (frames_mark_more _ _ _ _ _ k k F' L L) in F. congruence. }
  subst r'. congruence.
Qed.

(** A method is called on the object at 800 and makes a binding, or a fiber that
    has not started, then ends. Its receiver is still the receiver of the code
    that will run there, but neither the machine nor the binding or fiber visits it. *)
Definition in_method (w : Z) : list op := [OPush w; OCall true 100 0 None].
Definition leave_method : list op := [OPush 36; OReturn].
Definition lost (make : Z -> vm -> res (Z * vm)) (w : Z) : res bool :=
  v0 <- init_frame vm0 ;; x0 <- steps (in_method w) (mkmach v0 [] []) ;; r <- make (cfp (v x0)) (v x0) ;;
  x1 <- steps leave_method (mkmach (snd r) [] []) ;; l <- env_mark 3 (mem (v x1)) (fst r) ;; l' <- vm_mark 3 [] (v x1) ;;
  Ok ((self_value (mem (v x1)) (fst r) =? w) && forallb (fun u => negb (u =? w)) (l ++ l')).
Lemma none_is w l : forallb (fun u => negb (u =? w)) l = true -> ~ In w l.
Proof. intros H I. rewrite forallb_forall in H. specialize (H _ I). rewrite Z.eqb_refl in H. discriminate. Qed.
Lemma witness make : lost make 800 = Ok true -> exists v0 x0 e s1 x1 w,
  init_frame vm0 = Ok v0 /\ steps (in_method w) (mkmach v0 [] []) = Ok x0 /\
  make (cfp (v x0)) (v x0) = Ok (e, s1) /\ steps leave_method (mkmach s1 [] []) = Ok x1 /\
  self_value (mem (v x1)) e = w /\ ~ env_visits (v x1) e w /\ ~ vm_visits (v x1) w.
Proof.
  unfold lost. destruct (init_frame vm0) as [v0| |] eqn:E0; cbn [rbind]; try discriminate.
  destruct (steps (in_method 800) (mkmach v0 [] [])) as [x0| |] eqn:E1; cbn [rbind]; try discriminate.
  destruct (make (cfp (v x0)) (v x0)) as [[e s1]| |] eqn:E2; cbn [rbind fst snd]; try discriminate.
  destruct (steps leave_method (mkmach s1 [] [])) as [x1| |] eqn:E3; cbn [rbind]; try discriminate.
  destruct (env_mark 3 (mem (v x1)) e) as [l| |] eqn:E4; cbn [rbind]; try discriminate.
  destruct (vm_mark 3 [] (v x1)) as [l'| |] eqn:E5; cbn [rbind]; try discriminate.
  intros H. injection H as H. apply andb_prop in H as (H1 & H2). rewrite forallb_app in H2. apply andb_prop in H2 as (H2 & H3).
  exists v0, x0, e, s1, x1, 800. repeat (split; [assumption || reflexivity|]). split; [lia|].
  split; [eapply env_not; eauto using none_is|eapply vm_not; eauto using none_is].
Qed.
Theorem C97_binding_refuted : exists v0 x0 e s1 x1 w,
  init_frame vm0 = Ok v0 /\ steps (in_method w) (mkmach v0 [] []) = Ok x0 /\
  create_binding_context (cfp (v x0)) (v x0) = Ok (e, s1) /\
  steps leave_method (mkmach s1 [] []) = Ok x1 /\
  self_value (mem (v x1)) e = w /\ ~ env_visits (v x1) e w /\ ~ vm_visits (v x1) w.
Proof.
  apply (witness create_binding_context). vm_compute. reflexivity.
Qed.
Print Assumptions C97_binding_refuted.
Theorem C97_fiber_refuted : exists v0 x0 e s1 x1 w,
  init_frame vm0 = Ok v0 /\ steps (in_method w) (mkmach v0 [] []) = Ok x0 /\
  create_heap (cfp (v x0)) 200 1 (v x0) = Ok (e, s1) /\
  steps leave_method (mkmach s1 [] []) = Ok x1 /\
  self_value (mem (v x1)) e = w /\ ~ env_visits (v x1) e w /\ ~ vm_visits (v x1) w.
Proof.
  apply (witness (fun c => create_heap c 200 1)). vm_compute. reflexivity.
Qed.
Print Assumptions C97_fiber_refuted.
(** A method is given a proc object, at 800, as its block, makes a proc that
    yields, and ends: a yield in that proc would call the proc object at 800, but
    neither the machine nor the new proc visits it. *)
Theorem C97_block_refuted : exists v0 s0 x1 x2 e mf w,
  init_frame vm0 = Ok v0 /\
  (s <- push 36 v0 ;; push_method_frame true 100 0 (Some (KProc (w / 8))) s) = Ok s0 /\
  steps [OCapture 0] (mkmach s0 [] []) = Ok x1 /\ steps leave_method x1 = Ok x2 /\
  procs x2 = [e] /\ mfp (mem (v x2)) e = Ok mf /\ frame_block (mem (v x2)) mf = Ok (Some (KProc (w / 8))) /\
  ~ env_visits (v x2) e w /\ ~ vm_visits (v x2) w.
Proof.
  destruct (init_frame vm0) as [v0| |] eqn:E0; [|vm_compute in E0; discriminate|vm_compute in E0; discriminate].
  vm_compute in E0. injection E0 as <-.
  do 6 eexists. exists 800. split; [reflexivity|]. split; [vm_compute; reflexivity|]. split; [vm_compute; reflexivity|]. split; [vm_compute; reflexivity|].
  split; [vm_compute; reflexivity|]. split; [vm_compute; reflexivity|]. split; [vm_compute; reflexivity|]. split.
  - eapply (env_not _ _ _ 3%nat); [vm_compute; reflexivity|]. vm_compute. intuition discriminate.
  - eapply (vm_not _ _ 3%nat); [vm_compute; reflexivity|]. vm_compute. intuition discriminate.
Qed.
Print Assumptions C97_block_refuted.
