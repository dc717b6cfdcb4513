(** Every evaluation of a literal gives objects of its own (C93). *)
From Coq Require Import ZArith List Bool Lia.
From Verif Require Import ModelLiteral SpecLiteral ProofsLiteral.
Import ListNotations.

(** Whatever the program has done before, also to the values of earlier evaluations of the same
    literal: evaluating a literal gives what is written, made of objects that were not there
    before and are different from each other, and changes no other object.  For literals without
    strings directly in an array of constants. *)
Theorem C93_fresh_partial : forall p n c env,
  doing p -> In (n, c) (lits p) -> Forall (has (heap_of (w_of p)) (known p)) env ->
  bound (length env) n = true -> plain n = true ->
  exists h' v own,
    run (consts (w_of p)) env c (heap_of (w_of p), []) = Some (h', [v]) /\
    denotes h' env n v own /\ NoDup own /\
    (forall a, In a own -> nth_error (heap_of (w_of p)) a = None) /\
    (forall a c, nth_error (heap_of (w_of p)) a = Some c -> nth_error h' a = Some c).
Proof.
  intros p n c env D L E BD PL. destruct (doing_inv _ D) as ((A & B) & K & LS).
  rewrite Forall_forall in LS. specialize (LS _ L). cbn [fst snd] in LS.
  destruct (eval_ok (consts (w_of p)) env (heap_of (w_of p))) as [EV _].
  destruct (EV n c LS (heap_of (w_of p)) []) as (h' & v & own & R & M & V & O).
  - split; [intros a x _; auto|]. split; [exact A|]. split; [exact B|].
    eapply Forall_impl; [|exact E]. intros x. apply has_ok; assumption.
  - exact BD.
  - exists h', v, own. destruct M as ((hs & ->) & _ & ND & F). split; [exact R|].
    split; [apply plain_denotes; assumption|]. split; [exact ND|]. split.
    + intros a I. rewrite Forall_forall in F. apply F in I. apply nth_error_None. lia.
    + intros a x. apply nth_ext.
Qed.
Print Assumptions C93_fresh_partial.

(** For every literal the arrays are new, as are the strings that are not in an array of
    constants. *)
Theorem C93_outline_partial : forall p n c env,
  doing p -> In (n, c) (lits p) -> Forall (has (heap_of (w_of p)) (known p)) env ->
  bound (length env) n = true ->
  exists h' v own,
    run (consts (w_of p)) env c (heap_of (w_of p), []) = Some (h', [v]) /\
    outline h' env n v own /\ NoDup own /\
    (forall a, In a own -> nth_error (heap_of (w_of p)) a = None) /\
    (forall a c, nth_error (heap_of (w_of p)) a = Some c -> nth_error h' a = Some c).
Proof.
  intros p n c env D L E BD. destruct (doing_inv _ D) as ((A & B) & K & LS).
  rewrite Forall_forall in LS. specialize (LS _ L). cbn [fst snd] in LS.
  destruct (eval_ok (consts (w_of p)) env (heap_of (w_of p))) as [EV _].
  destruct (EV n c LS (heap_of (w_of p)) []) as (h' & v & own & R & M & V & O).
  - split; [intros a x _; auto|]. split; [exact A|]. split; [exact B|].
    eapply Forall_impl; [|exact E]. intros x. apply has_ok; assumption.
  - exact BD.
  - exists h', v, own. destruct M as ((hs & ->) & _ & ND & F). split; [exact R|].
    split; [exact O|]. split; [exact ND|]. split.
    + intros a I. rewrite Forall_forall in F. apply F in I. apply nth_error_None. lia.
    + intros a x. apply nth_ext.
Qed.
Print Assumptions C93_outline_partial.

(** The program [a = ["x", [1]]] with the first evaluation's string, inner and outer array
    changed: the literal still is what is written. *)
Example C93_example :
  let n := LArr [LStr [120%Z]; LArr [LNum 1]] in
  exists p c, doing p /\ In (n, c) (lits p) /\ plain n = true /\ length (known p) = 1%nat /\
    nth_error (heap_of (w_of p)) 2 = Some (CStr [121%Z]) /\
    nth_error (heap_of (w_of p)) 3 = Some (CArr []) /\
    nth_error (heap_of (w_of p)) 4 = Some (CArr []).
Proof.
  cbv zeta. eexists _, _. split.
  { eapply doing_more. eapply doing_more. eapply doing_more. eapply doing_more. eapply doing_more.
    - apply doing_start.
    - apply (do_compile _ _ _ (LArr [LStr [120%Z]; LArr [LNum 1]])). vm_compute. reflexivity.
    - eapply (do_eval _ _ _ _ _ []); [left; reflexivity|constructor|vm_compute; reflexivity].
    - eapply (do_write _ _ _ 2 (CStr [121%Z]) [_; _] _ [_; _]); cbn; [|constructor|reflexivity|reflexivity].
      apply (has_elem _ _ 4 [VRef 2; VRef 3]); [apply has_known; left; reflexivity|reflexivity|left; reflexivity].
    - eapply (do_write _ _ _ 3 (CArr []) [_; _; _] _ [_]); cbn; [|constructor|reflexivity|reflexivity].
      apply (has_elem _ _ 4 [VRef 2; VRef 3]); [apply has_known; left; reflexivity|reflexivity|right; left; reflexivity].
    - eapply (do_write _ _ _ 4 (CArr []) [_; _; _; _] _ []); cbn; [|constructor|reflexivity|reflexivity].
      apply has_known. left. reflexivity. }
  cbn. repeat split; try reflexivity. left. reflexivity.
Qed.

(** A string in an array of constants is made once: [def f; ["x"]; end; f[0] << "y"; f] *)
Theorem C93_fresh_refuted : exists p n c, doing p /\ In (n, c) (lits p) /\ bound 0 n = true /\
  exists h v, run (consts (w_of p)) [] c (heap_of (w_of p), []) = Some (h, [v]) /\
    ~ exists own, denotes h [] n v own.
Proof.
  eexists _, (LArr [LStr [120%Z]]), _. split.
  { eapply doing_more. eapply doing_more. eapply doing_more.
    - apply doing_start.
    - apply (do_compile _ _ _ (LArr [LStr [120%Z]])). vm_compute. reflexivity.
    - eapply (do_eval _ _ _ _ _ []); [left; reflexivity|constructor|vm_compute; reflexivity].
    - eapply (do_write _ _ _ 0 (CStr [120; 121]%Z) [] _ [_; _]); cbn; [|constructor|reflexivity|reflexivity].
      apply (has_elem _ _ 2 [VRef 0]); [apply has_known; left; reflexivity|reflexivity|left; reflexivity]. }
  split; [left; reflexivity|]. split; [reflexivity|].
  eexists _, _. split; [vm_compute; reflexivity|].
  intros (own & D). inversion D as [| | |l a vs own' E F]. subst.
  vm_compute in E. injection E as <-. inversion F as [|n v o l vs o' D1 D2]. subst.
  inversion D1 as [| |s a E|]. subst. vm_compute in E. discriminate E.
Qed.
Print Assumptions C93_fresh_refuted.
