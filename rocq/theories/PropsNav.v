(** Calls with [&.] (C74). *)
From Coq Require Import ZArith List Bool Lia.
From Verif Require Import Base ModelValue ModelInst ModelCodegen ModelVM SpecCore
  ProofsCore1 ProofsCore2 ProofsCore3 ProofsCore8 SpecIntPrims ProofsIntPrims PropsCore.
Import ListNotations.
Open Scope Z_scope.

(** [r&.m] where [r] is nil: the code ends with nil in the state [r] has left, and no
    method is called. *)
Theorem C74_nil_partial : forall W (P : prims W) cx r m G f s env s1,
  let body := NSend r m [] true in
  code_of P cx body G -> supported cx body -> holds cx s env ->
  eval P (sc_setter cx) (sc_stderr cx) f r s = Val nil s1 ->
  ends_as P cx G env (s_w s) (Val nil s1).
Proof.
  intros W P cx r m G f s env s1 body C K H E.
  eapply (C29_ends_as_source_partial _ _ _ body _ f); eauto; try discriminate.
  cbn [body eval]. rewrite E. reflexivity.
Qed.
Print Assumptions C74_nil_partial.

(** where [r] is anything else, false included, the method is called, once, without
    arguments, and the call ends as it ends *)
Theorem C74_call_partial : forall W (P : prims W) cx r m G f s env v s1,
  let body := NSend r m [] true in
  code_of P cx body G -> supported cx body -> holds cx s env ->
  eval P (sc_setter cx) (sc_stderr cx) f r s = Val v s1 -> v <> nil ->
  ends_as P cx G env (s_w s)
    match p_send P m v [] (s_w s1) with
    | POk x w => Val x (mksst (s_rho s1) w)
    | PRaise e w => Exn e (mksst (s_rho s1) w)
    end.
Proof.
  intros W P cx r m G f s env v s1 body C K H E NN.
  eapply (C29_ends_as_source_partial _ _ _ body _ f); eauto.
  - cbn [body eval]. rewrite E. cbn [bindv andb].
    assert (NV : is_nil v = false).
    { destruct v as [x|]; [|reflexivity]. cbn. apply Z.eqb_neq. intros ->. apply NN. reflexivity. }
    rewrite NV. reflexivity.
  - destruct (p_send P m v [] (s_w s1)); discriminate.
  - destruct (p_send P m v [] (s_w s1)); discriminate.
Qed.
Print Assumptions C74_call_partial.

(** [a&.log] with [a] nil, and [false&.log] *)
Example C74_example :
  let body := NSend (NLVar 1) 7 [] true in
  let body2 := NSend (NBool false) 7 [] true in
  code_of iprims cx0 body (code0 body) /\ supported cx0 body /\
  eval0 3 (NLVar 1) = Val nil s0 /\
  (exists env w, run0 20 body = VDone (HRet nil) env w /\ iw_log w = []) /\
  code_of iprims cx0 body2 (code0 body2) /\ supported cx0 body2 /\
  eval0 3 (NBool false) = Val false_val s0 /\
  (exists v env w, run0 20 body2 = VDone (HRet v) env w /\ iw_log w = [[]]).
Proof.
  cbv zeta. repeat apply conj; try reflexivity; try (apply code0_ok; vm_compute; reflexivity).
  - do 2 eexists. vm_compute. split; reflexivity.
  - do 3 eexists. vm_compute. split; reflexivity.
Qed.

(** With arguments it is the last argument that is compared with nil: [nil&.log(3)] calls
    the method on nil *)
Theorem C74_nil_called_refuted : exists body s' n v env w,
  compiles0 body = true /\ sized cx0 body = true /\
  eval0 5 body = Val nil s' /\ iw_log (s_w s') = [] /\
  run0 n body = VDone (HRet v) env w /\ iw_log w = [[integer 3]].
Proof.
  exists (NSend NNil 7 [NInt 3] true). eexists _, 60%nat, _, _, _.
  vm_compute. repeat split; reflexivity.
Qed.
Print Assumptions C74_nil_called_refuted.

(** [self&.log(nil)] does not call it, *)
Theorem C74_not_called_refuted : exists body v s' n env w,
  compiles0 body = true /\ sized cx0 body = true /\
  eval0 5 body = Val v s' /\ iw_log (s_w s') = [[nil]] /\
  run0 n body = VDone (HRet nil) env w /\ iw_log w = [].
Proof.
  exists (NSend NSelf 7 [NNil] true). eexists _, _, 60%nat, _, _.
  vm_compute. repeat split; reflexivity.
Qed.
Print Assumptions C74_not_called_refuted.

(** and the arguments are computed in any case: [nil&.m(log(3))] *)
Theorem C74_arguments_refuted : exists body s' n h env w,
  compiles0 body = true /\ sized cx0 body = true /\
  eval0 5 body = Val nil s' /\ iw_log (s_w s') = [] /\
  run0 n body = VDone h env w /\ iw_log w = [[integer 3]].
Proof.
  exists (NSend NNil 9 [log (NInt 3)] true). eexists _, 60%nat, _, _, _.
  vm_compute. repeat split; reflexivity.
Qed.
Print Assumptions C74_arguments_refuted.

(** As a statement it leaves a value on the stack if the receiver is nil:
    [[1, (nil&.log; 2)]] is [[nil, 2]] *)
Theorem C74_statement_refuted : exists body v s' n env' w',
  compiles0 body = true /\ sized cx0 body = true /\
  eval0 5 body = Val v s' /\ elems v (s_w s') = Some [integer 1; integer 2] /\
  run0 n body = VDone (HRet v) env' w' /\ elems v w' = Some [nil; integer 2].
Proof.
  exists (NArray [NInt 1; NSeq [NSend NNil 7 [] true; NInt 2]]).
  eexists _, _, 60%nat, _, _. vm_compute. repeat split; reflexivity.
Qed.
Print Assumptions C74_statement_refuted.
