(** What an assignment evaluates and stores (C95). *)
From Coq Require Import ZArith List Bool Lia.
From Verif Require Import Base ModelValue ModelInst ModelCodegen ModelVM SpecCore
  ProofsCore1 ProofsCore2 ProofsCore3 ProofsCore8 SpecIntPrims ProofsIntPrims PropsCore.
Import ListNotations.
Open Scope Z_scope.

(** How an assignment of [v] ends: its value is [v] *)
Definition stores {W : Type} (r : pres W unit) (v : value) (s : sst (W:=W)) : outcome :=
  match r with
  | POk _ w => Val v (mksst (s_rho s) w)
  | PRaise e w => Exn e (mksst (s_rho s) w)
  end.
Lemma stores_ends {W} (r : pres W unit) v s : stores r v s <> Fuel /\ stores r v s <> Out.
Proof. destruct r; split; discriminate. Qed.

(** [C = r] and [@@x = r]: the value of [r] is stored, once, after [r] has been evaluated, in the
    state [r] has left; it is the value of the assignment. *)
Theorem C95_constant : forall W (P : prims W) cx id slot r G f s env v s1,
  let body := NAssign (NOp (bConst id slot) []) r in
  code_of P cx body G -> supported cx body -> holds cx s env ->
  eval P (sc_setter cx) (sc_stderr cx) f r s = Val v s1 ->
  ends_as P cx G env (s_w s) (stores (p_store P (bConst id 0) [] v (s_w s1)) v s1).
Proof.
  intros W P cx id slot r G f s env v s1 body C K H E.
  eapply (C29_ends_as_source_partial _ _ _ body _ f); eauto; try apply stores_ends.
  cbn [body eval eval_assign]. rewrite E. reflexivity.
Qed.
Print Assumptions C95_constant.

Theorem C95_class_variable : forall W (P : prims W) cx id r G f s env v s1,
  let body := NAssign (NOp (bCvar id) []) r in
  code_of P cx body G -> supported cx body -> holds cx s env ->
  eval P (sc_setter cx) (sc_stderr cx) f r s = Val v s1 ->
  ends_as P cx G env (s_w s) (stores (p_store P (bCvar id) [] v (s_w s1)) v s1).
Proof.
  intros W P cx id r G f s env v s1 body C K H E.
  eapply (C29_ends_as_source_partial _ _ _ body _ f); eauto; try apply stores_ends.
  cbn [body eval eval_assign]. rewrite E. reflexivity.
Qed.
Print Assumptions C95_class_variable.

(** [p::C = r], where [p] or [r] is a literal or self and [p] is not nil *)
Theorem C95_scoped_partial : forall W (P : prims W) cx id p r G f s env pv v s1 s2,
  let body := NAssign (NOp (bScope id) [p]) r in
  code_of P cx body G -> supported cx body -> holds cx s env ->
  eval P (sc_setter cx) (sc_stderr cx) f p s = Val pv s1 ->
  eval P (sc_setter cx) (sc_stderr cx) f r s1 = Val v s2 -> pv <> nil ->
  ends_as P cx G env (s_w s) (stores (p_store P (bScope id) [pv] v (s_w s2)) v s2).
Proof.
  intros W P cx id p r G f s env pv v s1 s2 body C K H E1 E2 NN.
  eapply (C29_ends_as_source_partial _ _ _ body _ f); eauto; try apply stores_ends.
  cbn [body eval eval_assign]. rewrite E1. cbn [bindv]. rewrite E2. cbn [bindv].
  assert (NV : is_nil pv = false).
  { destruct pv as [x|]; [|reflexivity]. cbn. apply Z.eqb_neq. intros ->. apply NN. reflexivity. }
  rewrite NV. reflexivity.
Qed.
Print Assumptions C95_scoped_partial.

(** [b[i] = r]: the array, the index and the value, in this order, each once *)
Theorem C95_element : forall W (P : prims W) cx b i r G f s env bv iv v s1 s2 s3,
  let body := NAssign (NIndex b i) r in
  code_of P cx body G -> supported cx body -> holds cx s env ->
  eval P (sc_setter cx) (sc_stderr cx) f b s = Val bv s1 ->
  eval P (sc_setter cx) (sc_stderr cx) f i s1 = Val iv s2 ->
  eval P (sc_setter cx) (sc_stderr cx) f r s2 = Val v s3 ->
  ends_as P cx G env (s_w s) (stores (p_setindex P bv iv v (s_w s3)) v s3).
Proof.
  intros W P cx b i r G f s env bv iv v s1 s2 s3 body C K H E1 E2 E3.
  eapply (C29_ends_as_source_partial _ _ _ body _ f); eauto; try apply stores_ends.
  cbn [body eval eval_assign]. rewrite E1. cbn [bindv]. rewrite E2. cbn [bindv]. rewrite E3. reflexivity.
Qed.
Print Assumptions C95_element.

(** An exception in the value: nothing is stored. *)
Theorem C95_raises : forall W (P : prims W) cx lhs r G f s env e s1,
  let body := NAssign lhs r in
  match lhs with
  | NLVar _ | NIdent _ | NIVar _ | NGVar _ | NOp (bConst _ _) _ | NOp (bCvar _) _ => True
  | _ => False
  end ->
  code_of P cx body G -> supported cx body -> holds cx s env ->
  eval P (sc_setter cx) (sc_stderr cx) f r s = Exn e s1 ->
  ends_as P cx G env (s_w s) (Exn e s1).
Proof.
  intros W P cx lhs r G f s env e s1 body L C K H E.
  eapply (C29_ends_as_source_partial _ _ _ body _ f); eauto; try discriminate.
  cbn [body eval]. destruct lhs; try contradiction; cbn [eval_assign]; try (rewrite E; reflexivity).
  destruct k; try contradiction; rewrite E; reflexivity.
Qed.
Print Assumptions C95_raises.

(** [A = (@@x = 3)], [self::C = yield(1)], [yield(1)::C = 2]: hypotheses hold and what is stored *)
Example C95_example :
  let body := NAssign (NOp (bConst 4 0) []) (NAssign (NOp (bCvar 5) []) (NInt 3)) in
  let body2 := NAssign (NOp (bScope 6) [NSelf]) (NOp bYield [NInt 1]) in
  let body3 := NAssign (NOp (bScope 6) [NOp bYield [NInt 1]]) (NInt 2) in
  code_of iprims cx0 body (code0 body) /\ supported cx0 body /\
  (exists env w, run0 20 body = VDone (HRet (integer 3)) env w /\
     iw_gvars w = [(1005, integer 3); (2004, integer 3)]) /\
  code_of iprims cx0 body2 (code0 body2) /\ supported cx0 body2 /\
  (exists v env w, run0 20 body2 = VDone (HRet v) env w /\ iw_gvars w = [(3006, v)] /\
     iw_log w = [[integer 1]; [symbol 0; v]]) /\
  code_of iprims cx0 body3 (code0 body3) /\ supported cx0 body3 /\
  (exists env w, run0 20 body3 = VDone (HRet (integer 2)) env w /\ iw_gvars w = [(3006, integer 2)]).
Proof.
  cbv zeta. repeat apply conj; try reflexivity; try (apply code0_ok; vm_compute; reflexivity).
  - do 2 eexists. vm_compute. split; reflexivity.
  - do 3 eexists. vm_compute. repeat split; reflexivity.
  - do 2 eexists. vm_compute. split; reflexivity.
Qed.
Example C95_element_example :
  let body := NAssign (NIndex (NOp bYield [NInt 1; NInt 2]) (NInt 1)) (NOp bYield [NInt 7]) in
  let body2 := NAssign (NOp (bCvar 5) []) (NSend NSelf 8 [NInt 4] false) in
  code_of iprims cx0 body (code0 body) /\ supported cx0 body /\
  (exists v env w, run0 20 body = VDone (HRet v) env w /\ iw_arrays w = [[integer 1; v]; [integer 7]] /\
     iw_log w = [[integer 1; integer 2]; [integer 7]]) /\
  code_of iprims cx0 body2 (code0 body2) /\ supported cx0 body2 /\
  (exists env, run0 20 body2 = VDone (HExn (integer 4)) env w0).
Proof.
  cbv zeta. repeat apply conj; try reflexivity; try (apply code0_ok; vm_compute; reflexivity).
  - do 3 eexists. vm_compute. repeat split; reflexivity.
  - eexists. vm_compute. reflexivity.
Qed.

(** [x1, .., xn = r1, .., rm] with different local variables and several right-hand sides, as a
    statement before [rest]: the right-hand sides are evaluated from left to right, then each
    variable has the value at its place, nil if there is none, and nothing else has changed. *)
Inductive in_order {W : Type} (ev : node -> sst (W:=W) -> outcome) : list node -> sst -> list value -> sst -> Prop :=
| io_nil s : in_order ev [] s [] s
| io_cons r rs s v s1 vs s2 : ev r s = Val v s1 -> in_order ev rs s1 vs s2 ->
    in_order ev (r :: rs) s (v :: vs) s2.

Lemma in_order_evals {W} ev rs : forall (s s2 : sst (W:=W)) vs acc, in_order ev rs s vs s2 ->
  evals ev rs acc s = LVals (acc ++ vs) s2.
Proof.
  intros s s2 vs acc H. revert acc. induction H as [|r rs s v s1 vs s2 E H IH]; intros acc; cbn.
  - rewrite app_nil_r. reflexivity.
  - rewrite E. change (evals ev rs (acc ++ [v]) s1 = LVals (acc ++ v :: vs) s2).
    rewrite IH, <- app_assoc. reflexivity.
Qed.

Lemma assign_all_w {W} (P : prims W) xs : forall vs s, s_w (assign_all P (map NLVar xs) vs s) = s_w s.
Proof. induction xs as [|x xs IH]; intros vs s; [reflexivity|]. cbn [map assign_all]. rewrite IH. reflexivity. Qed.

Lemma assign_all_other {W} (P : prims W) xs y : ~ In y xs -> forall vs s,
  s_rho (assign_all P (map NLVar xs) vs s) y = s_rho s y.
Proof.
  induction xs as [|x xs IH]; intros NI vs s; [reflexivity|]. cbn [map assign_all].
  rewrite IH by (intros Q; apply NI; right; exact Q). cbn. destruct (Z.eqb_spec y x) as [->|]; [|reflexivity].
  exfalso. apply NI. left. reflexivity.
Qed.

Lemma assign_all_nth {W} (P : prims W) xs : NoDup xs -> forall vs s i x, nth_error xs i = Some x ->
  s_rho (assign_all P (map NLVar xs) vs s) x = nth i vs nil.
Proof.
  induction 1 as [|x xs NI ND IH]; intros vs s i y N; [destruct i; discriminate N|].
  cbn [map assign_all]. destruct i as [|i]; cbn in N.
  - injection N as <-. rewrite assign_all_other by exact NI. cbn. rewrite Z.eqb_refl. destruct vs; reflexivity.
  - rewrite (IH _ _ i y N). destruct vs as [|v vs]; [destruct i; reflexivity|reflexivity].
Qed.

Theorem C95_multiple_partial : forall W (P : prims W) cx xs rs rest G f s env vs s1,
  let body := NSeq [NMAssign (map NLVar xs) rs; rest] in
  code_of P cx body G -> supported cx body -> holds cx s env ->
  NoDup xs -> (2 <= length rs)%nat ->
  in_order (eval P (sc_setter cx) (sc_stderr cx) f) rs s vs s1 ->
  exists s2,
    (forall i x, nth_error xs i = Some x -> s_rho s2 x = nth i vs nil) /\
    (forall y, ~ In y xs -> s_rho s2 y = s_rho s1 y) /\ s_w s2 = s_w s1 /\
    forall o, eval P (sc_setter cx) (sc_stderr cx) f rest s2 = o -> o <> Fuel -> o <> Out ->
      ends_as P cx G env (s_w s) o.
Proof.
  intros W P cx xs rs rest G f s env vs s1 body C K H ND L E.
  exists (assign_all P (map NLVar xs) vs s1). split; [apply assign_all_nth, ND|].
  split; [intros y NI; apply assign_all_other, NI|]. split; [apply assign_all_w|].
  intros o EO NF NO. eapply (C29_ends_as_source_partial _ _ _ body _ f); eauto.
  pose proof (in_order_evals _ _ _ _ _ [] E) as EV.
  destruct rs as [|r1 [|r2 rs]]; try (cbn in L; lia).
  unfold body. cbn [eval eval_seq eval_massign]. rewrite EV. exact EO.
Qed.
Print Assumptions C95_multiple_partial.
(** [a = 1; b = 2; a, b = b, a; [a, b]] *)
Example C95_multiple_example :
  let swap := NSeq [NMAssign (map NLVar [1; 2]) [NLVar 2; NLVar 1]; NArray [NLVar 1; NLVar 2]] in
  let s := mksst (fun x => integer (10 * x)) w0 in
  code_of iprims cx0 swap (code0 swap) /\ supported cx0 swap /\ NoDup [1; 2] /\
  in_order (eval iprims (sc_setter cx0) 50 3) [NLVar 2; NLVar 1] s [integer 20; integer 10] s /\
  exists v env w, vrun iprims (code0 swap) 20 (mkvst 0 [] [[integer 10; integer 20; nil]] w0) = VDone (HRet v) env w
    /\ iw_arrays w = [[integer 20; integer 10]].
Proof.
  cbv zeta. split; [apply code0_ok; vm_compute; reflexivity|]. split; [reflexivity|].
  split; [repeat constructor; cbn; intuition discriminate|].
  split; [repeat (econstructor; [reflexivity|]); constructor|].
  do 3 eexists. vm_compute. split; reflexivity.
Qed.

(** [yield(1)::C = yield(2)] evaluates the value before the scope. *)
Theorem C95_scope_order_refuted : exists body v s' n v' env w,
  compiles0 body = true /\ sized cx0 body = true /\
  eval0 5 body = Val v s' /\ run0 n body = VDone (HRet v') env w /\
  firstn 2 (iw_log (s_w s')) = [[integer 1]; [integer 2]] /\ firstn 2 (iw_log w) = [[integer 2]; [integer 1]].
Proof.
  exists (NAssign (NOp (bScope 6) [NOp bYield [NInt 1]]) (NOp bYield [NInt 2])).
  eexists _, _, 30%nat, _, _, _. vm_compute. repeat split; reflexivity.
Qed.
Print Assumptions C95_scope_order_refuted.

(** [nil::C = 3] raises nothing: it does what [C = 3] does. *)
Theorem C95_nil_scope_refuted : exists body n env w,
  compiles0 (NAssign (NOp (bScope 6) [NNil]) body) = true /\
  run0 n (NAssign (NOp (bScope 6) [NNil]) body) = VDone (HRet (integer 3)) env w /\
  run0 n (NAssign (NOp (bConst 6 0) []) body) = VDone (HRet (integer 3)) env w.
Proof. exists (NInt 3), 30%nat. do 2 eexists. vm_compute. repeat split; reflexivity. Qed.
Print Assumptions C95_nil_scope_refuted.

(** [::C = 3] does what [C = 3] does, so inside a class it defines the constant of that class. *)
Theorem C95_toplevel_refuted : exists body n env w,
  compiles0 (NAssign (NOp (bTop 6) []) body) = true /\
  run0 n (NAssign (NOp (bTop 6) []) body) = VDone (HRet (integer 3)) env w /\
  run0 n (NAssign (NOp (bConst 6 0) []) body) = VDone (HRet (integer 3)) env w.
Proof. exists (NInt 3), 30%nat. do 2 eexists. vm_compute. repeat split; reflexivity. Qed.
Print Assumptions C95_toplevel_refuted.

(** [@@x ||= 3] and [C ||= 3] are read as [@@x || (@@x = 3)] and [C || (C = 3)]
    (expression.rs:455-475): when the variable is not defined, reading it raises and nothing is
    assigned. *)
Theorem C95_or_assign_refuted : exists id n e env,
  let body := NBin BLOr (NOp (bCvar id) []) (NAssign (NOp (bCvar id) []) (NInt 3)) in
  compiles0 body = true /\ iw_gvars w0 = [] /\ run0 n body = VDone (HExn e) env w0.
Proof. exists 5, 30%nat. do 2 eexists. vm_compute. repeat split; reflexivity. Qed.
Print Assumptions C95_or_assign_refuted.

(** The value of [x = (self.a = 3)] is what the method [a=] answers, here nil. *)
Definition cxa : sctx := mksctx [([1; 2; 3], true)] [] KMethod (fun _ => 7) 50.
Definition codea (body : node) : prog :=
  match gen_body cxa body (empty_cg [] [] [] 0) with
  | Ok st => mkprog (code st) (extab st) (consts st) (g_map st) (g_map2 st)
  | _ => mkprog [] [] [] [] []
  end.
Theorem C95_attribute_value_refuted : exists body n v s' env w,
  sized cxa body = true /\
  eval iprims (sc_setter cxa) 50 5 body s0 = Val v s' /\ v <> nil /\
  vrun iprims (codea body) n (mkvst 0 [] env0 w0) = VDone (HRet nil) env w /\ s_w s' = w.
Proof.
  exists (NAssign (NSend NSelf 4 [] false) (NInt 3)), 30%nat. do 4 eexists.
  vm_compute. repeat split; try reflexivity; discriminate.
Qed.
Print Assumptions C95_attribute_value_refuted.

(** [yield(1)[0] += 5] evaluates [yield(1)] twice. *)
Theorem C95_element_twice_refuted : exists body v s' n env w,
  compiles0 body = true /\ sized cx0 body = true /\
  eval0 5 body = Val v s' /\ run0 n body = VDone (HRet v) env w /\
  iw_log (s_w s') = [[integer 1]] /\ iw_log w = [[integer 1]; [integer 1]].
Proof.
  exists (NAssignOp BAdd (NIndex (NOp bYield [NInt 1]) (NInt 0)) (NInt 5)).
  eexists _, _, 30%nat, _, _. vm_compute. repeat split; reflexivity.
Qed.
Print Assumptions C95_element_twice_refuted.

(** [a, a = 1, 2] leaves 1 in [a]: targets are assigned from the last to the first. *)
Theorem C95_last_first_refuted : exists body n env w s',
  compiles0 body = true /\ sized cx0 body = true /\
  eval0 5 body = Val (integer 2) s' /\ run0 n body = VDone (HRet (integer 1)) env w.
Proof.
  exists (NSeq [NMAssign [NLVar 1; NLVar 1] [NInt 1; NInt 2]; NLVar 1]), 30%nat.
  do 3 eexists. vm_compute. repeat split; reflexivity.
Qed.
Print Assumptions C95_last_first_refuted.

(** The value of [a, b, c = 1, 2] has a third element. *)
Theorem C95_padded_value_refuted : exists rhs n i env w,
  compiles0 (NMAssign [NLVar 1; NLVar 2; NLVar 3] rhs) = true /\ length rhs = 2%nat /\
  run0 n (NMAssign [NLVar 1; NLVar 2; NLVar 3] rhs) = VDone (HRet (Heap (HObj i))) env w /\
  nth_error (iw_arrays w) (Z.to_nat i) = Some [integer 1; integer 2; nil].
Proof. exists [NInt 1; NInt 2], 30%nat. do 3 eexists. vm_compute. repeat split; reflexivity. Qed.
Print Assumptions C95_padded_value_refuted.
