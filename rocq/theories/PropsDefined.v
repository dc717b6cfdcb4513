(** What [defined?] answers (C96). *)
From Coq Require Import ZArith List Bool Lia.
From Verif Require Import Base ModelValue ModelInst ModelCodegen ModelVM SpecCore
  ProofsCore1 ProofsCore2 ProofsCore3 ProofsDefined ProofsCore8 SpecIntPrims ProofsIntPrims PropsCore.
Import ListNotations.
Open Scope Z_scope.

(** * What is asked about a name *)
Inductive names {W : Type} (P : prims W) (s : sst (W:=W)) : node -> dkind -> bool -> Prop :=
| nm_local x : names P s (NLVar x) dLocal (negb (is_uninit (s_rho s x)))
| nm_ivar x : names P s (NIVar x) dIvar (p_defd P (qIvar x) (s_w s))
| nm_gvar x : names P s (NGVar x) dGlobal (p_defd P (qGvar x) (s_w s))
| nm_const x slot l : names P s (NOp (bConst x slot) l) dConst (p_defd P (qConst x) (s_w s))
| nm_method x : names P s (NIdent x) dMethod (p_defd P (qMethod (p_self P) x) (s_w s)).

(** Expressions that are not looked into: they are there, whatever they contain. *)
Definition opaque (n : node) : bool :=
  match n with
  | NInt _ | NBig _ | NFloat _ | NSym _ | NLit _ | NRange _ _ _ | NSeq _ | NIf _ _ _ | NWhile _ _ _
  | NBreak _ | NNext _ | NReturn _ | NCase _ _ _ | NBegin _ _ _ _ | NDefined _ _
  | NOp bHash _ | NOp bConcat _ | NOp bToS _ | NOp bRegexp _ | NOp bYield _ | NOp bSuper _ => true
  | _ => false
  end.

(** [n] sends a message to [r] with the positional arguments [l]; [q] is what the value of [r] is asked. *)
Inductive asks (d : dnames) : node -> node -> list node -> (value -> defq) -> Prop :=
| as_send r x l safe : asks d (NSend r x l safe) r l (fun v => qMethod v x)
| as_call r x m kw amp del hspl spl l rest : Z.of_nat (length l) = m ->
    asks d (NOp (bCall x m kw amp del hspl spl) (r :: l ++ rest)) r l (fun v => qMethod v x)
| as_index b i : asks d (NIndex b i) b [i] (fun v => qMethod v (dn_index d))
| as_bin op l r : op <> BLAnd -> op <> BLOr -> asks d (NBin op l r) l [r] (fun v => qMethod v (dn_bin d op))
| as_un op e : asks d (NUn op e) e [] (fun v => qMethod v (dn_un d op))
| as_scope p x l : asks d (NOp (bScope x) (p :: l)) p [] (fun v => qScope v x).

(** [found n s b s']: asked in the state [s], all of [n] is there or not ([b]);
    [s'] is the state after the receivers have been evaluated, each after the parts of its call
    have been found. *)
Inductive found {W : Type} (P : prims W) (ev : node -> sst (W:=W) -> outcome) (d : dnames)
  : node -> sst (W:=W) -> bool -> sst (W:=W) -> Prop :=
| fd_name n s k b : names P s n k b -> found P ev d n s b s
| fd_literal n s : match n with NNil | NBool _ | NSelf => True | _ => opaque n = true end ->
    found P ev d n s true s
| fd_array l s b s' : found_all P ev d l s b s' -> found P ev d (NArray l) s b s'
| fd_recv_no n r l q s s1 : asks d n r l q -> found P ev d r s false s1 -> found P ev d n s false s1
| fd_args_no n r l q s s1 s2 : asks d n r l q ->
    found P ev d r s true s1 -> found_all P ev d l s1 false s2 -> found P ev d n s false s2
| fd_call n r l q s s1 s2 v s3 : asks d n r l q ->
    found P ev d r s true s1 -> found_all P ev d l s1 true s2 -> ev r s2 = Val v s3 ->
    found P ev d n s (p_defd P (q v) (s_w s3)) s3
with found_all {W : Type} (P : prims W) (ev : node -> sst (W:=W) -> outcome) (d : dnames)
  : list node -> sst (W:=W) -> bool -> sst (W:=W) -> Prop :=
| fa_nil s : found_all P ev d [] s true s
| fa_no x l s s1 : found P ev d x s false s1 -> found_all P ev d (x :: l) s false s1
| fa_yes x l s s1 b s2 : found P ev d x s true s1 -> found_all P ev d l s1 b s2 ->
    found_all P ev d (x :: l) s b s2.

Scheme found_mut := Induction for found Sort Prop
  with found_all_mut := Induction for found_all Sort Prop.


Section Found.
Context {W : Type}.
Variable P : prims W.
Variable ev : node -> sst (W:=W) -> outcome (W:=W).
Variable d : dnames.
Notation go := (defined_in P ev d).

Lemma all_prefix l rest : forall m s, m = length l -> all_of go m (l ++ rest) s = all_of go m l s.
Proof.
  induction l as [|x l IH]; intros m s ->; [destruct rest; reflexivity|]. cbn [length app all_of].
  destruct (go x s); cbn [dand]; auto.
Qed.

Lemma asks_in n r l q s : asks d n r l q ->
  go n s = dand (go r s) (fun s => dand (all_of go (length l) l s) (fun s =>
             dvalue (ev r s) (fun v s => dask (p_defd P (q v) (s_w s)) s))).
Proof.
  intros H. destruct H as [r x l safe|r x m kw amp del hspl spl l rest L|b i|op l r A B|op e|p x l].
  - reflexivity.
  - transitivity (dand (go r s) (fun s => dand (all_of go (Z.to_nat m) (l ++ rest) s) (fun s =>
             dvalue (ev r s) (fun v s => dask (p_defd P (qMethod v x) (s_w s)) s)))); [reflexivity|].
    destruct (go r s) as [s1| |]; [|reflexivity|reflexivity]. cbn [dand].
    rewrite all_prefix by lia. replace (Z.to_nat m) with (length l) by lia. reflexivity.
  - cbn [defined_in length all_of]. destruct (go b s) as [s1| |]; [|reflexivity|reflexivity]. cbn [dand].
    destruct (go i s1); reflexivity.
  - transitivity (dand (go l s) (fun s => dand (go r s) (fun s =>
             dvalue (ev l s) (fun v s => dask (p_defd P (qMethod v (dn_bin d op)) (s_w s)) s)))).
    { destruct op; try reflexivity; contradiction. }
    destruct (go l s) as [s1| |]; [|reflexivity|reflexivity]. cbn [dand length all_of].
    destruct (go r s1); reflexivity.
  - reflexivity.
  - reflexivity.
Qed.

Lemma found_in n s b s' : found P ev d n s b s' -> go n s = if b then DYes s' else DNo s'.
Proof.
  revert n s b s'.
  apply (found_mut W P ev d (fun n s b s' _ => go n s = if b then DYes s' else DNo s')
    (fun l s b s' _ => all_of go (length l) l s = if b then DYes s' else DNo s')).
  - intros n s k b N. destruct N; cbn; unfold dask; match goal with |- context [if ?c then _ else _] => destruct c end; reflexivity.
  - intros n s Y. destruct n; try contradiction Y; try discriminate Y; try reflexivity.
    destruct k; try discriminate Y; reflexivity.
  - intros l s b s' _ IH. exact IH.
  - intros n r l q s s1 A _ IH. rewrite (asks_in _ _ _ _ _ A), IH. reflexivity.
  - intros n r l q s s1 s2 A _ IH _ IH2. rewrite (asks_in _ _ _ _ _ A), IH. cbn [dand]. rewrite IH2. reflexivity.
  - intros n r l q s s1 s2 v s3 A _ IH _ IH2 E.
    rewrite (asks_in _ _ _ _ _ A), IH. cbn [dand]. rewrite IH2. cbn [dand]. rewrite E. cbn [dvalue].
    unfold dask. destruct (p_defd P (q v) (s_w s3)); reflexivity.
  - reflexivity.
  - intros x l s s1 _ IH. cbn [length all_of]. rewrite IH. reflexivity.
  - intros x l s s1 b s2 _ IH _ IH2. cbn [length all_of]. rewrite IH. cbn [dand]. exact IH2.
Qed.
End Found.

(** How [defined?] ends: with a copy of the string for [n], or nil *)
Definition answers {W : Type} (P : prims W) (d : dnames) (n : node) (b : bool) (s : sst (W:=W)) : outcome :=
  if b then Val (fst (p_dup P (dn_str d (answer n)) (s_w s)))
                (mksst (s_rho s) (snd (p_dup P (dn_str d (answer n)) (s_w s))))
  else Val nil s.

(** [defined? n] answers what [n] is if all of it is there, else nil. *)
Theorem C96_answer_partial : forall W (P : prims W) cx n d G f s env b s1,
  code_of P cx (NDefined n d) G -> supported cx (NDefined n d) -> holds cx s env ->
  found P (eval P (sc_setter cx) (sc_stderr cx) f) d n s b s1 ->
  ends_as P cx G env (s_w s) (answers P d n b s1).
Proof.
  intros W P cx n d G f s env b s1 C K H F.
  eapply (C29_ends_as_source_partial _ _ _ _ _ f); eauto.
  2,3: unfold answers; destruct b; discriminate.
  cbn [eval]. unfold eval_defined. rewrite (found_in _ _ _ _ _ _ _ F). unfold answers.
  destruct b; [|reflexivity]. destruct (p_dup P _ _); reflexivity.
Qed.
Print Assumptions C96_answer_partial.

(** * Nothing is run *)

(** A receiver whose evaluation does nothing *)
Definition plain (n : node) : bool :=
  match n with
  | NNil | NBool _ | NInt _ | NFloat _ | NSym _ | NSelf | NLVar _ | NGVar _ | NIVar _ => true
  | _ => false
  end.
(** Expressions whose receivers are all plain; the arguments of calls may be anything. *)
Inductive quiet (d : dnames) : node -> Prop :=
| qu_name x : quiet d (NIdent x)
| qu_const x slot l : quiet d (NOp (bConst x slot) l)
| qu_plain n : plain n = true -> quiet d n
| qu_opaque n : opaque n = true -> quiet d n
| qu_array l : quiets d l -> quiet d (NArray l)
| qu_asks n r l q : asks d n r l q -> plain r = true -> quiets d l -> quiet d n
with quiets (d : dnames) : list node -> Prop :=
| qs_nil : quiets d []
| qs_cons x l : quiet d x -> quiets d l -> quiets d (x :: l).
Scheme quiet_mut := Induction for quiet Sort Prop
  with quiets_mut := Induction for quiets Sort Prop.

Lemma plain_found {W} (P : prims W) ev d n s : plain n = true -> exists b, found P ev d n s b s.
Proof.
  destruct n; intros H; try discriminate H.
  all: try (exists true; apply fd_literal; exact I || reflexivity).
  all: eexists; eapply fd_name; constructor.
Qed.
Lemma plain_eval {W} (P : prims W) setter std f n s : plain n = true -> exists v, eval P setter std f n s = Val v s.
Proof. destruct n; intros H; try discriminate H; eexists; reflexivity. Qed.

Lemma quiet_found {W} (P : prims W) setter std f d s n : quiet d n ->
  exists b, found P (eval P setter std f) d n s b s.
Proof.
  revert n. apply (quiet_mut d (fun n _ => exists b, found P (eval P setter std f) d n s b s)
    (fun l _ => exists b, found_all P (eval P setter std f) d l s b s)).
  - intros x. eexists. eapply fd_name. constructor.
  - intros x slot l. eexists. eapply fd_name. constructor.
  - intros n H. apply plain_found, H.
  - intros n H. exists true. apply fd_literal. destruct n; try discriminate H; exact H.
  - intros l _ [b H]. exists b. apply fd_array, H.
  - intros n r l q A PL _ [b H]. destruct (plain_found P (eval P setter std f) d r s PL) as [[|] R].
    + destruct b.
      * destruct (plain_eval P setter std f r s PL) as [v E]. eexists. eapply fd_call; eassumption.
      * exists false. eapply fd_args_no; eassumption.
    + exists false. eapply fd_recv_no; eassumption.
  - exists true. constructor.
  - intros x l _ [[|] H] _ [b HL].
    + exists b. eapply fa_yes; eassumption.
    + exists false. apply fa_no, H.
Qed.

(** With plain receivers [defined?] changes nothing: all variables and the world are as before, but
    for the copy of the string that is the answer. *)
Theorem C96_nothing_happens : forall W (P : prims W) cx n d G (f : nat) s env,
  code_of P cx (NDefined n d) G -> supported cx (NDefined n d) -> holds cx s env -> quiet d n ->
  exists b, found P (eval P (sc_setter cx) (sc_stderr cx) f) d n s b s /\
    ends_as P cx G env (s_w s) (answers P d n b s).
Proof.
  intros W P cx n d G f s env C K H Q.
  destruct (quiet_found P (sc_setter cx) (sc_stderr cx) f d s n Q) as [b F]. exists b.
  split; [exact F|]. eapply C96_answer_partial; eassumption.
Qed.
Print Assumptions C96_nothing_happens.

(** [defined?] of an assignment to anything but a local variable runs nothing, and says what it is. *)
Theorem C96_assignment_partial : forall W (P : prims W) cx l r d G s env,
  code_of P cx (NDefined (NAssign l r) d) G -> supported cx (NDefined (NAssign l r) d) -> holds cx s env ->
  ends_as P cx G env (s_w s)
    (let (v, w) := p_dup P (dn_str d (match l with NIndex _ _ => dMethod | _ => dAssign end)) (s_w s) in
     Val v (mksst (s_rho s) w)).
Proof.
  intros W P cx l r d G s env C K H.
  eapply (C29_ends_as_source_partial _ _ _ _ _ 0%nat); [exact C|exact K|exact H|reflexivity| |];
    destruct (p_dup P _ _); discriminate.
Qed.
Print Assumptions C96_assignment_partial.

(** * Examples: methods 7 and 8 exist, the operators for integers; "&&" is no method *)
Definition kcode (k : dkind) : Z :=
  match k with
  | dLocal => 201 | dMethod => 202 | dGlobal => 203 | dCvar => 204 | dConst => 205 | dIvar => 206
  | dAssign => 207 | dTrue => 208 | dFalse => 209 | dNil => 210 | dSelf => 211 | dExpr => 212
  end.
Definition d0 : dnames :=
  mkdn (fun k => symbol (kcode k)) (fun op => match op with BAdd => 60 | BMul => 61 | BLAnd => 5 | BLOr => 6 | _ => 62 end)
       (fun _ => 63) 64 90.
Definition def (n : node) : node := NDefined n d0.
Definition runs_to (n : node) (v : value) : Prop := exists env, run0 60 n = VDone (HRet v) env w0.

(** [defined?(@a)], [defined?(self.m7(1, @b))], [defined?([x, m7, 3 + 4])], [defined?(C)], [defined?(self.m9)],
    [@a = 5; defined?(@a + 3)], [defined?(@a = m8)], [defined?(if m8 then m8 end)] *)
Example C96_example :
  let e1 := NIVar 1 in
  let e2 := NSend NSelf 7 [NInt 1; NIVar 2] false in
  let e3 := NArray [NLVar 1; NIdent 7; NBin BAdd (NInt 3) (NInt 4)] in
  let e4 := NOp (bConst 4 0) [] in
  let e5 := NSend NSelf 9 [] false in
  let e7 := NAssign (NIVar 1) (raise (NInt 1)) in
  let e8 := NIf (raise (NInt 1)) (raise (NInt 2)) NNil in
  let ok e := code_of iprims cx0 (def e) (code0 (def e)) /\ supported cx0 (def e) in
  ok e1 /\ quiet d0 e1 /\ runs_to (def e1) nil /\
  ok e2 /\ quiet d0 e2 /\ runs_to (def e2) nil /\
  ok e3 /\ quiet d0 e3 /\ runs_to (def e3) (symbol 212) /\
  ok e4 /\ quiet d0 e4 /\ runs_to (def e4) nil /\
  ok e5 /\ quiet d0 e5 /\ runs_to (def e5) nil /\
  runs_to (def (NSend NSelf 7 [NInt 1] false)) (symbol 202) /\
  (exists env w, run0 60 (NSeq [NAssign (NIVar 1) (NInt 5); def (NBin BAdd (NIVar 1) (NInt 3))]) = VDone (HRet (symbol 202)) env w) /\
  ok e7 /\ runs_to (def e7) (symbol 207) /\
  ok e8 /\ quiet d0 e8 /\ runs_to (def e8) (symbol 212).
Proof.
  cbv zeta. unfold runs_to.
  repeat apply conj.
  all: try (lazymatch goal with |- supported _ _ => reflexivity end).
  all: try (apply code0_ok; vm_compute; reflexivity).
  all: try (lazymatch goal with |- exists env w, _ => do 2 eexists | |- exists _, _ => eexists end; vm_compute; reflexivity).
  - apply qu_plain. reflexivity.
  - eapply qu_asks; [constructor|reflexivity|]. constructor; [apply qu_plain; reflexivity|].
    constructor; [apply qu_plain; reflexivity|constructor].
  - apply qu_array. constructor; [apply qu_plain; reflexivity|]. constructor; [constructor|]. constructor; [|constructor].
    eapply qu_asks; [constructor; discriminate|reflexivity|]. constructor; [apply qu_plain; reflexivity|constructor].
  - constructor.
  - eapply qu_asks; [constructor|reflexivity|]. repeat constructor.
  - apply qu_opaque. reflexivity.
Qed.

(** The receiver of a call is evaluated: [defined?((yield 1).m7)] *)
Example C96_receiver_example :
  let e := NSend (NOp bYield [NInt 1]) 7 [] false in
  code_of iprims cx0 (def e) (code0 (def e)) /\ supported cx0 (def e) /\
  (exists s1, found iprims (eval iprims (sc_setter cx0) (sc_stderr cx0) 3) d0 e s0 true s1 /\
     iw_log (s_w s1) = [[integer 1]]) /\
  exists env w, run0 60 (def e) = VDone (HRet (symbol 202)) env w /\ iw_log w = [[integer 1]].
Proof.
  cbv zeta. split; [apply code0_ok; vm_compute; reflexivity|]. split; [reflexivity|]. split.
  - eexists. split; [|].
    + eapply (fd_call iprims _ d0 _ _ _ (fun v => qMethod v 7)); [constructor|apply fd_literal; reflexivity|apply fa_nil|].
      reflexivity.
    + reflexivity.
  - do 2 eexists. vm_compute. split; reflexivity.
Qed.

(** * What is not as it should be *)

(** [x = 1; defined?(x = 2); x] gives nil: asking about an assignment to a local variable sets it. *)
Theorem C96_assignment_refuted : exists body n env w,
  body = NSeq [NAssign (NLVar 1) (NInt 1); def (NAssign (NLVar 1) (NInt 2)); NLVar 1] /\
  compiles0 body = true /\ sized cx0 body = true /\ run0 n body = VDone (HRet nil) env w.
Proof. eexists _, 60%nat, _, _. split; [reflexivity|]. vm_compute. repeat split; reflexivity. Qed.
Print Assumptions C96_assignment_refuted.

(** [defined?(1 && 2)] is nil, as for a call of a method "&&". *)
Theorem C96_and_refuted : exists l r, constant l = true /\ constant r = true /\
  compiles0 (def (NBin BLAnd l r)) = true /\ sized cx0 (def (NBin BLAnd l r)) = true /\
  runs_to (def (NBin BLAnd l r)) nil /\ runs_to (NBin BLAnd l r) (integer 2).
Proof.
  exists (NInt 1), (NInt 2). unfold runs_to. repeat split; try reflexivity; eexists; vm_compute; reflexivity.
Qed.
Print Assumptions C96_and_refuted.

(** [defined?(self.m8(3) + 1)]: the exception of the left operand comes out; in the receiver of a call
    it makes the answer nil. *)
Theorem C96_operand_raises_refuted : exists r env,
  compiles0 (def (NBin BAdd r (NInt 1))) = true /\ sized cx0 (def (NBin BAdd r (NInt 1))) = true /\
  run0 60 (def (NBin BAdd r (NInt 1))) = VDone (HExn (integer 3)) env w0 /\
  run0 60 (def (NIndex r (NInt 1))) = VDone (HExn (integer 3)) env w0 /\
  run0 60 (def (NUn UNeg r)) = VDone (HExn (integer 3)) env w0 /\
  run0 60 (def (NSend r 7 [] false)) = VDone (HRet nil) env w0.
Proof. exists (raise (NInt 3)). eexists. vm_compute. repeat split; reflexivity. Qed.
Print Assumptions C96_operand_raises_refuted.

(** [[1, defined?((2 + self.m8(3)).m7)]] is [[2, nil]]: what the receiver had computed stays. *)
Theorem C96_operands_left_refuted : exists r v env w,
  compiles0 (NArray [NInt 1; def (NSend r 7 [] false)]) = true /\
  sized cx0 (NArray [NInt 1; def (NSend r 7 [] false)]) = true /\
  run0 60 (NArray [NInt 1; def (NSend r 7 [] false)]) = VDone (HRet v) env w /\
  elems v w = Some [integer 2; nil].
Proof. exists (NBin BAdd (NInt 2) (raise (NInt 3))). do 3 eexists. vm_compute. repeat split; reflexivity. Qed.
Print Assumptions C96_operands_left_refuted.

(** [defined?((yield 1).m7.m7)] yields twice. *)
Theorem C96_receiver_once_refuted : exists body env w v,
  compiles0 (def body) = true /\ sized cx0 (def body) = true /\
  run0 60 (def body) = VDone (HRet v) env w /\
  filter (fun l => match l with [_] => true | _ => false end) (iw_log w) = [[integer 1]; [integer 1]].
Proof. exists (NSend (NSend (NOp bYield [NInt 1]) 7 [] false) 7 [] false). do 3 eexists. vm_compute. repeat split; reflexivity. Qed.
Print Assumptions C96_receiver_once_refuted.

(** [defined?(@@x)] is never nil, though reading [@@x] raises. *)
Theorem C96_class_variable_refuted : exists x e env,
  compiles0 (def (NOp (bCvar x) [])) = true /\ sized cx0 (def (NOp (bCvar x) [])) = true /\
  runs_to (def (NOp (bCvar x) [])) (symbol 204) /\
  run0 60 (NOp (bCvar x) []) = VDone (HExn e) env w0.
Proof. exists 5. unfold runs_to. do 2 eexists. repeat split; try reflexivity. eexists. vm_compute. reflexivity. Qed.
Print Assumptions C96_class_variable_refuted.
