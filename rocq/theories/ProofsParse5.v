(** Lemmas about the parser: it ends, its result does not depend on the fuel, and
    where it panics. *)
From Coq Require Import ZArith List Bool Lia.
From Verif Require Import Base ModelParse SpecParse ProofsParse.
Import ListNotations.
Open Scope Z_scope.

(** the parts of [primary_method] and [call_loop], so that they can be treated one by one *)
Definition pm_bare (recl : lt -> flags -> pst -> pres (list node)) (n recv : node) (sf : bool) (fl : flags) (id : Z) (s : pst) : pres node :=
  if is_command (p_in s) then do l, s <- args_block recl false fl s ;; POk (NSend n id l false) s
  else no_block (NSend recv id [] sf) s.
Definition pm_named (recl : lt -> flags -> pst -> pres (list node)) (n : node) (sf : bool) (fl : flags) (id : Z) (s : pst) : pres node :=
  let recv' := match n with NIdent f => NSend (NAtom aSelf) f [] false | n => n end in
  match peek_no_term (p_in s) with
  | TP pLParen => do t, s <- get s ;; do l, s <- args_block recl true fl s ;; POk (NSend recv' id l sf) s
  | _ => pm_bare recl n recv' sf fl id s
  end.
Definition pm_rest (recl : lt -> flags -> pst -> pres (list node)) (n : node) (sf : bool) (fl : flags) (s : pst) : pres node :=
  match skip_newlines (p_in s) with
  | (TIdent id, _) :: r | (TConst id, _) :: r => pm_named recl n sf fl id (mkpst r (p_lv s))
  | (TEof, _) :: _ | [] => PErr
  | _ => PStuck
  end.
Lemma pm_eq recl n sf fl s : primary_method recl n sf fl s =
  match peek_no_term (p_in s) with
  | TP pLParen => do t, s <- get s ;; do l, s <- args_block recl true fl s ;; POk (NSend n m_call l false) s
  | _ => pm_rest recl n sf fl s
  end.
Proof. reflexivity. Qed.
Definition cl_rest (rec : nt -> flags -> pst -> pres node) (recl : lt -> flags -> pst -> pres (list node)) (n : node) (fl : flags) (s : pst) : pres node :=
  match peek_no_term (p_in s) with
  | TP pSafeNav => do t, s <- get s ;; do m, s <- primary_method recl n true fl s ;; rec (PCallL m) fl s
  | TP pScope => PStuck
  | TP pLBracket =>
      do t, s <- get s ;;
      do l, s <- recl (LRhs true []) (mkflags (f_sa fl) true) s ;; rec (PCallL (NIndex n l)) fl s
  | _ => POk n s
  end.
Lemma cl_eq rec recl n fl s : call_loop rec recl n fl s =
  match peek (p_in s) with
  | TP pDot => do t, s <- get s ;; do m, s <- primary_method recl n false fl s ;; rec (PCallL m) fl s
  | _ => cl_rest rec recl n fl s
  end.
Proof. reflexivity. Qed.
Ltac tok_cases x G := destruct x as [| | | | | | | | | | |rr|pp]; try exact G; destruct pp; try exact G.

(** * More fuel changes nothing *)
Definition fle {A} (r r' : pres A) : Prop := r = PFuel \/ r = r'.
Lemma fle_refl A (r : pres A) : fle r r.
Proof. right. reflexivity. Qed.
Lemma fle_bind A B (r r' : pres A) (f f' : A -> pst -> pres B) :
  fle r r' -> (forall a s, fle (f a s) (f' a s)) -> fle (pbind r f) (pbind r' f').
Proof. intros [->|<-] H; [left; reflexivity|]. destruct r; cbn; auto using fle_refl. Qed.
Section Mono.
Variables (rec rec' : nt -> flags -> pst -> pres node) (recl recl' : lt -> flags -> pst -> pres (list node)).
Hypothesis Hr : forall k fl s, fle (rec k fl s) (rec' k fl s).
Hypothesis Hl : forall k fl s, fle (recl k fl s) (recl' k fl s).
Ltac mono := repeat first
  [ apply fle_refl | apply Hr | apply Hl | apply fle_bind; [|intros ? ?]
  | match goal with |- fle (match ?x with _ => _ end) (match ?x with _ => _ end) => destruct x end ].
Lemma args_block_mono p fl s : fle (args_block recl p fl s) (args_block recl' p fl s).
Proof. unfold args_block, no_block. mono. Qed.
Lemma pm_bare_mono n r sf fl id s : fle (pm_bare recl n r sf fl id s) (pm_bare recl' n r sf fl id s).
Proof.
  unfold pm_bare. destruct (is_command (p_in s)); [|apply fle_refl]. apply fle_bind; [apply args_block_mono|]. intros; apply fle_refl.
Qed.
Lemma pm_named_mono n sf fl id s : fle (pm_named recl n sf fl id s) (pm_named recl' n sf fl id s).
Proof.
  unfold pm_named. set (r := match n with NIdent f => _ | n => n end). pose proof (pm_bare_mono n r sf fl id s) as G.
  tok_cases (peek_no_term (p_in s)) G.
  apply fle_bind; [apply fle_refl|]. intros t s1. apply fle_bind; [apply args_block_mono|]. intros; apply fle_refl.
Qed.
Lemma primary_method_mono n sf fl s : fle (primary_method recl n sf fl s) (primary_method recl' n sf fl s).
Proof.
  rewrite !pm_eq.
  assert (G : fle (pm_rest recl n sf fl s) (pm_rest recl' n sf fl s)).
  { unfold pm_rest. destruct (skip_newlines (p_in s)) as [|[t b] r]; [apply fle_refl|].
    destruct t; try apply fle_refl; apply pm_named_mono. }
  tok_cases (peek_no_term (p_in s)) G.
  apply fle_bind; [apply fle_refl|]. intros t s1. apply fle_bind; [apply args_block_mono|]. intros; apply fle_refl.
Qed.
Lemma call_loop_mono n fl s : fle (call_loop rec recl n fl s) (call_loop rec' recl' n fl s).
Proof.
  rewrite !cl_eq.
  assert (G : fle (cl_rest rec recl n fl s) (cl_rest rec' recl' n fl s)).
  { unfold cl_rest. pose proof (fle_refl _ (POk n s)) as Q. tok_cases (peek_no_term (p_in s)) Q; try apply fle_refl.
    - apply fle_bind; [apply fle_refl|]. intros. apply fle_bind; [apply Hl|]. intros; apply Hr.
    - apply fle_bind; [apply fle_refl|]. intros. apply fle_bind; [apply primary_method_mono|]. intros; apply Hr. }
  tok_cases (peek (p_in s)) G.
  apply fle_bind; [apply fle_refl|]. intros t s1. apply fle_bind; [apply primary_method_mono|]. intros; apply Hr.
Qed.
Lemma rhs_if_allowed_mono fl s : fle (rhs_if_allowed rec recl fl s) (rhs_if_allowed rec' recl' fl s).
Proof. unfold rhs_if_allowed. mono. Qed.
Lemma mul_assign_mono n fl s : fle (mul_assign rec recl n fl s) (mul_assign rec' recl' n fl s).
Proof. unfold mul_assign. repeat (apply rhs_if_allowed_mono || mono). Qed.
Lemma assign_op_mono l o fl s : fle (assign_op rec l o fl s) (assign_op rec' l o fl s).
Proof. unfold assign_op. mono. Qed.
Lemma acc_assign_mono l fl s : fle (acc_assign rec recl l fl s) (acc_assign rec' recl' l fl s).
Proof. unfold acc_assign. repeat (apply rhs_if_allowed_mono || apply assign_op_mono || mono). Qed.
Lemma body_mono k fl s : fle (body rec recl k fl s) (body rec' recl' k fl s).
Proof.
  destruct k; cbn [body].
  17:{ apply call_loop_mono. }
  all: unfold stmt_body, stmt_loop, expr_body, expr_loop, not_body, arg_body, arg_assign_body, ternary_body, range_body,
    bin_body, bin_loop, eq_body, uminus_body, exp_body, unary_body, call_body, prim_body, comp_stmt;
  repeat (apply args_block_mono || apply rhs_if_allowed_mono || apply mul_assign_mono || apply assign_op_mono
    || apply acc_assign_mono || mono).
Qed.
Lemma bodyl_mono k fl s : fle (bodyl rec recl k fl s) (bodyl rec' recl' k fl s).
Proof.
  destruct k; cbn [bodyl]; unfold stmts_body, rhs_body, args_body, mlhs_body; mono.
Qed.
End Mono.
Lemma parse_more n m : (n <= m)%nat ->
  (forall k fl s, fle (parse n k fl s) (parse m k fl s)) /\ (forall k fl s, fle (parsel n k fl s) (parsel m k fl s)).
Proof.
  revert m. induction n as [|n IH]; intros m H; [split; intros; left; reflexivity|].
  destruct m as [|m]; [lia|]. destruct (IH m ltac:(lia)) as [A B].
  split; intros; cbn [parse parsel]; [apply body_mono|apply bodyl_mono]; assumption.
Qed.
Lemma program_more n m lv l : (n <= m)%nat -> fle (parse_program n lv l) (parse_program m lv l).
Proof.
  intros H. unfold parse_program. apply fle_bind; [apply (parse_more n m H)|]. intros. apply fle_refl.
Qed.
Lemma program_fixed n m lv l : parse_program n lv l <> PFuel -> parse_program m lv l = PFuel \/ parse_program m lv l = parse_program n lv l.
Proof.
  intros H. destruct (Nat.le_ge_cases m n) as [L|L].
  - destruct (program_more m n lv l L) as [Q|Q]; auto.
  - destruct (program_more n m lv l L) as [Q|Q]; [contradiction|auto].
Qed.

(** * It ends *)
Definition size (s : pst) : nat := length (p_in s).
(** not out of fuel, and less than [m] tokens left *)
Definition ends_in {A} (m : nat) (r : pres A) : Prop :=
  match r with PFuel => False | POk _ s => (size s < m)%nat | _ => True end.
Lemma ei_bind A B m m' (r : pres A) (f : A -> pst -> pres B) :
  ends_in m r -> (forall a s, (size s < m)%nat -> ends_in m' (f a s)) -> ends_in m' (pbind r f).
Proof. destruct r; cbn; auto. Qed.
Lemma ei_le A m m' (r : pres A) : (m <= m')%nat -> ends_in m r -> ends_in m' r.
Proof. destruct r; cbn; auto. lia. Qed.
Lemma skip_le l : (length (skip_lt l) <= length l)%nat.
Proof. induction l as [|[t b] l IH]; cbn; [lia|]. destruct (is_line_term t); cbn; lia. Qed.
Lemma newlines_le l : (length (skip_newlines l) <= length l)%nat.
Proof. induction l as [|[t b] l IH]; cbn; [lia|]. destruct t; cbn; lia. Qed.
Lemma terms_le l : (length (drop_terms l) <= length l)%nat.
Proof. induction l as [|[t b] l IH]; cbn; [lia|]. destruct t; cbn; try lia. destruct p; cbn; lia. Qed.
Lemma get_ei s : ends_in (size s) (get s).
Proof.
  unfold get, size. pose proof (skip_le (p_in s)) as H. destruct (skip_lt (p_in s)) as [|[t b] r]; cbn; [exact I|].
  cbn in H. destruct t; cbn; auto; lia.
Qed.
Lemma check_size n s : size (check_lhs n s) = size s.
Proof. unfold check_lhs. destruct n; auto. destruct (is_local_var id s); reflexivity. Qed.
Lemma checks_size l s : size (fold_left (fun s n => check_lhs n s) l s) = size s.
Proof. revert s. induction l as [|n l IH]; intros s; [reflexivity|]. cbn. rewrite IH. apply check_size. Qed.

Definition rk (k : nt) : nat :=
  match k with
  | PStmt => 23 | PExpr => 22 | PNot => 21 | PArg => 20 | PArgAssign => 19 | PTernary => 18 | PRange => 17
  | PBin lvLor => 16 | PBin lvLand => 15 | PEq => 14 | PBin lvComp => 13 | PBin lvBitor => 12 | PBin lvBitand => 11
  | PBin lvShift => 10 | PBin lvAdd => 9 | PBin lvMul => 8 | PUMinus => 7 | PExp => 6 | PUnary => 5 | PCall => 4
  | PPrim _ => 3 | PStmtL _ | PExprL _ | PBinL _ _ | PCallL _ => 2
  end%nat.
Definition rkl (k : lt) : nat := match k with LStmts _ => 24 | LRhs _ _ => 21 | LArgs _ _ => 21 | LMlhs _ => 5 end%nat.
Definition room (k : nt) (s : pst) : nat := if entry k then size s else S (size s).
Lemma room_op l s : room (operand l) s = size s.
Proof. destruct l; reflexivity. Qed.
Section Ends.
Variable n : nat.
Hypothesis Hr : forall k fl s, (32 * size s + rk k < n)%nat -> ends_in (room k s) (parse n k fl s).
Hypothesis Hl : forall k fl s, (32 * size s + rkl k < n)%nat -> ends_in (S (size s)) (parsel n k fl s).
Ltac rule := match goal with
  | |- ends_in _ (parse n ?k ?fl ?s) =>
      eapply ei_le; [|apply Hr; cbn [rk operand]; rewrite ?check_size; (lia || (match goal with l : lev |- _ => destruct l; cbn [rk operand] in *; lia end))]; cbn [room entry]; rewrite ?room_op, ?check_size; lia
  | |- ends_in _ (parsel n ?k ?fl ?s) => eapply ei_le; [|apply Hl; cbn [rkl]; rewrite ?check_size; lia]; rewrite ?check_size; lia
  end.
Ltac ei := repeat first
  [ exact I | rule
  | match goal with
    | |- ends_in _ (POk _ _) => cbn [ends_in]; rewrite ?checks_size, ?check_size; lia
    | |- ends_in _ (get _) => eapply ei_le; [|apply get_ei]; lia
    | |- ends_in _ (match ?x with _ => _ end) => destruct x
    | |- ends_in _ (pbind (get ?s) _) => eapply ei_bind; [apply get_ei|intros ? ? ?]
    | |- ends_in _ (pbind (parse n ?k ?fl ?s) _) =>
        eapply ei_bind; [apply Hr; cbn [rk operand]; rewrite ?check_size; (lia || (match goal with l : lev |- _ => destruct l; cbn [rk operand] in *; lia end))|];
        cbn [room entry]; rewrite ?room_op, ?check_size; intros ? ? ?
    | |- ends_in _ (pbind (parsel n ?k ?fl ?s) _) =>
        eapply ei_bind; [apply Hl; cbn [rkl]; rewrite ?check_size; lia|]; rewrite ?check_size; intros ? ? ?
    end ].
Lemma noblock_ei A (a : A) s : ends_in (S (size s)) (no_block a s).
Proof. unfold no_block. ei. Qed.
Lemma args_block_ei p fl s : (32 * size s + 21 < n)%nat -> ends_in (S (size s)) (args_block (parsel n) p fl s).
Proof.
  intros H. unfold args_block. eapply ei_bind; [apply Hl; cbn [rkl]; lia|]. intros a s' H'. eapply ei_le; [|apply noblock_ei]. lia.
Qed.
Lemma method_ei nd sf fl s : (32 * size s + 21 < n)%nat -> ends_in (S (size s)) (primary_method (parsel n) nd sf fl s).
Proof.
  intros H. rewrite pm_eq.
  assert (G1 : forall r id s0, (size s0 < size s)%nat -> ends_in (S (size s)) (pm_bare (parsel n) nd r sf fl id s0)).
  { intros r id s0 L. unfold pm_bare. destruct (is_command (p_in s0)).
    - eapply ei_bind; [apply args_block_ei; lia|]. intros a s' H'. cbn [ends_in]. lia.
    - eapply ei_le; [|apply noblock_ei]. lia. }
  assert (G2 : forall id s0, (size s0 < size s)%nat -> ends_in (S (size s)) (pm_named (parsel n) nd sf fl id s0)).
  { intros id s0 L. unfold pm_named. set (r := match nd with NIdent f => _ | n => n end). pose proof (G1 r id s0 L) as G.
    tok_cases (peek_no_term (p_in s0)) G.
    eapply ei_bind; [apply get_ei|]. intros t s1 H1.
    eapply ei_bind; [apply args_block_ei; lia|]. intros a s2 H2. cbn [ends_in]. lia. }
  assert (G : ends_in (S (size s)) (pm_rest (parsel n) nd sf fl s)).
  { unfold pm_rest. pose proof (newlines_le (p_in s)) as Q. destruct (skip_newlines (p_in s)) as [|[t b] r]; [exact I|].
    cbn in Q. destruct t; try exact I; apply G2; unfold size; cbn; lia. }
  tok_cases (peek_no_term (p_in s)) G.
  eapply ei_bind; [apply get_ei|]. intros t s1 H1. eapply ei_bind; [apply args_block_ei; lia|]. intros a s2 H2. cbn [ends_in]. lia.
Qed.
Lemma call_loop_ei nd fl s : (32 * size s + 2 <= n)%nat -> ends_in (S (size s)) (call_loop (parse n) (parsel n) nd fl s).
Proof.
  intros H. rewrite cl_eq.
  assert (G : ends_in (S (size s)) (cl_rest (parse n) (parsel n) nd fl s)).
  { unfold cl_rest. assert (Q : ends_in (S (size s)) (POk nd s)) by (cbn [ends_in]; lia).
    tok_cases (peek_no_term (p_in s)) Q; try exact I.
    - eapply ei_bind; [apply get_ei|]. intros t s1 H1. eapply ei_bind; [apply Hl; cbn [rkl]; lia|]. intros l s2 H2. rule.
    - eapply ei_bind; [apply get_ei|]. intros t s1 H1. eapply ei_bind; [apply method_ei; lia|]. intros l s2 H2. rule. }
  tok_cases (peek (p_in s)) G.
  eapply ei_bind; [apply get_ei|]. intros t s1 H1. eapply ei_bind; [apply method_ei; lia|]. intros l s2 H2. rule.
Qed.
Lemma rhs_ei fl s : (32 * size s + 21 < n)%nat -> ends_in (S (size s)) (rhs_if_allowed (parse n) (parsel n) fl s).
Proof. intros H. unfold rhs_if_allowed. ei. Qed.
Lemma mul_ei nd fl s : (32 * size s + 21 < n)%nat -> ends_in (S (size s)) (mul_assign (parse n) (parsel n) nd fl s).
Proof.
  intros H. unfold mul_assign. eapply ei_bind; [apply Hl; cbn [rkl]; lia|]. intros l s1 H1.
  destruct (peek_no_term (p_in s1)); try exact I. destruct p; try exact I.
  eapply ei_bind; [apply get_ei|]. intros t s2 H2. eapply ei_bind; [apply rhs_ei; lia|]. intros a s3 H3.
  cbn [ends_in]. rewrite checks_size. lia.
Qed.
Lemma op_ei l o fl s : (32 * size s + 4 < n)%nat -> ends_in (S (size s)) (assign_op (parse n) l o fl s).
Proof. intros H. unfold assign_op. ei. Qed.
Lemma acc_ei l fl s : (32 * size s + 4 < n)%nat -> ends_in (S (size s)) (acc_assign (parse n) (parsel n) l fl s).
Proof.
  intros H. unfold acc_assign. destruct (f_sa fl); [cbn; lia|]. destruct (peek_no_term (p_in s)); try (cbn; lia).
  destruct p; try (cbn; lia).
  - eapply ei_bind; [apply get_ei|]. intros t s2 H2. cbn zeta. eapply ei_bind; [apply rhs_ei; rewrite check_size; lia|].
    rewrite check_size. intros a s3 H3. cbn [ends_in]. lia.
  - apply op_ei. exact H.
Qed.
Lemma expect_ei s : ends_in (size s) (expect_rparen s).
Proof. unfold expect_rparen. ei. Qed.
Lemma expect_ei2 s : ends_in (size s) (expect_rbracket s).
Proof. unfold expect_rbracket. ei. Qed.
Lemma comp_ei fl s : (32 * size s + 24 < n)%nat -> ends_in (S (size s)) (comp_stmt (parsel n) fl s).
Proof. intros H. unfold comp_stmt. ei. Qed.
Ltac ei2 := repeat first
  [ progress ei
  | match goal with
    | |- ends_in _ (args_block _ _ _ _) => eapply ei_le; [|apply args_block_ei; lia]; lia
    | |- ends_in _ (mul_assign _ _ _ _ _) => eapply ei_le; [|apply mul_ei; lia]; lia
    | |- ends_in _ (assign_op _ _ _ _ _) => eapply ei_le; [|apply op_ei; lia]; lia
    | |- ends_in _ (acc_assign _ _ _ _ _) => eapply ei_le; [|apply acc_ei; lia]; lia
    | |- ends_in _ (pbind (primary_method _ _ _ _ _) _) => eapply ei_bind; [apply method_ei; lia|intros ? ? ?]
    | |- ends_in _ (pbind (comp_stmt _ _ _) _) => eapply ei_bind; [apply comp_ei; lia|intros ? ? ?]
    | |- ends_in _ (pbind (expect_rparen _) _) => eapply ei_bind; [apply expect_ei|intros ? ? ?]
    | |- ends_in _ (pbind (expect_rbracket _) _) => eapply ei_bind; [apply expect_ei2|intros ? ? ?]
    | |- ends_in _ (pbind (args_block _ _ _ _) _) => eapply ei_bind; [apply args_block_ei; lia|intros ? ? ?]
    end ].
Lemma body_ei k fl s : (32 * size s + rk k <= n)%nat -> ends_in (room k s) (body (parse n) (parsel n) k fl s).
Proof.
  destruct k; cbn [body rk room entry]; intros H.
  - unfold stmt_body. ei2.
  - unfold stmt_loop. ei2.
  - unfold expr_body. ei2.
  - unfold expr_loop. ei2.
  - unfold not_body. ei2.
  - unfold arg_body. ei2.
  - unfold arg_assign_body. ei2.
  - unfold ternary_body. ei2.
  - unfold range_body. ei2.
  - unfold bin_body. ei2.
  - unfold bin_loop. ei2.
  - unfold eq_body. ei2.
  - unfold uminus_body. ei2.
  - unfold exp_body. ei2.
  - unfold unary_body. ei2.
  - unfold call_body. ei2.
  - apply call_loop_ei. lia.
  - unfold prim_body. ei2.
Qed.
Lemma bodyl_ei k fl s : (32 * size s + rkl k <= n)%nat -> ends_in (S (size s)) (bodyl (parse n) (parsel n) k fl s).
Proof.
  destruct k; cbn [bodyl rkl]; intros H.
  - unfold stmts_body. destruct (check_stmt_end _); [cbn; lia|]. eapply ei_bind; [apply Hr; cbn [rk]; lia|].
    cbn [room entry]. intros a s1 H1. destruct (is_term _); [|cbn; lia].
    assert (L : (size (mkpst (drop_terms (p_in s1)) (p_lv s1)) <= size s1)%nat) by apply terms_le.
    eapply ei_le; [|apply Hl; cbn [rkl]; lia]. lia.
  - unfold rhs_body.
    assert (G : ends_in (size s) (match peek (p_in s) with
               | TP pMul => do t, s <- get s ;; do n0, s <- parse n PArg fl s ;; POk (NSplat n0) s
               | _ => parse n PArg fl s
               end)) by ei2.
    destruct (bracket && _); [ei2|]. eapply ei_bind; [exact G|]. intros a s1 H1. ei2.
  - unfold args_body. ei2.
  - unfold mlhs_body. ei2.
Qed.
End Ends.
Lemma parse_ends n :
  (forall k fl s, (32 * size s + rk k < n)%nat -> ends_in (room k s) (parse n k fl s)) /\
  (forall k fl s, (32 * size s + rkl k < n)%nat -> ends_in (S (size s)) (parsel n k fl s)).
Proof.
  induction n as [|n [A B]]; [split; intros; lia|]. split; intros; cbn [parse parsel].
  - apply body_ei; auto. lia.
  - apply bodyl_ei; auto. lia.
Qed.
Lemma program_ends n lv l : (32 * S (length l) <= n)%nat -> parse_program n lv l <> PFuel.
Proof.
  intros H. unfold parse_program.
  assert (G : ends_in (S (length l)) (parsel n (LStmts []) (mkflags false false) (mkpst l lv))).
  { apply (parse_ends n). cbn [rkl]. unfold size. cbn [p_in]. lia. }
  destruct (parsel n _ _ _) as [a s| | | |]; cbn; try discriminate; [|contradiction].
  destruct (peek (p_in s)); discriminate.
Qed.
