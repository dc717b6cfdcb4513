(** Lemmas about the parser: where it panics. *)
From Coq Require Import ZArith List Bool Lia.
From Verif Require Import Base ModelParse SpecParse ProofsParse ProofsParse5.
Import ListNotations.
Open Scope Z_scope.

Lemma without_skip l : without_lines l = skip_lt l.
Proof. induction l as [|[t b] l IH]; [reflexivity|]. cbn. destruct t; try reflexivity; [exact IH|]. destruct p; try reflexivity. exact IH. Qed.
Definition cm (s : pst) : Prop := calm (p_in s) = true.
Definition hd (s : pst) : Prop := no_bare_minus (p_in s) = true.
Definition quiet {A} (r : pres A) : Prop := match r with PPanic => False | POk _ s => cm s | _ => True end.
Lemma q_bind A B (r : pres A) (f : A -> pst -> pres B) :
  quiet r -> (forall a s, cm s -> quiet (f a s)) -> quiet (pbind r f).
Proof. destruct r; cbn; auto. Qed.
Lemma calm_skip l : calm l = true -> calm (skip_lt l) = true.
Proof.
  induction l as [|[t b] l IH]; [auto|]. cbn. intros H. destruct (is_line_term t); [|exact H].
  apply IH. apply andb_true_iff in H. apply H.
Qed.
Lemma calm_tail i l : calm (i :: l) = true -> calm l = true.
Proof. destruct i. cbn. intros H. apply andb_true_iff in H. apply H. Qed.
Lemma calm_newlines l : calm l = true -> calm (skip_newlines l) = true.
Proof. induction l as [|[t b] l IH]; [auto|]. intros H. pose proof (calm_tail _ _ H). destruct t; cbn [skip_newlines]; auto. Qed.
Lemma calm_terms l : calm l = true -> calm (drop_terms l) = true.
Proof.
  induction l as [|[t b] l IH]; [auto|]. intros H. pose proof (calm_tail _ _ H). destruct t; cbn [drop_terms]; auto.
  destruct p; auto.
Qed.
(** what is known after taking a token *)
Lemma q_get B s (f : tok -> pst -> pres B) : cm s ->
  (forall s', cm s' -> (opener (peek (p_in s)) = true -> hd s') ->
     (exists b, skip_lt (p_in s) = (peek (p_in s), b) :: p_in s') -> quiet (f (peek (p_in s)) s')) ->
  quiet (pbind (get s) f).
Proof.
  intros C H. unfold get. unfold cm in C. apply calm_skip in C. unfold peek, peek_no_term in H.
  destruct (skip_lt (p_in s)) as [|[t b] r] eqn:Q; [exact I|].
  assert (G : quiet (f t (mkpst r (p_lv s)))).
  { apply H.
    - unfold cm. cbn [p_in]. eapply calm_tail. exact C.
    - intros O. unfold hd. cbn [p_in]. cbn [calm] in C. rewrite O in C. cbn in C. apply andb_true_iff in C. apply C.
    - eauto. }
  destruct t; try exact G. exact I.
Qed.
Lemma q_get1 B s (f : tok -> pst -> pres B) : cm s -> (forall t s', cm s' -> quiet (f t s')) -> quiet (pbind (get s) f).
Proof. intros C H. apply q_get; auto. Qed.
Lemma check_cm n s : cm s -> cm (check_lhs n s).
Proof. unfold cm, check_lhs. destruct n; auto. destruct (is_local_var id s); auto. Qed.
Lemma checks_cm l s : cm s -> cm (fold_left (fun s n => check_lhs n s) l s).
Proof. revert s. induction l as [|n l IH]; intros s H; [exact H|]. cbn. apply IH. apply check_cm. exact H. Qed.
Lemma peek_of l t : peek_no_term l = t -> is_line_term t = false -> peek l = t.
Proof. intros <- H. apply peek_here. exact H. Qed.

Definition needs_hd (k : nt) : bool := match k with PExp | PUnary | PCall | PPrim _ => true | _ => false end.
Definition pre (k : nt) (s : pst) : Prop := cm s /\ (needs_hd k = true -> hd s).
Definition prel (k : lt) (s : pst) : Prop := cm s /\ match k with LMlhs _ => hd s | _ => True end.
Section Quiet.
Variables (rec : nt -> flags -> pst -> pres node) (recl : lt -> flags -> pst -> pres (list node)).
Hypothesis Hr : forall k fl s, pre k s -> quiet (rec k fl s).
Hypothesis Hl : forall k fl s, prel k s -> quiet (recl k fl s).
Lemma Hr1 k fl s : needs_hd k = false -> cm s -> quiet (rec k fl s).
Proof. intros N C. apply Hr. split; [exact C|]. rewrite N. discriminate. Qed.
Lemma Hl1 k fl s : match k with LMlhs _ => False | _ => True end -> cm s -> quiet (recl k fl s).
Proof. intros N C. apply Hl. split; [exact C|]. destruct k; auto. contradiction. Qed.
Ltac qt := repeat first
  [ exact I | assumption | apply check_cm; assumption
  | match goal with
    | |- quiet (POk _ ?s) => change (cm s)
    | |- quiet (match ?x with _ => _ end) => destruct x
    | |- quiet (pbind (get _) _) => apply q_get1; [|intros ? ? ?]
    | |- quiet (pbind (rec _ _ _) _) => apply q_bind; [apply Hr1; [reflexivity|]|intros ? ? ?]
    | |- quiet (pbind (recl _ _ _) _) => apply q_bind; [apply Hl1; [exact I|]|intros ? ? ?]
    | |- quiet (rec _ _ _) => apply Hr1; [reflexivity|]
    | |- quiet (recl _ _ _) => apply Hl1; [exact I|]
    end ].
Lemma q_block A (a : A) s : cm s -> quiet (no_block a s).
Proof. intros C. unfold no_block. qt. Qed.
Lemma q_args p fl s : cm s -> quiet (args_block recl p fl s).
Proof. intros C. unfold args_block. apply q_bind; [qt|]. intros. apply q_block. assumption. Qed.
Lemma q_method nd sf fl s : cm s -> quiet (primary_method recl nd sf fl s).
Proof.
  intros C. rewrite pm_eq.
  assert (G1 : forall r id s0, cm s0 -> quiet (pm_bare recl nd r sf fl id s0)).
  { intros r id s0 L. unfold pm_bare. destruct (is_command (p_in s0)); [|apply q_block; exact L].
    apply q_bind; [apply q_args; exact L|]. intros a s' H'. exact H'. }
  assert (G2 : forall id s0, cm s0 -> quiet (pm_named recl nd sf fl id s0)).
  { intros id s0 L. unfold pm_named. set (r := match nd with NIdent f => _ | n => n end). pose proof (G1 r id s0 L) as G.
    tok_cases (peek_no_term (p_in s0)) G.
    apply q_get1; [exact L|]. intros t s1 H1. apply q_bind; [apply q_args; exact H1|]. intros a s2 H2. exact H2. }
  assert (G : quiet (pm_rest recl nd sf fl s)).
  { unfold pm_rest. pose proof (calm_newlines _ C) as Q. destruct (skip_newlines (p_in s)) as [|[t b] r]; [exact I|].
    apply calm_tail in Q. destruct t; try exact I; apply G2; exact Q. }
  tok_cases (peek_no_term (p_in s)) G.
  apply q_get1; [exact C|]. intros t s1 H1. apply q_bind; [apply q_args; exact H1|]. intros a s2 H2. exact H2.
Qed.
Lemma q_call_loop nd fl s : cm s -> quiet (call_loop rec recl nd fl s).
Proof.
  intros C. rewrite cl_eq.
  assert (G : quiet (cl_rest rec recl nd fl s)).
  { unfold cl_rest. assert (Q : quiet (POk nd s)) by exact C.
    tok_cases (peek_no_term (p_in s)) Q; try exact I.
    - qt.
    - apply q_get1; [exact C|]. intros t s1 H1. apply q_bind; [apply q_method; exact H1|]. intros l s2 H2. qt. }
  tok_cases (peek (p_in s)) G.
  apply q_get1; [exact C|]. intros t s1 H1. apply q_bind; [apply q_method; exact H1|]. intros l s2 H2. qt.
Qed.
Lemma q_rhs fl s : cm s -> quiet (rhs_if_allowed rec recl fl s).
Proof. intros C. unfold rhs_if_allowed. qt. Qed.
Lemma q_mul nd fl s : cm s -> hd s -> quiet (mul_assign rec recl nd fl s).
Proof.
  intros C D. unfold mul_assign. apply q_bind; [apply Hl; split; assumption|]. intros l s1 H1.
  destruct (peek_no_term (p_in s1)); try exact I. destruct p; try exact I.
  apply q_get1; [exact H1|]. intros t s2 H2. apply q_bind; [apply q_rhs; exact H2|]. intros a s3 H3.
  change (cm (fold_left (fun s n => check_lhs n s) l s3)). apply checks_cm. exact H3.
Qed.
Lemma q_op l o fl s : cm s -> quiet (assign_op rec l o fl s).
Proof. intros C. unfold assign_op. qt. Qed.
Lemma q_acc l fl s : cm s -> quiet (acc_assign rec recl l fl s).
Proof.
  intros C. unfold acc_assign. destruct (f_sa fl); [exact C|]. destruct (peek_no_term (p_in s)); try exact C.
  destruct p; try exact C; [|apply q_op; exact C].
  apply q_get1; [exact C|]. intros t s2 H2. cbn zeta. apply q_bind; [apply q_rhs; apply check_cm; exact H2|].
  intros a s3 H3. exact H3.
Qed.
Lemma q_expect s : cm s -> quiet (expect_rparen s).
Proof. intros C. unfold expect_rparen. qt. Qed.
Lemma q_expect2 s : cm s -> quiet (expect_rbracket s).
Proof. intros C. unfold expect_rbracket. qt. Qed.
Lemma q_comp fl s : cm s -> quiet (comp_stmt recl fl s).
Proof. intros C. unfold comp_stmt. qt. Qed.
Ltac qt2 := repeat first
  [ progress qt
  | match goal with
    | |- quiet (pbind (comp_stmt _ _ _) _) => apply q_bind; [apply q_comp|intros ? ? ?]
    | |- quiet (pbind (expect_rparen _) _) => apply q_bind; [apply q_expect|intros ? ? ?]
    | |- quiet (pbind (expect_rbracket _) _) => apply q_bind; [apply q_expect2|intros ? ? ?]
    | |- quiet (pbind (args_block _ _ _ _) _) => apply q_bind; [apply q_args|intros ? ? ?]
    | |- quiet (args_block _ _ _ _) => apply q_args
    | |- quiet (assign_op _ _ _ _ _) => apply q_op
    | |- quiet (acc_assign _ _ _ _ _) => apply q_acc
    end ].
Lemma hd_num b b' k z s l : skip_lt (p_in s) = (TP pMinus, b) :: l -> l = (TNum k z, b') :: tl l -> hd s.
Proof. intros Q1 Q2. unfold hd, no_bare_minus. rewrite without_skip, Q1, without_skip, Q2. reflexivity. Qed.
Lemma hd_other s : peek (p_in s) <> TP pMinus -> hd s.
Proof.
  intros N. unfold hd, no_bare_minus. rewrite without_skip. unfold peek, peek_no_term in N. destruct (skip_lt (p_in s)) as [|[t b] r]; [reflexivity|].
  destruct t; try reflexivity. destruct p; try reflexivity. congruence.
Qed.
Lemma body_quiet k fl s : pre k s -> quiet (body rec recl k fl s).
Proof.
  intros [C D]. destruct k; cbn [body needs_hd] in *.
  - unfold stmt_body. qt2.
  - unfold stmt_loop. qt2.
  - unfold expr_body. qt2.
  - unfold expr_loop. qt2.
  - unfold not_body. apply q_bind; [qt|]. intros n s1 H1.
    destruct (peek_no_term (p_in s1)) as [| | | | | | | | | | |rr|pp] eqn:Q; try exact H1. destruct pp; try exact H1.
    apply q_get; [exact H1|]. intros s2 H2 H3 _. apply q_mul; [exact H2|]. apply H3. rewrite (peek_of _ _ Q); reflexivity.
  - unfold arg_body. qt2.
  - unfold arg_assign_body. qt2.
  - unfold ternary_body. qt2.
  - unfold range_body. qt2.
  - unfold bin_body. apply q_bind; [apply Hr1; [destruct l; reflexivity|exact C]|]. intros a s1 H1. qt2.
  - unfold bin_loop. destruct (operator l _); [|exact C]. apply q_get1; [exact C|]. intros t s1 H1.
    apply q_bind; [apply Hr1; [destruct l; reflexivity|exact H1]|]. intros a s2 H2. qt2.
  - unfold eq_body. qt2.
  - unfold uminus_body.
    assert (G : peek (p_in s) <> TP pMinus -> quiet (do e, s1 <- rec PExp fl s;; acc_assign rec recl e fl s1)).
    { intros N. apply q_bind; [apply Hr; split; [exact C|intros _; apply hd_other; exact N]|]. intros; apply q_acc; assumption. }
    destruct (peek (p_in s)) as [| | | | | | | | | | |rr|pp] eqn:Q; try (apply G; discriminate).
    destruct pp; try (apply G; discriminate). clear G.
    apply q_get; [exact C|]. intros s1 H1 _ [b H3]. rewrite Q in H3.
    assert (G2 : quiet (do e, s2 <- rec PUMinus fl s1;; acc_assign rec recl (NUn Neg e) fl s2)) by qt2.
    destruct (peek_no_term (p_in s1)) as [| | | | | | | |k z| | |rr|pp] eqn:Q1; try exact G2. clear G2.
    assert (K : hd s1) by (apply hd_other; rewrite (peek_of _ _ Q1); [discriminate|reflexivity]).
    assert (K2 : hd s).
    { destruct (p_in s1) as [|[t b'] r]; [discriminate|]. cbn in Q1. subst t. eapply hd_num; [exact H3|reflexivity]. }
    apply q_bind; [apply Hr; split; auto|]. intros n2 s2 H2.
    assert (G3 : quiet (rec PExp fl s)) by (apply Hr; split; auto).
    tok_cases (peek_no_term (p_in s2)) G3.
    apply q_bind; [apply Hr; split; auto|]. intros; apply q_acc; assumption.
  - unfold exp_body. apply q_bind; [apply Hr; split; auto|]. intros n s1 H1.
    destruct (peek_no_term (p_in s1)) as [| | | | | | | | | | |rr|pp] eqn:Q; try exact H1. destruct pp; try exact H1.
    apply q_get; [exact H1|]. intros s2 H2 H3 _. rewrite (peek_of _ _ Q eq_refl) in H3.
    apply q_bind; [apply Hr; split; [exact H2|intros _; apply H3; reflexivity]|]. intros a s3 H4. exact H4.
  - unfold unary_body. assert (G : quiet (rec PCall fl s)) by (apply Hr; split; auto).
    destruct (peek (p_in s)) as [| | | | | | | | | | |rr|pp] eqn:Q; try exact G. destruct pp; try exact G;
    (apply q_get; [exact C|]); intros s2 H2 H3 _; rewrite Q in H3;
    (apply q_bind; [apply Hr; split; [exact H2|intros _; apply H3; reflexivity]|]); intros a s3 H4; exact H4.
  - unfold call_body. assert (G : quiet (do n, s1 <- rec (PPrim false) fl s;; rec (PCallL n) fl s1)).
    { apply q_bind; [apply Hr; split; auto|]. intros a s1 H1. qt. }
    destruct (peek (p_in s)) as [| | | | | | | | | | |rr|pp]; try exact G. destruct rr; try exact G. exact I.
  - apply q_call_loop. exact C.
  - unfold prim_body. apply q_get; [exact C|]. intros s1 H1 _ [b H3].
    destruct (peek (p_in s)) as [| | | | | | | | | | |rr|pp] eqn:Q; try solve [qt2].
    destruct pp; try solve [qt2].
    apply q_get; [exact H1|]. intros s2 H2 _ _.
    specialize (D eq_refl). unfold hd, no_bare_minus in D. rewrite without_skip, H3, without_skip in D.
    unfold peek, peek_no_term. destruct (skip_lt (p_in s1)) as [|[t b'] r]; [discriminate|]. destruct t; try discriminate. exact H2.
Qed.
Lemma bodyl_quiet k fl s : prel k s -> quiet (bodyl rec recl k fl s).
Proof.
  intros [C D]. destruct k; cbn [bodyl].
  - unfold stmts_body. destruct (check_stmt_end _); [exact C|]. apply q_bind; [qt|]. intros n s1 H1.
    destruct (is_term _); [|exact H1]. apply Hl1; [exact I|]. apply calm_terms. exact H1.
  - unfold rhs_body. destruct (bracket && _); [qt2|]. apply q_bind; [qt2|]. intros a s1 H1. qt2.
  - unfold args_body. qt2.
  - unfold mlhs_body. assert (G : quiet (do n, s0 <- rec PCall fl s;;
         match peek_no_term (p_in s0) with
         | TP pComma => do t, s1 <- get s0 ;; recl (LMlhs (acc ++ [n])) fl s1
         | _ => POk (acc ++ [n]) s0
         end)).
    { apply q_bind; [apply Hr; split; auto|]. intros n s1 H1.
      destruct (peek_no_term (p_in s1)) as [| | | | | | | | | | |rr|pp] eqn:Q; try exact H1. destruct pp; try exact H1.
      apply q_get; [exact H1|]. intros s2 H2 H3 _. apply Hl. split; [exact H2|]. apply H3. rewrite (peek_of _ _ Q); reflexivity. }
    tok_cases (peek_no_term (p_in s)) G. exact C.
Qed.
End Quiet.
Lemma parse_quiet n :
  (forall k fl s, pre k s -> quiet (parse n k fl s)) /\ (forall k fl s, prel k s -> quiet (parsel n k fl s)).
Proof.
  induction n as [|n [A B]]; [split; intros; exact I|]. split; intros; cbn [parse parsel].
  - apply body_quiet; auto.
  - apply bodyl_quiet; auto.
Qed.
Lemma program_quiet n lv l : calm l = true -> parse_program n lv l <> PPanic.
Proof.
  intros H. unfold parse_program.
  assert (G : quiet (parsel n (LStmts []) (mkflags false false) (mkpst l lv))) by (apply (parse_quiet n); split; [exact H|exact I]).
  destruct (parsel n _ _ _) as [a s| | | |]; cbn; try discriminate; [|contradiction].
  destruct (peek (p_in s)); discriminate.
Qed.
