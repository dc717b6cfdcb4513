(** Lemmas about the parser: it reads its input from the front and passes over
    nothing that stands behind the end of the input. *)
From Coq Require Import ZArith List Bool Lia.
From Verif Require Import Base ModelParse SpecParse ProofsParse ProofsParse5.
Import ListNotations.
Open Scope Z_scope.

Definition reaches (l r : list item) : Prop := exists read, l = read ++ r /\ forall i, In i read -> fst i <> TEof.
Lemma reaches_refl l : reaches l l.
Proof. exists []. split; [reflexivity|]. intros i []. Qed.
Lemma reaches_step l t b r : reaches l ((t, b) :: r) -> t <> TEof -> reaches l r.
Proof.
  intros (p & -> & H) N. exists (p ++ [(t, b)]). rewrite <- app_assoc. split; [reflexivity|].
  intros i I. apply in_app_or in I. destruct I as [I|[<-|[]]]; auto.
Qed.
Lemma reaches_skip l r : reaches l r -> reaches l (skip_lt r).
Proof.
  induction r as [|[t b] r IH]; [auto|]. intros H. cbn. destruct (is_line_term t) eqn:Q; [|exact H].
  apply IH. eapply reaches_step; [exact H|]. intros ->. discriminate.
Qed.
Lemma reaches_newlines l r : reaches l r -> reaches l (skip_newlines r).
Proof.
  induction r as [|[t b] r IH]; [auto|]. intros H. destruct t; cbn [skip_newlines]; auto.
  apply IH. eapply reaches_step; [exact H|]. discriminate.
Qed.
Lemma reaches_terms l r : reaches l r -> reaches l (drop_terms r).
Proof.
  induction r as [|[t b] r IH]; [auto|]. intros H. destruct t; cbn [drop_terms]; auto.
  - apply IH. eapply reaches_step; [exact H|]. discriminate.
  - destruct p; auto. apply IH. eapply reaches_step; [exact H|]. discriminate.
Qed.
Section Front.
Variable l0 : list item.
Definition fr (s : pst) : Prop := reaches l0 (p_in s).
Definition front {A} (r : pres A) : Prop := match r with POk _ s => fr s | _ => True end.
Lemma f_bind A B (r : pres A) (f : A -> pst -> pres B) :
  front r -> (forall a s, fr s -> front (f a s)) -> front (pbind r f).
Proof. destruct r; cbn; auto. Qed.
Lemma f_get B s (f : tok -> pst -> pres B) : fr s -> (forall t s', fr s' -> front (f t s')) -> front (pbind (get s) f).
Proof.
  intros C H. unfold get. unfold fr in C. apply reaches_skip in C.
  destruct (skip_lt (p_in s)) as [|[t b] r]; [exact I|].
  assert (G : t <> TEof -> front (f t (mkpst r (p_lv s)))).
  { intros N. apply H. unfold fr. cbn [p_in]. eapply reaches_step; [exact C|exact N]. }
  destruct t; try (apply G; discriminate). exact I.
Qed.
Lemma check_fr n s : fr s -> fr (check_lhs n s).
Proof. unfold fr, check_lhs. destruct n; auto. destruct (is_local_var id s); auto. Qed.
Lemma checks_fr l s : fr s -> fr (fold_left (fun s n => check_lhs n s) l s).
Proof. revert s. induction l as [|n l IH]; intros s H; [exact H|]. cbn. apply IH. apply check_fr. exact H. Qed.

Variables (rec : nt -> flags -> pst -> pres node) (recl : lt -> flags -> pst -> pres (list node)).
Hypothesis Hr : forall k fl s, fr s -> front (rec k fl s).
Hypothesis Hl : forall k fl s, fr s -> front (recl k fl s).
Ltac qt := repeat first
  [ exact I | assumption | apply check_fr; assumption
  | match goal with
    | |- front (POk _ ?s) => change (fr s)
    | |- front (match ?x with _ => _ end) => destruct x
    | |- front (pbind (get _) _) => apply f_get; [|intros ? ? ?]
    | |- front (pbind (rec _ _ _) _) => apply f_bind; [apply Hr|intros ? ? ?]
    | |- front (pbind (recl _ _ _) _) => apply f_bind; [apply Hl|intros ? ? ?]
    | |- front (rec _ _ _) => apply Hr
    | |- front (recl _ _ _) => apply Hl
    end ].
Lemma f_block A (a : A) s : fr s -> front (no_block a s).
Proof. intros C. unfold no_block. qt. Qed.
Lemma f_args p fl s : fr s -> front (args_block recl p fl s).
Proof. intros C. unfold args_block. apply f_bind; [qt|]. intros. apply f_block. assumption. Qed.
Lemma f_method nd sf fl s : fr s -> front (primary_method recl nd sf fl s).
Proof.
  intros C. rewrite pm_eq.
  assert (G1 : forall r id s0, fr s0 -> front (pm_bare recl nd r sf fl id s0)).
  { intros r id s0 L. unfold pm_bare. destruct (is_command (p_in s0)); [|apply f_block; exact L].
    apply f_bind; [apply f_args; exact L|]. intros a s' H'. exact H'. }
  assert (G2 : forall id s0, fr s0 -> front (pm_named recl nd sf fl id s0)).
  { intros id s0 L. unfold pm_named. set (r := match nd with NIdent f => _ | n => n end). pose proof (G1 r id s0 L) as G.
    tok_cases (peek_no_term (p_in s0)) G.
    apply f_get; [exact L|]. intros t s1 H1. apply f_bind; [apply f_args; exact H1|]. intros a s2 H2. exact H2. }
  assert (G : front (pm_rest recl nd sf fl s)).
  { unfold pm_rest. pose proof (reaches_newlines _ _ C) as Q. destruct (skip_newlines (p_in s)) as [|[t b] r]; [exact I|].
    destruct t; try exact I; (apply G2; unfold fr; cbn [p_in]; eapply reaches_step; [exact Q|discriminate]). }
  tok_cases (peek_no_term (p_in s)) G.
  apply f_get; [exact C|]. intros t s1 H1. apply f_bind; [apply f_args; exact H1|]. intros a s2 H2. exact H2.
Qed.
Lemma f_call_loop nd fl s : fr s -> front (call_loop rec recl nd fl s).
Proof.
  intros C. rewrite cl_eq.
  assert (G : front (cl_rest rec recl nd fl s)).
  { unfold cl_rest. assert (Q : front (POk nd s)) by exact C.
    tok_cases (peek_no_term (p_in s)) Q; try exact I.
    - qt.
    - apply f_get; [exact C|]. intros t s1 H1. apply f_bind; [apply f_method; exact H1|]. intros l s2 H2. qt. }
  tok_cases (peek (p_in s)) G.
  apply f_get; [exact C|]. intros t s1 H1. apply f_bind; [apply f_method; exact H1|]. intros l s2 H2. qt.
Qed.
Lemma f_rhs fl s : fr s -> front (rhs_if_allowed rec recl fl s).
Proof. intros C. unfold rhs_if_allowed. qt. Qed.
Lemma f_mul nd fl s : fr s -> front (mul_assign rec recl nd fl s).
Proof.
  intros C. unfold mul_assign. apply f_bind; [apply Hl; exact C|]. intros l s1 H1.
  destruct (peek_no_term (p_in s1)); try exact I. destruct p; try exact I.
  apply f_get; [exact H1|]. intros t s2 H2. apply f_bind; [apply f_rhs; exact H2|]. intros a s3 H3.
  change (fr (fold_left (fun s n => check_lhs n s) l s3)). apply checks_fr. exact H3.
Qed.
Lemma f_op l o fl s : fr s -> front (assign_op rec l o fl s).
Proof. intros C. unfold assign_op. qt. Qed.
Lemma f_acc l fl s : fr s -> front (acc_assign rec recl l fl s).
Proof.
  intros C. unfold acc_assign. destruct (f_sa fl); [exact C|]. destruct (peek_no_term (p_in s)); try exact C.
  destruct p; try exact C; [|apply f_op; exact C].
  apply f_get; [exact C|]. intros t s2 H2. cbn zeta. apply f_bind; [apply f_rhs; apply check_fr; exact H2|].
  intros a s3 H3. exact H3.
Qed.
Lemma f_expect s : fr s -> front (expect_rparen s).
Proof. intros C. unfold expect_rparen. qt. Qed.
Lemma f_expect2 s : fr s -> front (expect_rbracket s).
Proof. intros C. unfold expect_rbracket. qt. Qed.
Lemma f_comp fl s : fr s -> front (comp_stmt recl fl s).
Proof. intros C. unfold comp_stmt. qt. Qed.
Ltac qt2 := repeat first
  [ progress qt
  | match goal with
    | |- front (pbind (comp_stmt _ _ _) _) => apply f_bind; [apply f_comp|intros ? ? ?]
    | |- front (pbind (expect_rparen _) _) => apply f_bind; [apply f_expect|intros ? ? ?]
    | |- front (pbind (expect_rbracket _) _) => apply f_bind; [apply f_expect2|intros ? ? ?]
    | |- front (pbind (args_block _ _ _ _) _) => apply f_bind; [apply f_args|intros ? ? ?]
    | |- front (args_block _ _ _ _) => apply f_args
    | |- front (assign_op _ _ _ _ _) => apply f_op
    | |- front (acc_assign _ _ _ _ _) => apply f_acc
    | |- front (mul_assign _ _ _ _ _) => apply f_mul
    | |- front (pbind (match _ with _ => _ end) _) => apply f_bind; [|intros ? ? ?]
    end ].
Lemma body_front k fl s : fr s -> front (body rec recl k fl s).
Proof.
  intros C. destruct k; cbn [body].
  - unfold stmt_body. qt2.
  - unfold stmt_loop. qt2.
  - unfold expr_body. qt2.
  - unfold expr_loop. qt2.
  - unfold not_body. qt2.
  - unfold arg_body. qt2.
  - unfold arg_assign_body. qt2.
  - unfold ternary_body. qt2.
  - unfold range_body. qt2.
  - unfold bin_body. qt2.
  - unfold bin_loop. qt2.
  - unfold eq_body. qt2.
  - unfold uminus_body. qt2.
  - unfold exp_body. qt2.
  - unfold unary_body. qt2.
  - unfold call_body. qt2.
  - apply f_call_loop. exact C.
  - unfold prim_body. qt2.
Qed.
Lemma bodyl_front k fl s : fr s -> front (bodyl rec recl k fl s).
Proof.
  intros C. destruct k; cbn [bodyl].
  - unfold stmts_body. destruct (check_stmt_end _); [exact C|]. apply f_bind; [qt|]. intros n s1 H1.
    destruct (is_term _); [|exact H1]. apply Hl. apply reaches_terms. exact H1.
  - unfold rhs_body. qt2.
  - unfold args_body. qt2.
  - unfold mlhs_body. qt2.
Qed.
End Front.
Lemma parse_front l0 n :
  (forall k fl s, fr l0 s -> front l0 (parse n k fl s)) /\ (forall k fl s, fr l0 s -> front l0 (parsel n k fl s)).
Proof.
  induction n as [|n [A B]]; [split; intros; exact I|]. split; intros; cbn [parse parsel].
  - apply body_front; auto.
  - apply bodyl_front; auto.
Qed.
Lemma at_end l : peek l = TEof -> exists lines rest, l = lines ++ rest /\
  (forall i, In i lines -> fst i = TLT \/ fst i = TP pSemi) /\ (rest = [] \/ exists b r, rest = (TEof, b) :: r).
Proof.
  unfold peek. induction l as [|[t b] l IH].
  - intros _. exists [], []. split; [reflexivity|]. split; [intros i []|]. left. reflexivity.
  - cbn. destruct (is_line_term t) eqn:Q.
    + intros H. destruct (IH H) as (x & r & -> & A & B). exists ((t, b) :: x), r. split; [reflexivity|]. split; [|exact B].
      intros i [<-|J]; [|auto]. destruct t; try discriminate; cbn; auto. destruct p; try discriminate; auto.
    + cbn. intros ->. exists [], ((TEof, b) :: l). split; [reflexivity|]. split; [intros i []|]. right. eauto.
Qed.
Lemma program_front n lv l r s : parse_program n lv l = POk r s ->
  reaches l (p_in s) /\ peek (p_in s) = TEof.
Proof.
  unfold parse_program. intros H.
  pose proof (proj2 (parse_front l n) (LStmts []) (mkflags false false) (mkpst l lv) (reaches_refl l)) as G.
  destruct (parsel n _ _ _) as [a s0| | | |]; cbn in H; try discriminate.
  destruct (peek (p_in s0)) eqn:Q; try discriminate. injection H as <- <-. split; [exact G|exact Q].
Qed.
