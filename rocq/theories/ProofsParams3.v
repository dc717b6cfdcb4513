(** Lemmas about the parser: what it leaves is the end of what it was given. *)
From Coq Require Import ZArith List Bool Lia.
From Verif Require Import Base ModelParse SpecParse ModelParams ProofsParse ProofsParse5.
Import ListNotations.
Open Scope Z_scope.

Lemma skip_lt_tail l : exists x, l = x ++ skip_lt l.
Proof.
  induction l as [|[t b] l [x IH]]; [exists []; reflexivity|]. cbn. destruct (is_line_term t); [|exists []; reflexivity].
  exists ((t, b) :: x). cbn. rewrite <- IH. reflexivity.
Qed.
Lemma skip_newlines_tail l : exists x, l = x ++ skip_newlines l.
Proof.
  induction l as [|[t b] l [x IH]]; [exists []; reflexivity|]. destruct t; try (exists []; reflexivity).
  exists ((TLT, b) :: x). cbn. rewrite <- IH. reflexivity.
Qed.
Lemma drop_terms_tail l : exists x, l = x ++ drop_terms l.
Proof.
  induction l as [|[t b] l [x IH]]; [exists []; reflexivity|]. destruct t; try (exists []; reflexivity).
  - exists ((TLT, b) :: x). cbn. rewrite <- IH. reflexivity.
  - destruct p; try (exists []; reflexivity). exists ((TP pSemi, b) :: x). cbn. rewrite <- IH. reflexivity.
Qed.
Section Tail.
Variable l0 : list item.
Definition fr (s : pst) : Prop := exists x, l0 = x ++ p_in s.
Lemma fr_app s x l lv : fr s -> p_in s = x ++ l -> fr (mkpst l lv).
Proof. intros [y Y] E. exists (y ++ x). cbn. rewrite Y, E, app_assoc. reflexivity. Qed.
Definition front {A} (r : pres A) : Prop := match r with POk _ s => fr s | _ => True end.
Lemma f_bind A B (r : pres A) (f : A -> pst -> pres B) :
  front r -> (forall a s, fr s -> front (f a s)) -> front (pbind r f).
Proof. destruct r; cbn; auto. Qed.
Lemma f_get B s (f : tok -> pst -> pres B) : fr s -> (forall t s', fr s' -> front (f t s')) -> front (pbind (get s) f).
Proof.
  intros C H. unfold get. destruct (skip_lt_tail (p_in s)) as [x E]. destruct (skip_lt (p_in s)) as [|[t b] r]; [exact I|].
  assert (G : front (f t (mkpst r (p_lv s)))) by (apply H; apply (fr_app s (x ++ [(t, b)])); [exact C|rewrite <- app_assoc; exact E]). destruct t; try exact G. exact I.
Qed.
Lemma check_fr n s : fr s -> fr (check_lhs n s).
Proof.
  unfold fr, check_lhs. intros [x H]. destruct n; try (exists x; exact H). destruct (is_local_var id s); exists x; exact H.
Qed.
Lemma checks_fr l s : fr s -> fr (fold_left (fun s n => check_lhs n s) l s).
Proof. revert s. induction l as [|n l IH]; intros s H; [exact H|]. cbn. apply IH. apply check_fr. exact H. Qed.

Variables (rec : nt -> flags -> pst -> pres node) (recl : lt -> flags -> pst -> pres (list node)).
Hypothesis Hr : forall k fl s, fr s -> front (rec k fl s).
Hypothesis Hl : forall k fl s, fr s -> front (recl k fl s).
Ltac qt := repeat first
  [ exact I | assumption | apply check_fr; assumption
  | match goal with
    | |- front (POk _ ?s) => change (fr s)
    | |- front (match ?x with _ => _ end) => destruct x
    | |- front (pbind (get _) _) => apply f_get; [|intros ? ? ?]
    | |- front (pbind (rec _ _ _) _) => apply f_bind; [apply Hr|intros ? ? ?]
    | |- front (pbind (recl _ _ _) _) => apply f_bind; [apply Hl|intros ? ? ?]
    | |- front (rec _ _ _) => apply Hr
    | |- front (recl _ _ _) => apply Hl
    end ].
Lemma f_block A (a : A) s : fr s -> front (no_block a s).
Proof. intros C. unfold no_block. qt. Qed.
Lemma f_args p fl s : fr s -> front (args_block recl p fl s).
Proof. intros C. unfold args_block. apply f_bind; [qt|]. intros. apply f_block. assumption. Qed.
Lemma f_method nd sf fl s : fr s -> front (primary_method recl nd sf fl s).
Proof.
  intros C. rewrite pm_eq.
  assert (G1 : forall r id s0, fr s0 -> front (pm_bare recl nd r sf fl id s0)).
  { intros r id s0 L. unfold pm_bare. destruct (is_command (p_in s0)); [|apply f_block; exact L].
    apply f_bind; [apply f_args; exact L|]. intros a s' H'. exact H'. }
  assert (G2 : forall id s0, fr s0 -> front (pm_named recl nd sf fl id s0)).
  { intros id s0 L. unfold pm_named. set (r := match nd with NIdent f => _ | n => n end). pose proof (G1 r id s0 L) as G.
    tok_cases (peek_no_term (p_in s0)) G.
    apply f_get; [exact L|]. intros t s1 H1. apply f_bind; [apply f_args; exact H1|]. intros a s2 H2. exact H2. }
  assert (G : front (pm_rest recl nd sf fl s)).
  { unfold pm_rest. destruct (skip_newlines_tail (p_in s)) as [x E]. destruct (skip_newlines (p_in s)) as [|[t b] r]; [exact I|].
    assert (C' : fr (mkpst r (p_lv s))) by (apply (fr_app s (x ++ [(t, b)])); [exact C|rewrite <- app_assoc; exact E]).
    destruct t; try exact I; (apply G2; exact C'). }
  tok_cases (peek_no_term (p_in s)) G.
  apply f_get; [exact C|]. intros t s1 H1. apply f_bind; [apply f_args; exact H1|]. intros a s2 H2. exact H2.
Qed.
Lemma f_call_loop nd fl s : fr s -> front (call_loop rec recl nd fl s).
Proof.
  intros C. rewrite cl_eq.
  assert (G : front (cl_rest rec recl nd fl s)).
  { unfold cl_rest. assert (Q : front (POk nd s)) by exact C.
    tok_cases (peek_no_term (p_in s)) Q; try exact I.
    - qt.
    - apply f_get; [exact C|]. intros t s1 H1. apply f_bind; [apply f_method; exact H1|]. intros l s2 H2. qt. }
  tok_cases (peek (p_in s)) G.
  apply f_get; [exact C|]. intros t s1 H1. apply f_bind; [apply f_method; exact H1|]. intros l s2 H2. qt.
Qed.
Lemma f_rhs fl s : fr s -> front (rhs_if_allowed rec recl fl s).
Proof. intros C. unfold rhs_if_allowed. qt. Qed.
Lemma f_mul nd fl s : fr s -> front (mul_assign rec recl nd fl s).
Proof.
  intros C. unfold mul_assign. apply f_bind; [apply Hl; exact C|]. intros l s1 H1.
  destruct (peek_no_term (p_in s1)); try exact I. destruct p; try exact I.
  apply f_get; [exact H1|]. intros t s2 H2. apply f_bind; [apply f_rhs; exact H2|]. intros a s3 H3.
  change (fr (fold_left (fun s n => check_lhs n s) l s3)). apply checks_fr. exact H3.
Qed.
Lemma f_op l o fl s : fr s -> front (assign_op rec l o fl s).
Proof. intros C. unfold assign_op. qt. Qed.
Lemma f_acc l fl s : fr s -> front (acc_assign rec recl l fl s).
Proof.
  intros C. unfold acc_assign. destruct (f_sa fl); [exact C|]. destruct (peek_no_term (p_in s)); try exact C.
  destruct p; try exact C; [|apply f_op; exact C].
  apply f_get; [exact C|]. intros t s2 H2. cbn zeta. apply f_bind; [apply f_rhs; apply check_fr; exact H2|].
  intros a s3 H3. exact H3.
Qed.
Lemma f_expect s : fr s -> front (expect_rparen s).
Proof. intros C. unfold expect_rparen. qt. Qed.
Lemma f_expect2 s : fr s -> front (expect_rbracket s).
Proof. intros C. unfold expect_rbracket. qt. Qed.
Lemma f_comp fl s : fr s -> front (comp_stmt recl fl s).
Proof. intros C. unfold comp_stmt. qt. Qed.
Ltac qt2 := repeat first
  [ progress qt
  | match goal with
    | |- front (pbind (comp_stmt _ _ _) _) => apply f_bind; [apply f_comp|intros ? ? ?]
    | |- front (pbind (expect_rparen _) _) => apply f_bind; [apply f_expect|intros ? ? ?]
    | |- front (pbind (expect_rbracket _) _) => apply f_bind; [apply f_expect2|intros ? ? ?]
    | |- front (pbind (args_block _ _ _ _) _) => apply f_bind; [apply f_args|intros ? ? ?]
    | |- front (args_block _ _ _ _) => apply f_args
    | |- front (assign_op _ _ _ _ _) => apply f_op
    | |- front (acc_assign _ _ _ _ _) => apply f_acc
    | |- front (mul_assign _ _ _ _ _) => apply f_mul
    | |- front (pbind (match _ with _ => _ end) _) => apply f_bind; [|intros ? ? ?]
    end ].
Lemma body_front k fl s : fr s -> front (body rec recl k fl s).
Proof.
  intros C. destruct k; cbn [body].
  - unfold stmt_body. qt2.
  - unfold stmt_loop. qt2.
  - unfold expr_body. qt2.
  - unfold expr_loop. qt2.
  - unfold not_body. qt2.
  - unfold arg_body. qt2.
  - unfold arg_assign_body. qt2.
  - unfold ternary_body. qt2.
  - unfold range_body. qt2.
  - unfold bin_body. qt2.
  - unfold bin_loop. qt2.
  - unfold eq_body. qt2.
  - unfold uminus_body. qt2.
  - unfold exp_body. qt2.
  - unfold unary_body. qt2.
  - unfold call_body. qt2.
  - apply f_call_loop. exact C.
  - unfold prim_body. qt2.
Qed.
Lemma bodyl_front k fl s : fr s -> front (bodyl rec recl k fl s).
Proof.
  intros C. destruct k; cbn [bodyl].
  - unfold stmts_body. destruct (check_stmt_end _); [exact C|]. apply f_bind; [qt|]. intros n s1 H1.
    destruct (is_term _); [|exact H1]. apply Hl. destruct (drop_terms_tail (p_in s1)) as [x E]. apply (fr_app s1 x); assumption.
  - unfold rhs_body. qt2.
  - unfold args_body. qt2.
  - unfold mlhs_body. qt2.
Qed.
End Tail.
Lemma parse_tail l0 n :
  (forall k fl s, fr l0 s -> front l0 (parse n k fl s)) /\ (forall k fl s, fr l0 s -> front l0 (parsel n k fl s)).
Proof.
  induction n as [|n [A B]]; [split; intros; exact I|]. split; intros; cbn [parse parsel].
  - apply body_front; auto.
  - apply bodyl_front; auto.
Qed.

Lemma parse_rest n k fl s nd s' : parse n k fl s = POk nd s' -> exists x, p_in s = x ++ p_in s'.
Proof. intros H. pose proof (proj1 (parse_tail (p_in s) n) k fl s) as G. rewrite H in G. apply G. exists []. reflexivity. Qed.

(** * Parameters *)
Section Params.
Variable l0 : list item.
Variables (arg : pst -> pres node) (c : closing) (k : nat).
Hypothesis Harg : forall s, fr l0 s -> front l0 (arg s).
Lemma get_tail s t s' : get s = POk t s' -> exists x b, p_in s = x ++ (t, b) :: p_in s'.
Proof.
  unfold get. destruct (skip_lt_tail (p_in s)) as [x E]. destruct (skip_lt (p_in s)) as [|[u b] r]; [discriminate|].
  intros H. exists x, b. destruct u; try discriminate; injection H as <- <-; exact E.
Qed.
Lemma f_ident s : fr l0 s -> front l0 (expect_ident s).
Proof. intros C. unfold expect_ident. apply f_get; [exact C|]. intros t s' C'. destruct t; try exact I. exact C'. Qed.
Lemma f_new id s : fr l0 s -> front l0 (new_param k id s).
Proof. intros C. unfold new_param. destruct (existsb _ _); [exact I|exact C]. Qed.
Ltac qp := repeat first
  [ exact I | assumption
  | match goal with
    | |- front _ (POk _ ?s) => change (fr l0 s)
    | |- front _ (pbind (get _) _) => apply f_get; [|intros ? ? ?]
    | |- front _ (pbind (expect_ident _) _) => apply f_bind; [apply f_ident|intros ? ? ?]
    | |- front _ (pbind (new_param _ _ _) _) => apply f_bind; [apply f_new|intros ? ? ?]
    | |- front _ (pbind (arg _) _) => apply f_bind; [apply Harg|intros ? ? ?]
    | |- front _ (match ?x with _ => _ end) => destruct x
    end ].
Lemma f_default s : fr l0 s -> front l0 (key_default arg c s).
Proof. intros C. unfold key_default. cbn zeta. qp. Qed.
Lemma f_plain id st s : fr l0 s -> front l0 (plain arg c k id st s).
Proof.
  intros C. unfold plain. assert (G : front l0 (match st with
      | kReq => do u, s <- new_param k id s ;; POk (FReq id, kReq, false) s
      | kPost | kOpt | kRest => do u, s <- new_param k id s ;; POk (FPost id, kPost, false) s
      | _ => PErr
      end)) by qp.
  tok_cases (peek_no_term (p_in s)) G.
  apply f_get; [exact C|]. intros t s1 C1. apply f_bind; [apply f_default; exact C1|]. intros d s2 C2. qp.
Qed.
Lemma f_one st s : fr l0 s -> front l0 (one_param arg c k st s).
Proof.
  intros C. unfold one_param. assert (G : front l0 (ident_param arg c k st s)).
  { unfold ident_param. apply f_bind; [apply f_ident; exact C|]. intros id s1 C1. pose proof (f_plain id st s1 C1) as G.
    tok_cases (peek (p_in s1)) G. qp. }
  tok_cases (peek (p_in s)) G; qp.
Qed.
Lemma f_loop n st acc s : fr l0 s -> front l0 (params_loop arg c k n st acc s).
Proof.
  revert st acc s. induction n as [|n IH]; intros st acc s C; [exact I|]. cbn [params_loop].
  apply f_bind; [apply f_one; exact C|]. intros [[p st'] stop] s1 C1. destruct stop; [exact C1|].
  assert (G : front l0 (POk (acc ++ [p]) s1)) by exact C1.
  tok_cases (peek_no_term (p_in s1)) G. apply f_get; [exact C1|]. intros t s2 C2. apply IH. exact C2.
Qed.
End Params.
Lemma peek_get s : peek (p_in s) <> TEof -> exists s', get s = POk (peek (p_in s)) s'.
Proof.
  unfold peek, get. destruct (skip_lt (p_in s)) as [|[t b] r]; [intros H; destruct H; reflexivity|]. cbn.
  intros H. destruct t; try (eexists; reflexivity). contradiction.
Qed.
Lemma formal_tail arg c k n s qs s' :
  (forall l s, fr l s -> front l (arg s)) -> c <> cNone ->
  formal_params arg c k n s = POk qs s' -> exists x t b, p_in s = x ++ (t, b) :: p_in s' /\ is_close c t = true.
Proof.
  intros Ha Hc. unfold formal_params. destruct (is_close c (peek (p_in s))) eqn:E.
  - destruct (get s) as [t s1| | | |] eqn:G; try discriminate. cbn [pbind]. intros H. injection H as <- <-.
    destruct (get_tail _ _ _ G) as (x & b & X). exists x, t, b. split; [exact X|].
    destruct (peek_get s) as [s2 G2]. { intros Q. rewrite Q in E. destruct c; discriminate. }
    rewrite G in G2. injection G2 as -> _. exact E.
  - pose proof (f_loop (p_in s) arg c k (Ha (p_in s)) n kReq [] s) as L.
    destruct (params_loop arg c k n kReq [] s) as [l s1| | | |]; try discriminate. cbn [pbind].
    cbn [front] in L. destruct L as [y Y]; [exists []; reflexivity|].
    unfold expect_close. intros H. assert (H' : (do u, s2 <- (do t, s2 <- get s1 ;; if is_close c t then POk tt s2 else PErr) ;; POk l s2) = POk qs s').
    { destruct c; [exact H| |]; try exact H. contradiction. }
    destruct (get s1) as [t s2| | | |] eqn:G; try discriminate. cbn [pbind] in H'. destruct (is_close c t) eqn:Ec; [|discriminate].
    cbn [pbind] in H'. injection H' as _ <-. destruct (get_tail _ _ _ G) as (x & b & X).
    exists (y ++ x), t, b. split; [|exact Ec]. rewrite Y, X, app_assoc. reflexivity.
Qed.
