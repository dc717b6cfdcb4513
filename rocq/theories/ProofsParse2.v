(** Lemmas about the parser: the cases of [writes], and the result. *)
From Coq Require Import ZArith List Bool Lia.
From Verif Require Import Base ModelParse SpecParse ProofsParse.
Import ListNotations.
Open Scope Z_scope.

(** * The cases *)
Section Cases.
Notation wr := (writes false).

Lemma closed15 v p e ts o v' : wr v p e ts o v' -> (15 <= p)%nat -> e_open o = false.
Proof.
  revert v p e ts o v'. apply (writes_m false (fun v p e ts o v' => (15 <= p)%nat -> e_open o = false)
    (fun _ _ _ _ => True) (fun _ _ _ _ => True) (fun _ _ _ _ => True) (fun _ _ _ _ _ => True)); intros; auto; try lia; try discriminate.
Qed.
Lemma lim_closed k o : e_open o = false -> lim k o = k.
Proof. unfold lim. intros ->. reflexivity. Qed.
Lemma minus_first_skip ts b r : skip_lt ts = (TP pMinus, b) :: r -> blank_lines (firstn 0 ts) -> minus_first ts = true \/ exists b', In (TP pSemi, b') ts.
Proof.
  intros H _. induction ts as [|[t b'] ts IH]; [discriminate|]. cbn in H. destruct (is_line_term t) eqn:L0.
  - destruct (IH H) as [I|[b2 I]]; [|right; exists b2; right; exact I].
    destruct t as [| | | | | | | | | | |rr|pp]; try discriminate; [left; exact I|].
    destruct pp; try discriminate. right. exists b'. left. reflexivity.
  - injection H as -> _ _. left. reflexivity.
Qed.
Lemma no_lparen rest k o : below (lim k o) (peek_no_term rest) -> (k <= 18)%nat -> trailing_lparen rest = false.
Proof.
  intros B K. pose proof (lim_le k o). destruct rest as [|[t b] rest]; [reflexivity|]. cbn in B |- *.
  destruct t as [| | | | | | | | | | |rr|pp]; try reflexivity. destruct pp; try reflexivity. cbn in B. lia.
Qed.
Lemma no_block_none A (a : A) rest lvs k o : below (lim k o) (peek_no_term rest) -> (k <= 18)%nat ->
  no_block a (mkpst rest lvs) = POk a (mkpst rest lvs).
Proof.
  intros B K. pose proof (lim_le k o). unfold no_block. cbn [p_in]. unfold below in B.
  destruct (peek_no_term rest) as [| | | | | | | | | | |rr|pp]; try reflexivity.
  - destruct rr; try reflexivity. cbn in B. lia.
  - destruct pp; try reflexivity. cbn in B. lia.
Qed.

Lemma call_enter fl l lvs nd s' r : peek l <> TRes rYield ->
  ev (PPrim false) fl (mkpst l lvs) (POk nd s') -> ev (PCallL nd) fl s' r -> ev PCall fl (mkpst l lvs) r.
Proof.
  intros N A B. apply ev_step. cbn [body]. unfold call_body. cbn [p_in].
  assert (G : E (fun n => do n0, s <- parse n (PPrim false) fl (mkpst l lvs);; parse n (PCallL n0) fl s) r)
    by (eapply E_bind; [exact A|exact B]).
  destruct (peek l) as [| | | | | | | | | | |rr|pp]; try exact G. destruct rr; try exact G. congruence.
Qed.
(** a primary expression *)
Lemma prim_T v e ts o v' : Starts 17 ts -> e_open o = false ->
  (forall fl rest, f_sa fl = false -> follow 17 18 o fl rest ->
     exists nd, tree nd = e /\ ev (PPrim false) fl (mkpst (ts ++ rest) v) (POk nd (mkpst rest v'))) ->
  T v 17 e ts o v'.
Proof.
  intros ST O H fl rest Hs F. destruct (H fl rest Hs F) as (nd & A & D).
  exists nd. split; [exact A|]. split; [exact I|]. intros r Hr.
  eapply call_enter; [|exact D|exact Hr].
  destruct (starts_app _ _ rest ST) as (t & b & r0 & S1 & S2). rewrite (peek_at _ _ _ _ S1). intros ->. discriminate.
Qed.
Ltac prim nd := apply prim_T; [apply starts_here; reflexivity|reflexivity|intros fl rest Hs F;
  exists nd; split; [reflexivity|apply ev_step; cbn [body]; unfold prim_body; cbn [app get p_in skip_lt is_line_term p_lv pbind]; apply E_const]].

Lemma C_num v k z b : T v 17 (XNum k false z) [(TNum k z, b)] closed v.
Proof. prim (NNum k false z). Qed.
Lemma C_negative v k z b : T v 17 (XNum k true z) [(TP pMinus, b); (TNum k z, false)] (mkends false true false) v.
Proof. prim (NNum k true z). Qed.
Lemma C_atom v a b : T v 17 (XAtom a) [(TAtom a, b)] closed v.
Proof. prim (NAtom a). Qed.
Lemma C_ivar v id b : T v 17 (XIvar id) [(TIvar id, b)] closed v.
Proof. prim (NIvar id). Qed.
Lemma C_gvar v id b : T v 17 (XGvar id) [(TGvar id, b)] closed v.
Proof. prim (NGvar id). Qed.
Lemma C_cvar v id b : T v 17 (XCvar id) [(TCvar id, b)] closed v.
Proof. prim (NCvar id). Qed.
Lemma local_in id lvs l : In id lvs -> is_local_var id (mkpst l lvs) = true.
Proof. intros H. unfold is_local_var. cbn [p_lv]. apply existsb_exists. exists id. split; [exact H|apply Z.eqb_refl]. Qed.
Lemma local_out id lvs l : ~ In id lvs -> is_local_var id (mkpst l lvs) = false.
Proof.
  intros H. unfold is_local_var. cbn [p_lv]. destruct (existsb (Z.eqb id) lvs) eqn:Q; [|reflexivity].
  apply existsb_exists in Q. destruct Q as (x & Q1 & Q2). apply Z.eqb_eq in Q2. subst. contradiction.
Qed.
Lemma C_var v id b : In id v -> T v 17 (XVar id) [(TIdent id, b)] closed v.
Proof.
  intros Hin. apply prim_T; [apply starts_here; reflexivity|reflexivity|]. intros fl rest Hs F.
  exists (NLvar id). split; [reflexivity|].
  apply ev_step. cbn [body]. unfold prim_body. cbn [app get p_in skip_lt is_line_term p_lv pbind].
  rewrite (no_lparen _ _ _ (fo_rank _ _ _ _ _ F)) by lia. rewrite local_in by exact Hin. apply E_const.
Qed.
Lemma C_name v id b : ~ In id v -> T v 17 (XSend (XAtom aSelf) id [] false) [(TIdent id, b)] named v.
Proof.
  intros Hin. apply prim_T; [apply starts_here; reflexivity|reflexivity|]. intros fl rest Hs F.
  exists (NIdent id). split; [reflexivity|].
  apply ev_step. cbn [body]. unfold prim_body. cbn [app get p_in skip_lt is_line_term p_lv pbind].
  rewrite (no_lparen _ _ _ (fo_rank _ _ _ _ _ F)) by lia. rewrite local_out by exact Hin.
  rewrite (fo_cmd _ _ _ _ _ F) by reflexivity. cbn [negb andb].
  pose proof (fo_below _ _ _ _ _ F) as B. unfold below in B.
  destruct (peek_no_term rest) as [| | | | | | | | | | |rr|pp]; try apply E_const.
  - destruct rr; try apply E_const. cbn in B. lia.
  - destruct pp; try apply E_const. cbn in B. lia.
Qed.
Lemma C_const v id b : T v 17 (XConst id) [(TConst id, b)] named v.
Proof.
  apply prim_T; [apply starts_here; reflexivity|reflexivity|]. intros fl rest Hs F.
  exists (NConst id). split; [reflexivity|].
  apply ev_step. cbn [body]. unfold prim_body. cbn [app get p_in skip_lt is_line_term p_lv pbind].
  rewrite (no_lparen _ _ _ (fo_rank _ _ _ _ _ F)) by lia. rewrite (fo_cmd _ _ _ _ _ F) by reflexivity. cbn [negb andb]. apply E_const.
Qed.

Lemma follow_tok p k o fl t b rest : below (lim k o) t -> is_line_term t = false -> is_dot t = false ->
  (e_name o = true -> is_command ((t, b) :: rest) = false) -> is_comma t = false -> follow p k o fl ((t, b) :: rest).
Proof.
  intros A L0 D C K. constructor; auto.
  - intros _. unfold peek. cbn. rewrite L0. exact D.
  - intros _. right. unfold peek. cbn. rewrite L0. exact K.
Qed.
Lemma below_none k t : rank t = None -> below k t.
Proof. unfold below. intros ->. exact I. Qed.
Lemma cmd_closer p b rest : is_command ((TP p, b) :: rest) = true -> two_faced p = true \/
  (b = true /\ In p [pLParen; pLBracket; pScope; pArrow]).
Proof. destruct b; cbn; [|discriminate]. destruct p; cbn; try discriminate; auto 8. Qed.

Lemma starts_end p l : Starts p l -> check_stmt_end (peek l) = false.
Proof.
  intros (t & b & r & S1 & S2). rewrite (peek_at _ _ _ _ S1). destruct t as [| | | | | | | | | | |rr|pp]; try reflexivity; try discriminate.
  - destruct rr; try reflexivity; discriminate.
  - destruct pp; try reflexivity; discriminate.
Qed.
Definition closer (t : tok) : Prop := check_stmt_end t = true /\ t <> TRes rRescue.
Definition Stms (v : list Z) (es : list exp) (ts : list item) (o : ends) (v' : list Z) : Prop :=
  forall fl rest acc, f_sa fl = false -> closer (peek_no_term rest) -> (e_name o = true -> is_command rest = false) ->
  exists nds, map tree nds = es /\
    evl (LStmts acc) fl (mkpst (ts ++ rest) v) (POk (acc ++ nds) (mkpst rest v')) /\
    evl (LStmts acc) fl (mkpst (drop_terms (ts ++ rest)) v) (POk (acc ++ nds) (mkpst rest v')).
Lemma stmt_end_line t : check_stmt_end t = true -> is_line_term t = false.
Proof. destruct t as [| | | | | | | | | | |rr|pp]; try discriminate; auto. destruct pp; try discriminate; auto. Qed.
Lemma closer_follow o fl rest : closer (peek_no_term rest) ->
  (e_name o = true -> is_command rest = false) -> follow 0 0 o fl rest.
Proof.
  intros [H NR] C. pose proof (peek_here _ (stmt_end_line _ H)) as P. constructor; auto; rewrite ?P; intros;
  destruct (peek_no_term rest) as [| | | | | | | | | | |rr|pp]; try discriminate; try reflexivity; auto;
  try (destruct rr; try discriminate; try reflexivity; auto; congruence);
  try (destruct pp; try discriminate; try reflexivity; auto).
Qed.
Lemma drop_line l : is_line_term (peek_no_term l) = false -> drop_terms l = l.
Proof. destruct l as [|[t b] l]; [reflexivity|]. cbn. destruct t; try reflexivity; try discriminate. destruct p; try reflexivity; discriminate. Qed.
Lemma drop_here t b l : is_line_term t = true -> drop_terms ((t, b) :: l) = drop_terms l.
Proof. destruct t; try discriminate; [reflexivity|]. destruct p; try discriminate; reflexivity. Qed.
Lemma drop_app nl x : Forall (fun i => fst i = TLT \/ fst i = TP pSemi) nl -> drop_terms (nl ++ x) = drop_terms x.
Proof. induction 1 as [|[t b] nl [H|H] _ IH]; [reflexivity|..]; cbn in H; subst; exact IH. Qed.
Lemma skip_terms nl x : Forall (fun i => fst i = TLT \/ fst i = TP pSemi) nl -> skip_lt (nl ++ x) = skip_lt x.
Proof. induction 1 as [|[t b] nl [H|H] _ IH]; [reflexivity|..]; cbn in H; subst; exact IH. Qed.
(** statements may start on a later line *)
Fixpoint lead (ts : list item) : bool :=
  match ts with (TLT, _) :: r => lead r | (t, _) :: _ => negb (is_line_term t) | [] => false end.
Lemma lead_app ts x : lead ts = true -> lead (ts ++ x) = true.
Proof. induction ts as [|[t b] ts IH]; [discriminate|]. cbn. destruct t; auto. Qed.
Lemma starts_line p b l : Starts p ((TLT, b) :: l) -> Starts p l.
Proof. intros H. exact H. Qed.
Lemma stmts_drop fl acc l v r : lead l = true -> Starts 0 l ->
  evl (LStmts acc) fl (mkpst l v) r -> evl (LStmts acc) fl (mkpst (drop_terms l) v) r.
Proof.
  induction l as [|[t b] l IH]; intros HL ST H; [discriminate|]. cbn [lead] in HL.
  destruct (is_line_term t) eqn:Q.
  - assert (t = TLT) as -> by (destruct t as [| | | | | | | | | | |rr|pp]; try discriminate; try reflexivity; destruct pp; discriminate).
    rewrite drop_here by reflexivity. apply IH; [exact HL|exact ST|].
    destruct H as [n0 H]. exists (S n0). intros n Hn. destruct n as [|n]; [lia|]. rewrite <- (H (S n)) by lia.
    cbn [parsel bodyl]. unfold stmts_body. cbn [p_in].
    change (peek ((TLT, b) :: l)) with (peek l). rewrite (starts_end 0 l) by exact ST. rewrite line_first by reflexivity. reflexivity.
  - rewrite drop_line; [exact H|exact Q].
Qed.
Lemma stms_none v : Stms v [] [] closed v.
Proof.
  intros fl rest acc Hs [H _] C. exists []. split; [reflexivity|]. rewrite app_nil_r. cbn [app].
  rewrite (drop_line rest) by (apply stmt_end_line; exact H).
  assert (G : evl (LStmts acc) fl (mkpst rest v) (POk acc (mkpst rest v))).
  { apply evl_step. cbn [bodyl]. unfold stmts_body. cbn [p_in]. rewrite (peek_here _ (stmt_end_line _ H)), H. apply E_const. }
  split; exact G.
Qed.
Lemma stms_last v e ts o v' : lead ts = true -> Starts 0 ts -> T v 0 e ts o v' -> Stms v [e] ts o v'.
Proof.
  intros HL ST HT fl rest acc Hs [H NR] C. apply T_R in HT.
  destruct (HT fl rest Hs (closer_follow o fl rest (conj H NR) C)) as (nd & A & _ & D).
  exists [nd]. split; [cbn; rewrite A; reflexivity|].
  assert (G : evl (LStmts acc) fl (mkpst (ts ++ rest) v) (POk (acc ++ [nd]) (mkpst rest v'))).
  { apply evl_step. cbn [bodyl]. unfold stmts_body. cbn [p_in]. rewrite (starts_end 0) by (apply starts_app; exact ST).
    eapply E_bind; [exact D|]. cbn beta. cbn [p_in p_lv]. destruct (is_term (peek_no_term rest)); [|apply E_const].
    rewrite (drop_line rest) by (apply stmt_end_line; exact H).
    apply evl_step. cbn [bodyl]. unfold stmts_body. cbn [p_in]. rewrite (peek_here _ (stmt_end_line _ H)), H. apply E_const. }
  split; [exact G|]. apply stmts_drop; [apply lead_app; exact HL|apply starts_app; exact ST|exact G].
Qed.
Lemma stms_next v e ts o v1 nl es tss o' v' : lead ts = true -> Starts 0 ts -> T v 0 e ts o v1 -> terms nl ->
  (es <> [] -> Starts 0 tss) -> (es = [] -> tss = []) -> Stms v1 es tss o' v' ->
  Stms v (e :: es) (ts ++ nl ++ tss) o' v'.
Proof.
  intros HL ST HT [N1 N2] ST2 Z2 HE fl rest acc Hs [H NR] C. apply T_R in HT.
  assert (T1 : is_line_term (peek_no_term (nl ++ tss ++ rest)) = true).
  { destruct nl as [|[t b] nl]; [congruence|]. inversion N2 as [|? ? [Q|Q] _]; cbn in Q; subst; reflexivity. }
  assert (PK : exists t, peek (nl ++ tss ++ rest) = t /\ is_dot t = false /\ is_comma t = false).
  { unfold peek at 1. rewrite skip_terms by exact N2. destruct es as [|e' es].
    - rewrite (Z2 eq_refl). cbn [app]. change (peek_no_term (skip_lt rest)) with (peek rest).
      rewrite (peek_here _ (stmt_end_line _ H)). exists (peek_no_term rest). split; [reflexivity|].
      destruct (peek_no_term rest) as [| | | | | | | | | | |rr|pp]; try discriminate; auto. destruct pp; try discriminate; auto.
    - destruct (starts_app _ _ rest (ST2 ltac:(discriminate))) as (t & b & r & S1 & S2). rewrite S1. exists t. split; [reflexivity|].
      destruct t as [| | | | | | | | | | |rr|pp]; try discriminate; auto. destruct pp; try discriminate; auto. }
  destruct PK as (t & PK & P1 & P2).
  destruct (HT fl (nl ++ tss ++ rest) Hs) as (nd & A & _ & D).
  { assert (TT : peek_no_term (nl ++ tss ++ rest) = TLT \/ peek_no_term (nl ++ tss ++ rest) = TP pSemi).
    { destruct nl as [|[t0 b] nl]; [congruence|]. inversion N2 as [|? ? Q _]. exact Q. }
    constructor.
    - destruct TT as [-> | ->]; apply below_none; reflexivity.
    - intros _. rewrite PK. exact P1.
    - intros _. destruct (nl ++ tss ++ rest) as [|[t0 b] l]; [reflexivity|]. cbn in TT. destruct TT as [-> | ->]; destruct b; reflexivity.
    - intros _. right. rewrite PK. exact P2.
    - intros _. destruct TT as [-> | ->]; reflexivity. }
  destruct (HE fl rest (acc ++ [nd]) Hs (conj H NR) C) as (nds & A2 & _ & D2).
  exists (nd :: nds). split; [cbn; rewrite A, A2; reflexivity|].
  assert (G : evl (LStmts acc) fl (mkpst ((ts ++ nl ++ tss) ++ rest) v) (POk (acc ++ nd :: nds) (mkpst rest v'))).
  { rewrite <- !app_assoc. apply evl_step. cbn [bodyl]. unfold stmts_body. cbn [p_in].
    rewrite (starts_end 0) by (apply starts_app; exact ST).
    eapply E_bind; [exact D|]. cbn beta. cbn [p_in p_lv].
    replace (is_term (peek_no_term (nl ++ tss ++ rest))) with true
      by (destruct (peek_no_term (nl ++ tss ++ rest)) as [| | | | | | | | | | |rr|pp]; try discriminate; [reflexivity|destruct pp; try discriminate; reflexivity]).
    rewrite drop_app by exact N2. rewrite <- app_assoc in D2. exact D2. }
  split; [exact G|]. apply stmts_drop; [rewrite <- app_assoc; apply lead_app; exact HL|rewrite <- app_assoc; apply starts_app; exact ST|exact G].
Qed.
Lemma tree_comp nds : tree (NComp nds) = sequence (map tree nds).
Proof. destruct nds as [|n [|n' nds]]; reflexivity. Qed.
Lemma C_paren v es ts o v' b b' : Stms v es ts o v' ->
  T v 17 (sequence es) ((TP pLParen, b) :: ts ++ [(TP pRParen, b')]) closed v'.
Proof.
  intros HS. apply prim_T; [apply starts_here; reflexivity|reflexivity|].
  intros fl rest Hs F.
  destruct (HS fl ((TP pRParen, b') :: rest) [] Hs) as (nds & A & D & _).
  { split; [reflexivity|discriminate]. }
  { intros _; destruct b'; reflexivity. }
  exists (NComp nds). split; [rewrite tree_comp, A; reflexivity|].
  apply ev_step. cbn [body]. unfold prim_body. cbn [app get p_in skip_lt is_line_term p_lv pbind].
  rewrite <- app_assoc. cbn [app]. eapply E_bind.
  { unfold comp_stmt. eapply E_bind; [exact D|apply E_const]. }
  cbn beta. eapply E_bind; [apply E_const|]. cbn beta. apply E_const.
Qed.

Definition Elts (v : list Z) (es : list exp) (ts : list item) (v' : list Z) : Prop :=
  forall fl rest acc b, f_sa fl = false -> f_sm fl = true ->
  exists nds, map tree nds = es /\
    evl (LRhs true acc) fl (mkpst (ts ++ (TP pRBracket, b) :: rest) v) (POk (acc ++ nds) (mkpst rest v')).
Definition Args (v : list Z) (es : list exp) (ts : list item) (v' : list Z) : Prop :=
  forall fl rest acc b, f_sa fl = false ->
  exists nds, map tree nds = es /\
    evl (LArgs true acc) fl (mkpst (ts ++ (TP pRParen, b) :: rest) v) (POk (acc ++ nds) (mkpst rest v')).

Lemma elts_none v : Elts v [] [] v.
Proof.
  intros fl rest acc b Hs Hm. exists []. split; [reflexivity|].
  apply evl_step. cbn. rewrite app_nil_r. apply E_const.
Qed.
Lemma args_none v : Args v [] [] v.
Proof.
  intros fl rest acc b Hs. exists []. split; [reflexivity|].
  apply evl_step. cbn. rewrite app_nil_r. apply E_const.
Qed.
(** the first operand of a list *)
Lemma rhs_first (bracket : bool) acc fl l lvs nd s' r : Starts 2 l -> ev PArg fl (mkpst l lvs) (POk nd s') ->
  E (fun n => match peek (p_in s') with
     | TP pComma => do t, s <- get s' ;; parsel n (LRhs bracket (acc ++ [nd])) fl s
     | _ => if bracket then do t, s <- expect_rbracket s' ;; POk (acc ++ [nd]) s else POk (acc ++ [nd]) s'
     end) r ->
  evl (LRhs bracket acc) fl (mkpst l lvs) r.
Proof.
  intros (t & b & r0 & S1 & S2) D G. apply evl_step. cbn [bodyl]. unfold rhs_body. cbn [p_in].
  rewrite (peek_at _ _ _ _ S1).
  replace (bracket && is_rbracket t) with false.
  2:{ destruct t as [| | | | | | | | | | |rr|pp]; try (rewrite andb_false_r; reflexivity). destruct pp; try (rewrite andb_false_r; reflexivity). discriminate. }
  eapply E_bind; [|exact G].
  destruct t as [| | | | | | | | | | |rr|pp]; try exact D. destruct pp; try exact D. discriminate.
Qed.
Lemma args_first acc fl l lvs nd rest' lvs' r : Starts 2 l -> ev PArg fl (mkpst l lvs) (POk nd (mkpst rest' lvs')) ->
  is_colon (peek_no_term rest') = false ->
  E (fun n => match peek rest' with
         | TP pFatArrow => PStuck
         | TP pComma => do t, s <- get (mkpst rest' lvs') ;; parsel n (LArgs true (acc ++ [nd])) fl s
         | TP pRParen => do t, s <- get (mkpst rest' lvs') ;; POk (acc ++ [nd]) s
         | _ => POk (acc ++ [nd]) (mkpst rest' lvs')
         end) r ->
  evl (LArgs true acc) fl (mkpst l lvs) r.
Proof.
  intros (t & b & r0 & S1 & S2) D Q G. apply evl_step. cbn [bodyl]. unfold args_body. cbn [p_in].
  rewrite (peek_at _ _ _ _ S1).
  replace (true && is_rparen t) with false.
  2:{ destruct t as [| | | | | | | | | | |rr|pp]; try reflexivity. destruct pp; try reflexivity. discriminate. }
  replace (starts_special_arg t) with false.
  2:{ destruct t as [| | | | | | | | | | |rr|pp]; try reflexivity. destruct pp; try reflexivity; discriminate. }
  eapply E_bind; [exact D|]. cbn beta. cbn [p_in]. rewrite Q, andb_false_r. exact G.
Qed.
Lemma follow_close o fl p b rest : In p [pRBracket; pRParen] -> follow 2 2 o fl ((TP p, b) :: rest).
Proof.
  intros H. cbn in H. apply follow_tok.
  - apply below_none. destruct H as [<-|[<-|[]]]; reflexivity.
  - destruct H as [<-|[<-|[]]]; reflexivity.
  - destruct H as [<-|[<-|[]]]; reflexivity.
  - intros _. destruct H as [<-|[<-|[]]]; destruct b; reflexivity.
  - destruct H as [<-|[<-|[]]]; reflexivity.
Qed.
Lemma follow_comma o fl b rest : (e_open o = true -> f_sm fl = true) -> follow 2 2 o fl ((TP pComma, b) :: rest).
Proof.
  intros H. constructor; try reflexivity; auto; try lia.
  - intros _. destruct b; reflexivity.
Qed.
Lemma elts_last v e ts o v' : wr v 2 e ts o v' -> T v 2 e ts o v' -> Elts v [e] ts v'.
Proof.
  intros W HT fl rest acc b Hs Hm. apply T_R in HT.
  destruct (HT fl ((TP pRBracket, b) :: rest) Hs) as (nd & A & B & D).
  { apply follow_close. cbn. auto. }
  exists [nd]. split; [cbn; rewrite A; reflexivity|]. eapply rhs_first; [apply starts_app; eapply w_start; exact W|exact D|]. cbn. apply E_const.
Qed.
Lemma elts_next v e ts o v1 b es tss v' : wr v 2 e ts o v1 -> T v 2 e ts o v1 -> Elts v1 es tss v' ->
  Elts v (e :: es) (ts ++ (TP pComma, b) :: tss) v'.
Proof.
  intros W HT HE fl rest acc b' Hs Hm. apply T_R in HT.
  destruct (HT fl ((TP pComma, b) :: tss ++ (TP pRBracket, b') :: rest) Hs) as (nd & A & B & D).
  { apply follow_comma. auto. }
  destruct (HE fl rest (acc ++ [nd]) b' Hs Hm) as (nds & A2 & D2).
  exists (nd :: nds). split; [cbn; rewrite A, A2; reflexivity|]. 
  rewrite <- app_assoc. cbn [app].
  eapply rhs_first; [apply starts_app; eapply w_start; exact W|exact D|]. cbn. rewrite <- app_assoc in D2. exact D2.
Qed.
Lemma args_last v e ts o v' : wr v 2 e ts o v' -> T v 2 e ts o v' -> Args v [e] ts v'.
Proof.
  intros W HT fl rest acc b Hs. apply T_R in HT.
  destruct (HT fl ((TP pRParen, b) :: rest) Hs) as (nd & A & B & D).
  { apply follow_close. cbn. auto. }
  exists [nd]. split; [cbn; rewrite A; reflexivity|]. eapply args_first; [apply starts_app; eapply w_start; exact W|exact D|reflexivity|]. cbn. apply E_const.
Qed.
Lemma args_next v e ts o v1 b es tss v' : wr v 2 e ts o v1 -> T v 2 e ts o v1 -> e_open o = false -> Args v1 es tss v' ->
  Args v (e :: es) (ts ++ (TP pComma, b) :: tss) v'.
Proof.
  intros W HT O HE fl rest acc b' Hs. apply T_R in HT.
  destruct (HT fl ((TP pComma, b) :: tss ++ (TP pRParen, b') :: rest) Hs) as (nd & A & B & D).
  { apply follow_comma. congruence. }
  destruct (HE fl rest (acc ++ [nd]) b' Hs) as (nds & A2 & D2).
  exists (nd :: nds). split; [cbn; rewrite A, A2; reflexivity|]. 
  rewrite <- app_assoc. cbn [app].
  eapply args_first; [apply starts_app; eapply w_start; exact W|exact D|reflexivity|]. cbn. rewrite <- app_assoc in D2. exact D2.
Qed.

Lemma C_array v es ts v' b b' : Elts v es ts v' -> T v 17 (XArr es) ((TP pLBracket, b) :: ts ++ [(TP pRBracket, b')]) closed v'.
Proof.
  intros HE. apply prim_T; [apply starts_here; reflexivity|reflexivity|]. intros fl rest Hs F.
  destruct (HE (mkflags (f_sa fl) true) rest [] b' Hs eq_refl) as (nds & A & D).
  exists (NArray nds). split; [cbn; rewrite A; reflexivity|]. apply ev_step. cbn [body]. unfold prim_body. cbn [app get p_in skip_lt is_line_term p_lv pbind].
  rewrite <- app_assoc. cbn [app]. eapply E_bind; [exact D|]. apply E_const.
Qed.
Lemma C_index v e te o v1 es ts v' b b' : wr v 17 e te o v1 -> T v 17 e te o v1 -> (e_name o = true -> b = false) ->
  Elts v1 es ts v' -> T v 17 (XIndex e es) (te ++ (TP pLBracket, b) :: ts ++ [(TP pRBracket, b')]) closed v'.
Proof.
  intros W HT Hb HE fl rest Hs F.
  destruct (HT fl ((TP pLBracket, b) :: ts ++ (TP pRBracket, b') :: rest) Hs) as (nd & A & B & D).
  { apply follow_tok; try reflexivity.
    - rewrite lim_closed by (eapply closed15; [exact W|lia]). cbn. lia.
    - intros Q. rewrite (Hb Q). reflexivity. }
  destruct (HE (mkflags (f_sa fl) true) rest [] b' Hs eq_refl) as (nds & A2 & D2).
  exists (NIndex nd nds). split; [cbn; rewrite A, A2; reflexivity|]. split; [exact I|].
  intros r Hr. rewrite <- app_assoc. cbn [app]. rewrite <- app_assoc. cbn [app].
  apply D. unfold after. cbn [loop_of]. apply ev_step. cbn [body]. unfold call_loop. cbn [p_in peek skip_lt is_line_term peek_no_term].
  cbn [get p_in skip_lt is_line_term pbind p_lv]. eapply E_bind; [exact D2|]. exact Hr.
Qed.
Lemma C_function v f es ts v' b b' : Args v es ts v' ->
  T v 17 (XSend (XAtom aSelf) f es false) ((TIdent f, b) :: (TP pLParen, false) :: ts ++ [(TP pRParen, b')]) closed v'.
Proof.
  intros HA. apply prim_T; [apply starts_here; reflexivity|reflexivity|]. intros fl rest Hs F.
  destruct (HA fl rest [] b' Hs) as (nds & A & D).
  exists (NSend (NAtom aSelf) f nds false). split; [cbn; rewrite A; reflexivity|].
  apply ev_step. cbn [body]. unfold prim_body. cbn [app get p_in skip_lt is_line_term p_lv pbind trailing_lparen].
  rewrite <- app_assoc. cbn [app]. eapply E_bind.
  { unfold args_block. eapply E_bind; [exact D|]. cbn beta. cbn [app].
    rewrite (no_block_none _ _ _ _ _ _ (fo_rank _ _ _ _ _ F)) by lia. apply E_const. }
  cbn beta. apply E_const.
Qed.
Lemma dot_cmd nl b l : blank_lines nl -> is_command (nl ++ (TP pDot, b) :: l) = false.
Proof. intros [|[t b'] nl' H]; [destruct b; reflexivity|]. cbn in H. subst. cbn. destruct b'; reflexivity. Qed.
Lemma C_dot v e te o v' nl b l fl : wr v 17 e te o v' -> T v 17 e te o v' -> blank_lines nl -> f_sa fl = false ->
  exists nd, tree nd = e /\
    forall r, E (fun n => do m, s <- primary_method (parsel n) nd false fl (mkpst l v') ;; parse n (PCallL m) fl s) r ->
      ev PCall fl (mkpst (te ++ nl ++ (TP pDot, b) :: l) v) r.
Proof.
  intros W HT Hn Hs.
  destruct (HT fl (nl ++ (TP pDot, b) :: l) Hs) as (nd & A & _ & D).
  { assert (O : e_open o = false) by (eapply closed15; [exact W|lia]). constructor.
    - destruct Hn as [|[t b'] nl' Q]; [apply below_none; reflexivity|]. cbn in Q. subst. apply below_none. reflexivity.
    - cbn. lia.
    - intros _. apply dot_cmd. exact Hn.
    - congruence.
    - lia. }
  exists nd. split; [exact A|]. intros r Hr. apply D.
  assert (S1 : skip_lt (nl ++ (TP pDot, b) :: l) = (TP pDot, b) :: l) by (rewrite blank_skip by exact Hn; reflexivity).
  unfold after. cbn [loop_of]. apply ev_step. cbn [body]. unfold call_loop. cbn [p_in].
  rewrite (peek_at _ _ _ _ S1). rewrite (get_at _ _ _ _ _ S1) by discriminate. cbn [pbind]. exact Hr.
Qed.
(** a bare name becomes a call when a method is called on it *)
Definition recv_of (nd : node) : node := match nd with NIdent g => NSend (NAtom aSelf) g [] false | n => n end.
Lemma recv_tree nd : tree (recv_of nd) = tree nd.
Proof. destruct nd; reflexivity. Qed.
Lemma C_attr v e te o v' nl m b b' : wr v 17 e te o v' -> T v 17 e te o v' -> blank_lines nl ->
  TQ not_ident v 17 (XSend e m [] false) (te ++ nl ++ [(TP pDot, b); (TIdent m, b')]) named v'.
Proof.
  intros W HT Hn fl rest Hs F.
  destruct (C_dot v e te o v' nl b ((TIdent m, b') :: rest) fl W HT Hn Hs) as (nd & A & D).
  exists (NSend (recv_of nd) m [] false). split; [cbn; rewrite recv_tree, A; reflexivity|]. split; [intros ?; discriminate|].
  intros r Hr. rewrite <- !app_assoc. cbn [app]. apply D.
  unfold primary_method. cbn [p_in peek_no_term skip_newlines p_lv].
  pose proof (no_lparen _ _ _ (fo_rank _ _ _ _ _ F) (Nat.le_refl _)) as NL.
  pose proof (fo_below _ _ _ _ _ F) as BL.
  eapply E_bind; [|exact Hr]. rewrite (fo_cmd _ _ _ _ _ F) by reflexivity. fold (recv_of nd).
  rewrite (no_block_none _ _ _ _ _ _ (fo_rank _ _ _ _ _ F)) by (cbn; lia).
  unfold below in BL. destruct (peek_no_term rest) as [| | | | | | | | | | |rr|pp]; try apply E_const.
  destruct pp; try apply E_const. cbn in BL. lia.
Qed.
Lemma C_call v e te o v1 nl m es ts v' b b' b'' : wr v 17 e te o v1 -> T v 17 e te o v1 -> blank_lines nl -> Args v1 es ts v' ->
  T v 17 (XSend e m es false) (te ++ nl ++ (TP pDot, b) :: (TIdent m, b') :: (TP pLParen, false) :: ts ++ [(TP pRParen, b'')]) closed v'.
Proof.
  intros W HT Hn HA fl rest Hs F.
  destruct (C_dot v e te o v1 nl b ((TIdent m, b') :: (TP pLParen, false) :: ts ++ (TP pRParen, b'') :: rest) fl W HT Hn Hs)
    as (nd & A & D).
  destruct (HA fl rest [] b'' Hs) as (nds & A2 & D2).
  exists (NSend (recv_of nd) m nds false). split; [cbn; rewrite recv_tree, A, A2; reflexivity|]. split; [exact I|].
  intros r Hr. rewrite <- !app_assoc. cbn [app]. rewrite <- app_assoc. cbn [app]. apply D.
  unfold primary_method. cbn [p_in peek_no_term skip_newlines p_lv get skip_lt is_line_term pbind].
  eapply E_bind; [|exact Hr]. eapply E_bind.
  { unfold args_block. eapply E_bind; [exact D2|]. cbn beta. cbn [app].
    rewrite (no_block_none _ _ _ _ _ _ (fo_rank _ _ _ _ _ F)) by (cbn; lia). apply E_const. }
  cbn beta. apply E_const.
Qed.
Lemma C_defined_paren v e ts o v' b b' b'' : T v 1 e ts o v' ->
  T v 17 (XDef e) ((TRes rDefined, b) :: (TP pLParen, b') :: ts ++ [(TP pRParen, b'')]) closed v'.
Proof.
  intros HT. apply T_R in HT. apply prim_T; [apply starts_here; reflexivity|reflexivity|].
  intros fl rest Hs F.
  destruct (HT fl ((TP pRParen, b'') :: rest) Hs) as (nd & A & B & D).
  { apply follow_tok; [apply below_none; reflexivity|reflexivity|reflexivity|intros _; destruct b''; reflexivity|reflexivity]. }
  exists (NDefined nd). split; [cbn; rewrite A; reflexivity|]. apply ev_step. cbn [body]. unfold prim_body. cbn [app get p_in skip_lt is_line_term p_lv pbind peek_no_term].
  rewrite <- app_assoc. cbn [app]. eapply E_bind; [exact D|]. cbn beta. eapply E_bind; [apply E_const|]. apply E_const.
Qed.

End Cases.
