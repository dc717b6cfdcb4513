(** Lemmas about the parser: operators, assignments and modifiers. *)
From Coq Require Import ZArith List Bool Lia.
From Verif Require Import Base ModelParse SpecParse ProofsParse ProofsParse2.
Import ListNotations.
Open Scope Z_scope.

Lemma all_lead :
  (forall v p e ts o v', writes false v p e ts o v' -> lead ts = true) /\
  (forall v l tl v', left_side false v l tl v' -> lead tl = true) /\
  (forall v es ts v', elements false v es ts v' -> True) /\ (forall v es ts v', arguments false v es ts v' -> True) /\
  (forall v es ts o v', statements false v es ts o v' -> True).
Proof.
  apply writes_mut; intros; try discriminate; try exact I; try reflexivity; try assumption; try (apply lead_app; assumption).
  destruct p; try discriminate; reflexivity.
Qed.
Lemma minus_first_of ts b r : lead ts = true -> skip_lt ts = (TP pMinus, b) :: r -> minus_first ts = true.
Proof.
  induction ts as [|[t b'] ts IH]; [discriminate|]. cbn. destruct t as [| | | | | | | | | | |rr|pp]; try discriminate; auto.
  destruct pp; try discriminate; reflexivity.
Qed.

Section Cases.
Notation wr := (writes false).

(** ** Operators *)
Lemma C_line v p e ts o v' b : T v p e ts o v' -> T v p e ((TLT, b) :: ts) o v'.
Proof.
  intros HT fl rest Hs F. destruct (HT fl rest Hs F) as (nd & A & B & D).
  exists nd. split; [exact A|]. split; [exact B|]. intros r Hr.
  cbn [app]. apply ev_line; [apply entry_nt|]. apply D. exact Hr.
Qed.
Lemma C_prefix v p u e ts o v' b : prefix_op p = Some u -> T v 16 e ts o v' -> T v 16 (XUn u e) ((TP p, b) :: ts) o v'.
Proof.
  intros Hp HT fl rest Hs F. destruct (HT fl rest Hs F) as (nd & A & B & D).
  exists (NUn u nd). split; [cbn; rewrite A; reflexivity|]. split; [exact I|]. intros r Hr. unfold after in Hr. cbn [loop_of] in Hr. subst r. cbn [nt_of] in *. specialize (D _ eq_refl).
  apply ev_step. cbn [body]. unfold unary_body. cbn [p_in app].
  destruct p; try discriminate; injection Hp as <-; cbn [peek peek_no_term skip_lt is_line_term get p_in pbind p_lv];
  (eapply E_bind; [exact D|]; apply E_const).
Qed.
Lemma C_power v l tl ol v1 r tr o v' b : wr v 16 l tl ol v1 -> T v 16 l tl ol v1 -> T v1 15 r tr o v' ->
  T v 15 (XBin Exp l r) (tl ++ (TP pDMul, b) :: tr) o v'.
Proof.
  intros W HL HR fl rest Hs F. apply T_R in HL. apply T_R in HR.
  destruct (HL fl ((TP pDMul, b) :: tr ++ rest) Hs) as (nl & A1 & B1 & D1).
  { apply follow_tok; [|reflexivity|reflexivity|intros _; destruct b; reflexivity|reflexivity].
    rewrite lim_closed by (eapply closed15; [exact W|lia]). cbn. lia. }
  destruct (HR fl rest Hs F) as (nr & A2 & B2 & D2).
  exists (NBin Exp nl nr). split; [cbn; rewrite A1, A2; reflexivity|]. split; [exact I|].
  intros r0 Hr. unfold after in Hr. cbn [loop_of] in Hr. subst r0. cbn [nt_of] in *.
  rewrite <- app_assoc. cbn [app]. apply ev_step. cbn [body]. unfold exp_body. eapply E_bind; [exact D1|]. cbn beta.
  cbn [p_in peek_no_term get skip_lt is_line_term pbind p_lv]. eapply E_bind; [exact D2|]. apply E_const.
Qed.
Lemma num_first_app ts rest p : Starts p ts -> num_first ts = false ->
  match peek_no_term (ts ++ rest) with TNum _ _ => true | _ => false end = false.
Proof. intros (t & b & r & H & _) N. destruct ts as [|[t' b'] ts]; [discriminate|]. cbn in *. destruct t'; auto. Qed.
Lemma C_minus v e ts o v' b : wr v 14 e ts o v' -> T v 14 e ts o v' -> num_first ts = false ->
  T v 14 (XUn Neg e) ((TP pMinus, b) :: ts) o v'.
Proof.
  intros W HT N fl rest Hs F. destruct (HT fl rest Hs F) as (nd & A & B & D).
  exists (NUn Neg nd). split; [cbn; rewrite A; reflexivity|]. split; [exact I|]. intros r Hr. unfold after in Hr. cbn [loop_of] in Hr. subst r. cbn [nt_of] in *. specialize (D _ eq_refl).
  pose proof (num_first_app _ rest _ (w_start _ _ _ _ _ _ W) N) as Q.
  apply ev_step. cbn [body]. unfold uminus_body. cbn [p_in app peek skip_lt is_line_term peek_no_term get pbind p_lv].
  assert (G : E (fun n => do e0, s2 <- parse n PUMinus fl (mkpst (ts ++ rest) v);; acc_assign (parse n) (parsel n) (NUn Neg e0) fl s2)
                (POk (NUn Neg nd) (mkpst rest v'))).
  { eapply E_bind; [exact D|]. cbn beta. exists O. intros n _. apply acc_assign_none. cbn [p_in]. apply (fo_below _ _ _ _ _ F). }
  destruct (peek_no_term (ts ++ rest)); try exact G. discriminate.
Qed.
Lemma C_minus_power v k z r tr o v' b b' b'' : T v 15 r tr o v' ->
  T v 14 (XUn Neg (XBin Exp (XNum k false z) r)) ((TP pMinus, b) :: (TNum k z, b') :: (TP pDMul, b'') :: tr) o v'.
Proof.
  intros HT fl rest Hs F. apply T_R in HT.
  destruct (HT fl rest Hs) as (nd & A & B & D).
  { eapply follow_mono; [| | |exact F]; cbn; lia. }
  exists (NUn Neg (NBin Exp (NNum k false z) nd)). split; [cbn; rewrite A; reflexivity|]. split; [exact I|].
  intros r0 Hr. unfold after in Hr. cbn [loop_of] in Hr. subst r0. cbn [nt_of] in *.
  apply ev_step. cbn [body]. unfold uminus_body. cbn [p_in app peek skip_lt is_line_term peek_no_term get pbind p_lv].
  eapply E_bind. { apply ev_step. cbn [body]. unfold prim_body. cbn. apply E_const. }
  cbn beta. cbn [p_in peek_no_term]. eapply E_bind.
  { apply ev_step. cbn [body]. unfold exp_body. eapply E_bind.
    - apply ev_step. cbn [body]. unfold unary_body. cbn [p_in peek skip_lt is_line_term peek_no_term].
      eapply call_enter; [discriminate| |].
      + apply ev_step. cbn [body]. unfold prim_body. cbn. apply E_const.
      + apply ev_step. cbn [body]. unfold call_loop. cbn. apply E_const.
    - cbn beta. cbn [p_in peek_no_term get skip_lt is_line_term pbind p_lv]. eapply E_bind; [exact D|]. apply E_const. }
  cbn beta. exists O. intros n _. apply acc_assign_none. cbn [p_in]. apply (fo_below _ _ _ _ _ F).
Qed.
Lemma gap_cmd o op b tr rest p : gap o op b tr -> Starts p tr -> ~ In op [pLParen; pLBracket; pScope; pArrow] ->
  e_name o = true -> is_command ((TP op, b) :: tr ++ rest) = false.
Proof.
  intros G (t & b' & r & H & _) N E0. destruct b; [|destruct op; reflexivity].
  destruct (two_faced op) eqn:Q.
  - specialize (G E0 Q eq_refl). destruct tr as [|[t1 b1] tr]; [discriminate|]. cbn in G. subst b1.
    destruct op; try discriminate; reflexivity.
  - destruct op; try discriminate; try reflexivity; exfalso; apply N; cbn; auto 6.
Qed.
Lemma C_left v p op bo l tl ol v1 r tr o v' b : left_op op = Some (p, bo) ->
  T v p l tl ol v1 -> e_open ol = false -> gap ol op b tr -> wr v1 (S p) r tr o v' -> T v1 (S p) r tr o v' ->
  T v p (XBin bo l r) (tl ++ (TP op, b) :: tr) o v'.
Proof.
  intros Hop HL O G W HR fl rest Hs F. apply T_R in HR.
  destruct (left_op_lev _ _ _ Hop) as (lev & H1 & H2).
  destruct (lev_at_ok _ _ H1) as (N1 & N2 & N3 & N4 & N5).
  destruct (HL fl ((TP op, b) :: tr ++ rest) Hs) as (nl & A1 & B1 & D1).
  { apply follow_tok.
    - rewrite lim_closed by exact O. rewrite N4. destruct op; cbn in Hop; try discriminate; injection Hop as <- _; cbn; lia.
    - destruct op; try discriminate; reflexivity.
    - destruct op; try discriminate; reflexivity.
    - eapply gap_cmd; [exact G|eapply w_start; exact W|]. destruct op; try discriminate Hop; intros K; cbn in K;
      repeat (destruct K as [K|K]; [discriminate|]); exact K.
    - destruct op; try discriminate; reflexivity. }
  destruct (HR fl rest Hs) as (nr & A2 & B2 & D2).
  { eapply follow_mono; [| | |exact F]; lia. }
  exists (NBin bo nl nr). split; [cbn; rewrite A1, A2; reflexivity|]. split; [exact I|].
  intros r0 Hr. rewrite <- app_assoc. cbn [app]. apply D1.
  unfold after in *. rewrite N3 in *. rewrite N2 in D2.
  apply ev_step. cbn [body]. unfold bin_loop. cbn [p_in peek_no_term]. rewrite H2.
  replace (get _) with (POk (TP op) (mkpst (tr ++ rest) v1)) by (destruct op; try discriminate; reflexivity).
  cbn [pbind]. eapply E_bind; [exact D2|]. exact Hr.
Qed.
Ltac infix W k := apply follow_tok; [|reflexivity|reflexivity|intros _; match goal with b : bool |- _ => destruct b; reflexivity end|reflexivity];
  rewrite lim_closed by assumption; cbn; lia.
Lemma C_equal v op bo l tl ol v1 r tr o v' b : eq_op op = Some bo ->
  T v 8 l tl ol v1 -> e_open ol = false -> T v1 8 r tr o v' -> T v 7 (XBin bo l r) (tl ++ (TP op, b) :: tr) o v'.
Proof.
  intros Hop HL O HR fl rest Hs F. apply T_R in HL. apply T_R in HR.
  destruct (HL fl ((TP op, b) :: tr ++ rest) Hs) as (nl & A1 & B1 & D1).
  { apply follow_tok; [rewrite lim_closed by exact O|..]; destruct op; try discriminate; try reflexivity; try (cbn; lia).
    all: intros _; destruct b; reflexivity. }
  destruct (HR fl rest Hs) as (nr & A2 & B2 & D2).
  { eapply follow_mono; [| | |exact F]; cbn; lia. }
  exists (NBin bo nl nr). split; [cbn; rewrite A1, A2; reflexivity|]. split; [exact I|].
  intros r0 Hr. unfold after in Hr. cbn [loop_of] in Hr. subst r0. cbn [nt_of] in *.
  rewrite <- app_assoc. cbn [app]. apply ev_step. cbn [body]. unfold eq_body. eapply E_bind; [exact D1|]. cbn beta.
  destruct op; try discriminate; injection Hop as <-; cbn [p_in peek_no_term get skip_lt is_line_term pbind p_lv];
  (eapply E_bind; [exact D2|]; apply E_const).
Qed.
Lemma C_unmatch v l tl ol v1 r tr o v' b :
  T v 8 l tl ol v1 -> e_open ol = false -> T v1 8 r tr o v' -> T v 7 (XUn Not (XBin Match l r)) (tl ++ (TP pUnmatch, b) :: tr) o v'.
Proof.
  intros HL O HR fl rest Hs F. apply T_R in HL. apply T_R in HR.
  destruct (HL fl ((TP pUnmatch, b) :: tr ++ rest) Hs) as (nl & A1 & B1 & D1).
  { apply follow_tok; [rewrite lim_closed by exact O; cbn; lia|reflexivity|reflexivity|intros _; destruct b; reflexivity|reflexivity]. }
  destruct (HR fl rest Hs) as (nr & A2 & B2 & D2).
  { eapply follow_mono; [| | |exact F]; cbn; lia. }
  exists (NUn Not (NBin Match nl nr)). split; [cbn; rewrite A1, A2; reflexivity|]. split; [exact I|].
  intros r0 Hr. unfold after in Hr. cbn [loop_of] in Hr. subst r0. cbn [nt_of] in *.
  rewrite <- app_assoc. cbn [app]. apply ev_step. cbn [body]. unfold eq_body. eapply E_bind; [exact D1|]. cbn beta.
  cbn [p_in peek_no_term get skip_lt is_line_term pbind p_lv]. eapply E_bind; [exact D2|]; apply E_const.
Qed.
Lemma C_compare v l tl ol v1 r tr o v' b :
  T v 8 l tl ol v1 -> e_open ol = false -> T v1 9 r tr o v' -> T v 7 (XBin Cmp l r) (tl ++ (TP pCmp, b) :: tr) o v'.
Proof.
  intros HL O HR fl rest Hs F. apply T_R in HR.
  destruct (HL fl ((TP pCmp, b) :: tr ++ rest) Hs) as (nl & A1 & B1 & D1).
  { apply follow_tok; [rewrite lim_closed by exact O; cbn; lia|reflexivity|reflexivity|intros _; destruct b; reflexivity|reflexivity]. }
  destruct (HR fl rest Hs) as (nr & A2 & B2 & D2).
  { eapply follow_mono; [| | |exact F]; cbn; lia. }
  exists (NBin Cmp nl nr). split; [cbn; rewrite A1, A2; reflexivity|]. split; [exact I|].
  intros r0 Hr. unfold after in Hr. cbn [loop_of] in Hr. subst r0. cbn [nt_of] in *.
  rewrite <- app_assoc. cbn [app]. apply ev_step. cbn [body]. unfold eq_body. eapply E_bind.
  - apply D1. unfold after. cbn [loop_of]. apply ev_step. cbn [body]. unfold bin_loop.
    cbn [p_in peek_no_term operator get skip_lt is_line_term pbind p_lv]. eapply E_bind; [exact D2|]. cbn beta.
    eapply (loop_stops 8); [|reflexivity]. eapply follow_mono; [| | |exact F]; cbn; lia.
  - cbn beta. cbn [p_in]. pose proof (fo_below _ _ _ _ _ F) as B. nohead B.
Qed.
Lemma C_range v op x l tl ol v1 r tr o v' b : range_op op = Some x ->
  T v 5 l tl ol v1 -> e_open ol = false -> T v1 5 r tr o v' -> T v 4 (XRange x l r) (tl ++ (TP op, b) :: tr) o v'.
Proof.
  intros Hop HL O HR fl rest Hs F. apply T_R in HL. apply T_R in HR.
  destruct (HL fl ((TP op, b) :: tr ++ rest) Hs) as (nl & A1 & B1 & D1).
  { apply follow_tok; [rewrite lim_closed by exact O|..]; destruct op; try discriminate; try reflexivity; try (cbn; lia).
    all: intros _; destruct b; reflexivity. }
  destruct (HR fl rest Hs) as (nr & A2 & B2 & D2).
  { eapply follow_mono; [| | |exact F]; cbn; lia. }
  exists (NRange x nl nr). split; [cbn; rewrite A1, A2; reflexivity|]. split; [exact I|].
  intros r0 Hr. unfold after in Hr. cbn [loop_of] in Hr. subst r0. cbn [nt_of] in *.
  rewrite <- app_assoc. cbn [app]. apply ev_step. cbn [body]. unfold range_body. eapply E_bind; [exact D1|]. cbn beta.
  destruct op; try discriminate; injection Hop as <-; cbn [p_in peek peek_no_term get skip_lt is_line_term pbind p_lv];
  (eapply E_bind; [exact D2|]; apply E_const).
Qed.
Lemma below32 t : below 3 t -> below 2 t.
Proof.
  unfold below. destruct t as [| | | | | | | | | | |rr|pp]; cbn; auto.
  - destruct rr; cbn; auto; lia.
  - destruct pp; cbn; auto; lia.
Qed.
Lemma C_ternary v c tc oc v1 t tt ot v2 e te o v' b b' : T v 4 c tc oc v1 -> e_open oc = false ->
  T v1 2 t tt ot v2 -> gap ot pColon b' te -> wr v2 3 e te o v' -> T v2 3 e te o v' ->
  T v 3 (XIf c t e) (tc ++ (TP pQuestion, b) :: tt ++ (TP pColon, b') :: te) o v'.
Proof.
  intros HC O HT G W HE fl rest Hs F. apply T_R in HC. apply T_R in HT.
  apply T_up in HE; [|lia|exact W]. apply T_R in HE.
  destruct (HC fl ((TP pQuestion, b) :: tt ++ (TP pColon, b') :: te ++ rest) Hs) as (nc & A1 & B1 & D1).
  { apply follow_tok; [rewrite lim_closed by exact O; cbn; lia|reflexivity|reflexivity|intros _; destruct b; reflexivity|reflexivity]. }
  destruct (HT fl ((TP pColon, b') :: te ++ rest) Hs) as (nt & A2 & B2 & D2).
  { apply follow_tok; [apply below_none; reflexivity|reflexivity|reflexivity| |reflexivity].
    eapply gap_cmd; [exact G|eapply w_start; exact W|]. intros K; cbn in K; repeat (destruct K as [K|K]; [discriminate|]); exact K. }
  destruct (HE fl rest Hs) as (ne & A3 & B3 & D3).
  { destruct F as [f1 f2 f3 f4 f5]. constructor; [| |exact f3|exact f4|].
    - change (np 3) with 3%nat in f1. unfold lim in *. destruct (e_open o); [exact f1|apply below32; exact f1].
    - intros _. apply f2. apply Nat.ltb_lt. reflexivity.
    - intros Q. exfalso. clear - Q. lia. }
  exists (NIf nc nt ne). split; [cbn; rewrite A1, A2, A3; reflexivity|]. split; [exact I|].
    intros r0 Hr. unfold after in Hr. cbn [loop_of] in Hr. subst r0. cbn [nt_of] in *.
  rewrite <- app_assoc. cbn [app]. rewrite <- app_assoc. cbn [app].
  apply ev_step. cbn [body]. unfold ternary_body. eapply E_bind; [exact D1|]. cbn beta.
  cbn [p_in peek_no_term get skip_lt is_line_term pbind p_lv]. eapply E_bind; [exact D2|]. cbn beta.
  cbn [p_in peek_no_term get skip_lt is_line_term pbind p_lv]. eapply E_bind; [exact D3|]. apply E_const.
Qed.
Lemma C_defined v e ts o v' b : wr v 2 e ts o v' -> T v 2 e ts o v' -> paren_first ts = false ->
  T v 2 (XDef e) ((TRes rDefined, b) :: ts) o v'.
Proof.
  intros W HT N fl rest Hs F. destruct (HT fl rest Hs F) as (nd & A & B & D).
  exists (NDefined nd). split; [cbn; rewrite A; reflexivity|]. split; [exact I|]. intros r Hr. unfold after in Hr. cbn [loop_of] in Hr. subst r. cbn [nt_of] in *. specialize (D _ eq_refl).
  apply ev_step. cbn [body]. unfold arg_body. cbn [p_in app peek skip_lt is_line_term peek_no_term get pbind p_lv].
  assert (G : E (fun n => do n0, s1 <- parse n PArg fl (mkpst (ts ++ rest) v);; POk (NDefined n0) s1)
                (POk (NDefined nd) (mkpst rest v'))) by (eapply E_bind; [exact D|apply E_const]).
  destruct (w_start _ _ _ _ _ _ W) as (t & b0 & r & S1 & _). destruct ts as [|[t' b'] ts]; [discriminate|].
  cbn [app peek_no_term] in *. cbn in N. destruct t' as [| | | | | | | | | | |rr|pp]; try exact G.
  destruct pp; try exact G. discriminate.
Qed.
Lemma C_andor v (kw : reserved) (bo : bop) l tl ol v1 r tr o v' b :
  (kw = rAnd /\ bo = LAnd \/ kw = rOr /\ bo = LOr) -> T v 1 l tl ol v1 -> T v1 2 r tr o v' ->
  T v 1 (XBin bo l r) (tl ++ (TRes kw, b) :: tr) o v'.
Proof.
  intros Hk HL HR fl rest Hs F. apply T_R in HR.
  destruct (HL fl ((TRes kw, b) :: tr ++ rest) Hs) as (nl & A1 & B1 & D1).
  { apply follow_tok.
    - unfold lim. destruct Hk as [[-> ->]|[-> ->]]; destruct (e_open ol); cbn; lia.
    - reflexivity.
    - reflexivity.
    - intros _. destruct Hk as [[-> ->]|[-> ->]]; destruct b; reflexivity.
    - reflexivity. }
  destruct (HR fl rest Hs) as (nr & A2 & B2 & D2).
  { eapply follow_mono; [| | |exact F]; cbn; lia. }
  exists (NBin bo nl nr). split; [cbn; rewrite A1, A2; reflexivity|]. split; [exact I|].
  intros r0 Hr. rewrite <- app_assoc. cbn [app]. apply D1.
  unfold after in *. cbn [loop_of] in *. apply ev_step. cbn [body]. unfold expr_loop. cbn [p_in peek_no_term].
  assert (PN : ev PNot fl (mkpst (tr ++ rest) v1) (POk nr (mkpst rest v'))).
  { apply ev_step. cbn [body]. unfold not_body. eapply E_bind; [exact D2|]. cbn beta. cbn [p_in].
    pose proof (fo_comma1 _ _ _ _ _ F ltac:(lia)) as Q.
    destruct (peek_no_term rest) as [| | | | | | | | | | |rr|pp]; try apply E_const.
    destruct pp; try apply E_const. discriminate. }
  destruct Hk as [[-> ->]|[-> ->]]; cbn [get p_in skip_lt is_line_term pbind p_lv];
  (eapply E_bind; [exact PN|]; exact Hr).
Qed.
(** modifiers; [mk] makes the node *)
Lemma C_modifier (kw : reserved) (mk : node -> node -> node) (mx : exp -> exp -> exp) v s ts os v1 c tc o v' b :
  (forall x y, tree (mk x y) = mx (tree x) (tree y)) ->
  (forall n fl l lvs nd, stmt_loop (parse n) nd fl (mkpst ((TRes kw, b) :: l) lvs) =
     do cc, s0 <- parse n PExpr fl (mkpst l lvs) ;; parse n (PStmtL (mk cc nd)) fl s0) ->
  rank (TRes kw) = Some O -> (e_name os = true -> forall l, is_command ((TRes kw, b) :: l) = false) ->
  T v 0 s ts os v1 -> T v1 1 c tc o v' -> T v 0 (mx c s) (ts ++ (TRes kw, b) :: tc) o v'.
Proof.
  intros Hm Hl Hr Hc HS HC fl rest Hs F. apply T_R in HC.
  destruct (HS fl ((TRes kw, b) :: tc ++ rest) Hs) as (nl & A1 & B1 & D1).
  { apply follow_tok.
    - unfold below. rewrite Hr. unfold lim. destruct (e_open os); cbn; lia.
    - reflexivity.
    - reflexivity.
    - intros Q. apply Hc. exact Q.
    - reflexivity. }
  destruct (HC fl rest Hs) as (nr & A2 & B2 & D2).
  { eapply follow_mono; [| | |exact F]; cbn; lia. }
  exists (mk nr nl). split; [rewrite Hm, A1, A2; reflexivity|]. split; [exact I|].
  intros r0 H0. rewrite <- app_assoc. cbn [app]. apply D1.
  unfold after in *. cbn [loop_of nt_of] in *. apply ev_step. cbn [body].
  assert (G : E (fun n => do cc, s0 <- parse n PExpr fl (mkpst (tc ++ rest) v1) ;; parse n (PStmtL (mk cc nl)) fl s0) r0)
    by (eapply E_bind; [exact D2|exact H0]).
  destruct G as [n0 G]. exists n0. intros n Hn. rewrite Hl. apply G. exact Hn.
Qed.

(** ** Assignments *)
Definition LT (v : list Z) (l : exp) (tl : list item) (v' : list Z) : Prop :=
  forall fl rest, f_sa fl = false -> below 15 (peek_no_term rest) -> is_dot (peek rest) = false ->
  is_command rest = false -> is_comma (peek_no_term rest) = false ->
  exists nd, ltree nd = l /\
    (forall x u, incl v' u -> check_lhs nd (mkpst x u) = mkpst x (declared l u)) /\
    ev PExp fl (mkpst (tl ++ rest) v) (POk nd (mkpst rest v')).
Lemma existsb_In id v : existsb (Z.eqb id) v = true -> In id v.
Proof. intros Q. apply existsb_exists in Q. destruct Q as (x & Q1 & Q2). apply Z.eqb_eq in Q2. subst. exact Q1. Qed.
Lemma In_existsb id v : In id v -> existsb (Z.eqb id) v = true.
Proof. intros H. apply existsb_exists. exists id. split; [exact H|apply Z.eqb_refl]. Qed.
Lemma L_var_ok v id b : LT v (XVar id) [(TIdent id, b)] v.
Proof.
  intros fl rest Hs B D C K.
  assert (NL : trailing_lparen rest = false) by (eapply (no_lparen rest 15 closed); [exact B|lia]).
  assert (G : exists nd, ltree nd = XVar id /\
    (forall x u, incl v u -> check_lhs nd (mkpst x u) = mkpst x (declare id u)) /\
    ev (PPrim false) fl (mkpst ((TIdent id, b) :: rest) v) (POk nd (mkpst rest v))).
  { destruct (is_local_var id (mkpst rest v)) eqn:Q.
    - exists (NLvar id). split; [reflexivity|]. split.
      + intros x u U. unfold declare. rewrite In_existsb; [reflexivity|]. apply U. apply existsb_In. exact Q.
      + apply ev_step. cbn [body]. unfold prim_body.
        cbn [app get p_in skip_lt is_line_term p_lv pbind]. rewrite NL, Q. apply E_const.
    - exists (NIdent id). split; [reflexivity|]. split.
      + intros x u U. unfold check_lhs, declare, is_local_var. cbn [p_in p_lv]. destruct (existsb (Z.eqb id) u); reflexivity.
      + apply ev_step. cbn [body]. unfold prim_body.
        cbn [app get p_in skip_lt is_line_term p_lv pbind]. rewrite NL, Q, C. cbn [negb andb].
        unfold below in B. destruct (peek_no_term rest) as [| | | | | | | | | | |rr|pp]; try apply E_const.
        * destruct rr; try apply E_const. cbn in B. lia.
        * destruct pp; try apply E_const. cbn in B. lia. }
  destruct G as (nd & A & C0 & G). exists nd. split; [exact A|]. split; [exact C0|]. cbn [app].
  assert (F : follow 17 17 closed fl rest).
  { constructor; auto; try lia; try discriminate. cbn. eapply below_mono; [|exact B]. lia. }
  apply ev_step. cbn [body]. unfold exp_body. eapply E_bind.
  - apply ev_step. cbn [body]. unfold unary_body. cbn [p_in peek skip_lt is_line_term peek_no_term].
    eapply call_enter; [discriminate|exact G|]. eapply (loop_stops 17); [exact F|reflexivity].
  - cbn beta. cbn [p_in]. nohead B.
Qed.
Lemma ltree_other nd : not_ident nd -> ltree nd = tree nd.
Proof. intros H. destruct nd; try reflexivity. exfalso. eapply H. reflexivity. Qed.
Lemma check_other nd s : not_ident nd -> check_lhs nd s = s.
Proof. intros H. destruct nd; try reflexivity. exfalso. eapply H. reflexivity. Qed.
Lemma L_other_ok v l tl o v' : wr v 17 l tl o v' -> TQ not_ident v 17 l tl o v' -> (forall id, l <> XVar id) -> LT v l tl v'.
Proof.
  intros W HT NV fl rest Hs B D C K.
  assert (W16 : wr v 16 l tl o v') by (apply W_up; [lia|exact W]).
  apply T_up in HT; [|lia|exact W]. apply T_up in HT; [|lia|exact W16]. apply T_R in HT.
  destruct (HT fl rest Hs) as (nd & A1 & B1 & D1).
  { constructor; auto; try lia.
    - rewrite lim_closed by (eapply closed15; [exact W|lia]). exact B.
    - rewrite (closed15 _ _ _ _ _ _ W) by lia. discriminate. }
  exists nd. split; [rewrite ltree_other by exact B1; exact A1|]. split; [|exact D1].
  intros x u _. rewrite check_other by exact B1. destruct l; try reflexivity. exfalso. eapply NV. reflexivity.
Qed.
Lemma T_not_ident v p e ts o v' : (forall id, e <> XSend (XAtom aSelf) id [] false) -> T v p e ts o v' -> TQ not_ident v p e ts o v'.
Proof.
  intros N HT fl rest Hs F. destruct (HT fl rest Hs F) as (nd & A & _ & D). exists nd. split; [exact A|]. split; [|exact D].
  intros id ->. eapply N. symmetry. exact A.
Qed.
Lemma L_old_ok v l tl o v' : wr v 17 l tl o v' -> T v 17 l tl o v' -> assignable l o = true -> LT v l tl v'.
Proof.
  intros W HT Q. eapply L_other_ok; [exact W|apply T_not_ident; [|exact HT]|]; intros id ->; discriminate.
Qed.
Lemma L_attr_ok v e te o v' nl m b b' : wr v 17 e te o v' -> T v 17 e te o v' -> blank_lines nl ->
  LT v (XSend e m [] false) (te ++ nl ++ [(TP pDot, b); (TIdent m, b')]) v'.
Proof.
  intros W HT Hn. eapply L_other_ok; [eapply W_attr; eauto|eapply C_attr; eauto|intros id; discriminate].
Qed.
Lemma one_assign l r : (forall x, tree r <> XSplat x) -> new_mul_assign [l] [r] = NMulAssign [l] [r].
Proof. intros H. unfold new_mul_assign. cbn. destruct r; try reflexivity. exfalso. eapply H. reflexivity. Qed.
(** reading the left side of an assignment in parse_unary_minus *)
Lemma lhs_enter v l tl v' fl t b rest : left_side false v l tl v' -> LT v l tl v' -> f_sa fl = false ->
  (t = TP pAssign \/ exists bo, t = TP (pAssignOp bo)) ->
  exists nd, ltree nd = l /\
    (forall x u, incl v' u -> check_lhs nd (mkpst x u) = mkpst x (declared l u)) /\ forall r,
    (E (fun n => acc_assign (parse n) (parsel n) nd fl (mkpst ((t, b) :: rest) v')) r ->
     ev PUMinus fl (mkpst (tl ++ (t, b) :: rest) v) r).
Proof.
  intros HS HT Hs Ht.
  destruct (HT fl ((t, b) :: rest) Hs) as (nd & A & C & D).
  { destruct Ht as [->|[bo ->]]; cbn; lia. }
  { destruct Ht as [->|[bo ->]]; reflexivity. }
  { destruct Ht as [->|[bo ->]]; destruct b; reflexivity. }
  { destruct Ht as [->|[bo ->]]; reflexivity. }
  exists nd. split; [exact A|]. split; [exact C|]. intros r Hr.
  assert (G : E (fun n => do e0, s1 <- parse n PExp fl (mkpst (tl ++ (t, b) :: rest) v);; acc_assign (parse n) (parsel n) e0 fl s1) r)
    by (eapply E_bind; [exact D|exact Hr]).
  apply ev_step. cbn [body]. unfold uminus_body. cbn [p_in].
  destruct (starts_app _ _ ((t, b) :: rest) (l_start _ _ _ _ HS)) as (t1 & b1 & r1 & S1 & S2).
  rewrite (peek_at _ _ _ _ S1). destruct t1 as [| | | | | | | | | | |rr|pp]; try exact G. destruct pp; try exact G.
  exfalso.
  assert (MF : forall vv p e te o vv' x, wr vv p e te o vv' -> minus_first te = false -> skip_lt (te ++ x) = (TP pMinus, b1) :: r1 -> False).
  { intros vv p e te o vv' x W M Sx. destruct (w_start _ _ _ _ _ _ W) as (t2 & b2 & r2 & S3 & _).
    pose proof (skip_app _ _ _ _ x S3) as S4. rewrite Sx in S4. injection S4 as <- <- _.
    rewrite (minus_first_of _ _ _ (proj1 all_lead _ _ _ _ _ _ W) S3) in M. discriminate. }
  destruct HS as [v id b0|v l' tl' o v' W Q M|v e te o v' nl m b0 b0' W Hn M].
  - cbn in S1. discriminate.
  - eapply MF; eauto.
  - rewrite <- app_assoc in S1. eapply MF; eauto.
Qed.

Lemma follow_rhs o fl rest (sm : bool) : follow 14 14 (opened o) fl rest -> (f_sm fl = true -> sm = true) ->
  follow 2 2 o (mkflags (f_sa fl) sm) rest.
Proof.
  intros [f1 f2 f3 f4 f5] Hs. constructor; [| | | |lia].
  - change (lim 14 (opened o)) with 2%nat in f1. unfold lim. destruct (e_open o); exact f1.
  - intros _. apply f2. lia.
  - exact f3.
  - intros _. cbn [f_sm]. destruct (f4 eq_refl) as [Q|Q]; [left; apply Hs; exact Q|right; exact Q].
Qed.
Lemma rhs_ok v r tr o v' fl rest : wr v 2 r tr o v' -> T v 2 r tr o v' -> f_sa fl = false ->
  follow 14 14 (opened o) fl rest ->
  exists nd, tree nd = r /\
    E (fun n => rhs_if_allowed (parse n) (parsel n) fl (mkpst (tr ++ rest) v)) (POk [nd] (mkpst rest v')).
Proof.
  intros W HT Hs F. apply T_R in HT. unfold rhs_if_allowed. destruct (f_sm fl) eqn:M.
  - destruct fl as [sa sm]. cbn in M, Hs. subst sa sm.
    destruct (HT (mkflags false true) rest eq_refl (follow_rhs _ _ _ true F ltac:(auto))) as (nd & A & B & D).
    exists nd. split; [exact A|]. eapply E_bind; [exact D|]. apply E_const.
  - destruct (HT (mkflags (f_sa fl) true) rest Hs (follow_rhs _ _ _ true F ltac:(auto))) as (nd & A & B & D).
    exists nd. split; [exact A|].
    eapply rhs_first; [apply starts_app; eapply w_start; exact W|exact D|]. cbn [p_in].
    destruct (fo_comma _ _ _ _ _ F eq_refl) as [Q|Q]; [congruence|].
    destruct (peek rest) as [| | | | | | | | | | |rr|pp]; try apply E_const. destruct pp; try apply E_const. discriminate.
Qed.
Lemma tree_assign l r : tree (NMulAssign [l] [r]) = XAssign (ltree l) (tree r).
Proof. destruct l; reflexivity. Qed.
Lemma tree_op b l r : tree (NAssignOp b l r) = XOp b (ltree l) (tree r).
Proof. destruct l; reflexivity. Qed.
Lemma C_assign v l tl v1 r tr o v' b : left_side false v l tl v1 -> LT v l tl v1 ->
  wr (declared l v1) 2 r tr o v' -> T (declared l v1) 2 r tr o v' ->
  T v 14 (XAssign l r) (tl ++ (TP pAssign, b) :: tr) (opened o) v'.
Proof.
  intros HS HL W HT fl rest Hs F.
  destruct (lhs_enter v l tl v1 fl (TP pAssign) b (tr ++ rest) HS HL Hs ltac:(auto)) as (nl & A1 & C1 & D1).
  destruct (rhs_ok _ r tr o v' fl rest W HT Hs F) as (nr & A3 & D3).
  exists (NMulAssign [nl] [nr]). split; [rewrite tree_assign, A1, A3; reflexivity|]. split; [exact I|].
  intros r0 Hr. unfold after in Hr. cbn [loop_of] in Hr. subst r0. cbn [nt_of].
  rewrite <- app_assoc. cbn [app]. apply D1. unfold acc_assign. rewrite Hs.
  cbn [p_in peek_no_term get skip_lt is_line_term pbind p_lv]. rewrite C1 by apply incl_refl.
  eapply E_bind; [exact D3|]. cbn beta.
  rewrite one_assign by (rewrite A3; eapply no_splat; exact W). apply E_const.
Qed.
(** variables that are known stay known *)
Lemma declared_incl l v : incl v (declared l v).
Proof.
  destruct l; try apply incl_refl. unfold declared, declare. destruct (existsb _ v); [apply incl_refl|apply incl_appl, incl_refl].
Qed.
Lemma all_incl :
  (forall v p e ts o v', wr v p e ts o v' -> incl v v') /\ (forall v l tl v', left_side false v l tl v' -> incl v v') /\
  (forall v es ts v', elements false v es ts v' -> incl v v') /\ (forall v es ts v', arguments false v es ts v' -> incl v v') /\
  (forall v es ts o v', statements false v es ts o v' -> incl v v').
Proof.
  apply writes_mut; intros; try discriminate; try apply incl_refl; try assumption;
  repeat match goal with
  | H : incl ?a ?b |- incl ?a ?c => (exact H || (eapply incl_tran; [exact H|]; clear H))
  | H : incl (declared ?l ?a) _ |- incl ?a _ => eapply incl_tran; [apply (declared_incl l)|]
  end; try apply declared_incl.
Qed.
Lemma C_op_assign v bo l tl v1 r tr o v' b : left_side false v l tl v1 -> LT v l tl v1 -> wr v1 2 r tr o v' -> T v1 2 r tr o v' ->
  T v 14 (op_assign bo l r) (tl ++ (TP (pAssignOp bo), b) :: tr) (opened o) (declared l v').
Proof.
  intros HS HL W HT fl rest Hs F. apply T_R in HT.
  destruct (lhs_enter v l tl v1 fl (TP (pAssignOp bo)) b (tr ++ rest) HS HL Hs ltac:(eauto)) as (nl & A1 & C1 & D1).
  destruct fl as [sa sm].
  destruct (HT (mkflags sa sm) rest Hs (follow_rhs _ _ _ sm F ltac:(auto))) as (nr & A2 & B2 & D2).
  assert (G : exists nd, tree nd = op_assign bo l r /\
    E (fun n => acc_assign (parse n) (parsel n) nl (mkflags sa sm) (mkpst ((TP (pAssignOp bo), b) :: tr ++ rest) v1))
      (POk nd (mkpst rest (declared l v')))).
  { unfold acc_assign. rewrite Hs. cbn [p_in peek_no_term]. unfold assign_op.
    cbn [p_in peek_no_term get skip_lt is_line_term pbind p_lv].
    set (nl' := match nl with NIdent id => NLvar id | n => n end).
    assert (A' : tree nl' = l) by (subst nl'; destruct nl; exact A1).
    assert (A'' : ltree nl' = l) by (subst nl'; destruct nl; exact A1).
    assert (Q : forall x, tree nr <> XSplat x) by (rewrite A2; eapply no_splat; exact W).
    exists (match bo with LOr | LAnd => NBin bo nl' (NMulAssign [nl'] [nr]) | _ => NAssignOp bo nl nr end).
    split.
    - destruct bo; rewrite ?tree_op, ?A1, ?A2; try reflexivity;
        (change (tree (NBin ?b ?x ?y)) with (XBin b (tree x) (tree y)); rewrite tree_assign, A', A'', A2; reflexivity).
    - eapply E_bind; [exact D2|]. cbn beta. rewrite C1 by (apply (proj1 all_incl _ _ _ _ _ _ W)).
      fold nl'. rewrite one_assign by exact Q. destruct bo; apply E_const. }
  destruct G as (nd & G1 & G3). exists nd. split; [exact G1|]. split; [exact I|].
  intros r0 Hr. unfold after in Hr. cbn [loop_of] in Hr. subst r0. cbn [nt_of].
  rewrite <- app_assoc. cbn [app]. apply D1. exact G3.
Qed.

(** ** All of them *)
Lemma all_T :
  (forall v p e ts o v', wr v p e ts o v' -> T v p e ts o v') /\ (forall v l tl v', left_side false v l tl v' -> LT v l tl v') /\
  (forall v es ts v', elements false v es ts v' -> Elts v es ts v') /\
  (forall v es ts v', arguments false v es ts v' -> Args v es ts v') /\
  (forall v es ts o v', statements false v es ts o v' -> Stms v es ts o v').
Proof.
  apply writes_mut; intros; try discriminate.
  - eapply T_up; eauto.
  - apply C_line; auto.
  - apply C_num.
  - apply C_negative.
  - apply C_atom.
  - apply C_var; auto.
  - apply C_name; auto.
  - apply C_ivar.
  - apply C_gvar.
  - apply C_cvar.
  - apply C_const.
  - eapply C_paren; eauto.
  - eapply C_array; eauto.
  - eapply C_index; eauto.
  - eapply T_any, C_attr; eauto.
  - eapply C_call; eauto.
  - eapply C_function; eauto.
  - eapply C_defined_paren; eauto.
  - eapply C_prefix; eauto.
  - eapply C_power; eauto.
  - eapply C_minus; eauto.
  - eapply C_minus_power; eauto.
  - eapply C_left; eauto.
  - eapply C_equal; eauto.
  - eapply C_unmatch; eauto.
  - eapply C_compare; eauto.
  - eapply C_range; eauto.
  - eapply C_ternary; eauto.
  - eapply C_assign; eauto.
  - eapply C_op_assign; eauto.
  - eapply C_defined; eauto.
  - eapply C_andor; eauto.
  - eapply C_andor; eauto.
  - eapply (C_modifier rIf (fun c n => NIf c n (NComp [])) (fun c x => XIf c x (XSeq []))); eauto; try reflexivity.
    + intros _ l. destruct b; reflexivity.
  - eapply (C_modifier rUnless (fun c n => NIf c (NComp []) n) (fun c x => XIf c (XSeq []) x)); eauto; try reflexivity.
    + intros _ l. destruct b; reflexivity.
  - eapply (C_modifier rWhile (fun c n => NWhile c n true) (fun c x => XWhile c x true)); eauto; try reflexivity.
    + intros _ l. destruct b; reflexivity.
  - eapply (C_modifier rUntil (fun c n => NWhile c n false) (fun c x => XWhile c x false)); eauto; try reflexivity.
    + intros _ l. destruct b; reflexivity.
  - eapply (C_modifier rRescue (fun c n => NRescue n c) (fun c x => XRescue x c)); eauto; try reflexivity.
    + match goal with H : _ -> e_name _ = false |- _ => rewrite (H eq_refl) end. discriminate.
  - apply L_var_ok.
  - eapply L_old_ok; eauto.
  - eapply L_attr_ok; eauto.
  - apply elts_none.
  - eapply elts_last; eauto.
  - eapply elts_next; eauto.
  - apply args_none.
  - eapply args_last; eauto.
  - eapply args_next; eauto.
  - apply stms_none.
  - eapply stms_last; eauto; [eapply (proj1 all_lead)|eapply w_start]; eauto.
  - eapply stms_next; eauto; [eapply (proj1 all_lead)|eapply w_start|eapply s_start|]; eauto.
    intros ->. match goal with H : statements _ _ [] _ _ _ |- _ => inversion H; reflexivity end.
Qed.
End Cases.


(** * Programs *)
Lemma program_ok lv es ts o lv' b : statements false lv es ts o lv' -> (e_name o = true -> b = false) ->
  exists nds n0, map tree nds = es /\
    forall n, (n0 <= n)%nat -> parse_program n lv (ts ++ [(TEof, b)]) = POk nds (mkpst [(TEof, b)] lv').
Proof.
  intros W Hb. pose proof (proj2 (proj2 (proj2 (proj2 all_T))) _ _ _ _ _ W) as HS.
  destruct (HS (mkflags false false) [(TEof, b)] [] eq_refl) as (nds & A & D & _).
  { split; [reflexivity|discriminate]. }
  { intros Q. rewrite (Hb Q). reflexivity. }
  assert (G : E (fun n => parse_program n lv (ts ++ [(TEof, b)])) (POk nds (mkpst [(TEof, b)] lv'))).
  { unfold parse_program. eapply E_bind; [exact D|]. cbn. apply E_const. }
  destruct G as [n0 G]. exists nds, n0. auto.
Qed.
