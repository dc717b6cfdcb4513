(** Lemmas about formal parameters: what is written is read; reading ends. *)
From Coq Require Import ZArith List Bool Lia.
From Verif Require Import Base ModelParse SpecParse ModelParams SpecParams ProofsParse ProofsParse2 ProofsParse3 ProofsParse5 ProofsParams0 ProofsParams.
Import ListNotations.
Open Scope Z_scope.

Lemma ev_eq A (f g : nat -> pres A) (r : pres A) : (forall n, f n = g n) -> E g r -> E f r.
Proof. intros H [n0 G]. exists n0. intros n L. rewrite H. apply G. exact L. Qed.
(** what may follow a parameter *)
Definition may_follow (c : closing) (p : fparam) (o : ends) (fl : flags) (rest : list item) : Prop :=
  match p with
  | QReq _ | QPost _ => peek rest <> TP pAssign /\ peek_no_term rest <> TP pColon
  | QOpt _ _ | QKey _ (Some _) => follow 2 2 o fl rest
  | QRestNone => forall id, peek rest <> TIdent id
  | QKey _ None => (peek_no_term rest = TP pComma \/ peek_no_term rest = TLT \/ is_close c (peek_no_term rest) = true) /\ peek rest <> TP pAssign
  | _ => True
  end.
Lemma own_skip (outer own : list Z) : skipn (length outer) (outer ++ own) = own.
Proof. rewrite skipn_app, skipn_all, Nat.sub_diag. reflexivity. Qed.
Lemma new_ok outer own id l : ~ In id own ->
  new_param (length outer) id (mkpst l (outer ++ own)) = POk tt (mkpst l (outer ++ own ++ [id])).
Proof.
  intros H. unfold new_param. cbn [p_lv p_in]. rewrite own_skip.
  replace (existsb (Z.eqb id) own) with false.
  - rewrite <- app_assoc. reflexivity.
  - symmetry. apply not_true_iff_false. intros Q. apply existsb_exists in Q. destruct Q as (x & I & E0). apply Z.eqb_eq in E0. subst. auto.
Qed.
Lemma plain_head c id st k arg l lv : peek_no_term l <> TP pColon ->
  plain arg c k id st (mkpst l lv) =
  match st with
  | kReq => do u, s <- new_param k id (mkpst l lv) ;; POk (FReq id, kReq, false) s
  | kPost | kOpt | kRest => do u, s <- new_param k id (mkpst l lv) ;; POk (FPost id, kPost, false) s
  | _ => PErr
  end.
Proof.
  intros N. unfold plain. cbn [p_in]. destruct (peek_no_term l) as [| | | | | | | | | | |rr|pp]; try reflexivity.
  destruct pp; try reflexivity. congruence.
Qed.
Lemma ident_head c id st k arg b l lv : peek l <> TP pAssign ->
  ident_param arg c k st (mkpst ((TIdent id, b) :: l) lv) = plain arg c k id st (mkpst l lv).
Proof.
  intros N. unfold ident_param, expect_ident. cbn [get p_in skip_lt is_line_term pbind p_lv].
  destruct (peek l) as [| | | | | | | | | | |rr|pp]; try reflexivity. destruct pp; try reflexivity. congruence.
Qed.
Lemma key_none arg c l lv : (peek_no_term l = TP pComma \/ peek_no_term l = TLT \/ is_close c (peek_no_term l) = true) ->
  key_default arg c (mkpst l lv) = POk None (mkpst l lv).
Proof.
  unfold key_default. cbn [p_in]. intros [-> | [-> | H]]; try reflexivity. rewrite H.
  destruct (peek_no_term l) as [| | | | | | | | | | |rr|pp]; try reflexivity. destruct pp; reflexivity.
Qed.
Lemma key_some arg c ts rest lv : lead ts = true -> Starts 2 ts -> begins_line ts = false ->
  key_default arg c (mkpst (ts ++ rest) lv) = (do n, s <- arg (mkpst (ts ++ rest) lv) ;; POk (Some n) s).
Proof.
  intros L (t & b & r & S1 & S2) N. destruct ts as [|[t' b'] ts]; [discriminate|].
  assert (Q : is_line_term t' = false).
  { cbn in L, N. destruct t' as [| | | | | | | | | | |rr|pp]; try reflexivity; try discriminate. destruct pp; try reflexivity; discriminate. }
  cbn in S1. rewrite Q in S1. injection S1 as -> -> ->. unfold key_default. cbn [app p_in peek_no_term].
  destruct t as [| | | | | | | | | | |rr|pp]; try discriminate; destruct c; try reflexivity;
  (destruct pp; try discriminate; try reflexivity).
Qed.
Lemma one_reads outer own p ts o own' : one id_dots outer own p ts o own' ->
  forall c fl st st' stop rest, f_sa fl = false -> next st p = Some (st', stop) -> may_follow c p o fl rest ->
  exists q, ptree q = p /\
    E (fun n => one_param (parse n PArg fl) c (length outer) st (mkpst (ts ++ rest) (outer ++ own)))
      (POk (q, st', stop) (mkpst rest (outer ++ own'))).
Proof.
  intros H c fl st st' stop rest Hs Hn Hf.
  destruct H as [own id b N|own id b N|own id b b' e ts o own' W N|own id b b' N|own b|own id b b' N|own id b b' e ts o own' W S N|own id b b' N|own id b b' N|own b N];
    cbn [may_follow next] in *.
  - destruct st; try discriminate. injection Hn as <- <-. exists (FReq id). split; [reflexivity|].
    destruct Hf as [F1 F2]. apply (ev_eq _ _ (fun _ => POk (FReq id, kReq, false) (mkpst rest (outer ++ own ++ [id])))); [|apply E_const].
    intros n. unfold one_param. cbn [app p_in peek skip_lt is_line_term peek_no_term].
    rewrite ident_head by exact F1. rewrite plain_head by exact F2. rewrite new_ok by exact N. reflexivity.
  - assert (st' = kPost /\ stop = false) as [-> ->] by (destruct st; try discriminate; injection Hn as <- <-; auto).
    exists (FPost id). split; [reflexivity|].
    destruct Hf as [F1 F2]. apply (ev_eq _ _ (fun _ => POk (FPost id, kPost, false) (mkpst rest (outer ++ own ++ [id])))); [|apply E_const].
    intros n. unfold one_param. cbn [app p_in peek skip_lt is_line_term peek_no_term].
    rewrite ident_head by exact F1. rewrite plain_head by exact F2. rewrite new_ok by exact N. destruct st; try discriminate; reflexivity.
  - pose proof (T_R _ _ _ _ _ _ _ (proj1 all_T _ _ _ _ _ _ W)) as HT.
    destruct (HT fl rest Hs Hf) as (nd & A & _ & D). exists (FOpt id nd). split; [cbn; rewrite A; reflexivity|].
    unfold one_param. cbn [app p_in peek skip_lt is_line_term peek_no_term]. unfold ident_param, expect_ident.
    cbn [get p_in skip_lt is_line_term pbind p_lv peek peek_no_term].
    eapply E_bind; [exact D|]. cbn beta. rewrite new_ok by exact N. cbn [pbind].
    destruct st; try discriminate; injection Hn as <- <-; apply E_const.
  - assert (st' = kRest /\ stop = false /\ from_rest st = false) as (-> & -> & Q) by (destruct st; try discriminate; injection Hn as <- <-; auto).
    exists (FRest id). split; [reflexivity|].
    unfold one_param. cbn [app p_in peek skip_lt is_line_term peek_no_term get pbind p_lv]. rewrite Q.
    unfold expect_ident. cbn [get p_in skip_lt is_line_term pbind p_lv]. rewrite new_ok by exact N. apply E_const.
  - assert (st' = kRest /\ stop = false /\ from_rest st = false) as (-> & -> & Q) by (destruct st; try discriminate; injection Hn as <- <-; auto).
    exists FRestNone. split; [reflexivity|].
    apply (ev_eq _ _ (fun _ => POk (FRestNone, kRest, false) (mkpst rest (outer ++ own)))); [|apply E_const].
    intros n. unfold one_param. cbn [app p_in peek skip_lt is_line_term peek_no_term get pbind p_lv]. rewrite Q.
    change (peek_no_term (skip_lt rest)) with (peek rest).
    destruct (peek rest) as [| |i| | | | | | | | |rr|pp] eqn:QQ; try reflexivity. exfalso. exact (Hf i eq_refl).
  - assert (st' = kKey /\ stop = false) as [-> ->] by (destruct st; try discriminate; injection Hn as <- <-; auto).
    exists (FKey id None). split; [reflexivity|]. destruct Hf as [F1 F2].
    apply (ev_eq _ _ (fun _ => POk (FKey id None, kKey, false) (mkpst rest (outer ++ own ++ [id])))); [|apply E_const].
    intros n. unfold one_param. cbn [app p_in peek skip_lt is_line_term peek_no_term].
    rewrite ident_head by discriminate. unfold plain. cbn [p_in peek_no_term get skip_lt is_line_term pbind p_lv].
    rewrite key_none by exact F1. cbn [pbind]. rewrite new_ok by exact N. destruct st; try discriminate; reflexivity.
  - assert (st' = kKey /\ stop = false) as [-> ->] by (destruct st; try discriminate; injection Hn as <- <-; auto).
    pose proof (T_R _ _ _ _ _ _ _ (proj1 all_T _ _ _ _ _ _ W)) as HT.
    destruct (HT fl rest Hs Hf) as (nd & A & _ & D). exists (FKey id (Some nd)). split; [cbn; rewrite A; reflexivity|].
    apply (ev_eq _ _ (fun n => do x, s <- parse n PArg fl (mkpst (ts ++ rest) (outer ++ own)) ;;
      do d, s <- POk (Some x) s ;;
      match st with kKwRest => PErr | _ => do u, s <- new_param (length outer) id s ;; POk (FKey id d, kKey, false) s end)).
    + intros n. unfold one_param. cbn [app p_in peek skip_lt is_line_term peek_no_term].
      rewrite ident_head by discriminate. unfold plain. cbn [p_in peek_no_term get skip_lt is_line_term pbind p_lv].
      rewrite key_some; [|apply (proj1 all_lead _ _ _ _ _ _ W)|eapply w_start; exact W|exact S].
      destruct (parse n PArg fl _); reflexivity.
    + eapply E_bind; [exact D|]. cbn beta. cbn [pbind]. rewrite new_ok by exact N. cbn [pbind].
      destruct st; try discriminate; apply E_const.
  - assert (st' = kKwRest /\ stop = false) as [-> ->] by (destruct st; try discriminate; injection Hn as <- <-; auto).
    exists (FKwRest id). split; [reflexivity|].
    unfold one_param, expect_ident. cbn [app p_in peek skip_lt is_line_term peek_no_term get pbind p_lv].
    rewrite new_ok by exact N. destruct st; try discriminate; apply E_const.
  - injection Hn as <- <-. exists (FBlock id). split; [reflexivity|].
    unfold one_param, expect_ident. cbn [app p_in peek skip_lt is_line_term peek_no_term get pbind p_lv].
    rewrite new_ok by exact N. apply E_const.
  - destruct st; try discriminate. injection Hn as <- <-. exists FDelegate. split; [reflexivity|].
    unfold one_param. cbn [app p_in peek skip_lt is_line_term peek_no_term get pbind p_lv].
    rewrite new_ok by exact N. apply E_const.
Qed.
Lemma one_line arg c k st nl l lv : blank_lines nl ->
  one_param arg c k st (mkpst (nl ++ l) lv) = one_param arg c k st (mkpst l lv).
Proof. induction 1 as [|[t b] nl H _ IH]; [reflexivity|]. cbn in H. subst t. exact IH. Qed.
Lemma loop_line arg c k n st acc nl l lv : blank_lines nl ->
  params_loop arg c k n st acc (mkpst (nl ++ l) lv) = params_loop arg c k n st acc (mkpst l lv).
Proof. intros H. destruct n; [reflexivity|]. cbn [params_loop]. rewrite one_line by exact H. reflexivity. Qed.
Lemma comma_follows c p o fl b rest : e_open o = false -> may_follow c p o fl ((TP pComma, b) :: rest).
Proof.
  intros H. destruct p as [| | | | |id [e|]| | |]; cbn [may_follow]; auto; try (split; discriminate); try (intros ?; discriminate);
  try (apply follow_comma; congruence). split; [auto|discriminate].
Qed.
Lemma several_some dots outer own ps ts o own' : several dots outer own ps ts o own' -> ps <> [].
Proof. destruct 1; discriminate. Qed.
Lemma several_reads outer own ps ts o own' : several id_dots outer own ps ts o own' ->
  forall c fl st acc rest, f_sa fl = false -> walk st ps -> (forall p, may_follow c (List.last ps p) o fl rest) ->
  is_comma (peek_no_term rest) = false ->
  exists qs n0, map ptree qs = ps /\
    forall n m, (n0 <= n)%nat -> (length ps <= m)%nat ->
      params_loop (parse n PArg fl) c (length outer) m st acc (mkpst (ts ++ rest) (outer ++ own)) =
      POk (acc ++ qs) (mkpst rest (outer ++ own')).
Proof.
  induction 1 as [own p ts o own' H|own p ts o own1 b nl ps tss o' own' H O NL V IH]; intros c fl st acc rest Hs Hw Hf Hc.
  - cbn [walk] in Hw. destruct (next st p) as [[st' stop]|] eqn:N; [|contradiction].
    destruct (one_reads _ _ _ _ _ _ H c fl st st' stop rest Hs N (Hf p)) as (q & A & n0 & D).
    exists [q], n0. split; [cbn; rewrite A; reflexivity|]. intros n m L M. destruct m as [|m]; [cbn in M; lia|].
    cbn [params_loop]. rewrite D by exact L. cbn [pbind]. destruct stop; [reflexivity|]. cbn [p_in].
    destruct (peek_no_term rest) as [| | | | | | | | | | |rr|pp]; try reflexivity. destruct pp; try reflexivity. discriminate.
  - cbn [walk] in Hw. destruct (next st p) as [[st' stop]|] eqn:N; [|contradiction].
    destruct stop; [subst ps; exfalso; eapply several_some; eauto|].
    destruct (one_reads _ _ _ _ _ _ H c fl st st' false ((TP pComma, b) :: nl ++ tss ++ rest) Hs N (comma_follows _ _ _ _ _ _ O)) as (q & A & n0 & D).
    destruct (IH c fl st' (acc ++ [q]) rest Hs Hw) as (qs & n1 & A2 & D2).
    { intros p'. specialize (Hf p'). destruct ps as [|p2 ps]; [exfalso; eapply several_some; eauto|]. exact Hf. }
    { exact Hc. }
    exists (q :: qs), (n0 + n1)%nat. split; [cbn; rewrite A, A2; reflexivity|]. intros n m L M. destruct m as [|m]; [cbn in M; lia|].
    cbn [length] in M. cbn [params_loop]. rewrite <- app_assoc. cbn [app]. rewrite <- app_assoc.
    rewrite D by lia. cbn [pbind p_in peek_no_term get skip_lt is_line_term p_lv]. rewrite loop_line by exact NL.
    rewrite D2 by lia. rewrite <- app_assoc. reflexivity.
Qed.
Lemma first_tok dots outer own ps ts o own' c x : several dots outer own ps ts o own' -> is_close c (peek (ts ++ x)) = false.
Proof.
  intros V. assert (G : forall own p ts o own' x, one dots outer own p ts o own' -> is_close c (peek (ts ++ x)) = false)
    by (destruct 1; destruct c; reflexivity).
  destruct V; [eapply G; eauto|]. rewrite <- app_assoc. eapply G; eauto.
Qed.
(** ** In parentheses, between bars, without anything *)
Lemma blank_peek nl l : blank_lines nl -> peek (nl ++ l) = peek l.
Proof. intros H. unfold peek. rewrite blank_skip by exact H. reflexivity. Qed.
Lemma paren_follows p o fl nl b rest : blank_lines nl -> may_follow cParen p o fl (nl ++ (TP pRParen, b) :: rest).
Proof.
  intros H. pose proof (blank_peek nl ((TP pRParen, b) :: rest) H) as P.
  assert (Q : peek_no_term (nl ++ (TP pRParen, b) :: rest) = TLT \/ peek_no_term (nl ++ (TP pRParen, b) :: rest) = TP pRParen).
  { destruct H as [|[t b'] nl H _]; [right; reflexivity|]. cbn in H. subst. left. reflexivity. }
  assert (F : follow 2 2 o fl (nl ++ (TP pRParen, b) :: rest)).
  { constructor; rewrite ?P; auto; try lia.
    - apply below_none. destruct Q as [-> | ->]; reflexivity.
    - intros _. destruct H as [|[t b'] nl H _]; [destruct b; reflexivity|]. cbn in H. subst. destruct b'; reflexivity. }
  destruct p as [| | | | |id [e|]| | |]; cbn [may_follow]; rewrite ?P; auto; try (intros ?; discriminate).
  - split; [discriminate|]. destruct Q as [-> | ->]; discriminate.
  - split; [discriminate|]. destruct Q as [-> | ->]; discriminate.
  - split; [|discriminate]. destruct Q as [-> | ->]; auto.
Qed.
Lemma parens_ok outer own ps ts o own' fl nl nl' b rest : several id_dots outer own ps ts o own' -> f_sa fl = false ->
  ordered ps -> blank_lines nl -> blank_lines nl' ->
  exists qs n0, map ptree qs = ps /\ forall n, (n0 <= n)%nat ->
    parse_params n cParen (length outer) fl (mkpst (nl ++ ts ++ nl' ++ (TP pRParen, b) :: rest) (outer ++ own)) =
    POk qs (mkpst rest (outer ++ own')).
Proof.
  intros V Hs O B B'. apply ordered_walk in O.
  destruct (several_reads _ _ _ _ _ _ V cParen fl kReq [] (nl' ++ (TP pRParen, b) :: rest) Hs O) as (qs & n0 & A & D).
  { intros p. apply paren_follows. exact B'. }
  { destruct B' as [|[t b'] nl' H _]; [reflexivity|]. cbn in H. subst. reflexivity. }
  exists qs, (n0 + length ps)%nat. split; [exact A|]. intros n L. unfold parse_params, formal_params. cbn [p_in].
  rewrite blank_peek by exact B. rewrite (first_tok _ _ _ _ _ _ _ cParen _ V). rewrite loop_line by exact B.
  rewrite D by lia. cbn [pbind app]. unfold expect_close, get. cbn [p_in]. rewrite blank_skip by exact B'. reflexivity.
Qed.
Lemma bars_ok outer own ps ts o own' fl b rest : several id_dots outer own ps ts o own' -> f_sa fl = false ->
  ordered ps -> (forall p, has_default (List.last ps p) = false \/ ps = []) ->
  exists qs n0, map ptree qs = ps /\ forall n, (n0 <= n)%nat ->
    parse_params n cBar (length outer) fl (mkpst (ts ++ (TP pBitOr, b) :: rest) (outer ++ own)) =
    POk qs (mkpst rest (outer ++ own')).
Proof.
  intros V Hs O Hd. apply ordered_walk in O.
  destruct (several_reads _ _ _ _ _ _ V cBar fl kReq [] ((TP pBitOr, b) :: rest) Hs O) as (qs & n0 & A & D).
  { intros p. destruct (Hd p) as [Q|Q]; [|exfalso; eapply several_some; eauto].
    destruct (List.last ps p) as [| | | | |id [e|]| | |]; try discriminate; cbn [may_follow]; auto; try (split; discriminate); try (intros ?; discriminate).
    split; [auto|discriminate]. }
  { reflexivity. }
  exists qs, (n0 + length ps)%nat. split; [exact A|]. intros n L. unfold parse_params, formal_params. cbn [p_in].
  rewrite (first_tok _ _ _ _ _ _ _ cBar _ V). rewrite D by lia. reflexivity.
Qed.
Lemma bare_ok outer own ps ts o own' fl b rest : several id_dots outer own ps ts o own' -> f_sa fl = false ->
  ordered ps -> peek rest <> TP pAssign -> peek rest <> TP pDot -> peek rest <> TP pComma ->
  (forall p id, List.last ps p = QRestNone -> peek rest <> TIdent id) ->
  exists qs n0, map ptree qs = ps /\ forall n, (n0 <= n)%nat ->
    parse_params n cNone (length outer) fl (mkpst (ts ++ (TLT, b) :: rest) (outer ++ own)) =
    POk qs (mkpst ((TLT, b) :: rest) (outer ++ own')).
Proof.
  intros V Hs O N1 N2 N3 N4. apply ordered_walk in O.
  destruct (several_reads _ _ _ _ _ _ V cNone fl kReq [] ((TLT, b) :: rest) Hs O) as (qs & n0 & A & D).
  { intros p. assert (F : follow 2 2 o fl ((TLT, b) :: rest)).
    { assert (X : is_dot (peek rest) = false /\ is_comma (peek rest) = false)
        by (destruct (peek rest) as [| | | | | | | | | | |rr|pp]; auto; destruct pp; auto; congruence).
      change (peek rest) with (peek ((TLT, b) :: rest)) in X. destruct X as [X1 X2].
      constructor; auto; try lia; [apply below_none; reflexivity|]. intros _. destruct b; reflexivity. }
    specialize (N4 p). destruct (List.last ps p) as [| | | | |id [e|]| | |]; cbn [may_follow]; auto;
    change (peek ((TLT, b) :: rest)) with (peek rest);
    (split; [auto; fail|auto; discriminate]). }
  { reflexivity. }
  exists qs, (n0 + length ps)%nat. split; [exact A|]. intros n L. unfold parse_params, formal_params.
  cbn [is_close]. rewrite D by lia. reflexivity.
Qed.

(** * Reading ends *)
Lemma new_ei k id s : ends_in (S (size s)) (new_param k id s).
Proof. unfold new_param. destruct (existsb _ _); cbn; auto. Qed.
Lemma ident_ei s : ends_in (size s) (expect_ident s).
Proof. unfold expect_ident. eapply ei_bind; [apply get_ei|]. intros t s' H. destruct t; cbn; auto. Qed.
Section Ends.
Variables (arg : pst -> pres node) (c : closing) (k : nat) (bound : nat).
Hypothesis Harg : forall s, (size s < bound)%nat -> ends_in (size s) (arg s).
Ltac go := repeat match goal with
  | |- ends_in _ PErr => exact I
  | |- ends_in _ (POk _ _) => cbn [ends_in]; lia
  | |- ends_in _ (pbind (get _) _) => eapply ei_bind; [apply get_ei|intros ? ? ?]
  | |- ends_in _ (pbind (expect_ident _) _) => eapply ei_bind; [apply ident_ei|intros ? ? ?]
  | |- ends_in _ (pbind (new_param _ _ _) _) => eapply ei_bind; [apply new_ei|intros ? ? ?]
  | |- ends_in _ (pbind (arg _) _) => eapply ei_bind; [apply Harg; lia|intros ? ? ?]
  | |- ends_in _ (match ?x with _ => _ end) => destruct x
  end.
Lemma key_ei s : (size s < bound)%nat -> ends_in (S (size s)) (key_default arg c s).
Proof. intros H. unfold key_default. cbn zeta. destruct (is_close c (peek_no_term (p_in s))); go. Qed.
Lemma plain_ei id st s : (size s < bound)%nat -> ends_in (S (size s)) (plain arg c k id st s).
Proof.
  intros H. unfold plain.
  assert (G : ends_in (S (size s)) match st with
      | kReq => do u, s <- new_param k id s ;; POk (FReq id, kReq, false) s
      | kPost | kOpt | kRest => do u, s <- new_param k id s ;; POk (FPost id, kPost, false) s
      | _ => PErr
      end) by go.
  destruct (peek_no_term (p_in s)) as [| | | | | | | | | | |rr|pp]; try exact G. destruct pp; try exact G. clear G.
  eapply ei_bind; [apply get_ei|]. intros t s1 H1. eapply ei_bind; [apply key_ei; lia|]. intros d s2 H2. go.
Qed.
Lemma one_ei st s : (size s <= bound)%nat -> ends_in (size s) (one_param arg c k st s).
Proof.
  intros H. unfold one_param.
  assert (G : ends_in (size s) (ident_param arg c k st s)).
  { unfold ident_param. eapply ei_bind; [apply ident_ei|]. intros id s1 H1.
    assert (G : ends_in (size s) (plain arg c k id st s1)) by (eapply ei_le; [|apply plain_ei; lia]; lia).
    destruct (peek (p_in s1)) as [| | | | | | | | | | |rr|pp]; try exact G. destruct pp; try exact G. clear G. go. }
  destruct (peek (p_in s)) as [| | | | | | | | | | |rr|pp]; try exact G. destruct pp; try exact G; clear G; go.
Qed.
Lemma loop_ei n st acc s : (size s <= bound)%nat -> (size s < n)%nat -> ends_in (S (size s)) (params_loop arg c k n st acc s).
Proof.
  revert st acc s. induction n as [|n IH]; intros st acc s H L; [lia|]. cbn [params_loop].
  eapply ei_bind; [apply one_ei; exact H|]. intros [[p st'] stop] s1 H1. destruct stop; [cbn; lia|].
  assert (G : ends_in (S (size s)) (POk (acc ++ [p]) s1)) by (cbn; lia).
  destruct (peek_no_term (p_in s1)) as [| | | | | | | | | | |rr|pp]; try exact G. destruct pp; try exact G.
  eapply ei_bind; [apply get_ei|]. intros t s2 H2. eapply ei_le; [|apply IH; lia]. lia.
Qed.
Lemma formal_ei n s : (size s <= bound)%nat -> (size s < n)%nat -> formal_params arg c k n s <> PFuel.
Proof.
  intros H L. assert (G : ends_in (S (size s)) (formal_params arg c k n s)).
  { unfold formal_params. destruct (is_close _ _); [go|]. eapply ei_bind; [apply loop_ei; assumption|].
    intros l s1 H1. unfold expect_close. eapply ei_bind with (m := S (size s1)); [destruct c; go|intros u s2 H2; cbn; lia]. }
  intros Q. rewrite Q in G. exact G.
Qed.
End Ends.
Lemma params_end n c k fl s : (32 * S (size s) <= n)%nat -> parse_params n c k fl s <> PFuel.
Proof.
  intros H. unfold parse_params. apply (formal_ei _ _ _ (size s)); [|lia|lia].
  intros s0 L. apply (parse_ends n). cbn [rk]. lia.
Qed.
