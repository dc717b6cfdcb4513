(** Lemmas about statements of control: what is written is read. *)
From Coq Require Import ZArith List Bool Lia.
From Verif Require Import Base ModelParse SpecParse ModelFlow SpecFlow ProofsParse ProofsParse2 ProofsParse3.
Import ListNotations.
Open Scope Z_scope.

Fixpoint ptree (g : gprog) : prog := match g with GStop => Stop | GNext x r => Next (stree x) (ptree r) end
with stree (g : gstm) : stm :=
  match g with
  | GExp n => SExp (tree n)
  | GIf c t e => SIf (tree c) (ptree t) (ptree e)
  | GWhile c b p => SWhile (tree c) (ptree b) p
  | GCase c w e => SCase (option_map tree c) (wtree w) (ptree e)
  end
with wtree (g : gwhens) : branches :=
  match g with GNoWhen => NoWhen | GWhen vs b w => When (map tree vs) (ptree b) (wtree w) end.

Scheme ptext_i := Minimality for ptext Sort Prop
with stext_i := Minimality for stext Sort Prop
with iftext_i := Minimality for iftext Sort Prop
with elsetext_i := Minimality for elsetext Sort Prop
with whentext_i := Minimality for whentext Sort Prop.
Combined Scheme flow_mut from ptext_i, stext_i, iftext_i, elsetext_i, whentext_i.

(** * Heads *)
Definition flow_word (t : tok) : bool :=
  match t with TRes (rIf | rUnless | rWhile | rUntil | rCase) => true | _ => false end.
Definition Heads (ts : list item) : Prop :=
  lead ts = true /\ exists t b r, skip_lt ts = (t, b) :: r /\ (starter 0 t = true \/ flow_word t = true).
Lemma heads_app ts x : Heads ts -> Heads (ts ++ x).
Proof.
  intros [A (t & b & r & H & S')]. split; [apply lead_app; exact A|]. exists t, b, (r ++ x). split; [apply skip_app; exact H|exact S'].
Qed.
Lemma head_tok t : starter 0 t = true \/ flow_word t = true ->
  check_stmt_end t = false /\ is_dot t = false /\ is_comma t = false /\ is_res rThen t = false /\ is_term t = false.
Proof.
  intros [H|H]; destruct t as [| | | | | | | | | | |rr|pp]; try discriminate; auto;
  try (destruct rr; try discriminate; auto); try (destruct pp; try discriminate; auto).
Qed.
Lemma heads_peek ts : Heads ts -> check_stmt_end (peek ts) = false /\ is_dot (peek ts) = false /\ is_comma (peek ts) = false /\
  is_res rThen (peek ts) = false.
Proof. intros [_ (t & b & r & H & S')]. rewrite (peek_at _ _ _ _ H). apply head_tok in S'. tauto. Qed.
Lemma w_heads v p e ts o v' : writes false v p e ts o v' -> Heads ts.
Proof.
  intros W. split; [apply (proj1 all_lead _ _ _ _ _ _ W)|]. destruct (w_start _ _ _ _ _ _ W) as (t & b & r & H & S').
  exists t, b, r. split; [exact H|]. left. eapply starter_down; [|exact S']. lia.
Qed.
Lemma s_heads v s ts o v' : stext v s ts o v' -> Heads ts.
Proof.
  destruct 1; try (eapply w_heads; eassumption); (split; [reflexivity|]; do 3 eexists; split; [reflexivity|right; reflexivity]).
Qed.
Lemma p_heads v p ts o v' : ptext v p ts o v' -> (p = Stop /\ ts = []) \/ (p <> Stop /\ Heads ts).
Proof.
  destruct 1; [left; auto|right|right]; (split; [discriminate|]); [|apply heads_app]; eapply s_heads; eassumption.
Qed.
(** what may stand behind statements *)
Lemma closer_peek rest : closer (peek_no_term rest) -> peek rest = peek_no_term rest /\ is_dot (peek_no_term rest) = false /\
  is_comma (peek_no_term rest) = false /\ is_res rThen (peek_no_term rest) = false.
Proof.
  intros [H NR]. split; [apply peek_here, stmt_end_line; exact H|].
  destruct (peek_no_term rest) as [| | | | | | | | | | |rr|pp]; try discriminate; auto;
  try (destruct rr; try discriminate; auto); try (destruct pp; try discriminate; auto).
Qed.
Lemma p_peek v p ts o v' rest : ptext v p ts o v' -> closer (peek_no_term rest) ->
  is_dot (peek (ts ++ rest)) = false /\ is_comma (peek (ts ++ rest)) = false /\ is_res rThen (peek (ts ++ rest)) = false.
Proof.
  intros P C. destruct (p_heads _ _ _ _ _ P) as [[_ ->]|[_ H]].
  - cbn [app]. destruct (closer_peek _ C) as (-> & A). exact A.
  - apply (heads_app _ rest) in H. apply heads_peek in H. tauto.
Qed.
Lemma terms_head nl x : terms nl -> is_term (peek_no_term (nl ++ x)) = true /\ is_line_term (peek_no_term (nl ++ x)) = true /\
  rank (peek_no_term (nl ++ x)) = None /\ is_comma (peek_no_term (nl ++ x)) = false /\ is_command (nl ++ x) = false.
Proof.
  intros [N1 N2]. destruct nl as [|[t b] nl]; [congruence|]. inversion N2 as [|? ? [Q|Q] _]; cbn in Q; subst; destruct b; auto.
Qed.
Lemma terms_peek nl x : terms nl -> peek (nl ++ x) = peek x.
Proof. intros [_ N]. unfold peek. rewrite skip_terms by exact N. reflexivity. Qed.
Lemma terms_follow p k o fl nl x : terms nl -> is_dot (peek x) = false -> is_comma (peek x) = false -> follow p k o fl (nl ++ x).
Proof.
  intros N D C. destruct (terms_head nl x N) as (A1 & A2 & A3 & A4 & A5). pose proof (terms_peek nl x N) as P.
  constructor; rewrite ?P; auto. apply below_none. exact A3.
Qed.
Lemma then_follow p k o fl th x : then_word th -> is_dot (peek x) = false -> is_comma (peek x) = false -> follow p k o fl (th ++ x).
Proof.
  intros [b|nl N|nl b N] D C.
  - cbn [app]. apply follow_tok; try reflexivity. intros _. destruct b; reflexivity.
  - apply terms_follow; assumption.
  - rewrite <- app_assoc. apply terms_follow; [exact N|reflexivity|reflexivity].
Qed.
Lemma drop_terms_eq nl x : terms nl -> drop_terms (nl ++ x) = drop_terms x.
Proof. intros [_ N]. apply drop_app. exact N. Qed.

(** * The words between *)
(** [l'] is [l] but for terminators in front *)
Definition same (l l' : list item) : Prop := l' = l \/ l' = drop_terms l.
Lemma peek_drop l : peek (drop_terms l) = peek l.
Proof.
  induction l as [|[t b] l IH]; [reflexivity|]. destruct (is_line_term t) eqn:Q.
  - rewrite drop_here by exact Q. rewrite IH. unfold peek. cbn. rewrite Q. reflexivity.
  - rewrite drop_line by exact Q. reflexivity.
Qed.
Lemma then_ok th x v : then_word th -> is_res rThen (peek x) = false ->
  exists l, same x l /\ parse_then (mkpst (th ++ x) v) = POk tt (mkpst l v).
Proof.
  intros [b|nl N|nl b N] H.
  - exists x. split; [left; reflexivity|]. reflexivity.
  - exists (drop_terms x). split; [right; reflexivity|]. unfold parse_then, consume_term. cbn [p_in p_lv].
    rewrite (proj1 (terms_head _ _ N)). rewrite drop_terms_eq by exact N. cbn [p_in]. rewrite peek_drop, H. reflexivity.
  - exists x. split; [left; reflexivity|]. rewrite <- app_assoc. cbn [app]. unfold parse_then, consume_term. cbn [p_in p_lv].
    rewrite (proj1 (terms_head _ _ N)). rewrite drop_terms_eq by exact N. reflexivity.
Qed.
Lemma do_ok nl x v : terms nl -> parse_do (mkpst (nl ++ x) v) = POk tt (mkpst (drop_terms x) v).
Proof.
  intros N. unfold parse_do, consume_term. cbn [p_in p_lv]. rewrite (proj1 (terms_head _ _ N)).
  rewrite drop_terms_eq by exact N. reflexivity.
Qed.

(** * The statements *)
Lemma comp_step fl s r :
  E (fun n => if check_stmt_end (peek (p_in s)) then POk GStop s
      else do x, s <- stmt n fl s ;;
        if is_term (peek_no_term (p_in s))
        then do r, s <- comp n fl (mkpst (drop_terms (p_in s)) (p_lv s)) ;; POk (GNext x r) s
        else POk (GNext x GStop) s) r -> E (fun n => comp n fl s) r.
Proof. intros [n0 H]. exists (S n0). intros [|n] Hn; [lia|]. cbn [comp]. apply H. lia. Qed.
Definition stmt_body (n : nat) (fl : flags) (s : pst) : pres gstm := stmt (S n) fl s.
Lemma stmt_step fl s r : E (fun n => stmt_body n fl s) r -> E (fun n => stmt n fl s) r.
Proof. intros [n0 H]. exists (S n0). intros [|n] Hn; [lia|]. apply H. lia. Qed.
Lemma if_step fl s r : E (fun n => if_then (S n) fl s) r -> E (fun n => if_then n fl s) r.
Proof. intros [n0 H]. exists (S n0). intros [|n] Hn; [lia|]. apply H. lia. Qed.
Lemma whens_step fl s r : E (fun n => whens (S n) fl s) r -> E (fun n => whens n fl s) r.
Proof. intros [n0 H]. exists (S n0). intros [|n] Hn; [lia|]. apply H. lia. Qed.

Definition PT (v : list Z) (p : prog) (ts : list item) (o : ends) (v' : list Z) : Prop :=
  forall fl rest, f_sa fl = false -> closer (peek_no_term rest) -> (e_name o = true -> is_command rest = false) ->
  exists g, ptree g = p /\ forall l, same (ts ++ rest) l -> E (fun n => comp n fl (mkpst l v)) (POk g (mkpst rest v')).
Definition stops (rest : list item) : Prop :=
  (is_term (peek_no_term rest) || check_stmt_end (peek_no_term rest)) = true /\ is_res rRescue (peek_no_term rest) = false /\
  is_dot (peek rest) = false.
Definition ST (v : list Z) (s : stm) (ts : list item) (o : ends) (v' : list Z) : Prop :=
  forall fl rest, f_sa fl = false -> follow 0 0 o fl rest -> stops rest ->
  exists g, stree g = s /\ E (fun n => stmt n fl (mkpst (ts ++ rest) v)) (POk g (mkpst rest v')).
(** [if] up to its [end] *)
Definition IT (v : list Z) (s : stm) (ts : list item) (o : ends) (v' : list Z) : Prop :=
  forall fl b rest, f_sa fl = false ->
  exists g, stree g = s /\
    E (fun n => if_then n fl (mkpst (ts ++ (TRes rEnd, b) :: rest) v)) (POk g (mkpst ((TRes rEnd, b) :: rest) v')).
Definition else_part (i : bool) (n : nat) (fl : flags) (s : pst) : pres gprog :=
  if i && is_res rElsif (peek (p_in s)) then do t, s <- get s ;; do x, s <- if_then n fl s ;; POk (GNext x GStop) s
  else if is_res rElse (peek (p_in s)) then do t, s <- get s ;; comp n fl s
  else POk GStop s.
Definition LT (i : bool) (v : list Z) (o : ends) (p : prog) (ts : list item) (o' : ends) (v' : list Z) : Prop :=
  (forall b rest, closer (peek_no_term (ts ++ (TRes rEnd, b) :: rest)) /\ is_res rWhen (peek (ts ++ (TRes rEnd, b) :: rest)) = false /\
    (e_name o = true -> is_command (ts ++ (TRes rEnd, b) :: rest) = false)) /\
  forall fl b rest, f_sa fl = false ->
  exists g, ptree g = p /\
    E (fun n => else_part i n fl (mkpst (ts ++ (TRes rEnd, b) :: rest) v)) (POk g (mkpst ((TRes rEnd, b) :: rest) v')).
(** branches: what follows them is [else] or [end] *)
Definition HT (v : list Z) (o : ends) (w : branches) (ts : list item) (o' : ends) (v' : list Z) : Prop :=
  forall fl rest, f_sa fl = false -> closer (peek_no_term rest) -> is_res rWhen (peek rest) = false ->
  (e_name o' = true -> is_command rest = false) ->
  (closer (peek_no_term (ts ++ rest)) /\ (e_name o = true -> is_command (ts ++ rest) = false)) /\
  (w <> NoWhen -> is_res rWhen (peek_no_term (ts ++ rest)) = true) /\
  exists g, wtree g = w /\ E (fun n => whens n fl (mkpst (ts ++ rest) v)) (POk g (mkpst rest v')).

Lemma end_closer b rest : closer (peek_no_term ((TRes rEnd, b) :: rest)).
Proof. split; [reflexivity|discriminate]. Qed.
Lemma end_command b rest : is_command ((TRes rEnd, b) :: rest) = false.
Proof. destruct b; reflexivity. Qed.
Lemma stop_ok x rest v : stops rest -> statement_end x (mkpst rest v) = POk x (mkpst rest v).
Proof.
  intros (A & B & C). unfold statement_end. cbn [p_in]. rewrite A, B. unfold is_dot in C. rewrite C. reflexivity.
Qed.
Lemma closer_stops rest : closer (peek_no_term rest) -> stops rest.
Proof.
  intros H. destruct (closer_peek _ H) as (P & D & _). destruct H as [H NR]. split; [rewrite H, orb_true_r; reflexivity|].
  split; [|rewrite P; exact D]. destruct (peek_no_term rest) as [| | | | | | | | | | |rr|pp]; try reflexivity.
  destruct rr; try reflexivity. congruence.
Qed.
Lemma terms_stops nl x : terms nl -> is_dot (peek x) = false -> stops (nl ++ x).
Proof.
  intros N D. destruct (terms_head nl x N) as (A & B & _). unfold stops. rewrite A, terms_peek by exact N. split; [reflexivity|].
  split; [|exact D]. destruct (peek_no_term (nl ++ x)) as [| | | | | | | | | | |rr|pp]; try reflexivity; discriminate.
Qed.
Lemma stmt_line n fl b l v : stmt n fl (mkpst ((TLT, b) :: l) v) = stmt n fl (mkpst l v).
Proof.
  destruct n as [|n]; [reflexivity|]. cbn [stmt p_in]. change (peek ((TLT, b) :: l)) with (peek l).
  rewrite line_first by reflexivity.
  change (get (mkpst ((TLT, b) :: l) v)) with (get (mkpst l v)). reflexivity.
Qed.
Lemma comp_line n fl b l v : check_stmt_end (peek l) = false -> comp n fl (mkpst ((TLT, b) :: l) v) = comp n fl (mkpst l v).
Proof.
  intros H. destruct n as [|n]; [reflexivity|]. cbn [comp p_in]. change (peek ((TLT, b) :: l)) with (peek l). rewrite H, stmt_line. reflexivity.
Qed.
Lemma comp_same n fl l l' v : lead l = true -> check_stmt_end (peek l) = false -> same l l' ->
  comp n fl (mkpst l' v) = comp n fl (mkpst l v).
Proof.
  intros HL HC [->| ->]; [reflexivity|]. induction l as [|[t b] l IH]; [reflexivity|]. cbn [lead] in HL.
  destruct (is_line_term t) eqn:Q; [|rewrite drop_line by exact Q; reflexivity].
  assert (t = TLT) as -> by (destruct t as [| | | | | | | | | | |rr|pp]; try discriminate; try reflexivity; destruct pp; discriminate).
  rewrite drop_here by reflexivity. change (peek ((TLT, b) :: l)) with (peek l) in HC. rewrite comp_line by exact HC. apply IH; assumption.
Qed.
Lemma pt_intro v p ts (o : ends) v' fl rest g : Heads ts -> ptree g = p ->
  E (fun n => comp n fl (mkpst (ts ++ rest) v)) (POk g (mkpst rest v')) ->
  exists g, ptree g = p /\ forall l, same (ts ++ rest) l -> E (fun n => comp n fl (mkpst l v)) (POk g (mkpst rest v')).
Proof.
  intros H G [n0 D]. exists g. split; [exact G|]. intros l S. exists n0. intros n L. rewrite <- (D n L).
  apply (heads_app _ rest) in H. apply comp_same; [apply H|apply heads_peek; exact H|exact S].
Qed.
Lemma pt_stop v : PT v Stop [] closed v.
Proof.
  intros fl rest Hs C N. exists GStop. split; [reflexivity|]. intros l S. cbn [app] in S.
  assert (l = rest) as -> by (destruct S as [->| ->]; [reflexivity|apply drop_line, stmt_end_line, C]).
  apply comp_step. cbn [p_in]. destruct (closer_peek _ C) as (-> & _). destruct C as [-> _]. apply E_const.
Qed.
Lemma pt_last v s ts o v' : stext v s ts o v' -> ST v s ts o v' -> PT v (Next s Stop) ts o v'.
Proof.
  intros X HS fl rest Hs C N. destruct (HS fl rest Hs (closer_follow o fl rest C N) (closer_stops _ C)) as (g & A & D).
  apply (pt_intro v _ ts o v' fl rest (GNext g GStop)); [eapply s_heads; eauto|cbn; rewrite A; reflexivity|].
  apply comp_step. cbn [p_in]. pose proof (heads_peek _ (heads_app _ rest (s_heads _ _ _ _ _ X))) as (-> & _).
  eapply E_bind; [exact D|]. cbn beta. cbn [p_in p_lv].
  destruct (is_term (peek_no_term rest)); [|apply E_const].
  rewrite (drop_line rest) by (apply stmt_end_line; apply C).
  eapply E_bind; [|apply E_const]. apply comp_step. cbn [p_in]. destruct (closer_peek _ C) as (-> & _). destruct C as [-> _]. apply E_const.
Qed.
Lemma pt_next v s ts o v1 nl p tss o' v' : stext v s ts o v1 -> ST v s ts o v1 -> terms nl -> ptext v1 p tss o' v' -> PT v1 p tss o' v' ->
  PT v (Next s p) (ts ++ nl ++ tss) o' v'.
Proof.
  intros X HS N P HP fl rest Hs C NC. destruct (p_peek _ _ _ _ _ rest P C) as (D1 & D2 & _).
  destruct (HS fl (nl ++ tss ++ rest) Hs (terms_follow _ _ _ _ _ _ N D1 D2) (terms_stops _ _ N D1)) as (g & A & D).
  destruct (HP fl rest Hs C NC) as (g2 & A2 & DD).
  apply (pt_intro v _ (ts ++ nl ++ tss) o' v' fl rest (GNext g g2)); [apply heads_app; eapply s_heads; eauto|cbn; rewrite A, A2; reflexivity|].
  rewrite <- !app_assoc. apply comp_step. cbn [p_in].
  pose proof (heads_peek _ (heads_app _ (nl ++ tss ++ rest) (s_heads _ _ _ _ _ X))) as (-> & _).
  eapply E_bind; [exact D|]. cbn beta. cbn [p_in p_lv]. rewrite (proj1 (terms_head _ _ N)).
  rewrite drop_terms_eq by exact N. eapply E_bind; [apply DD; right; reflexivity|]. apply E_const.
Qed.
Lemma st_exp v e ts o v' : writes false v 0 e ts o v' -> ST v (SExp e) ts o v'.
Proof.
  intros W fl rest Hs F _. pose proof (T_R _ _ _ _ _ _ _ (proj1 all_T _ _ _ _ _ _ W)) as HT0.
  destruct (HT0 fl rest Hs F) as (nd & A & _ & D). exists (GExp nd). split; [cbn; rewrite A; reflexivity|].
  apply stmt_step. unfold stmt_body. cbn [stmt p_in].
  assert (G : E (fun n => do x, s <- parse n PStmt fl (mkpst (ts ++ rest) v) ;; POk (GExp x) s) (POk (GExp nd) (mkpst rest v'))).
  { eapply E_bind; [exact D|apply E_const]. }
  destruct (starts_app _ _ rest (w_start _ _ _ _ _ _ W)) as (t & b & r & S1 & S2). rewrite (peek_at _ _ _ _ S1).
  destruct t as [| | | | | | | | | | |rr|pp]; try exact G. destruct rr; try exact G; discriminate.
Qed.
(** condition, word, body *)
Lemma cond_body v c tc o v1 th t tb o1 v2 fl rest : f_sa fl = false ->
  writes false v 1 c tc o v1 -> then_word th -> ptext v1 t tb o1 v2 -> PT v1 t tb o1 v2 ->
  closer (peek_no_term rest) -> (e_name o1 = true -> is_command rest = false) ->
  exists nd g l, tree nd = c /\ ptree g = t /\
    E (fun n => parse n PExpr fl (mkpst (tc ++ th ++ tb ++ rest) v)) (POk nd (mkpst (th ++ tb ++ rest) v1)) /\
    parse_then (mkpst (th ++ tb ++ rest) v1) = POk tt (mkpst l v1) /\
    E (fun n => comp n fl (mkpst l v1)) (POk g (mkpst rest v2)).
Proof.
  intros Hs W TW P HP C N. destruct (p_peek _ _ _ _ _ rest P C) as (D1 & D2 & D3).
  pose proof (T_R _ _ _ _ _ _ _ (proj1 all_T _ _ _ _ _ _ W)) as HT0.
  destruct (HT0 fl (th ++ tb ++ rest) Hs (then_follow _ _ _ _ _ _ TW D1 D2)) as (nd & A & _ & D).
  destruct (HP fl rest Hs C N) as (g & A2 & DD). destruct (then_ok th (tb ++ rest) v1 TW D3) as (l & SL & TH).
  exists nd, g, l. repeat split; auto.
Qed.
Lemma it_if v c tc o v1 th t tb o1 v2 e te o2 v' :
  writes false v 1 c tc o v1 -> then_word th -> ptext v1 t tb o1 v2 -> PT v1 t tb o1 v2 -> LT true v2 o1 e te o2 v' ->
  IT v (SIf c t e) (tc ++ th ++ tb ++ te) o2 v'.
Proof.
  intros W TW P HP [L1 L2] fl b rest Hs. destruct (L1 b rest) as (C & _ & N).
  destruct (cond_body _ _ _ _ _ _ _ _ _ _ fl (te ++ (TRes rEnd, b) :: rest) Hs W TW P HP C N) as (nd & g & l & A & B & D1 & D2 & D3).
  destruct (L2 fl b rest Hs) as (ge & A2 & D4). exists (GIf nd g ge). split; [cbn; congruence|].
  rewrite <- !app_assoc. apply if_step. cbn [if_then].
  eapply E_bind; [exact D1|]. cbn beta. rewrite D2. cbn [pbind].
  eapply E_bind; [exact D3|]. cbn beta. eapply E_bind; [exact D4|]. apply E_const.
Qed.
Lemma lt_none i v o : LT i v o Stop [] o v.
Proof.
  split; [intros b rest; split; [apply end_closer|split; [reflexivity|intros _; apply end_command]]|].
  intros fl b rest Hs. exists GStop. split; [reflexivity|]. exists O. intros n _. destruct i; reflexivity.
Qed.
Lemma lt_else i v o b p ts o' v' : apart o b -> PT v p ts o' v' -> LT i v o p ((TRes rElse, b) :: ts) o' v'.
Proof.
  intros AP HP. split.
  { intros b' rest. split; [split; [reflexivity|discriminate]|]. split; [reflexivity|]. intros Q. rewrite (AP Q). reflexivity. }
  intros fl b' rest Hs. destruct (HP fl ((TRes rEnd, b') :: rest) Hs (end_closer _ _) (fun _ => end_command _ _)) as (g & A & D).
  exists g. split; [exact A|]. unfold else_part. destruct i; cbn; apply D; left; reflexivity.
Qed.
Lemma lt_elsif v o b s ts o' v' : apart o b -> IT v s ts o' v' -> LT true v o (Next s Stop) ((TRes rElsif, b) :: ts) o' v'.
Proof.
  intros AP HI. split.
  { intros b' rest. split; [split; [reflexivity|discriminate]|]. split; [reflexivity|]. intros Q. rewrite (AP Q). reflexivity. }
  intros fl b' rest Hs. destruct (HI fl b' rest Hs) as (g & A & D). exists (GNext g GStop). split; [cbn; rewrite A; reflexivity|].
  unfold else_part. cbn. eapply E_bind; [exact D|]. apply E_const.
Qed.
Lemma st_if v b s ts o v' b' : IT v s ts o v' -> ST v s ((TRes rIf, b) :: ts ++ [(TRes rEnd, b')]) closed v'.
Proof.
  intros HI fl rest Hs F S. destruct (HI fl b' rest Hs) as (g & A & D). exists g. split; [exact A|].
  apply stmt_step. unfold stmt_body. cbn [stmt p_in app]. rewrite <- app_assoc. cbn [app].
  cbn [peek skip_lt is_line_term peek_no_term get p_in pbind p_lv].
  eapply E_bind; [exact D|]. cbn beta. unfold expect_reserved. cbn [get p_in skip_lt is_line_term pbind p_lv]. cbn.
  rewrite stop_ok by exact S. apply E_const.
Qed.
Lemma st_unless v b c tc o v1 th t tb o1 v2 e te o2 v' b' :
  writes false v 1 c tc o v1 -> then_word th -> ptext v1 t tb o1 v2 -> PT v1 t tb o1 v2 -> LT false v2 o1 e te o2 v' ->
  ST v (SIf c e t) ((TRes rUnless, b) :: tc ++ th ++ tb ++ te ++ [(TRes rEnd, b')]) closed v'.
Proof.
  intros W TW P HP [L1 L2] fl rest Hs F S. destruct (L1 b' rest) as (C & _ & N).
  destruct (cond_body _ _ _ _ _ _ _ _ _ _ fl (te ++ (TRes rEnd, b') :: rest) Hs W TW P HP C N) as (nd & g & l & A & B & D1 & D2 & D3).
  destruct (L2 fl b' rest Hs) as (ge & A2 & D4). exists (GIf nd ge g). split; [cbn; congruence|].
  apply stmt_step. unfold stmt_body. cbn [stmt p_in app]. rewrite <- !app_assoc. cbn [app].
  cbn [peek skip_lt is_line_term peek_no_term get p_in pbind p_lv].
  eapply E_bind; [exact D1|]. cbn beta. rewrite D2. cbn [pbind]. eapply E_bind; [exact D3|]. cbn beta.
  eapply E_bind; [exact D4|]. cbn beta. unfold expect_reserved. cbn [get p_in skip_lt is_line_term pbind p_lv]. cbn.
  rewrite stop_ok by exact S. apply E_const.
Qed.
Lemma st_while v w (pos : bool) b c tc o v1 nl p tp o1 v' b' : w = (if pos then rWhile else rUntil) ->
  writes false v 1 c tc o v1 -> terms nl -> ptext v1 p tp o1 v' -> PT v1 p tp o1 v' ->
  ST v (SWhile c p pos) ((TRes w, b) :: tc ++ nl ++ tp ++ [(TRes rEnd, b')]) closed v'.
Proof.
  intros HW W N P HP fl rest Hs F S.
  destruct (p_peek _ _ _ _ _ ((TRes rEnd, b') :: rest) P (end_closer _ _)) as (D1 & D2 & D3).
  pose proof (T_R _ _ _ _ _ _ _ (proj1 all_T _ _ _ _ _ _ W)) as HT0.
  destruct (HT0 fl (nl ++ tp ++ (TRes rEnd, b') :: rest) Hs (terms_follow _ _ _ _ _ _ N D1 D2)) as (nd & A & _ & D).
  destruct (HP fl ((TRes rEnd, b') :: rest) Hs (end_closer _ _) (fun _ => end_command _ _)) as (g & A2 & DD).
  exists (GWhile nd g pos). split; [cbn; congruence|]. subst w.
  apply stmt_step. unfold stmt_body. cbn [stmt p_in app]. rewrite <- !app_assoc. cbn [app].
  destruct pos; cbn [peek skip_lt is_line_term peek_no_term get p_in pbind p_lv];
  (eapply E_bind; [exact D|]); cbn beta; rewrite do_ok by exact N; cbn [pbind];
  (eapply E_bind; [apply DD; right; reflexivity|]); cbn beta;
  unfold expect_reserved; cbn [get p_in skip_lt is_line_term pbind p_lv]; cbn; rewrite stop_ok by exact S; apply E_const.
Qed.
(** * Values and branches *)
Lemma values_ok v es ts o v' : values v es ts o v' -> forall fl rest acc, f_sa fl = false -> f_sm fl = true ->
  follow 2 2 o fl rest -> is_comma (peek rest) = false ->
  exists nds, map tree nds = es /\ evl (LRhs false acc) fl (mkpst (ts ++ rest) v) (POk (acc ++ nds) (mkpst rest v')).
Proof.
  induction 1 as [v e ts o v' W|v e ts o v1 b es tss o' v' W O V IH]; intros fl rest acc Hs Hm F C.
  - pose proof (T_R _ _ _ _ _ _ _ (proj1 all_T _ _ _ _ _ _ W)) as HT0. destruct (HT0 fl rest Hs F) as (nd & A & _ & D).
    exists [nd]. split; [cbn; rewrite A; reflexivity|]. apply evl_step. cbn [bodyl]. unfold rhs_body. cbn [andb p_in].
    destruct (starts_app _ _ rest (w_start _ _ _ _ _ _ W)) as (t & b & r & S1 & S2). rewrite (peek_at _ _ _ _ S1).
    eapply E_bind.
    { destruct t as [| | | | | | | | | | |rr|pp]; try exact D. destruct pp; try exact D; discriminate. }
    cbn beta. cbn [p_in]. destruct (peek rest) as [| | | | | | | | | | |rr|pp]; try apply E_const. destruct pp; try apply E_const; discriminate.
  - pose proof (T_R _ _ _ _ _ _ _ (proj1 all_T _ _ _ _ _ _ W)) as HT0.
    destruct (HT0 fl ((TP pComma, b) :: tss ++ rest) Hs) as (nd & A & _ & D). { apply follow_comma. congruence. }
    destruct (IH fl rest (acc ++ [nd]) Hs Hm F C) as (nds & A2 & D2).
    exists (nd :: nds). split; [cbn; congruence|]. rewrite <- app_assoc. cbn [app].
    apply evl_step. cbn [bodyl]. unfold rhs_body. cbn [andb p_in].
    destruct (starts_app _ _ ((TP pComma, b) :: tss ++ rest) (w_start _ _ _ _ _ _ W)) as (t & b0 & r & S1 & S2). rewrite (peek_at _ t b0 r) by exact S1.
    eapply E_bind.
    { destruct t as [| | | | | | | | | | |rr|pp]; try exact D. destruct pp; try exact D; discriminate. }
    cbn beta. cbn [p_in peek skip_lt is_line_term peek_no_term get pbind p_lv]. rewrite <- app_assoc in D2. exact D2.
Qed.
Lemma ht_none v o : HT v o NoWhen [] o v.
Proof.
  intros fl rest Hs C W N. split; [split; assumption|]. split; [congruence|]. exists GNoWhen. split; [reflexivity|].
  apply whens_step. cbn [whens app p_in]. rewrite W. apply E_const.
Qed.
Lemma ht_when v o b vs ts o1 v1 th p tp o2 v2 w tw o3 v' :
  apart o b -> values v vs ts o1 v1 -> then_word th -> ptext v1 p tp o2 v2 -> PT v1 p tp o2 v2 -> HT v2 o2 w tw o3 v' ->
  HT v o (When vs p w) ((TRes rWhen, b) :: ts ++ th ++ tp ++ tw) o3 v'.
Proof.
  intros AP V TW P HP HW fl rest Hs C W N.
  destruct (HW fl rest Hs C W N) as ((C1 & N1) & _ & gw & AW & DW).
  split; [split; [split; [reflexivity|discriminate]|intros Q; rewrite (AP Q); reflexivity]|]. split; [reflexivity|].
  destruct (p_peek _ _ _ _ _ (tw ++ rest) P C1) as (D1 & D2 & D3).
  destruct (values_ok _ _ _ _ _ V (mkflags (f_sa fl) true) (th ++ tp ++ tw ++ rest) [] Hs eq_refl) as (nds & A & D).
  { apply then_follow; assumption. }
  { destruct TW as [b0|nl T0|nl b0 T0]; [reflexivity|rewrite terms_peek by exact T0; exact D2|].
    rewrite <- app_assoc. rewrite terms_peek by exact T0. reflexivity. }
  destruct (HP fl (tw ++ rest) Hs C1 N1) as (g & A2 & DD). destruct (then_ok th (tp ++ tw ++ rest) v1 TW D3) as (l & SL & TH).
  exists (GWhen nds g gw). split; [cbn; congruence|]. apply whens_step. cbn [whens app p_in]. rewrite <- !app_assoc.
  cbn [peek skip_lt is_line_term peek_no_term get p_in pbind p_lv]. cbn [is_res]. destruct (res_eq rWhen rWhen); [|congruence].
  eapply E_bind; [exact D|]. cbn beta. rewrite TH. cbn [pbind]. eapply E_bind; [apply DD; exact SL|]. cbn beta.
  eapply E_bind; [exact DW|]. apply E_const.
Qed.
Lemma when_head l v : closer (peek_no_term l) -> snd (consume_term (mkpst l v)) = mkpst l v.
Proof.
  intros [C _]. unfold consume_term. cbn [p_in p_lv]. destruct (is_term (peek_no_term l)); [|reflexivity]. cbn [snd].
  rewrite drop_line by (apply stmt_end_line; exact C). reflexivity.
Qed.
Lemma any_head nl l v : any_terms nl -> closer (peek_no_term l) -> snd (consume_term (mkpst (nl ++ l) v)) = mkpst l v.
Proof.
  intros N C. destruct nl as [|i nl]; [apply when_head; exact C|]. assert (T0 : terms (i :: nl)) by (split; [discriminate|exact N]).
  unfold consume_term. cbn [p_in p_lv]. rewrite (proj1 (terms_head _ _ T0)). rewrite drop_terms_eq by exact T0. cbn [snd].
  rewrite drop_line by (apply stmt_end_line; apply C). reflexivity.
Qed.
Lemma st_case v b c tc o v1 nl w tw o1 v2 e te o2 v' b' :
  writes false v 1 c tc o v1 -> terms nl -> HT v1 closed w tw o1 v2 -> w <> NoWhen -> LT false v2 o1 e te o2 v' ->
  ST v (SCase (Some c) w e) ((TRes rCase, b) :: tc ++ nl ++ tw ++ te ++ [(TRes rEnd, b')]) closed v'.
Proof.
  intros W N HW NW [L1 L2] fl rest Hs F S. destruct (L1 b' rest) as (C & CW & CN).
  set (fl' := mkflags (f_sa fl) false). assert (Hs' : f_sa fl' = false) by exact Hs.
  destruct (HW fl' _ Hs' C CW CN) as ((C1 & N1) & WH & gw & AW & DW).
  destruct (closer_peek _ C1) as (PK & D1 & D2 & _).
  pose proof (T_R _ _ _ _ _ _ _ (proj1 all_T _ _ _ _ _ _ W)) as HT0.
  destruct (HT0 fl' (nl ++ tw ++ te ++ (TRes rEnd, b') :: rest) Hs') as (nd & A & _ & D).
  { apply terms_follow; [exact N|rewrite PK; exact D1|rewrite PK; exact D2]. }
  destruct (L2 fl' b' rest Hs') as (ge & A2 & D4). exists (GCase (Some nd) gw ge). split; [cbn; congruence|].
  apply stmt_step. unfold stmt_body. cbn [stmt p_in app]. rewrite <- !app_assoc. cbn [app].
  cbn [peek skip_lt is_line_term peek_no_term get p_in pbind p_lv].
  destruct (starts_app _ _ (nl ++ tw ++ te ++ (TRes rEnd, b') :: rest) (w_start _ _ _ _ _ _ W)) as (t & b0 & r & S1 & S2).
  fold (peek (tc ++ nl ++ tw ++ te ++ (TRes rEnd, b') :: rest)). rewrite (peek_at _ t b0 r) by exact S1.
  assert (Q : is_res rWhen t = false) by (destruct t as [| | | | | | | | | | |rr|pp]; try reflexivity; destruct rr; try reflexivity; discriminate).
  rewrite Q. fold fl'. eapply E_bind. { eapply E_bind; [exact D|]. cbn beta. apply E_const. }
  cbn beta. pose proof (any_head nl (tw ++ te ++ (TRes rEnd, b') :: rest) v1 (proj2 N) C1) as AH.
  destruct (consume_term _) as [bb ss]. cbn [snd] in AH. subst ss.
  eapply E_bind; [exact DW|]. cbn beta. eapply E_bind; [exact D4|]. cbn beta.
  unfold expect_reserved. cbn [get p_in skip_lt is_line_term pbind p_lv]. cbn. rewrite stop_ok by exact S. apply E_const.
Qed.
Lemma st_case_none v b nl w tw o1 v2 e te o2 v' b' :
  any_terms nl -> HT v closed w tw o1 v2 -> w <> NoWhen -> LT false v2 o1 e te o2 v' ->
  ST v (SCase None w e) ((TRes rCase, b) :: nl ++ tw ++ te ++ [(TRes rEnd, b')]) closed v'.
Proof.
  intros N HW NW [L1 L2] fl rest Hs F S. destruct (L1 b' rest) as (C & CW & CN).
  set (fl' := mkflags (f_sa fl) false). assert (Hs' : f_sa fl' = false) by exact Hs.
  destruct (HW fl' _ Hs' C CW CN) as ((C1 & N1) & WH & gw & AW & DW).
  destruct (closer_peek _ C1) as (PK & _).
  destruct (L2 fl' b' rest Hs') as (ge & A2 & D4). exists (GCase None gw ge). split; [cbn; congruence|].
  apply stmt_step. unfold stmt_body. cbn [stmt p_in app]. rewrite <- !app_assoc. cbn [app].
  cbn [peek skip_lt is_line_term peek_no_term get p_in pbind p_lv].
  match goal with |- context [is_res rWhen ?x] => replace (is_res rWhen x) with true end.
  2: { symmetry. rewrite <- (WH NW), <- PK. unfold peek. f_equal. f_equal. apply (skip_terms nl). exact N. }
  fold fl'. cbn [pbind].
  pose proof (any_head nl (tw ++ te ++ (TRes rEnd, b') :: rest) v N C1) as AH.
  destruct (consume_term _) as [bb ss]. cbn [snd] in AH. subst ss.
  eapply E_bind; [exact DW|]. cbn beta. eapply E_bind; [exact D4|]. cbn beta.
  unfold expect_reserved. cbn [get p_in skip_lt is_line_term pbind p_lv]. cbn. rewrite stop_ok by exact S. apply E_const.
Qed.
Lemma all_flow :
  (forall v p ts o v', ptext v p ts o v' -> PT v p ts o v') /\ (forall v s ts o v', stext v s ts o v' -> ST v s ts o v') /\
  (forall v s ts o v', iftext v s ts o v' -> IT v s ts o v') /\
  (forall i v o p ts o' v', elsetext i v o p ts o' v' -> LT i v o p ts o' v') /\
  (forall v o w ts o' v', whentext v o w ts o' v' -> HT v o w ts o' v').
Proof.
  apply flow_mut; intros.
  - apply pt_stop.
  - apply pt_last; assumption.
  - eapply pt_next; eauto.
  - apply st_exp; assumption.
  - eapply st_if; eauto.
  - eapply st_unless; eauto.
  - eapply (st_while v rWhile true); eauto.
  - eapply (st_while v rUntil false); eauto.
  - eapply st_case; eauto.
  - eapply st_case_none; eauto.
  - eapply it_if; eauto.
  - apply lt_none.
  - apply lt_else; assumption.
  - eapply lt_elsif; eauto.
  - apply ht_none.
  - eapply ht_when; eauto.
Qed.
Lemma flow_ok lv p ts o lv' b : ptext lv p ts o lv' -> (e_name o = true -> b = false) ->
  exists g n0, ptree g = p /\ forall n, (n0 <= n)%nat -> flow_program n lv (ts ++ [(TEof, b)]) = POk g (mkpst [(TEof, b)] lv').
Proof.
  intros P Hb. destruct (proj1 all_flow _ _ _ _ _ P (mkflags false false) [(TEof, b)] eq_refl) as (g & A & D).
  { split; [reflexivity|discriminate]. }
  { intros Q. rewrite (Hb Q). reflexivity. }
  destruct (D _ (or_introl eq_refl)) as [n0 D0]. exists g, n0. split; [exact A|]. intros n L. unfold flow_program. rewrite D0 by exact L. reflexivity.
Qed.
