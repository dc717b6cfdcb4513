(** Lemmas about the parser: every text of [writes false] is parsed as the tree
    it writes. *)
From Coq Require Import ZArith List Bool Lia.
From Verif Require Import Base ModelParse SpecParse.
Import ListNotations.
Open Scope Z_scope.

Scheme writes_m := Minimality for writes Sort Prop
with left_m := Minimality for left_side Sort Prop
with elements_m := Minimality for elements Sort Prop
with arguments_m := Minimality for arguments Sort Prop
with statements_m := Minimality for statements Sort Prop.
Combined Scheme writes_mut from writes_m, left_m, elements_m, arguments_m, statements_m.

(** * From some fuel on *)
Definition E {A} (f : nat -> pres A) (r : pres A) : Prop := exists n0, forall n, (n0 <= n)%nat -> f n = r.
Definition ev (k : nt) (fl : flags) (s : pst) (r : pres node) : Prop := E (fun n => parse n k fl s) r.
Definition evl (k : lt) (fl : flags) (s : pst) (r : pres (list node)) : Prop := E (fun n => parsel n k fl s) r.

Lemma E_const A (r : pres A) : E (fun _ => r) r.
Proof. exists O. reflexivity. Qed.
Lemma E_bind A B f (g : nat -> A -> pst -> pres B) a s r :
  E f (POk a s) -> E (fun n => g n a s) r -> E (fun n => pbind (f n) (g n)) r.
Proof.
  intros [n1 H1] [n2 H2]. exists (n1 + n2)%nat. intros n Hn. rewrite H1 by lia. cbn. apply H2. lia.
Qed.
Lemma E_unique A (f : nat -> pres A) r r' : E f r -> E f r' -> r = r'.
Proof. intros [n1 H1] [n2 H2]. rewrite <- (H1 (n1 + n2)%nat), <- (H2 (n1 + n2)%nat); auto; lia. Qed.
Lemma ev_step k fl s r : E (fun n => body (parse n) (parsel n) k fl s) r -> ev k fl s r.
Proof. intros [n0 H]. exists (S n0). intros [|n] Hn; [lia|]. cbn [parse]. apply H. lia. Qed.
Lemma evl_step k fl s r : E (fun n => bodyl (parse n) (parsel n) k fl s) r -> evl k fl s r.
Proof. intros [n0 H]. exists (S n0). intros [|n] Hn; [lia|]. cbn [parsel]. apply H. lia. Qed.

(** * Heads of token lists *)
Lemma skip_app l t b r x : skip_lt l = (t, b) :: r -> skip_lt (l ++ x) = (t, b) :: r ++ x.
Proof.
  induction l as [|[t' b'] l IH]; cbn; [discriminate|]. destruct (is_line_term t') eqn:L; [exact IH|].
  intros H. injection H as -> -> <-. reflexivity.
Qed.
Lemma skip_not l t b r : skip_lt l = (t, b) :: r -> is_line_term t = false.
Proof.
  induction l as [|[t' b'] l IH]; cbn; [discriminate|]. destruct (is_line_term t') eqn:L; [exact IH|].
  intros H. injection H as -> -> <-. exact L.
Qed.
Lemma peek_at l t b r : skip_lt l = (t, b) :: r -> peek l = t.
Proof. intros H. unfold peek. rewrite H. reflexivity. Qed.
Lemma get_at l lvs t b r : skip_lt l = (t, b) :: r -> t <> TEof -> get (mkpst l lvs) = POk t (mkpst r lvs).
Proof. intros H N. unfold get. cbn [p_in]. rewrite H. destruct t; try reflexivity. congruence. Qed.
Lemma peek_here l : is_line_term (peek_no_term l) = false -> peek l = peek_no_term l.
Proof. destruct l as [|[t b] l]; cbn; [reflexivity|]. intros H. unfold peek. cbn. rewrite H. reflexivity. Qed.
Lemma blank_skip nl x : blank_lines nl -> skip_lt (nl ++ x) = skip_lt x.
Proof. induction 1 as [|[t b] nl H _ IH]; [reflexivity|]. cbn in *. subst. exact IH. Qed.

(** * How a text starts *)
Definition starter (p : nat) (t : tok) : bool :=
  match t with
  | TNum _ _ | TAtom _ | TIdent _ | TIvar _ | TGvar _ | TCvar _ | TConst _ | TRes rDefined
  | TP pMinus | TP pLParen | TP pLBracket => true
  | TP pNot | TP pBitNot | TP pPlus => Nat.ltb p 17
  | _ => false
  end.
Definition Starts (p : nat) (ts : list item) : Prop :=
  exists t b r, skip_lt ts = (t, b) :: r /\ starter p t = true.
Lemma starts_app p ts x : Starts p ts -> Starts p (ts ++ x).
Proof. intros (t & b & r & H & S'). exists t, b, (r ++ x). split; [apply skip_app; exact H|exact S']. Qed.
Lemma starter_down p q t : (q <= p)%nat -> starter p t = true -> starter q t = true.
Proof.
  intros L. destruct t; cbn [starter]; auto. destruct p0; auto; intros H;
  apply Nat.ltb_lt in H; apply Nat.ltb_lt; lia.
Qed.
Lemma starts_down p q ts : (q <= p)%nat -> Starts p ts -> Starts q ts.
Proof. intros L (t & b & r & H & S'). exists t, b, r. split; [exact H|eapply starter_down; eauto]. Qed.
Lemma starts_here p t b r : is_line_term t = false -> starter p t = true -> Starts p ((t, b) :: r).
Proof. intros L S'. exists t, b, r. cbn. rewrite L. auto. Qed.

Section Main.
Notation wr := (writes false).
Notation ls := (left_side false).

Lemma all_start :
  (forall v p e ts o v', wr v p e ts o v' -> Starts p ts) /\ (forall v l tl v', ls v l tl v' -> Starts 17 tl) /\
  (forall v es ts v', elements false v es ts v' -> es <> [] -> Starts 2 ts) /\
  (forall v es ts v', arguments false v es ts v' -> es <> [] -> Starts 2 ts) /\
  (forall v es ts o v', statements false v es ts o v' -> es <> [] -> Starts 0 ts).
Proof.
  apply writes_mut; intros; try discriminate; try congruence;
  try (apply starts_here; reflexivity);
  try (apply starts_app; assumption);
  try (apply starts_app; eapply starts_down; [|eassumption]; lia);
  try (eapply starts_down; [|eassumption]; lia); try assumption.
  - destruct p; try discriminate; apply starts_here; reflexivity.
Qed.
Definition w_start v p e ts o v' := proj1 all_start v p e ts o v'.
Definition l_start v l tl v' := proj1 (proj2 all_start) v l tl v'.
Definition s_start v es ts o v' := proj2 (proj2 (proj2 (proj2 all_start))) v es ts o v'.

(** A text of precedence 15 or more that starts with a minus sign starts with a
    negative literal, which is not the left side of [**]. *)
Definition NegHead (o : ends) (ts : list item) : Prop :=
  forall b r, skip_lt ts = (TP pMinus, b) :: r ->
  exists k z r', r = (TNum k z, false) :: r' /\
    (r' = [] /\ e_neg o = true \/ exists i r'', r' = i :: r'' /\ fst i <> TP pDMul).
Lemma neghead_other o t b r : is_line_term t = false -> t <> TP pMinus -> NegHead o ((t, b) :: r).
Proof. intros L N b' r' H. cbn in H. rewrite L in H. injection H as -> _ _. congruence. Qed.
Lemma neghead_app p o o' ts x : Starts p ts -> NegHead o ts ->
  (e_neg o = false \/ exists i x', x = i :: x' /\ fst i <> TP pDMul) -> NegHead o' (ts ++ x).
Proof.
  intros (t & b & r & H & _) N X b' r' K. rewrite (skip_app _ _ _ _ x H) in K. injection K as -> -> <-.
  destruct (N _ _ H) as (k & z & r' & -> & D). exists k, z, (r' ++ x). split; [reflexivity|].
  destruct D as [(-> & D)|(i & r'' & -> & D)].
  - right. destruct X as [X|(i & x' & -> & X)]; [congruence|]. exists i, x'. auto.
  - right. exists i, (r'' ++ x). auto.
Qed.
Lemma neg_head v p e ts o v' : wr v p e ts o v' -> (15 <= p)%nat -> NegHead o ts.
Proof.
  revert v p e ts o v'. apply (writes_m false (fun v p e ts o v' => (15 <= p)%nat -> NegHead o ts)
    (fun _ _ _ _ => True) (fun _ _ _ _ => True) (fun _ _ _ _ => True) (fun _ _ _ _ _ => True)); intros; auto; try lia; try discriminate;
  try (apply neghead_other; [reflexivity|discriminate]).
  - intros b' r K. cbn in K. injection K as _ <-. exists k, z, []. auto.
  - eapply neghead_app; [eapply w_start; eassumption|apply H0; lia|]. right. eexists _, _. split; [reflexivity|discriminate].
  - eapply neghead_app; [eapply w_start; eassumption|apply H0; lia|]. right.
    destruct H1 as [|i nl' H1]; eexists _, _; (split; [reflexivity|]); [discriminate|]. rewrite H1. discriminate.
  - eapply neghead_app; [eapply w_start; eassumption|apply H0; lia|]. right.
    destruct H1 as [|i nl' H1]; eexists _, _; (split; [reflexivity|]); [discriminate|]. rewrite H1. discriminate.
  - destruct p; try discriminate; apply neghead_other; try reflexivity; discriminate.
  - eapply neghead_app; [eapply w_start; eassumption|apply H0; lia|]. left. assumption.
  - assert (p <= 13)%nat by (destruct op; cbn in H; try discriminate; injection H as <- _; lia). lia.
Qed.

(** A text of precedence 3 or more that starts with [defined?] goes on with a
    parenthesis. *)
Definition DefHead (ts : list item) : Prop :=
  forall b r, skip_lt ts = (TRes rDefined, b) :: r -> exists b' r', r = (TP pLParen, b') :: r'.
Lemma defhead_other t b r : is_line_term t = false -> t <> TRes rDefined -> DefHead ((t, b) :: r).
Proof. intros L N b' r' H. cbn in H. rewrite L in H. injection H as -> _ _. congruence. Qed.
Lemma defhead_app p ts x : Starts p ts -> DefHead ts -> DefHead (ts ++ x).
Proof.
  intros (t & b & r & H & _) N b' r' K. rewrite (skip_app _ _ _ _ x H) in K. injection K as -> -> <-.
  destruct (N _ _ H) as (b1 & r1 & ->). exists b1, (r1 ++ x). reflexivity.
Qed.
Lemma def_head v p e ts o v' : wr v p e ts o v' -> (3 <= p)%nat -> DefHead ts.
Proof.
  revert v p e ts o v'. apply (writes_m false (fun v p e ts o v' => (3 <= p)%nat -> DefHead ts)
    (fun _ _ tl _ => DefHead tl) (fun _ _ _ _ => True) (fun _ _ _ _ => True) (fun _ _ _ _ _ => True)); intros; auto; try lia; try discriminate;
  try (apply defhead_other; [reflexivity|discriminate]);
  try (eapply defhead_app; [eapply w_start; eassumption|]; auto; (assumption || (match goal with H : _ -> DefHead _ |- DefHead _ => apply H; lia end)));
  try (eapply defhead_app; [eapply l_start; eassumption|assumption]).
  - intros b0 r K. cbn in K. injection K as _ <-. eexists _, _. reflexivity.
  - destruct p; try discriminate; apply defhead_other; try reflexivity; discriminate.
  - apply H0. lia.
Qed.

(** No text writes a splat. *)
Definition splatless (e : exp) : Prop := forall x, e <> XSplat x.
Lemma no_splat v p e ts o v' : wr v p e ts o v' -> splatless e.
Proof.
  revert v p e ts o v'. apply (writes_m false (fun v p e ts o v' => splatless e)
    (fun _ _ _ _ => True) (fun _ _ _ _ => True) (fun _ _ _ _ => True) (fun _ es _ _ _ => Forall splatless es));
    intros; auto; try (intros ?; discriminate).
  - destruct es as [|e [|]]; try (intros ?; discriminate). inversion H0. assumption.
  - destruct bo; intros ?; discriminate.
Qed.
End Main.

(** * Line ends before an operand *)
Definition entry (k : nt) : bool :=
  match k with PStmtL _ | PExprL _ | PBinL _ _ | PCallL _ => false | _ => true end.
Lemma operand_entry l : entry (operand l) = true.
Proof. destruct l; reflexivity. Qed.
Lemma line_first n k fl l b lvs : entry k = true ->
  parse n k fl (mkpst ((TLT, b) :: l) lvs) = parse n k fl (mkpst l lvs).
Proof.
  revert k fl. induction n as [|n IH]; intros k fl Hk; [reflexivity|]. cbn [parse].
  assert (P : peek ((TLT, b) :: l) = peek l) by reflexivity.
  assert (G : get (mkpst ((TLT, b) :: l) lvs) = get (mkpst l lvs)) by reflexivity.
  destruct k; try discriminate; cbn [body];
  unfold stmt_body, expr_body, not_body, arg_body, arg_assign_body, ternary_body, range_body, bin_body, eq_body,
    uminus_body, exp_body, unary_body, call_body, prim_body; cbn [p_in];
  rewrite ?P, ?G, ?IH by (reflexivity || apply operand_entry); reflexivity.
Qed.
Lemma ev_line k fl l b lvs r : entry k = true -> ev k fl (mkpst l lvs) r -> ev k fl (mkpst ((TLT, b) :: l) lvs) r.
Proof. intros Hk [n0 H]. exists n0. intros n Hn. rewrite line_first by exact Hk. apply H. exact Hn. Qed.

(** * What can follow *)
Definition rank (t : tok) : option nat :=
  match t with
  | TRes rAnd | TRes rOr => Some 1%nat
  | TRes rIf | TRes rUnless | TRes rWhile | TRes rUntil | TRes rRescue => Some O
  | TRes rDo => Some 99%nat
  | TP p =>
      match p with
      | pQuestion => Some 3%nat | pRange2 | pRange3 => Some 4%nat | pLOr => Some 5%nat | pLAnd => Some 6%nat
      | pEq | pTEq | pNe | pMatch | pUnmatch => Some 7%nat
      | pLt | pLe | pGt | pGe | pCmp => Some 8%nat
      | pBitOr | pBitXor => Some 9%nat | pBitAnd => Some 10%nat | pShl | pShr => Some 11%nat
      | pPlus | pMinus => Some 12%nat | pMul | pDiv | pRem => Some 13%nat
      | pAssign | pAssignOp _ => Some 14%nat | pDMul => Some 15%nat
      | pLBracket | pSafeNav | pScope => Some 17%nat
      | pLParen | pLBrace => Some 99%nat
      | _ => None
      end
  | _ => None
  end.
Definition below (k : nat) (t : tok) : Prop := match rank t with Some q => (q < k)%nat | None => True end.
Definition lim (k : nat) (o : ends) : nat := if e_open o then Nat.min k 2 else k.
Definition is_comma (t : tok) : bool := match t with TP pComma => true | _ => false end.
Definition is_dot (t : tok) : bool := match t with TP pDot => true | _ => false end.
(** [p]: the precedence of what was written, [k]: what may follow is below [k] *)
Record follow (p k : nat) (o : ends) (fl : flags) (rest : list item) : Prop := mkfollow {
  fo_rank : below (lim k o) (peek_no_term rest);
  fo_dot : (k < 18)%nat -> is_dot (peek rest) = false;
  fo_cmd : e_name o = true -> is_command rest = false;
  fo_comma : e_open o = true -> f_sm fl = true \/ is_comma (peek rest) = false;
  fo_comma1 : (p <= 1)%nat -> is_comma (peek_no_term rest) = false
}.
Lemma lim_le k o : (lim k o <= k)%nat.
Proof. unfold lim. destruct (e_open o); lia. Qed.
Lemma lim_mono k k' o : (k <= k')%nat -> (lim k o <= lim k' o)%nat.
Proof. unfold lim. destruct (e_open o); lia. Qed.
Lemma below_mono k k' t : (k <= k')%nat -> below k t -> below k' t.
Proof. unfold below. destruct (rank t); [lia|auto]. Qed.
Lemma fo_below p k o fl rest : follow p k o fl rest -> below k (peek_no_term rest).
Proof. intros F. eapply below_mono; [apply lim_le|apply F]. Qed.
Lemma follow_mono p k p' k' o fl rest : (k <= k')%nat -> (2 <= p' \/ p <= p')%nat -> (p' <= 1 -> p <= 1)%nat ->
  follow p k o fl rest -> follow p' k' o fl rest.
Proof.
  intros Hk _ Hp [A B C D F]. constructor; auto.
  - eapply below_mono; [apply lim_mono; exact Hk|exact A].
  - intros H. apply B. lia.
Qed.

(** * The levels *)
Definition nt_of (p : nat) : nt :=
  match p with
  | 0 => PStmt | 1 => PExpr | 2 => PArg | 3 => PTernary | 4 => PRange | 5 => PBin lvLor | 6 => PBin lvLand
  | 7 => PEq | 8 => PBin lvComp | 9 => PBin lvBitor | 10 => PBin lvBitand | 11 => PBin lvShift
  | 12 => PBin lvAdd | 13 => PBin lvMul | 14 => PUMinus | 15 => PExp | 16 => PUnary | _ => PCall
  end%nat.
Definition loop_of (p : nat) (n : node) : option nt :=
  match p with
  | 0 => Some (PStmtL n) | 1 => Some (PExprL n) | 5 => Some (PBinL lvLor n) | 6 => Some (PBinL lvLand n)
  | 8 => Some (PBinL lvComp n) | 9 => Some (PBinL lvBitor n) | 10 => Some (PBinL lvBitand n)
  | 11 => Some (PBinL lvShift n) | 12 => Some (PBinL lvAdd n) | 13 => Some (PBinL lvMul n)
  | 17 => Some (PCallL n)
  | _ => None
  end%nat.
Definition np (p : nat) : nat := match loop_of p (NAtom aNil) with Some _ => S p | None => p end.
Definition after (p : nat) (n : node) (fl : flags) (s : pst) (r : pres node) : Prop :=
  match loop_of p n with Some k => ev k fl s r | None => r = POk n s end.
Lemma entry_nt p : entry (nt_of p) = true.
Proof. do 18 (destruct p as [|p]; [reflexivity|]). reflexivity. Qed.

Definition not_ident (n : node) : Prop := forall id, n <> NIdent id.
(** The parser reads [ts] as [e] and goes on with what follows. *)
Definition TQ (Q : node -> Prop) (v : list Z) (p : nat) (e : exp) (ts : list item) (o : ends) (v' : list Z) : Prop :=
  forall fl rest, f_sa fl = false -> follow p (np p) o fl rest ->
  exists nd, tree nd = e /\ Q nd /\
    forall r, after p nd fl (mkpst rest v') r -> ev (nt_of p) fl (mkpst (ts ++ rest) v) r.
Definition RQ (Q : node -> Prop) (v : list Z) (p : nat) (e : exp) (ts : list item) (o : ends) (v' : list Z) : Prop :=
  forall fl rest, f_sa fl = false -> follow p p o fl rest ->
  exists nd, tree nd = e /\ Q nd /\ ev (nt_of p) fl (mkpst (ts ++ rest) v) (POk nd (mkpst rest v')).
Definition any (n : node) : Prop := True.
Notation T := (TQ any).
Notation R := (RQ any).
(** the tree of a node on the left of an assignment *)
Definition ltree (n : node) : exp := match n with NIdent id => XVar id | _ => tree n end.
Definition L (v : list Z) (l : exp) (tl : list item) (v' : list Z) : Prop :=
  forall fl rest, f_sa fl = false -> below 15 (peek_no_term rest) -> is_dot (peek rest) = false ->
  is_command rest = false -> trailing_lparen rest = false -> is_comma (peek_no_term rest) = false ->
  exists nd, ltree nd = l /\ (forall x u, incl v' u -> check_lhs nd (mkpst x u) = mkpst x (declared l u)) /\
    ev PExp fl (mkpst (tl ++ rest) v) (POk nd (mkpst rest v')).

(** * Where nothing follows that belongs to the text *)
(** what the functions without a loop look for does not follow *)
Ltac nohead B := match goal with |- E ?f _ => idtac end;
  match type of B with below _ ?t => unfold below in B; destruct t as [| | | | | | | | | | |rr|pp]; cbn [operator]; try apply E_const;
    try (destruct rr; cbn in B; try lia; cbn [operator]; apply E_const);
    try (destruct pp; cbn in B; try lia; cbn [operator]; apply E_const) end.
Lemma loop_stops p o fl rest nd lvs k : follow p p o fl rest -> loop_of p nd = Some k ->
  ev k fl (mkpst rest lvs) (POk nd (mkpst rest lvs)).
Proof.
  intros F HL. pose proof (fo_below _ _ _ _ _ F) as B. pose proof (fo_dot _ _ _ _ _ F) as D.
  apply ev_step.
  do 18 try destruct p as [|p]; try discriminate HL; injection HL as <-; cbn [body];
    unfold stmt_loop, expr_loop, bin_loop, call_loop; cbn [p_in].
  all: try solve [nohead B].
  unfold below in B. specialize (D ltac:(lia)).
  assert (G : E (fun n => match peek_no_term rest with
      | TP pSafeNav => do t, s <- get (mkpst rest lvs) ;; do m, s <- primary_method (parsel n) nd true fl s ;; parse n (PCallL m) fl s
      | TP pScope => PStuck
      | TP pLBracket =>
          do t, s <- get (mkpst rest lvs) ;;
          do l, s <- parsel n (LRhs true []) (mkflags (f_sa fl) true) s ;; parse n (PCallL (NIndex nd l)) fl s
      | _ => POk nd (mkpst rest lvs)
      end) (POk nd (mkpst rest lvs))).
  { destruct (peek_no_term rest) as [| | | | | | | | | | |rr|pp]; try apply E_const.
    destruct pp; cbn in B; try lia; apply E_const. }
  destruct (peek rest) as [| | | | | | | | | | |rr|pp]; try exact G.
  destruct pp; try exact G. discriminate.
Qed.
Lemma T_R Q v p e ts o v' : TQ Q v p e ts o v' -> RQ Q v p e ts o v'.
Proof.
  intros HT fl rest Hs F.
  destruct (HT fl rest Hs) as (nd & A & B & D).
  { eapply follow_mono; [| | |exact F]; auto. unfold np. destruct (loop_of p (NAtom aNil)); lia. }
  exists nd. split; [exact A|]. split; [exact B|]. apply D. unfold after.
  destruct (loop_of p nd) eqn:HL; [|reflexivity]. eapply loop_stops; eauto.
Qed.
Lemma T_any Q v p e ts o v' : TQ Q v p e ts o v' -> T v p e ts o v'.
Proof. intros HT fl rest Hs F. destruct (HT fl rest Hs F) as (nd & A & _ & D). exists nd. repeat split; auto. Qed.
Lemma np_le p : (np p <= S p)%nat.
Proof. unfold np. destruct (loop_of p (NAtom aNil)); lia. Qed.
Lemma after_stop p nd fl rest lvs r o : follow p (np p) o fl rest -> loop_of p nd = None ->
  after p nd fl (mkpst rest lvs) r -> r = POk nd (mkpst rest lvs).
Proof. unfold after. intros _ ->. auto. Qed.

(** the levels that are loops over binary operators *)
Definition lev_at (p : nat) : option lev :=
  match p with
  | 5 => Some lvLor | 6 => Some lvLand | 8 => Some lvComp | 9 => Some lvBitor | 10 => Some lvBitand
  | 11 => Some lvShift | 12 => Some lvAdd | 13 => Some lvMul | _ => None
  end%nat.
Lemma lev_at_ok p l : lev_at p = Some l ->
  nt_of p = PBin l /\ nt_of (S p) = operand l /\ (forall n, loop_of p n = Some (PBinL l n)) /\ np p = S p /\ (2 <= p)%nat.
Proof.
  do 14 (destruct p as [|p]; [cbn; intros H; try discriminate; injection H as <-; repeat split; lia|]). discriminate.
Qed.
Lemma left_op_lev op p bo : left_op op = Some (p, bo) ->
  exists l, lev_at p = Some l /\ operator l (TP op) = Some bo.
Proof. destruct op; cbn; try discriminate; intros H; injection H as <- <-; eexists; split; reflexivity. Qed.
Lemma bin_enter l fl s nd s' r :
  ev (operand l) fl s (POk nd s') -> ev (PBinL l nd) fl s' r -> ev (PBin l) fl s r.
Proof.
  intros A B. apply ev_step. cbn [body]. unfold bin_body. eapply E_bind; [exact A|]. cbn beta.
  destruct (stops_at_line_end l && is_line_term (peek_no_term (p_in s'))) eqn:Q; [|exact B].
  apply andb_true_iff in Q. destruct Q as [_ Q].
  assert (K : ev (PBinL l nd) fl s' (POk nd s')).
  { apply ev_step. cbn [body]. unfold bin_loop.
    destruct (peek_no_term (p_in s')) as [| | | | | | | | | | |rr|pp]; try discriminate.
    - destruct l; cbn [operator]; apply E_const.
    - destruct pp; try discriminate. destruct l; cbn [operator]; apply E_const. }
  rewrite (E_unique _ _ _ _ B K). apply E_const.
Qed.

Lemma acc_assign_none n lhs fl s : below 14 (peek_no_term (p_in s)) ->
  acc_assign (parse n) (parsel n) lhs fl s = POk lhs s.
Proof.
  intros B. unfold acc_assign. destruct (f_sa fl); [reflexivity|]. unfold below in B.
  destruct (peek_no_term (p_in s)) as [| | | | | | | | | | |rr|pp]; try reflexivity.
  destruct pp; cbn in B; try lia; reflexivity.
Qed.

Lemma up_args Q v p e ts o v' fl rest : RQ Q v (S p) e ts o v' -> f_sa fl = false ->
  follow p (np p) o fl rest ->
  exists nd, tree nd = e /\ Q nd /\ ev (nt_of (S p)) fl (mkpst (ts ++ rest) v) (POk nd (mkpst rest v')).
Proof.
  intros HR Hs F. apply (HR fl rest Hs). eapply follow_mono; [| | |exact F]; [apply np_le|lia|lia].
Qed.
Lemma T_up Q lvs p e ts o lvs' : (p < 17)%nat -> writes false lvs (S p) e ts o lvs' -> TQ Q lvs (S p) e ts o lvs' ->
  TQ Q lvs p e ts o lvs'.
Proof.
  intros Hp W HT. apply T_R in HT. intros fl rest Hs F.
  destruct (up_args _ _ _ _ _ _ _ _ _ HT Hs F) as (nd & A & Bn & D).
  exists nd. split; [exact A|]. split; [exact Bn|]. intros r Hr.
  pose proof (fo_below _ _ _ _ _ F) as B.
  destruct (lev_at p) as [l|] eqn:HL.
  - destruct (lev_at_ok _ _ HL) as (N1 & N2 & N3 & N4 & N5). rewrite N1. rewrite N2 in D. unfold after in Hr.
    rewrite N3 in Hr. eapply bin_enter; eauto.
  - assert (ST : Starts (S p) (ts ++ rest)) by (apply starts_app; eapply w_start; eauto).
    destruct ST as (t & b & r0 & S1 & S2).
    do 17 try destruct p as [|p]; try discriminate HL; [.. | exfalso; lia]; cbn [nt_of] in *; unfold after in Hr; cbn [loop_of] in Hr.
    + (* 0 *) apply ev_step. cbn [body]. unfold stmt_body. eapply E_bind; [exact D|]. exact Hr.
    + (* 1 *) apply ev_step. cbn [body]. unfold expr_body. eapply E_bind; [|exact Hr].
      apply ev_step. cbn [body]. unfold not_body. eapply E_bind; [exact D|]. cbn beta. cbn [p_in].
      pose proof (fo_comma1 _ _ _ _ _ F ltac:(lia)) as Qc.
      destruct (peek_no_term rest) as [| | | | | | | | | | |rr|pp]; try apply E_const.
      destruct pp; try apply E_const. discriminate.
    + (* 2 *) subst r. apply ev_step. cbn [body]. unfold arg_body. cbn [p_in].
      assert (G : ev PArgAssign fl (mkpst (ts ++ rest) lvs) (POk nd (mkpst rest lvs'))).
      { apply ev_step. cbn [body]. unfold arg_assign_body. eapply E_bind; [exact D|]. cbn beta. cbn [p_in].
        destruct (is_line_term (peek_no_term rest)); [apply E_const|]. nohead B. }
      rewrite (peek_at _ _ _ _ S1). destruct t as [| | | | | | | | | | |rr|pp]; try exact G. destruct rr; try exact G.
      destruct (w_start _ _ _ _ _ _ W) as (t1 & b1 & r1 & S3 & _).
      pose proof (skip_app _ _ _ _ rest S3) as S4. rewrite S1 in S4. injection S4 as <- <- E0.
      destruct (def_head _ _ _ _ _ _ W ltac:(lia) _ _ S3) as (b' & r' & ->).
      rewrite (get_at _ _ _ _ _ S1) by discriminate. cbn [pbind]. rewrite E0. cbn [p_in peek_no_term app]. exact G.
    + (* 3 *) subst r. apply ev_step. cbn [body]. unfold ternary_body. eapply E_bind; [exact D|]. cbn beta. cbn [p_in]. nohead B.
    + (* 4 *) subst r. apply ev_step. cbn [body]. unfold range_body. eapply E_bind; [exact D|]. cbn beta. cbn [p_in].
      destruct (is_line_term (peek_no_term rest)) eqn:Ql; [apply E_const|]. rewrite (peek_here _ Ql). nohead B.
    + (* 7 *) subst r. apply ev_step. cbn [body]. unfold eq_body. eapply E_bind; [exact D|]. cbn beta. cbn [p_in]. nohead B.
    + (* 14 *) subst r. apply ev_step. cbn [body]. unfold uminus_body. cbn [p_in]. rewrite (peek_at _ _ _ _ S1).
      assert (G : E (fun n => do e0, s1 <- parse n PExp fl (mkpst (ts ++ rest) lvs);; acc_assign (parse n) (parsel n) e0 fl s1)
                    (POk nd (mkpst rest lvs'))).
      { eapply E_bind; [exact D|]. cbn beta. exists O. intros n _. apply acc_assign_none. exact B. }
      destruct t as [| | | | | | | | | | |rr|pp]; try exact G. destruct pp; try exact G.
      destruct (w_start _ _ _ _ _ _ W) as (t1 & b1 & r1 & S3 & _).
      pose proof (skip_app _ _ _ _ rest S3) as S4. rewrite S1 in S4. injection S4 as <- <- E0.
      destruct (neg_head _ _ _ _ _ _ W ltac:(lia) _ _ S3) as (k & z & r' & -> & Q').
      rewrite (get_at _ _ _ _ _ S1) by discriminate. cbn [pbind]. rewrite E0. cbn [p_in peek_no_term app].
      eapply E_bind. { apply ev_step. cbn [body]. unfold prim_body. cbn. apply E_const. }
      cbn beta. cbn [p_in].
      destruct Q' as [[-> Q']|(i & r'' & -> & Q')].
      * cbn [app]. unfold below in B. destruct (peek_no_term rest) as [| | | | | | | | | | |rr|pp]; try exact D.
        destruct pp; cbn in B; try lia; exact D.
      * destruct i as [t' b']. cbn [app peek_no_term]. cbn in Q'. destruct t' as [| | | | | | | | | | |rr|pp]; try exact D.
        destruct pp; try congruence; exact D.
    + (* 15 *) subst r. apply ev_step. cbn [body]. unfold exp_body. eapply E_bind; [exact D|]. cbn beta. cbn [p_in]. nohead B.
    + (* 16 *) subst r. apply ev_step. cbn [body]. unfold unary_body. cbn [p_in]. rewrite (peek_at _ _ _ _ S1).
      destruct t as [| | | | | | | | | | |rr|pp]; try exact D. destruct pp; try exact D; discriminate S2.
Qed.

