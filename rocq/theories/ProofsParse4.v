(** Lemmas about the parser: what is printed is a text of the expression. *)
From Coq Require Import ZArith List Bool Lia.
From Verif Require Import Base ModelParse SpecParse ProofsParse.
Import ListNotations.
Open Scope Z_scope.

(** induction over trees, with the lists in them *)
Section Ind.
Variable P : exp -> Prop.
Definition right_of (e : exp) : Prop := match e with XBin _ _ r => P r | _ => True end.
Hypothesis Hnum : forall k n z, P (XNum k n z).
Hypothesis Hatom : forall a, P (XAtom a).
Hypothesis Hvar : forall id, P (XVar id).
Hypothesis Hivar : forall id, P (XIvar id).
Hypothesis Hgvar : forall id, P (XGvar id).
Hypothesis Hcvar : forall id, P (XCvar id).
Hypothesis Hconst : forall id, P (XConst id).
Hypothesis Hbin : forall b l r, P l -> P r -> P (XBin b l r).
Hypothesis Hun : forall u e, P e -> right_of e -> P (XUn u e).
Hypothesis Hrange : forall x l r, P l -> P r -> P (XRange x l r).
Hypothesis Hif : forall c t e, P c -> P t -> P e -> P (XIf c t e).
Hypothesis Hwhile : forall c b op, P c -> P b -> P (XWhile c b op).
Hypothesis Hrescue : forall b r, P b -> P r -> P (XRescue b r).
Hypothesis Hassign : forall l r, P l -> P r -> P (XAssign l r).
Hypothesis Hop : forall b l r, P l -> P r -> P (XOp b l r).
Hypothesis Hmul : forall l r, P (XMul l r).
Hypothesis Hindex : forall e l, P e -> Forall P l -> P (XIndex e l).
Hypothesis Hsend : forall e m l s, P e -> Forall P l -> P (XSend e m l s).
Hypothesis Harr : forall l, Forall P l -> P (XArr l).
Hypothesis Hsplat : forall e, P (XSplat e).
Hypothesis Hdef : forall e, P e -> P (XDef e).
Hypothesis Hseq : forall l, Forall P l -> P (XSeq l).
Fixpoint exp_tree (e : exp) : P e :=
  let all := fix all (l : list exp) : Forall P l :=
    match l with [] => Forall_nil P | x :: r => Forall_cons x (exp_tree x) (all r) end in
  match e with
  | XNum k n z => Hnum k n z | XAtom a => Hatom a | XVar id => Hvar id | XIvar id => Hivar id
  | XGvar id => Hgvar id | XCvar id => Hcvar id | XConst id => Hconst id
  | XBin b l r => Hbin b l r (exp_tree l) (exp_tree r) 
  | XUn u e => Hun u e (exp_tree e)
      (match e as e0 return right_of e0 with XBin _ _ r => exp_tree r | _ => I end)
  | XRange x l r => Hrange x l r (exp_tree l) (exp_tree r)
  | XIf c t e => Hif c t e (exp_tree c) (exp_tree t) (exp_tree e)
  | XWhile c b op => Hwhile c b op (exp_tree c) (exp_tree b)
  | XRescue b r => Hrescue b r (exp_tree b) (exp_tree r)
  | XAssign l r => Hassign l r (exp_tree l) (exp_tree r) | XOp b l r => Hop b l r (exp_tree l) (exp_tree r)
  | XMul l r => Hmul l r | XIndex e l => Hindex e l (exp_tree e) (all l)
  | XSend e m l s => Hsend e m l s (exp_tree e) (all l) | XArr l => Harr l (all l)
  | XSplat e => Hsplat e | XDef e => Hdef e (exp_tree e) | XSeq l => Hseq l (all l)
  end.
End Ind.

Lemma show_if c t e : show (XIf c t e) =
  if is_seq0 e then join 0 (show t) (TRes rIf) (put 1 never (show c))
  else if is_seq0 t then join 0 (show e) (TRes rUnless) (put 1 never (show c))
  else mktext 3 (t_toks (put 4 is_open (show c)) ++ sp (TP pQuestion) :: t_toks (put 2 never (show t))
         ++ sp (TP pColon) :: t_toks (put 3 never (show e))) (t_ends (put 3 never (show e))).
Proof. reflexivity. Qed.
Lemma show_neg e : 
  (exists k z r, e = XBin Exp (XNum k false z) r) \/
  show (XUn Neg e) = mktext 14 (sp (TP pMinus) :: t_toks (put 14 is_num (show e))) (t_ends (put 14 is_num (show e))).
Proof.
  destruct e as [| | | | | | |b l r| | | | | | | | | | | | | |]; try (right; reflexivity).
  destruct b; try (right; reflexivity). destruct l as [k neg z| | | | | | | | | | | | | | | | | | | | |]; try (right; reflexivity).
  destruct neg; [right; reflexivity|]. left. eauto.
Qed.

Lemma each_eq v l :
  (fix each (v : list Z) (l : list exp) {struct l} : option (list Z) :=
     match l with [] => Some v | x :: r => next (printable v x) (fun v0 => each v0 r) end) v l = printables v l.
Proof. revert v. induction l as [|x l IH]; intros v; [reflexivity|]. cbn [printables]. destruct (printable v x); [apply IH|reflexivity]. Qed.
Lemma printable_index v e es : printable v (XIndex e es) = next (printable v e) (fun v => printables v es).
Proof. cbn [printable]. destruct (printable v e); [apply each_eq|reflexivity]. Qed.
Lemma printable_send v e m es s : printable v (XSend e m es s) = if s then None else next (printable v e) (fun v => printables v es).
Proof. cbn [printable]. destruct s; [reflexivity|]. destruct (printable v e); [apply each_eq|reflexivity]. Qed.
Lemma printable_arr v es : printable v (XArr es) = printables v es.
Proof. apply each_eq. Qed.
Lemma printable_seq v es : printable v (XSeq es) = match es with [_] => None | _ => printables v es end.
Proof. destruct es as [|e [|e' es]]; [reflexivity|reflexivity|]. exact (each_eq v (e :: e' :: es)). Qed.
Lemma next_some A B (x : option A) (f : A -> option B) b : next x f = Some b -> exists a, x = Some a /\ f a = Some b.
Proof. destruct x; [|discriminate]. eauto. Qed.

Section Print.
Notation wr := (writes false).
Definition good (v : list Z) (e : exp) (x : text) (v' : list Z) : Prop :=
  (t_prec x <= 17)%nat /\ wr v (t_prec x) e (t_toks x) (t_ends x) v' /\ spaced (t_toks x) = true.

Lemma w_down v p q e ts o v' : (p <= q <= 17)%nat -> wr v q e ts o v' -> wr v p e ts o v'.
Proof.
  intros H. remember (q - p)%nat as d. revert p H Heqd. induction d as [|d IH]; intros p H Hd W.
  - replace p with q by lia. exact W.
  - apply W_up; [lia|]. apply IH; [lia|lia|exact W].
Qed.
Lemma W_paren1 v e ts o v' b b' : wr v 0 e ts o v' -> wr v 17 e ((TP pLParen, b) :: ts ++ [(TP pRParen, b')]) closed v'.
Proof. intros W. apply (W_paren false v [e] ts o v' b b'). apply S_last. exact W. Qed.
Lemma spaced_app ts x : spaced ts = true -> spaced (ts ++ x) = true.
Proof. destruct ts; [discriminate|]. auto. Qed.
Lemma put_ok p bad v e x v' : good v e x v' -> (p <= 17)%nat ->
  wr v p e (t_toks (put p bad x)) (t_ends (put p bad x)) v' /\ spaced (t_toks (put p bad x)) = true /\
  (put p bad x = x /\ bad x = false \/ put p bad x = mktext 17 (wrap (t_toks x)) closed).
Proof.
  intros (A & B & C) Hp. unfold put. destruct (Nat.ltb_spec (t_prec x) p) as [L|L]; [|destruct (bad x) eqn:Q]; cbn [orb t_toks t_ends].
  - split; [|auto]. apply w_down with 17%nat; [lia|]. eapply W_paren1. apply w_down with (t_prec x); [lia|exact B].
  - split; [|auto]. apply w_down with 17%nat; [lia|]. eapply W_paren1. apply w_down with (t_prec x); [lia|exact B].
  - split; [|auto]. apply w_down with (t_prec x); [lia|exact B].
Qed.
Lemma put_never p v e x v' : good v e x v' -> (p <= 17)%nat ->
  wr v p e (t_toks (put p never x)) (t_ends (put p never x)) v' /\ spaced (t_toks (put p never x)) = true.
Proof. intros G Hp. destruct (put_ok p never v e x v' G Hp) as (A & B & _). auto. Qed.
Lemma put_open p bad v e x v' : good v e x v' -> (p <= 17)%nat -> (forall y, bad y = false -> is_open y = false) ->
  e_open (t_ends (put p bad x)) = false.
Proof.
  intros G Hp H. destruct (put_ok p bad v e x v' G Hp) as (_ & _ & [[-> Q]| ->]); [apply H; exact Q|reflexivity].
Qed.
Lemma put_num p v e x v' : good v e x v' -> (p <= 17)%nat -> num_first (t_toks (put p is_num x)) = false.
Proof. intros G Hp. destruct (put_ok p is_num v e x v' G Hp) as (_ & _ & [[-> Q]| ->]); [exact Q|reflexivity]. Qed.
(** what is printed is a text of the expression *)
Definition P (e : exp) : Prop := forall v v', printable v e = Some v' -> good v e (show e) v'.
Lemma commas_elements es : Forall P es -> forall v v', printables v es = Some v' -> elements false v es (commas never (map show es)) v'.
Proof.
  induction 1 as [|e es G H IH]; intros v v' Q; [injection Q as <-; constructor|]. cbn [map commas printables] in *.
  destruct (next_some _ _ _ _ _ Q) as (v1 & Q1 & Q2). specialize (G _ _ Q1).
  destruct (put_never 2 _ e _ _ G ltac:(lia)) as [A B].
  destruct es as [|e2 es]; [injection Q2 as <-; eapply E_last; exact A|]. cbn [map] in *. eapply E_next; [exact A|apply IH; exact Q2|discriminate].
Qed.
Lemma commas_arguments es : Forall P es -> forall v v', printables v es = Some v' -> arguments false v es (commas is_open (map show es)) v'.
Proof.
  induction 1 as [|e es G H IH]; intros v v' Q; [injection Q as <-; constructor|]. cbn [map commas printables] in *.
  destruct (next_some _ _ _ _ _ Q) as (v1 & Q1 & Q2). specialize (G _ _ Q1).
  destruct (put_never 2 _ e _ _ G ltac:(lia)) as [A B].
  destruct (put_ok 2 is_open _ e _ _ G ltac:(lia)) as (A2 & _ & _).
  pose proof (put_open 2 is_open _ e _ _ G ltac:(lia) (fun y Q => Q)) as O2.
  destruct es as [|e2 es]; [injection Q2 as <-; eapply A_last; exact A|]. cbn [map] in *.
  eapply A_next; [exact A2|intros _; exact O2|apply IH; exact Q2|discriminate].
Qed.
Lemma lines_statements t es : t = TLT \/ t = TP pSemi -> Forall P es ->
  forall v v', printables v es = Some v' -> exists o, statements false v es (lines t (map show es)) o v'.
Proof.
  intros Ht. induction 1 as [|e es G H IH]; intros v v' Q; [injection Q as <-; eexists; constructor|]. cbn [map lines printables] in *.
  destruct (next_some _ _ _ _ _ Q) as (v1 & Q1 & Q2). destruct (G _ _ Q1) as (G1 & G2 & _).
  assert (W0 : wr v 0 e (t_toks (show e)) (t_ends (show e)) v1) by (apply w_down with (t_prec (show e)); [lia|exact G2]).
  destruct es as [|e2 es]; [injection Q2 as <-; eexists; apply S_last; exact W0|].
  destruct (IH _ _ Q2) as (o & IH'). exists o. cbn [map] in *.
  apply (S_next false v e (t_toks (show e)) (t_ends (show e)) v1 [(t, false)] (e2 :: es) _ o v'); [exact W0| |exact IH'].
  split; [discriminate|]. constructor; [exact Ht|constructor].
Qed.
Lemma bin_ok b l r v v1 v' : good v l (show l) v1 -> good v1 r (show r) v' -> good v (XBin b l r) (show (XBin b l r)) v'.
Proof.
  intros GL GR. cbn [show]. destruct (infix b) as [[[op q] pl] pr] eqn:I.
  assert (K : (q <= 17 /\ pl <= 17 /\ pr <= 17)%nat) by (destruct b; injection I as <- <- <- <-; lia).
  destruct K as (K1 & K2 & K3).
  set (bad := fun x => is_open x || is_exp b && is_neg x).
  destruct (put_ok pl bad _ l _ _ GL K2) as (A1 & B1 & D1).
  assert (O1 : e_open (t_ends (put pl bad (show l))) = false).
  { apply (put_open _ _ _ l _ _ GL K2). intros y Q. apply orb_false_iff in Q. apply Q. }
  assert (N1 : is_exp b = true -> e_neg (t_ends (put pl bad (show l))) = false).
  { intros Q. destruct D1 as [[-> H]| ->]; [|reflexivity]. unfold bad in H. rewrite Q in H. apply orb_false_iff in H. apply H. }
  destruct (put_never pr _ r _ _ GR K3) as [A2 B2].
  unfold good, join. cbn [t_prec t_toks t_ends]. split; [exact K1|]. split; [|apply spaced_app; exact B1].
  assert (G : forall o, gap o op true (t_toks (put pr never (show r)))) by (intros o _ _ _; exact B2).
  destruct b; injection I as <- <- <- <-;
  first [eapply W_left; [reflexivity|exact A1|exact O1|apply G|exact A2]
        |eapply W_equal; [reflexivity|exact A1|exact O1|exact A2]
        |eapply W_compare; [exact A1|exact O1|exact A2]
        |eapply W_power; [exact A1|apply N1; reflexivity|exact A2]].
Qed.
Lemma minus_first_lead ts x : minus_first (ts ++ x) = false -> minus_first ts = false.
Proof. induction ts as [|[t b] ts IH]; [reflexivity|]. cbn. destruct t as [| | | | | | | | | | |rr|pp]; auto. Qed.
Lemma target_ok l v v' :
  match l with
  | XVar _ => Some v
  | XIvar _ | XGvar _ | XCvar _ | XConst _ | XIndex _ _ | XSend _ _ [] false =>
      if minus_first (t_toks (show l)) then None else printable v l
  | _ => None
  end = Some v' -> P l -> (forall e m es s, l = XSend e m es s -> P e) ->
  left_side false v l (t_toks (show l)) v' /\ spaced (t_toks (show l)) = true.
Proof.
  intros H G GS. destruct l as [| |id| | | | | | | | | | | | | |e es|e m es safe| | | |]; try discriminate.
  { injection H as <-. split; [apply L_var|reflexivity]. }
  6:{ destruct es as [|? ?]; [destruct safe|]; try discriminate.
      destruct (minus_first _) eqn:M; [discriminate|]. rewrite printable_send in H. destruct (next_some _ _ _ _ _ H) as (v1 & Q1 & Q2).
      injection Q2 as <-. destruct (put_never 17 _ e _ _ (GS _ _ _ _ eq_refl _ _ Q1) ltac:(lia)) as [A1 B1]. cbn [show t_toks] in *.
      split; [|apply spaced_app; exact B1]. apply (L_attr false v e _ _ v1 [] m true true A1); [constructor|].
      intros _. eapply minus_first_lead. exact M. }
  all: match type of H with (if ?c then _ else _) = _ => destruct c eqn:M; [discriminate|] end;
    destruct (G _ _ H) as (G1 & G2 & G3); (split; [|exact G3]); eapply (L_old _ _ _ _ _ _ G2); [reflexivity|intros _; exact M].
Qed.
Ltac leafs lem := intros v v' H; cbn in H; injection H as <-; split; [cbn; lia|]; split; [apply lem|reflexivity].
Lemma show_ok e : P e /\ match e with XSend e _ _ _ => P e | _ => True end.
Proof.
  induction e as [k n z|a|id|id|id|id|id|b l r IHl IHr|u e IH IH2|x l r IHl IHr|c t e IHc IHt IHe|c b op IHc IHb|b r IHb IHr
    |l r IHl IHr|b l r IHl IHr|l r|e l IHe IHl|e m l s IHe IHl|l IHl|e|e IH|l IHl] using exp_tree; (split; [|try exact I]);
    repeat match goal with H : P _ /\ _ |- _ => let H' := fresh H "s" in destruct H as [H H'] end.
  - destruct n; [leafs W_negative|leafs W_num].
  - leafs W_atom.
  - intros v v' H. cbn in H. destruct (existsb (Z.eqb id) v) eqn:Q; [|discriminate]. injection H as <-.
    split; [cbn; lia|]. split; [|reflexivity]. apply W_var. apply existsb_exists in Q. destruct Q as (y & Hy & E0).
    apply Z.eqb_eq in E0. subst y. exact Hy.
  - leafs W_ivar.
  - leafs W_gvar.
  - leafs W_cvar.
  - leafs W_const.
  - intros v v' H. cbn [printable] in H. destruct (next_some _ _ _ _ _ H) as (v1 & H1 & H2). eapply bin_ok; [apply IHl; exact H1|apply IHr; exact H2].
  - intros v v' H. cbn [printable] in H. pose proof (IH _ _ H) as GE. destruct u.
    + destruct (put_never 16 _ e _ _ GE ltac:(lia)) as [A B]. split; [cbn; lia|]. split; [|reflexivity]. cbn [show before t_prec t_toks t_ends].
      eapply W_prefix; [reflexivity|exact A|discriminate].
    + destruct (put_never 16 _ e _ _ GE ltac:(lia)) as [A B]. split; [cbn; lia|]. split; [|reflexivity]. cbn [show before t_prec t_toks t_ends].
      eapply W_prefix; [reflexivity|exact A|discriminate].
    + destruct (put_ok 16 is_num _ e _ _ GE ltac:(lia)) as (A & B & _). split; [cbn; lia|]. split; [|reflexivity]. cbn [show before t_prec t_toks t_ends].
      eapply W_prefix; [reflexivity|exact A|]. intros _. apply (put_num _ _ e _ _ GE). lia.
    + destruct (show_neg e) as [(k & z & r & ->)| E0].
      * cbn in H. cbn [right_of] in IH2. destruct IH2 as [IH2 _]. destruct (put_never 15 _ r _ _ (IH2 _ _ H) ltac:(lia)) as [A B]. split; [cbn; lia|].
        split; [|reflexivity]. cbn [show t_prec t_toks t_ends]. apply W_minus_power. exact A.
      * rewrite E0. destruct (put_ok 14 is_num _ e _ _ GE ltac:(lia)) as (A & B & _). split; [cbn; lia|]. split; [|reflexivity]. cbn [t_prec t_toks t_ends].
        apply W_minus; [exact A|]. apply (put_num _ _ e _ _ GE). lia.
  - intros v v' H. cbn [printable] in H. destruct (next_some _ _ _ _ _ H) as (v1 & H1 & H2).
    pose proof (IHl _ _ H1) as GL. pose proof (IHr _ _ H2) as GR. cbn [show].
    destruct (put_ok 5 is_open _ l _ _ GL ltac:(lia)) as (A1 & B1 & _).
    pose proof (put_open 5 is_open _ l _ _ GL ltac:(lia) (fun y Q => Q)) as O1.
    destruct (put_never 5 _ r _ _ GR ltac:(lia)) as [A2 B2].
    split; [cbn; lia|]. split; [|apply spaced_app; exact B1]. cbn [t_prec t_toks t_ends join].
    eapply W_range; [|exact A1|exact O1|exact A2]. destruct x; reflexivity.
  - intros v v' H. cbn [printable] in H. rewrite show_if.
    destruct (is_seq0 e) eqn:Q.
    { destruct e as [| | | | | | | | | | | | | | | | | | | | |[|]]; try discriminate.
      destruct (next_some _ _ _ _ _ H) as (v1 & H1 & H2). destruct (IHt _ _ H1) as (G1 & G2 & G3).
      destruct (put_never 1 _ c _ _ (IHc _ _ H2) ltac:(lia)) as [A1 B1].
      split; [cbn; lia|]. split; [|apply spaced_app; exact G3]. cbn [t_prec t_toks t_ends join].
      eapply W_if; [|exact A1]. apply w_down with (t_prec (show t)); [lia|exact G2]. }
    destruct (is_seq0 t) eqn:Q2.
    { destruct t as [| | | | | | | | | | | | | | | | | | | | |[|]]; try discriminate.
      destruct (next_some _ _ _ _ _ H) as (v1 & H1 & H2). destruct (IHe _ _ H1) as (G1 & G2 & G3).
      destruct (put_never 1 _ c _ _ (IHc _ _ H2) ltac:(lia)) as [A1 B1].
      split; [cbn; lia|]. split; [|apply spaced_app; exact G3]. cbn [t_prec t_toks t_ends join].
      eapply W_unless; [|exact A1]. apply w_down with (t_prec (show e)); [lia|exact G2]. }
    destruct (next_some _ _ _ _ _ H) as (v1 & H1 & H'). destruct (next_some _ _ _ _ _ H') as (v2 & H2 & H3).
    pose proof (IHc _ _ H1) as GC.
    destruct (put_ok 4 is_open _ c _ _ GC ltac:(lia)) as (A3 & B3 & _).
    pose proof (put_open 4 is_open _ c _ _ GC ltac:(lia) (fun y Q => Q)) as O3.
    destruct (put_never 2 _ t _ _ (IHt _ _ H2) ltac:(lia)) as [A4 B4].
    destruct (put_never 3 _ e _ _ (IHe _ _ H3) ltac:(lia)) as [A5 B5].
    split; [cbn; lia|]. split; [|apply spaced_app; exact B3]. cbn [t_prec t_toks t_ends].
    eapply W_ternary; [exact A3|exact O3|exact A4| |exact A5]. intros _ _ _. exact B5.
  - intros v v' H. cbn [printable] in H. destruct (next_some _ _ _ _ _ H) as (v1 & H1 & H2). cbn [show].
    destruct (put_never 1 _ c _ _ (IHc _ _ H2) ltac:(lia)) as [A1 B1]. destruct (IHb _ _ H1) as (G1 & G2 & G3).
    split; [cbn; lia|]. split; [|apply spaced_app; exact G3]. cbn [t_prec t_toks t_ends join].
    assert (W0 : wr v 0 b (t_toks (show b)) (t_ends (show b)) v1) by (apply w_down with (t_prec (show b)); [lia|exact G2]).
    destruct op; [eapply W_while|eapply W_until]; [exact W0|exact A1|exact W0|exact A1].
  - intros v v' H. cbn [printable] in H. destruct (next_some _ _ _ _ _ H) as (v1 & H1 & H2). cbn [show].
    pose proof (IHb _ _ H1) as GB.
    set (bad := fun x => is_open x || e_name (t_ends x)).
    destruct (put_ok 0 bad _ b _ _ GB ltac:(lia)) as (A1 & B1 & D1).
    destruct (put_never 1 _ r _ _ (IHr _ _ H2) ltac:(lia)) as [A2 B2].
    split; [cbn; lia|]. split; [|apply spaced_app; exact B1]. cbn [t_prec t_toks t_ends join].
    eapply W_rescue; [exact A1| | |exact A2].
    + apply (put_open _ _ _ b _ _ GB); [lia|]. intros y Q. apply orb_false_iff in Q. apply Q.
    + intros _. destruct D1 as [[-> Q]| ->]; [|reflexivity]. apply orb_false_iff in Q. apply Q.
  - intros v v' H. cbn [printable] in H. destruct (next_some _ _ _ _ _ H) as (v1 & H1 & H2).
    destruct (target_ok l v v1 H1 IHl) as [L1 L2]. { intros e0 m es s ->. exact IHls. }
    destruct (put_never 2 _ r _ _ (IHr _ _ H2) ltac:(lia)) as [A2 B2]. cbn [show].
    split; [cbn; lia|]. split; [|apply spaced_app; exact L2]. cbn [t_prec t_toks t_ends].
    apply w_down with 14%nat; [lia|]. eapply W_assign; eassumption.
  - intros v v' H. cbn [printable] in H. destruct (is_logical b) eqn:LG; [discriminate|].
    destruct (next_some _ _ _ _ _ H) as (v1 & H1 & H'). destruct (next_some _ _ _ _ _ H') as (v2 & H2 & H3). injection H3 as <-.
    destruct (target_ok l v v1 H1 IHl) as [L1 L2]. { intros e0 m es s ->. exact IHls. }
    destruct (put_never 2 _ r _ _ (IHr _ _ H2) ltac:(lia)) as [A2 B2]. cbn [show].
    split; [cbn; lia|]. split; [|apply spaced_app; exact L2]. cbn [t_prec t_toks t_ends].
    apply w_down with 14%nat; [lia|]. replace (XOp b l r) with (op_assign b l r) by (destruct b; try discriminate; reflexivity).
    eapply W_op_assign; eassumption.
  - intros v v' H. discriminate.
  - intros v v' H. rewrite printable_index in H. destruct (next_some _ _ _ _ _ H) as (v1 & H1 & H2).
    destruct (put_never 17 _ e _ _ (IHe _ _ H1) ltac:(lia)) as [A1 B1]. cbn [show].
    split; [cbn; lia|]. split; [|apply spaced_app; exact B1]. cbn [t_prec t_toks t_ends].
    eapply W_index; [exact A1|reflexivity|]. apply commas_elements; [|exact H2]. eapply Forall_impl; [|exact IHl]. intros a Ha. apply Ha.
  - intros v v' H. rewrite printable_send in H. destruct s; [discriminate|]. destruct (next_some _ _ _ _ _ H) as (v1 & H1 & H2).
    destruct (put_never 17 _ e _ _ (IHe _ _ H1) ltac:(lia)) as [A1 B1].
    assert (F : Forall P l) by (eapply Forall_impl; [|exact IHl]; intros a Ha; apply Ha).
    pose proof (commas_arguments _ F _ _ H2) as G.
    destruct l as [|x l]; cbn [show].
    + split; [cbn; lia|]. split; [|apply spaced_app; exact B1]. cbn [t_prec t_toks t_ends]. injection H2 as <-.
      apply (W_attr false v e _ _ v1 [] m true true A1). constructor.
    + split; [cbn; lia|]. split; [|apply spaced_app; exact B1]. cbn [t_prec t_toks t_ends].
      apply (W_call false v e _ _ v1 [] m (x :: l) _ v' true true true A1); [constructor|exact G].
  - exact IHe.
  - intros v v' H. rewrite printable_arr in H. cbn [show]. split; [cbn; lia|]. split; [|reflexivity]. cbn [t_prec t_toks t_ends].
    apply W_array. apply commas_elements; [|exact H]. eapply Forall_impl; [|exact IHl]. intros a Ha. apply Ha.
  - intros v v' H. discriminate.
  - intros v v' H. cbn [printable] in H. destruct (put_never 1 _ e _ _ (IH _ _ H) ltac:(lia)) as [A1 B1]. cbn [show].
    split; [cbn; lia|]. split; [|reflexivity]. cbn [t_prec t_toks t_ends]. eapply W_defined_paren. exact A1.
  - intros v v' H. rewrite printable_seq in H. cbn [show]. split; [cbn; lia|]. split; [|reflexivity]. cbn [t_prec t_toks t_ends].
    assert (F : Forall P l) by (eapply Forall_impl; [|exact IHl]; intros a Ha; apply Ha).
    assert (H' : printables v l = Some v') by (destruct l as [|? [|? ?]]; try discriminate; exact H).
    destruct (lines_statements (TP pSemi) l (or_intror eq_refl) F _ _ H') as (o & S0).
    replace (XSeq l) with (sequence l) by (destruct l as [|? [|? ?]]; try discriminate; reflexivity).
    eapply W_paren. exact S0.
Qed.
Lemma print_ok v es v' : printables v es = Some v' -> exists o, statements false v es (print es) o v'.
Proof.
  apply lines_statements; [left; reflexivity|]. clear. induction es; constructor; [apply show_ok|assumption].
Qed.
End Print.
