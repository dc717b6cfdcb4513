(** Lemmas about source text: a list of tokens that is written down is read back. *)
From Coq Require Import String ZArith List Bool Lia.
From Verif Require Import Base ModelText ModelParse ModelLexer ModelSource SpecLexer SpecParse SpecSource
  ProofsText ProofsLexer ProofsLexer3 ProofsLexer5 ProofsParse ProofsParse4.
Import ListNotations.
Open Scope Z_scope.

(** * Where tokens end *)
Definition stop (c : Z) : Prop := c = 10 \/ c = 32 \/ c = 40 \/ c = 59 \/ c = 91.
Definition stops (s : chars) : Prop := match s with [] => True | c :: _ => stop c end.
Lemma stop_not (P : Z -> Prop) s : stops s -> ~ P 10 -> ~ P 32 -> ~ P 40 -> ~ P 59 -> ~ P 91 -> ~ starts P s.
Proof. destruct s as [|c s]; cbn; [tauto|]. intros [-> | [-> | [-> | [-> | ->]]]]; tauto. Qed.
Definition softb (c : Z) : bool :=
  negb ((c =? 10) || (c =? 32) || (c =? 40) || (c =? 59) || (c =? 91)) && negb ((48 <=? c) && (c <=? 57)).
Lemma operators_soft t p : In (t, p) operators -> t <> [] /\ forallb softb (tl t) = true.
Proof.
  intros H. assert (A : forallb (fun x => match fst x with [] => false | _ => forallb softb (tl (fst x)) end) operators = true) by reflexivity.
  rewrite forallb_forall in A. specialize (A _ H). cbn [fst] in A. destruct t; [discriminate|]. split; [discriminate|exact A].
Qed.
Lemma app_longer (a b x y : chars) : a ++ x = b ++ y -> (length a < length b)%nat -> exists c z, b = a ++ c :: z /\ x = c :: z ++ y.
Proof.
  revert b. induction a as [|h a IH]; intros [|c b] E L; cbn in L; try lia.
  - cbn in E. subst x. exists c, b. auto.
  - cbn in E. injection E as -> E. destruct (IH b E ltac:(lia)) as (d & z & -> & ->). exists d, z. auto.
Qed.
Lemma operator_stops t p s : In (t, p) operators ->
  match s with [] => True | c :: _ => softb c = false end -> longest_operator t s p.
Proof.
  intros H S0. split; [exact H|]. intros t' p' rest' H' E. destruct (le_lt_dec (length t') (length t)) as [L|L]; [exact L|exfalso].
  destruct (app_longer _ _ _ _ E L) as (c & z & -> & ->). destruct (operators_soft _ _ H') as [_ F].
  destruct (operators_soft _ _ H) as [N _]. destruct t as [|h t]; [congruence|]. cbn in F. rewrite forallb_app in F.
  apply andb_prop in F. destruct F as [_ F]. cbn in F. rewrite S0 in F. discriminate.
Qed.
Lemma stops_soft s : stops s -> match s with [] => True | c :: _ => softb c = false end.
Proof. destruct s as [|c s]; [trivial|]. intros [-> | [-> | [-> | [-> | ->]]]]; reflexivity. Qed.

Lemma numeral_nonneg s n : numeral 10 s n -> 0 <= n.
Proof. intros H. induction H as [c d D|s n c d N IH D|]; [destruct D; lia|destruct D; lia|assumption]. Qed.
Lemma operators_backslash p : In ([92], p) operators -> p = pBackslash.
Proof. cbn. intros H. repeat (destruct H as [H|H]; [try discriminate H; injection H as <-; reflexivity|]). contradiction. Qed.

Definition wordb (c : Z) : bool := ((97 <=? c) && (c <=? 122)) || ((65 <=? c) && (c <=? 90)) || (c =? 95) || ((48 <=? c) && (c <=? 57)).
Lemma wordb_ok c : wordb c = true -> word c.
Proof. unfold wordb, word, letter, lower, upper, decimal. lia. Qed.
Definition plainb (t : chars) : bool :=
  match t with
  | [] => false
  | c :: r => negb ((48 <=? c) && (c <=? 57)) && wordb c &&
      match rev r with
      | 63 :: q => forallb wordb q
      | q => forallb wordb q
      end
  end.
Lemma plainb_ok t : plainb t = true -> plain_name t.
Proof.
  destruct t as [|c r]; [discriminate|]. cbn [plainb]. intros H. apply andb_prop in H. destruct H as [H H2]. apply andb_prop in H.
  destruct H as [H0 H1]. assert (L : letter c) by (unfold wordb, letter, lower, upper in *; lia).
  assert (A : exists q s, (s = [] \/ s = [63]) /\ rev r = s ++ q /\ forallb wordb q = true).
  { destruct (rev r) as [|d q]; [exists [], []; auto|]. 
    destruct (Z.eq_dec d 63) as [->|N]; [exists q, [63]; auto|]. exists (d :: q), []. split; [auto|]. split; [reflexivity|].
    destruct d as [|p|p]; try exact H2. do 6 (destruct p as [p|p|]; try exact H2). congruence. }
  destruct A as (q & s & Hs & E & F). assert (E' : r = rev q ++ s).
  { rewrite <- (rev_involutive r), E, rev_app_distr. destruct Hs as [-> | ->]; reflexivity. }
  subst r. constructor; [exact L| |destruct Hs as [-> | ->]; auto].
  rewrite Forall_forall. intros x Hx. apply in_rev in Hx. rewrite forallb_forall in F. apply wordb_ok, F, Hx.
Qed.

Section Source.
Variables (uni_numeric uni_alnum : Z -> bool) (name float : chars -> Z).
Notation spells := (spells uni_numeric uni_alnum).
Notation next := (SpecLexer.next uni_numeric uni_alnum).
Notation divides := (divides uni_numeric uni_alnum).
Notation tok_of := (tok_of name float).
Notation items := (items name float).
Notation spelled := (spelled name float).

Ltac notword := unfold word, letter, lower, upper, decimal; lia.
Lemma plain_spells t s : plain_name t -> stops s -> spells_name uni_numeric t s.
Proof.
  intros [c b suffix Hc Hb [-> | [-> | ->]]] S0.
  - rewrite app_nil_r. apply N_plain; [left; exact Hc|exact Hb| | |].
    + apply stop_not; try exact S0; notword.
    + apply stop_not; try exact S0; lia.
    + intros Q. exfalso. revert Q. apply stop_not; try exact S0; lia.
  - apply N_question; [left; exact Hc|exact Hb].
  - apply N_bang; [left; exact Hc|exact Hb|]. apply stop_not; try exact S0; lia.
Qed.
Lemma keyword_plain t k : In (t, k) keywords -> plain_name t.
Proof.
  intros H. apply plainb_ok. assert (A : forallb (fun x => plainb (fst x)) keywords = true) by (vm_compute; reflexivity).
  rewrite forallb_forall in A. exact (A _ H).
Qed.
Lemma word_start c : letter c -> var_start uni_alnum c.
Proof. intros H. left. unfold word, letter, lower, upper, decimal in *. split; [lia|]. left. lia. Qed.

(** a written token is read as it, before whatever can stop it *)
Lemma spelled_ok k t s : spelled k t -> stops s -> exists k', spells k' t s /\ tok_of k' = k.
Proof.
  intros H S0. assert (NS : forall s, stops s -> no_digits s /\ no_fraction s /\ no_exponent s).
  { intros x S1. split; [apply stop_not; try exact S1; unfold decimal; lia|]. split; [|apply stop_not; try exact S1; lia].
    intros c r _ ->. cbn in S1. unfold stop in S1. lia. }
  assert (W : ~ starts word s) by (apply stop_not; try exact S0; notword).
  destruct H as [t P NK NU NT|t a H|t P NK U|c t Hc Ht|c t Hc Ht|c t Hc Ht|t n N L|t n N L|t f e D F E0 NE|t k H|t p H NB].
  - exists (KIdent t). split; [apply S_ident; auto using plain_spells|]. cbn [ModelSource.tok_of]. unfold ident_tok.
    assert (Q : forall x, In x taken -> same t x = false).
    { intros x Hx. destruct (same t x) eqn:Q; [|reflexivity]. exfalso. apply NT. apply same_iff in Q. subst x. exact Hx. }
    cbn in Q.
    rewrite !Q by auto 10. reflexivity.
  - cbn in H. exists (KIdent t). 
    assert (A : plain_name t /\ ~ keyword t /\ ~ starts upper t /\ tok_of (KIdent t) = TAtom a).
    { assert (KW : forall x, existsb (fun y => same x (fst y)) keywords = false -> ~ keyword x).
      { intros x Hx [k Hk]. assert (existsb (fun y => same x (fst y)) keywords = true); [|congruence].
        apply existsb_exists. exists (x, k). split; [exact Hk|]. apply same_iff; reflexivity. }
      destruct H as [H|[H|[H|[H|[]]]]]; injection H as <- <-; (split; [apply plainb_ok; reflexivity|]); 
      (split; [apply KW; vm_compute; reflexivity|]); (split; [cbn; unfold upper; lia|]); reflexivity. }
    destruct A as (A1 & A2 & A3 & A4). split; [apply S_ident; auto using plain_spells|exact A4].
  - exists (KConst t). split; [apply S_const; auto using plain_spells|reflexivity].
  - eexists. split; [apply S_ivar; auto using word_start|reflexivity].
  - eexists. split; [apply S_cvar; auto using word_start|reflexivity].
  - eexists. split; [apply S_gvar; try assumption|reflexivity].
    + apply word_start. unfold letter. tauto.
    + unfold decimal, lower, upper in *. lia.
    + unfold mark, lower, upper in *. lia.
    + unfold lower, upper in *. lia.
  - assert (N0 := numeral_nonneg _ _ N). 
    exists (KNum (ModelText.TNum (integer n))). split; [|unfold integer; replace ((-2^63 <=? n) && (n <? 2^63)) with true by lia; reflexivity].
    apply S_number, SN_decimal; [|apply stop_not; try exact S0; lia]. apply SD_int; [exact N|apply NS; exact S0..|].
    intros _. apply stop_not; try exact S0; lia.
  - exists (KNum (ModelText.TNum (integer n))). split; [|unfold integer; replace ((-2^63 <=? n) && (n <? 2^63)) with false by lia; reflexivity].
    apply S_number, SN_decimal; [|apply stop_not; try exact S0; lia]. apply SD_int; [exact N|apply NS; exact S0..|].
    intros _. apply stop_not; try exact S0; lia.
  - eexists. split; [apply S_number, SN_decimal; [apply SD_float; try assumption; [apply NS; exact S0|intros _; apply NS; exact S0]|]|reflexivity].
    apply stop_not; try exact S0; lia.
  - exists (KRes k). split; [|reflexivity]. apply S_keyword; [|exact H]. apply plain_spells; [|exact S0]. eapply keyword_plain, H.
  - exists (KPunct p). split; [|reflexivity]. apply S_operator; [apply operator_stops; [exact H|apply stops_soft, S0]|].
    intros -> Q. destruct (operators_backslash _ H). auto.
Qed.
Lemma minus_digit s : starts decimal s -> spells (KPunct pMinus) [45] s.
Proof.
  intros H. apply S_operator; [|discriminate]. apply operator_stops; [cbn; tauto|].
  destruct s as [|c s]; [trivial|]. cbn in H. unfold decimal in H. unfold softb. lia.
Qed.

(** * Lists of tokens *)
Lemma spelled_first k t : spelled k t -> exists c r, t = c :: r /\ ascii_white c = false.
Proof.
  intros H. destruct (spelled_ok k t [] H I) as (k' & S0 & _). destruct t as [|c t]; [destruct (spells_ne _ _ _ _ _ S0 eq_refl)|].
  exists c, t. split; [reflexivity|]. destruct (spells_solid _ _ _ _ _ S0) as (A & B & _). cbn in A, B. unfold blank, newline in *.
  unfold ascii_white. lia.
Qed.
Variable spell : ModelParse.tok -> chars.
Definition spelled_all (ts : list item) : Prop := forall t b, In (t, b) ts -> t = TLT \/ spelled t (spell t).
Definition unblank (s : chars) : chars := match s with 32 :: r => r | _ => s end.
Lemma tok_of_num k t b x : spelled k t -> k = ModelParse.TNum b x -> starts decimal t.
Proof.
  intros H E. assert (D : forall t n, numeral 10 t n -> starts decimal t).
  { intros t0 n0 N. destruct (numeral_parse 10 _ _ ltac:(lia) N) as (_ & _ & c & s' & d & -> & Hd & _). cbn.
    unfold decimal. destruct Hd; lia. }
  destruct H as [t P NK NU NT|t a H|t P NK U|c t Hc Ht|c t Hc Ht|c t Hc Ht|t n N L|t n N L|t f e [n N] F E0 NE|t k H|t p H NB]; try discriminate; 
    try (eapply D; exact N).
  apply D in N. destruct t; [contradiction|exact N].
Qed.
Lemma opening_first p t : spelled (TP p) t -> p = pLParen \/ p = pLBracket \/ p = pSemi -> stops t.
Proof.
  intros H E. inversion H as [| | | | | | | | | |t0 p0 H0 NB]; subst.
  assert (A : forallb (fun x => match snd x with pLParen | pLBracket | pSemi => match fst x with [40] | [91] | [59] => true | _ => false end | _ => true end) operators = true)
    by reflexivity.
  rewrite forallb_forall in A. specialize (A _ H0). cbn [fst snd] in A.
  assert (A' : match t with [40] | [91] | [59] => true | _ => false end = true) by (destruct E as [-> | [-> | ->]]; exact A). clear A.
  destruct t as [|c t]; [exact I|]. cbn. unfold stop. destruct c as [|q|q]; try discriminate.
  do 7 (destruct q as [q|q|]; try discriminate; auto 10).
Qed.
Lemma minus_text t : spelled (TP pMinus) t -> t = [45].
Proof.
  intros H. inversion H as [| | | | | | | | | |t0 p0 H0 NB]; subst. cbn in H0.
  repeat (destruct H0 as [H0|H0]; [try discriminate H0; injection H0 as <-; reflexivity|]). contradiction.
Qed.
Lemma render_stops t b r i : r = i :: b -> joins t i -> t <> TLT -> spelled_all r -> 
  stops (render spell r) \/ (t = TP pMinus /\ starts decimal (render spell r)).
Proof.
  intros -> J NL A. destruct i as [t' [|]]; [left; cbn; unfold stop; tauto|].
  destruct (A t' false (or_introl eq_refl)) as [->|S0]; [left; cbn; unfold stop; tauto|].
  assert (N' : t' <> TLT) by (intros ->; inversion S0).
  assert (W : written spell t' = spell t') by (destruct t'; try reflexivity; congruence).
  cbn [render app]. rewrite W. 
  assert (K : (exists p, t' = TP p /\ (p = pLParen \/ p = pLBracket \/ p = pSemi)) \/ (t = TP pMinus /\ exists k z, t' = ModelParse.TNum k z)).
  { destruct J as [_ [J|[J|[J|[J|J]]]]]; try congruence; [left|right; exact J].
    destruct J as [<-|[<-|[<-|[]]]]; eexists; (split; [reflexivity|tauto]). }
  destruct K as [(p & -> & Hp)|(-> & k & z & ->)].
  - left. pose proof (opening_first _ _ S0 Hp) as Q. destruct (spelled_first _ _ S0) as (c & q & Ec & _). rewrite Ec in *. exact Q.
  - right. split; [reflexivity|]. pose proof (tok_of_num _ _ _ _ S0 eq_refl) as Q. destruct (spell _); [contradiction|exact Q].
Qed.
Lemma white_first_app t r : t <> [] -> (exists c q, t = c :: q /\ ascii_white c = false) -> white_first (t ++ r) = false.
Proof. intros _ (c & q & -> & H). exact H. Qed.
Lemma item_spells t b ts : well_spaced ((t, b) :: ts) -> spelled_all ((t, b) :: ts) -> t <> TLT ->
  exists k, spells k (spell t) (render spell ts) /\ tok_of k = t.
Proof.
  intros [J WS] A N'. assert (A' : spelled_all ts) by (intros x y H; apply (A x y); right; exact H).
  destruct (A t b (or_introl eq_refl)) as [->|S0]; [congruence|].
  destruct ts as [|i ts']; [apply spelled_ok; [exact S0|exact I]|].
  destruct (render_stops t ts' (i :: ts') i eq_refl J N' A') as [ST|[-> ST]]; [apply spelled_ok; assumption|].
  exists (KPunct pMinus). split; [|reflexivity]. rewrite (minus_text _ S0). apply minus_digit. exact ST.
Qed.
Lemma read_back ts : forall at_line, well_spaced ts -> spelled_all ts ->
  (at_line = true -> match ts with (TLT, _) :: _ => False | _ => True end) ->
  let s := if at_line then unblank (render spell ts) else render spell ts in
  exists l, divides s l /\ items (if at_line then false else white_first s) l = seen at_line ts ++ [(TEof, false)].
Proof.
  induction ts as [|[t b] ts IH]; intros at_line WS A NL s.
  - exists [mktoken KEof [] []]. assert (s = []) as -> by (destruct at_line; reflexivity). split; [|destruct at_line; reflexivity].
    eapply D_end. apply Next_end. constructor.
  - destruct WS as [J WS]. assert (A' : spelled_all ts) by (intros x y H; apply (A x y); right; exact H).
    destruct (A t b (or_introl eq_refl)) as [->|S0].
    + destruct at_line; [destruct (NL eq_refl)|]. destruct (IH true WS A') as (l & D & E).
      { intros _. destruct ts as [|[[] ?] ?]; try exact I. apply J; reflexivity. }
      set (r := render spell ts) in *. cbn zeta in D.
      assert (Q : exists w, blanks w /\ r = w ++ unblank r).
      { destruct r as [|c r0]; [exists []; split; [constructor|reflexivity]|]. destruct (Z.eq_dec c 32) as [->|N].
        - exists [32]. split; [constructor; [unfold blank; tauto|constructor]|reflexivity].
        - exists []. split; [constructor|]. unfold unblank. destruct c as [|p|p]; try reflexivity.
          do 6 (destruct p as [p|p|]; try reflexivity). congruence. }
      destruct Q as (w & Hw & Er).
      assert (SO : solid (unblank r)).
      { destruct ts as [|[t' b'] ts']; [cbn in r; subst r; cbn; unfold solid; cbn; conj; discriminate|].
        destruct (A' t' b' (or_introl eq_refl)) as [->|S1]; [destruct J as [J _]; destruct (J eq_refl eq_refl)|].
        assert (N' : t' <> TLT) by (intros ->; inversion S1).
        assert (W : unblank r = spell t' ++ render spell ts').
        { subst r. destruct (spelled_first _ _ S1) as (c & q & E0 & Hc). 
          assert (W : written spell t' = spell t') by (destruct t'; try reflexivity; congruence).
          cbn [render]. rewrite W. destruct b'; [reflexivity|]. rewrite E0. cbn [app]. unfold unblank. 
          destruct c as [|p|p]; try reflexivity. do 6 (destruct p as [p|p|]; try reflexivity). discriminate Hc. }
        rewrite W. destruct (item_spells t' b' ts' WS A' N') as (k' & S2 & _). apply spells_solid in S2. exact S2. }
      exists (mktoken KLT s (w ++ unblank r) :: l). 
      assert (EQ : s = (if b then [32] else []) ++ 10 :: w ++ unblank r).
      { subst s. cbn [render written]. rewrite <- Er. reflexivity. }
      clearbody s. rewrite EQ. split.
      * eapply D_next; [|discriminate|exact D]. apply Next_line; [|exact Hw|exact SO].
        apply LB_blanks. destruct b; repeat constructor; right; right; right; reflexivity.
      * cbn [ModelSource.items t_kind]. rewrite E. cbn [seen app]. f_equal. destruct b; reflexivity.
    + assert (N' : t <> TLT) by (intros ->; inversion S0).
      assert (W : written spell t = spell t) by (destruct t; try reflexivity; congruence).
      destruct (IH false WS A' ltac:(discriminate)) as (l & D & E). cbn zeta in D, E.
      set (r := render spell ts) in *.
      assert (K : exists k, spells k (spell t) r /\ tok_of k = t).
      { apply (item_spells t b ts (conj J WS) A N'). }
      destruct K as (k & K & Ek). destruct (spelled_first _ _ S0) as (c & q & E0 & Hc).
      assert (EQ : exists w, blanks w /\ s = w ++ spell t ++ r /\ (if at_line then false else white_first s) = (if at_line then false else b)).
      { subst s. cbn [render]. rewrite W. destruct b.
        - destruct at_line; [exists []|exists [32]]; (split; [repeat constructor; right; right; right; reflexivity|]); split; reflexivity.
        - exists []. split; [constructor|]. rewrite E0. cbn [app]. split.
          + destruct at_line; [|reflexivity]. unfold unblank. destruct c as [|p|p]; try reflexivity. do 6 (destruct p as [p|p|]; try reflexivity). discriminate Hc.
          + destruct at_line; [reflexivity|exact Hc]. }
      destruct EQ as (w & Hw & Es & Ew). rewrite Ew, Es. exists (mktoken k (spell t ++ r) r :: l). 
      destruct (spells_not_eof _ _ _ _ _ K) as [K1 K2]. split.
      * eapply D_next; [apply Next_token; [exact Hw|exact K]|exact K1|exact D].
      * cbn [ModelSource.items t_kind t_stop]. rewrite Ek.
        replace (match k with KLT => false | _ => white_first r end) with (white_first r) by (destruct k; try reflexivity; congruence).
        rewrite E. destruct t; try reflexivity. congruence.
Qed.
End Source.
