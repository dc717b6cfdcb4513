(** Lemmas about printed programs as texts. *)
From Coq Require Import ZArith List Bool Lia.
From Verif Require Import Base ModelParse SpecParse SpecSource ProofsParse ProofsParse4.
Import ListNotations.
Open Scope Z_scope.

(** * The white space before the first token does not matter *)
Definition reflag (P : list item -> Prop) (ts : list item) : Prop :=
  exists t b r, ts = (t, b) :: r /\ forall b', P ((t, b') :: r).
Lemma reflag_first (P : list item -> Prop) t b r : (forall b, P ((t, b) :: r)) -> reflag P ((t, b) :: r).
Proof. intros H. exists t, b, r. auto. Qed.
Lemma reflag_app (P Q : list item -> Prop) ts r :
  reflag P ts -> (forall ts', P ts' -> (minus_first ts' = minus_first ts) -> Q (ts' ++ r)) -> reflag Q (ts ++ r).
Proof.
  intros (t & b & q & -> & H) K. exists t, b, (q ++ r). split; [reflexivity|]. intros b'. apply (K ((t, b') :: q)); [apply H|].
  destruct t; reflexivity.
Qed.
Lemma writes_reflag :
  (forall v p e ts o v', writes false v p e ts o v' -> reflag (fun ts => writes false v p e ts o v') ts) /\
  (forall v l ts v', left_side false v l ts v' -> reflag (fun ts => left_side false v l ts v') ts) /\
  (forall v l ts v', elements false v l ts v' -> True) /\
  (forall v l ts v', arguments false v l ts v' -> True) /\
  (forall v l ts o v', statements false v l ts o v' -> True).
Proof.
  apply writes_mut; intros; try exact I; try discriminate;
    try (apply reflag_first; intros; econstructor; eassumption);
    try (eapply reflag_app; [eassumption|intros ts' Hts' _; cbn beta in *; econstructor; eassumption]).
  - destruct H1 as (t & b & r & -> & K). exists t, b, r. split; [reflexivity|]. intros b'. apply W_up; [assumption|apply K].
  - destruct H0 as (t & b & r & -> & K). exists t, b, r. split; [reflexivity|]. intros b'. eapply L_old; [apply K|assumption|].
    intros Q. rewrite <- (H2 Q). destruct t; reflexivity.
  - eapply reflag_app; [eassumption|]. intros ts' Hts' M. cbn beta in *. eapply L_attr; [eassumption|assumption|]. rewrite M. assumption.
Qed.

(** * Printed tokens are well spaced *)
Definition loose (ts : list item) : Prop :=
  match ts with [] => True | (t, b) :: _ => t <> TLT /\ (b = true \/ In t [TP pLParen; TP pLBracket; TP pSemi]) end.
Definition no_lines (ts : list item) : Prop := forall t b, In (t, b) ts -> t <> TLT.
Definition good_line (ts : list item) : Prop := well_spaced ts /\ no_lines ts /\ loose ts.
Lemma good_cons t b ts : t <> TLT -> (b = true \/ In t [TP pLParen; TP pLBracket; TP pSemi]) -> good_line ts -> good_line ((t, b) :: ts).
Proof.
  intros N B (W & L & H). split; [split; [|exact W]|].
  - destruct ts as [|[t' b'] r]; [exact I|]. destruct H as [H1 H2]. split; [intros _; exact H1|]. tauto.
  - split; [|split; assumption]. intros x y [E|E]; [injection E as <- _; exact N|exact (L x y E)].
Qed.
Lemma spaced_app_ok a : forall b, well_spaced a -> well_spaced b -> loose b -> well_spaced (a ++ b).
Proof.
  induction a as [|[t x] a IH]; intros b W1 W2 H; [exact W2|]. destruct W1 as [J W1]. cbn. split; [|apply IH; assumption].
  destruct a as [|i a]; [|exact J]. cbn. destruct b as [|[t' b'] r]; [exact I|]. destruct H as [H1 H2]. split; [intros _; exact H1|]. tauto.
Qed.
Lemma good_app a b : good_line a -> good_line b -> good_line (a ++ b).
Proof.
  intros (W1 & L1 & H1) (W2 & L2 & H2). split; [apply spaced_app_ok; assumption|]. split.
  - intros t x H. apply in_app_or in H. destruct H; [eapply L1|eapply L2]; eassumption.
  - destruct a as [|[t x] a]; [exact H2|exact H1].
Qed.
Lemma good_nil : good_line []. Proof. repeat split; intros t b []. Qed.
Lemma good_sp t ts : t <> TLT -> good_line ts -> good_line (sp t :: ts).
Proof. intros N H. apply good_cons; auto. Qed.
Lemma good_put p bad x : good_line (t_toks x) -> good_line (t_toks (put p bad x)).
Proof.
  intros H. unfold put. destruct (_ || _); [|exact H]. cbn. apply good_sp; [discriminate|]. apply good_app; [exact H|].
  apply good_sp; [discriminate|apply good_nil].
Qed.
Lemma good_commas bad xs : Forall (fun x => good_line (t_toks x)) xs -> good_line (commas bad xs).
Proof.
  induction 1 as [|x xs H F IH]; [apply good_nil|]. destruct xs as [|y xs]; [apply good_put, H|].
  change (commas bad (x :: y :: xs)) with (t_toks (put 2 bad x) ++ sp (TP pComma) :: commas bad (y :: xs)).
  apply good_app; [apply good_put, H|]. apply good_sp; [discriminate|exact IH].
Qed.
Lemma good_semis xs : Forall (fun x => good_line (t_toks x)) xs -> good_line (lines (TP pSemi) xs).
Proof.
  induction 1 as [|x xs H F IH]; [apply good_nil|]. destruct xs as [|y xs]; [exact H|].
  change (lines (TP pSemi) (x :: y :: xs)) with (t_toks x ++ (TP pSemi, false) :: lines (TP pSemi) (y :: xs)).
  apply good_app; [exact H|]. apply good_cons; [discriminate|right; cbn; tauto|exact IH].
Qed.
Ltac good := repeat first
  [ assumption | apply good_nil | apply good_put | apply good_commas | apply good_semis
  | apply good_app | apply good_sp; [discriminate|] | apply good_cons; [discriminate|right; cbn; tauto|] | rewrite Forall_map; assumption ].
Lemma show_good e : good_line (t_toks (show e)).
Proof.
  induction e as [k n z|a|id|id|id|id|id|b l r IHl IHr|u e IH IH2|x l r IHl IHr|c t e IHc IHt IHe|c b op IHc IHb|b r IHb IHr
    |l r IHl IHr|b l r IHl IHr|l r|e l IHe IHl|e m l s IHe IHl|l IHl|e|e IH|l IHl] using exp_tree.
  - destruct n; [|cbn; good]. cbn. repeat split; cbn; try discriminate; try (right; right; right; right; split; [reflexivity|eauto]).
    + intros t b [H|[H|[]]]; injection H as <- _; discriminate.
    + left. reflexivity.
  - cbn; good.
  - cbn; good.
  - cbn; good.
  - cbn; good.
  - cbn; good.
  - cbn; good.
  - cbn [show]. destruct (infix b) as [[[op q] pl] pr]. unfold join. cbn [t_toks]. good.
  - destruct u; [cbn [show t_toks]; good..|].
    destruct (show_neg e) as [(k & z & r & ->)| E0].
    + cbn [right_of] in IH2. cbn [show t_toks]. good.
    + rewrite E0. cbn [t_toks]. good.
  - cbn [show]. unfold join. cbn [t_toks]. destruct x; good.
  - rewrite show_if. destruct (is_seq0 e); [|destruct (is_seq0 t)]; unfold join; cbn [t_toks]; good.
  - cbn [show]. unfold join. cbn [t_toks]. destruct op; good.
  - cbn [show]. unfold join. cbn [t_toks]. good.
  - cbn [show t_toks]. good.
  - cbn [show t_toks]. good.
  - cbn. good.
  - cbn [show t_toks]. good.
  - destruct l; cbn [show t_toks]; good.
  - cbn [show t_toks]. good.
  - cbn. good.
  - cbn [show t_toks]. good.
  - cbn [show t_toks]. unfold wrap. good.
Qed.

(** * Lines *)
Lemma seen_line a r : no_lines a -> seen false (a ++ r) = a ++ seen false r.
Proof.
  induction a as [|[t b] a IH]; intros N; [reflexivity|]. assert (t <> TLT) by (apply (N t b); left; reflexivity).
  assert (E : seen false (a ++ r) = a ++ seen false r) by (apply IH; intros x y H0; apply (N x y); right; exact H0).
  cbn. rewrite E. destruct t; try reflexivity. congruence.
Qed.
Lemma seen_line_start t b a r : no_lines ((t, b) :: a) -> seen true ((t, b) :: a ++ r) = (t, false) :: a ++ seen false r.
Proof.
  intros N. assert (t <> TLT) by (apply (N t b); left; reflexivity).
  assert (E : seen false (a ++ r) = a ++ seen false r) by (apply seen_line; intros x y H0; apply (N x y); right; exact H0).
  cbn. rewrite E. destruct t; try reflexivity. congruence.
Qed.
Lemma print_seen es : forall v v', printables v es = Some v' ->
  well_spaced (print es) /\ match print es with (TLT, _) :: _ => False | _ => True end /\
  exists o, statements false v es (seen false (print es)) o v' /\ statements false v es (seen true (print es)) o v'.
Proof.
  induction es as [|e es IH]; intros v v' H.
  - cbn in H. injection H as <-. split; [exact I|]. split; [exact I|]. exists closed. split; constructor.
  - cbn [printables] in H. destruct (next_some _ _ _ _ _ H) as (v1 & H1 & H2).
    destruct (proj1 (show_ok e) _ _ H1) as (G1 & G2 & G3). destruct (show_good e) as (W & NL & LO).
    assert (W0 : writes false v 0 e (t_toks (show e)) (t_ends (show e)) v1) by (apply w_down with (t_prec (show e)); [lia|exact G2]).
    destruct (proj1 writes_reflag _ _ _ _ _ _ W0) as (t & b & r & E & RF).
    assert (N0 : t <> TLT) by (apply (NL t b); rewrite E; left; reflexivity).
    destruct es as [|e2 es].
    + cbn in H2. injection H2 as <-. change (print [e]) with (t_toks (show e)). split; [exact W|]. split; [rewrite E; destruct t; try exact I; congruence|].
      exists (t_ends (show e)). rewrite <- (app_nil_r (t_toks (show e))) at 1 2. rewrite seen_line by exact NL. cbn [seen]. rewrite app_nil_r.
      split; [constructor; exact W0|]. rewrite E. rewrite E in NL. pose proof (seen_line_start t b r [] NL) as Q.
      change (seen false []) with (@nil item) in Q. rewrite !app_nil_r in Q. constructor. rewrite Q. apply RF.
    + destruct (IH _ _ H2) as (W' & NL' & o & S1 & S2).
      change (print (e :: e2 :: es)) with (t_toks (show e) ++ (TLT, false) :: print (e2 :: es)).
      set (rest := print (e2 :: es)) in *. clearbody rest.
      assert (WR : well_spaced ((TLT, false) :: rest)).
      { split; [|exact W']. destruct rest as [|[t' b'] rest]; [exact I|]. split; [intros _ ->; exact NL'|left; reflexivity]. }
      assert (T : terms [(TLT, true)]) by (split; [discriminate|repeat constructor]).
      split; [|split].
      * clear -W WR NL. revert W NL. generalize (t_toks (show e)) as a. induction a as [|[t0 x] a IHa]; intros W NL; [exact WR|]. destruct W as [J W].
        cbn [app]. split; [|apply IHa; [exact W|intros y z Hy; apply (NL y z); right; exact Hy]]. destruct a as [|i a]; [|exact J].
        split; [intros ->; destruct (NL TLT x); [left|]; reflexivity|right; left; reflexivity].
      * rewrite E. destruct t; try exact I. congruence.
      * exists o. split.
        -- rewrite seen_line by exact NL. cbn [seen]. apply (S_next _ _ _ _ _ _ [(TLT, true)] _ _ _ _ W0 T S2).
        -- rewrite E. rewrite <- app_comm_cons, seen_line_start; [|rewrite E in NL; exact NL]. cbn [seen].
           apply (S_next _ _ _ ((t, false) :: r) _ _ [(TLT, true)] _ _ _ _ (RF false) T S2).
Qed.

