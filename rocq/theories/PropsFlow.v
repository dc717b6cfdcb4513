(** C123: statements of control. *)
From Coq Require Import ZArith List Bool Lia.
From Verif Require Import Base ModelParse SpecParse ModelFlow SpecFlow ProofsFlow.
Import ListNotations.
Open Scope Z_scope.

(** C123: a program of expressions, [if], [unless], [while], [until] and [case],
    nested in any way, is read as it is written, and the variables known behind it
    are those its parts assign.  Missing: a blank before [else], [elsif] or [when]
    behind a name (refuted below), [do] behind the condition of a loop, [for],
    [begin], and these statements as parts of expressions. *)
Theorem C123_reads_partial lv p ts o lv' b :
  ptext lv p ts o lv' -> (e_name o = true -> b = false) ->
  exists g n0, ptree g = p /\ forall n, (n0 <= n)%nat -> flow_program n lv (ts ++ [(TEof, b)]) = POk g (mkpst [(TEof, b)] lv').
Proof. apply flow_ok. Qed.
Print Assumptions C123_reads_partial.
Definition o (t : tok) : item := (t, true).
Definition c_ (t : tok) : item := (t, false).
Definition i1 := XNum KInt false 1.
Definition i2 := XNum KInt false 2.
Ltac up := repeat (apply W_up; [lia|]).
Lemma w_one v p z : (p <= 17)%nat -> writes false v p (XNum KInt false z) [o (TNum KInt z)] closed v.
Proof.
  intros H. remember (17 - p)%nat as d. revert p H Heqd. induction d as [|d IH]; intros p H E.
  - assert (p = 17)%nat as -> by lia. apply W_num.
  - apply W_up; [lia|]. apply IH; lia.
Qed.
Lemma nl_terms : terms [c_ TLT].
Proof. split; [discriminate|]. repeat constructor. Qed.
(** if 1⏎ 2⏎ elsif 2 then 1 else⏎ end *)
Definition if_text : list item :=
  (TRes rIf, false) :: ([o (TNum KInt 1)] ++ [c_ TLT] ++ ([o (TNum KInt 2)] ++ [c_ TLT] ++ []) ++
    ((TRes rElsif, true) :: ([o (TNum KInt 2)] ++ [o (TRes rThen)] ++ [o (TNum KInt 1)] ++ ((TRes rElse, true) :: []))))
  ++ [c_ (TRes rEnd)].
Definition if_tree : stm := SIf i1 (Next (SExp i2) Stop) (Next (SIf i2 (Next (SExp i1) Stop) Stop) Stop).
Lemma if_text_ok : stext [] if_tree if_text closed [].
Proof.
  eapply X_if. eapply I_if; [apply w_one; lia|apply Th_line, nl_terms| |].
  - eapply P_next; [apply X_exp, w_one; lia|apply nl_terms|apply P_stop].
  - eapply L_elsif; [discriminate|]. eapply I_if; [apply w_one; lia|apply Th_then| |].
    + apply P_last, X_exp, w_one; lia.
    + eapply L_else; [discriminate|apply P_stop].
Qed.
Example C123_reads_ex : ptext [] (Next if_tree Stop) if_text closed [] /\
  exists g, ptree g = Next if_tree Stop /\ flow_program 300 [] (if_text ++ [o TEof]) = POk g (mkpst [o TEof] []).
Proof.
  split; [apply P_last, if_text_ok|]. eexists. split; [|vm_compute; reflexivity]. reflexivity.
Qed.
(** case 1⏎ when 1, 2 then 2⏎ else 1 end *)
Definition case_text : list item :=
  (TRes rCase, false) :: [o (TNum KInt 1)] ++ [c_ TLT] ++
    ((TRes rWhen, false) :: ([o (TNum KInt 1)] ++ c_ (TP pComma) :: [o (TNum KInt 2)]) ++ [o (TRes rThen)] ++ ([o (TNum KInt 2)] ++ [c_ TLT] ++ []) ++ []) ++
    ((TRes rElse, false) :: [o (TNum KInt 1)]) ++ [o (TRes rEnd)].
Definition case_tree : stm := SCase (Some i1) (When [i1; i2] (Next (SExp i2) Stop) NoWhen) (Next (SExp i1) Stop).
Example C123_case_ex : ptext [] (Next case_tree Stop) case_text closed [] /\
  exists g, ptree g = Next case_tree Stop /\ flow_program 300 [] (case_text ++ [o TEof]) = POk g (mkpst [o TEof] []).
Proof.
  split.
  - apply P_last. eapply X_case; [apply w_one; lia|apply nl_terms| |discriminate|].
    + eapply H_when; [discriminate| |apply Th_then| |apply H_none].
      * eapply U_next; [apply w_one; lia|reflexivity|]. apply U_last, w_one; lia.
      * eapply P_next; [apply X_exp, w_one; lia|apply nl_terms|apply P_stop].
    + eapply L_else; [discriminate|]. apply P_last, X_exp, w_one; lia.
  - eexists. split; [|vm_compute; reflexivity]. reflexivity.
Qed.

(** C123: no text has two readings; in particular an [else] belongs to the
    innermost [if] that has no [end] yet. *)
Theorem C123_unambiguous_partial lv p p' ts o o' lv' lv'' :
  ptext lv p ts o lv' -> ptext lv p' ts o' lv'' -> p = p' /\ lv' = lv''.
Proof.
  intros P P'. destruct (flow_ok _ _ _ _ _ false P ltac:(reflexivity)) as (g & n & A & D).
  destruct (flow_ok _ _ _ _ _ false P' ltac:(reflexivity)) as (g' & n' & A' & D').
  specialize (D (n + n')%nat ltac:(lia)). specialize (D' (n + n')%nat ltac:(lia)). rewrite D in D'. injection D' as <- <-.
  split; congruence.
Qed.
Print Assumptions C123_unambiguous_partial.
Example C123_unambiguous_ex : ptext [] (Next if_tree Stop) if_text closed [].
Proof. apply P_last, if_text_ok. Qed.

(** C123 fails: if 1 then f else 2 end, where f is a method, is a SyntaxError: the
    words [else], [elsif] and [when] are taken for the start of an argument. *)
Theorem C123_else_refuted w : In w [rElse; rElsif; rWhen] -> forall b,
  exists n0, forall n, (n0 <= n)%nat -> parse n PStmt (mkflags false false) (mkpst (c_ (TIdent 5) :: (TRes w, true) :: b) []) = PErr.
Proof.
  intros H b. exists 60%nat. intros n L.
  do 60 (destruct n as [|n]; [lia|]). clear L. cbn in H. destruct H as [<-|[<-|[<-|[]]]]; reflexivity.
Qed.
Print Assumptions C123_else_refuted.
Example C123_else_case :
  flow_program 300 [] [c_ (TRes rIf); o (TNum KInt 1); o (TRes rThen); o (TIdent 5); o (TRes rElse); o (TNum KInt 2); o (TRes rEnd); o TEof] = PErr /\
  flow_program 300 [5] [c_ (TRes rIf); o (TNum KInt 1); o (TRes rThen); o (TIdent 5); o (TRes rElse); o (TNum KInt 2); o (TRes rEnd); o TEof] =
    POk (GNext (GIf (NNum KInt false 1) (GNext (GExp (NLvar 5)) GStop) (GNext (GExp (NNum KInt false 2)) GStop)) GStop) (mkpst [o TEof] [5]).
Proof. split; vm_compute; reflexivity. Qed.

(** C123 fails: a [case] without any [when], an error in Ruby, is accepted. *)
Theorem C123_case_without_when_refuted :
  flow_program 300 [] [c_ (TRes rCase); o (TNum KInt 1); c_ TLT; c_ (TRes rEnd); c_ TEof] =
  POk (GNext (GCase (Some (NNum KInt false 1)) GNoWhen GStop) GStop) (mkpst [c_ TEof] []).
Proof. vm_compute. reflexivity. Qed.
Print Assumptions C123_case_without_when_refuted.
