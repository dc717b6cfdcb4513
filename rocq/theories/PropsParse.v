(** C38 and C79: expressions are read by Ruby's table of operators; parsing ends. *)
From Coq Require Import ZArith List Bool Lia.
From Verif Require Import Base ModelParse SpecParse ProofsParse ProofsParse3 ProofsParse4 ProofsParse5 ProofsParse6 ProofsParse7.
Import ListNotations.
Open Scope Z_scope.

(** The result of parsing, whatever the fuel (C79: [enough] is enough for every
    input). *)
Definition enough (l : list item) : nat := (32 * S (length l))%nat.
Definition parses (lv : list Z) (l : list item) (r : pres (list node)) : Prop :=
  forall n, (enough l <= n)%nat -> parse_program n lv l = r.
Definition reads_as (lv : list Z) (l : list item) (es : list exp) (lv' : list Z) : Prop :=
  exists nds r, parses lv l (POk nds (mkpst r lv')) /\ map tree nds = es.
Definition eof : item := (TEof, false).

(** ** C79 *)
(** C79: for every sequence of tokens, parsing ends, and more fuel does not change
    its result. *)
Theorem C79_parsing_ends lv l : exists r, r <> PFuel /\ parses lv l r.
Proof.
  exists (parse_program (enough l) lv l).
  assert (E0 : parse_program (enough l) lv l <> PFuel) by (apply program_ends; apply le_n).
  split; [exact E0|]. intros n H. destruct (program_more _ n lv l H) as [Q|Q]; [contradiction|auto].
Qed.
Print Assumptions C79_parsing_ends.
(** ( ( [ ! ; 1 - - x = *)
Example C79_ends_case : parses [] [(TP pLParen, false); (TP pLParen, false); (TP pLBracket, false); (TP pNot, false);
  (TP pSemi, false); (TNum KInt 1, true); (TP pMinus, true); (TP pMinus, true); (TIdent 1, false); (TP pAssign, true); eof] PErr.
Proof.
  destruct (C79_parsing_ends [] [(TP pLParen, false); (TP pLParen, false); (TP pLBracket, false); (TP pNot, false);
    (TP pSemi, false); (TNum KInt 1, true); (TP pMinus, true); (TP pMinus, true); (TIdent 1, false); (TP pAssign, true); eof]) as (r & H1 & H2).
  intros n Hn. rewrite (H2 n Hn). rewrite <- (H2 (enough _) (le_n _)). vm_compute. reflexivity.
Qed.

(** C79: the parser does not panic unless a minus sign without a number stands
    directly after [!], [~], [+], [**] or a comma.  Missing: those sequences,
    where it does (C79_no_panic_refuted), and what is not modelled. *)
Theorem C79_no_panic_partial lv l n : calm l = true -> parse_program n lv l <> PPanic.
Proof. apply program_quiet. Qed.
Print Assumptions C79_no_panic_partial.
(** - x - - 2 ** y, !-1 *)
Example C79_no_panic_case : calm [(TP pMinus, false); (TIdent 1, false); (TP pMinus, true); (TP pMinus, true); (TNum KInt 2, true);
  (TP pDMul, true); (TIdent 2, true); (TLT, false); (TP pNot, false); (TP pMinus, false); (TNum KInt 1, false); eof] = true.
Proof. reflexivity. Qed.

Lemma parses_at lv l r : r <> PFuel -> parse_program (enough l) lv l = r -> parses lv l r.
Proof. intros N <- n H. destruct (program_more _ n lv l H) as [Q|Q]; [contradiction|auto]. Qed.

(** C79 refuted: [!-x] makes the parser panic. *)
Theorem C79_no_panic_refuted : exists lv l, parses lv l PPanic.
Proof.
  exists [1], [(TP pNot, false); (TP pMinus, false); (TIdent 1, false); eof].
  apply parses_at; [discriminate|vm_compute; reflexivity].
Qed.
Print Assumptions C79_no_panic_refuted.

(** C79: a program the parser accepts was read to its end: before the first end
    of the input everything was read, but for line ends and semicolons. *)
Theorem C79_whole_input lv l n nds s : parse_program n lv l = POk nds s ->
  exists read lines rest, l = read ++ lines ++ rest /\
    (forall i, In i read -> fst i <> TEof) /\
    (forall i, In i lines -> fst i = TLT \/ fst i = TP pSemi) /\
    (rest = [] \/ exists b r, rest = (TEof, b) :: r) /\
    p_in s = lines ++ rest.
Proof.
  intros H. destruct (program_front _ _ _ _ _ H) as [(read & Q & A) P].
  destruct (at_end _ P) as (lines & rest & Q2 & B & C). exists read, lines, rest. rewrite <- Q2. auto.
Qed.
Print Assumptions C79_whole_input.
(** [x;] is accepted; [x end] and [x )] are not *)
Example C79_whole_input_case :
  (exists nds s, parse_program 1000%nat [1] [(TIdent 1, false); (TP pSemi, false); eof] = POk nds s /\ nds = [NLvar 1]) /\
  parse_program 1000%nat [1] [(TIdent 1, false); (TRes rEnd, true); eof] = PErr /\
  parse_program 1000%nat [1] [(TIdent 1, false); (TP pRParen, true); eof] = PErr.
Proof. split; [|split; vm_compute; reflexivity]. do 2 eexists. split; vm_compute; reflexivity. Qed.

(** ** C38 *)
(** C38: every text of a program, by Ruby's table of operators, is parsed as
    that program, with parentheses, line ends and blanks wherever Ruby allows
    them, and whatever the local variables are; a name is a variable in the text
    after an assignment to it, and a call before.  Missing: the forms marked FULL in
    [writes], which the parser reads otherwise (the theorems [C38_..._refuted]
    below), and what is not modelled. *)
Theorem C38_reads_partial lv es ts o lv' b :
  statements false lv es ts o lv' -> (e_name o = true -> b = false) -> reads_as lv (ts ++ [(TEof, b)]) es lv'.
Proof.
  intros W Hb. destruct (program_ok lv es ts o lv' b W Hb) as (nds & n0 & A & B).
  exists nds, [(TEof, b)]. split; [|exact A].
  destruct (C79_parsing_ends lv (ts ++ [(TEof, b)])) as (r & _ & H). 
  assert (Q : r = POk nds (mkpst [(TEof, b)] lv')).
  { rewrite <- (B (n0 + enough (ts ++ [(TEof, b)]))%nat) by lia. symmetry. apply H. lia. }
  subst r. exact H.
Qed.
Print Assumptions C38_reads_partial.

(** C38: printing any program with parentheses only where the table asks for
    them, and parsing it, gives the program.  Missing: as above; where Ruby
    would do without parentheses but the parser would not, they are printed. *)
Theorem C38_round_trip_partial lv es lv' : printables lv es = Some lv' -> reads_as lv (print es ++ [eof]) es lv'.
Proof.
  intros H. destruct (print_ok lv es lv' H) as (o & S0). eapply C38_reads_partial; [exact S0|reflexivity].
Qed.
Print Assumptions C38_round_trip_partial.

(** C38: no text has two readings. *)
Theorem C38_unambiguous_partial lv es es' ts o o' lv' lv'' :
  statements false lv es ts o lv' -> statements false lv es' ts o' lv'' -> es = es' /\ lv' = lv''.
Proof.
  intros W W'. 
  destruct (C38_reads_partial lv es ts o lv' false W ltac:(reflexivity)) as (nds & l & A & B).
  destruct (C38_reads_partial lv es' ts o' lv'' false W' ltac:(reflexivity)) as (nds' & l' & A' & B').
  specialize (A _ (le_n _)). specialize (A' _ (le_n _)). rewrite A in A'. injection A' as <- <- <-. rewrite B in B'. auto.
Qed.
Print Assumptions C38_unambiguous_partial.

(** a, b, c, d: local variables 1 2 3 4 *)
Definition va := XVar 1. Definition vb := XVar 2. Definition vc := XVar 3. Definition vd := XVar 4.
Definition i1 := XNum KInt false 1. Definition i2 := XNum KInt false 2.
(** a = b + 1 * -c ** 2 <= d[1, 2] - (a - (b - c)) && !a ? 1 .. 2 : @x.y(d = 1) if K == (a <=> b) *)
Definition sample : exp :=
  XIf (XBin Eq (XConst 9) (XBin Cmp va vb))
    (XAssign va
      (XIf (XBin LAnd
              (XBin Le (XBin Add vb (XBin Mul i1 (XUn Neg (XBin Exp vc i2))))
                       (XBin Sub (XIndex vd [i1; i2]) (XBin Sub va (XBin Sub vb vc))))
              (XUn Not va))
           (XRange false i1 i2) (XSend (XIvar 7) 8 [XAssign vd i1] false)))
    (XSeq []).
Example C38_round_trip_case : printables [1; 2; 3; 4] [sample] = Some [1; 2; 3; 4] /\
  print [sample] =
  [sp (TIdent 1); sp (TP pAssign); sp (TIdent 2); sp (TP pPlus); sp (TNum KInt 1); sp (TP pMul); sp (TP pMinus); sp (TIdent 3);
   sp (TP pDMul); sp (TNum KInt 2); sp (TP pLe); sp (TIdent 4); (TP pLBracket, false); sp (TNum KInt 1); sp (TP pComma);
   sp (TNum KInt 2); sp (TP pRBracket); sp (TP pMinus); sp (TP pLParen); sp (TIdent 1); sp (TP pMinus); sp (TP pLParen);
   sp (TIdent 2); sp (TP pMinus); sp (TIdent 3); sp (TP pRParen); sp (TP pRParen); sp (TP pLAnd); sp (TP pNot); sp (TIdent 1);
   sp (TP pQuestion); sp (TNum KInt 1); sp (TP pRange2); sp (TNum KInt 2); sp (TP pColon);
   sp (TIvar 7); sp (TP pDot); sp (TIdent 8); (TP pLParen, false); sp (TIdent 4); sp (TP pAssign); sp (TNum KInt 1); sp (TP pRParen);
   sp (TRes rIf); sp (TConst 9); sp (TP pEq); sp (TP pLParen); sp (TIdent 1); sp (TP pCmp); sp (TIdent 2); sp (TP pRParen)].
Proof. split; reflexivity. Qed.

(** a = f; (b = a; c); a - c  with no variables known: f, c are calls *)
Definition call (f : Z) := XSend (XAtom aSelf) f [] false.
Example C38_round_trip_program_case :
  printables [] [XAssign va (call 6); XSeq [XAssign vb va; call 3]; XBin Sub va (call 3)] = Some [1; 2] /\
  print [XAssign va (call 6); XSeq [XAssign vb va; call 3]; XBin Sub va (call 3)] =
  [sp (TIdent 1); sp (TP pAssign); sp (TAtom aSelf); sp (TP pDot); sp (TIdent 6); (TLT, false);
   sp (TP pLParen); sp (TIdent 2); sp (TP pAssign); sp (TIdent 1); (TP pSemi, false); sp (TAtom aSelf); sp (TP pDot); sp (TIdent 3);
   sp (TP pRParen); (TLT, false);
   sp (TIdent 1); sp (TP pMinus); sp (TAtom aSelf); sp (TP pDot); sp (TIdent 3)].
Proof. split; reflexivity. Qed.

Lemma wd full v p q e ts o v' : (p <= q <= 17)%nat -> writes full v q e ts o v' -> writes full v p e ts o v'.
Proof.
  intros H. remember (q - p)%nat as d. revert p H Heqd. induction d as [|d IH]; intros p H Hd W.
  - replace p with q by lia. exact W.
  - apply W_up; [lia|]. apply IH; [lia|lia|exact W].
Qed.
Ltac at_level q := apply wd with q; [lia|].
Ltac leaf := at_level 17%nat; first [apply W_num|apply W_var; cbn; auto; fail|apply W_ivar].
(** a written form with other blanks, line ends and parentheses:
    a = 2;;<newline>K.y -(a)<newline>.z / f unless b ||= 1
    where a, b, f are not known before *)
Example C38_reads_case : reads_as []
  ([(TIdent 1, true); (TP pAssign, false); (TNum KInt 2, false); (TP pSemi, false); (TP pSemi, false); (TLT, true);
    (TConst 9, false); (TP pDot, false); (TIdent 5, false); (TP pMinus, false); (TP pLParen, false); (TIdent 1, false);
    (TP pRParen, false); (TLT, false); (TP pDot, true); (TIdent 6, false); (TP pDiv, true); (TIdent 4, true);
    (TRes rUnless, true); (TIdent 2, true); (TP (pAssignOp LOr), true); (TNum KInt 1, true)] ++ [(TEof, true)])
  [XAssign va i2;
   XIf (XBin LOr vb (XAssign vb i1)) (XSeq [])
       (XBin Sub (XSend (XConst 9) 5 [] false) (XBin Div (XSend va 6 [] false) (call 4)))] [1; 2].
Proof.
  eapply C38_reads_partial with (o := opened closed); [|discriminate].
  apply (S_next false [] (XAssign va i2) [(TIdent 1, true); (TP pAssign, false); (TNum KInt 2, false)] (opened closed) [1]
    [(TP pSemi, false); (TP pSemi, false); (TLT, true)]).
  { at_level 14%nat. apply (W_assign false [] va [(TIdent 1, true)] [] i2 [(TNum KInt 2, false)] closed [1] false); [apply L_var|leaf]. }
  { split; [discriminate|]. repeat (constructor; [first [left; reflexivity|right; reflexivity]|]). constructor. }
  apply S_last.
  apply (W_unless false [1] _ [(TConst 9, false); (TP pDot, false); (TIdent 5, false); (TP pMinus, false); (TP pLParen, false); (TIdent 1, false);
    (TP pRParen, false); (TLT, false); (TP pDot, true); (TIdent 6, false); (TP pDiv, true); (TIdent 4, true)] named [1] _
    [(TIdent 2, true); (TP (pAssignOp LOr), true); (TNum KInt 1, true)]).
  - at_level 12%nat.
    apply (W_left false [1] 12 pMinus Sub _ [(TConst 9, false); (TP pDot, false); (TIdent 5, false)] named [1] _
      [(TP pLParen, false); (TIdent 1, false);
       (TP pRParen, false); (TLT, false); (TP pDot, true); (TIdent 6, false); (TP pDiv, true); (TIdent 4, true)]);
      [reflexivity| |reflexivity|discriminate|].
    + at_level 17%nat. apply (W_attr false [1] _ [(TConst 9, false)] named [1] []); [apply W_const|constructor].
    + apply (W_left false [1] 13 pDiv Div _ [(TP pLParen, false); (TIdent 1, false);
       (TP pRParen, false); (TLT, false); (TP pDot, true); (TIdent 6, false)] named [1] _ [(TIdent 4, true)]);
      [reflexivity| |reflexivity|intros _ _ _; reflexivity|].
      * at_level 17%nat. apply (W_attr false [1] _ [(TP pLParen, false); (TIdent 1, false); (TP pRParen, false)] closed [1] [(TLT, false)]).
        -- apply (W_paren false [1] [va] [(TIdent 1, false)] closed). apply S_last. leaf.
        -- repeat constructor.
      * at_level 17%nat. apply W_name. cbn. intros [Q|[]]; discriminate Q.
  - at_level 14%nat.
    apply (W_op_assign false [1] LOr vb [(TIdent 2, true)] [1] i1 [(TNum KInt 1, true)] closed [1] true); [apply L_var|leaf].
Qed.

(** *** Where the parser does not follow the table *)
(** The text [ts] is the expression [e] in Ruby, but the parser does otherwise. *)
Definition misread (lv : list Z) (e : exp) (ts : list item) (r : pres (list node) -> Prop) : Prop :=
  (exists o lv', writes true lv 0 e ts o lv') /\ exists x, parses lv (ts ++ [eof]) x /\ r x.
Definition as_tree (e : exp) (r : pres (list node)) : Prop :=
  match r with POk nds _ => map tree nds = [e] | _ => False end.
Ltac run := eexists; split; [apply parses_at; [|vm_compute; reflexivity]; discriminate|]; try reflexivity.

(** [1 <=> 2 < 3] is read as [(1 <=> 2) < 3] *)
Theorem C38_compare_refuted : exists lv e e' ts, e <> e' /\ misread lv e ts (as_tree e').
Proof.
  exists [], (XBin Cmp i1 (XBin Lt i2 i1)), (XBin Lt (XBin Cmp i1 i2) i1),
    [sp (TNum KInt 1); sp (TP pCmp); sp (TNum KInt 2); sp (TP pLt); sp (TNum KInt 1)].
  split; [discriminate|]. split; [|run]. exists closed; eexists. at_level 7%nat.
  apply (W_compare true [] i1 [sp (TNum KInt 1)] closed [] _ [sp (TNum KInt 2); sp (TP pLt); sp (TNum KInt 1)]); [leaf|reflexivity|].
  apply (W_left true [] 8 pLt Lt i2 [sp (TNum KInt 2)] closed [] i1 [sp (TNum KInt 1)]); [reflexivity|leaf|reflexivity|discriminate|leaf].
Qed.
Print Assumptions C38_compare_refuted.
(** [2 ** -a] makes the parser panic *)
Theorem C38_power_refuted : exists lv e ts, misread lv e ts (eq PPanic).
Proof.
  exists [1], (XBin Exp i2 (XUn Neg va)), [sp (TNum KInt 2); sp (TP pDMul); sp (TP pMinus); (TIdent 1, false)].
  split; [|run]. exists closed; eexists. at_level 15%nat.
  apply (W_power_minus true [1] i2 [sp (TNum KInt 2)] closed [1] _ [sp (TP pMinus); (TIdent 1, false)]); [reflexivity|leaf|reflexivity| |reflexivity].
  apply W_minus; [leaf|reflexivity].
Qed.
Print Assumptions C38_power_refuted.
(** [2 ** -2 ** 2] is read as [2 ** ((-2) ** 2)] *)
Theorem C38_power_literal_refuted : exists lv e e' ts, e <> e' /\ misread lv e ts (as_tree e').
Proof.
  exists [], (XBin Exp i2 (XUn Neg (XBin Exp i2 i2))), (XBin Exp i2 (XBin Exp (XNum KInt true 2) i2)),
    [sp (TNum KInt 2); sp (TP pDMul); sp (TP pMinus); (TNum KInt 2, false); sp (TP pDMul); sp (TNum KInt 2)].
  split; [discriminate|]. split; [|run]. exists closed; eexists. at_level 15%nat.
  apply (W_power_minus true [] i2 [sp (TNum KInt 2)] closed [] _ [sp (TP pMinus); (TNum KInt 2, false); sp (TP pDMul); sp (TNum KInt 2)]);
    [reflexivity|leaf|reflexivity| |reflexivity].
  apply W_minus_power. leaf.
Qed.
Print Assumptions C38_power_literal_refuted.
(** [!-a] makes the parser panic *)
Theorem C38_prefix_refuted : exists lv e ts, misread lv e ts (eq PPanic).
Proof.
  exists [1], (XUn Not (XUn Neg va)), [sp (TP pNot); (TP pMinus, false); (TIdent 1, false)].
  split; [|run]. exists closed; eexists. at_level 16%nat.
  eapply W_prefix_minus; [reflexivity|reflexivity| |reflexivity]. apply W_minus; [leaf|reflexivity].
Qed.
Print Assumptions C38_prefix_refuted.
(** [!a = 1] is read as [(!a) = 1] *)
Theorem C38_prefix_assign_refuted : exists lv e e' ts, e <> e' /\ misread lv e ts (as_tree e').
Proof.
  exists [1], (XUn Not (XAssign va i1)), (XAssign (XUn Not va) i1),
    [sp (TP pNot); (TIdent 1, false); sp (TP pAssign); sp (TNum KInt 1)].
  split; [discriminate|]. split; [|run]. exists (opened closed); eexists. at_level 16%nat.
  apply (W_prefix_assign true [1] pNot Not va [(TIdent 1, false)] [1] i1 [sp (TNum KInt 1)] closed); [reflexivity|reflexivity|apply L_var|leaf].
Qed.
Print Assumptions C38_prefix_assign_refuted.
(** [- 2.m] is read as [(-2).m] *)
Theorem C38_minus_refuted : exists lv e e' ts, e <> e' /\ misread lv e ts (as_tree e').
Proof.
  exists [], (XUn Neg (XSend i2 5 [] false)), (XSend (XNum KInt true 2) 5 [] false),
    [sp (TP pMinus); sp (TNum KInt 2); (TP pDot, false); (TIdent 5, false)].
  split; [discriminate|]. split; [|run]. exists named; eexists. at_level 14%nat.
  apply W_minus_num; [reflexivity| |reflexivity]. at_level 17%nat.
  apply (W_attr true [] i2 [sp (TNum KInt 2)] closed [] []); [apply W_num|constructor].
Qed.
Print Assumptions C38_minus_refuted.
(** [f(a = 1, 2)] is read as [f(a = [1, 2])] *)
Theorem C38_argument_refuted : exists lv e e' ts, e <> e' /\ misread lv e ts (as_tree e').
Proof.
  exists [1], (XSend (XAtom aSelf) 5 [XAssign va i1; i2] false), (XSend (XAtom aSelf) 5 [XAssign va (XArr [i1; i2])] false),
    [sp (TIdent 5); (TP pLParen, false); (TIdent 1, false); sp (TP pAssign); sp (TNum KInt 1); (TP pComma, false);
     sp (TNum KInt 2); (TP pRParen, false)].
  split; [discriminate|]. split; [|run]. exists closed; eexists. at_level 17%nat.
  apply (W_function true [1] 5 _ [(TIdent 1, false); sp (TP pAssign); sp (TNum KInt 1); (TP pComma, false); sp (TNum KInt 2)]).
  apply (A_next true [1] (XAssign va i1) [(TIdent 1, false); sp (TP pAssign); sp (TNum KInt 1)] (opened closed) [1] false [i2] [sp (TNum KInt 2)]);
    [|discriminate| |discriminate].
  - at_level 14%nat. apply (W_assign true [1] va [(TIdent 1, false)] [1] i1 [sp (TNum KInt 1)]); [apply L_var|leaf].
  - eapply A_last. leaf.
Qed.
Print Assumptions C38_argument_refuted.
(** [a = b rescue c] is read as [(a = b) rescue c] *)
Theorem C38_rescue_refuted : exists lv e e' ts, e <> e' /\ misread lv e ts (as_tree e').
Proof.
  exists [1; 2; 3], (XAssign va (XRescue vb vc)), (XRescue (XAssign va vb) vc),
    [sp (TIdent 1); sp (TP pAssign); sp (TIdent 2); sp (TRes rRescue); sp (TIdent 3)].
  split; [discriminate|]. split; [|run]. exists (opened closed); eexists. at_level 14%nat.
  apply (W_assign_rescue true [1; 2; 3] va [sp (TIdent 1)] [1; 2; 3] vb [sp (TIdent 2)] closed [1; 2; 3] vc [sp (TIdent 3)] closed);
    [reflexivity|apply L_var|leaf|leaf].
Qed.
Print Assumptions C38_rescue_refuted.
(** [a.m rescue b] is a SyntaxError *)
Theorem C38_rescue_method_refuted : exists lv e ts, misread lv e ts (eq PErr).
Proof.
  exists [1; 2], (XRescue (XSend va 5 [] false) vb), [sp (TIdent 1); (TP pDot, false); (TIdent 5, false); sp (TRes rRescue); sp (TIdent 2)].
  split; [|run]. exists closed; eexists.
  apply (W_rescue true [1; 2] _ [sp (TIdent 1); (TP pDot, false); (TIdent 5, false)] named [1; 2] vb [sp (TIdent 2)]);
    [|reflexivity|discriminate|leaf].
  at_level 17%nat. apply (W_attr true [1; 2] va [sp (TIdent 1)] closed [1; 2] []); [apply W_var; cbn; auto|constructor].
Qed.
Print Assumptions C38_rescue_method_refuted.
(** [[-2.m = 1, 2]] is read as [[-2.m = [1, 2]]] *)
Theorem C38_left_side_refuted : exists lv e e' ts, e <> e' /\ misread lv e ts (as_tree e').
Proof.
  exists [], (XArr [XAssign (XSend (XNum KInt true 2) 5 [] false) i1; i2]),
    (XArr [XAssign (XSend (XNum KInt true 2) 5 [] false) (XArr [i1; i2])]),
    [sp (TP pLBracket); sp (TP pMinus); (TNum KInt 2, false); (TP pDot, false); (TIdent 5, false); sp (TP pAssign); sp (TNum KInt 1);
     (TP pComma, false); sp (TNum KInt 2); (TP pRBracket, false)].
  split; [discriminate|]. split; [|run]. exists closed; eexists. at_level 17%nat.
  apply (W_array true [] _ [sp (TP pMinus); (TNum KInt 2, false); (TP pDot, false); (TIdent 5, false); sp (TP pAssign); sp (TNum KInt 1);
     (TP pComma, false); sp (TNum KInt 2)]).
  apply (E_next true [] _ [sp (TP pMinus); (TNum KInt 2, false); (TP pDot, false); (TIdent 5, false); sp (TP pAssign); sp (TNum KInt 1)]
     (opened closed) [] false [i2] [sp (TNum KInt 2)]); [| |discriminate].
  - at_level 14%nat.
    apply (W_assign true [] _ [sp (TP pMinus); (TNum KInt 2, false); (TP pDot, false); (TIdent 5, false)] [] i1 [sp (TNum KInt 1)]); [|leaf].
    apply (L_attr true [] _ [sp (TP pMinus); (TNum KInt 2, false)] (mkends false true false) [] []); [apply W_negative|constructor|discriminate].
  - eapply E_last. leaf.
Qed.
Print Assumptions C38_left_side_refuted.
(** [a ||= a] is read as [a ||= self.a] when [a] is not known before: the right
    side is parsed before the variable is declared *)
Theorem C38_op_assign_refuted : exists lv e e' ts, e <> e' /\ misread lv e ts (as_tree e').
Proof.
  exists [], (XBin LOr va (XAssign va va)), (XBin LOr va (XAssign va (call 1))),
    [sp (TIdent 1); sp (TP (pAssignOp LOr)); sp (TIdent 1)].
  split; [discriminate|]. split; [|run]. exists (opened closed); eexists. at_level 14%nat.
  apply (W_op_assign true [] LOr va [sp (TIdent 1)] [] va [sp (TIdent 1)] closed); [apply L_var|leaf].
Qed.
Print Assumptions C38_op_assign_refuted.
