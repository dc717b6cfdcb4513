(** C122: formal parameters of methods and blocks. *)
From Coq Require Import ZArith List Bool Lia.
From Verif Require Import Base ModelParse SpecParse ModelParams SpecParams ProofsParams0 ProofsParams ProofsParams2 ProofsParams3.
Import ListNotations.
Open Scope Z_scope.

(** C122: what is accepted is in the order required, optional, rest, required
    again, keywords, rest of the keywords, block; no two parameters have the same
    name, and none has the name of a variable that the scope had before.  Each
    parameter is a variable of the scope afterwards, and the variables of the
    enclosing scopes are as before. *)
Theorem C122_accepted_in_order n c fl l outer own qs s :
  parse_params n c (length outer) fl (mkpst l (outer ++ own)) = POk qs s ->
  ordered (map ptree qs) /\ NoDup (names (map ptree qs)) /\
  exists own', p_lv s = outer ++ own' /\ (forall id, In id own -> In id own') /\
    forall id, In id (names (map ptree qs)) -> In id own' /\ ~ In id own.
Proof.
  intros H. unfold parse_params in H. apply formal_sound in H; [|intros s0 nd s'; apply parse_keeps|cbn; rewrite app_length; lia].
  destruct H as (A & B & D). cbn [p_lv] in *. rewrite own_skip in D. apply declares_names in D. destruct D as (D1 & D2 & D3).
  split; [exact A|]. split; [exact D3|]. exists (skipn (length outer) (p_lv s)). split; [|auto].
  rewrite firstn_app, firstn_all, Nat.sub_diag in B. cbn in B. rewrite app_nil_r in B.
  rewrite <- (firstn_skipn (length outer) (p_lv s)) at 1. rewrite B. reflexivity.
Qed.
Print Assumptions C122_accepted_in_order.
Definition o (t : tok) : item := (t, true).
Definition c_ (t : tok) : item := (t, false).
Definition no_flags := mkflags false false.
(** x, y = 1, *z, w, k: 2, **r, &b *)
Definition full_list : list item :=
  [o (TIdent 1); c_ (TP pComma); o (TIdent 2); o (TP pAssign); o (TNum KInt 1); c_ (TP pComma); o (TP pMul); c_ (TIdent 3); c_ (TP pComma);
   o (TIdent 4); c_ (TP pComma); o (TIdent 5); c_ (TP pColon); o (TNum KInt 2); c_ (TP pComma); o (TP pDMul); c_ (TIdent 6); c_ (TP pComma);
   o (TP pBitAnd); c_ (TIdent 7)].
Example C122_accepted_in_order_ex :
  parse_params 700 cParen (length [8]) no_flags (mkpst (full_list ++ [c_ (TP pRParen)]) ([8] ++ [])) =
  POk [FReq 1; FOpt 2 (NNum KInt false 1); FRest 3; FPost 4; FKey 5 (Some (NNum KInt false 2)); FKwRest 6; FBlock 7]
    (mkpst [] [8; 1; 2; 3; 4; 5; 6; 7]).
Proof. vm_compute. reflexivity. Qed.

(** C122: the parameters of [def f(...)] are read as they are written, every list
    in order with different names, and any defaults; lines may end behind the
    parenthesis, behind commas and before the closing one. *)
Theorem C122_parentheses outer own ps ts en own' fl nl nl' b rest :
  several id_dots outer own ps ts en own' -> f_sa fl = false -> ordered ps -> blank_lines nl -> blank_lines nl' ->
  exists qs n0, map ptree qs = ps /\ forall n, (n0 <= n)%nat ->
    parse_params n cParen (length outer) fl (mkpst (nl ++ ts ++ nl' ++ (TP pRParen, b) :: rest) (outer ++ own)) =
    POk qs (mkpst rest (outer ++ own')).
Proof. apply parens_ok. Qed.
Print Assumptions C122_parentheses.
(** x, y = x *)
Example C122_parentheses_ex :
  several id_dots [] [] [QReq 1; QOpt 2 (XVar 1)]
    ([o (TIdent 1)] ++ c_ (TP pComma) :: [] ++ [o (TIdent 2); o (TP pAssign); o (TIdent 1)]) closed [1; 2] /\
  ordered [QReq 1; QOpt 2 (XVar 1)].
Proof.
  split.
  - apply V_next with (own1 := [1]) (o := closed); [apply (O_req _ _ []); intros []|reflexivity|constructor|].
    apply V_last. apply (O_opt _ _ [1] 2 true true (XVar 1) [o (TIdent 1)] closed [1]).
    + do 15 (apply W_up; [lia|]). apply W_var. left. reflexivity.
    + intros [H|[]]. discriminate.
  - apply walk_ordered. exact I.
Qed.

(** C122: so are those of [def f ...] up to the end of the line.  Missing: lines
    ended by a semicolon, and a [*] without name before a line that starts with a
    name (both refuted below). *)
Theorem C122_bare_partial outer own ps ts en own' fl b rest :
  several id_dots outer own ps ts en own' -> f_sa fl = false -> ordered ps ->
  peek rest <> TP pAssign -> peek rest <> TP pDot -> peek rest <> TP pComma ->
  (forall p id, List.last ps p = QRestNone -> peek rest <> TIdent id) ->
  exists qs n0, map ptree qs = ps /\ forall n, (n0 <= n)%nat ->
    parse_params n cNone (length outer) fl (mkpst (ts ++ (TLT, b) :: rest) (outer ++ own)) =
    POk qs (mkpst ((TLT, b) :: rest) (outer ++ own')).
Proof. apply bare_ok. Qed.
Print Assumptions C122_bare_partial.
Example C122_bare_ex : peek [o (TIdent 1)] <> TP pAssign /\ peek [o (TIdent 1)] <> TP pDot /\ peek [o (TIdent 1)] <> TP pComma /\
  (forall p id, List.last [QReq 1; QOpt 2 (XVar 1)] p = QRestNone -> peek [o (TIdent 1)] <> TIdent id).
Proof. repeat split; discriminate. Qed.

(** C122: so are those of a block between bars.  Missing: a default in the last
    parameter (refuted below). *)
Theorem C122_bars_partial outer own ps ts en own' fl b rest :
  several id_dots outer own ps ts en own' -> f_sa fl = false -> ordered ps ->
  (forall p, has_default (List.last ps p) = false) ->
  exists qs n0, map ptree qs = ps /\ forall n, (n0 <= n)%nat ->
    parse_params n cBar (length outer) fl (mkpst (ts ++ (TP pBitOr, b) :: rest) (outer ++ own)) =
    POk qs (mkpst rest (outer ++ own')).
Proof. intros V Hs O D. apply (bars_ok _ _ _ _ en); auto. Qed.
Print Assumptions C122_bars_partial.
(** | x, *y | *)
Example C122_bars_ex :
  several id_dots [8] [] [QReq 1; QRest 2] ([o (TIdent 1)] ++ c_ (TP pComma) :: [] ++ [o (TP pMul); c_ (TIdent 2)]) closed [1; 2] /\
  ordered [QReq 1; QRest 2] /\ (forall p, has_default (List.last [QReq 1; QRest 2] p) = false).
Proof.
  split; [|split; [apply walk_ordered; exact I|reflexivity]].
  apply V_next with (own1 := [1]) (o := closed); [apply (O_req _ _ []); intros []|reflexivity|constructor|].
  apply V_last. apply (O_rest _ _ [1] 2). intros [H|[]]. discriminate.
Qed.

(** C122: parameters in parentheses or bars are accepted only when the closing one
    is there: it is the last token that was read. *)
Theorem C122_closed n c k fl s qs s' : c <> cNone ->
  parse_params n c k fl s = POk qs s' ->
  exists x b, p_in s = x ++ (TP (match c with cBar => pBitOr | _ => pRParen end), b) :: p_in s'.
Proof.
  intros Hc H. apply formal_tail in H; [|intros l s0; apply (proj1 (parse_tail l n))|exact Hc].
  destruct H as (x & t & b & E & C). exists x, b. rewrite E. destruct c; [| |contradiction]; destruct t; try discriminate;
    destruct p; try discriminate; reflexivity.
Qed.
Print Assumptions C122_closed.
Example C122_closed_ex :
  parse_params 300 cBar 0 no_flags (mkpst [o (TIdent 1); c_ (TP pBitOr); o (TIdent 1)] []) = POk [FReq 1] (mkpst [o (TIdent 1)] [1]).
Proof. vm_compute. reflexivity. Qed.

(** C122: reading parameters ends. *)
Theorem C122_reading_ends n c k fl s : (32 * S (length (p_in s)) <= n)%nat -> parse_params n c k fl s <> PFuel.
Proof. apply params_end. Qed.
Print Assumptions C122_reading_ends.

(** C122: parameters without defaults are the variables of the scope in their
    order, a [*] without name has none.  Arguments are put into the variables by
    their number (C36).  Missing: defaults, which may declare variables of their
    own before the parameter (C122_slots_refuted). *)
Theorem C122_slots_partial n c fl l outer qs s :
  parse_params n c (length outer) fl (mkpst l outer) = POk qs s ->
  (forall p, In p (map ptree qs) -> has_default p = false) ->
  p_lv s = outer ++ flat_map (fun p => match p with QDelegate => [id_dots] | _ => named_by p end) (map ptree qs).
Proof.
  intros H F. unfold parse_params in H. apply formal_sound in H; [|intros s0 nd s'; apply parse_keeps|cbn; lia].
  destruct H as (A & B & D). cbn [p_lv] in *. rewrite skipn_all in D. apply declares_slots in D; [|apply Forall_forall; exact F].
  rewrite firstn_all in B. rewrite <- (firstn_skipn (length outer) (p_lv s)). rewrite B, D. reflexivity.
Qed.
Print Assumptions C122_slots_partial.
Example C122_slots_ex :
  parse_params 300 cBar (length [8]) no_flags (mkpst [o (TIdent 1); c_ (TP pComma); o (TP pMul); c_ (TIdent 2); c_ (TP pBitOr)] [8]) =
  POk [FReq 1; FRest 2] (mkpst [] [8; 1; 2]).
Proof. vm_compute. reflexivity. Qed.

(** ** Refuted *)
(** the first parameter of [def f(x = (y = 1))] is the second variable: an argument
    for it is put into [y] *)
Theorem C122_slots_refuted : exists qs, def_params 600 no_flags
    [c_ (TP pLParen); c_ (TIdent 1); o (TP pAssign); o (TP pLParen); c_ (TIdent 2); o (TP pAssign); o (TNum KInt 1); c_ (TP pRParen); c_ (TP pRParen); (TLT, false)] =
    POk qs (mkpst [] [2; 1]) /\ map ptree qs = [QOpt 1 (XAssign (XVar 2) (XNum KInt false 1))].
Proof. eexists. split; vm_compute; reflexivity. Qed.
Print Assumptions C122_slots_refuted.
(** { |x = 1| x }: the bar is taken for an operator, and the block is an error,
    although the parameters are in order; so is { |k: 1| k } *)
Theorem C122_block_default_refuted :
  block_params 600 no_flags (mkpst [o (TP pBitOr); c_ (TIdent 1); o (TP pAssign); o (TNum KInt 1); c_ (TP pBitOr); o (TIdent 1); o (TP pRBrace)] []) = PErr /\
  block_params 600 no_flags (mkpst [o (TP pBitOr); c_ (TIdent 1); c_ (TP pColon); o (TNum KInt 1); c_ (TP pBitOr); o (TIdent 1); o (TP pRBrace)] []) = PErr /\
  several id_dots [] [] [QOpt 1 (XNum KInt false 1)] [c_ (TIdent 1); o (TP pAssign); o (TNum KInt 1)] closed [1] /\
  ordered [QOpt 1 (XNum KInt false 1)].
Proof.
  split; [vm_compute; reflexivity|]. split; [vm_compute; reflexivity|]. split; [|apply walk_ordered; exact I].
  apply V_last. apply (O_opt _ [] [] 1 false true (XNum KInt false 1) [o (TNum KInt 1)] closed []); [|intros []].
  do 15 (apply W_up; [lia|]). apply W_num.
Qed.
Print Assumptions C122_block_default_refuted.
(** def f x:; y; end: the first statement of the body is taken for the default of
    the keyword *)
Theorem C122_keyword_semicolon_refuted :
  def_params 600 no_flags [o (TIdent 1); c_ (TP pColon); c_ (TP pSemi); o (TIdent 2); c_ (TP pSemi); o (TRes rEnd)] =
  POk [FKey 1 (Some (NIdent 2))] (mkpst [o (TRes rEnd)] [1]).
Proof. vm_compute. reflexivity. Qed.
Print Assumptions C122_keyword_semicolon_refuted.
(** def f * (end of line) y; end: the first name of the body is taken for the name of the rest *)
Theorem C122_rest_line_refuted :
  def_params 600 no_flags [o (TP pMul); (TLT, false); o (TIdent 2); (TLT, false); o (TRes rEnd)] =
  POk [FRest 2] (mkpst [o (TRes rEnd)] [2]).
Proof. vm_compute. reflexivity. Qed.
Print Assumptions C122_rest_line_refuted.
(** def f(x = y = 1, z): the parameter [z] becomes part of the default *)
Theorem C122_default_assignment_refuted : exists d lv,
  def_params 900 no_flags [c_ (TP pLParen); c_ (TIdent 1); o (TP pAssign); o (TIdent 2); o (TP pAssign); o (TNum KInt 1); c_ (TP pComma);
     o (TIdent 3); c_ (TP pRParen); (TLT, false)] = POk [FOpt 1 d] (mkpst [] lv).
Proof. do 2 eexists. vm_compute. reflexivity. Qed.
Print Assumptions C122_default_assignment_refuted.
(** |x,| , |(x, y)| , |x; y| , (**), (&) are errors; all are Ruby *)
Theorem C122_other_forms_refuted :
  block_params 600 no_flags (mkpst [o (TP pBitOr); c_ (TIdent 1); c_ (TP pComma); c_ (TP pBitOr); o (TIdent 1)] []) = PErr /\
  block_params 600 no_flags (mkpst [o (TP pBitOr); c_ (TP pLParen); c_ (TIdent 1); c_ (TP pComma); o (TIdent 2); c_ (TP pRParen); c_ (TP pBitOr)] []) = PErr /\
  block_params 600 no_flags (mkpst [o (TP pBitOr); c_ (TIdent 1); c_ (TP pSemi); o (TIdent 2); c_ (TP pBitOr)] []) = PErr /\
  def_params 600 no_flags [c_ (TP pLParen); c_ (TP pDMul); c_ (TP pRParen); (TLT, false)] = PErr /\
  def_params 600 no_flags [c_ (TP pLParen); c_ (TP pBitAnd); c_ (TP pRParen); (TLT, false)] = PErr.
Proof. repeat split; vm_compute; reflexivity. Qed.
Print Assumptions C122_other_forms_refuted.
