(** Property C38, from the text on: a program that is written down as text is parsed
    as that program. *)
From Coq Require Import String ZArith List Bool Lia.
From Verif Require Import Base ModelText ModelParse ModelLexer ModelSource SpecLexer SpecParse SpecSource
  ProofsText ProofsLexer ProofsLexer5 ProofsLexer7 ProofsSource ProofsSource2 PropsParse.
Import ListNotations.
Open Scope Z_scope.

(** [text_reads_as]: the text is tokens, and they are parsed as the trees *)
Definition text_reads_as uni_numeric uni_alnum name float (lv : list Z) (s : chars) (es : list exp) (lv' : list Z) : Prop :=
  exists l, source uni_numeric uni_alnum name float s = Ok l /\ reads_as lv l es lv'.
(** every token that is printed has a spelling *)
Definition has_spelling name float (spell : ModelParse.tok -> chars) (ts : list item) : Prop :=
  forall t b, In (t, b) ts -> t = TLT \/ spelled name float t (spell t).

(** C38: tokens that are written with a blank between them, except where they may touch,
    are read back: the same tokens, with the same white space. *)
Theorem C38_text_tokens uni_numeric uni_alnum name float spell ts :
  well_spaced ts -> has_spelling name float spell ts ->
  source uni_numeric uni_alnum name float (render spell ts) = Ok (seen false ts ++ [(TEof, false)]).
Proof.
  intros W H. destruct (read_back uni_numeric uni_alnum name float spell ts false W H ltac:(discriminate)) as (l & D & E).
  cbn zeta in *. unfold source. apply (tokens_iff uni_numeric uni_alnum) in D. rewrite D. cbn [rbind]. rewrite E. reflexivity.
Qed.
Print Assumptions C38_text_tokens.

(** C38: tokens that write a program according to Ruby's table of operators (as far as in
    [writes false]) are that program when written as text. *)
Theorem C38_text_partial uni_numeric uni_alnum name float spell ts lv es o lv' :
  well_spaced ts -> has_spelling name float spell ts ->
  statements false lv es (seen false ts) o lv' ->
  text_reads_as uni_numeric uni_alnum name float lv (render spell ts) es lv'.
Proof.
  intros W H S0. eexists. split; [apply C38_text_tokens; assumption|]. eapply C38_reads_partial; [exact S0|reflexivity].
Qed.
Print Assumptions C38_text_partial.

(** C38: every program of the trees modelled has a text, given spellings for the names
    and literals in it, and the text is parsed as the program.  Missing: as in
    C38_round_trip_partial. *)
Theorem C38_source_partial uni_numeric uni_alnum name float spell lv es lv' :
  printables lv es = Some lv' -> has_spelling name float spell (print es) ->
  text_reads_as uni_numeric uni_alnum name float lv (render spell (print es)) es lv'.
Proof.
  intros H A. destruct (print_seen es _ _ H) as (W & _ & o & S0 & _). eapply C38_text_partial; eassumption.
Qed.
Print Assumptions C38_source_partial.

(** C38: after a dot, where the parser asks the lexer for the name of a method, a name that
    starts with an ASCII letter or an underscore is the token it would be elsewhere. *)
Theorem C38_method_name uni_numeric t rest :
  spells_name uni_numeric t rest -> starts letter t -> read_method_name false (t ++ rest) = Ok (t, rest).
Proof.
  intros H L. apply read_method_ok. destruct H as [c t rest Hc Ht A B C|c t rest Hc Ht|c t rest Hc Ht A].
  - apply M_plain; try assumption. discriminate.
  - apply M_question; assumption.
  - apply M_bang; assumption.
Qed.
Print Assumptions C38_method_name.
(** Full statement: any name.  A name that starts with another letter is a method when it is
    called without a receiver, and a syntax error after a dot. *)
Theorem C38_method_name_refuted : exists t rest,
  spells_name (fun _ => false) t rest /\ read_method_name false (t ++ rest) <> Ok (t, rest) /\ t = [12354].
Proof.
  exists [12354], []. split; [|split; [vm_compute; discriminate|reflexivity]].
  apply N_plain; [right|constructor|intros []|intros []|intros []].
  unfold odd_start, word, letter, lower, upper, decimal, mark, blank. split; [lia|]. split; [lia|]. split; [lia|]. split; [lia|]. reflexivity.
Qed.
Print Assumptions C38_method_name_refuted.

(** ** Cases *)
Definition ex_name (s : chars) : Z := fold_left (fun n c => n * 256 + c) s 0.
Definition ex_spell (t : ModelParse.tok) : chars :=
  match t with
  | TIdent 97 => codes "a" | TIdent 98 => codes "b" | TIvar 16505 => codes "@y" | TAtom aNil => codes "nil"
  | ModelParse.TNum _ 1 => codes "1" | ModelParse.TNum _ 20 => codes "2_0"
  | TRes rUnless => codes "unless"
  | TP p => match find (fun x => match snd x, p with pAssign, pAssign | pPlus, pPlus | pMinus, pMinus | pDot, pDot | pLParen, pLParen
                                  | pRParen, pRParen | pLBracket, pLBracket | pRBracket, pRBracket | pMul, pMul | pComma, pComma
                                  | pSemi, pSemi => true | _, _ => false end) operators with
            | Some (x, _) => x | None => [] end
  | _ => []
  end.
Definition ex_program : list exp :=
  [XAssign (XVar 97) (XBin Mul (XBin Add (XNum KInt false 1) (XNum KInt true 20)) (XIvar 16505));
   XIf (XAtom aNil) (XSeq []) (XIndex (XSend (XVar 97) 98 [XVar 97; XSeq []] false) [XVar 97])].
Example C38_source_case :
  render ex_spell (print ex_program) = codes " a = ( 1 + -2_0 ) * @y
 a . b( a , ( ) )[ a ] unless nil" /\
  text_reads_as (fun _ => false) (fun _ => false) ex_name ex_name [] (render ex_spell (print ex_program)) ex_program [97].
Proof.
  split; [vm_compute; reflexivity|]. apply C38_source_partial; [vm_compute; reflexivity|].
  assert (P : forall t, plainb t = true -> existsb (fun y => same t (fst y)) keywords = false -> match t with c :: _ => (65 <=? c) && (c <=? 90) | _ => true end = false ->
    existsb (same t) taken = false -> spelled ex_name ex_name (TIdent (ex_name t)) t).
  { intros t A B C D. apply Sp_ident; [apply plainb_ok, A| | |].
    - intros [k K]. assert (existsb (fun y => same t (fst y)) keywords = true); [|congruence]. apply existsb_exists. exists (t, k).
      split; [exact K|apply same_iff; reflexivity].
    - destruct t as [|c t]; [discriminate|]. cbn. unfold upper. lia.
    - intros K. assert (existsb (same t) taken = true); [|congruence]. apply existsb_exists. exists t. split; [exact K|apply same_iff; reflexivity]. }
  assert (N1 : numeral 10 [49] 1) by (constructor; apply (dig_num 10 1); lia).
  assert (N2 : numeral 10 (codes "2_0") 20).
  { apply (num_digit 10 [50; 95] 2 48 0); [apply (num_underscore 10 [50]); constructor; apply (dig_num 10 2); lia|apply (dig_num 10 0); lia]. }
  intros t b H. cbn in H.
  repeat (destruct H as [H|H]; [injection H as <- <-; try (left; reflexivity); right;
    first [ apply (P (codes "a")); reflexivity | apply (P (codes "b")); reflexivity
          | apply (Sp_ivar ex_name ex_name 121 []); [unfold letter, lower; lia|constructor]
          | apply Sp_int; [first [exact N1|exact N2]|lia]
          | apply Sp_atom; cbn; tauto | apply Sp_keyword; cbn; tauto
          | apply Sp_operator; [cbn; tauto|discriminate] ]|]).
  contradiction.
Qed.
Example C38_method_name_case : read_method_name false (codes "b?[1]") = Ok (codes "b?", codes "[1]").
Proof.
  apply (C38_method_name (fun _ => false) (codes "b?") (codes "[1]")); [|cbn; unfold letter, lower; lia].
  apply (N_question _ 98 []); [left; unfold letter, lower; lia|constructor].
Qed.
