(** Property C88: how a source text is divided into tokens.
    The characters that are not ASCII enter through two predicates of the standard
    library, [uni_numeric] and [uni_alnum], over which every theorem quantifies. *)
From Coq Require Import String Ascii ZArith List Bool Lia Sorted.
From Verif Require Import Base ProofsBase ModelText ModelParse ModelLexer ProofsText SpecLexer ProofsLexer ProofsLexer2 ProofsLexer3 ProofsLexer4 ProofsLexer5 ProofsLexer6 ProofsLexer7.
Import ListNotations.
Open Scope Z_scope.

Definition no_uni (c : Z) : bool := false.
Definition kinds (s : chars) : res (list tkind) := l <- tokens no_uni no_uni s ;; Ok (map t_kind l).
Definition num (n : Z) : tkind := KNum (ModelText.TNum (NInt n)).

(** ** The tokens of a text *)
(** [next] says which spelling is which token: the longest operator, the whole word
    as a keyword or a name, the whole number, strings with their escapes.  Nothing
    else is read, and nothing less. *)
Theorem C88_token : forall uni_numeric uni_alnum s k start stop rest,
  read_token uni_numeric uni_alnum s = Ok (mktoken k start stop, rest) <-> next uni_numeric uni_alnum s k start stop rest.
Proof. exact read_token_iff. Qed.
Print Assumptions C88_token.
Example C88_token_ex : read_token no_uni no_uni (codes "  <=>x") = Ok (mktoken (KPunct pCmp) (codes "<=>x") (codes "x"), codes "x").
Proof. vm_compute. reflexivity. Qed.
Theorem C88_tokens : forall uni_numeric uni_alnum s l,
  tokens uni_numeric uni_alnum s = Ok l <-> divides uni_numeric uni_alnum s l.
Proof. exact tokens_iff. Qed.
Print Assumptions C88_tokens.
Example C88_tokens_ex : kinds (codes "if defined?(x1) && y!=0b10 # no
  @a<<=""a\n\x41"" .b? :C ") = Ok [KRes rIf; KRes rDefined; KPunct pLParen; KIdent (codes "x1"); KPunct pRParen; KPunct pLAnd;
    KIdent (codes "y"); KPunct pNe; num 2; KLT; KIvar (codes "@a"); KPunct (pAssignOp Shl); KStr [97; 10; 65]; KPunct pDot;
    KIdent (codes "b?"); KPunct pColon; KConst (codes "C"); KEof].
Proof. vm_compute. reflexivity. Qed.

(** ** Lexing ends *)
(** the loop over the tokens ends, and needs no more rounds than there are characters *)
Theorem C88_ends : forall uni_numeric uni_alnum s n, (length s < n)%nat ->
  tokenize uni_numeric uni_alnum n s = tokens uni_numeric uni_alnum s.
Proof. intros u v s n H. apply tokenize_fuel; lia. Qed.
Print Assumptions C88_ends.
Example C88_ends_ex : tokenize no_uni no_uni 100 (codes "a b") = tokens no_uni no_uni (codes "a b").
Proof. apply C88_ends. cbn. lia. Qed.

(** Full statement: every text is tokens or a syntax error.  Excluded are texts
    that end in the middle of an exponent, or that have a binary number of more than
    64 digits. *)
Theorem C88_no_panic_partial : forall uni_numeric uni_alnum s, tokens uni_numeric uni_alnum s = Panic ->
  (exists p e sign, s = p ++ e :: sign /\ (e = 101 \/ e = 69) /\ (sign = [] \/ sign = [43] \/ sign = [45])) \/
  (exists p t r n, s = p ++ codes "0b" ++ t ++ r /\ numeral 2 t n /\ 2 ^ 64 <= n).
Proof. exact tokens_panic. Qed.
Print Assumptions C88_no_panic_partial.
Theorem C88_no_panic_refuted : exists s, tokens no_uni no_uni s = Panic.
Proof. exists (codes "1e"). reflexivity. Qed.
Print Assumptions C88_no_panic_refuted.
Example C88_no_panic_ex : tokens no_uni no_uni (codes "1e ") = Err OtherErr /\ kinds (codes "x.e") = Ok [KIdent (codes "x"); KPunct pDot; KIdent (codes "e"); KEof].
Proof. split; reflexivity. Qed.

(** ** Where the tokens are *)
(** The place of a token is the bytes it is spelled with, and tokens come in the
    order of the text without overlapping. *)
Theorem C88_locations : forall uni_numeric uni_alnum s l, tokens uni_numeric uni_alnum s = Ok l ->
  (forall k, In k l -> exists p t q, s = p ++ t ++ q /\
     match t_kind k with
     | KEof => t ++ q = [] /\ location s k = (width s, width s)
     | KLT => location s k = (width p, width p + width t - 1) /\ exists u, t = u ++ [10]
     | kind => location s k = (width p, width p + width t - 1) /\ spells uni_numeric uni_alnum kind t q
     end) /\
  StronglySorted (fun x y => snd (location s x) < fst (location s y)) l.
Proof.
  intros u v s l H. apply tokens_iff in H. split.
  - intros k Ik. pose proof (divides_at _ _ _ _ H) as AT. rewrite Forall_forall in AT. destruct (AT k Ik) as (p & t & q & E & A & B & K).
    exists p, t, q. split; [exact E|]. unfold location. rewrite A, B.
    assert (LOC : t <> [] -> cur_loc s (t ++ q) q = (width p, width p + width t - 1)) by (intros N; rewrite E; apply cur_loc_at, N).
    destruct (t_kind k); try (split; [apply LOC; eapply spells_ne; eassumption|exact K]).
    + destruct K as [-> ->]. split; [reflexivity|]. cbn [app]. unfold cur_loc, offset. rewrite (bytes_width s). cbn [bytes]. f_equal; lia.
    + split; [|exact K]. apply LOC. destruct K as [w ->]. destruct w; discriminate.
  - exact (divides_sorted _ _ _ _ H s [] eq_refl).
Qed.
Print Assumptions C88_locations.
Example C88_locations_ex : (l <- tokens no_uni no_uni (codes "ab += """ ++ [233] ++ codes """ ") ;; Ok (map (location (codes "ab += """ ++ [233] ++ codes """ ")) l))
  = Ok [(0, 1); (3, 4); (6, 9); (11, 11)].
Proof. vm_compute. reflexivity. Qed.

(** ** White space and comments *)
Theorem C88_blanks : forall uni_numeric uni_alnum w s, blanks w ->
  (l <- tokens uni_numeric uni_alnum (w ++ s) ;; Ok (map t_kind l)) = (l <- tokens uni_numeric uni_alnum s ;; Ok (map t_kind l)).
Proof.
  intros u v w s Hw.
  rewrite <- (C88_ends u v s (S (length (w ++ s)))) by (rewrite app_length; lia). unfold tokens.
  assert (R : read_token u v (w ++ s) = read_token u v s \/
    exists a b t r, read_token u v (w ++ s) = Ok (mktoken KLT a t, r) /\ read_token u v s = Ok (mktoken KLT b t, r)).
  { unfold read_token. generalize (read_token2 u v (fun _ => Panic)) as again. intros again. unfold read_token2. rewrite !skip_blanks by exact Hw. destruct (skip_white s None) as [[stop|] r]; [right; do 4 eexists; split; reflexivity|].
    left. reflexivity. }
  cbn [tokenize]. destruct R as [->|(a & b & t & r & -> & ->)]; [reflexivity|]. cbn [rbind fst snd t_kind].
  destruct (tokenize u v (length (w ++ s)) r); reflexivity.
Qed.
Print Assumptions C88_blanks.
Example C88_blanks_ex : blanks (codes "  \
 ").
Proof. cbn. apply B_blank; [unfold blank; auto|]. apply B_blank; [unfold blank; auto|]. apply B_continued. apply B_blank; [unfold blank; auto|]. apply B_none. Qed.
Theorem C88_comment : forall uni_numeric uni_alnum t s, ~ In 10 t ->
  (l <- tokens uni_numeric uni_alnum (codes "#" ++ t ++ 10 :: s) ;; Ok (map t_kind l)) =
  (l <- tokens uni_numeric uni_alnum (10 :: s) ;; Ok (map t_kind l)).
Proof.
  intros u v t s Ht.
  rewrite <- (C88_ends u v (10 :: s) (S (length (codes "#" ++ t ++ 10 :: s)))) by (rewrite !app_length; cbn [length codes]; lia). unfold tokens.
  assert (R : read_token u v (codes "#" ++ t ++ 10 :: s) = read_token u v (10 :: s)).
  { unfold read_token at 1, read_token2 at 1. cbn [codes app]. change (Z.of_N (N_of_ascii "#")) with 35.
    rewrite skip_solid by (apply solid_not; cls; lia).
    rewrite (proj2 (read_one_comment u v 35 _) eq_refl), goto_eol_ok by exact Ht. rewrite goto_eol_id by (right; reflexivity).
    unfold read_token. generalize (read_token2 u v (fun _ => Panic)) at 2 as again. intros again. unfold read_token2. destruct (skip_white (10 :: s) None) as [[stop|] r] eqn:E; [reflexivity|].
    destruct (skip_white_sound _ _ _ _ _ (le_n _) E) as (w & E' & SO & [(B & _)|(w1 & w2 & _ & _ & _ & Q)]); [|discriminate].
    exfalso. apply (solid_no_newline u v r SO w B). rewrite <- E'. reflexivity. }
  cbn [tokenize]. rewrite R. reflexivity.
Qed.
Print Assumptions C88_comment.
Example C88_comment_ex : kinds (codes "a#b=""
c") = Ok [KIdent (codes "a"); KLT; KIdent (codes "c"); KEof].
Proof. vm_compute. reflexivity. Qed.

(** ** Names of methods *)
Theorem C88_method_name : forall assign s t rest,
  read_method_name assign s = Ok (t, rest) <-> s = t ++ rest /\ method_name assign t rest.
Proof.
  intros assign s t rest. split; [apply read_method_sound|]. intros [-> H]. apply read_method_ok, H.
Qed.
Print Assumptions C88_method_name.
Example C88_method_name_ex : read_method_name true (codes "foo=(x)") = Ok (codes "foo=", codes "(x)") /\
  read_method_name true (codes "[]=(x)") = Ok (codes "[]=", codes "(x)") /\ read_method_name false (codes "a=1") = Ok (codes "a", codes "=1").
Proof. repeat split. Qed.

(** ** What Ruby does otherwise *)
(** [a **= 2] is not read as an assignment *)
Theorem C88_power_refuted : exists s, kinds s = Ok [KIdent (codes "a"); KPunct pDMul; KPunct pAssign; num 2; KEof] /\ s = codes "a **= 2".
Proof. eexists. split; [|reflexivity]. vm_compute. reflexivity. Qed.
Print Assumptions C88_power_refuted.
(** the twelfth group of a match and the third are the same *)
Theorem C88_group_refuted : exists s s' k, s <> s' /\ kinds s = Ok [k; KEof] /\ kinds s' = Ok [k; KEof] /\ s = codes "$12" /\ s' = codes "$3".
Proof. do 3 eexists. split; [|split; [|split; [|split; reflexivity]]]; [discriminate|reflexivity|reflexivity]. Qed.
Print Assumptions C88_group_refuted.
(** a global variable whose name starts with an underscore is two tokens *)
Theorem C88_global_refuted : exists s, kinds s = Ok [KGvar (codes "$_"); KIdent (codes "foo"); KEof] /\ s = codes "$_foo".
Proof. eexists. split; [|reflexivity]. vm_compute. reflexivity. Qed.
Print Assumptions C88_global_refuted.
(** names of variables that start with a digit or a quote are accepted *)
Theorem C88_ivar_refuted : exists s s', kinds s = Ok [KIvar s; KEof] /\ s = codes "@1" /\ kinds s' = Ok [KIvar s'; KEof] /\ s' = codes "@'a".
Proof. do 2 eexists. split; [|split; [reflexivity|split; [|reflexivity]]]; reflexivity. Qed.
Print Assumptions C88_ivar_refuted.
(** in a name that is not ASCII, every letter that is not ASCII starts a new name *)
Theorem C88_unicode_name_refuted : exists s, s = [233; 116; 233] /\ forall uni_numeric uni_alnum, uni_numeric 233 = false ->
  (l <- tokens uni_numeric uni_alnum s ;; Ok (map t_kind l)) = Ok [KIdent [233; 116]; KIdent [233]; KEof].
Proof.
  eexists. split; [reflexivity|]. intros u v H. unfold tokens. cbn [tokenize length read_token read_token2 skip_white].
  cbn. unfold read_one, numeric. cbn. rewrite H. cbn. unfold read_one, numeric. cbn. rewrite H. reflexivity.
Qed.
Print Assumptions C88_unicode_name_refuted.
(** a vertical tab is white space in Ruby, here it starts a name *)
Theorem C88_tab_refuted : exists s, kinds s = Ok [KIdent (codes "a"); KIdent [11; 98]; KEof] /\ s = [97; 11; 98].
Proof. eexists. split; [|reflexivity]. vm_compute. reflexivity. Qed.
Print Assumptions C88_tab_refuted.
(** a backslash at the end of a line disappears with the line end between single quotes *)
Theorem C88_single_refuted : exists s, kinds s = Ok [KStr (codes "ab"); KEof] /\ s = codes "'a" ++ [92; 10] ++ codes "b'".
Proof. eexists. split; [|reflexivity]. vm_compute. reflexivity. Qed.
Print Assumptions C88_single_refuted.
(** escapes of Ruby that are syntax errors: one hex digit, braces *)
Theorem C88_escape_refuted : exists s s', tokens no_uni no_uni s = Err OtherErr /\ s = codes """\x4""" /\
  tokens no_uni no_uni s' = Err OtherErr /\ s' = codes """\u{41}""".
Proof. do 2 eexists. split; [|split; [reflexivity|split; [|reflexivity]]]; reflexivity. Qed.
Print Assumptions C88_escape_refuted.
(** comments between =begin and =end are read as program *)
Theorem C88_begin_refuted : exists s, kinds s = Ok [KPunct pAssign; KRes rBegin; KLT; KIdent (codes "x"); KLT; KPunct pAssign; KRes rEnd; KEof] /\
  s = codes "=begin" ++ [10] ++ codes "x" ++ [10] ++ codes "=end".
Proof. eexists. split; [|reflexivity]. vm_compute. reflexivity. Qed.
Print Assumptions C88_begin_refuted.
(** a text that ends with [def =] crashes *)
Theorem C88_method_name_refuted : exists s, read_method_name true s = Panic /\ s = codes "=".
Proof. eexists. split; [|reflexivity]. vm_compute. reflexivity. Qed.
Print Assumptions C88_method_name_refuted.
