(** Lemmas about literals: strings with interpolations, regular expressions and here documents. *)
From Coq Require Import String Ascii ZArith List Bool Lia.
From Verif Require Import Base ProofsBase ModelText ModelParse ModelLexer ModelQuote ProofsText SpecLexer SpecQuote ProofsLexer ProofsLexer2 ProofsLexer3 ProofsLexer4 ProofsLexer5 ProofsLexer6 ProofsLexer7 ProofsQuote.
Import ListNotations.
Open Scope Z_scope.

Section Parts.
Variables (u v : Z -> bool) (code : Type) (template : list chars -> chars -> res (code * chars)).
Hypothesis TK : takes template.
Notation adjacent := (adjacent u v). Notation parts := (parts u v code template). Notation follow := (follow u v).

Lemma adjacent_ok rest w e : follow rest w e -> forall fuel s, (length rest < fuel)%nat ->
  adjacent fuel s rest = Ok (match e with Closed r => AEnd (s ++ w) r | Opened r => AOpen (s ++ w) r end).
Proof.
  induction 1 as [s0 k a b r N K1 K2|s0 x a b r w e N F IH|s0 x l a b r N]; intros fuel s L;
    (destruct fuel as [|f]; [lia|]); cbn [ModelQuote.adjacent]; pose proof (proj2 (read_token_iff _ _ _ _ _ _ _) N) as R; rewrite R;
    cbn [rbind fst snd t_kind].
  - rewrite app_nil_r. destruct k; try reflexivity; [exfalso; eapply K1; reflexivity|exfalso; eapply K2; reflexivity].
  - assert (L' : (length r < length s0)%nat) by (eapply next_shorter; [exact N|discriminate]).
    rewrite (IH f (s ++ x)) by lia. rewrite <- app_assoc. reflexivity.
  - reflexivity.
Qed.
Lemma adjacent_sound fuel : forall s rest a, adjacent fuel s rest = Ok a ->
  exists w, match a with AEnd t r => t = s ++ w /\ follow rest w (Closed r) | AOpen t r => t = s ++ w /\ follow rest w (Opened r) end.
Proof.
  induction fuel as [|f IH]; intros s rest a H; [discriminate|]. cbn [ModelQuote.adjacent] in H.
  destruct (read_token u v rest) as [[[k x y] r]| |] eqn:R; [|discriminate|discriminate]. apply read_token_iff in R.
  cbn [rbind fst snd t_kind] in H.
  assert (OTHER : (forall t, k <> KStr t) -> (forall t l, k <> KOpenStr t l) -> Ok (AEnd s rest) = Ok a ->
    exists w, match a with AEnd t r => t = s ++ w /\ follow rest w (Closed r) | AOpen t r => t = s ++ w /\ follow rest w (Opened r) end).
  { intros K1 K2 Q. injection Q as <-. exists []. rewrite app_nil_r. split; [reflexivity|]. econstructor; eassumption. }
  destruct k as [ | | | | | | | |t| | | |t l| | ]; try (apply OTHER; [congruence|congruence|exact H]).
  - destruct (IH _ _ _ H) as [w Q]. destruct a as [q r'|q r']; destruct Q as [-> F]; exists (t ++ w); rewrite <- app_assoc;
      (split; [reflexivity|]); eapply F_string; eassumption.
  - injection H as <-. exists t. split; [reflexivity|]. eapply F_open. exact R.
Qed.

(** what happens behind a template *)
Definition continue (fuel : nat) (vars : list chars) (term : option Z) (level : nat) (nodes : list (part code)) (s : chars)
  : res (list (part code) * chars) :=
  match read_interp (S (length s)) s None term level [] s with
  | IDone t r =>
      a <- adjacent (S (length r)) t r ;;
      match a with AEnd t r => Ok (nodes ++ [Text t], r) | AOpen t r => parts fuel vars term level (nodes ++ [Text t]) r end
  | IOpen t _ r => parts fuel vars term level (nodes ++ [Text t]) r
  | IError => Err OtherErr
  end.
Lemma parts_eq fuel vars term level nodes s : parts (S fuel) vars term level nodes s =
  (x <- template vars s ;; continue fuel vars term level (nodes ++ [Code (fst x)]) (snd x)).
Proof. cbn [ModelQuote.parts]. destruct (template vars s) as [[n r]| |]; reflexivity. Qed.
Lemma piece_level0 q n t s m rest : piece None q n t s m rest -> n = 0%nat -> m = 0%nat.
Proof. induction 1; intros; try discriminate; auto. Qed.

Lemma follow_length s w e : follow s w e -> match e with Closed r => (length r <= length s)%nat | Opened r => (length r < length s)%nat end.
Proof.
  induction 1 as [s0 k a b r N K1 K2|s0 x a b r w e N F IH|s0 x l a b r N]; [lia| |].
  - assert (L' : (length r < length s0)%nat) by (eapply next_shorter; [exact N|discriminate]). destruct e; lia.
  - eapply next_shorter; [exact N|discriminate].
Qed.
Lemma continue_ok q vars s ps r : q <> 35 -> quoted u v code template q vars s ps r -> forall fuel nodes, (length s < fuel)%nat ->
  continue fuel vars (Some q) 0 nodes s = Ok (nodes ++ ps, r).
Proof.
  intros NQ. induction 1 as [t s rest w r P F|t s n x rest ps r P S T _ IH|t s rest w x n rest' ps r P F -> T _ IH]; intros fuel nodes L; unfold continue.
  - rewrite (read_interp_done _ _ _ _ _ _ _ P) by (discriminate || lia).
    rewrite (adjacent_ok _ _ _ F) by lia. reflexivity.
  - rewrite (read_interp_open _ _ _ _ _ _ _ _ P) by (discriminate || congruence || assumption || lia).
    rewrite app_length in L. cbn [length] in L. destruct fuel as [|f]; [lia|]. rewrite parts_eq, T. cbn [rbind fst snd].
    pose proof (TK _ _ _ _ T). rewrite IH by lia. rewrite <- !app_assoc. reflexivity.
  - rewrite (read_interp_done _ _ _ _ _ _ _ P) by (discriminate || lia).
    rewrite (adjacent_ok _ _ _ F) by lia. cbn [rbind]. apply follow_length in F.
    rewrite app_length in L. cbn [length] in L. destruct fuel as [|f]; [lia|]. rewrite parts_eq, T. cbn [rbind fst snd].
    pose proof (TK _ _ _ _ T). rewrite IH by lia. rewrite <- !app_assoc. reflexivity.
Qed.
Lemma continue_sound vars fuel : forall nodes s ps' r, continue fuel vars (Some 34) 0 nodes s = Ok (ps', r) ->
  exists ps, ps' = nodes ++ ps /\ quoted u v code template 34 vars s ps r.
Proof.
  induction fuel as [|f IH]; intros nodes s ps' r H; unfold continue in H;
    pose proof (read_interp_sound (S (length s)) s None (Some 34) 0 [] s (le_n _)) as R;
    destruct (read_interp (S (length s)) s None (Some 34) 0 [] s) as [t r0|t m r0|] eqn:E; try discriminate.
  - destruct R as (t0 & w0 & -> & [(c & Ec & _ & -> & P)|(m & Em & _)]); [|discriminate]. injection Ec as <-. cbn [app] in H.
    destruct (adjacent (S (length r0)) w0 r0) as [[t1 r1|t1 r1]| |] eqn:A; cbn [rbind] in H; try discriminate.
    apply adjacent_sound in A. destruct A as (w & -> & F). injection H as <- <-. eexists. split; [reflexivity|]. apply Q_last; assumption.
  - destruct R as (t0 & w0 & -> & [(c & Ec & _ & -> & P)|(m & Em & _)]); [|discriminate]. injection Ec as <-. cbn [app] in H.
    destruct (adjacent (S (length r0)) w0 r0) as [[t1 r1|t1 r1]| |] eqn:A; cbn [rbind] in H; try discriminate.
    + apply adjacent_sound in A. destruct A as (w & -> & F). injection H as <- <-. eexists. split; [reflexivity|]. apply Q_last; assumption.
    + apply adjacent_sound in A. destruct A as (w & -> & F). rewrite parts_eq in H.
      destruct (template vars r1) as [[n r2]| |] eqn:T; cbn [rbind fst snd] in H; try discriminate.
      destruct (IH _ _ _ _ H) as (ps & -> & Q). eexists. rewrite <- !app_assoc. split; [reflexivity|].
      cbn [app]. eapply Q_joined; try eassumption; reflexivity.
  - destruct R as (t0 & w0 & -> & -> & _ & _ & S & P). pose proof (piece_level0 _ _ _ _ _ _ P eq_refl) as ->. cbn [app] in H. rewrite parts_eq in H.
    destruct (template vars r0) as [[n r2]| |] eqn:T; cbn [rbind fst snd] in H; try discriminate.
    destruct (IH _ _ _ _ H) as (ps & -> & Q). eexists. rewrite <- !app_assoc. split; [reflexivity|].
    cbn [app]. eapply Q_code; try eassumption; reflexivity.
Qed.
Lemma quoted_shape q vars s ps r : quoted u v code template q vars s ps r ->
  (exists t, ps = [Text t]) \/ (exists t n ps', ps = Text t :: Code n :: ps' /\ ps' <> []).
Proof.
  assert (NE : forall s ps r, quoted u v code template q vars s ps r -> ps <> []) by (intros ? ? ? []; discriminate).
  intros [t s0 rest w r0 P F|t s0 n x rest ps0 r0 P S T Q|t s0 rest w x n rest' ps0 r0 P F E T Q]; [left|right|right]; eauto 10.
Qed.

(** the token that opens a string is read like the pieces behind an interpolation *)
Lemma read_dq_interp hp q : q <> 10 -> forall fuel acc s, (length s <= length hp)%nat ->
  read_dq fuel q acc s = match read_interp fuel hp None (Some q) 0 acc s with IDone v r => DDone v r | IOpen v _ r => DOpen v r | IError => DError end.
Proof.
  intros NQ. induction fuel as [|n IH]; intros acc s L; [reflexivity|]. destruct s as [|c s]; [reflexivity|]. cbn [length] in L.
  cbn [read_dq read_interp is_some]. rewrite (Z.eqb_sym q c). destruct (c =? q); [reflexivity|]. destruct (c =? 92).
  - pose proof (consume_nl s) as NL. destruct (consume 10 s) as [r'|] eqn:C.
    + subst s. cbn [length] in L. rewrite next_line_id by lia. apply IH. lia.
    + destruct (read_escape s) as [[x r']|] eqn:RE; [|reflexivity]. apply read_escape_sound in RE; [|exact NL].
      destruct RE as (e & -> & _). rewrite app_length in L. apply IH. lia.
  - destruct (c =? 35); [destruct (interpolates s); [reflexivity|apply IH; lia]|].
    destruct (Z.eqb_spec c 10) as [->|]; [rewrite next_line_id by lia|]; apply IH; lia.
Qed.
Lemma parse_quoted_eq vars s : parse_quoted u v code template vars (34 :: s) =
  match read_interp (S (length s)) s None (Some 34) 0 [] s with
  | IDone t r => string_literal u v code template vars t r
  | IOpen t _ r => interpolated u v code template vars (Some 34) 0 t r
  | IError => Err OtherErr
  end.
Proof.
  unfold parse_quoted, read_token, read_token2 at 1. cbn [skip_white]. change (34 =? 10) with false. change (34 =? 92) with false.
  change (ascii_white 34) with false. cbv iota. unfold read_one. change (ascii_alpha 34 || (34 =? 95)) with false.
  change (numeric u 34) with false. change (ascii_punct 34) with true. change (34 =? 35) with false. change (34 =? 34) with true. cbv iota.
  rewrite (read_dq_interp s) by lia. destruct (read_interp (S (length s)) s None (Some 34) 0 [] s); reflexivity.
Qed.
Lemma parse_quoted_iff vars s l r : parse_quoted u v code template vars (34 :: s) = Ok (l, r) <->
  exists ps, quoted u v code template 34 vars s ps r /\ l = literal ps.
Proof.
  rewrite parse_quoted_eq. split.
  - intros H.
    assert (X : exists f ps, continue f vars (Some 34) 0 [] s = Ok (ps, r) /\ l = literal ps).
    { unfold continue. pose proof (read_interp_sound (S (length s)) s None (Some 34) 0 [] s (le_n _)) as R.
      destruct (read_interp (S (length s)) s None (Some 34) 0 [] s) as [t r0|t m r0|] eqn:E; [| |discriminate].
      - unfold string_literal in H. destruct (adjacent (S (length r0)) t r0) as [[t1 r1|t1 r1]| |]; cbn [rbind] in *; try discriminate.
        + injection H as <- <-. exists 0%nat, [Text t1]. split; reflexivity.
        + unfold interpolated in H. exists (S (length r1)). cbn [app]. destruct (parts (S (length r1)) vars (Some 34) 0 [Text t1] r1) as [[ps r2]| |] eqn:Q; [|discriminate|discriminate].
          cbn [rbind fst snd] in H. injection H as <- <-. exists ps. split; [reflexivity|].
          rewrite parts_eq in Q. destruct (template vars r1) as [[n r3]| |] eqn:T; cbn [rbind fst snd] in Q; [|discriminate|discriminate].
          apply continue_sound in Q. destruct Q as (ps' & -> & Q). reflexivity.
      - unfold interpolated in H. exists (S (length r0)). cbn [app]. destruct (parts (S (length r0)) vars (Some 34) 0 [Text t] r0) as [[ps r2]| |] eqn:Q; [|discriminate|discriminate].
        cbn [rbind fst snd] in H. injection H as <- <-. exists ps. split; [reflexivity|].
        rewrite parts_eq in Q. destruct (template vars r0) as [[n r3]| |] eqn:T; cbn [rbind fst snd] in Q; [|discriminate|discriminate].
        apply continue_sound in Q. destruct Q as (ps' & -> & Q). reflexivity. }
    destruct X as (f & ps & C & ->). apply continue_sound in C. destruct C as (ps' & -> & Q). exists ps'. split; [exact Q|reflexivity].
  - intros (ps & Q & ->). destruct Q as [t s0 rest w r0 P F|t s0 n x rest ps0 r0 P S T Q|t s0 rest w x n rest' ps0 r0 P F _ T Q].
    + rewrite (read_interp_done _ _ _ _ _ _ _ P) by (discriminate || lia). unfold string_literal.
      rewrite (adjacent_ok _ _ _ F) by lia. reflexivity.
    + rewrite (read_interp_open _ _ _ _ _ _ _ _ P) by (discriminate || assumption || lia). unfold interpolated.
      rewrite parts_eq, T. cbn [rbind fst snd]. pose proof (TK _ _ _ _ T).
      rewrite (continue_ok 34 vars rest ps0 r0) by (discriminate || exact Q || lia). reflexivity.
    + rewrite (read_interp_done _ _ _ _ _ _ _ P) by (discriminate || lia). unfold string_literal.
      rewrite (adjacent_ok _ _ _ F) by lia. cbn [rbind]. unfold interpolated.
      rewrite parts_eq, T. cbn [rbind fst snd]. pose proof (TK _ _ _ _ T).
      rewrite (continue_ok 34 vars rest' ps0 r0) by (discriminate || exact Q || lia). reflexivity.
Qed.

(** * Percent literals *)
Notation parse_percent := (parse_percent u v code template).
Lemma percent_single k vars hp d x l r : In k (codes "qwi") -> (length (k :: d :: x) <= length hp)%nat ->
  parse_percent vars hp (k :: d :: x) = Ok (l, r) <->
  exists open close t s, delimited d open close /\ (k = 113 \/ ~ separator d) /\ x = t ++ close :: r /\ plain open close 0 t s /\
    l = (if k =? 113 then LString s else if k =? 119 then LWords (percent_words s) else LSymbols (percent_words s)).
Proof.
  intros K L. cbn [length] in L.
  assert (K' : k = 113 \/ k = 119 \/ k = 105) by (cbn in K; lia).
  assert (E : parse_percent vars hp (k :: d :: x) =
    if ascii_alnum d then Err OtherErr else
    match delimiters (Some k) d with
    | None => Err OtherErr
    | Some (open, close) =>
        match read_single (S (length x)) hp open close false 0 [] x with
        | Some (s, r) => Ok ((if k =? 113 then LString s else if k =? 119 then LWords (percent_words s) else LSymbols (percent_words s)), r)
        | None => Err OtherErr
        end
    end).
  { unfold ModelQuote.parse_percent, read_percent.
    replace (existsb (Z.eqb k) percent_kinds) with true by (destruct K' as [->|[->| ->]]; reflexivity).
    destruct (ascii_alnum d); [reflexivity|]. unfold read_percent_body. destruct (delimiters (Some k) d) as [[open close]|]; [|reflexivity].
    replace (k =? 81) with false by lia. replace (k =? 114) with false by lia.
    destruct (read_single (S (length x)) hp open close false 0 [] x) as [[s r0]|]; [|reflexivity].
    destruct K' as [->|[->| ->]]; reflexivity. }
  rewrite E. split.
  - destruct (ascii_alnum d) eqn:A; [discriminate|]. destruct (delimiters (Some k) d) as [[open close]|] eqn:D; [|discriminate].
    destruct (read_single (S (length x)) hp open close false 0 [] x) as [[s r0]|] eqn:R; [|discriminate].
    intros Q. injection Q as <- <-. apply read_single_sound in R; [|lia]. destruct R as (O & t & w & -> & -> & P).
    exists open, close, t, w. split; [eapply delimiters_sound; eassumption|]. split; [|repeat split; auto].
    destruct K' as [->|K']; [auto|]. right. intros S. unfold delimiters in D. unfold separator in S.
    destruct S as [->| ->]; destruct K' as [->| ->]; discriminate D.
  - intros (open & close & t & s & D & S & -> & P & ->). destruct (delimited_ok _ _ _ D) as (A & O & D1 & D2 & _). rewrite A.
    replace (delimiters (Some k) d) with (Some (open, close)).
    2:{ symmetry. destruct S as [->|S]; [apply D2; cbn; lia|apply D1; exact S]. }
    rewrite (read_single_ok hp open close 0 t s P O r) by (rewrite ?app_length in *; cbn [length] in *; lia). reflexivity.
Qed.
Lemma percent_double vars hp pre d x s r : In pre [[]; [81]] -> (length (pre ++ d :: x) <= length hp)%nat -> ascii_alnum d = false ->
  parse_percent vars hp (pre ++ d :: x) = Ok (LString s, r) <->
  exists open close t, delimited d open close /\ x = t ++ close :: r /\ piece open (Some close) 0 t s 0 (close :: r).
Proof.
  intros K L A. rewrite app_length in L. cbn [length] in L.
  assert (ND : existsb (Z.eqb d) percent_kinds = false).
  { unfold ascii_alnum, ascii_alpha, ascii_upper, ascii_digit, within in A. cbn. lia. }
  assert (E : exists kind, (kind = None \/ kind = Some 81) /\ parse_percent vars hp (pre ++ d :: x) =
    match delimiters kind d with
    | None => Err OtherErr
    | Some (open, close) =>
        match read_interp (S (length x)) hp open (Some close) 0 [] x with
        | IDone s r => Ok (LString s, r) | IOpen s level r => interpolated u v code template vars (Some close) level s r | IError => Err OtherErr
        end
    end).
  { destruct K as [<-|[<-|[]]]; cbn [app]; unfold ModelQuote.parse_percent, read_percent.
    - exists None. split; [auto|]. rewrite ND, A. cbn [negb]. unfold read_percent_body. destruct (delimiters None d) as [[open close]|]; [|reflexivity].
      destruct (read_interp (S (length x)) hp open (Some close) 0 [] x); reflexivity.
    - exists (Some 81). split; [auto|]. change (existsb (Z.eqb 81) percent_kinds) with true. cbv iota. rewrite A. unfold read_percent_body.
      destruct (delimiters (Some 81) d) as [[open close]|]; [|reflexivity].
      change (81 =? 81) with true. cbv iota. destruct (read_interp (S (length x)) hp open (Some close) 0 [] x); reflexivity. }
  destruct E as (kind & KD & ->). split.
  - destruct (delimiters kind d) as [[open close]|] eqn:D; [|discriminate].
    pose proof (read_interp_sound (S (length x)) hp open (Some close) 0 [] x ltac:(lia)) as R.
    destruct (read_interp (S (length x)) hp open (Some close) 0 [] x) as [t r0|t m r0|]; [| |discriminate].
    + intros Q. injection Q as <- <-. destruct R as (t0 & w0 & -> & [(c & Ec & _ & -> & P)|(m & Em & _)]); [|discriminate]. injection Ec as <-.
      exists open, close, t0. split; [eapply delimiters_sound; eassumption|]. split; [reflexivity|exact P].
    + unfold interpolated. destruct (parts _ _ _ _ _ _) as [[ps r1]| |]; discriminate.
  - intros (open & close & t & D & -> & P). destruct (delimited_ok _ _ _ D) as (_ & O & D1 & D2 & _).
    rewrite D2 by (destruct KD as [->| ->]; cbn; lia).
    rewrite (read_interp_done hp open close 0 t s r P O) by (rewrite ?app_length in *; cbn [length] in *; lia). reflexivity.
Qed.
Lemma percent_parts vars hp pre d x ps r : In pre [[]; [81]] -> (length (pre ++ d :: x) <= length hp)%nat ->
  delimited d None d -> d <> 34 -> d <> 35 -> quoted u v code template d vars x ps r -> (exists n, In (Code n) ps) ->
  parse_percent vars hp (pre ++ d :: x) = Ok (LParts ps, r).
Proof.
  intros K L D N34 N35 Q [n0 In0]. rewrite app_length in L. cbn [length] in L. destruct (delimited_ok _ _ _ D) as (A & _ & _ & D2 & ND).
  assert (E : parse_percent vars hp (pre ++ d :: x) =
        match read_interp (S (length x)) hp None (Some d) 0 [] x with
        | IDone s r => Ok (LString s, r) | IOpen s level r => interpolated u v code template vars (Some d) level s r | IError => Err OtherErr
        end).
  { destruct K as [<-|[<-|[]]]; cbn [app]; unfold ModelQuote.parse_percent, read_percent.
    - rewrite ND, A. cbn [negb]. unfold read_percent_body. rewrite D2 by exact I.
      destruct (read_interp (S (length x)) hp None (Some d) 0 [] x); reflexivity.
    - change (existsb (Z.eqb 81) percent_kinds) with true. cbv iota. rewrite A. unfold read_percent_body. rewrite D2 by (cbn; lia).
      change (81 =? 81) with true. cbv iota. destruct (read_interp (S (length x)) hp None (Some d) 0 [] x); reflexivity. }
  rewrite E. destruct Q as [t s0 rest w r0 P F|t s0 n x rest ps0 r0 P S T Q|t s0 rest w x n rest' ps0 r0 P F E' T Q]; [| |congruence].
  - cbn in In0. destruct In0 as [Q|[]]. discriminate.
  - rewrite (read_interp_open _ _ _ _ _ _ _ _ P) by (discriminate || congruence || assumption || lia). unfold interpolated.
    rewrite parts_eq, T. cbn [rbind fst snd]. pose proof (TK _ _ _ _ T).
    rewrite (continue_ok d vars rest ps0 r0) by (assumption || lia). reflexivity.
Qed.

(** * Regular expressions *)
Lemma read_regexp_verbatim n t rest : verbatim n t rest -> forall fuel acc, (length (t ++ rest) < fuel)%nat ->
  exists fuel' m, (length rest < fuel')%nat /\ read_regexp fuel n acc (t ++ rest) = read_regexp fuel' m (acc ++ t) rest.
Proof.
  assert (STEP : forall p t' n' acc rest f, (exists fuel' m, (length rest < fuel')%nat /\
      read_regexp f n' (acc ++ p) (t' ++ rest) = read_regexp fuel' m ((acc ++ p) ++ t') rest) ->
    exists fuel' m, (length rest < fuel')%nat /\ read_regexp f n' (acc ++ p) (t' ++ rest) = read_regexp fuel' m (acc ++ p ++ t') rest).
  { intros p t' n' acc rest' f (f' & m & A & B). exists f', m. rewrite app_assoc. auto. }
  induction 1 as [n rest|c n t rest A P IH|n t rest P IH|n t rest P IH|n t rest A P IH|t rest P IH|c n t rest A P IH|n t rest A P IH]; intros fuel acc L.
  - exists fuel, n. rewrite app_nil_r. auto.
  - cbn [app length] in *. destruct fuel as [|f]; [lia|]. cbn [read_regexp]. cbn in A.
    replace (c =? 47) with false by lia. replace (c =? 91) with false by lia. replace (c =? 93) with false by lia.
    replace (c =? 92) with false by lia. replace (c =? 35) with false by lia. cbv iota. apply (STEP [c]). apply IH. lia.
  - cbn [app length] in *. destruct fuel as [|f]; [lia|]. cbn [read_regexp]. change (91 =? 47) with false. change (91 =? 91) with true. cbv iota. apply (STEP [91]). apply IH. lia.
  - cbn [app length] in *. destruct fuel as [|f]; [lia|]. cbn [read_regexp]. change (93 =? 47) with false. change (93 =? 91) with false. change (93 =? 93) with true. cbv iota. apply (STEP [93]). apply IH. lia.
  - cbn [app length] in *. destruct fuel as [|f]; [lia|]. cbn [read_regexp]. change (35 =? 47) with false. change (35 =? 91) with false. change (35 =? 93) with false. change (35 =? 92) with false. change (35 =? 35) with true. cbv iota.
    replace (interpolates (t ++ rest)) with false by (symmetry; apply not_true_iff_false; rewrite interpolates_iff; exact A).
    apply (STEP [35]). apply IH. lia.
  - cbn [app length] in *. destruct fuel as [|f]; [lia|]. cbn [read_regexp]. change (92 =? 47) with false. change (92 =? 91) with false. change (92 =? 93) with false. change (92 =? 92) with true. cbv iota.
    change (regexp_escape 0 98 (t ++ rest)) with ([92; 98], t ++ rest). cbv iota. apply (STEP [92; 98]). apply IH. lia.
  - cbn [app length] in *. destruct fuel as [|f]; [lia|]. cbn [read_regexp]. change (92 =? 47) with false. change (92 =? 91) with false. change (92 =? 93) with false. change (92 =? 92) with true. cbv iota.
    replace (regexp_escape n c (t ++ rest)) with ([92; c], t ++ rest).
    2:{ symmetry. cbn in A. unfold regexp_escape.
        destruct (Z.eqb_spec c 97) as [->|]; [reflexivity|]. replace (c =? 98) with false by lia. replace (c =? 101) with false by lia.
        destruct (Z.eqb_spec c 102) as [->|]; [reflexivity|]. destruct (Z.eqb_spec c 110) as [->|]; [reflexivity|]. destruct (Z.eqb_spec c 114) as [->|]; [reflexivity|].
        replace (c =? 115) with false by lia. destruct (Z.eqb_spec c 116) as [->|]; [reflexivity|]. destruct (Z.eqb_spec c 118) as [->|]; [reflexivity|].
        replace (ascii_octal c) with false by (unfold ascii_octal, within; lia). destruct ((c <=? 49) && (c <=? 57) && _); reflexivity. }
    cbv iota. apply (STEP [92; c]). apply IH. lia.
  - cbn [app length] in *. destruct fuel as [|f]; [lia|]. cbn [read_regexp]. change (92 =? 47) with false. change (92 =? 91) with false. change (92 =? 93) with false. change (92 =? 92) with true. cbv iota.
    replace (regexp_escape n 49 (t ++ rest)) with ([92; 49], t ++ rest).
    2:{ symmetry. unfold regexp_escape.
        replace (match t ++ rest with d :: _ => ascii_digit d | [] => false end) with false; [reflexivity|].
        destruct (t ++ rest) as [|d y]; [reflexivity|]. cbn in A. unfold decimal in A. unfold ascii_digit, within. lia. }
    cbv iota. apply (STEP [92; 49]). apply IH. lia.
Qed.
Lemma postfix_ok o f rest : In (o, f) options -> (o = [] -> ~ starts (fun c => In c (codes "imxoun")) rest) -> postfix (o ++ rest) = (f, rest).
Proof.
  intros H N. cbn in H. destruct H as [H|H].
  - injection H as <- <-. specialize (N eq_refl). cbn [app]. destruct rest as [|c rest]; [reflexivity|]. cbn in N. unfold postfix.
    replace ((c =? 105) || (c =? 109) || (c =? 120) || (c =? 111)) with false by lia. replace ((c =? 117) || (c =? 110)) with false by lia. reflexivity.
  - repeat (destruct H as [H|H]; [injection H as <- <-; reflexivity|]). destruct H.
Qed.
Lemma regexp_parts_ok vars s ps r : pattern template vars s ps r -> forall fuel nodes, (length s < fuel)%nat ->
  regexp_parts code template fuel vars nodes s = Ok (nodes ++ ps, r).
Proof.
  induction 1 as [t o f rest V O N|t x n rest ps r V S T _ IH]; intros fuel nodes L; (destruct fuel as [|fu]; [lia|]); cbn [regexp_parts].
  - destruct (read_regexp_verbatim _ _ _ V (Datatypes.S (length (t ++ 47 :: o ++ rest))) [] (le_n _)) as (f' & m & L' & ->).
    destruct f'; [cbn in L'; lia|]. cbn [read_regexp app]. change (47 =? 47) with true. cbv iota. rewrite (postfix_ok _ _ _ O N). reflexivity.
  - destruct (read_regexp_verbatim _ _ _ V (Datatypes.S (length (t ++ 35 :: x))) [] (le_n _)) as (f' & m & L' & ->).
    destruct f'; [cbn in L'; lia|]. cbn [read_regexp app]. change (35 =? 47) with false. change (35 =? 91) with false. change (35 =? 93) with false. change (35 =? 92) with false. change (35 =? 35) with true. cbv iota.
    apply interpolates_iff in S. rewrite S, T. cbn [rbind fst snd]. pose proof (TK _ _ _ _ T). rewrite app_length in L. cbn [length] in L.
    rewrite IH by lia. rewrite <- app_assoc. reflexivity.
Qed.
Lemma parse_regexp_ok vars s ps r : pattern template vars s ps r -> parse_regexp code template vars s = Ok (LRegexp ps, r).
Proof. intros P. unfold parse_regexp. rewrite (regexp_parts_ok _ _ _ _ P) by lia. reflexivity. Qed.

(** * Here documents with interpolations *)
Lemma next_nil : next u v [] KEof [] [] [].
Proof. apply (Next_end u v []). constructor. Qed.
Lemma continue_undelimited vars s ps : undelimited code template vars s ps -> forall fuel nodes, (length s < fuel)%nat ->
  continue fuel vars None 0 nodes s = Ok (nodes ++ ps, []).
Proof.
  induction 1 as [t s P|t s n x rest ps P S T _ IH]; intros fuel nodes L; unfold continue.
  - rewrite (read_interp_end _ _ _ _ _ _ P) by lia. cbn -[continue]. reflexivity.
  - rewrite (read_interp_open _ _ _ _ _ _ _ _ P) by (discriminate || assumption || lia).
    rewrite app_length in L. cbn [length] in L. destruct fuel as [|f]; [lia|]. rewrite parts_eq, T. cbn [rbind fst snd].
    pose proof (TK _ _ _ _ T). rewrite IH by lia. rewrite <- !app_assoc. reflexivity.
Qed.
Lemma continue_undelimited_sound vars fuel : forall nodes s ps' r, continue fuel vars None 0 nodes s = Ok (ps', r) ->
  exists ps, ps' = nodes ++ ps /\ r = [] /\ undelimited code template vars s ps.
Proof.
  induction fuel as [|f IH]; intros nodes s ps' r H; unfold continue in H;
    pose proof (read_interp_sound (S (length s)) s None None 0 [] s (le_n _)) as R;
    destruct (read_interp (S (length s)) s None None 0 [] s) as [t r0|t m r0|] eqn:E; try discriminate.
  - destruct R as (t0 & w0 & -> & [(c & Ec & _)|(m & Em & -> & -> & P)]); [discriminate|]. cbn in H. injection H as <- <-.
    pose proof (piece_level0 _ _ _ _ _ _ P eq_refl) as ->. eexists. repeat split. constructor. exact P.
  - destruct R as (t0 & w0 & -> & [(c & Ec & _)|(m & Em & -> & -> & P)]); [discriminate|]. cbn -[ModelQuote.parts] in H. injection H as <- <-.
    pose proof (piece_level0 _ _ _ _ _ _ P eq_refl) as ->. eexists. repeat split. constructor. exact P.
  - destruct R as (t0 & w0 & -> & -> & _ & _ & S & P). pose proof (piece_level0 _ _ _ _ _ _ P eq_refl) as ->. cbn [app] in H. rewrite parts_eq in H.
    destruct (template vars r0) as [[n r2]| |] eqn:T; cbn [rbind fst snd] in H; try discriminate.
    destruct (IH _ _ _ _ H) as (ps & -> & -> & Q). eexists. rewrite <- !app_assoc. repeat split.
    cbn [app]. eapply U_code; try eassumption; reflexivity.
Qed.
Definition document (t : chars) : res (lit code) :=
  match read_interp (S (length t)) t None None 0 [] t with
  | IDone s _ => Ok (LString s)
  | IOpen s level r => x <- interpolated u v code template [] None level s r ;; Ok (fst x)
  | IError => Err OtherErr
  end.
Lemma document_iff t l : document t = Ok l <-> exists ps, undelimited code template [] t ps /\ l = literal ps.
Proof.
  unfold document. split.
  - intros H.
    assert (X : exists f ps r, continue f [] None 0 [] t = Ok (ps, r) /\ l = literal ps).
    { unfold continue. pose proof (read_interp_sound (S (length t)) t None None 0 [] t (le_n _)) as R.
      destruct (read_interp (S (length t)) t None None 0 [] t) as [s r0|s m r0|] eqn:E; [| |discriminate].
      - destruct R as (t0 & w0 & -> & [(c & Ec & _)|(m & Em & -> & -> & P)]); [discriminate|]. injection H as <-. exists 0%nat. cbn. do 2 eexists. split; reflexivity.
      - destruct R as (t0 & w0 & -> & -> & _ & _ & S & P). pose proof (piece_level0 _ _ _ _ _ _ P eq_refl) as ->.
        unfold interpolated in H. exists (Datatypes.S (length r0)). cbn [app] in *.
        destruct (parts (Datatypes.S (length r0)) [] None 0 [Text w0] r0) as [[ps r2]| |] eqn:Q; [|discriminate|discriminate].
        cbn [rbind fst snd] in H. injection H as <-. exists ps, r2. split; [reflexivity|].
        rewrite parts_eq in Q. destruct (template [] r0) as [[n r3]| |] eqn:T; cbn [rbind fst snd] in Q; [|discriminate|discriminate].
        apply continue_undelimited_sound in Q. destruct Q as (ps' & -> & _). reflexivity. }
    destruct X as (f & ps & r & C & ->). apply continue_undelimited_sound in C. destruct C as (ps' & -> & _ & Q). exists ps'. split; [exact Q|reflexivity].
  - intros (ps & [t0 s P|t0 s n x rest ps0 P S T Q] & ->).
    + rewrite (read_interp_end _ _ _ _ _ _ P) by lia. reflexivity.
    + rewrite (read_interp_open _ _ _ _ _ _ _ _ P) by (discriminate || assumption || lia). unfold interpolated.
      rewrite parts_eq, T. cbn [rbind fst snd]. pose proof (TK _ _ _ _ T).
      rewrite (continue_undelimited [] rest ps0 Q) by lia. reflexivity.
Qed.
End Parts.
