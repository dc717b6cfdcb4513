From Coq Require Import String Ascii ZArith List Bool Lia Sorted.
From Verif Require Import Base ProofsBase ModelText ModelParse ModelLexer ProofsText SpecLexer ProofsLexer ProofsLexer2 ProofsLexer3 ProofsLexer4 ProofsLexer5 ProofsLexer6.
Import ListNotations.
Open Scope Z_scope.

(** * Names of methods *)
Definition mtable := Eval vm_compute in operator_methods.
Lemma mtable_eq : operator_methods = mtable. Proof. reflexivity. Qed.
Lemma mlongest assign t r : In t mtable ->
  forallb (fun x => negb (prefixb x (t ++ r)) || Nat.leb (length x) (length t)) mtable = true -> method_name assign t r.
Proof.
  intros H F. apply M_operator; rewrite mtable_eq; [exact H|]. intros t' r' H' Q. rewrite forallb_forall in F. specialize (F _ H').
  rewrite Q, prefixb_app in F. cbn [negb orb] in F. apply Nat.leb_le. exact F.
Qed.
Ltac in_mtable := unfold mtable; repeat first [left; reflexivity|right].
Ltac m_done t := exists t; split; [reflexivity|]; apply mlongest; [in_mtable|]; cbn; known; reflexivity.
Ltac m_split :=
  match goal with
  | H : match consume ?d ?s with _ => _ end = Ok _ |- _ =>
      let E := fresh "E" in destruct (consume d s) eqn:E;
      [apply consume_some in E; subst s|apply consume_none in E]
  | H : Ok _ = Ok _ |- _ => injection H as <- <-
  | H : match ?s with [] => _ | _ => _ end = Ok _ |- _ => destruct s; discriminate
  | H : Err _ = Ok _ |- _ => discriminate
  end.
Ltac m_close := match goal with
       | |- exists t, ?a :: ?r = t ++ ?r /\ _ => destruct r as [|? [|? ?]]; cbn in *; m_done [a]
       | |- exists t, ?a :: ?b :: ?r = t ++ ?r /\ _ => destruct r as [|? ?]; cbn in *; m_done [a; b]
       | |- exists t, ?a :: ?b :: ?d :: ?r = t ++ ?r /\ _ => m_done [a; b; d]
       end.
Lemma read_method_sound assign s t r : read_method_name assign s = Ok (t, r) -> s = t ++ r /\ method_name assign t r.
Proof.
  assert (G : (exists t', s = t' ++ r /\ t = t' /\ method_name assign t' r) -> s = t ++ r /\ method_name assign t r).
  { intros (t' & -> & -> & H). auto. }
  intros H. apply G. clear G. unfold read_method_name in H. destruct s as [|c s]; [discriminate|].
  destruct (ascii_alpha c || (c =? 95)) eqn:A.
  { assert (Lc : letter c) by (cls; lia). destruct (span ident_char s) as [body r1] eqn:SP. apply span_word_sound in SP. destruct SP as (-> & F & N).
    destruct r1 as [|x y].
    - injection H as <- <-. exists (c :: body). rewrite !app_nil_r. conj. apply M_plain; cbn; auto; tauto.
    - destruct (((x =? 33) && negb (peek_is 61 y)) || (x =? 63) || (assign && (x =? 61) && negb (peek_is 62 y))) eqn:T.
      + injection H as <- <-. exists (c :: body ++ [x]). cbn [app]. rewrite <- app_assoc. conj.
        assert (PK : forall d, negb (peek_is d y) = true -> ~ starts (fun c => c = d) y).
        { intros d Q Q'. destruct y as [|z y]; [exact Q'|]. cbn in *. subst. rewrite Z.eqb_refl in Q. discriminate. }
        apply orb_prop in T. destruct T as [T|T]; [apply orb_prop in T; destruct T as [T|T]|].
        * apply andb_prop in T. destruct T as [T1 T2]. apply Z.eqb_eq in T1. subst. apply M_bang; auto.
        * apply Z.eqb_eq in T. subst. apply M_question; auto.
        * apply andb_prop in T. destruct T as [T T3]. apply andb_prop in T. destruct T as [T1 T2]. apply Z.eqb_eq in T2. subst. apply M_setter; auto.
      + injection H as <- <-. exists (c :: body). rewrite app_nil_r. conj.
        apply orb_false_elim in T. destruct T as [T T3]. apply orb_false_elim in T. destruct T as [T1 T2].
        apply M_plain; auto; cbn.
        * lia.
        * intros ->. cbn in T1. destruct y as [|z y]; [discriminate|]. cbn in T1. apply negb_false_iff in T1. apply Z.eqb_eq in T1. subst. eauto.
        * intros -> ->. cbn in T3. destruct y as [|z y]; [discriminate|]. cbn in T3. apply negb_false_iff in T3. apply Z.eqb_eq in T3. subst. eauto. }
  assert (O : exists t', c :: s = t' ++ r /\ (t = t' /\ method_name assign t' r)); [|destruct O as (t' & ? & ?); exists t'; auto].
  destruct ((c =? 47) || (c =? 37) || (c =? 38) || (c =? 124) || (c =? 94) || (c =? 126) || (c =? 96)) eqn:B.
  { injection H as <- <-. exists [c]. conj.
    assert (C : c = 47 \/ c = 37 \/ c = 38 \/ c = 124 \/ c = 94 \/ c = 126 \/ c = 96) by lia.
    repeat (destruct C as [->|C]; [apply mlongest; [in_mtable|]; destruct s as [|? [|? ?]]; reflexivity|]). subst c.
    apply mlongest; [in_mtable|]. destruct s as [|? [|? ?]]; reflexivity. }
  assert (X : forall a q, (exists t', a = t' ++ q /\ method_name assign t' q) -> forall b, a = b ++ q -> exists t', a = t' ++ q /\ (b = t' /\ method_name assign t' q)).
  { intros a q (t' & E & M) b E'. exists t'. conj. rewrite E in E'. apply app_inv_tail in E'. auto. }
  destruct ((c =? 43) || (c =? 45)) eqn:PM; [assert (C : c = 43 \/ c = 45) by lia; destruct C as [-> | ->]; cbn -[consume] in H|].
  1,2: repeat m_split; (apply X; [|reflexivity]); m_close.
  repeat match type of H with
  | (if ?c =? ?n then _ else _) = _ =>
      destruct (Z.eqb_spec c n) as [->|_];
      [repeat m_split; (apply X; [|reflexivity]); m_close|]
  end.
  discriminate.
Qed.
Lemma read_method_ok assign t r : method_name assign t r -> read_method_name assign (t ++ r) = Ok (t, r).
Proof.
  assert (W : forall c s, letter c -> read_method_name assign (c :: s) =
    let '(body, r1) := span ident_char s in
    let '(suf, r2) :=
      match r1 with
      | x :: y => if ((x =? 33) && negb (peek_is 61 y)) || (x =? 63) || (assign && (x =? 61) && negb (peek_is 62 y)) then ([x], y) else ([], r1)
      | [] => ([], [])
      end in Ok (c :: body ++ suf, r2)).
  { intros c s Hc. unfold read_method_name. replace (ascii_alpha c || (c =? 95)) with true by (symmetry; cls; lia). reflexivity. }
  assert (PK : forall d y, ~ starts (fun c => c = d) y -> negb (peek_is d y) = true).
  { intros d y Q. destruct y as [|z y]; [reflexivity|]. cbn in *. apply Z.eqb_neq in Q. rewrite Q. reflexivity. }
  intros H. pose proof H as H0. destruct H as [c t r Lc F N N1 N2 N3|c t r Lc F|c t r Lc F N|c t r Lc F A N|t r I M].
  - cbn [app]. rewrite W by exact Lc. rewrite span_word by assumption. destruct r as [|x y]; [rewrite app_nil_r; reflexivity|].
    cbn in N1, N2, N3.
    replace (((x =? 33) && negb (peek_is 61 y)) || (x =? 63) || (assign && (x =? 61) && negb (peek_is 62 y))) with false.
    { rewrite app_nil_r. reflexivity. }
    symmetry. apply Z.eqb_neq in N1. rewrite N1, orb_false_r. apply orb_false_intro.
    + destruct (Z.eqb_spec x 33) as [->|]; [|reflexivity]. destruct (N2 eq_refl) as [r' Q]. injection Q as ->. reflexivity.
    + destruct assign; [|reflexivity]. destruct (Z.eqb_spec x 61) as [->|]; [|reflexivity]. destruct (N3 eq_refl eq_refl) as [r' Q]. injection Q as ->. reflexivity.
  - cbn [app]. rewrite W by exact Lc. rewrite <- app_assoc, span_word; [|assumption|cbn; cls; lia]. reflexivity.
  - cbn [app]. rewrite W by exact Lc. rewrite <- app_assoc, span_word; [|assumption|cbn; cls; lia]. cbn [app]. rewrite (PK _ _ N). reflexivity.
  - cbn [app]. rewrite W by exact Lc. rewrite <- app_assoc, span_word; [|assumption|cbn; cls; lia]. cbn [app]. rewrite (PK _ _ N), A. reflexivity.
  - assert (T : exists x, read_method_name assign (t ++ r) = Ok x).
    { clear M H0. rewrite mtable_eq in I. unfold mtable in I. cbn in I.
      repeat (destruct I as [<-|I]; [destruct r as [|? [|? ?]]; cbn; repeat match goal with |- context [if ?b then _ else _] => destruct b | |- context [consume ?d ?s] => destruct (consume d s) end; eauto|]).
      destruct I. }
    destruct T as [[t' r'] T]. rewrite T. pose proof (read_method_sound _ _ _ _ T) as [Q M'].
    assert (I' : In t' operator_methods /\ (forall t'' rest', In t'' operator_methods -> t' ++ r' = t'' ++ rest' -> (length t'' <= length t')%nat)).
    { assert (NL : forall c s, letter c -> forall x, In x operator_methods -> x <> c :: s).
      { intros c s Lc x Ix ->. rewrite mtable_eq in Ix. unfold mtable in Ix. cbn in Ix.
        repeat (destruct Ix as [Ix|Ix]; [injection Ix; intros; subst; cls; lia|]). destruct Ix. }
      assert (NL' : forall c s, letter c -> t' = c :: s -> False).
      { intros c s Lc ->. destruct t as [|c0 t]; [rewrite mtable_eq in I; unfold mtable in I; cbn in I; intuition discriminate|].
        injection Q as -> Q. exact (NL c t Lc _ I eq_refl). }
      destruct M'; try (exfalso; eapply NL'; [|reflexivity]; assumption). auto. }
    destruct I' as [I' M2]. pose proof (M _ _ I' Q). pose proof (M2 _ _ I (eq_sym Q)).
    destruct (app_same_length _ _ _ _ Q) as [-> ->]; [lia|reflexivity].
Qed.

(** * Locations *)
Lemma bytes_width s : bytes s = width s.
Proof. induction s as [|c s IH]; [reflexivity|]. cbn [bytes width fold_right]. rewrite IH. reflexivity. Qed.
Lemma width_app a b : width (a ++ b) = width a + width b.
Proof. induction a as [|c a IH]; [reflexivity|]. cbn [app width fold_right]. unfold width in *. lia. Qed.
Lemma width_pos s : s <> [] -> 1 <= width s.
Proof.
  assert (P : forall c, 1 <= utf8_width c) by (intros c; unfold utf8_width; repeat match goal with |- context [if ?b then _ else _] => destruct b end; lia).
  assert (N : forall s, 0 <= width s) by (induction s0 as [|c s0 IH]; [reflexivity|]; cbn [width fold_right]; specialize (P c); unfold width in *; lia).
  destruct s as [|c s]; [congruence|]. intros _. cbn [width fold_right]. specialize (P c). specialize (N s). unfold width in *. lia.
Qed.
Lemma cur_loc_at p t q : t <> [] -> cur_loc (p ++ t ++ q) (t ++ q) q = (width p, width p + width t - 1).
Proof.
  intros H. unfold cur_loc, offset. rewrite !bytes_width, ?(bytes_width q), !width_app. pose proof (width_pos t H). f_equal; lia.
Qed.
Section U.
Variables (uni_numeric uni_alnum : Z -> bool).
Notation spells := (spells uni_numeric uni_alnum).
Notation next := (next uni_numeric uni_alnum).
Notation divides := (divides uni_numeric uni_alnum).
(** where the token [k] is in [code], a part of which is [s] *)
Definition token_at (code : chars) (k : token) : Prop :=
  exists p t q, code = p ++ t ++ q /\ t_start k = t ++ q /\ t_stop k = q /\
    match t_kind k with
    | KEof => t = [] /\ q = []
    | KLT => exists u, t = u ++ [10]
    | kind => spells kind t q
    end.
Lemma token_at_app a code k : token_at code k -> token_at (a ++ code) k.
Proof.
  intros (p & t & q & -> & H). exists (a ++ p), t, q. rewrite <- app_assoc. auto.
Qed.
Lemma next_at s k a b r : next s k a b r -> token_at s (mktoken k a b).
Proof.
  unfold token_at. cbn [t_kind t_start t_stop].
  intros [w k' t rest BW SP|w BW|w c BW C|w w' rest L B SO|w c w1 w2 rest BW C L N B SO].
  - exists w, t, rest. conj. destruct (spells_not_eof _ _ _ _ _ SP). destruct k'; auto; congruence.
  - exists w, [], []. rewrite app_nil_r. conj.
  - exists (w ++ c), [], []. rewrite app_nil_r. conj.
  - exists [], (w ++ [10]), (w' ++ rest). rewrite <- app_assoc. conj. eauto.
  - exists (w ++ c), (w1 ++ [10]), (w2 ++ rest). rewrite <- !app_assoc. conj. eauto.
Qed.
Lemma divides_at s l : divides s l -> Forall (token_at s) l.
Proof.
  induction 1 as [s a b r H|s k a b r l H NE _ IH].
  - constructor; [exact (next_at _ _ _ _ _ H)|constructor].
  - constructor; [exact (next_at _ _ _ _ _ H)|]. destruct (next_suffix _ _ _ _ _ _ _ H) as [p ->].
    apply Forall_impl with (2 := IH). intros x. apply token_at_app.
Qed.
Lemma next_stop s k a b r : next s k a b r -> exists p, b = p ++ r.
Proof.
  intros [w k' t rest BW SP|w BW|w c BW C|w w' rest L B SO|w c w1 w2 rest BW C L N B SO]; try (exists []; reflexivity); eauto.
Qed.
(** the end of a token, then what follows it *)
Definition before (code : chars) (x y : token) : Prop := snd (location code x) < fst (location code y).
Lemma divides_sorted s l : divides s l -> forall code p, code = p ++ s -> StronglySorted (before code) l.
Proof.
  induction 1 as [s a b r H|s k a b r l H NE D IH]; intros code p E.
  - constructor; constructor.
  - destruct (next_suffix _ _ _ _ _ _ _ H) as [p' E'].
    constructor; [apply (IH code (p ++ p')); rewrite E, E', app_assoc; reflexivity|].
    pose proof (divides_at _ _ D) as AT. apply Forall_impl with (2 := AT). intros y (p2 & t2 & q2 & E2 & S2 & T2 & _).
    destruct (next_at _ _ _ _ _ H) as (p1 & t1 & q1 & E1 & S1 & T1 & K). cbn [t_start t_stop t_kind] in *. subst a b.
    assert (N1 : t1 <> []).
    { destruct k; try (intros ->; eapply spells_ne; [exact K|reflexivity]); [congruence|]. destruct K as [u ->]. destruct u; discriminate. }
    unfold before, location. cbn [t_start t_stop]. rewrite E, E1, app_assoc, cur_loc_at by exact N1. cbn [snd].
    destruct (next_stop _ _ _ _ _ H) as [g G].
    unfold cur_loc. cbn [fst]. unfold offset. rewrite (bytes_width ((p ++ p1) ++ t1 ++ q1)), (bytes_width (t_start y)), S2.
    assert (WQ : width q1 = width g + width p2 + width (t2 ++ q2)) by (rewrite G, E2, !width_app; lia).
    rewrite (width_app (p ++ p1)), (width_app t1 q1), WQ.
    assert (0 <= width g). { destruct g; [reflexivity|]. pose proof (width_pos (z :: g) ltac:(discriminate)). lia. }
    assert (0 <= width p2). { destruct p2; [reflexivity|]. pose proof (width_pos (z :: p2) ltac:(discriminate)). lia. }
    lia.
Qed.
End U.
