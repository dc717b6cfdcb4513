From Coq Require Import String Ascii ZArith List Bool Lia.
From Verif Require Import Base ProofsBase ModelText ModelParse ModelLexer ProofsText SpecLexer ProofsLexer.
Import ListNotations.
Open Scope Z_scope.

Ltac conj := repeat match goal with |- _ /\ _ => split end; auto.

(** * Numbers *)
Definition dig (radix c : Z) : Prop := c = 95 \/ exists d, digit radix c d.
Lemma digit10 c : decimal c <-> exists d, digit 10 c d.
Proof.
  cls. split.
  - intros H. exists (c - 48). replace c with (48 + (c - 48)) at 1 by lia. constructor; lia.
  - intros [d H]. inversion H; subst; lia.
Qed.
Lemma dig10 c : dig 10 c <-> decimal c \/ c = 95.
Proof. unfold dig. rewrite digit10. tauto. Qed.
Lemma numeral_run radix c d s : digit radix c d -> Forall (dig radix) s -> exists n, numeral radix (c :: s) n.
Proof.
  intros Hc. induction s as [|x s IH] using rev_ind; intros H.
  - exists d. constructor. exact Hc.
  - apply Forall_app in H. destruct H as [H Hx]. destruct (IH H) as [n Hn]. inversion Hx as [|? ? [->|[d' Hd]] _]; subst.
    + exists n. apply (num_underscore radix (c :: s)). exact Hn.
    + exists (n * radix + d'). apply (num_digit radix (c :: s)); assumption.
Qed.
Lemma numeral_head radix s n : radix <= 36 -> numeral radix s n -> exists c d s', s = c :: s' /\ digit radix c d /\ Forall (dig radix) s'.
Proof. intros R H. destruct (numeral_parse radix s n R H) as (_ & _ & c & s' & d & A & B & C). exists c, d, s'. auto. Qed.
Lemma numeral_fun radix s n n' : radix <= 36 -> numeral radix s n -> numeral radix s n' -> n = n'.
Proof.
  intros R H H'. destruct (numeral_parse radix s n R H) as [E _]. destruct (numeral_parse radix s n' R H') as [E' _]. congruence.
Qed.
Lemma digits_head s : digits s -> exists c s', s = c :: s' /\ decimal c /\ Forall (dig 10) s'.
Proof.
  intros [n H]. apply numeral_head in H; [|lia]. destruct H as (c & d & s' & A & B & C). exists c, s'.
  split; [exact A|]. split; [apply digit10; eauto|exact C].
Qed.
Lemma digits_run c s : decimal c -> Forall (dig 10) s -> digits (c :: s).
Proof. intros H F. apply digit10 in H. destruct H as [d H]. exact (numeral_run 10 c d s H F). Qed.
Lemma is_num_iff c : is_num c = true <-> decimal c.
Proof. unfold is_num. cls. lia. Qed.
Lemma integer_eq n : to_nreal n = integer n.
Proof. reflexivity. Qed.

(** ** the loop over digits *)
Lemma dec_mono f : forall f' acc ff s x, (f <= f')%nat -> dec_loop f acc ff s = Some x -> dec_loop f' acc ff s = Some x.
Proof.
  induction f as [|f IH]; intros f' acc ff s x Hf H; [discriminate|]. destruct f' as [|f']; [lia|].
  cbn [dec_loop] in *. destruct (consume_numeric s) as [[c r]|]; [apply IH; [lia|exact H]|].
  destruct (consume ch_us s); [apply IH; [lia|exact H]|]. destruct (negb ff); [|exact H].
  destruct s as [|a [|b r]]; auto. destruct ((a =? ch_dot) && is_num b); [apply IH; [lia|exact H]|exact H].
Qed.
Lemma dec_run d : Forall (dig 10) d -> forall f acc ff r,
  dec_loop (length d + f) acc ff (d ++ r) = dec_loop f (acc ++ no_us d) ff r.
Proof.
  induction 1 as [|c d Hc _ IH]; intros f acc ff r; [cbn; rewrite app_nil_r; reflexivity|].
  cbn [length plus app dec_loop consume_numeric]. apply dig10 in Hc. destruct (is_num c) eqn:E.
  - rewrite IH, <- app_assoc. unfold no_us. cbn [filter app]. apply is_num_iff in E.
    destruct (Z.eqb_spec c ch_us) as [Q|_]; [unfold ch_us in Q; cls; lia|]. reflexivity.
  - assert (c = 95) as ->. { destruct Hc as [Q|Q]; [|exact Q]. apply is_num_iff in Q. congruence. }
    cbn. apply IH.
Qed.
Lemma no_digits_none r : no_digits r -> consume_numeric r = None /\ consume ch_us r = None.
Proof.
  unfold no_digits. destruct r as [|c r]; [auto|]. cbn. intros H. destruct (is_num c) eqn:E.
  - exfalso. apply H. left. apply is_num_iff, E.
  - split; [reflexivity|]. destruct (Z.eqb_spec c ch_us) as [Q|_]; [unfold ch_us in Q; tauto|reflexivity].
Qed.
Lemma no_digits_some r : consume_numeric r = None -> consume ch_us r = None -> no_digits r.
Proof.
  unfold no_digits. destruct r as [|c r]; [cbn; auto|]. cbn. destruct (is_num c) eqn:E; [discriminate|]. intros _.
  destruct (Z.eqb_spec c ch_us) as [Q|Q]; [discriminate|]. intros _ [N|N]; [|unfold ch_us in Q; tauto].
  apply is_num_iff in N. congruence.
Qed.
Lemma dec_stop f acc ff r : no_digits r -> (ff = false -> no_fraction r) -> dec_loop (S f) acc ff r = Some (acc, ff, r).
Proof.
  intros H F. destruct (no_digits_none r H) as [A B]. cbn [dec_loop]. rewrite A, B. destruct ff; [reflexivity|]. cbn [negb].
  specialize (F eq_refl). destruct r as [|x [|y r]]; auto. destruct (Z.eqb_spec x ch_dot) as [->|]; [|reflexivity].
  cbn [andb]. destruct (is_num y) eqn:E; [|reflexivity]. apply is_num_iff in E. exfalso. exact (F y r E eq_refl).
Qed.
Lemma dec_sound f : forall acc ff s acc' ff' r, dec_loop f acc ff s = Some (acc', ff', r) ->
  no_digits r /\
  ((exists d, s = d ++ r /\ Forall (dig 10) d /\ acc' = acc ++ no_us d /\ ff' = ff /\ (ff = false -> no_fraction r)) \/
   (exists d y d2, ff = false /\ ff' = true /\ s = d ++ 46 :: y :: d2 ++ r /\ Forall (dig 10) d /\ decimal y /\
      Forall (dig 10) d2 /\ acc' = acc ++ no_us d ++ 46 :: y :: no_us d2)).
Proof.
  induction f as [|f IH]; intros acc ff s acc' ff' r H; [discriminate|]. cbn [dec_loop] in H.
  destruct (consume_numeric s) as [[c s']|] eqn:E1.
  { destruct s as [|x s'']; [discriminate|]. cbn in E1. destruct (is_num x) eqn:Ex; [|discriminate]. injection E1 as -> ->.
    apply IH in H. destruct H as [N H]. split; [exact N|]. apply is_num_iff in Ex.
    assert (U : no_us [c] = [c]). { unfold no_us. cbn. destruct (Z.eqb_spec c ch_us) as [Q|_]; [unfold ch_us in Q; cls; lia|reflexivity]. }
    assert (A : forall d, no_us (c :: d) = c :: no_us d) by (intros d; unfold no_us in *; cbn in *; destruct (negb (c =? ch_us)); [reflexivity|discriminate]).
    destruct H as [(d & -> & F & -> & -> & G)|(d & y & d2 & -> & -> & -> & F & Y & F2 & ->)].
    - left. exists (c :: d). rewrite A, <- app_assoc. conj. constructor; [apply dig10; auto|exact F].
    - right. exists (c :: d), y, d2. rewrite A, <- app_assoc. conj. constructor; [apply dig10; auto|exact F]. }
  destruct (consume ch_us s) as [s'|] eqn:E2.
  { apply consume_some in E2. subst s. apply IH in H. destruct H as [N H]. split; [exact N|].
    destruct H as [(d & -> & F & -> & -> & G)|(d & y & d2 & -> & -> & -> & F & Y & F2 & ->)].
    - left. exists (95 :: d). conj. constructor; [left; reflexivity|exact F].
    - right. exists (95 :: d), y, d2. conj. constructor; [left; reflexivity|exact F]. }
  pose proof (no_digits_some _ E1 E2) as N.
  assert (STOP : forall x, (ff = false -> no_fraction s) -> Some (acc, ff, s) = Some x -> x = (acc', ff', r) ->
     no_digits r /\ (exists d, s = d ++ r /\ Forall (dig 10) d /\ acc' = acc ++ no_us d /\ ff' = ff /\ (ff = false -> no_fraction r))).
  { intros x G Q ->. injection Q as <- <- <-. split; [exact N|]. exists []. cbn. rewrite app_nil_r. conj. }
  destruct ff; cbn [negb] in H.
  { destruct (STOP _ ltac:(discriminate) H eq_refl) as [A B]. split; [exact A|left; exact B]. }
  destruct s as [|a [|b s']].
  - destruct (STOP _ ltac:(discriminate) H eq_refl) as [A B]. split; [exact A|left; exact B].
  - destruct (STOP _ ltac:(intros _ c q _; discriminate) H eq_refl) as [A B]. split; [exact A|left; exact B].
  - destruct ((a =? ch_dot) && is_num b) eqn:E.
    + apply andb_true_iff in E. destruct E as [Ea Eb]. apply Z.eqb_eq in Ea. apply is_num_iff in Eb. unfold ch_dot in Ea. subst a.
      apply IH in H. destruct H as [N' H]. split; [exact N'|]. right.
      destruct H as [(d & -> & F & -> & -> & G)|(d & y & d2 & Q & _)]; [|discriminate].
      exists [], b, d. rewrite <- app_assoc. conj.
    + destruct (STOP _ ltac:(intros _ c q Hc Q; injection Q as -> -> ->; apply is_num_iff in Hc; rewrite Hc in E; discriminate) H eq_refl) as [A B].
      split; [exact A|left; exact B].
Qed.
(** ** exponents *)
Lemma exp_mono f : forall f' acc s x, (f <= f')%nat -> exp_loop f acc s = Some x -> exp_loop f' acc s = Some x.
Proof.
  induction f as [|f IH]; intros f' acc s x Hf H; [discriminate|]. destruct f' as [|f']; [lia|].
  cbn [exp_loop] in *. destruct (consume_numeric s) as [[c r]|]; [apply IH; [lia|exact H]|].
  destruct (consume ch_us s); [apply IH; [lia|exact H]|exact H].
Qed.
Lemma exp_run d : Forall (dig 10) d -> forall f acc r, no_digits r ->
  exp_loop (S (length d + f)) acc (d ++ r) = Some (acc ++ no_us d, r).
Proof.
  induction 1 as [|c d Hc _ IH]; intros f acc r N.
  - destruct (no_digits_none r N) as [A B]. cbn [length plus app exp_loop]. rewrite A, B. cbn. rewrite app_nil_r. reflexivity.
  - cbn [length plus app]. set (k := S (length d + f)). cbn [exp_loop consume_numeric]. apply dig10 in Hc. destruct (is_num c) eqn:E.
    + unfold k. rewrite IH by exact N. rewrite <- app_assoc. unfold no_us. cbn [filter app]. apply is_num_iff in E.
      destruct (Z.eqb_spec c ch_us) as [Q|_]; [unfold ch_us in Q; cls; lia|]. reflexivity.
    + assert (c = 95) as ->. { destruct Hc as [Q|Q]; [|exact Q]. apply is_num_iff in Q. congruence. }
      cbn. apply IH. exact N.
Qed.
Lemma exp_sound f : forall acc s acc' r, exp_loop f acc s = Some (acc', r) ->
  no_digits r /\ exists d, s = d ++ r /\ Forall (dig 10) d /\ acc' = acc ++ no_us d.
Proof.
  induction f as [|f IH]; intros acc s acc' r H; [discriminate|]. cbn [exp_loop] in H.
  destruct (consume_numeric s) as [[c s']|] eqn:E1.
  { destruct s as [|x s'']; [discriminate|]. cbn in E1. destruct (is_num x) eqn:Ex; [|discriminate]. injection E1 as -> ->.
    apply IH in H. destruct H as (N & d & -> & F & ->). split; [exact N|]. apply is_num_iff in Ex. exists (c :: d).
    rewrite <- app_assoc. split; [reflexivity|]. split; [constructor; [apply dig10; auto|exact F]|].
    unfold no_us. cbn. destruct (Z.eqb_spec c ch_us) as [Q|_]; [unfold ch_us in Q; cls; lia|reflexivity]. }
  destruct (consume ch_us s) as [s'|] eqn:E2.
  { apply consume_some in E2. subst s. apply IH in H. destruct H as (N & d & -> & F & ->). split; [exact N|]. exists (95 :: d).
    split; [reflexivity|]. split; [constructor; [left; reflexivity|exact F]|reflexivity]. }
  injection H as <- <-. split; [exact (no_digits_some _ E1 E2)|]. exists []. cbn. rewrite app_nil_r. auto.
Qed.
Lemma exp_total s : forall f acc, (length s < f)%nat -> exp_loop f acc s <> None.
Proof.
  induction s as [|c s IH]; intros [|f] acc Hf; try (cbn in Hf; lia); cbn [exp_loop consume_numeric consume].
  - discriminate.
  - cbn in Hf. destruct (is_num c); [apply IH; lia|]. destruct (c =? ch_us); [apply IH; lia|discriminate].
Qed.
Lemma dec_total n : forall s f acc ff, (length s <= n)%nat -> (length s < f)%nat -> dec_loop f acc ff s <> None.
Proof.
  induction n as [|n IH]; intros s f acc ff Hn Hf; (destruct f as [|f]; [lia|]); (destruct s as [|c s]; [destruct ff; discriminate|]);
    [cbn in Hn; lia|]. cbn in Hn, Hf. cbn [dec_loop consume_numeric consume].
  destruct (is_num c); [apply IH; lia|]. destruct (c =? ch_us); [apply IH; lia|]. destruct ff; cbn [negb]; [discriminate|].
  destruct s as [|b s]; [discriminate|]. destruct ((c =? ch_dot) && is_num b); [|discriminate]. cbn in Hn, Hf. apply IH; lia.
Qed.

(** ** the text without underscores *)
Lemma cleaned_app a b : cleaned (a ++ b) = cleaned a ++ cleaned b.
Proof. unfold cleaned. rewrite filter_app, map_app. reflexivity. Qed.
Lemma cleaned_digits d : Forall (dig 10) d -> cleaned d = no_us d.
Proof.
  induction 1 as [|c d Hc _ IH]; [reflexivity|]. apply dig10 in Hc. unfold cleaned, no_us in *. cbn [filter].
  unfold ch_us. destruct (Z.eqb_spec c 95) as [->|N]; [exact IH|]. cbn [orb].
  destruct (Z.eqb_spec c 43); [cls; lia|]. cbn [negb map]. destruct (Z.eqb_spec c 69); [cls; lia|]. f_equal. exact IH.
Qed.
Lemma cleaned_one c d : decimal c -> Forall (dig 10) d -> cleaned (c :: d) = c :: no_us d.
Proof.
  intros Hc F. change (c :: d) with ([c] ++ d). rewrite cleaned_app, (cleaned_digits d F). unfold cleaned. cbn.
  destruct (Z.eqb_spec c 95); [cls; lia|]. destruct (Z.eqb_spec c 43); [cls; lia|]. cbn.
  destruct (Z.eqb_spec c 69); [cls; lia|]. reflexivity.
Qed.

(** ** decimal numbers *)
(** the first part of read_decimal, up to the exponent *)
Definition dec_text (c : Z) (s : chars) : res (chars * bool * chars) :=
  match dec_loop (S (length s)) [c] false s with
  | None => Panic
  | Some (acc, float_flag, r) =>
      match consume2 ch_e ch_E r with
      | None => Ok (acc, float_flag, r)
      | Some r1 =>
          let acc1 := acc ++ [ch_e] in
          let '(acc2, r2) :=
            match consume ch_plus r1 with
            | Some r2 => (acc1, r2)
            | None => match consume ch_minus r1 with Some r2 => (acc1 ++ [ch_minus], r2) | None => (acc1, r1) end
            end in
          match consume_numeric r2 with
          | None => match r2 with [] => Panic | _ => Err OtherErr end
          | Some (d, r3) =>
              match exp_loop (S (length r3)) (acc2 ++ [d]) r3 with
              | Some (acc3, r4) => Ok (acc3, true, r4)
              | None => Panic
              end
          end
      end
  end.
Definition dec_finish (x : chars * bool * chars) : res (ModelText.tok * chars) :=
  let '(acc, float_flag, r) := x in
  n <- (if float_flag : bool then Ok (NFloat acc)
        else match parse_bytes acc 10 with Some b => Ok (to_nreal b) | None => Err OtherErr end) ;;
  match consume ch_i r with
  | Some r' => Ok (TImag n, r')
  | None => Ok (ModelText.TNum n, r)
  end.
Lemma read_decimal_eq c s : read_decimal c s = (x <- dec_text c s ;; dec_finish x).
Proof.
  unfold read_decimal, dec_text, dec_finish. destruct (dec_loop (S (length s)) [c] false s) as [[[acc ff] r]|]; [|reflexivity].
  reflexivity.
Qed.
(** the text of a number before its value is looked at *)
Inductive dec_shape : chars -> chars -> bool -> chars -> Prop :=
| DS_int c t rest : decimal c -> Forall (dig 10) t -> no_digits rest -> no_fraction rest -> no_exponent rest ->
    dec_shape (c :: t) (c :: no_us t) false rest
| DS_float t f e rest : digits t -> fraction f -> exponent e -> f ++ e <> [] -> no_digits rest -> (e = [] -> no_exponent rest) ->
    dec_shape (t ++ f ++ e) (cleaned (t ++ f ++ e)) true rest.
Lemma consume2_some r r1 : consume2 ch_e ch_E r = Some r1 -> exists e, (e = 101 \/ e = 69) /\ r = e :: r1.
Proof.
  unfold consume2. destruct (consume ch_e r) eqn:E.
  - intros Q. injection Q as ->. apply consume_some in E. exists 101. auto.
  - intros Q. apply consume_some in Q. exists 69. auto.
Qed.
Lemma consume2_none r : consume2 ch_e ch_E r = None -> no_exponent r.
Proof.
  unfold consume2, no_exponent. destruct (consume ch_e r) eqn:E; [discriminate|]. intros Q.
  apply consume_none in E, Q. destruct r; [cbn; auto|]. cbn in *. unfold ch_e, ch_E in *. tauto.
Qed.
Lemma dec_text_sound c s acc ff r : decimal c -> dec_text c s = Ok (acc, ff, r) ->
  exists t, c :: s = t ++ r /\ dec_shape t acc ff r.
Proof.
  intros Hc. unfold dec_text. destruct (dec_loop (S (length s)) [c] false s) as [[[a f] r0]|] eqn:E; [|discriminate].
  apply dec_sound in E. destruct E as [N E].
  destruct (consume2 ch_e ch_E r0) as [r1|] eqn:X.
  - (* an exponent *)
    destruct (consume2_some _ _ X) as (e & He & ->).
    assert (SG : exists sg acc2 r2, match consume ch_plus r1 with
            | Some r2 => (a ++ [ch_e], r2)
            | None => match consume ch_minus r1 with Some r2 => ((a ++ [ch_e]) ++ [ch_minus], r2) | None => (a ++ [ch_e], r1) end
            end = (acc2, r2) /\ r1 = sg ++ r2 /\ acc2 = a ++ cleaned (e :: sg) /\ (sg = [] \/ sg = [43] \/ sg = [45])).
    { destruct (consume ch_plus r1) eqn:P1.
      - apply consume_some in P1. exists [43]. do 2 eexists. split; [reflexivity|]. split; [exact P1|]. split; [|auto].
        destruct He as [-> | ->]; reflexivity.
      - destruct (consume ch_minus r1) eqn:P2.
        + apply consume_some in P2. exists [45]. do 2 eexists. split; [reflexivity|]. split; [exact P2|]. split; [|auto].
          rewrite <- app_assoc. destruct He as [-> | ->]; reflexivity.
        + exists []. do 2 eexists. split; [reflexivity|]. split; [reflexivity|]. split; [|auto]. destruct He as [-> | ->]; reflexivity. }
    destruct SG as (sg & acc2 & r2 & -> & -> & -> & SG).
    destruct (consume_numeric r2) as [[d r3]|] eqn:D; [|destruct r2; discriminate].
    destruct r2 as [|x r2']; [discriminate|]. cbn in D. destruct (is_num x) eqn:Dx; [|discriminate]. injection D as -> ->.
    apply is_num_iff in Dx.
    destruct (exp_loop (S (length r3)) ((a ++ cleaned (e :: sg)) ++ [d]) r3) as [[acc3 r4]|] eqn:L; [|discriminate].
    apply exp_sound in L. destruct L as (N4 & dd & -> & F4 & ->). intros Q. injection Q as <- <- <-.
    assert (EX : exponent (e :: sg ++ d :: dd)) by (constructor; [exact He|exact SG|apply digits_run; assumption]).
    assert (CX : cleaned (e :: sg ++ d :: dd) = cleaned (e :: sg) ++ d :: no_us dd).
    { change (e :: sg ++ d :: dd) with ((e :: sg) ++ d :: dd). rewrite cleaned_app, (cleaned_one d dd) by assumption. reflexivity. }
    destruct E as [(d0 & -> & F & -> & -> & G)|(d0 & y & d2 & _ & -> & -> & F & Y & F2 & ->)].
    + exists ((c :: d0) ++ [] ++ e :: sg ++ d :: dd). split; [cbn; repeat (rewrite <- app_assoc; cbn); reflexivity|].
      replace ((([c] ++ no_us d0) ++ cleaned (e :: sg)) ++ [d]) with ((c :: no_us d0) ++ cleaned (e :: sg) ++ [d]) by (rewrite app_assoc; reflexivity).
      replace (((c :: no_us d0) ++ cleaned (e :: sg) ++ [d]) ++ no_us dd) with (cleaned ((c :: d0) ++ [] ++ e :: sg ++ d :: dd)).
      * apply DS_float; auto; [apply digits_run; assumption|constructor|discriminate|discriminate].
      * rewrite cleaned_app. cbn [app]. rewrite CX, (cleaned_one c d0) by assumption. cbn. repeat (rewrite <- app_assoc; cbn). reflexivity.
    + exists ((c :: d0) ++ (46 :: y :: d2) ++ e :: sg ++ d :: dd). split; [cbn; repeat (rewrite <- app_assoc; cbn); reflexivity|].
      match goal with |- dec_shape _ ?x _ _ => replace x with (cleaned ((c :: d0) ++ (46 :: y :: d2) ++ e :: sg ++ d :: dd)) end.
      * apply DS_float; auto; [apply digits_run; assumption|constructor; apply digits_run; assumption|discriminate|discriminate].
      * rewrite cleaned_app, (cleaned_one c d0) by assumption. rewrite cleaned_app, CX.
        change (46 :: y :: d2) with ([46] ++ y :: d2). rewrite cleaned_app, (cleaned_one y d2) by assumption. change (cleaned [46]) with [46].
        cbn. repeat (rewrite <- app_assoc; cbn). reflexivity.
  - (* none *)
    intros Q. injection Q as <- <- <-. pose proof (consume2_none _ X) as NX.
    destruct E as [(d0 & -> & F & -> & -> & G)|(d0 & y & d2 & _ & -> & -> & F & Y & F2 & ->)].
    + exists (c :: d0). split; [reflexivity|]. apply DS_int; auto.
    + exists ((c :: d0) ++ (46 :: y :: d2) ++ []). split; [cbn; rewrite app_nil_r; repeat (rewrite <- app_assoc; cbn); reflexivity|].
      match goal with |- dec_shape _ ?x _ _ => replace x with (cleaned ((c :: d0) ++ (46 :: y :: d2) ++ [])) end.
      * apply DS_float; auto; [apply digits_run; assumption|constructor; apply digits_run; assumption|constructor|discriminate].
      * rewrite app_nil_r, cleaned_app, (cleaned_one c d0) by assumption.
        change (46 :: y :: d2) with ([46] ++ y :: d2). rewrite cleaned_app, (cleaned_one y d2) by assumption. reflexivity.
Qed.
Lemma consume2_ok e r1 : e = 101 \/ e = 69 -> consume2 ch_e ch_E (e :: r1) = Some r1.
Proof. intros [-> | ->]; reflexivity. Qed.
Lemma consume2_not r : no_exponent r -> consume2 ch_e ch_E r = None.
Proof.
  unfold no_exponent, consume2. intros H. rewrite !consume_not'; auto; destruct r; cbn in *; auto; unfold ch_e, ch_E; tauto.
Qed.
Lemma dec_text_ok c s t acc ff r : dec_shape t acc ff r -> c :: s = t ++ r -> dec_text c s = Ok (acc, ff, r).
Proof.
  intros H Q. unfold dec_text. destruct H as [c' t r Hc F N NF NX|t f e r Ht Hf He NE N NX].
  - injection Q as -> ->. rewrite (dec_mono (length t + 1) _ _ _ _ ([c'] ++ no_us t, false, r)).
    + rewrite consume2_not by exact NX. reflexivity.
    + rewrite length_app'. lia.
    + rewrite dec_run by exact F. apply dec_stop; auto.
  - destruct (digits_head _ Ht) as (c' & d0 & -> & Hc & F). injection Q as -> Q.
    assert (ST : exists ac fl, dec_loop (S (length s)) [c'] false s = Some (ac, fl, e ++ r) /\ ac = cleaned ((c' :: d0) ++ f) /\ (e = [] -> fl = true)).
    { assert (NE' : e <> [] -> no_digits (e ++ r) /\ no_fraction (e ++ r)).
      { intros K. destruct He as [|e' sg d He Hs Hd]; [congruence|]. split.
        - unfold no_digits. cbn. cls. lia.
        - intros x y _ Q'. injection Q'. lia. }
      destruct Hf as [|f Hf].
      - cbn [app] in Q. destruct (NE' NE) as [A B]. exists ([c'] ++ no_us d0), false. split; [|split; [rewrite app_nil_r, cleaned_one by assumption; reflexivity|intros ->; contradiction]].
        subst s. rewrite <- !app_assoc. apply (dec_mono (length d0 + 1)); [rewrite !length_app'; lia|].
        rewrite dec_run by exact F. apply dec_stop; auto.
      - destruct (digits_head _ Hf) as (y & d2 & -> & Hy & F2).
        exists ((c' :: no_us d0) ++ 46 :: y :: no_us d2), true. split; [|split; [|reflexivity]].
        + subst s. cbn [app]. rewrite <- !app_assoc. cbn [app].
          apply (dec_mono (length d0 + S (length d2 + 1))); [repeat (rewrite length_app'; cbn [length]); lia|].
          rewrite dec_run by exact F. cbn [dec_loop consume_numeric consume]. change (is_num 46) with false. change (46 =? ch_us) with false.
          cbn iota. cbn [negb]. change (46 =? ch_dot) with true. rewrite (proj2 (is_num_iff y) Hy). cbn [andb].
          rewrite <- (app_assoc d2), dec_run by exact F2. rewrite dec_stop.
          * f_equal. f_equal. f_equal. cbn. repeat (rewrite <- app_assoc; cbn). reflexivity.
          * destruct e as [|x e]; [exact N|]. apply NE'. discriminate.
          * discriminate.
        + rewrite cleaned_app, (cleaned_one c' d0) by assumption. change (46 :: y :: d2) with ([46] ++ y :: d2).
          rewrite cleaned_app, (cleaned_one y d2) by assumption. reflexivity. }
    destruct ST as (a & fl & -> & AC & FL).
    destruct He as [|e sg d He Hs Hd].
    + rewrite FL by reflexivity. cbn [app]. rewrite consume2_not by auto. rewrite !app_nil_r, AC. reflexivity.
    + cbn [app]. rewrite consume2_ok by exact He. rewrite <- app_assoc.
      assert (Hd' := Hd). destruct (digits_head _ Hd) as (y & d2 & -> & Hy & F2).
      assert (SG : match consume ch_plus (sg ++ (y :: d2) ++ r) with
            | Some r2 => (a ++ [ch_e], r2)
            | None => match consume ch_minus (sg ++ (y :: d2) ++ r) with Some r2 => ((a ++ [ch_e]) ++ [ch_minus], r2) | None => (a ++ [ch_e], sg ++ (y :: d2) ++ r) end
            end = (a ++ cleaned (e :: sg), (y :: d2) ++ r)).
      { destruct Hs as [-> | [-> | ->]].
        - cbn [app]. rewrite !consume_not'; [|cbn; unfold ch_plus, ch_minus; cls; lia..]. destruct He as [-> | ->]; reflexivity.
        - cbn. destruct He as [-> | ->]; reflexivity.
        - cbn. rewrite <- app_assoc. destruct He as [-> | ->]; reflexivity. }
      match goal with |- match ?x with (_, _) => _ end = _ => replace x with (a ++ cleaned (e :: sg), (y :: d2) ++ r) by (symmetry; exact SG) end.
      cbn [app consume_numeric]. rewrite (proj2 (is_num_iff y) Hy).
      rewrite (exp_mono (S (length d2 + 0)) _ _ _ (((a ++ cleaned (e :: sg)) ++ [y]) ++ no_us d2, r)).
      * rewrite AC. f_equal. f_equal. f_equal.
        transitivity (cleaned (((c' :: d0) ++ f) ++ (e :: sg) ++ (y :: d2))).
        -- rewrite (cleaned_app ((c' :: d0) ++ f)). rewrite (cleaned_app (e :: sg)), (cleaned_one y d2) by assumption.
           repeat (rewrite <- app_assoc; cbn [app]). reflexivity.
        -- f_equal. cbn [app]. repeat (rewrite <- app_assoc; cbn [app]). reflexivity.
      * rewrite length_app'. lia.
      * apply exp_run; assumption.
Qed.

Lemma dec_finish_sound t acc ff r0 tk r : dec_shape t acc ff r0 -> dec_finish (acc, ff, r0) = Ok (tk, r) ->
  (t = [48] -> ~ starts (fun c => c = 120 \/ c = 98) r0) ->
  exists t', t ++ r0 = t' ++ r /\ spells_number t' tk r.
Proof.
  intros H E Z0. assert (D : exists n, spells_decimal t n r0 /\ 
     match consume ch_i r0 with Some r' => Ok (TImag n, r') | None => Ok (ModelText.TNum n, r0) end = Ok (tk, r)).
  { destruct H as [c d r0 Hc F N NF NX|t f e r0 Ht Hf He NE N NX].
    - apply digit10 in Hc. destruct Hc as [dd Hc]. destruct (numeral_run 10 c dd d Hc F) as [n Hn].
      exists (integer n). split; [apply SD_int; auto|].
      destruct (numeral_parse 10 _ _ ltac:(lia) Hn) as [P _]. unfold dec_finish in E.
      assert (P' : parse_bytes (c :: no_us d) 10 = Some n).
      { apply (parse_bytes_ok 10 c (no_us d) n dd); [lia|exact Hc|]. rewrite <- P, <- (parse_no_us 10 (c :: d)). f_equal.
        unfold no_us. cbn [filter]. destruct (digit_of_ok 10 c dd ltac:(lia) Hc) as (_ & _ & X).
        destruct (Z.eqb_spec c ch_us) as [Q|_]; [unfold ch_us in Q; contradiction|]. reflexivity. }
      rewrite P' in E. exact E.
    - exists (NFloat (cleaned (t ++ f ++ e))). split; [apply SD_float; auto|exact E]. }
  destruct D as (n & D & Q). destruct (consume ch_i r0) eqn:I; injection Q as <- <-.
  - apply consume_some in I. subst r0. exists (t ++ [105]). split; [rewrite <- app_assoc; reflexivity|]. apply SN_imaginary. exact D.
  - exists t. split; [reflexivity|]. apply SN_decimal; [exact D|]. apply consume_none in I. exact I.
Qed.
Lemma spells_decimal_shape t n r : spells_decimal t n r -> exists acc ff, dec_shape t acc ff r /\
  dec_finish (acc, ff, r) = match consume ch_i r with Some r' => Ok (TImag n, r') | None => Ok (ModelText.TNum n, r) end.
Proof.
  intros [t' n' r' Hn N NF NX _|t' f e r' Ht Hf He NE N NX].
  - destruct (numeral_parse 10 _ _ ltac:(lia) Hn) as (P & _ & c & d & dd & -> & Hd & F).
    exists (c :: no_us d), false. split; [apply DS_int; auto; apply digit10; eauto|].
    unfold dec_finish.
    assert (P' : parse_bytes (c :: no_us d) 10 = Some n').
    { apply (parse_bytes_ok 10 c (no_us d) n' dd); [lia|exact Hd|]. rewrite <- P, <- (parse_no_us 10 (c :: d)). f_equal.
      unfold no_us. cbn [filter]. destruct (digit_of_ok 10 c dd ltac:(lia) Hd) as (_ & _ & X).
      destruct (Z.eqb_spec c ch_us) as [Q|_]; [unfold ch_us in Q; contradiction|]. reflexivity. }
    rewrite P'. reflexivity.
  - exists (cleaned (t' ++ f ++ e)), true. split; [apply DS_float; auto|reflexivity].
Qed.
Lemma dec_shape_head t acc ff r : dec_shape t acc ff r -> exists c t', t = c :: t' /\ decimal c.
Proof.
  intros [c d r0 Hc F N NF NX|t' f e r0 Ht Hf He NE N NX]; [eauto|].
  destruct (digits_head _ Ht) as (c & s & -> & H & _). cbn. eauto.
Qed.
(** ** hexadecimal and binary *)
Lemma dig16 c : is_hex c || (c =? ch_us) = true <-> dig 16 c.
Proof.
  unfold dig. rewrite orb_true_iff, is_hex_spec, Z.eqb_eq. unfold ch_us. split.
  - intros [[H|[H|H]]|H]; [right..|left; exact H].
    + exists (c - 48). replace c with (48 + (c - 48)) at 1 by lia. constructor; lia.
    + exists (c - 87). replace c with (87 + (c - 87)) at 1 by lia. constructor; lia.
    + exists (c - 55). replace c with (55 + (c - 55)) at 1 by lia. constructor; lia.
  - intros [H|[d H]]; [right; exact H|left]. inversion H; subst; lia.
Qed.
Lemma span_hex_span s : span_hex s = span (fun c => is_hex c || (c =? ch_us)) s.
Proof. induction s as [|c s IH]; [reflexivity|]. cbn. destruct (is_hex c || (c =? ch_us)); [rewrite IH; reflexivity|reflexivity]. Qed.
Lemma span_hex_sound s a b : span_hex s = (a, b) -> s = a ++ b /\ Forall (dig 16) a /\ ~ starts (dig 16) b.
Proof.
  rewrite span_hex_span. intros H. apply span_sound in H. destruct H as (A & B & C). split; [exact A|]. split.
  - revert B. apply Forall_impl. intros c. apply dig16.
  - rewrite <- starts_iff; [exact C|]. intros c. apply dig16.
Qed.
Lemma read_hex_sound s tk r : read_hex s = Ok (tk, r) -> exists t, s = t ++ r /\ spells_number (48 :: 120 :: t) tk r.
Proof.
  unfold read_hex. destruct s as [|c s]; [discriminate|]. destruct (is_hex c) eqn:E; [|discriminate].
  assert (D : exists d, digit 16 c d).
  { assert (H : is_hex c || (c =? ch_us) = true) by (rewrite E; reflexivity). apply dig16 in H. destruct H as [->|H]; [discriminate|exact H]. }
  destruct D as [d D]. destruct (span_hex (c :: s)) as [a b] eqn:S. apply span_hex_sound in S. destruct S as (Q & F & N).
  destruct a as [|c' a].
  { exfalso. destruct b as [|c' b]; [discriminate|]. injection Q as <- ->. apply N. cbn. right. eauto. }
  injection Q as <- ->. inversion F as [|? ? _ F']; subst. destruct (numeral_run 16 c d a D F') as [n Hn].
  destruct (numeral_parse 16 _ _ ltac:(lia) Hn) as [P _].
  rewrite (parse_bytes_ok 16 c a n d) by (lia || assumption). intros Q. injection Q as <- <-. exists (c :: a).
  split; [reflexivity|]. apply SN_hex; [exact Hn|exact N].
Qed.
Lemma hex_stops r : ~ starts (fun c => c = 95 \/ exists d, digit 16 c d) r -> stops_hex r.
Proof.
  destruct r as [|c r]; [cbn; auto|]. cbn. intros H. assert (N : is_hex c || (c =? ch_us) <> true).
  { intros Q. apply H. apply dig16 in Q. exact Q. }
  unfold ch_us in N. unfold is_hex in N. lia.
Qed.
Lemma dig2 c : is_bin c || (c =? ch_us) = true <-> dig 2 c.
Proof.
  unfold dig, is_bin, ch_us. split.
  - intros H. destruct (Z.eqb_spec c 95); [left; assumption|right].
    exists (c - 48). replace c with (48 + (c - 48)) at 1 by lia. constructor; lia.
  - intros [H|[d H]]; [lia|]. inversion H; subst; lia.
Qed.
Lemma bin_stops r : ~ starts (fun c => c = 95 \/ exists d, digit 2 c d) r <-> stops_bin r.
Proof.
  destruct r as [|c r]; [cbn; tauto|]. cbn. pose proof (dig2 c) as D. unfold dig, is_bin, ch_us in D. rewrite <- D. lia.
Qed.
Lemma bin_loop_sound s : forall v v' r, 0 <= v < 2 ^ 64 -> ModelText.bin_loop v s = Ok (v', r) ->
  exists d, s = d ++ r /\ Forall (dig 2) d /\ stops_bin r /\ parse_digits 2 v d = Some v' /\ 0 <= v' < 2 ^ 64.
Proof.
  induction s as [|c s IH]; intros v v' r Hv H.
  - injection H as <- <-. exists []. cbn [app]. split; [reflexivity|]. split; [constructor|]. split; [exact I|]. split; [reflexivity|exact Hv].
  - cbn [ModelText.bin_loop] in H. destruct (is_bin c) eqn:E.
    + destruct (in_u64 (v * 2 + (c - 48))) eqn:U; [|discriminate]. unfold in_u64 in U.
      apply IH in H; [|lia]. destruct H as (d & -> & F & S & P & B). exists (c :: d). split; [reflexivity|].
      assert (D : dig 2 c) by (apply dig2; rewrite E; reflexivity). split; [constructor; assumption|]. split; [exact S|].
      split; [|exact B]. cbn [parse_digits]. unfold is_bin in E. destruct (Z.eqb_spec c ch_us) as [Q|_]; [unfold ch_us in Q; lia|].
      assert (DO : digit_of c = c - 48). { unfold digit_of. replace ((48 <=? c) && (c <=? 57)) with true by lia. reflexivity. }
      rewrite DO. replace (c - 48 <? 2) with true by lia. exact P.
    + destruct (Z.eqb_spec c ch_us) as [->|N].
      * apply IH in H; [|exact Hv]. destruct H as (d & -> & F & S & P & B). exists (95 :: d). split; [reflexivity|].
        split; [constructor; [left; reflexivity|exact F]|]. split; [exact S|]. split; [exact P|exact B].
      * injection H as <- <-. exists []. cbn [app]. split; [reflexivity|]. split; [constructor|]. split; [|split; [reflexivity|exact Hv]].
        cbn. unfold is_bin, ch_us in *. lia.
Qed.
Lemma i64_bin v : 0 <= v < 2 ^ 64 -> i64 v = if v <? 2 ^ 63 then v else v - 2 ^ 64.
Proof. intros H. unfold i64. rewrite Z.mod_small by exact H. reflexivity. Qed.
Lemma read_bin_sound s tk r : read_bin s = Ok (tk, r) -> exists t, s = t ++ r /\ spells_number (48 :: 98 :: t) tk r.
Proof.
  unfold read_bin. destruct s as [|c s]; [discriminate|]. destruct (is_bin c) eqn:E; [|discriminate].
  destruct (ModelText.bin_loop (c - 48) s) as [[v r']| |] eqn:L; try discriminate. cbn [rbind]. intros Q. injection Q as <- <-.
  assert (Bc : c = 48 \/ c = 49) by (unfold is_bin in E; lia).
  apply bin_loop_sound in L; [|lia]. destruct L as (d & -> & F & S & P & B). exists (c :: d). split; [reflexivity|].
  assert (D : digit 2 c (c - 48)). { replace c with (48 + (c - 48)) at 1 by lia. constructor; lia. }
  destruct (numeral_run 2 c _ d D F) as [n Hn]. destruct (numeral_parse 2 _ _ ltac:(lia) Hn) as [P' _].
  cbn [parse_digits] in P'. destruct (Z.eqb_spec c ch_us) as [Q|_]; [unfold ch_us in Q; lia|].
  destruct (digit_of_ok 2 c _ ltac:(lia) D) as (DO & _). rewrite DO in P'. replace (c - 48 <? 2) with true in P' by lia.
  replace (0 * 2 + (c - 48)) with (c - 48) in P' by lia. rewrite P in P'. injection P' as ->.
  rewrite i64_bin by exact B. apply SN_bin; [exact Hn|lia|apply bin_stops, S].
Qed.
Lemma read_bin_ok t n r : numeral 2 t n -> n < 2 ^ 64 -> stops_bin r ->
  read_bin (t ++ r) = Ok (ModelText.TNum (NInt (if n <? 2 ^ 63 then n else n - 2 ^ 64)), r).
Proof.
  intros Hn B S. destruct (numeral_parse 2 _ _ ltac:(lia) Hn) as (P & P0 & c & d & dd & -> & D & F).
  unfold read_bin. cbn [app]. destruct (bin_digit _ _ D) as [Eb Ed]. rewrite Eb.
  destruct (digit_of_ok 2 c dd ltac:(lia) D) as (DO & Hb & Hne).
  cbn [parse_digits] in P. destruct (Z.eqb_spec c ch_us) as [Ec|_]; [unfold ch_us in Ec; contradiction|].
  rewrite DO in P. destruct (Z.ltb_spec dd 2); [|discriminate].
  rewrite (bin_loop_ok d r (c - 48) n); [|assumption|assumption|lia| |lia].
  - cbn [rbind]. rewrite i64_bin by lia. reflexivity.
  - rewrite <- P. f_equal. lia.
Qed.
(** ** all *)
Lemma read_number_sound c s tk r : decimal c -> read_number (c :: s) = Ok (tk, r) -> exists t, c :: s = t ++ r /\ spells_number t tk r.
Proof.
  intros Hc. cbn [read_number]. rewrite (proj2 (is_num_iff c) Hc). cbn [negb].
  assert (DEC : (c = 48 -> ~ starts (fun c => c = 120 \/ c = 98) s) -> read_decimal c s = Ok (tk, r) ->
    exists t, c :: s = t ++ r /\ spells_number t tk r).
  { intros Z0. rewrite read_decimal_eq. destruct (dec_text c s) as [[[acc ff] r0]| |] eqn:T; try discriminate. cbn [rbind].
    apply dec_text_sound in T; [|exact Hc]. destruct T as (t & Q & Sh). intros E. 
    destruct (dec_finish_sound _ _ _ _ _ _ Sh E) as (t' & Q' & Sp).
    - intros ->. injection Q as -> ->. apply Z0. reflexivity.
    - exists t'. rewrite <- Q', <- Q. auto. }
  destruct (Z.eqb_spec c ch_0) as [E|E]; unfold ch_0 in E.
  - subst c. destruct (consume ch_x s) eqn:X.
    + apply consume_some in X. subst s. intros H. apply read_hex_sound in H. destruct H as (t & -> & H).
      exists (48 :: 120 :: t). auto.
    + destruct (consume ch_b s) eqn:X2.
      * apply consume_some in X2. subst s. intros H. apply read_bin_sound in H. destruct H as (t & -> & H).
        exists (48 :: 98 :: t). auto.
      * apply DEC. intros _. apply consume_none in X, X2. unfold ch_x, ch_b in *. destruct s; cbn in *; tauto.
  - apply DEC. intros; contradiction.
Qed.
Lemma read_number_ok t tk r : spells_number t tk r -> read_number (t ++ r) = Ok (tk, r).
Proof.
  assert (DEC : forall t n r0, spells_decimal t n r0 ->
     read_number (t ++ r0) = match consume ch_i r0 with Some r' => Ok (TImag n, r') | None => Ok (ModelText.TNum n, r0) end).
  { intros t0 n r0 D. destruct (spells_decimal_shape _ _ _ D) as (acc & ff & Sh & Fin).
    destruct (dec_shape_head _ _ _ _ Sh) as (c & t' & -> & Hc). cbn [app read_number].
    rewrite (proj2 (is_num_iff c) Hc). cbn [negb].
    assert (RD : read_decimal c (t' ++ r0) = match consume ch_i r0 with Some r' => Ok (TImag n, r') | None => Ok (ModelText.TNum n, r0) end).
    { rewrite read_decimal_eq, (dec_text_ok c (t' ++ r0) (c :: t') acc ff r0 Sh eq_refl). exact Fin. }
    destruct (Z.eqb_spec c ch_0) as [E|E]; [|exact RD]. unfold ch_0 in E. subst c.
    assert (NX : ~ starts (fun c => c = 120 \/ c = 98) (t' ++ r0)).
    { destruct t' as [|x t'].
      - inversion D as [? ? ? _ _ _ _ Z0|? f e ? Ht ? ? NE Q]; subst; [apply Z0; reflexivity|].
        destruct (digits_head _ Ht) as (y & t2 & -> & _). destruct t2; [|discriminate]. exfalso. apply NE.
        destruct (f ++ e); [reflexivity|discriminate].
      - cbn [app starts]. inversion D as [? ? ? Hn|t1 f e ? Ht Hf He NE ? ? Q]; subst.
        + destruct (numeral_head 10 _ _ ltac:(lia) Hn) as (c0 & d0 & s0 & Q & _ & F). injection Q as <- <-. inversion F as [|? ? Hx _]; subst.
          apply dig10 in Hx. cls. lia.
        + destruct (digits_head _ Ht) as (c0 & s0 & -> & _ & F). cbn in Q. injection Q as -> Q.
          destruct s0 as [|y s0].
          * cbn in Q. destruct Hf as [|f0 Hf0].
            -- cbn in Q. destruct He as [|e0 sg s1 He0]; [discriminate|]. injection Q as -> _. lia.
            -- injection Q as <- _. lia.
          * injection Q as -> _. inversion F as [|? ? Hx _]; subst. apply dig10 in Hx. cls. lia. }
    rewrite (consume_not' ch_x), (consume_not' ch_b); [exact RD|..]; clear - NX; destruct (t' ++ r0); cbn in *; auto; unfold ch_x, ch_b; tauto. }
  intros [t' n r' D NI|t' n r' D|t' n r' Hn S|t' n r' Hn B S].
  - rewrite (DEC _ _ _ D), consume_not'; [reflexivity|exact NI].
  - rewrite <- app_assoc. cbn [app]. rewrite (DEC _ _ _ D). reflexivity.
  - exact (read_number_hex t' n r' Hn (hex_stops _ S)).
  - apply bin_stops in S. exact (read_bin_ok t' n r' Hn B S).
Qed.
Lemma spells_number_head t tk r : spells_number t tk r -> exists c t', t = c :: t' /\ decimal c.
Proof.
  assert (DEC : forall t n r0, spells_decimal t n r0 -> exists c t', t = c :: t' /\ decimal c).
  { intros t0 n r0 D. destruct (spells_decimal_shape _ _ _ D) as (acc & ff & Sh & _). exact (dec_shape_head _ _ _ _ Sh). }
  intros [t' n r' D NI|t' n r' D|t' n r' Hn S|t' n r' Hn B S].
  - eauto.
  - destruct (DEC _ _ _ D) as (c & t2 & -> & H). cbn. eauto.
  - do 2 eexists. split; [reflexivity|]. cls. lia.
  - do 2 eexists. split; [reflexivity|]. cls. lia.
Qed.
