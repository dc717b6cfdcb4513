(** Lemmas for PropsEnum.v. *)
From Coq Require Import ZArith List Bool Arith Lia.
From Verif Require Import ModelFiber ModelEnum SpecEnum.
Import ListNotations.

Section Proofs.
Variable K G : Type.
Variable next : K -> G -> G * op K.
Variable B : list fval -> G -> outcome -> G -> Prop.
Variable R : K -> K -> Prop.
Hypothesis HR : forall a b g, R a b -> fst (next a g) = fst (next b g) /\
    match snd (next a g), snd (next b g) with
    | OTau a', OTau b' => R a' b'
    | OYield la ka, OYield lb kb => la = lb /\ length la = 1 /\ (forall v w, R (ka (Value v)) (kb (Value w))) /\
        (forall r g, fails r -> next (ka r) g = (g, OEnd r))
    | OEnd (Value _), OEnd (Value _) => True
    | OEnd (Raise e), OEnd (Raise e') => e = e' /\ e <> Stop
    | _, _ => False
    end.

Definition ready (f : fib K) (a : K) : Prop :=
  forall g r f' g', resumed next f g r f' g' <-> advance next a g r f' g'.
Lemma ready_new a : ready (FNew a) a.
Proof. intros g r f' g'. split; intros H; [inversion H; assumption|constructor; assumption]. Qed.
Lemma ready_wait k : ready (FWait k) (k (Value FNil)).
Proof. intros g r f' g'. split; intros H; [inversion H; assumption|constructor; assumption]. Qed.

(** what the fiber does up to its next stop, the direct call does too *)
Lemma advance_direct more a g r f' g1 : advance next a g r f' g1 -> forall b, R b a ->
  (exists v ka kb, r = Value v /\ f' = FWait ka /\ (forall v w, R (kb (Value v)) (ka (Value w))) /\
     (forall r g, fails r -> next (kb r) g = (g, OEnd r)) /\
     forall n o g2 l q g', B ([v] ++ more n) g1 o g2 -> direct next B more (S n) (kb o) g2 l q g' ->
       direct next B more n b g (([v] ++ more n, o) :: l) q g')
  \/ (f' = FDead /\ exists q, (forall n, direct next B more n b g [] q g1) /\
      (r = Raise Stop /\ (exists v, q = Value v) \/ exists e, e <> Stop /\ r = Raise e /\ q = Raise e)).
Proof.
  induction 1 as [k g g1 k1 r f g' E H IH|k g g1 args k1 E|k g g1 q E]; intros b Rb; destruct (HR b k g Rb) as (E1 & E2); rewrite E in E1, E2;
    destruct (next b g) as [gb ob] eqn:Eb; cbn in E1, E2; subst gb.
  - destruct ob; cbn in E2; try contradiction; [|destruct r0; contradiction]. destruct (IH _ E2) as [(v & ka & kb & -> & -> & H1 & H2 & H3)|(-> & q & H1 & H2)].
    + left. exists v, ka, kb. repeat (split; [assumption || reflexivity|]). intros. eapply D_step; [exact Eb|]. eauto.
    + right. split; [reflexivity|]. exists q. split; [|exact H2]. intros n. eapply D_step; [exact Eb|auto].
  - destruct ob; cbn in E2; try contradiction; [|destruct r; contradiction]. destruct E2 as (-> & L & H1 & H2).
    destruct args as [|v [|? ?]]; try discriminate. left. exists v, k1, k0.
    split; [reflexivity|]. split; [reflexivity|]. split; [exact H1|]. split; [exact H2|]. intros. eapply D_call; eassumption.
  - destruct ob; cbn in E2; try contradiction. right. split; [reflexivity|]. exists r. split; [intros n; apply D_done; exact Eb|].
    destruct r, q; cbn in *; try contradiction; [left; eauto|]. destruct E2 as (-> & N). right. exists e0. auto.
Qed.

Lemma pull_swap args result c acc f1 g1 f2 g2 l r g' :
  (forall r f' g', resumed next f1 g1 r f' g' -> resumed next f2 g2 r f' g') ->
  pull next B args result c acc f1 g1 l r g' -> pull next B args result c acc f2 g2 l r g'.
Proof. intros H P. inversion P; subst; [eapply P_stop|eapply P_fail|eapply P_block|eapply P_more]; eauto. Qed.

Definition ended (result : list fval -> fval) (acc : list fval) (l : list call) (r0 : outcome) : outcome :=
  match r0 with Value _ => Value (result (acc ++ given_values l)) | _ => r0 end.
Lemma fails_value r : is_value r = false -> fails r.
Proof. destruct r; cbn; [discriminate|auto..]. Qed.

Lemma pull_to_direct args result more :
  (forall n v, args (Z.of_nat n) v = [v] ++ more n) ->
  forall c acc f g l r g', pull next B args result c acc f g l r g' ->
  forall n a b, c = Z.of_nat n -> ready f a -> R b a ->
  exists r0, direct next B more n b g l r0 g' /\ r = ended result acc l r0.
Proof.
  intros HA. induction 1 as [c acc f g f' g' H|c acc f g r f' g' H St V|c acc f g v f' g1 r g' H HB V|c acc f g v f' g1 w g2 l r g' H HB HP IH];
    intros n a b -> Hf Hb; apply Hf in H; destruct (advance_direct more _ _ _ _ _ H b Hb) as [(v' & ka & kb & E & -> & H1 & H2 & H3)|(-> & q & H1 & H2)].
  - discriminate.
  - destruct H2 as [(_ & v & ->)|(e & N & E & ->)].
    + exists (Value v). split; [apply H1|]. cbn. rewrite app_nil_r. reflexivity.
    + injection E as <-. contradiction.
  - subst r. discriminate.
  - destruct H2 as [(-> & v & ->)|(e & N & -> & ->)]; [discriminate|]. exists (Raise e). split; [apply H1|reflexivity].
  - injection E as <-. rewrite HA in *. exists r. split; [|destruct r; [discriminate|reflexivity..]].
    eapply H3; [eassumption|]. apply D_done. apply H2. apply fails_value. exact V.
  - destruct H2 as [(E & _)|(e & _ & E & _)]; discriminate.
  - injection E as <-. rewrite HA in *. destruct (IH (S n) (ka (Value FNil)) (kb (Value w)) ltac:(lia) (ready_wait ka) (H1 _ _)) as (r0 & D & ->).
    exists r0. split; [eapply H3; eassumption|]. destruct r0; cbn; try reflexivity. rewrite <- app_assoc. reflexivity.
  - destruct H2 as [(E & _)|(e & _ & E & _)]; discriminate.
Qed.

Lemma direct_to_pull args result more :
  (forall n v, args (Z.of_nat n) v = [v] ++ more n) ->
  forall n b g l r0 g', direct next B more n b g l r0 g' ->
  forall acc f a, ready f a -> R b a -> pull next B args result (Z.of_nat n) acc f g l (ended result acc l r0) g'.
Proof.
  intros HA. induction 1 as [n k g g1 k1 l r g' E D IH|n k g g1 la k1 o g2 l r g' E HB D IH|n k g g1 r E]; intros acc f a Hf Hb;
    destruct (HR k a g Hb) as (E1 & E2); rewrite E in E1, E2; destruct (next a g) as [ga oa] eqn:Ea; cbn in E1, E2; subst ga.
  - destruct oa; try contradiction. apply (pull_swap args result _ _ (FNew k0) g1).
    + intros r' f' g'' H. apply ready_new in H. apply Hf. eapply A_tau; eassumption.
    + apply (IH acc _ k0); [apply ready_new|exact E2].
  - destruct oa; try contradiction. destruct E2 as (<- & L & H1 & H2). destruct la as [|v [|? ?]]; try discriminate.
    assert (P : resumed next f g (Value v) (FWait k0) g1) by (apply Hf; change (Value v) with (Value (yield_val [v])); apply A_yield; exact Ea).
    rewrite <- HA in *. destruct o as [w| | |].
    + eapply P_more; [exact P|exact HB|].
      replace (ended result acc ((args (Z.of_nat n) v, Value w) :: l) r) with (ended result (acc ++ [w]) l r)
        by (destruct r; cbn; try reflexivity; rewrite <- app_assoc; reflexivity).
      replace (Z.of_nat n + 1)%Z with (Z.of_nat (S n)) by lia. apply (IH _ _ (k0 (Value FNil))); [apply ready_wait|apply H1].
    + inversion D as [? ? ? ? ? ? ? ? X|? ? ? ? ? ? ? ? ? ? ? X|? ? ? ? ? X]; subst; rewrite H2 in X by exact I; try discriminate. injection X as <- <-.
      cbn. eapply P_block; [exact P|exact HB|reflexivity].
    + inversion D as [? ? ? ? ? ? ? ? X|? ? ? ? ? ? ? ? ? ? ? X|? ? ? ? ? X]; subst; rewrite H2 in X by exact I; try discriminate. injection X as <- <-.
      cbn. eapply P_block; [exact P|exact HB|reflexivity].
    + inversion D as [? ? ? ? ? ? ? ? X|? ? ? ? ? ? ? ? ? ? ? X|? ? ? ? ? X]; subst; rewrite H2 in X by exact I; try discriminate. injection X as <- <-.
      cbn. eapply P_block; [exact P|exact HB|reflexivity].
  - assert (P : resumed next f g (final (KEnum a) (match oa with OEnd q => q | _ => r end)) FDead g1).
    { apply Hf. destruct r; destruct oa; try contradiction; apply A_end; exact Ea. }
    destruct r as [v|e|v|v]; destruct oa as [| | | | | |q]; try contradiction; destruct q; try contradiction.
    + cbn. rewrite app_nil_r. eapply P_stop. exact P.
    + destruct E2 as (<- & N). cbn in *. eapply P_fail; [exact P| |reflexivity]. destruct e; try reflexivity. contradiction.
Qed.

(** the loop with [next]; a fiber ready at [a], or dead after an exception *)
Definition loop_ended (r0 : outcome) : outcome := match r0 with Value _ => Value FNil | _ => loop_result r0 end.
Lemma loop_to_direct e g l r e' g' : loop_next next B e g l r e' g' ->
  forall recv c f n a b, e = mkenum recv c f -> f <> FDead -> ready f a -> R b a ->
  exists r0, direct next B nothing n b g l r0 g' /\ r = loop_ended r0.
Proof.
  induction 1 as [e g r e' g' H V|e g v e' g1 r g' H HB V|e g v e1 g1 w g2 l r e' g' H HB HL IH];
    intros recv c f n a b -> Nf Hf Hb; inversion H; subst; try contradiction;
    match goal with H : resumed _ _ _ _ _ _ |- _ => apply Hf in H; rename H into HX end;
    destruct (advance_direct nothing _ _ _ _ _ HX b Hb) as [(v' & ka & kb & E & -> & H1 & H2 & H3)|(-> & q & H1 & H2)].
  - subst r. discriminate.
  - destruct H2 as [(-> & v & ->)|(x & N & -> & ->)]; [exists (Value v)|exists (Raise x)]; (split; [apply H1|]); [reflexivity|].
    destruct x; try reflexivity.
  - injection E as <-. exists r. split; [|destruct r; [discriminate|reflexivity..]].
    change [v] with ([v] ++ nothing n). eapply H3; [exact HB|]. apply D_done. apply H2. apply fails_value. exact V.
  - destruct H2 as [(E & _)|(x & _ & E & _)]; discriminate.
  - injection E as <-. destruct (IH recv c (FWait ka) (S n) (ka (Value FNil)) (kb (Value w)) eq_refl ltac:(discriminate) (ready_wait ka) (H1 _ _)) as (r0 & D & ->).
    exists r0. split; [|reflexivity]. change [v] with ([v] ++ nothing n). eapply H3; eassumption.
  - destruct H2 as [(E & _)|(x & _ & E & _)]; discriminate.
Qed.
Lemma loop_swap recv c f1 g1 f2 g2 l r e' g' : f1 <> FDead -> f2 <> FDead ->
  (forall r f' g', resumed next f1 g1 r f' g' -> resumed next f2 g2 r f' g') ->
  loop_next next B (mkenum recv c f1) g1 l r e' g' -> loop_next next B (mkenum recv c f2) g2 l r e' g'.
Proof.
  intros N1 N2 H P. assert (Q : forall r e' g', enum_next next (mkenum recv c f1) g1 r e' g' -> enum_next next (mkenum recv c f2) g2 r e' g').
  { intros r0 e0 g0 X. inversion X; subst; [contradiction|]. constructor; auto. }
  inversion P; subst; [eapply L_end|eapply L_block|eapply L_more]; eauto.
Qed.
Lemma direct_to_loop n b g l r0 g' : direct next B nothing n b g l r0 g' ->
  forall recv c f a, f <> FDead -> ready f a -> R b a -> exists e', loop_next next B (mkenum recv c f) g l (loop_ended r0) e' g'.
Proof.
  induction 1 as [n k g g1 k1 l r g' E D IH|n k g g1 la k1 o g2 l r g' E HB D IH|n k g g1 r E]; intros recv c f a Nf Hf Hb;
    destruct (HR k a g Hb) as (E1 & E2); rewrite E in E1, E2; destruct (next a g) as [ga oa] eqn:Ea; cbn in E1, E2; subst ga.
  - destruct oa; try contradiction. destruct (IH recv c (FNew k0) k0 ltac:(discriminate) (ready_new _) E2) as (e' & L).
    exists e'. apply (loop_swap recv c (FNew k0) g1); [discriminate|exact Nf| |exact L].
    intros r' f' g'' H. apply ready_new in H. apply Hf. eapply A_tau; eassumption.
  - destruct oa; try contradiction. destruct E2 as (<- & L & H1 & H2). destruct la as [|v [|? ?]]; try discriminate.
    assert (P : enum_next next (mkenum recv c f) g (Value v) (mkenum recv c (FWait k0)) g1) by (constructor; [exact Nf|]; apply Hf; change (Value v) with (Value (yield_val [v])); apply A_yield; exact Ea).
    change ([v] ++ nothing n) with [v] in *. destruct o as [w| | |].
    + destruct (IH recv c (FWait k0) (k0 (Value FNil)) ltac:(discriminate) (ready_wait _) (H1 _ _)) as (e' & HL).
      exists e'. eapply L_more; eassumption.
    + inversion D as [? ? ? ? ? ? ? ? X|? ? ? ? ? ? ? ? ? ? ? X|? ? ? ? ? X]; subst; rewrite H2 in X by exact I; try discriminate. injection X as <- <-.
      eexists. eapply (L_block K G next B); [exact P|exact HB|reflexivity].
    + inversion D as [? ? ? ? ? ? ? ? X|? ? ? ? ? ? ? ? ? ? ? X|? ? ? ? ? X]; subst; rewrite H2 in X by exact I; try discriminate. injection X as <- <-.
      eexists. eapply (L_block K G next B); [exact P|exact HB|reflexivity].
    + inversion D as [? ? ? ? ? ? ? ? X|? ? ? ? ? ? ? ? ? ? ? X|? ? ? ? ? X]; subst; rewrite H2 in X by exact I; try discriminate. injection X as <- <-.
      eexists. eapply (L_block K G next B); [exact P|exact HB|reflexivity].
  - assert (P : enum_next next (mkenum recv c f) g (final (KEnum a) (match oa with OEnd q => q | _ => r end)) (mkenum recv c FDead) g1).
    { constructor; [exact Nf|]. apply Hf. destruct r; destruct oa; try contradiction; apply A_end; exact Ea. }
    destruct r as [v|x|v|v]; destruct oa as [| | | | | |q]; try contradiction; destruct q; try contradiction.
    + eexists. change (loop_ended (Value v)) with (loop_result (Raise Stop)). eapply L_end; [exact P|reflexivity].
    + destruct E2 as (<- & N). eexists. change (loop_ended (Raise x)) with (loop_result (Raise x)). eapply L_end; [exact P|reflexivity].
Qed.
End Proofs.
