(* Lemmas for C86 and C87. *)
From Verif Require Import Base ModelValue ModelFloat ModelInt ModelArray ModelEqual SpecEqual ProofsValue.
From Coq Require Import Floats.SpecFloat.

Lemma feq_sym x y : feq x y = feq y x.
Proof.
  unfold feq, fcmp. destruct (sf_of_bits x) as [s|s| |s m e], (sf_of_bits y) as [s'|s'| |s' m' e']; cbn; try reflexivity;
    try destruct s; try destruct s'; try reflexivity.
  - rewrite (Z.compare_antisym e' e). destruct (Z.compare e' e); cbn; try reflexivity.
    pose proof (Pos.compare_cont_antisym m' m Eq) as A. cbn in A.
    destruct (Pos.compare_cont Eq m' m), (Pos.compare_cont Eq m m'); cbn in A |- *; try discriminate; reflexivity.
  - rewrite (Z.compare_antisym e' e). destruct (Z.compare e' e); cbn; try reflexivity.
    pose proof (Pos.compare_cont_antisym m' m Eq) as A. cbn in A.
    destruct (Pos.compare_cont Eq m' m), (Pos.compare_cont Eq m m'); cbn in A |- *; try discriminate; reflexivity.
Qed.

Lemma number_fix w : number w = match as_fixnum (Imm w) with
  | Some i => Some (inl i)
  | None => match as_flonum (Imm w) with Some f => Some (inr f) | None => None end end.
Proof. unfold number, as_fixnum, is_fnum, as_fnum, as_flonum. destruct (Z.land w 1 =? 1); reflexivity. Qed.

Lemma fix_not_flo w i : as_fixnum (Imm w) = Some i -> as_flonum (Imm w) = None.
Proof.
  unfold as_fixnum, is_fnum, as_flonum, as_flonum_word. destruct (Z.land w 1 =? 1) eqn:E; [|discriminate]. intros _.
  destruct (Z.eqb_spec (Z.land w 3) 2) as [H|]; [|reflexivity]. exfalso.
  apply Z.eqb_eq in E. assert (Z.testbit (Z.land w 1) 0 = true) as T by (rewrite E; reflexivity).
  rewrite Z.land_spec in T. apply andb_prop in T. destruct T as [T _].
  assert (Z.testbit (Z.land w 3) 0 = false) as F by (rewrite H; reflexivity).
  rewrite Z.land_spec, T in F. discriminate.
Qed.

Lemma imm_alike h wl wr : eval_eq2 (Imm wr) (Imm wl) = true <-> alike h (EImm wl) (EImm wr).
Proof.
  pose proof (number_fix wl) as NL. pose proof (number_fix wr) as NR.
  unfold eval_eq2.
  destruct (as_fixnum (Imm wl)) as [i|] eqn:FL.
  - destruct (as_fixnum (Imm wr)) as [j|] eqn:FR.
    + split.
      * intros H. apply Z.eqb_eq in H. eapply al_num; eauto.
      * intros H. inversion H; subst; [|congruence]. apply Z.eqb_eq.
        match goal with E : number wl = Some ?x, E' : number wr = Some ?y, A : num_alike _ _ |- _ => rewrite E in NL; rewrite E' in NR; injection NL as ->; injection NR as ->; exact A end.
    + destruct (as_flonum (Imm wr)) as [f|] eqn:GR.
      * split.
        -- intros H. eapply al_num; eauto.
        -- intros H. inversion H; subst; [|congruence].
           match goal with E : number wl = Some ?x, E' : number wr = Some ?y, A : num_alike _ _ |- _ => rewrite E in NL; rewrite E' in NR; injection NL as ->; injection NR as ->; exact A end.
      * split.
        -- intros H. apply Z.eqb_eq in H. subst. congruence.
        -- intros H. inversion H; subst; congruence.
  - destruct (as_flonum (Imm wl)) as [f|] eqn:GL.
    + destruct (as_flonum (Imm wr)) as [g|] eqn:GR.
      * assert (as_fixnum (Imm wr) = None) as FR.
        { destruct (as_fixnum (Imm wr)) eqn:E; [|reflexivity]. apply fix_not_flo in E. congruence. }
        rewrite FR in NR. split.
        -- intros H. eapply al_num; eauto.
        -- intros H. inversion H; subst; [|congruence].
           match goal with E : number wl = Some ?x, E' : number wr = Some ?y, A : num_alike _ _ |- _ => rewrite E in NL; rewrite E' in NR; injection NL as ->; injection NR as ->; exact A end.
      * destruct (as_fixnum (Imm wr)) as [j|] eqn:FR.
        -- split.
           ++ intros H. eapply al_num; eauto.
           ++ intros H. inversion H; subst; [|congruence].
              match goal with E : number wl = Some ?x, E' : number wr = Some ?y, A : num_alike _ _ |- _ => rewrite E in NL; rewrite E' in NR; injection NL as ->; injection NR as ->; exact A end.
        -- split.
           ++ intros H. apply Z.eqb_eq in H. subst. congruence.
           ++ intros H. inversion H; subst; congruence.
    + split.
      * intros H. apply Z.eqb_eq in H. subst. apply al_word. exact NL.
      * intros H. inversion H; subst; [congruence|]. apply Z.eqb_refl.
Qed.

Section Data.
  Context {St : Type} (look : St -> Z -> cell) (eqm : St -> Z -> meth).
  Context (ueq ucmp : St -> Z -> ev -> St * res ev).
  Notation eq2 := (eq2 St look eqm ueq ucmp).
  Notation all_eq := (all_eq St).

  Definition decides st (f : St -> ev -> ev -> St * res bool) (x y : ev) : Prop :=
    exists b, f st y x = (st, Ok b) /\ (b = true <-> alike (look st) x y).
  Lemma all_decides st f : forall l r, length l = length r ->
    (forall x y, In x l -> In y r -> decides st f x y) ->
    exists b, all_eq f st l r = (st, Ok b) /\ (b = true <-> alikes (look st) l r).
  Proof.
    induction l as [|x l IH]; intros [|y r] E H; cbn in E; try discriminate.
    - exists true. split; [reflexivity|]. split; [intros _; constructor|reflexivity].
    - destruct (H x y) as (b & Eb & Hb); [left; reflexivity|left; reflexivity|].
      cbn. rewrite Eb. destruct b.
      + destruct (IH r) as (b' & Eb' & Hb'); [lia|intros; apply H; right; assumption|].
        exists b'. split; [exact Eb'|]. split.
        * intros T. constructor; [apply Hb; reflexivity|apply Hb'; exact T].
        * intros T. inversion T; subst. apply Hb'. assumption.
      + exists false. split; [reflexivity|]. split; [discriminate|]. intros T. inversion T; subst. apply Hb. assumption.
  Qed.
  Lemma alikes_length h l r : alikes h l r -> length l = length r.
  Proof. revert r. induction l as [|x l IH]; intros r H; inversion H; subst; cbn; [reflexivity|]. f_equal. apply IH. assumption. Qed.

  Ltac no := exists false; split; [reflexivity|]; split; [discriminate|];
    let H := fresh in intros H; inversion H; subst; congruence.
  Lemma eq2_data : forall n st l r, data (look st) n l -> data (look st) n r -> decides st (eq2 (S n)) l r.
  Proof.
    induction n as [|n IH]; intros st l r Dl Dr.
    - inversion Dl; subst. inversion Dr; subst. eexists. split; [reflexivity|]. apply imm_alike.
    - destruct l as [wl|a], r as [wr|b].
      + eexists. split; [reflexivity|]. apply imm_alike.
      + no.
      + no.
      + unfold decides. cbn [ModelEqual.eq2]. destruct (Z.eqb_spec a b) as [<-|Hab].
        { exists true. split; [reflexivity|]. split; [intros _; apply al_same|reflexivity]. }
        inversion Dl; subst; match goal with E : look st a = _ |- _ => rename E into Ea end;
        inversion Dr; subst; match goal with E : look st b = _ |- _ => rename E into Eb end;
        unfold send_eq, real_of; rewrite ?Ea, ?Eb; cbn [truthy ebool same_id];
        try (replace (a =? b) with false by (symmetry; apply Z.eqb_neq; exact Hab)); try no.
        * eexists. split; [reflexivity|]. split.
          -- intros H. apply Z.eqb_eq in H. subst. eapply al_big; eassumption.
          -- intros H. inversion H; subst; try congruence. apply Z.eqb_eq. congruence.
        * eexists. split; [reflexivity|]. split.
          -- intros H. eapply al_bigfloat; eassumption.
          -- intros H. inversion H; subst; congruence.
        * eexists. split; [reflexivity|]. split.
          -- intros H. rewrite feq_sym in H. eapply al_floatbig; eassumption.
          -- intros H. inversion H; subst; try congruence. rewrite feq_sym. congruence.
        * eexists. split; [reflexivity|]. split.
          -- intros H. eapply al_float; eassumption.
          -- intros H. inversion H; subst; congruence.
        * eexists. split; [reflexivity|]. destruct (list_eq_dec Z.eq_dec s s0) as [<-|N]; split; try discriminate.
          -- intros _. eapply al_str; eassumption.
          -- reflexivity.
          -- intros H. inversion H; subst; congruence.
        * unfold zlen. destruct (Z.eqb_spec (Z.of_nat (length l)) (Z.of_nat (length l0))) as [L|L].
          -- destruct (all_decides st (eq2 (S n)) l l0) as (v & Ev & Hv); [lia|intros; apply IH; auto|].
             exists v. split; [exact Ev|]. rewrite Hv. split.
             ++ intros H. eapply al_arr; eassumption.
             ++ intros H. inversion H; subst; congruence.
          -- exists false. split; [reflexivity|]. split; [discriminate|]. intros H. inversion H; subst; try congruence.
             match goal with A : alikes _ _ _ |- _ => apply alikes_length in A end.
             exfalso. apply L. congruence.
        * destruct (Bool.eqb x0 x) eqn:X.
          -- apply Bool.eqb_prop in X. subst x0.
             destruct (all_decides st (eq2 (S n)) [s; e] [s0; e0]) as (v & Ev & Hv); [reflexivity| |].
             { intros p q [<-|[<-|[]]] [<-|[<-|[]]]; apply IH; assumption. }
             exists v. split; [exact Ev|]. rewrite Hv. split.
             ++ intros H. inversion H as [|? ? ? ? A B]; subst. inversion B; subst. eapply al_range; eassumption.
             ++ intros H. inversion H; subst; try congruence.
                match goal with P : look st a = CRange ?s1 ?e1 _, Q : look st b = CRange ?s2 ?e2 _, A : alike _ ?s1 ?s2, B : alike _ ?e1 ?e2 |- _ =>
                  rewrite P in Ea; rewrite Q in Eb; injection Ea as -> -> _; injection Eb as -> -> _; constructor; [exact A|constructor; [exact B|constructor]] end.
          -- exists false. split; [reflexivity|]. split; [discriminate|]. intros H. inversion H; subst; try congruence.
             exfalso. apply Bool.eqb_false_iff in X. congruence.
  Qed.
End Data.

Lemma small_fix i : - 2 ^ 62 <= i < 2 ^ 62 -> fix_of (small i) = Some i.
Proof. intros H. rewrite <- (as_fixnum_fixnum i H), (fixnum_word i H). reflexivity. Qed.
Lemma falsy_not v : falsy v -> truthy v = false.
Proof. intros [->| ->]; reflexivity. Qed.
Lemma yes_truthy v : yes v -> truthy v = true.
Proof.
  destruct v as [w|a]; [|reflexivity]. intros (R & A & B & C & D). cbn.
  destruct (to_bool_word w) eqn:E; [reflexivity|]. apply to_bool_word_spec in E; [|exact R]. lia.
Qed.
Lemma ebool_truthy b : truthy (ebool b) = b.
Proof. destruct b; reflexivity. Qed.

Scheme alike_ind2 := Induction for alike Sort Prop with alikes_ind2 := Induction for alikes Sort Prop.
Lemma num_alike_sym x y : num_alike x y -> num_alike y x.
Proof. destruct x, y; cbn; intros H; auto. rewrite feq_sym. exact H. Qed.
Lemma alike_sym h x y : alike h x y -> alike h y x.
Proof.
  intros H. induction H using alike_ind2 with (P0 := fun l r _ => alikes h r l);
    try (econstructor; eassumption); try (constructor; assumption).
  - eapply al_num; eauto using num_alike_sym.
  - rewrite feq_sym in *. eapply al_float; eauto.
Qed.

Section Users.
  Context {St : Type} (look : St -> Z -> cell) (eqm : St -> Z -> meth).
  Context (ueq ucmp : St -> Z -> ev -> St * res ev).
  Notation eq2 := (eq2 St look eqm ueq ucmp).

  Lemma asked_all n : forall st p st' b, asked St ueq st p st' b ->
    (forall s a b, In (a, b) p -> a <> b /\ look s a = CObj /\ eqm s a = MUser) ->
    all_eq St (eq2 (S n)) st (map (fun x => EPtr (fst x)) p) (map (fun x => EPtr (snd x)) p) = (st', Ok b).
  Proof.
    intros st p st' b H. induction H as [st|st a b p st' v E F|st a b p st' st'' v r E F H IH]; intros O; [reflexivity| |].
    - destruct (O st a b) as (N & L & M); [left; reflexivity|]. cbn.
      destruct (Z.eqb_spec a b); [contradiction|]. rewrite L. unfold send_eq. rewrite L, M, E, (falsy_not v F).
      destruct (look st b); reflexivity.
    - destruct (O st a b) as (N & L & M); [left; reflexivity|]. cbn [map fst snd all_eq].
      cbn [ModelEqual.eq2]. destruct (Z.eqb_spec a b); [contradiction|]. rewrite L. unfold send_eq. rewrite L, M, E, (yes_truthy v F).
      specialize (IH (fun s a b I => O s a b (or_intror I))). destruct (look st b); exact IH.
  Qed.
End Users.
