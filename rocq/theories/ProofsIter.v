(** Lemmas about iterating over an array. *)
From Coq Require Import List Arith Bool Lia.
From Verif Require Import ModelIter SpecIter.
Import ListNotations.

Lemma nth_ext_error {V} (a b : list V) : (forall j, nth_error a j = nth_error b j) -> a = b.
Proof.
  revert b. induction a as [|x a IH]; intros [|y b] H; [reflexivity|discriminate (H 0)|discriminate (H 0)|].
  pose proof (H 0) as E. injection E as ->. f_equal. apply IH. intros j. exact (H (S j)).
Qed.
Lemma put_length {V} (l : list V) i v : length (put l i v) = length l.
Proof. revert i. induction l; intros [|i]; cbn; auto. Qed.
Lemma put_nth {V} (l : list V) i v j : nth_error (put l i v) j = if j =? i then (if i <? length l then Some v else None) else nth_error l j.
Proof.
  revert i j. induction l as [|x l IH]; intros i j.
  - cbn. destruct j, (_ =? i); reflexivity.
  - destruct i as [|i], j as [|j]; try reflexivity. cbn. rewrite IH. reflexivity.
Qed.
Lemma nth_firstn {V} (l : list V) n i : nth_error (firstn n l) i = if i <? n then nth_error l i else None.
Proof.
  revert n i. induction l as [|x l IH]; intros n i.
  - rewrite firstn_nil. destruct i, (_ <? n); reflexivity.
  - destruct n as [|n]; [destruct i; reflexivity|]. destruct i as [|i]; [reflexivity|]. cbn. rewrite IH. reflexivity.
Qed.
Lemma content_get {V W} (s : ist V W) i : nth_error (content s) i = vget (arr s) i.
Proof. unfold content, vget. apply nth_firstn. Qed.
Lemma content_length {V W} (s : ist V W) : fits s -> length (content s) = used (arr s).
Proof. intros H. unfold content. rewrite firstn_length. unfold fits in H. lia. Qed.
Lemma get_some {V W} (s : ist V W) i : fits s -> i < used (arr s) -> exists v, vget (arr s) i = Some v.
Proof.
  intros H L. unfold vget. replace (i <? used (arr s)) with true by (symmetry; apply Nat.ltb_lt; exact L).
  destruct (nth_error _ _) eqn:E; [eauto|]. apply nth_error_None in E. unfold fits in H. lia.
Qed.
Lemma get_lt {V} (a : vec V) i v : vget a i = Some v -> i < used a.
Proof. unfold vget. destruct (i <? used a) eqn:E; [|discriminate]. intros _. apply Nat.ltb_lt. exact E. Qed.
Lemma get_nth {V} (a : vec V) i : i < used a -> vget a i = nth_error (slots a) i.
Proof. intros H. unfold vget. replace (i <? used a) with true by (symmetry; apply Nat.ltb_lt; exact H). reflexivity. Qed.
Lemma snoc_length {A} (l : list A) x : length (l ++ [x]) = S (length l).
Proof. rewrite app_length. cbn. lia. Qed.

Section While.
Variable V W X : Type.
Notation st := (ist V W).
Variable B : list V -> st -> bend V X -> st -> Prop.
Variable args : nat -> V -> list V.
Variable sargs : list (turn V W) -> V -> list V.
Variable after : st -> nat -> V -> option st.
Variable write : nat -> V -> st -> st -> Prop.
Hypothesis Hargs : forall h v, sargs h v = args (length h) v.
Hypothesis Hsound : sound B.
Hypothesis Hafter : forall l s r s1 i, fits s -> i < used (arr s) -> B l s (Gives r) s1 ->
  exists s2, after s1 i r = Some s2 /\ fits s2 /\ forall s3, write i r s1 s3 <-> s3 = s2.
Definition wend (h : list (turn V W)) (e : ending X) : mend (list V) X :=
  match e with Left x => Out x | _ => Normal (map value h) end.
Lemma while_to : forall i acc s o s', while_loop B args after i acc s o s' ->
  forall h, length h = i -> map value h = acc -> fits s ->
  exists h' e, visits B sargs write never h s h' e s' /\ o = wend h' e.
Proof.
  induction 1 as [i acc s H|i acc s H E|i acc s v x s' H E HB|i acc s v r s' H E HB HA|i acc s v r s1 s2 o s' H E HB HA HW IH]; intros h Hh Hv F; subst i acc.
  - exists h, Done. split; [|reflexivity]. constructor. rewrite content_length; assumption.
  - destruct (get_some s (length h) F H) as (v & Ev). congruence.
  - exists h, (Left x). split; [|reflexivity]. econstructor; [rewrite content_get; exact E|]. rewrite Hargs. exact HB.
  - destruct (Hafter _ _ _ _ _ F H HB) as (s2 & E2 & _). congruence.
  - destruct (Hafter _ _ _ _ _ F H HB) as (s2' & E2 & F2 & HW2). rewrite HA in E2. injection E2 as <-.
    destruct (IH (h ++ [(v, r, s1)])) as (h' & e & HV & Ho).
    + apply snoc_length.
    + rewrite map_app. reflexivity.
    + exact F2.
    + exists h', e. split; [|exact Ho]. eapply V_more; [rewrite content_get; exact E|rewrite Hargs; exact HB|apply HW2; reflexivity|reflexivity|exact HV].
Qed.
Lemma while_from : forall h s h' e s', visits B sargs write never h s h' e s' -> fits s ->
  while_loop B args after (length h) (map value h) s (wend h' e) s'.
Proof.
  induction 1 as [h s H|h s v x s' E HB|h s v r s1 s' E HB HW HS|h s v r s1 s2 h' e s' E HB HW HS HV IH]; intros F.
  - apply W_end. rewrite content_length in H by assumption. exact H.
  - rewrite content_get in E. rewrite Hargs in HB. eapply W_out; [eapply get_lt; exact E|exact E|exact HB].
  - discriminate.
  - rewrite content_get in E. rewrite Hargs in HB. pose proof (get_lt _ _ _ E) as L.
    destruct (Hafter _ _ _ _ _ F L HB) as (s2' & E2 & F2 & HW2). apply HW2 in HW. subst s2'.
    eapply W_more; [exact L|exact E|exact HB|exact E2|]. specialize (IH F2). rewrite snoc_length, map_app in IH. exact IH.
Qed.
End While.
Arguments wend {V W X}.

Section For.
Variable V W X A : Type.
Notation st := (ist V W).
Notation turn := (turn V W).
Variable B : list V -> st -> bend V X -> st -> Prop.
Variable p n : nat.
Variable args : A -> V -> st -> option (list V).
Variable again : bool.
Variable step : A -> nat -> V -> V -> st -> A + given V.
Variable sargs : list turn -> V -> list V.
Variable stop : V -> bool.
Variable abs : list turn -> A -> Prop.
Variable fin : list turn -> given V.
Variable ok : V -> Prop.
(** what the loop keeps is determined by the turns *)
Hypothesis Hargs : forall h a v s, abs h a -> ok v -> exists l, args a v s = Some l /\ forall o s', B l s o s' <-> B (sargs h v) s o s'.
Hypothesis Hgo : forall h a v r s1, abs h a -> stop r = false ->
  exists a', step a (length h) v r s1 = inl a' /\ abs (h ++ [(v, r, s1)]) a'.
Hypothesis Hstop : forall h a v r s1, abs h a -> stop r = true -> step a (length h) v r s1 = inr (fin (h ++ [(v, r, s1)])).
Hypothesis Hsteady : steady B.
Hypothesis Hcalm : again = true -> calm B.
Definition oks (s : st) : Prop := forall v, In v (content s) -> ok v.
Hypothesis Hok : forall l s o s', oks s -> B l s o s' -> oks s'.
Definition there (s : st) : Prop := place (arr s) = p /\ used (arr s) = n /\ fits s /\ oks s.
Lemma there_next l s o s' : there s -> B l s o s' -> there s'.
Proof.
  intros (H1 & H2 & H3 & H4) H. pose proof (Hok _ _ _ _ H4 H) as H5. apply Hsteady in H. destruct H as (E1 & E2 & E3). unfold there, fits in *. repeat split; try congruence. exact H5.
Qed.
Lemma there_get s i : there s -> i < n -> exists v, nth_error (slots (arr s)) i = Some v /\ nth_error (content s) i = Some v /\ ok v.
Proof.
  intros (H1 & H2 & H3 & H4) L. rewrite <- H2 in L. destruct (get_some s i H3 L) as (v & E). exists v.
  assert (E2 : nth_error (content s) i = Some v) by (rewrite content_get; exact E).
  split; [rewrite <- (get_nth _ _ L); exact E|]. split; [exact E2|]. apply H4. eapply nth_error_In; exact E2.
Qed.
Definition fend (h : list turn) (e : ending X) (o : mend (A + given V) X) : Prop :=
  match e with Left x => o = Out x | Done => exists a, abs h a /\ o = Normal (inl a) | Stopped => o = Normal (inr (fin h)) end.
Lemma for_to : forall i a s o s', for_loop B A p n args again step i a s o s' ->
  forall h, length h = i -> abs h a -> there s ->
  exists h' e, visits B sargs nothing_written stop h s h' e s' /\ fend h' e o.
Proof.
  induction 1 as [i a s H|i a s H Hp|i a s v H Hp E Ha|i a s v l x s' H Hp E Ha HB|i a s v l r s' H Hp E Ha HB Hag Hp'
    |i a s v l r s' v' g H Hp E Ha HB Hv Hst|i a s v l r s1 v' a' o s' H Hp E Ha HB Hv Hst HF IH]; intros h Hh Habs T; subst i.
  - exists h, Done. split; [|exists a; auto]. constructor. destruct T as (_ & H2 & H3 & _). rewrite content_length by exact H3. lia.
  - destruct T as (T1 & _). contradiction.
  - destruct (there_get s _ T H) as (v2 & E2 & _ & K). assert (v2 = v) by congruence. subst v2.
    destruct (Hargs h a v s Habs K) as (l & El & _). congruence.
  - destruct (there_get s _ T H) as (v2 & E2 & E3 & K). assert (v2 = v) by congruence. subst v2.
    destruct (Hargs h a v s Habs K) as (l' & El & HL). assert (l' = l) by congruence. subst l'.
    exists h, (Left x). split; [|reflexivity]. econstructor; [exact E3|]. apply HL. exact HB.
  - destruct (there_next _ _ _ _ T HB) as (T1 & _). contradiction.
  - destruct (there_get s _ T H) as (v2 & E2 & E3 & K). assert (v2 = v) by congruence. subst v2.
    destruct (Hargs h a v s Habs K) as (l' & El & HL). assert (l' = l) by congruence. subst l'.
    assert (v' = v). { destruct again; [|exact Hv]. destruct Hv as (_ & Hv). rewrite (Hcalm eq_refl _ _ _ _ HB) in Hv. congruence. } subst v'.
    destruct (stop r) eqn:Es.
    + pose proof (Hstop h a v r s' Habs Es) as Q. rewrite Q in Hst. injection Hst as <-.
      eexists _, Stopped. split; [|reflexivity]. eapply V_stop; [exact E3|apply HL; exact HB|reflexivity|exact Es].
    + destruct (Hgo h a v r s' Habs Es) as (a' & Q & _). congruence.
  - destruct (there_get s _ T H) as (v2 & E2 & E3 & K). assert (v2 = v) by congruence. subst v2.
    destruct (Hargs h a v s Habs K) as (l' & El & HL). assert (l' = l) by congruence. subst l'.
    assert (v' = v). { destruct again; [|exact Hv]. destruct Hv as (_ & Hv). rewrite (Hcalm eq_refl _ _ _ _ HB) in Hv. congruence. } subst v'.
    destruct (stop r) eqn:Es.
    + pose proof (Hstop h a v r s1 Habs Es) as Q. congruence.
    + destruct (Hgo h a v r s1 Habs Es) as (a2 & Q & Q2). assert (a2 = a') by congruence. subst a2.
      destruct (IH (h ++ [(v, r, s1)]) (snoc_length _ _) Q2 (there_next _ _ _ _ T HB)) as (h' & e & HV & Ho).
      exists h', e. split; [|exact Ho]. eapply V_more; [exact E3|apply HL; exact HB|reflexivity|exact Es|exact HV].
Qed.
Lemma for_from : forall h s h' e s', visits B sargs nothing_written stop h s h' e s' -> forall a, abs h a -> there s ->
  exists o, for_loop B A p n args again step (length h) a s o s' /\ fend h' e o.
Proof.
  induction 1 as [h s H|h s v x s' E HB|h s v r s1 s' E HB HW HS|h s v r s1 s2 h' e s' E HB HW HS HV IH]; intros a Habs T.
  - exists (Normal (inl a)). split; [|exists a; auto]. apply F_end. destruct T as (_ & H2 & H3 & _). rewrite content_length in H by exact H3. lia.
  - assert (L : length h < n). { rewrite content_get in E. apply get_lt in E. destruct T as (_ & H2 & _). lia. }
    destruct (there_get s _ T L) as (v2 & E2 & E3 & K). assert (v2 = v) by congruence. subst v2.
    destruct (Hargs h a v s Habs K) as (l & El & HL). exists (Out x). split; [|reflexivity].
    eapply F_out; [exact L|apply T|exact E2|exact El|apply HL; exact HB].
  - assert (L : length h < n). { rewrite content_get in E. apply get_lt in E. destruct T as (_ & H2 & _). lia. }
    destruct (there_get s _ T L) as (v2 & E2 & E3 & K). assert (v2 = v) by congruence. subst v2.
    destruct (Hargs h a v s Habs K) as (l & El & HL). unfold nothing_written in HW. subst s'. eexists. split; [|reflexivity].
    eapply F_stop with (v' := v); [exact L|apply T|exact E2|exact El|apply HL; exact HB| |apply Hstop; assumption].
    destruct again; [|reflexivity]. rewrite (Hcalm eq_refl _ _ _ _ HB). split; [apply T|exact E2].
  - assert (L : length h < n). { rewrite content_get in E. apply get_lt in E. destruct T as (_ & H2 & _). lia. }
    destruct (there_get s _ T L) as (v2 & E2 & E3 & K). assert (v2 = v) by congruence. subst v2.
    destruct (Hargs h a v s Habs K) as (l & El & HL). unfold nothing_written in HW. subst s2.
    destruct (Hgo h a v r s1 Habs HS) as (a' & Q & Q2).
    destruct (IH a' Q2 (there_next _ _ _ _ T HB)) as (o & HF & Ho). exists o. split; [|exact Ho].
    eapply F_more with (v' := v); [exact L|apply T|exact E2|exact El|apply HL; exact HB| |exact Q|rewrite snoc_length in HF; exact HF].
    destruct again; [|reflexivity]. rewrite (Hcalm eq_refl _ _ _ _ HB). split; [apply T|exact E2].
Qed.
End For.
