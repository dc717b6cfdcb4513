(* Run detection, the merge policy, and the whole sort. *)
From Coq Require Import Permutation Sorted.
From Verif Require Import Base ModelSort ProofsSort.

Section Runs.
  Context {S A : Type}.
  Variable f : S -> A -> A -> S * res bool.
  Variable lt : A -> A -> bool.
  Notation M := (@M S A).
  Notation W := (W f lt).
  Notation wp := (wp f).

  (* what any step may do to a stretch of the array *)
  Definition moved (w0 w : list A) : Prop :=
    Permutation w0 w /\ (W -> same_ties lt w0 w).
  Lemma moved_refl w : moved w w.
  Proof. split; [reflexivity|intros _; apply st_refl]. Qed.
  Lemma moved_trans a b c : moved a b -> moved b c -> moved a c.
  Proof.
    intros (P1 & T1) (P2 & T2). split; [etransitivity; eassumption|].
    intros Hw. eapply st_trans; [apply T1|apply T2]; assumption.
  Qed.
  Lemma moved_app a b c d : moved a b -> moved c d -> moved (a ++ c) (b ++ d).
  Proof.
    intros (P1 & T1) (P2 & T2). split; [apply Permutation_app; assumption|].
    intros Hw. apply st_app; auto.
  Qed.

  Lemma run_back_wp (want : bool) (E : list A -> Prop) : forall p x R, E (p ++ x :: R) ->
    wp (run_back f want (length p))
       (fun st v' => v' = p ++ x :: R /\ exists p1 q, p ++ [x] = p1 ++ q /\ length p1 = st /\ q <> [] /\
          (W -> forall w, StronglySorted (fun a b => lt b a = want) (x :: w) ->
                StronglySorted (fun a b => lt b a = want) (q ++ w)))
       E (p ++ x :: R).
  Proof.
    induction p as [|y p IH] using rev_ind; intros x R HE.
    - cbn. apply wp_ret. split; [reflexivity|]. exists [], [x]. split; [reflexivity|]. split; [reflexivity|].
      split; [discriminate|]. intros _ w Hw. exact Hw.
    - rewrite app_length. cbn [length]. rewrite Nat.add_1_r. cbn [run_back].
      apply wp_bind. apply wp_get; [rewrite app_length; cbn; lia|].
      apply wp_bind. rewrite <- (app_assoc p) in HE. cbn [app] in HE.
      replace ((p ++ [y]) ++ x :: R) with (p ++ y :: x :: R) by (rewrite <- app_assoc; reflexivity).
      apply wp_get; [reflexivity|]. apply wp_bind. apply (wp_call0 f lt); [|exact HE].
      intros b Hb. destruct (Bool.eqb b want) eqn:Eb.
      + apply Bool.eqb_prop in Eb. subst b. eapply wp_conseq; [apply (IH y (x :: R) HE)| |auto].
        intros st v' (-> & p1 & q & Hq & Hst & Hne & HW). split; [reflexivity|].
        exists p1, (q ++ [x]). split; [rewrite Hq, <- app_assoc; reflexivity|]. split; [assumption|].
        split; [destruct q; discriminate|]. intros Hw w HS. rewrite <- app_assoc. apply (HW Hw).
        specialize (Hb Hw). destruct Hw as (Hs & _). constructor; [exact HS|]. apply StronglySorted_inv in HS as (_ & HS).
        constructor; [congruence|]. eapply Forall_impl; [|exact HS]. intros z Hz. cbn in Hz.
        eapply (rel_trans lt Hs); [symmetry; exact Hb|exact Hz].
      + apply wp_ret. split; [reflexivity|]. exists (p ++ [y]), [x].
        split; [reflexivity|]. split; [rewrite app_length; cbn; lia|]. split; [discriminate|].
        intros _ w HS. exact HS.
  Qed.

  Lemma find_run_wp pre X : pre <> [] ->
    wp (find_run f (length pre))
       (fun st v' => exists p1 w0 w, pre = p1 ++ w0 /\ v' = p1 ++ w ++ X /\ length p1 = st /\ w <> [] /\
          moved w0 w /\ (W -> ordered lt w))
       (fun v' => Permutation (pre ++ X) v') (pre ++ X).
  Proof.
    intros Hne. destruct pre as [|x pre _] using rev_ind; [congruence|].
    rewrite app_length. cbn [length]. rewrite Nat.add_1_r.
    destruct pre as [|y pre _] using rev_ind.
    - cbn [length find_run]. apply wp_ret. exists [], [x], [x]. split; [reflexivity|]. split; [reflexivity|].
      split; [reflexivity|]. split; [discriminate|]. split; [apply moved_refl|]. intros _. constructor; constructor.
    - rewrite app_length. cbn [length]. rewrite Nat.add_1_r. cbn [find_run].
      replace (((pre ++ [y]) ++ [x]) ++ X) with (pre ++ y :: x :: X) by (rewrite <- !app_assoc; reflexivity).
      apply wp_bind.
      apply (wp_get_eq f _ _ _ (pre ++ [y]) x X); [rewrite <- app_assoc; reflexivity|rewrite app_length; cbn; lia|].
      apply wp_bind.
      apply wp_get; [reflexivity|]. apply wp_bind. apply (wp_call0 f lt); [|reflexivity].
      intros b Hb. destruct b.
      + apply wp_bind. eapply wp_conseq; [apply (run_back_wp true (fun v' => Permutation (pre ++ y :: x :: X) v') pre y (x :: X)); reflexivity| |auto].
        intros st v' (-> & p1 & q & Hq & Hst & Hqne & HW).
        assert (EV : pre ++ y :: x :: X = p1 ++ (q ++ [x]) ++ X).
        { change (pre ++ y :: x :: X) with (pre ++ [y] ++ [x] ++ X). rewrite app_assoc, Hq, <- !app_assoc. reflexivity. }
        apply wp_bind. rewrite EV. unfold mrev. apply wp_slice; [congruence| |].
        { subst st. pose proof (f_equal (@length A) Hq) as HL. rewrite !app_length in HL. rewrite app_length. cbn in *. lia. }
        intros s. apply wp_ret. exists p1, (q ++ [x]), (rev (q ++ [x])).
        split; [rewrite Hq, <- app_assoc; reflexivity|]. split; [reflexivity|]. split; [assumption|].
        split. { rewrite rev_app_distr. discriminate. }
        assert (HD : W -> StronglySorted (fun a b => lt b a = true) (q ++ [x])).
        { intros Hw. apply (HW Hw). constructor; [constructor; constructor|]. constructor; [symmetry; auto|constructor]. }
        split; [split; [apply Permutation_rev|]|]; intros Hw; destruct (rev_desc lt (proj1 Hw) _ (HD Hw)); assumption.
      + eapply wp_conseq; [apply (run_back_wp false (fun v' => Permutation (pre ++ y :: x :: X) v') pre y (x :: X)); reflexivity| |auto].
        intros st v' (-> & p1 & q & Hq & Hst & Hqne & HW).
        exists p1, (q ++ [x]), (q ++ [x]). split; [rewrite Hq, <- app_assoc; reflexivity|].
        split. { change (pre ++ y :: x :: X) with (pre ++ [y] ++ [x] ++ X). rewrite app_assoc, Hq, <- !app_assoc. reflexivity. }
        split; [assumption|]. split; [destruct q; discriminate|]. split; [apply moved_refl|].
        intros Hw. apply (HW Hw). constructor; [constructor; constructor|]. constructor; [symmetry; auto|constructor].
  Qed.

  Lemma extend_run_wp X : forall p w, w <> [] ->
    wp (extend_run f (length p) (length p + length w))
       (fun st v' => exists p1 w0 w', p = p1 ++ w0 /\ v' = p1 ++ w' ++ X /\ length p1 = st /\ w' <> [] /\
          moved (w0 ++ w) w' /\ (W -> ordered lt w -> ordered lt w'))
       (fun v' => Permutation (p ++ w ++ X) v') (p ++ w ++ X).
  Proof.
    induction p as [|y p IH] using rev_ind; intros w Hw.
    - cbn [length extend_run]. apply wp_ret. exists [], [], w. split; [reflexivity|]. split; [reflexivity|]. split; [reflexivity|].
      split; [assumption|]. split; [apply moved_refl|auto].
    - rewrite app_length. cbn [length]. rewrite (Nat.add_1_r (length p)). cbn [extend_run].
      destruct (Nat.ltb _ _).
      + apply wp_bind. replace ((p ++ [y]) ++ w ++ X) with (p ++ (y :: w) ++ X) by (rewrite <- app_assoc; reflexivity).
        apply wp_slice; [reflexivity|cbn; lia|].
        eapply wp_conseq; [apply (insert_head_wp f lt)| |].
        * intros _ w1 (HP & HW). cbn beta.
          assert (HL : length w1 = Datatypes.S (length w)) by (apply Permutation_length in HP; cbn in HP; lia).
          assert (Hw1 : w1 <> []) by (intros ->; discriminate).
          replace (Datatypes.S (length p) + length w)%nat with (length p + length w1)%nat by lia.
          eapply wp_conseq; [apply (IH w1 Hw1)| |].
          -- intros st v' (p1 & w0 & w' & -> & -> & Hst & Hne & Hm & Ho).
             exists p1, (w0 ++ [y]), w'. split; [rewrite <- app_assoc; reflexivity|]. split; [reflexivity|]. split; [assumption|].
             split; [assumption|]. split.
             { eapply moved_trans; [|exact Hm]. rewrite <- app_assoc. apply moved_app; [apply moved_refl|].
               split; [exact HP|]. intros Hq. apply HW. exact Hq. }
             intros Hq Hord. apply (Ho Hq). apply (HW Hq). exact Hord.
          -- intros v' HP2. etransitivity; [|exact HP2]. apply Permutation_app_head. apply Permutation_app_tail. exact HP.
        * intros w1 HP. apply Permutation_app_head. apply Permutation_app_tail. exact HP.
      + apply wp_ret. exists (p ++ [y]), [], w. rewrite app_nil_r. split; [reflexivity|]. split; [reflexivity|].
        split; [rewrite app_length; cbn; lia|]. split; [assumption|]. split; [apply moved_refl|auto].
  Qed.

  (* the run stack describes consecutive stretches *)
  Fixpoint layout (off : nat) (runs : list run) (segs : list (list A)) : Prop :=
    match runs, segs with
    | [], [] => True
    | r :: rs, w :: ws => rstart r = off /\ rlen r = length w /\ layout (off + length w) rs ws
    | _, _ => False
    end.
  Definition same_runs (segs segs' : list (list A)) : Prop :=
    Permutation (concat segs) (concat segs') /\
    (W -> Forall (ordered lt) segs -> Forall (ordered lt) segs' /\ same_ties lt (concat segs) (concat segs')).
  Lemma same_runs_trans a b c : same_runs a b -> same_runs b c -> same_runs a c.
  Proof.
    intros (P1 & H1) (P2 & H2). split; [etransitivity; eassumption|]. intros Hw Ho.
    destruct (H1 Hw Ho) as (Ho2 & T1). destruct (H2 Hw Ho2) as (Ho3 & T2). split; [assumption|].
    eapply st_trans; eassumption.
  Qed.
  Lemma same_runs_merge pfx a b w rest : Permutation (a ++ b) w ->
    (W -> ordered lt a -> ordered lt b -> same_ties lt (a ++ b) w /\ ordered lt w) ->
    same_runs (pfx ++ a :: b :: rest) (pfx ++ w :: rest).
  Proof.
    intros HP HW. split.
    - rewrite !concat_app. cbn [concat]. apply Permutation_app_head. rewrite app_assoc. apply Permutation_app_tail. exact HP.
    - intros Hw Ho. apply Forall_app in Ho as (O1 & O2). inversion O2 as [|? ? Oa O3]; subst. inversion O3 as [|? ? Ob O4]; subst.
      destruct (HW Hw Oa Ob) as (HT & HO). split.
      + apply Forall_app. split; [assumption|]. constructor; assumption.
      + rewrite !concat_app. cbn [concat]. apply st_app; [apply st_refl|]. rewrite app_assoc. apply st_app; [exact HT|apply st_refl].
  Qed.

  Lemma collapse_loop_wp pre cap : forall fuel runs segs, (length runs < fuel)%nat ->
    layout (length pre) runs segs -> (length pre + length (concat segs) <= 2 * cap + 1)%nat ->
    wp (collapse_loop f fuel cap runs)
       (fun runs' v' => exists segs', v' = pre ++ concat segs' /\ layout (length pre) runs' segs' /\
           collapse runs' = None /\ same_runs segs segs' /\ (runs <> [] -> runs' <> []) /\ (length runs' <= length runs)%nat)
       (fun v' => Permutation (pre ++ concat segs) v') (pre ++ concat segs).
  Proof.
    induction fuel as [|fuel IH]; intros runs segs Hf HL Hc; [lia|].
    cbn [collapse_loop]. destruct (collapse runs) as [b|] eqn:EC.
    2:{ apply wp_ret. exists segs. split; [reflexivity|]. split; [assumption|]. split; [assumption|].
        split; [|auto]. split; [reflexivity|]. intros _ Ho. split; [assumption|apply st_refl]. }
    destruct runs as [|r1 [|r2 rs]]; try discriminate.
    destruct segs as [|w1 [|w2 ws]]; cbn [layout] in HL; try (destruct HL as (?&?&?); contradiction); try contradiction.
    destruct HL as (S1 & L1 & S2 & L2 & HL). destruct b.
    - destruct rs as [|r3 rs]; [cbn in EC; destruct (_ || _) in EC; discriminate|].
      destruct ws as [|w3 ws]; cbn [layout] in HL; [contradiction|]. destruct HL as (S3 & L3 & HL).
      cbn [concat]. cbn [concat] in Hc. rewrite !app_length in Hc.
      apply wp_bind.
      replace (pre ++ w1 ++ w2 ++ w3 ++ concat ws) with ((pre ++ w1) ++ (w2 ++ w3) ++ concat ws) by (rewrite <- !app_assoc; reflexivity).
      apply wp_slice; [rewrite app_length; lia|rewrite !app_length; lia|]. rewrite L2.
      eapply wp_conseq; [apply (merge_wp f lt w2 w3 cap); lia| |].
      + intros _ w (HP & HW). cbn beta.
        assert (HLw : length w = (length w2 + length w3)%nat) by (apply Permutation_length in HP; rewrite app_length in HP; lia).
        replace ((pre ++ w1) ++ w ++ concat ws) with (pre ++ concat (w1 :: w :: ws)) by (cbn; rewrite <- app_assoc; reflexivity).
        pose proof (same_runs_merge [w1] w2 w3 w ws HP HW) as HSR. cbn [app] in HSR.
        eapply wp_conseq; [apply (IH (r1 :: Run (rstart r2) (length w2 + rlen r3) :: rs) (w1 :: w :: ws))| |].
        * cbn in *. lia.
        * cbn [layout rstart rlen]. repeat split; try assumption; try lia.
          replace (length pre + length w1 + length w)%nat with (length pre + length w1 + length w2 + length w3)%nat by lia. assumption.
        * cbn [concat]. rewrite !app_length. lia.
        * intros runs' v' (segs' & -> & HL' & HC' & HR & Hne & Hlen). exists segs'.
          split; [reflexivity|]. split; [assumption|]. split; [assumption|].
          split; [eapply same_runs_trans; eassumption|]. split; [intros _; apply Hne; discriminate|]. cbn in *; lia.
        * intros v' HP2. etransitivity; [|exact HP2]. rewrite <- !app_assoc. apply Permutation_app_head.
          exact (proj1 HSR).
      + intros w HP. rewrite <- !app_assoc. do 2 apply Permutation_app_head. rewrite app_assoc. apply Permutation_app_tail. exact HP.
    - cbn [concat]. cbn [concat] in Hc. rewrite !app_length in Hc.
      apply wp_bind.
      replace (pre ++ w1 ++ w2 ++ concat ws) with (pre ++ (w1 ++ w2) ++ concat ws) by (rewrite <- !app_assoc; reflexivity).
      apply wp_slice; [lia|rewrite !app_length; lia|]. rewrite L1.
      eapply wp_conseq; [apply (merge_wp f lt w1 w2 cap); lia| |].
      + intros _ w (HP & HW). cbn beta.
        assert (HLw : length w = (length w1 + length w2)%nat) by (apply Permutation_length in HP; rewrite app_length in HP; lia).
        change (pre ++ w ++ concat ws) with (pre ++ concat (w :: ws)).
        pose proof (same_runs_merge [] w1 w2 w ws HP HW) as HSR. cbn [app] in HSR.
        eapply wp_conseq; [apply (IH (Run (rstart r1) (length w1 + rlen r2) :: rs) (w :: ws))| |].
        * cbn in *. lia.
        * cbn [layout rstart rlen]. repeat split; try assumption; try lia.
          replace (length pre + length w)%nat with (length pre + length w1 + length w2)%nat by lia. assumption.
        * cbn [concat]. rewrite !app_length. lia.
        * intros runs' v' (segs' & -> & HL' & HC' & HR & Hne & Hlen). exists segs'.
          split; [reflexivity|]. split; [assumption|]. split; [assumption|].
          split; [eapply same_runs_trans; eassumption|]. split; [intros _; apply Hne; discriminate|]. cbn in *; lia.
        * intros v' HP2. etransitivity; [|exact HP2]. rewrite <- !app_assoc. apply Permutation_app_head.
          exact (proj1 HSR).
      + intros w HP. rewrite <- !app_assoc. apply Permutation_app_head. rewrite app_assoc. apply Permutation_app_tail. exact HP.
  Qed.

  (* once the last run starts at 0, collapsing only stops at a single run *)
  Lemma collapse_none_zero r runs : rstart r = 0%nat -> collapse (r :: runs) = None -> runs = [].
  Proof.
    intros H0 HC. destruct runs as [|r2 rs]; [reflexivity|]. cbn in HC. rewrite H0 in HC. discriminate.
  Qed.

  Lemma sort_loop_wp cap v0 : forall fuel pre runs segs, (length pre <= fuel)%nat -> pre <> [] ->
    layout (length pre) runs segs -> (length pre + length (concat segs) <= 2 * cap + 1)%nat ->
    Permutation v0 (pre ++ concat segs) ->
    wp (sort_loop f fuel cap runs (length pre))
       (fun runs' v' => (runs' = Run 0%nat (length v') :: nil) /\ Permutation v0 v' /\ (W -> Forall (ordered lt) segs -> same_ties lt (pre ++ concat segs) v' /\ ordered lt v'))
       (fun v' => Permutation v0 v') (pre ++ concat segs).
  Proof.
    induction fuel as [|fuel IH]; intros pre runs segs Hf Hne HL Hc HP0; [destruct pre; [congruence|cbn in Hf; lia]|].
    destruct (length pre) as [|n] eqn:EN; [destruct pre; [congruence|discriminate]|].
    cbn [sort_loop]. rewrite <- EN in *. clear n EN.
    apply wp_bind. eapply wp_conseq; [apply (find_run_wp pre (concat segs) Hne)| |intros; etransitivity; eassumption].
    intros st v' (p1 & w0 & w & -> & -> & Hst & Hwne & (HP1 & HT1) & HO1). cbn beta.
    assert (HL1 : length w0 = length w) by (apply Permutation_length; assumption).
    apply wp_bind. subst st. rewrite app_length, HL1.
    eapply wp_conseq; [apply (extend_run_wp (concat segs) p1 w Hwne)| |].
    2:{ intros v' HP2. etransitivity; [exact HP0|]. etransitivity; [|exact HP2]. rewrite <- !app_assoc.
        apply Permutation_app_head. apply Permutation_app_tail. exact HP1. }
    intros st2 v' (p2 & w2 & w' & -> & -> & Hst2 & Hwne' & (HP2 & HT2) & HO2). cbn beta. subst st2.
    assert (HL2 : length w' = (length w2 + length w)%nat) by (apply Permutation_length in HP2; rewrite app_length in HP2; lia).
    rewrite !app_length in HL, Hc, Hf. rewrite app_length.
    replace (length p2 + length w2 + length w - length p2)%nat with (length w') by lia.
    assert (HP3 : Permutation v0 (p2 ++ concat (w' :: segs))).
    { etransitivity; [exact HP0|]. cbn [concat]. rewrite <- !app_assoc. apply Permutation_app_head.
      rewrite (app_assoc w2 w0). apply Permutation_app_tail.
      etransitivity; [|exact HP2]. apply Permutation_app_head. exact HP1. }
    apply wp_bind. change (w' ++ concat segs) with (concat (w' :: segs)).
    eapply wp_conseq; [apply (collapse_loop_wp p2 cap (2 + length runs) (Run (length p2) (length w') :: runs) (w' :: segs))| |].
    - cbn. lia.
    - cbn [layout rstart rlen]. repeat split. replace (length p2 + length w')%nat with (length p2 + length w2 + length w0)%nat by lia. assumption.
    - cbn [concat]. rewrite app_length. lia.
    - intros runs' v' (segs' & -> & HL' & HC' & (HPs & HRs) & Hne' & Hlen'). cbn beta.
      assert (HP4 : Permutation v0 (p2 ++ concat segs')) by (etransitivity; [exact HP3|apply Permutation_app_head; exact HPs]).
      assert (HTo : W -> Forall (ordered lt) segs -> Forall (ordered lt) segs' /\ same_ties lt (((p2 ++ w2) ++ w0) ++ concat segs) (p2 ++ concat segs')).
      { intros Hw Ho. destruct (HRs Hw) as (Ho' & HT').
        { constructor; [apply (HO2 Hw); apply (HO1 Hw)|exact Ho]. }
        split; [assumption|]. rewrite <- !app_assoc. apply st_app; [apply st_refl|].
        eapply st_trans; [|exact HT']. cbn [concat]. rewrite app_assoc. apply st_app; [|apply st_refl].
        eapply st_trans; [|apply (HT2 Hw)]. apply st_app; [apply st_refl|apply (HT1 Hw)]. }
      destruct p2 as [|z p2].
      + cbn [length] in *. assert (ER : exists r, runs' = [r]).
        { destruct runs' as [|r runs']; [exfalso; apply Hne'; [discriminate|reflexivity]|].
          destruct segs' as [|s1 segs']; [contradiction|]. cbn [layout] in HL'. destruct HL' as (HS & _).
          rewrite (collapse_none_zero r runs' HS HC'). eauto. }
        destruct ER as (r & ->). destruct segs' as [|s1 [|s2 segs']]; cbn [layout] in HL'; try tauto.
        destruct HL' as (HS & HLn & _). destruct fuel; cbn [sort_loop]; apply wp_ret.
        all: cbn [concat app] in *; rewrite app_nil_r in *; split; [destruct r; cbn in *; congruence|]; split; [exact HP4|].
        all: intros Hw Ho; destruct (HTo Hw Ho) as (Ho' & HT'); split; [exact HT'|]; inversion Ho'; assumption.
      + eapply wp_conseq; [apply (IH (z :: p2) runs' segs')| |].
        * assert (w' <> []) by assumption. destruct w'; [congruence|]. cbn in *; lia.
        * discriminate.
        * assumption.
        * apply Permutation_length in HP4, HP3. rewrite HP4 in HP3. rewrite !app_length in HP3. cbn [concat] in HP3. rewrite app_length in HP3. lia.
        * exact HP4.
        * intros rr v' (-> & HP5 & HW5). split; [reflexivity|]. split; [assumption|]. intros Hw Ho.
          destruct (HTo Hw Ho) as (Ho' & HT'). destruct (HW5 Hw Ho') as (HT5 & HO5). split; [|assumption].
          eapply st_trans; eassumption.
        * auto.
    - intros v' HP5. etransitivity; eassumption.
  Qed.

  Lemma ins_loop_wp : forall p w,
    wp (ins_loop f (length p) (length p + length w))
       (fun _ v' => moved (p ++ w) v' /\ (W -> ordered lt w -> ordered lt v'))
       (fun v' => Permutation (p ++ w) v') (p ++ w).
  Proof.
    induction p as [|y p IH] using rev_ind; intros w.
    - cbn [length ins_loop]. apply wp_ret. split; [apply moved_refl|auto].
    - rewrite app_length. cbn [length]. rewrite (Nat.add_1_r (length p)). cbn [ins_loop].
      apply wp_bind. replace ((p ++ [y]) ++ w) with (p ++ (y :: w) ++ []) by (rewrite app_nil_r, <- app_assoc; reflexivity).
      apply wp_slice; [reflexivity|cbn; lia|]. eapply wp_conseq; [apply (insert_head_wp f lt)| |].
      + intros _ w1 (HP & HW). cbn beta. rewrite !app_nil_r.
        assert (HL : length w1 = Datatypes.S (length w)) by (apply Permutation_length in HP; cbn in HP; lia).
        replace (Datatypes.S (length p) + length w)%nat with (length p + length w1)%nat by lia.
        eapply wp_conseq; [apply (IH w1)| |].
        * intros _ v' (Hm & Ho). split.
          { eapply moved_trans; [|exact Hm]. apply moved_app; [apply moved_refl|]. split; [exact HP|]. intros Hq; apply HW; exact Hq. }
          intros Hq Hord. apply (Ho Hq). apply (HW Hq). exact Hord.
        * intros v' HP2. etransitivity; [|exact HP2]. apply Permutation_app_head. exact HP.
      + intros w1 HP. rewrite !app_nil_r. apply Permutation_app_head. exact HP.
  Qed.

  Lemma merge_sort_wp v :
    wp (merge_sort f) (fun _ v' => Permutation v v' /\ (W -> same_ties lt v v' /\ ordered lt v'))
       (fun v' => Permutation v v') v.
  Proof.
    unfold merge_sort. apply wp_bind. apply wp_len.
    destruct (Nat.leb_spec (length v) MAX_INSERTION) as [HL|HL].
    - destruct (Nat.leb_spec 2 (length v)) as [H2|H2].
      + destruct v as [|x p _] using rev_ind; [cbn in H2; lia|].
        rewrite app_length. cbn [length].
        replace (length p + 1 - 1)%nat with (length p) by lia.
        eapply wp_conseq; [apply (ins_loop_wp p [x])| |auto].
        intros _ v' ((HP & HT) & HO). split; [assumption|]. intros Hw. split; [auto|]. apply (HO Hw). constructor; constructor.
      + apply wp_ret. split; [reflexivity|]. intros _. split; [apply st_refl|].
        destruct v as [|x [|y v]]; [constructor|constructor; constructor|cbn in H2; lia].
    - apply wp_bind. rewrite <- (app_nil_r v) at 4.
      assert (Hne : v <> []) by (intros ->; cbn in HL; unfold MAX_INSERTION in HL; lia).
      eapply wp_conseq; [apply (sort_loop_wp (length v / 2) v (length v) v [] [])| |auto].
      + lia.
      + assumption.
      + exact I.
      + cbn [length concat]. pose proof (Nat.div_mod (length v) 2 ltac:(lia)). pose proof (Nat.mod_upper_bound (length v) 2 ltac:(lia)). lia.
      + cbn. rewrite app_nil_r. reflexivity.
      + intros runs v' (-> & HP & HW). cbn [rstart rlen].
        replace (length v') with (length v) by (apply Permutation_length; assumption).
        rewrite !Nat.eqb_refl. cbn [andb]. apply (wp_ret f). split; [assumption|].
        intros Hw. cbn [concat] in HW. rewrite app_nil_r in HW. apply (HW Hw). constructor.
  Qed.
End Runs.

(* ---- the whole sort ---- *)
(* any comparison whatsoever *)
Lemma sort_by_any {S A} (cmp : S -> A -> A -> S * res comparison) s v s' v' r :
  sort_by cmp s v = (s', v', r) ->
  Permutation v v' /\ match r with
  | Ok _ => True
  | Err k => exists s0 x y, cmp s0 x y = (s', Err k)
  | Panic => exists s0 x y, cmp s0 x y = (s', Panic)
  end.
Proof.
  intros H. pose proof (merge_sort_wp (less_of cmp) (fun _ _ => false) v s) as HW.
  unfold sort_by in H. rewrite H in HW. destruct r as [u|k|].
  - split; [apply HW|exact I].
  - destruct HW as (HP & s0 & x & y & E). split; [assumption|]. exists s0, x, y.
    unfold less_of in E. destruct (cmp s0 x y) as (s1 & [[| |]|k'|]); congruence.
  - destruct HW as (HP & s0 & x & y & E). split; [assumption|]. exists s0, x, y.
    unfold less_of in E. destruct (cmp s0 x y) as (s1 & [[| |]|k'|]); congruence.
Qed.
(* a comparison that follows a strict weak order *)
Definition is_lt (c : comparison) : bool := match c with Lt => true | _ => false end.
Lemma sort_by_ordered {S A} (cmp : S -> A -> A -> S * res comparison) (c : A -> A -> comparison) s v :
  (forall s x y, snd (cmp s x y) = Ok (c x y)) -> swo (fun x y => is_lt (c x y)) ->
  exists s' v', sort_by cmp s v = (s', v', Ok tt) /\ Permutation v v' /\ ordered (fun x y => is_lt (c x y)) v' /\ same_ties (fun x y => is_lt (c x y)) v v'.
Proof.
  intros Hc Hs. set (lt := fun x y => is_lt (c x y)) in *.
  assert (Hw : W (less_of cmp) lt).
  { split; [exact Hs|]. intros s0 x y. unfold less_of, lt. specialize (Hc s0 x y).
    destruct (cmp s0 x y) as (s1 & r). cbn in Hc. rewrite Hc. destruct (c x y); reflexivity. }
  pose proof (merge_sort_wp (less_of cmp) lt v s) as HW. unfold sort_by.
  destruct (merge_sort (less_of cmp) s v) as [[s' v'] [u|k|]] eqn:E.
  - destruct u. exists s', v'. destruct HW as (HP & HW). destruct (HW Hw). auto.
  - destruct HW as (_ & s0 & x & y & E'). pose proof (proj2 Hw s0 x y) as HN. rewrite E' in HN. discriminate.
  - destruct HW as (_ & s0 & x & y & E'). pose proof (proj2 Hw s0 x y) as HN. rewrite E' in HN. discriminate.
Qed.

(* ---- Array#sort without a block, Array#sort_by ---- *)
Definition neg (o : option Z) : bool := match o with Some i => i <? 0 | None => false end.
Lemma sort_array_any {A} (ec : A -> A -> option Z) v :
  match sort_array ec v with Ok v' => Permutation v v' | Err k => k = ArgErr | Panic => False end.
Proof.
  unfold sort_array. destruct v as [|x r]; [reflexivity|].
  destruct (existsb _ r); [reflexivity|]. unfold sort_block.
  destruct (sort_by _ tt (x :: r)) as [[s' v'] rr] eqn:E. apply sort_by_any in E as (HP & HE).
  destruct rr as [u|k|]; [assumption| |]; destruct HE as (s0 & a & b & HE); destruct (ec a b); cbn in HE; congruence.
Qed.
Lemma sort_array_ordered {A} (ec : A -> A -> option Z) v :
  (forall x y, ec x y <> None) -> swo (fun x y => neg (ec x y)) ->
  exists v', sort_array ec v = Ok v' /\ Permutation v v' /\
    ordered (fun x y => neg (ec x y)) v' /\ same_ties (fun x y => neg (ec x y)) v v'.
Proof.
  intros Ht Hs. destruct v as [|x r].
  { exists []. split; [reflexivity|]. split; [reflexivity|]. split; [constructor|apply st_refl]. }
  unfold sort_array.
  replace (existsb _ r) with false.
  2:{ symmetry. clear -Ht. induction r as [|y r IH]; [reflexivity|]. cbn. specialize (Ht x y). destruct (ec x y); [exact IH|congruence]. }
  set (c := fun a b => match ec a b with Some i => Z.compare i 0 | None => Eq end).
  assert (EL : forall a b, is_lt (c a b) = neg (ec a b)).
  { intros a b. unfold c, neg, is_lt, Z.ltb. destruct (ec a b) as [i|]; [|reflexivity]. destruct (i ?= 0); reflexivity. }
  assert (Hs' : swo (fun a b => is_lt (c a b))).
  { destruct Hs as [H1 H2]. constructor; intros; rewrite !EL in *; eauto. }
  unfold sort_block.
  edestruct (sort_by_ordered (fun (s : unit) a b => (s, to_ordering (ec a b))) c tt (x :: r)) as (s' & v' & E & HP & HO & HT).
  { intros s a b. cbn. unfold to_ordering, c. specialize (Ht a b). destruct (ec a b); [reflexivity|congruence]. }
  { exact Hs'. }
  exists v'. rewrite E. split; [reflexivity|]. split; [exact HP|]. split.
  - unfold ordered in *. clear -HO EL. induction HO as [|a l HO IH HF]; [constructor|]. constructor; [exact IH|].
    eapply Forall_impl; [|exact HF]. intros b Hb. cbn in *. rewrite <- EL. exact Hb.
  - intros z. specialize (HT z). assert (ET : forall b, tie (fun x y => is_lt (c x y)) z b = tie (fun x y => neg (ec x y)) z b).
    { intros b. unfold tie. rewrite !EL. reflexivity. }
    rewrite <- !(filter_ext _ _ ET). exact HT.
Qed.

Lemma decorate_fst {S A K} (keyf : S -> A -> S * res K) : forall l s s' d,
  decorate keyf s l = (s', Ok d) -> map fst d = l.
Proof.
  induction l as [|x l IH]; intros s s' d H; cbn in H; [injection H as <- <-; reflexivity|].
  destruct (keyf s x) as (s1 & [k|e|]); try discriminate.
  destruct (decorate keyf s1 l) as (s2 & [t|e|]) eqn:E; try discriminate.
  injection H as <- <-. cbn. f_equal. eapply IH. exact E.
Qed.
Lemma array_sort_by_any {S A K} (keyf : S -> A -> S * res K) ec s l s' l' :
  array_sort_by keyf ec s l = (s', Ok l') -> Permutation l l'.
Proof.
  unfold array_sort_by. destruct (decorate keyf s l) as (s1 & [d|e|]) eqn:E; try discriminate.
  unfold sort_block. destruct (sort_by _ s1 d) as [[s2 d'] [u|e|]] eqn:E2; try discriminate.
  intros H. injection H as <- <-. apply sort_by_any in E2 as (HP & _). apply decorate_fst in E. rewrite <- E.
  apply Permutation_map. exact HP.
Qed.
Lemma array_sort_by_key {A} (key : A -> Z) (l : list A) :
  let ec := fun (s : unit) (a b : Z) => (s, Ok (Some (if a <? b then -1 else if a =? b then 0 else 1))) in
  exists l', array_sort_by (fun s x => (s, Ok (key x))) ec tt l = (tt, Ok l') /\ Permutation l l' /\
    StronglySorted (fun x y => key x <= key y) l' /\
    forall k, filter (fun x => key x =? k) l' = filter (fun x => key x =? k) l.
Proof.
  intros ec. unfold array_sort_by.
  assert (ED : decorate (fun (s : unit) x => (s, Ok (key x))) tt l = (tt, Ok (map (fun x => (x, key x)) l))).
  { induction l as [|x l IH]; [reflexivity|]. cbn. rewrite IH. reflexivity. }
  rewrite ED. unfold sort_block.
  set (c := fun a b : A * Z => Z.compare (snd a) (snd b)).
  edestruct (sort_by_ordered (fun (s : unit) (a b : A * Z) =>
     match ec s (snd a) (snd b) with (s', Ok o) => (s', to_ordering o) | (s', Err k) => (s', Err k) | (s', Panic) => (s', Panic) end)
     c tt (map (fun x => (x, key x)) l)) as (s' & d & E & HP & HO & HT).
  { intros s a b. cbn. unfold c. destruct (Z.ltb_spec (snd a) (snd b)) as [H|H].
    - cbn. rewrite (proj2 (Z.compare_lt_iff _ _) H). reflexivity.
    - destruct (Z.eqb_spec (snd a) (snd b)) as [H2|H2]; cbn.
      + rewrite H2, Z.compare_refl. reflexivity.
      + rewrite (proj2 (Z.compare_gt_iff _ _)) by lia. reflexivity. }
  { constructor; intros x y; unfold c, is_lt; intros.
    - destruct (Z.compare_spec (snd x) (snd y)); try discriminate. rewrite (proj2 (Z.compare_gt_iff _ _)) by lia. reflexivity.
    - destruct (Z.compare_spec (snd x) (snd y)); try discriminate.
      destruct (Z.compare_spec (snd x) (snd z)); auto; destruct (Z.compare_spec (snd z) (snd y)); auto; lia. }
  destruct s'. rewrite E. exists (map fst d). split; [reflexivity|].
  assert (HF : Forall (fun p => snd p = key (fst p)) d).
  { eapply Forall_perm; [exact HP|]. apply Forall_map. apply Forall_forall. reflexivity. }
  assert (ED2 : d = map (fun x => (x, key x)) (map fst d)).
  { clear -HF. induction HF as [|(x & k) d Hx _ IH]; [reflexivity|]. cbn in *. subst k. f_equal. exact IH. }
  split.
  { replace l with (map fst (map (fun x => (x, key x)) l)) at 1 by (rewrite map_map; cbn; apply map_id).
    apply Permutation_map. exact HP. }
  split.
  - clear -HO HF. induction HO as [|a d HO IH HFo]; [constructor|]. inversion HF; subst. cbn. constructor; [apply IH; assumption|].
    apply Forall_map. rewrite Forall_forall in *. intros b Hb. specialize (HFo b Hb). specialize (H2 b Hb). cbn in *.
    unfold c, is_lt in HFo. rewrite H1, H2 in HFo. destruct (Z.compare_spec (key (fst b)) (key (fst a))); try discriminate; lia.
  - intros k. destruct (filter (fun x => key x =? k) l) as [|x0 t0] eqn:Ex.
    + (* no element of that key *)
      destruct (filter (fun x => key x =? k) (map fst d)) as [|y t] eqn:Ey; [reflexivity|]. exfalso.
      assert (Hy : In y (filter (fun x => key x =? k) (map fst d))) by (rewrite Ey; left; reflexivity).
      apply filter_In in Hy as (Hy1 & Hy2).
      assert (In y l).
      { eapply Permutation_in; [|exact Hy1]. symmetry.
        replace l with (map fst (map (fun x => (x, key x)) l)) by (rewrite map_map; cbn; apply map_id).
        apply Permutation_map. exact HP. }
      assert (In y (filter (fun x => key x =? k) l)) by (apply filter_In; auto). rewrite Ex in H0. destruct H0.
    + assert (Hx0 : In x0 (filter (fun x => key x =? k) l)) by (rewrite Ex; left; reflexivity).
      apply filter_In in Hx0 as (_ & Hk). apply Z.eqb_eq in Hk. rewrite <- Ex. clear Ex t0.
      specialize (HT (x0, k)). rewrite ED2 in HT.
      assert (EF : forall m, filter (tie (fun x y => is_lt (c x y)) (x0, k)) (map (fun x => (x, key x)) m) =
                       map (fun x => (x, key x)) (filter (fun x => key x =? k) m)).
      { induction m as [|z m IHm]; [reflexivity|]. cbn [map filter]. rewrite IHm. unfold tie, c, is_lt. cbn [snd].
        destruct (Z.compare_spec k (key z)); destruct (Z.compare_spec (key z) k); try lia; cbn;
          destruct (Z.eqb_spec (key z) k); try lia; reflexivity. }
      rewrite !EF in HT. apply (f_equal (map fst)) in HT. rewrite !map_map in HT. cbn in HT. rewrite !map_id in HT. symmetry. exact HT.
Qed.
Lemma sort_by_spec {S A} (cmp : S -> A -> A -> S * res comparison) (c : A -> A -> comparison) s v :
  (forall s x y, snd (cmp s x y) = Ok (c x y)) ->
  (forall x y, c x y = Lt -> c y x <> Lt) ->
  (forall x y z, c x y = Lt -> c x z = Lt \/ c z y = Lt) ->
  exists s' v', sort_by cmp s v = (s', v', Ok tt) /\ Permutation v v' /\
    StronglySorted (fun x y => c y x <> Lt) v' /\
    forall x, filter (fun y => negb (is_lt (c x y)) && negb (is_lt (c y x))) v' =
              filter (fun y => negb (is_lt (c x y)) && negb (is_lt (c y x))) v.
Proof.
  intros Hc Ha Hn.
  assert (HL : forall x y, is_lt (c x y) = true <-> c x y = Lt).
  { intros x y. unfold is_lt. destruct (c x y); split; congruence. }
  assert (HN : forall x y, is_lt (c x y) = false <-> c x y <> Lt).
  { intros x y. unfold is_lt. destruct (c x y); split; congruence. }
  destruct (sort_by_ordered cmp c s v Hc) as (s' & v' & E & HP & HO & HT).
  { constructor.
    - intros x y H. apply HN. apply Ha. apply HL. exact H.
    - intros x y z H. rewrite !HL in *. apply Hn. exact H. }
  exists s', v'. split; [exact E|]. split; [exact HP|]. split.
  - unfold ordered in HO. clear -HO HN. induction HO as [|a l HO IH HF]; constructor; [exact IH|].
    eapply Forall_impl; [|exact HF]. intros b Hb. apply HN. exact Hb.
  - intros x. symmetry. apply (HT x).
Qed.
