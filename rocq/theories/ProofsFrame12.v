(* Frames: what a call leaves of its caller. *)
From Verif Require Import Base ModelValue ModelArray ModelFrame SpecFrame ProofsFrame ProofsFrame2 ProofsFrame3 ProofsFrame4 ProofsFrame5 ProofsFrame6 ProofsFrame7 ProofsFrame8 ProofsFrame9 ProofsFrame10 ProofsFrame11.

Definition grown (l l' : list act) : Prop := forall a x, nth_error l a = Some x -> exists y, nth_error l' a = Some y /\ alike x y.
Lemma grown_refl l : grown l l.
Proof. intros a x H. exists x. split; [exact H|apply alike_refl]. Qed.
Lemma alike_trans x y z : alike x y -> alike y z -> alike x z.
Proof. unfold alike. intuition congruence. Qed.
Lemma grown_trans l l1 l2 : grown l l1 -> grown l1 l2 -> grown l l2.
Proof.
  intros H1 H2 a x Hx. destruct (H1 _ _ Hx) as (y & Hy & E). destruct (H2 _ _ Hy) as (z & Hz & E2).
  exists z. split; [exact Hz|]. eapply alike_trans; eauto.
Qed.
Lemma grown_app l x : grown l (l ++ [x]).
Proof. intros a y H. exists y. split; [|apply alike_refl]. rewrite nth_error_app1; [exact H|]. apply nth_error_Some. congruence. Qed.
Lemma grown_put l a x i w : nth_error l a = Some x -> (i < length (a_vars x))%nat -> grown l (put l a (set_var x i w)).
Proof.
  intros H Hi b y Hb. pose proof (put_alikes _ _ _ _ H (set_var_alike x i w Hi)) as AL.
  destruct (alikes_nth _ _ (alikes_sym _ _ AL) _ _ Hb) as (z & Hz & E). exists z. split; [exact Hz|apply alike_sym; exact E].
Qed.
Lemma step_grown G s o s' : acts_as G s o s' -> grown (acts s) (acts s').
Proof. destruct 1; cbn [acts]; try apply grown_refl; try apply grown_app. apply grown_put; assumption. Qed.
Lemma runs_grown G s o s' : runs G s o s' -> grown (acts s) (acts s').
Proof. induction 1; [apply grown_refl|]. eapply grown_trans; [eapply step_grown; eauto|assumption]. Qed.
Lemma stays_runs G n s o s' : stays G n s o s' -> runs G s o s'.
Proof. induction 1; econstructor; eauto. Qed.
Lemma runs_app G s o s1 o' s2 : runs G s o s1 -> runs G s1 o' s2 -> runs G s (o ++ o') s2.
Proof. induction 1; cbn; [auto|]. intros. econstructor; eauto. Qed.

(* one step keeps the frames below the top, unless it leaves it *)
Lemma step_below G s o s' p g bt : acts_as G s o s' -> frames s = p ++ g :: bt -> (S (length bt) <= length (frames s'))%nat ->
  exists p' g', frames s' = p' ++ g' :: bt /\ f_act g' = f_act g /\ (p <> [] -> length p' <> O -> g' = g).
Proof.
  intros H E HL.
  assert (TOP : forall f f' fs, f :: fs = p ++ g :: bt -> f_act f' = f_act f ->
            exists p' g', f' :: fs = p' ++ g' :: bt /\ f_act g' = f_act g /\ (p <> [] -> length p' <> O -> g' = g)).
  { intros f f' fs E' A. destruct p as [|q p]; cbn in E'; injection E' as -> ->.
    - exists [], f'. cbn. repeat split; auto. congruence.
    - exists (f' :: p), g. repeat split; auto. }
  assert (NEW : forall h f f' fs, f :: fs = p ++ g :: bt -> f_act f' = f_act f ->
            exists p' g', h :: f' :: fs = p' ++ g' :: bt /\ f_act g' = f_act g /\ (p <> [] -> length p' <> O -> g' = g)).
  { intros h f f' fs E' A. destruct p as [|q p]; cbn in E'; injection E' as -> ->.
    - exists [h], f'. cbn. repeat split; auto. congruence.
    - exists (h :: f' :: p), g. repeat split; auto. }
  destruct H; cbn [frames] in *; try (eapply TOP; [exact E|reflexivity]); try (eapply NEW; [exact E|reflexivity]).
  - (* return *)
    destruct p as [|q p]; cbn in E; injection E as -> E.
    + rewrite <- E in HL. cbn in HL. lia.
    + assert (A : f_act (if a_use x then top_ops g0 (w :: f_ops g0) else g0) = f_act g0) by (destruct (a_use x); reflexivity).
      destruct p as [|q' p]; cbn in E; injection E as -> ->.
      * exists [], (if a_use x then top_ops g (w :: f_ops g) else g). cbn. repeat split; auto. congruence.
      * exists ((if a_use x then top_ops q' (w :: f_ops q') else q') :: p), g. repeat split; auto.
  - destruct p as [|q p]; cbn in E; injection E as -> E.
    + rewrite <- E in HL. cbn in HL. lia.
    + destruct p as [|q' p]; cbn in E; injection E as -> ->; [exists [], g|exists (q' :: p), g]; auto.
  - exists p, g. auto.
Qed.
Lemma stays_below G n s o s' : stays G n s o s' -> forall p f bt, frames s = p ++ f :: bt -> p <> [] -> n = S (S (length bt)) ->
  exists p', frames s' = p' ++ f :: bt /\ p' <> [] /\ f_act (last p' f) = f_act (last p f).
Proof.
  induction 1 as [s Hn|s o s1 l s2 Hn HA HS IH]; intros p f bt E NE ->; [exists p; auto|].
  assert (Hn1 : (S (S (length bt)) <= length (frames s1))%nat) by (inversion HS; assumption).
  destruct (exists_last NE) as (p0 & g & ->). rewrite <- app_assoc in E. cbn in E.
  destruct (step_below _ _ _ _ p0 g (f :: bt) HA E Hn1) as (p1 & g' & E1 & A1 & _).
  destruct (IH (p1 ++ [g']) f bt) as (p' & E' & NE' & A'); [rewrite <- app_assoc; exact E1|destruct p1; discriminate|reflexivity|].
  exists p'. split; [exact E'|]. split; [exact NE'|]. rewrite A', !last_last. exact A1.
Qed.

(* the call itself: what it takes from the caller *)
Lemma enters_shape G s o s' n uv : acts_as G s o s' -> taken o = Some (n, uv) ->
  exists f fs ws r x, frames s = f :: fs /\ f_ops f = ws ++ r /\ Z.of_nat (length ws) = n /\
    frames s' = [mkframe (length (acts s)) [] 0] ++ top_ops f r :: fs /\ nth_error (acts s') (length (acts s)) = Some x /\
    a_ruby x = true /\ a_use x = uv.
Proof.
  intros H T. destruct H; try discriminate; cbn [taken acts frames] in *; injection T as <- <-.
  - exists f, fs, (rev vs ++ [self]), r, x. split; [reflexivity|]. split; [rewrite H0, <- app_assoc; reflexivity|].
    split; [rewrite app_length, rev_length; cbn [length]; lia|]. split; [reflexivity|]. split; [apply nth_app_new|]. split; reflexivity.
  - exists f, fs, (rev vs), r, x. split; [reflexivity|]. split; [exact H1|].
    split; [rewrite rev_length; reflexivity|]. split; [reflexivity|]. split; [apply nth_app_new|]. split; reflexivity.
  - exists f, fs, (rev vs), r, x. split; [reflexivity|]. split; [exact H0|].
    split; [rewrite rev_length; reflexivity|]. split; [reflexivity|]. split; [apply nth_app_new|]. split; reflexivity.
Qed.

Lemma grown_total l l' fs : grown l l' -> (forall k f, nth_error fs k = Some f -> exists x, nth_error l (f_act f) = Some x) -> total l' fs = total l fs.
Proof.
  intros HG. induction fs as [|f fs IH]; intros H; [reflexivity|]. cbn [total]. rewrite IH by (intros k g Hg; apply (H (S k) g Hg)).
  f_equal. destruct (H O f eq_refl) as (x & Hx). destruct (HG _ _ Hx) as (y & Hy & E). unfold frame_size. rewrite Hx, Hy.
  destruct E as (-> & _ & _ & -> & _). reflexivity.
Qed.

Lemma call_back s0 o s1 body s2 fin s3 n uv f fs x0 hp0 :
  rel s0 x0 hp0 -> frames s0 = f :: fs -> acts_as no_sibling s0 o s1 -> taken o = Some (n, uv) ->
  stays no_sibling (S (S (length fs))) s1 body s2 -> acts_as no_sibling s2 fin s3 -> fin = OReturn \/ fin = OUnwind ->
  length (frames s3) = S (length fs) ->
  exists r w, f_ops f = firstn (Z.to_nat n) (f_ops f) ++ r /\ Z.of_nat (length (f_ops f)) = n + Z.of_nat (length r) /\
    frames s3 = top_ops f ((match fin with OReturn => if uv then [w] else [] | _ => [] end) ++ r) :: fs /\
    grown (acts s0) (acts s3).
Proof.
  intros R E A0 T ST A3 HF HL.
  destruct (enters_shape _ _ _ _ _ _ A0 T) as (f' & fs' & ws & r & x & E0 & EO & EN & E1 & Ex & Rx & Ux).
  rewrite E in E0. injection E0 as <- <-.
  destruct (stays_below _ _ _ _ _ ST _ _ _ E1 ltac:(discriminate) eq_refl) as (p' & E2 & NE & LA). cbn [last f_act] in LA.
  assert (GR : grown (acts s0) (acts s3)).
  { eapply grown_trans; [eapply step_grown; exact A0|]. eapply grown_trans; [eapply runs_grown, stays_runs; exact ST|]. eapply step_grown; exact A3. }
  assert (X2 : exists y, nth_error (acts s2) (length (acts s0)) = Some y /\ a_use y = uv).
  { destruct (runs_grown _ _ _ _ (stays_runs _ _ _ _ _ ST) _ _ Ex) as (y & Hy & AL). exists y. split; [exact Hy|].
    destruct AL as (_ & -> & _). exact Ux. }
  exists r. destruct A3; try (exfalso; destruct HF; discriminate); cbn [frames acts] in *.
  - destruct X2 as (y & Hy & Uy). cbn [length] in HL.
    assert (L1 : length p' = 1%nat).
    { apply (f_equal (@length _)) in E2. rewrite app_length in E2. cbn [length] in E2. lia. }
    destruct p' as [|q [|? ?]]; try discriminate. cbn in E2, LA. injection E2 as -> -> ->. rewrite LA in H. 
    assert (x1 = y) by congruence. subst x1. exists w.
    split; [|split; [|split; [|exact GR]]].
    + rewrite EO. f_equal. rewrite firstn_app, firstn_all2 by lia. replace (Z.to_nat n - length ws)%nat with O by lia. cbn. rewrite app_nil_r. reflexivity.
    + rewrite EO, app_length. lia.
    + rewrite Uy. destruct uv; reflexivity.
  - assert (L1 : length p' = 1%nat).
    { apply (f_equal (@length _)) in E2. rewrite app_length in E2. cbn [length] in E2, HL. lia. }
    destruct p' as [|q [|? ?]]; try discriminate. cbn in E2, LA. injection E2 as -> -> ->. exists 0.
    split; [|split; [|split; [|exact GR]]].
    + rewrite EO. f_equal. rewrite firstn_app, firstn_all2 by lia. replace (Z.to_nat n - length ws)%nat with O by lia. cbn. rewrite app_nil_r. reflexivity.
    + rewrite EO, app_length. lia.
    + reflexivity.
Qed.

Lemma rel_frames s x hp0 : rel s x hp0 -> forall k f, nth_error (frames s) k = Some f -> exists y, nth_error (acts s) (f_act f) = Some y.
Proof.
  intros (A & L & K & OK & _) k f Hf. eapply (present_act (vo_static _ _ _ _ _ _ _ OK)).
  apply (live_present (fs := frames s) (K := K) k f Hf).
Qed.
