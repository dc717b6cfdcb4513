(* Frames: assigning a variable. *)
From Verif Require Import Base ModelValue ModelArray ModelFrame SpecFrame ProofsFrame ProofsFrame2 ProofsFrame3 ProofsFrame4 ProofsFrame5.

(* ---- two environments do not overlap ---- *)
Lemma live_inj l fs A L K B hp0 h tp j k f g : static l fs A L K B hp0 h tp ->
  nth_error fs j = Some f -> nth_error fs k = Some g -> f_act f = f_act g -> j = k.
Proof.
  intros ST H1 H2 E. pose proof (st_nodup _ _ _ _ _ _ _ _ _ ST) as N. rewrite NoDup_nth_error in N. apply N.
  - rewrite map_length. eapply nth_some_lt; eauto.
  - rewrite (map_nth_error f_act _ _ H1), (map_nth_error f_act _ _ H2). congruence.
Qed.
Lemma env_apart l fs A L K B hp0 h tp a b x y : static l fs A L K B hp0 h tp ->
  present fs K a -> present fs K b -> a <> b -> nth_error l a = Some x -> nth_error l b = Some y ->
  L a + hd_len x <= L b - nv y - 2 \/ L b + hd_len y <= L a - nv x - 2.
Proof.
  intros ST Pa Pb N Hx Hy.
  assert (HL : forall z, 3 <= hd_len z <= 8) by (intros z; unfold hd_len; destruct (a_ruby z); lia).
  pose proof (HL x). pose proof (HL y).
  pose proof (st_bot _ _ _ _ _ _ _ _ _ ST). pose proof (st_fit _ _ _ _ _ _ _ _ _ ST).
  destruct (env_place ST _ _ Pa Hx) as [(Ka & X1 & X2)|(Ka & X0 & X1 & X2)];
  destruct (env_place ST _ _ Pb Hy) as [(Kb & Y1 & Y2)|(Kb & Y0 & Y1 & Y2)]; try lia.
  - destruct (st_sep _ _ _ _ _ _ _ _ _ ST a b x y); auto; lia.
  - rewrite X0, Y0. destruct Pa as [(j & f & Hf & <-)|]; [|contradiction]. destruct Pb as [(k & g & Hg & <-)|]; [|contradiction].
    pose proof (st_lay _ _ _ _ _ _ _ _ _ ST) as La.
    destruct (Nat.lt_trichotomy j k) as [C|[C|C]].
    + right. destruct (lay_order _ _ _ _ _ j k f g x La C Hf Hg Hx) as (z & Hz & Hb).
      assert (z = y) by congruence. subst z. unfold nops in *. lia.
    + subst k. congruence.
    + left. destruct (lay_order _ _ _ _ _ k j g f y La C Hg Hf Hy) as (z & Hz & Hb).
      assert (z = x) by congruence. subst z. unfold nops in *. lia.
Qed.
(* nor does an environment overlap with another frame's words, or its own
   variables with its frame's *)
Lemma env_frame_apart l fs A L K B hp0 h tp a k g x y : static l fs A L K B hp0 h tp ->
  present fs K a -> nth_error fs k = Some g -> nth_error l a = Some x -> nth_error l (f_act g) = Some y ->
  forall p, L a - nv x - 2 <= p < L a + hd_len x -> (p < L a - 1 \/ a <> f_act g \/ K a) ->
  p < A (f_act g) - 1 \/ A (f_act g) + hd_len y + nops g <= p.
Proof.
  intros ST Pa Hg Hx Hy p Hp Hc.
  assert (HL : forall z, 3 <= hd_len z <= 8) by (intros z; unfold hd_len; destruct (a_ruby z); lia).
  pose proof (HL x). pose proof (HL y).
  pose proof (st_bot _ _ _ _ _ _ _ _ _ ST). pose proof (st_fit _ _ _ _ _ _ _ _ _ ST).
  pose proof (st_lay _ _ _ _ _ _ _ _ _ ST) as La.
  destruct (lay_bounds _ _ _ _ _ k g La Hg) as (z & Hz & Hb1 & Hb2). assert (z = y) by congruence. subst z.
  destruct (env_place ST _ _ Pa Hx) as [(Ka & X1 & X2)|(Ka & X0 & X1 & X2)]; [lia|].
  rewrite X0 in *. destruct Pa as [(j & f & Hf & <-)|]; [|contradiction].
  destruct (Nat.lt_trichotomy j k) as [C|[C|C]].
  - right. destruct (lay_order _ _ _ _ _ j k f g x La C Hf Hg Hx) as (z & Hz' & Hb).
    assert (z = y) by congruence. subst z. lia.
  - subst k. assert (f = g) by congruence. subst g. destruct Hc as [Hc|[Hc|Hc]]; [left; lia|congruence|contradiction].
  - left. destruct (lay_order _ _ _ _ _ k j g f y La C Hg Hf Hy) as (z & Hz' & Hb).
    assert (z = x) by congruence. subst z. assert (0 <= nv y) by (unfold nv; lia). unfold nops in *. lia.
Qed.

(* ---- activations that differ in the values of variables only ---- *)
Definition alike (x y : act) : Prop :=
  a_ruby y = a_ruby x /\ a_use y = a_use x /\ a_self y = a_self x /\ length (a_vars y) = length (a_vars x) /\
  a_parent y = a_parent x /\ a_iseq y = a_iseq x /\ a_blk y = a_blk x.
Definition alikes (l l' : list act) : Prop := Forall2 alike l l'.
Lemma alike_refl x : alike x x.
Proof. repeat split. Qed.
Lemma alike_sym x y : alike x y -> alike y x.
Proof. intros (H1 & H2 & H3 & H4 & H5 & H6 & H7). repeat split; congruence. Qed.
Lemma alikes_sym l l' : alikes l l' -> alikes l' l.
Proof. unfold alikes. induction 1; constructor; auto using alike_sym. Qed.
Lemma alikes_nth l l' : alikes l l' -> forall a y, nth_error l' a = Some y -> exists x, nth_error l a = Some x /\ alike x y.
Proof.
  unfold alikes. induction 1 as [|x y l l' H HF IH]; intros a z Hz; [destruct a; discriminate|].
  destruct a; cbn in *; [injection Hz as <-; eauto|auto].
Qed.
Lemma alikes_length l l' : alikes l l' -> length l' = length l.
Proof. unfold alikes. induction 1; cbn; congruence. Qed.
Lemma nth_put {T} (l : list T) a x b : (a < length l)%nat ->
  nth_error (put l a x) b = if Nat.eqb b a then Some x else nth_error l b.
Proof.
  intros H. unfold put. revert l b H. induction a as [|a IH]; intros l b H; (destruct l as [|z l]; [cbn in H; lia|]).
  - destruct b; reflexivity.
  - destruct b as [|b]; [reflexivity|]. cbn [firstn skipn app nth_error]. rewrite IH by (cbn in H; lia). reflexivity.
Qed.
Lemma put_length {T} (l : list T) a x : (a < length l)%nat -> length (put l a x) = length l.
Proof. intros H. unfold put. rewrite app_length, firstn_length. cbn [length]. rewrite skipn_length. lia. Qed.
Lemma put_alikes l a x y : nth_error l a = Some x -> alike x y -> alikes l (put l a y).
Proof.
  unfold alikes, put. revert a. induction l as [|z l IH]; intros a H HA; [destruct a; discriminate|].
  destruct a; cbn in *.
  - injection H as ->. constructor; [exact HA|]. clear. induction l; constructor; auto using alike_refl.
  - constructor; [apply alike_refl|]. apply IH; auto.
Qed.
Lemma set_var_alike x i w : (i < length (a_vars x))%nat -> alike x (set_var x i w).
Proof. intros H. unfold alike, set_var. cbn. rewrite put_length by exact H. repeat split. Qed.

Lemma up_alikes l l' : alikes l l' -> forall d a, up l' d a = up l d a.
Proof.
  intros HA. induction d as [|d IH]; intros a; [reflexivity|]. cbn [up].
  destruct (nth_error l' a) as [y|] eqn:E.
  - destruct (alikes_nth _ _ HA _ _ E) as (x & -> & H). destruct H as (_ & _ & _ & _ & -> & _).
    destruct (a_parent x); [apply IH|reflexivity].
  - apply nth_error_None in E. rewrite (alikes_length _ _ HA) in E. apply nth_error_None in E. rewrite E. reflexivity.
Qed.
Lemma within_alikes l l' a b : alikes l l' -> within l' a b <-> within l a b.
Proof. intros HA. unfold within. split; intros (d & H); exists d; rewrite (up_alikes _ _ HA) in *; exact H. Qed.
Lemma method_alikes l l' a b : alikes l l' -> method_of l' a b <-> method_of l a b.
Proof.
  intros HA. unfold method_of. rewrite (within_alikes _ _ _ _ HA). split; intros [W (x & Hx & N)]; (split; [exact W|]).
  - destruct (alikes_nth _ _ HA _ _ Hx) as (y & Hy & E). exists y. split; [exact Hy|]. destruct E as (_ & _ & _ & _ & E & _). congruence.
  - destruct (alikes_nth _ _ (alikes_sym _ _ HA) _ _ Hx) as (y & Hy & E). exists y. split; [exact Hy|].
    destruct E as (_ & _ & _ & _ & E & _). congruence.
Qed.
Lemma code_alikes l l' a : alikes l l' -> is_code l a -> is_code l' a.
Proof.
  intros HA (x & Hx & R). destruct (alikes_nth _ _ (alikes_sym _ _ HA) _ _ Hx) as (y & Hy & E).
  exists y. split; [exact Hy|]. destruct E as (E & _). congruence.
Qed.
Lemma alike_nv x y : alike x y -> nv y = nv x.
Proof. intros (_ & _ & _ & E & _). unfold nv. congruence. Qed.
Lemma alike_hd x y : alike x y -> hd_len y = hd_len x.
Proof. intros (E & _). unfold hd_len. rewrite E. reflexivity. Qed.
Lemma alike_flag x y : alike x y -> flag_of y = flag_of x.
Proof. intros H. unfold flag_of. rewrite (alike_nv _ _ H). destruct H as (-> & -> & _). reflexivity. Qed.
Lemma lay_alikes l l' A B fs : alikes l l' -> forall tp, lay l A B fs tp -> lay l' A B fs tp.
Proof.
  intros HA. induction fs as [|f fs IH]; intros tp H; cbn in *; [exact H|]. destruct H as (x & Hx & Ht & H).
  destruct (alikes_nth _ _ (alikes_sym _ _ HA) _ _ Hx) as (y & Hy & E). apply alike_sym in E. exists y. split; [exact Hy|].
  rewrite (alike_hd _ _ E), (alike_nv _ _ E). auto.
Qed.
Lemma static_alikes l l' fs A L K B hp0 h tp : alikes l l' ->
  static l fs A L K B hp0 h tp -> static l' fs A L K B hp0 h tp.
Proof.
  intros HA []. pose proof (alikes_nth _ _ HA) as HN.
  constructor; auto.
  - eapply lay_alikes; eauto.
  - intros k f y p Hf Hy Hp. destruct (HN _ _ Hy) as (x & Hx & E). destruct E as (_ & _ & _ & _ & E & _). rewrite E in Hp. eauto.
  - intros a y p HK Hy Hp. destruct (HN _ _ Hy) as (x & Hx & E). destruct E as (_ & _ & _ & _ & E & _). rewrite E in Hp. eauto.
  - intros a HK. eapply code_alikes; eauto.
  - intros a y Hy. destruct (HN _ _ Hy) as (x & Hx & E). rewrite (alike_nv _ _ E). eauto.
  - intros a y Hy R. destruct (HN _ _ Hy) as (x & Hx & E). destruct E as (E1 & _ & _ & _ & _ & E & _). rewrite E. apply (st_code a); congruence.
  - intros a y p Hy Hp. destruct (HN _ _ Hy) as (x & Hx & E). destruct E as (E1 & _ & _ & _ & E & _). rewrite E in Hp.
    destruct (st_parent _ _ _ Hx Hp) as (P1 & P2 & P3). split; [exact P1|]. split; [eapply code_alikes; eauto|congruence].
  - intros a y t b Hy Hb. destruct (HN _ _ Hy) as (x & Hx & E). destruct E as (_ & _ & _ & _ & _ & _ & E). rewrite E in Hb.
    destruct (st_blk _ _ _ _ Hx Hb) as (P1 & P2). split; [exact P1|eapply code_alikes; eauto].
  - intros a. rewrite (alikes_length _ _ HA). auto.
  - intros a y HK Hy. destruct (HN _ _ Hy) as (x & Hx & E). rewrite (alike_nv _ _ E). eauto.
  - intros a b y y' Ka Kb N Hy Hy'. destruct (HN _ _ Hy) as (x & Hx & E). destruct (HN _ _ Hy') as (x' & Hx' & E').
    rewrite (alike_nv _ _ E), (alike_nv _ _ E'). eauto.
  - destruct st_zero as (x0 & H0 & R0). destruct (alikes_nth _ _ (alikes_sym _ _ HA) _ _ H0) as (y & Hy & E).
    exists y. split; [exact Hy|]. destruct E as (E & _). congruence.
Qed.

Lemma vmok_set s l fs A L K hp0 a x i w :
  vmok s l fs A L K hp0 -> present fs K a -> nth_error l a = Some x -> (i < length (a_vars x))%nat ->
  vmok (set_mem (fun m => upd m (L a - nv x - 1 + Z.of_nat i) w) s) (put l a (set_var x i w)) fs A L K hp0.
Proof.
  intros [ST MO C1 C2 C3] Pa Hx Hi.
  set (x' := set_var x i w). set (p := L a - nv x - 1 + Z.of_nat i).
  assert (AL : alike x x') by (apply set_var_alike; exact Hi).
  assert (ALS : alikes l (put l a x')) by (eapply put_alikes; eauto).
  pose proof (alikes_nth _ _ ALS) as HN.
  pose proof (nth_some_lt _ _ _ Hx) as La.
  assert (HL : forall z, 3 <= hd_len z <= 8) by (intros z; unfold hd_len; destruct (a_ruby z); lia).
  pose proof (HL x) as HLx.
  assert (Rp : L a - nv x - 2 < p < L a - 1) by (unfold p, nv in *; lia).
  constructor; cbn [mem set_mem stack_bottom hp sp cfp lfp iseq pc].
  - eapply static_alikes; eauto.
  - constructor.
    + intros k f y Hf Hy. destruct (HN _ _ Hy) as (z & Hz & E).
      pose proof (mo_fr _ _ _ _ _ _ _ _ MO _ _ _ Hf Hz) as G.
      apply (fr_ext (mem s)).
      * intros q Hq. apply upd_other. intros ->. rewrite (alike_hd _ _ E) in Hq.
        destruct (env_frame_apart _ _ _ _ _ _ _ _ _ a k f x z ST Pa Hf Hx Hz p); lia.
      * destruct G as [G1 G2 G3 G4 G5 G6]. constructor; auto.
        -- rewrite (alike_flag _ _ E). exact G3.
        -- destruct E as (-> & _). exact G4.
        -- rewrite (alike_hd _ _ E). exact G5.
        -- destruct E as (_ & _ & -> & _). exact G6.
    + intros b y Pb Hy. destruct (HN _ _ Hy) as (z & Hz & E).
      pose proof (mo_env _ _ _ _ _ _ _ _ MO _ _ Pb Hz) as [G1 G2 G3 G4 G5 G6 G7].
      destruct (Nat.eq_dec b a) as [->|N].
      * assert (z = x) by congruence. subst z. rewrite nth_put, Nat.eqb_refl in Hy by exact La. injection Hy as <-.
        unfold EV_EP, EV_FLAG, EV_ISEQ, EV_BLK in *.
        constructor; unfold EV_EP, EV_FLAG, EV_ISEQ, EV_BLK; rewrite ?(alike_nv _ _ AL), ?(alike_flag _ _ AL).
        -- rewrite upd_other by lia. exact G1.
        -- rewrite upd_other by lia. exact G2.
        -- rewrite upd_other by lia. exact G3.
        -- intros N0. rewrite upd_other by lia. exact (G4 N0).
        -- intros j u Hj. unfold x', set_var in Hj. cbn [a_vars] in Hj. rewrite nth_put in Hj by exact Hi.
           destruct (Nat.eqb_spec j i) as [->|Nj].
           ++ injection Hj as <-. apply upd_same.
           ++ rewrite upd_other by (unfold p; lia). auto.
        -- intros R. rewrite upd_other by lia. exact (G6 R).
        -- intros R. rewrite upd_other by lia. exact (G7 R).
      * rewrite nth_put in Hy by exact La. destruct (Nat.eqb_spec b a); [contradiction|].
        assert (z = y) by congruence. subst z.
        apply (env_ext (mem s)); [|constructor; auto]. intros q Hq _. apply upd_other. intros ->.
        pose proof (HL y). destruct (env_apart _ _ _ _ _ _ _ _ _ a b x y ST Pa Pb ltac:(auto) Hx Hz); lia.
    + intros b y Pb NP Hy R. destruct (HN _ _ Hy) as (z & Hz & E).
      assert (Rz : a_ruby z = true) by (destruct E as (E & _); congruence).
      pose proof (mo_link _ _ _ _ _ _ _ _ MO _ _ Pb NP Hz Rz) as [G1 G2].
      assert (Q : forall j, 0 <= j < 8 -> upd (mem s) p w (L b + j) = mem s (L b + j)).
      { intros j Hj. apply upd_other. destruct (Nat.eq_dec b a) as [->|N]; [lia|].
        destruct (env_apart _ _ _ _ _ _ _ _ _ a b x z ST Pa Pb ltac:(auto) Hx Hz) as [C|C]; unfold nv, hd_len in *; rewrite ?Rz in *; lia. }
      constructor.
      * unfold EV_OUTER in *. rewrite Q by lia. rewrite G1. destruct E as (_ & _ & _ & _ & -> & _). reflexivity.
      * intros rt M. unfold EV_MFP in *. rewrite Q by lia. apply G2. apply (method_alikes _ _ _ _ ALS). exact M.
  - exact C1.
  - intros f y Hf N Hy. destruct (HN _ _ Hy) as (z & Hz & E). rewrite (alike_nv _ _ E). auto.
  - intros f y Hf Hy R. destruct (HN _ _ Hy) as (z & Hz & E). destruct E as (E1 & _ & _ & _ & _ & -> & _). apply C3; congruence.
Qed.
