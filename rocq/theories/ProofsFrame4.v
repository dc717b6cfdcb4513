(* Frames: changes of the innermost frame, leaving a frame, entering one. *)
From Verif Require Import Base ModelValue ModelArray ModelFrame SpecFrame ProofsFrame ProofsFrame2 ProofsFrame3.

(* ---- memory that agrees ---- *)
Lemma env_ext m m' A L B a x : (forall p, L a - nv x - 2 <= p < L a + hd_len x -> p <> L a + 5 -> m' p = m p) ->
  env_ok m A L B a x -> env_ok m' A L B a x.
Proof.
  intros H [E1 E2 E3 E4 E5 E6 E7]. unfold hd_len, EV_EP, EV_FLAG, EV_ISEQ, EV_BLK in *.
  assert (0 <= nv x) by (unfold nv; lia). constructor; unfold EV_EP, EV_FLAG, EV_ISEQ, EV_BLK.
  - rewrite H; [exact E1| |]; destruct (a_ruby x); lia.
  - rewrite H; [exact E2| |]; destruct (a_ruby x); lia.
  - rewrite H; [exact E3| |]; destruct (a_ruby x); lia.
  - intros N. rewrite H; [auto| |]; destruct (a_ruby x); lia.
  - intros i w E. assert (i < length (a_vars x))%nat by (apply nth_error_Some; congruence).
    rewrite H; [auto| |]; unfold nv in *; destruct (a_ruby x); lia.
  - intros R. rewrite R in H. rewrite H; [auto| |]; lia.
  - intros R. rewrite R in H. rewrite H; [auto| |]; lia.
Qed.
Lemma link_ext m m' L l a x : m' (L a + EV_OUTER) = m (L a + EV_OUTER) -> m' (L a + EV_MFP) = m (L a + EV_MFP) ->
  link_ok m L l a x -> link_ok m' L l a x.
Proof. intros H1 H2 [E1 E2]. constructor; [congruence|]. intros r M. rewrite H2. auto. Qed.
Lemma fr_ext m m' A L k b f x : (forall p, A (f_act f) - 1 <= p < A (f_act f) + hd_len x + nops f -> m' p = m p) ->
  fr_ok m A L k b f x -> fr_ok m' A L k b f x.
Proof.
  intros H [E1 E2 E3 E4 E5 E6]. unfold hd_len, nops, EV_EP, EV_FLAG, EV_PC, EV_PREV_CFP in *.
  constructor; unfold EV_EP, EV_FLAG, EV_PC, EV_PREV_CFP, hd_len, nops.
  - rewrite H; [exact E1|]. destruct (a_ruby x); lia.
  - rewrite H; [exact E2|]. destruct (a_ruby x); lia.
  - rewrite H; [exact E3|]. destruct (a_ruby x); lia.
  - intros R N. rewrite H; [auto|]. rewrite R. lia.
  - intros j w E. rewrite H; [auto|]. assert (j < length (f_ops f))%nat by (apply nth_error_Some; congruence).
    destruct (a_ruby x); lia.
  - rewrite H; [exact E6|]. destruct (a_ruby x); lia.
Qed.

(* ---- another innermost frame of the same activation ---- *)
Lemma livef_top f f' fs a : f_act f' = f_act f -> livef (f :: fs) a -> livef (f' :: fs) a.
Proof.
  intros E (k & g & H & <-). destruct k as [|k]; cbn in H.
  - injection H as <-. exists O, f'. auto.
  - exists (S k), g. auto.
Qed.
Lemma static_top l f f' fs A L K B hp0 h tp tp' x :
  static l (f :: fs) A L K B hp0 h tp -> f_act f' = f_act f -> nth_error l (f_act f) = Some x ->
  tp' = A (f_act f) + hd_len x + nops f' -> tp' <= B + 8192 -> 0 <= f_pc f' < 2 ^ 62 ->
  static l (f' :: fs) A L K B hp0 h tp'.
Proof.
  intros [] E Hx Ht Hf Hp. constructor; auto.
  - destruct st_lay as (y & Hy & _ & Hl). rewrite Hx in Hy. injection Hy as <-. exists x. rewrite E. auto.
  - cbn in *. rewrite E. auto.
  - intros k g y p Hg Hy Hpa. assert (S : exists g', nth_error (f :: fs) k = Some g' /\ f_act g' = f_act g).
    { destruct k; cbn in *; [injection Hg as <-; exists f; auto|exists g; auto]. }
    destruct S as (g' & Hg' & Eg). rewrite <- Eg in Hy. destruct (st_par _ _ _ _ Hg' Hy Hpa) as [C|(j & q & J & Hq & Eq)]; [left; exact C|].
    right. destruct j; [lia|]. exists (S j), q. auto.
  - intros a La. apply st_loc. eapply livef_top; [|exact La]. auto.
  - intros k g Hg. destruct k; cbn in Hg; [injection Hg as <-; exact Hp|]. apply (st_pc (S k)). exact Hg.
  - destruct st_last as (f0 & H0 & E0). cbn [length] in *.
    destruct fs as [|g r]; [cbn in *; injection H0 as <-; exists f'; split; [reflexivity|congruence]|].
    exists f0. split; [|exact E0]. replace (S (length (g :: r)) - 1)%nat with (S (length r)) in * by (cbn; lia). exact H0.
Qed.

Lemma vmok_top s s' l f f' fs A L K hp0 x :
  vmok s l (f :: fs) A L K hp0 -> f_act f' = f_act f -> nth_error l (f_act f) = Some x ->
  stack_bottom s' = stack_bottom s -> hp s' = hp s -> cfp s' = cfp s -> lfp s' = lfp s -> iseq s' = iseq s ->
  (a_ruby x = true -> pc s' = f_pc f') ->
  sp s' = A (f_act f) + hd_len x + nops f' -> sp s' <= stack_bottom s + 8192 -> 0 <= f_pc f' < 2 ^ 62 ->
  (forall p, stack_bottom s - 1 <= p < A (f_act f) + hd_len x \/ hp0 <= p < hp s -> mem s' p = mem s p) ->
  (forall j w, nth_error (f_ops f') j = Some w -> mem s' (sp s' - 1 - Z.of_nat j) = w) ->
  vmok s' l (f' :: fs) A L K hp0.
Proof.
  intros [ST MO C1 C2 C3] E Hx E1 E2 E3 E4 E5 E6 Hsp Hfit Hpc Hm Ho.
  assert (ST' : static l (f' :: fs) A L K (stack_bottom s) hp0 (hp s) (sp s')).
  { eapply static_top; eauto. }
  assert (NV : 0 <= nv x) by (unfold nv; lia).
  constructor.
  - rewrite E1, E2. exact ST'.
  - rewrite E1. constructor.
    + intros k g y Hg Hy. destruct k as [|k]; cbn [nth_error] in Hg.
      * injection Hg as <-. rewrite E in Hy. assert (y = x) by congruence. subst y.
        pose proof (mo_fr _ _ _ _ _ _ _ _ MO O f x eq_refl Hx) as F. cbn [nth_error] in *. destruct F as [F1 F2 F3 F4 F5 F6].
        assert (B : stack_bottom s - 1 <= A (f_act f) - nv x - 2).
        { destruct (lay_bounds _ _ _ _ _ O f (st_lay _ _ _ _ _ _ _ _ _ ST) eq_refl) as (z & Hz & Hb & _). congruence. }
        unfold EV_EP, EV_FLAG, EV_PC, EV_PREV_CFP, hd_len in *.
        constructor; rewrite ?E; unfold EV_EP, EV_FLAG, EV_PC, EV_PREV_CFP.
        -- rewrite Hm; [exact F1|]. destruct (a_ruby x); lia.
        -- rewrite Hm; [exact F2|]. destruct (a_ruby x); lia.
        -- rewrite Hm; [exact F3|]. destruct (a_ruby x); lia.
        -- intros _ N. congruence.
        -- intros j w Hj. unfold hd_len. rewrite <- Hsp. apply Ho. exact Hj.
        -- rewrite Hm; [exact F6|]. destruct (a_ruby x); lia.
      * pose proof (mo_fr _ _ _ _ _ _ _ _ MO (S k) g y Hg Hy) as F. cbn [nth_error] in *.
        revert F. apply fr_ext. intros p Hp. apply Hm. left.
        destruct (lay_order _ _ _ _ _ O (S k) f g x (st_lay _ _ _ _ _ _ _ _ _ ST) ltac:(lia) eq_refl Hg Hx) as (z & Hz & Hb).
        assert (z = y) by congruence. subst z.
        destruct (lay_bounds _ _ _ _ _ (S k) g (st_lay _ _ _ _ _ _ _ _ _ ST) Hg) as (z & Hz' & Hb' & _).
        assert (z = y) by congruence. subst z. unfold hd_len, nv, nops in *. destruct (a_ruby x); lia.
    + intros a y Pa Hy. assert (Pa' : present (f :: fs) K a).
      { destruct Pa as [Pa|Pa]; [left|right; exact Pa]. eapply livef_top; [|exact Pa]. auto. }
      pose proof (mo_env _ _ _ _ _ _ _ _ MO _ _ Pa' Hy) as F. revert F. apply env_ext. intros p Hp _. apply Hm.
      destruct (env_place ST _ _ Pa' Hy) as [(HK & H1 & H2)|(HK & H0 & H1 & H2)].
      * right. unfold hd_len in Hp. destruct (a_ruby y); lia.
      * left. rewrite H0 in Hp. destruct Pa' as [(k & g & Hg & <-)|Pa']; [|contradiction].
        destruct k as [|k]; cbn [nth_error] in Hg.
        { injection Hg as <-. assert (y = x) by congruence. subst y. lia. }
        destruct (lay_order _ _ _ _ _ O (S k) f g x (st_lay _ _ _ _ _ _ _ _ _ ST) ltac:(lia) eq_refl Hg Hx) as (z & Hz & Hb).
        assert (z = y) by congruence. subst z. unfold hd_len, nv, nops in *. destruct (a_ruby x); lia.
    + intros a y Pa NP Hy R. assert (Pa' : present (f :: fs) K a).
      { destruct Pa as [Pa|Pa]; [left|right; exact Pa]. eapply livef_top; [|exact Pa]. auto. }
      pose proof (mo_link _ _ _ _ _ _ _ _ MO _ _ Pa' NP Hy R) as F.
      assert (G : forall p, L a <= p < L a + 8 -> mem s' p = mem s p).
      { intros p Hp. apply Hm. assert (0 <= nv y) by (unfold nv; lia).
        destruct (env_place ST _ _ Pa' Hy) as [(HK & H1 & H2)|(HK & H0 & H1 & H2)]; [right; lia|].
        left. rewrite H0 in Hp. destruct Pa' as [(k & g & Hg & <-)|Pa']; [|contradiction].
        destruct k as [|k]; cbn [nth_error] in Hg.
        { injection Hg as <-. assert (y = x) by congruence. subst y. unfold hd_len. rewrite R. lia. }
        destruct (lay_order _ _ _ _ _ O (S k) f g x (st_lay _ _ _ _ _ _ _ _ _ ST) ltac:(lia) eq_refl Hg Hx) as (z & Hz & Hb).
        assert (z = y) by congruence. subst z. unfold hd_len, nv, nops in *. rewrite R in Hb. destruct (a_ruby x); lia. }
      revert F. apply link_ext; apply G; unfold EV_OUTER, EV_MFP; lia.
  - intros g [= <-]. rewrite E, E3. apply C1. reflexivity.
  - intros g y [= <-] N Hy. rewrite E4, E in *. apply C2; auto.
  - intros g y [= <-] Hy R. rewrite E in Hy. rewrite E5. assert (y = x) by congruence. subst y.
    split; [eapply C3; eauto; reflexivity|auto].
Qed.

(* ---- leaving a frame ---- *)
Lemma livef_tl f fs a : livef fs a -> livef (f :: fs) a.
Proof. intros (k & g & H & E). exists (S k), g. auto. Qed.
Lemma static_pop l f g fs A L K B hp0 h tp x :
  static l (f :: g :: fs) A L K B hp0 h tp -> nth_error l (f_act f) = Some x ->
  static l (g :: fs) A L K B hp0 h (A (f_act f) - nv x - 2).
Proof.
  intros [] Hx. constructor; auto.
  - destruct st_lay as (y & Hy & _ & Hl). rewrite Hx in Hy. injection Hy as <-. exact Hl.
  - destruct st_lay as (y & Hy & Ht & _). unfold nv, hd_len, nops in *. destruct (a_ruby y); lia.
  - inversion st_nodup; auto.
  - intros k q y p Hq Hy Hp. destruct (st_par (S k) q y p Hq Hy Hp) as [C|(j & r & J & Hr & Er)]; [left; exact C|].
    right. destruct j; [lia|]. exists j, r. repeat split; auto. lia.
  - intros a La. apply st_loc. apply livef_tl. exact La.
  - intros k q Hq. apply (st_pc (S k)). exact Hq.
  - destruct st_last as (f0 & H0 & E0). cbn [length] in *. replace (S (S (length fs)) - 1)%nat with (S (length fs)) in * by lia.
    exists f0. split; [|exact E0]. replace (S (length fs) - 1)%nat with (length fs) by lia. exact H0.
Qed.
Lemma memok_pop m l f g fs A L K P B : memok m l (f :: g :: fs) A L K P B -> memok m l (g :: fs) A L K P B.
Proof.
  intros [M1 M2 M3]. constructor.
  - intros k q x Hq Hx. pose proof (M1 (S k) q x Hq Hx) as [F1 F2 F3 F4 F5 F6]. constructor; auto.
  - intros a x [Pa|Pa] Hx; apply M2; auto; [left; apply livef_tl; exact Pa|right; exact Pa].
  - intros a x [Pa|Pa] N Hx R; apply M3; auto; [left; apply livef_tl; exact Pa|right; exact Pa].
Qed.
(* the registers after leaving the frame [f] for [g] *)
Lemma vmok_pop s s' l f g fs A L K hp0 x :
  vmok s l (f :: g :: fs) A L K hp0 -> nth_error l (f_act f) = Some x ->
  mem s' = mem s -> stack_bottom s' = stack_bottom s -> hp s' = hp s ->
  sp s' = A (f_act f) - nv x - 2 -> cfp s' = A (f_act g) ->
  (forall y, nth_error l (f_act g) = Some y -> lfp s' = L (f_act g) - nv y - 1 /\
     (a_ruby y = true -> iseq s' = a_iseq y /\ pc s' = f_pc g)) ->
  vmok s' l (g :: fs) A L K hp0.
Proof.
  intros [ST MO _ _ _] Hx Em Eb Eh Es Ec Hl. constructor.
  - rewrite Eb, Eh, Es. eapply static_pop; eauto.
  - rewrite Em, Eb. eapply memok_pop; eauto.
  - intros q [= <-]. exact Ec.
  - intros q y [= <-] _ Hy. apply Hl. exact Hy.
  - intros q y [= <-] Hy. apply Hl. exact Hy.
Qed.
Lemma unwind_vmok s l f g fs A L K hp0 :
  vmok s l (f :: g :: fs) A L K hp0 ->
  exists s', unwind_frame s = Ok s' /\ vmok s' l (g :: fs) A L K hp0 /\ mem s' = mem s /\ stack_bottom s' = stack_bottom s /\ hp s' = hp s.
Proof.
  intros OK. pose proof OK as [ST MO C1 C2 C3].
  destruct (present_act ST _ (live_present (fs := f :: g :: fs) (K := K) O f eq_refl)) as (x & Hx).
  destruct (present_act ST _ (live_present (fs := f :: g :: fs) (K := K) 1%nat g eq_refl)) as (y & Hy).
  unfold unwind_frame. rewrite (C1 f eq_refl). rewrite (prev_live ST MO O f g eq_refl eq_refl). cbn [unwrap rbind].
  unfold get_prev_sp. cbn [mem set_cfp set_sp stack_bottom hp sp cfp lfp iseq pc].
  rewrite (flag_live MO O f x eq_refl Hx). rewrite (ep_live ST MO 1%nat g eq_refl). cbn [rbind].
  cbn [mem set_lfp set_cfp set_sp stack_bottom hp sp cfp lfp iseq pc].
  rewrite (ruby_live MO 1%nat g y eq_refl Hy).
  pose proof (live_present (K := K) 1%nat g (eq_refl : nth_error (f :: g :: fs) 1 = Some g)) as Pg.
  rewrite (lfp_env MO _ _ Pg Hy).
  destruct (a_ruby y) eqn:R.
  - rewrite (frame_iseq_of _ _ y (a_iseq y)); auto.
    + cbn [rbind]. unfold frame_pc. rewrite (fr_pc _ _ _ _ _ _ _ (mo_fr _ _ _ _ _ _ _ _ MO 1%nat g y eq_refl Hy) R ltac:(lia)).
      rewrite fix_roundtrip by (apply (st_pc _ _ _ _ _ _ _ _ _ ST 1%nat g eq_refl)).
      eexists. split; [reflexivity|]. split; [|cbn; auto].
      eapply vmok_pop; eauto; try reflexivity. intros z Hz. assert (z = y) by congruence. subst z. cbn. auto.
    + eapply en_flag, mo_env; eauto.
    + eapply st_code; eauto.
    + eapply en_iseq; [eapply mo_env; eauto|exact R].
  - eexists. split; [reflexivity|]. split; [|cbn; auto].
    eapply vmok_pop; eauto; try reflexivity. intros z Hz. assert (z = y) by congruence. subst z. cbn. split; [reflexivity|congruence].
Qed.
