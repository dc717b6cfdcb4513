(* What every step leaves alone: classes among the ancestors, constants. *)
From Verif Require Import Base ProofsBase ModelArray ProofsArray ModelGC ProofsGC ModelClass SpecClass ProofsClass ProofsClass2 ProofsClass3 ProofsClass4 ProofsClass5 ProofsClass6 ProofsClass7 ProofsClass8 ProofsRaise.

Definition sees (w : world) (x t : Z) (l : list Z) : Prop := exists y, In y (x :: l) /\ (y = x \/ hp w y = false) /\ real w y = t.
Lemma sees_in w x t l : In t (map (real w) (x :: vis w l)) <-> sees w x t l.
Proof.
  split.
  - intros H. apply in_map_iff in H. destruct H as (y & E & [<-|H]).
    + exists x. split; [left; reflexivity|]. auto.
    + unfold vis in H. apply filter_In in H. destruct H as [H1 H2]. apply Bool.negb_true_iff in H2. exists y. split; [right; exact H1|]. auto.
  - intros (y & H & V & E). apply in_map_iff. exists y. split; [exact E|]. destruct H as [<-|H]; [left; reflexivity|]. destruct V as [->|V]; [left; reflexivity|].
    right. unfold vis. apply filter_In. split; [exact H|]. rewrite V. reflexivity.
Qed.
(* x is an older module, t an older class *)
Definition keeps_class (w w' : world) : Prop := forall x t l l', mods w x <> None -> mods w t <> None -> modp w t = false ->
  raw w x l -> raw w' x l' -> (sees w' x t l' <-> sees w x t l).
Definition keeps_mods (w w' : world) : Prop := forall x, mods w x <> None -> mods w' x <> None /\ modp w' x = modp w x /\ inc w' x = inc w x /\ single w' x = single w x.

Lemma kc_same w w' : mods w' = mods w -> (forall e, e_origin (exts w' e) = e_origin (exts w e) /\ is_singleton (exts w' e) = is_singleton (exts w e)) -> keeps_class w w' /\ keeps_mods w w'.
Proof.
  intros EM EO. assert (R : forall x, real w' x = real w x) by (intros x; unfold real, inc, xt; rewrite EM, (proj1 (EO _)); reflexivity). split.
  - intros x t l l' _ _ _ A B. assert (B' : raw w x l') by (eapply links_ext; [|exact B]; intros y _; unfold up; rewrite EM; reflexivity).
    assert (l = l') by (eapply links_det; [exact A|exact B']). subst l'. unfold sees, hp. split; intros (y & H1 & H2 & H3); exists y; [rewrite <- R|rewrite R]; rewrite EM in *; auto.
  - intros x H. unfold modp, inc, single. rewrite EM, (proj2 (EO _)). auto.
Qed.
Lemma kc_agree w w' : Wf w -> (forall x, mods w x <> None -> mods w' x = mods w x) -> (forall x, mods w x <> None -> exts w' (xt w x) = exts w (xt w x)) -> keeps_class w w' /\ keeps_mods w w'.
Proof.
  intros W MO XO. split.
  - intros x t l l' Hx _ _ A B. assert (B' : raw w' x l) by (apply (agree_raw w w' x l MO A)). assert (l' = l) by (eapply links_det; [exact B|exact B']). subst l'.
    assert (ALL : forall y, In y (x :: l) -> mods w y <> None) by (intros y Hy; eapply raw_mods; eassumption).
    assert (R : forall y, In y (x :: l) -> real w' y = real w y).
    { intros y Hy. specialize (ALL y Hy). pose proof (XO y ALL) as X. unfold real, inc, xt in *. rewrite MO by exact ALL. rewrite X. reflexivity. }
    unfold sees, hp. split; intros (y & H1 & H2 & H3); exists y; (split; [exact H1|]); rewrite (MO y (ALL y H1)) in *; rewrite (R y H1) in *; auto.
  - intros x Hx. unfold modp, inc. rewrite !single_xt. replace (xt w' x) with (xt w x) by (unfold xt; rewrite MO by exact Hx; reflexivity). rewrite (XO x Hx). rewrite MO by exact Hx. auto.
Qed.
Lemma kc_insert w w' c ns : Wf w -> mods w c <> None -> inc w c = false -> Inserted w w' c ns ->
  (forall x, mods w x <> None -> x <> c -> hp w' x = hp w x) ->
  (forall n, In n ns -> modp w (real w' n) = true \/ (real w' n = c /\ hp w c = false /\ hp w' n = false)) ->
  hp w' c = hp w c \/ (hp w c = false /\ exists d, In d ns /\ real w' d = c /\ hp w' d = false) -> keeps_class w w' /\ keeps_mods w w'.
Proof.
  intros W Hc Hci X HH HN HC.
  assert (MP : forall x, mods w x <> None -> modp w' x = modp w x /\ inc w' x = inc w x).
  { intros x Hx. destruct (Z.eq_dec x c) as [->|Hne]; [destruct (i_self _ _ _ _ X) as (_ & A & B & _); auto|].
    split; [apply att_modp|apply att_inc]; apply (i_old _ _ _ _ X); assumption. }
  assert (SX : forall x, mods w x <> None -> single w' x = single w x).
  { intros x Hx. rewrite !single_xt. replace (xt w' x) with (xt w x); [apply (i_exts _ _ _ _ X)|]. symmetry. destruct (Z.eq_dec x c) as [->|Hne]; [apply (i_self _ _ _ _ X)|apply att_xt; apply (i_old _ _ _ _ X); assumption]. }
  split; [|intros x Hx; split; [apply (i_dom _ _ _ _ X); left; exact Hx|]; split; [apply MP; exact Hx|]; split; [apply MP; exact Hx|apply SX; exact Hx]].
  intros x t l l' Hx Ht Htm A B.
  assert (El : l' = tl (expand c ns (x :: l))) by (eapply links_det; [exact B|apply (inserted_raw _ _ _ _ _ _ X A)]). subst l'.
  assert (ALL : forall y, In y (x :: l) -> mods w y <> None) by (intros y Hy; eapply raw_mods; eassumption).
  assert (MEM : forall y, In y (x :: tl (expand c ns (x :: l))) <-> In y (x :: l) \/ (In c (x :: l) /\ In y ns)).
  { assert (EX : x :: tl (expand c ns (x :: l)) = expand c ns (x :: l)) by (rewrite expand_cons; destruct (Z.eqb_spec x c) as [->|]; reflexivity).
    rewrite EX. intros y. unfold expand. rewrite in_flat_map. split.
    - intros (z & Hz & Hy). destruct (Z.eqb_spec z c) as [->|]; [destruct Hy as [<-|Hy]; auto|destruct Hy as [<-|[]]; auto].
    - intros [Hy|[Hz Hy]].
      + exists y. split; [exact Hy|]. destruct (Z.eqb_spec y c) as [->|]; left; reflexivity.
      + exists c. split; [exact Hz|]. rewrite Z.eqb_refl. right. exact Hy. }
  assert (RC : real w c = c) by (unfold real; rewrite Hci; reflexivity).
  split.
  - intros (y & H1 & H2 & H3). apply MEM in H1. destruct H1 as [H1|[H1 H1']].
    + rewrite (i_real _ _ _ _ X y (ALL y H1)) in H3. exists y. split; [exact H1|]. split; [|exact H3]. destruct H2 as [->|H2]; [left; reflexivity|].
      destruct (Z.eq_dec y c) as [->|Hne]; [|right; rewrite <- HH; auto]. right. destruct HC as [HC|[HC _]]; congruence.
    + destruct (HN y H1') as [E|(E1 & E2 & E3)]; [rewrite H3 in E; congruence|]. exists c. split; [exact H1|]. split; [right; exact E2|]. congruence.
  - intros (y & H1 & H2 & H3). destruct H2 as [->|H2]; [exists x; split; [left; reflexivity|]; split; [left; reflexivity|]; rewrite (i_real _ _ _ _ X x Hx); exact H3|].
    destruct (Z.eq_dec y c) as [->|Hne].
    + destruct HC as [HC|(HC & d & D1 & D2 & D3)].
      * exists c. split; [apply MEM; left; exact H1|]. split; [right; congruence|]. rewrite (i_real _ _ _ _ X c Hc). exact H3.
      * exists d. split; [apply MEM; right; auto|]. split; [right; exact D3|]. congruence.
    + exists y. split; [apply MEM; left; exact H1|]. split; [right; rewrite HH; auto|]. rewrite (i_real _ _ _ _ X y (ALL y H1)). exact H3.
Qed.
Definition keeps_const (w w' : world) (o : op) : Prop := forall i x, user_mod w x = true -> (forall v, o <> SetConst x i v) -> own_const w' i x = own_const w i x.
Lemma kk_same w w' o : mods w' = mods w -> (forall e, ctab (exts w' e) = ctab (exts w e)) -> keeps_const w w' o.
Proof. intros EM EO i x Hu _. unfold own_const. rewrite EM. destruct (mods w x); [rewrite EO|]; reflexivity. Qed.
Lemma kk_agree w w' o : (forall x, mods w x <> None -> mods w' x = mods w x) -> (forall x, mods w x <> None -> exts w' (xt w x) = exts w (xt w x)) -> keeps_const w w' o.
Proof. intros MO XO i x Hu _. pose proof (proj1 (user_mod_ok w x Hu)) as Hx. specialize (XO x Hx). unfold own_const, xt in *. rewrite MO by exact Hx. destruct (mods w x); [|reflexivity]. rewrite XO. reflexivity. Qed.

Lemma inc_keeps w : keeps_class w (inc_version w) /\ keeps_mods w (inc_version w).
Proof. apply kc_same; auto. Qed.
Lemma kc_inc w w2 : keeps_class w w2 /\ keeps_mods w w2 -> keeps_class w (inc_version w2) /\ keeps_mods w (inc_version w2).
Proof.
  intros [A B]. split; [|exact B]. intros x t l l' H1 H2 H3 H4 H5. assert (H5' : raw w2 x l') by (eapply links_ext; [|exact H5]; reflexivity). apply (A x t l l' H1 H2 H3 H4 H5').
Qed.
Lemma new_keeps w p sup sg cls a w' o : Wf w -> (p = true -> sup = None) -> (forall s, sup = Some s -> mods w s <> None) -> (sg = true -> mods w cls <> None) ->
  new_class w p sup sg cls = (a, w') -> (keeps_class w w' /\ keeps_mods w w') /\ keeps_const w w' o.
Proof.
  intros W Hp Hs Hc E. destruct (new_class_wf w p sup sg cls a w' W Hp Hs Hc E) as (W' & Hn & Em & Ee & Ev & Ec & Ag).
  assert (MO : forall x, mods w x <> None -> mods w' x = mods w x) by (apply Ag).
  assert (XO : forall x, mods w x <> None -> exts w' (xt w x) = exts w (xt w x)).
  { intros x Hx. rewrite Ee, upd_other; [reflexivity|]. pose proof (w_ext w W x Hx). lia. }
  split; [apply kc_agree; auto|apply kk_agree; auto].
Qed.
Lemma keeps_step site csite o w w' : Wf w -> Cop w -> op_ok o -> runs site csite o w w' -> (keeps_class w w' /\ keeps_mods w w') /\ keeps_const w w' o.
Proof.
  intros W Q OK R. unfold runs in R. destruct o; cbn [exec op_ok] in *.
  - apply ev_if in R. destruct R as [C R]. apply ev_ok in R. injection R as E. destruct (new_class w false sup false cls) as [a w1] eqn:En. cbn in E. subst w1.
    eapply new_keeps; try exact En; auto; try discriminate. intros s ->. apply andb_prop in C. apply user_mod_ok. apply C.
  - apply ev_ok in R. injection R as E. destruct (new_class w true None false cls) as [a w1] eqn:En. cbn in E. subst w1. eapply new_keeps; try exact En; auto; discriminate.
  - apply ev_if in R. destruct R as [C R]. apply ev_ok in R. injection R as E. destruct (new_class w false (Some sup) true cls) as [a w1] eqn:En. cbn in E. subst w1.
    apply andb_prop in C. destruct C as [C Cc]. apply andb_prop in C. destruct C as [Cs _]. eapply new_keeps; try exact En; auto; try discriminate.
    + intros s [= ->]. apply user_mod_ok. exact Cs. + intros _. apply user_mod_ok. exact Cc.
  - apply ev_if in R. destruct R as [C R]. apply andb_prop in C. destruct C as [C Cm]. apply andb_prop in C. destruct C as [C1 C2].
    destruct (include_step w c m w' W C1 C2 Cm OK R) as (_ & _ & _ & w2 & ns & lm & -> & RM & X & I).
    apply user_mod_ok in C1, C2. destruct C1 as [Hc Hci], C2 as [Hm Hmi].
    split; [apply kc_inc; apply (kc_insert w w2 c ns W Hc Hci I)|].
    + intros x Hx _. apply att_hp. apply (x_old _ _ _ _ X). exact Hx.
    + intros n Hn. left. destruct (ext_new_in _ _ _ _ n X Hn) as (_ & s & Hs & (_ & Hsm) & E). rewrite E.
      destruct Hs as [<-|Hs]; [unfold real; rewrite Hmi; exact Cm|]. apply (q_mod w Q m lm s Hm Cm Hmi RM). eapply vis_in. exact Hs.
    + left. apply att_hp. apply (x_old _ _ _ _ X). exact Hc.
    + intros i x Hu _. apply (inserted_own w w2 c ns i x I (proj1 (user_mod_ok w x Hu))).
  - apply ev_if in R. destruct R as [C R]. apply andb_prop in C. destruct C as [C Cm]. apply andb_prop in C. destruct C as [C1 C2].
    destruct (prepend_step w c m w' W C1 C2 Cm OK R) as (_ & _ & _ & w2 & ns & ds & lm & -> & RM & I & HC & F & D & HH).
    apply user_mod_ok in C1, C2. destruct C1 as [Hc Hci], C2 as [Hm Hmi].
    split; [apply kc_inc; apply (kc_insert w w2 c (ns ++ ds) W Hc Hci I)|].
    + exact HH.
    + intros n Hn. apply in_app_iff in Hn. destruct Hn as [Hn|Hn].
      * assert (HS : exists s, In s (m :: vis w lm) /\ real w2 n = real w s).
        { clear - F Hn. induction F as [|n0 s0 ns src [_ E] F IH]; [destruct Hn|]. destruct Hn as [<-|Hn]; [exists s0; split; [left; reflexivity|exact E]|].
          destruct (IH Hn) as (s & Hs & E'). exists s. split; [right; exact Hs|exact E']. }
        destruct HS as (s & Hs & E). rewrite E. left.
        destruct Hs as [<-|Hs]; [unfold real; rewrite Hmi; exact Cm|]. apply (q_mod w Q m lm s Hm Cm Hmi RM). eapply vis_in. exact Hs.
      * destruct (hp w c); [rewrite D in Hn; destruct Hn|]. destruct D as (d & -> & D1 & E). destruct Hn as [<-|[]]. right. auto.
    + destruct (hp w c); [left; congruence|]. right. split; [reflexivity|]. destruct D as (d & -> & D1 & E). exists d. split; [apply in_or_app; right; left; reflexivity|]. auto.
    + intros i x Hu _. apply (inserted_own w w2 c (ns ++ ds) i x I (proj1 (user_mod_ok w x Hu))).
  - apply ev_if in R. destruct R as [C R]. apply ev_ok in R. unfold add_method in R. apply bind_ok in R. destruct R as (mm & Em & R). injection R as <-.
    split; [apply kc_same; [reflexivity|]|apply kk_same; [reflexivity|]]; intros e; cbn; unfold upd; destruct (Z.eqb_spec e (m_ext mm)) as [->|]; auto.
  - apply ev_if in R. destruct R as [C R]. apply ev_ok in R. pose proof (set_const_effect w c id v w' W C R) as SE. unfold set_const in R. apply bind_ok in R. destruct R as (mm & Em & R). injection R as <-.
    split; [apply kc_same; [reflexivity|]; intros e; cbn; unfold upd; destruct (Z.eqb_spec e (m_ext mm)) as [->|]; auto|].
    intros i x Hu Hne. rewrite (proj1 SE i x Hu). destruct (Z.eqb_spec x c) as [->|]; [|reflexivity]. destruct (Z.eqb_spec i id) as [->|]; [|reflexivity]. exfalso. apply (Hne v). reflexivity.
  - apply ev_ok in R. injection R as <-. split; [apply kc_same|apply kk_same]; auto.
  - apply ev_ok in R. injection R as <-. split; [apply kc_same|apply kk_same]; auto.
  - apply ev_if in R. destruct R as [C R]. apply ev_here in R. destruct R as [N R]. apply bind_ok in R. destruct R as (r & E & R). injection R as <-. destruct (find_inline_only _ _ _ _ _ _ E) as ((E1 & E2 & _) & _).
    split; [apply kc_same|apply kk_same]; auto; rewrite E2; auto.
  - apply ev_if in R. destruct R as [C R]. apply ev_here in R. destruct R as [N R]. apply bind_ok in R. destruct R as (r & E & R). injection R as <-. destruct (find_method_only _ _ _ _ _ E) as ((E1 & E2 & _) & _).
    split; [apply kc_same|apply kk_same]; auto; rewrite E2; auto.
  - apply ev_if in R. destruct R as [C R]. apply ev_here in R. destruct R as [N R]. apply bind_ok in R. destruct R as (r & E & R). injection R as <-. destruct (super_only _ _ _ _ _ E) as ((E1 & E2 & _) & _).
    split; [apply kc_same|apply kk_same]; auto; rewrite E2; auto.
  - destruct (csite slot) as [[scope cls] [id object]] eqn:Es. apply ev_here in R. destruct R as [N R]. apply bind_ok in R. destruct R as (r & E & R). injection R as <-.
    destruct (read_const_only _ _ _ _ _ _ _ _ E) as ((E1 & E2 & _) & _). split; [apply kc_same|apply kk_same]; auto; rewrite E2; auto.
Qed.
