(* What each operation does to definitions and ancestor lists. *)
From Verif Require Import Base ProofsBase ModelArray ProofsArray ModelGC ProofsGC ModelClass SpecClass ProofsClass ProofsClass2 ProofsClass3 ProofsClass4 ProofsClass5 ProofsClass6 ProofsClass7.
Ltac Zify.zify_post_hook ::= Z.div_mod_to_equations.

Section ext.
Variables (w w' : world).
Hypothesis HM : forall a, mods w' a = mods w a.
Hypothesis HO : forall e, e_origin (exts w' e) = e_origin (exts w e).
Lemma t_skip f : forall a, skip_prepend w' f a = skip_prepend w f a.
Proof using HM. induction f as [|n IH]; intros a; [reflexivity|]. cbn [skip_prepend]. unfold get_mod. rewrite HM. destruct (mods w a) as [m|]; [|reflexivity]. cbn [rbind]. destruct (has_prepend m), (m_upper m); auto. Qed.
Lemma t_anc f : forall a, ancestors w' f a = ancestors w f a.
Proof using HM HO.
  induction f as [|n IH]; intros a; [reflexivity|]. cbn [ancestors].
  assert (E : real_module w' a = real_module w a) by (unfold real_module, get_mod; rewrite HM; destruct (mods w a); [|reflexivity]; cbn [rbind]; rewrite HO; reflexivity).
  rewrite E. destruct (real_module w a) as [r| |]; [|reflexivity|reflexivity]. cbn [rbind].
  assert (E2 : upper w' (S n) a = upper w (S n) a) by (unfold upper, get_mod; rewrite HM; destruct (mods w a) as [m|]; [|reflexivity]; cbn [rbind]; destruct (m_upper m); [apply t_skip|reflexivity]).
  rewrite E2. destruct (upper w (S n) a) as [[b|]| |]; cbn [rbind]; auto. rewrite IH. reflexivity.
Qed.
Lemma t_has a l : has_ancestors w' a l <-> has_ancestors w a l.
Proof using HM HO. split; intros [N A]; exists N; intros f Hf; specialize (A f Hf); [rewrite t_anc in A|rewrite t_anc]; exact A. Qed.
End ext.

Lemma define_effect w c name fid w' : Wf w -> user_mod w c = true -> add_method w c name fid = Ok w' ->
  (forall n x, user_mod w x = true -> own_method w' n x = if (x =? c) && (n =? name) then Some fid else own_method w n x) /\
  (forall x l, has_ancestors w' x l <-> has_ancestors w x l) /\ (forall id x, own_const w' id x = own_const w id x).
Proof.
  intros W Hc E. pose proof (user_mod_ok _ _ Hc) as [Hcm Hci]. unfold add_method in E. apply bind_ok in E. destruct E as (m & Em & E). injection E as <-.
  assert (Emc : mods w c = Some m) by (unfold get_mod in Em; destruct (mods w c); congruence).
  assert (Xc : xt w c = m_ext m) by (unfold xt; rewrite Emc; reflexivity).
  split; [|split].
  - intros n x Hx. pose proof (user_mod_ok _ _ Hx) as [Hxm Hxi]. unfold own_method. cbn [set_exts inc_version mods exts]. destruct (mods w x) as [mx|] eqn:Ex; [|congruence].
    assert (Xx : xt w x = m_ext mx) by (unfold xt; rewrite Ex; reflexivity). unfold upd. destruct (Z.eqb_spec x c) as [->|Hne].
    + replace mx with m by congruence. rewrite Z.eqb_refl. cbn [mtab andb assoc]. rewrite (Z.eqb_sym name n). destruct (n =? name); reflexivity.
    + destruct (Z.eqb_spec (m_ext mx) (m_ext m)) as [He|]; [|reflexivity]. exfalso. apply Hne. apply (w_own w W); congruence.
  - intros x l. apply t_has; [reflexivity|]. intros e. cbn. unfold upd. destruct (Z.eqb_spec e (m_ext m)) as [->|]; reflexivity.
  - intros id x. unfold own_const. cbn [set_exts inc_version mods exts]. destruct (mods w x) as [mx|]; [|reflexivity]. unfold upd. destruct (Z.eqb_spec (m_ext mx) (m_ext m)) as [->|]; reflexivity.
Qed.
Lemma set_const_effect w c id v w' : Wf w -> user_mod w c = true -> set_const w c id v = Ok w' ->
  (forall i x, user_mod w x = true -> own_const w' i x = if (x =? c) && (i =? id) then Some v else own_const w i x) /\
  (forall x l, has_ancestors w' x l <-> has_ancestors w x l) /\ (forall n x, own_method w' n x = own_method w n x).
Proof.
  intros W Hc E. pose proof (user_mod_ok _ _ Hc) as [Hcm Hci]. unfold set_const in E. apply bind_ok in E. destruct E as (m & Em & E). injection E as <-.
  assert (Emc : mods w c = Some m) by (unfold get_mod in Em; destruct (mods w c); congruence).
  assert (Xc : xt w c = m_ext m) by (unfold xt; rewrite Emc; reflexivity).
  split; [|split].
  - intros n x Hx. pose proof (user_mod_ok _ _ Hx) as [Hxm Hxi]. unfold own_const. cbn [mods exts]. destruct (mods w x) as [mx|] eqn:Ex; [|congruence].
    assert (Xx : xt w x = m_ext mx) by (unfold xt; rewrite Ex; reflexivity). unfold upd. destruct (Z.eqb_spec x c) as [->|Hne].
    + replace mx with m by congruence. rewrite Z.eqb_refl. cbn [ctab andb assoc]. rewrite (Z.eqb_sym id n). destruct (n =? id); reflexivity.
    + destruct (Z.eqb_spec (m_ext mx) (m_ext m)) as [He|]; [|reflexivity]. exfalso. apply Hne. apply (w_own w W); congruence.
  - intros x l. apply t_has; [reflexivity|]. intros e. cbn. unfold upd. destruct (Z.eqb_spec e (m_ext m)) as [->|]; reflexivity.
  - intros n x. unfold own_method. cbn [mods exts]. destruct (mods w x) as [mx|]; [|reflexivity]. unfold upd. destruct (Z.eqb_spec (m_ext mx) (m_ext m)) as [->|]; reflexivity.
Qed.
Lemma agree_anc w w' : Wf w -> Wf w' -> (forall a, mods w a <> None -> mods w' a = mods w a) -> (forall a, mods w a <> None -> e_origin (exts w' (xt w a)) = e_origin (exts w (xt w a))) ->
  forall x l, mods w x <> None -> has_ancestors w x l -> has_ancestors w' x l.
Proof.
  intros W W' HM HO x l Hx A. destruct (w_chain w W x Hx) as [lr R]. assert (l = map (real w) (x :: vis w lr)) by (eapply anc_det; [exact A|apply anc_raw; assumption]). subst l.
  assert (HR : forall y, In y (x :: lr) -> mods w y <> None) by (intros y Hy; eapply raw_mods; eassumption).
  pose proof (anc_raw w' x lr W' (agree_raw w w' x lr HM R)) as A'.
  assert (Ev : vis w' lr = vis w lr) by (apply vis_att; intros y Hy; unfold hp; rewrite HM by (apply HR; right; exact Hy); reflexivity).
  rewrite Ev in A'. erewrite map_ext_in; [exact A'|]. intros y Hy. assert (Hym : mods w y <> None) by (apply HR; destruct Hy as [<-|Hy]; [left; reflexivity|right; eapply vis_in; exact Hy]).
  unfold real. assert (Ei : inc w' y = inc w y) by (unfold inc; rewrite HM by exact Hym; reflexivity). assert (Ex : xt w' y = xt w y) by (unfold xt; rewrite HM by exact Hym; reflexivity).
  rewrite Ei, Ex, HO by exact Hym. reflexivity.
Qed.
Lemma new_class_effect w p sup sg cls a w' : Wf w -> (p = true -> sup = None) -> (forall s, sup = Some s -> mods w s <> None) -> (sg = true -> mods w cls <> None) ->
  new_class w p sup sg cls = (a, w') ->
  mods w a = None /\ user_mod w' a = true /\ module_p w' a = p /\ prepended w' a = false /\ (forall n, own_method w' n a = None) /\ (forall n, own_const w' n a = None) /\
  (forall x, mods w x <> None -> mods w' x = mods w x) /\
  (forall n x, mods w x <> None -> own_method w' n x = own_method w n x) /\
  (forall x l, mods w x <> None -> has_ancestors w x l -> has_ancestors w' x l) /\
  match sup with
  | None => has_ancestors w' a [a]
  | Some s => forall ls, has_ancestors w s ls -> has_ancestors w' a (a :: shown w s ls)
  end.
Proof.
  intros W Hp Hs Hc E. destruct (new_class_wf w p sup sg cls a w' W Hp Hs Hc E) as (W' & Hn & Em & Ee & Ev & Ec & Ag).
  assert (MO : forall x, mods w x <> None -> mods w' x = mods w x) by (apply Ag).
  assert (XO : forall x, mods w x <> None -> exts w' (xt w x) = exts w (xt w x)).
  { intros x Hx. rewrite Ee, upd_other; [reflexivity|]. pose proof (w_ext w W x Hx). lia. }
  assert (AO : forall x l, mods w x <> None -> has_ancestors w x l -> has_ancestors w' x l) by (apply agree_anc; auto; intros x Hx; rewrite XO by exact Hx; reflexivity).
  split; [exact Hn|]. split; [unfold user_mod; rewrite Em, upd_same; reflexivity|]. split; [unfold module_p; rewrite Em, upd_same; reflexivity|].
  split; [unfold prepended; rewrite Em, upd_same; reflexivity|]. split; [intros n; unfold own_method; rewrite Em, upd_same; cbn; rewrite Ee, upd_same; reflexivity|].
  split; [intros n; unfold own_const; rewrite Em, upd_same; cbn; rewrite Ee, upd_same; reflexivity|]. split; [exact MO|].
  split; [|split; [exact AO|]].
  - intros n x Hx. unfold own_method. rewrite MO by exact Hx. specialize (XO x Hx). unfold xt in XO. destruct (mods w x); [|reflexivity]. rewrite XO. reflexivity.
  - assert (Ira : real w' a = a) by (unfold real, inc; rewrite Em, upd_same; reflexivity). destruct sup as [s|].
    + intros ls A. specialize (Hs s eq_refl). destruct (w_chain w W s Hs) as [l R]. assert (ls = map (real w) (s :: vis w l)) by (eapply anc_det; [exact A|apply anc_raw; assumption]). subst ls.
      assert (R' : raw w' a (s :: l)) by (split; [unfold up; rewrite Em, upd_same; reflexivity|apply (agree_raw w w' s l MO R)]).
      pose proof (anc_raw w' a _ W' R') as A'. rewrite shown_raw by exact R. cbn [map] in A'. rewrite Ira in A'.
      assert (HR : forall y, In y (s :: l) -> mods w y <> None) by (intros y Hy; eapply raw_mods; eassumption).
      assert (Evs : vis w' (s :: l) = vis w (s :: l)) by (apply vis_att; intros y Hy; unfold hp; rewrite MO by (apply HR; exact Hy); reflexivity). rewrite Evs in A'.
      assert (Er : map (real w') (vis w (s :: l)) = map (real w) (vis w (s :: l))).
      { apply map_ext_in. intros y Hy. assert (Hym : mods w y <> None) by (apply HR; eapply vis_in; exact Hy). unfold real.
        assert (Ei : inc w' y = inc w y) by (unfold inc; rewrite MO by exact Hym; reflexivity). assert (Ex : xt w' y = xt w y) by (unfold xt; rewrite MO by exact Hym; reflexivity). rewrite Ei, Ex, XO by exact Hym. reflexivity. }
      rewrite Er in A'. exact A'.
    + assert (R' : raw w' a []) by (split; [unfold up; rewrite Em, upd_same; reflexivity|exact I]). pose proof (anc_raw w' a _ W' R') as A'. cbn in A'. rewrite Ira in A'. exact A'.
Qed.
Lemma inserted_own w w2 c ns n x : Inserted w w2 c ns -> mods w x <> None -> own_method (inc_version w2) n x = own_method w n x /\ own_const (inc_version w2) n x = own_const w n x /\ user_mod (inc_version w2) x = user_mod w x.
Proof.
  intros I Hx.
  assert (E : xt w2 x = xt w x /\ inc w2 x = inc w x).
  { destruct (Z.eq_dec x c) as [->|Hne].
    - destruct (i_self _ _ _ _ I) as (_ & _ & E1 & E2 & _). auto.
    - pose proof (i_old _ _ _ _ I x Hx Hne) as A. split; [apply att_xt; exact A|apply att_inc; exact A]. }
  assert (Hx2 : mods w2 x <> None) by (apply (i_dom _ _ _ _ I); left; exact Hx). destruct (i_exts _ _ _ _ I (xt w x)) as (E1 & E2 & _).
  unfold own_method, own_const, user_mod. cbn [inc_version mods exts]. destruct E as [Ex Ei]. unfold xt, inc in *. destruct (mods w2 x) as [m2|]; [|congruence]. destruct (mods w x) as [m|]; [|congruence].
  rewrite Ex, E1, E2, Ei. auto.
Qed.

(* the version counter wraps: many definitions elsewhere *)
Lemma bump_many site csite u : forall n w, hist site csite w -> user_mod w u = true -> 0 <= version w < 2 ^ 32 -> exists w', hist site csite w' /\
  version w' = (version w + Z.of_nat n) mod 2 ^ 32 /\ mcache w' = mcache w /\ icache w' = icache w /\ mods w' = mods w /\ (forall e, e <> xt w u -> exts w' e = exts w e).
Proof.
  induction n as [|n IH]; intros w H U V.
  - exists w. split; [exact H|]. split; [rewrite Z.add_0_r, Z.mod_small by lia; reflexivity|]. auto.
  - pose proof (user_mod_ok _ _ U) as [Hm _]. destruct (mods w u) as [m|] eqn:Em; [|congruence].
    set (w1 := set_exts (inc_version w) (upd (exts w) (m_ext m) (mkExt ((0, 0) :: mtab (exts w (m_ext m))) (ctab (exts w (m_ext m))) (is_singleton (exts w (m_ext m))) (e_origin (exts w (m_ext m)))))).
    assert (E1 : exec site csite 0 (Define u 0 0) w = Ok w1) by (cbn [exec]; rewrite U; unfold add_method, get_mod; rewrite Em; reflexivity).
    assert (H1 : hist site csite w1) by (eapply h_step with (o := Define u 0 0); [exact H|exact I|apply (exec_runs site csite 0); exact E1]).
    destruct (IH w1 H1) as (w' & H' & V' & M' & I' & Mo' & X').
    { unfold user_mod. cbn. exact U. } { cbn. apply Z.mod_pos_bound. reflexivity. }
    exists w'. split; [exact H'|]. split; [rewrite V'; cbn [w1 set_exts inc_version version]; rewrite Zplus_mod_idemp_l; f_equal; lia|]. split; [exact M'|]. split; [exact I'|]. split; [exact Mo'|].
    assert (Xu : xt w u = m_ext m) by (unfold xt; rewrite Em; reflexivity). assert (Xu1 : xt w1 u = m_ext m) by (unfold xt; cbn; rewrite Em; reflexivity).
    intros e He. rewrite X' by congruence. cbn. rewrite upd_other by congruence. reflexivity.
Qed.
