(* Lookup against the ancestor list; include and prepend on that list;
   super; constants. *)
From Verif Require Import Base ProofsBase ModelArray ProofsArray ModelGC ProofsGC ModelClass SpecClass ProofsClass ProofsClass2 ProofsClass3 ProofsClass4 ProofsClass5.
Ltac Zify.zify_post_hook ::= Z.div_mod_to_equations.

Lemma calm_cinv site csite w : calm site csite w -> CInv site w.
Proof.
  induction 1; [|eapply step_cinv; eassumption]. constructor; [apply wf_world0|cbn; lia|intros e []|].
  intros i e H. apply v_get_range in H. change (zlen (icache world0)) with 0 in H. lia.
Qed.

(* ---- the specification: ancestor lists and the first definition ---- *)
Lemma reaches_in w a c l : raw w a l -> (reaches w a c <-> In c (a :: l)).
Proof.
  intros R. split.
  - intros H. revert l R. induction H as [a|a b c m Em Eu H IH]; intros l R; [left; reflexivity|]. destruct R as [U R]. unfold up in U. rewrite Em in U. cbn in U. rewrite Eu in U.
    destruct l as [|b' l]; [discriminate|]. injection U as <-. right. apply IH. exact R.
  - revert a R. induction l as [|b l IH]; intros a R [<-|H]; try constructor; [destruct H|]. destruct R as [U R]. destruct (get_mod_up _ _ _ U) as (m & Em & Eu).
    eapply r_up; [exact Em|exact Eu|]. apply IH; assumption.
Qed.
Lemma xt_real w a : origins_ok w -> mods w a <> None -> mods w (real w a) <> None /\ xt w (real w a) = xt w a.
Proof.
  intros O Ha. unfold real. destruct (inc w a) eqn:Ei; [|auto]. destruct (O a Ha Ei) as (o & E1 & E2 & E3 & E4). rewrite E1. auto.
Qed.
Lemma first_def_own w name l : origins_ok w -> (forall x, In x l -> mods w x <> None) -> option_map fst (first_def w name l) = first_own w name (map (real w) l).
Proof.
  intros O. induction l as [|a l IH]; intros H; [reflexivity|]. cbn [first_def map first_own]. destruct (xt_real w a O (H a (or_introl eq_refl))) as [E1 E2].
  unfold own_method. destruct (mods w (real w a)) as [m|] eqn:Em; [|congruence]. unfold xt in E2 at 1. rewrite Em in E2. rewrite E2.
  destruct (assoc name (mtab (exts w (xt w a)))); [reflexivity|]. apply IH. intros x Hx. apply H. right. exact Hx.
Qed.
Lemma anc_raw w a l : Wf w -> raw w a l -> has_ancestors w a (map (real w) (a :: vis w l)).
Proof. intros W R. exists (S (length l)). intros f Hf. apply ancestors_ok; [apply W|exact R|lia]. Qed.
Lemma anc_det w a l1 l2 : has_ancestors w a l1 -> has_ancestors w a l2 -> l1 = l2.
Proof. intros H1 H2. eapply (ev_det (fun f => ancestors w f a)); eassumption. Qed.
Lemma lookup_own w name c l r : Wf w -> mods w c <> None -> has_ancestors w c l -> look w name c r -> single w c = false \/ first_own w name l <> None ->
  option_map fst r = first_own w name l.
Proof.
  intros W Hc A L H. destruct (w_chain w W c Hc) as [lr R]. destruct (wf_kl w c W Hc) as [lk RK].
  assert (l = map (real w) (c :: vis w lr)) by (eapply anc_det; [exact A|apply anc_raw; assumption]). subst l.
  assert (r = sm w name c lr lk) by (eapply (ev_det (fun f => search_method w f name c)); [exact L|apply look_ok; assumption]). subst r.
  assert (HM : forall x, In x (c :: vis w lr) -> mods w x <> None).
  { intros x [<-|Hx]; [exact Hc|]. eapply raw_mods; [exact R|right; eapply vis_in; exact Hx]. }
  rewrite <- (first_def_own w name _ (w_orig w W) HM) in *. unfold sm. destruct (first_def w name (c :: vis w lr)) as [x|]; [reflexivity|].
  destruct H as [H|H]; [rewrite H; reflexivity|cbn in H; congruence].
Qed.
Lemma owner_in w name c l f o : Wf w -> mods w c <> None -> has_ancestors w c l -> look w name c (Some (f, o)) -> single w c = false -> In (real w o) l /\ own_method w name (real w o) = Some f.
Proof.
  intros W Hc A L Hs. destruct (w_chain w W c Hc) as [lr R].
  assert (l = map (real w) (c :: vis w lr)) by (eapply anc_det; [exact A|apply anc_raw; assumption]). subst l.
  assert (E : Some (f, o) = sm w name c lr []) by (eapply (ev_det (fun f => search_method w f name c)); [exact L|apply look_ok; [exact R|congruence]]).
  unfold sm in E. rewrite Hs in E. assert (E' : first_def w name (c :: vis w lr) = Some (f, o)) by (destruct (first_def w name (c :: vis w lr)); congruence). clear E.
  assert (HM : forall x, In x (c :: vis w lr) -> mods w x <> None).
  { intros x [<-|Hx]; [exact Hc|]. eapply raw_mods; [exact R|right; eapply vis_in; exact Hx]. }
  revert HM E'. generalize (c :: vis w lr). intros l. induction l as [|a l IH]; intros HM E; [discriminate|]. cbn [first_def] in E.
  destruct (assoc name (mtab (exts w (xt w a)))) as [g|] eqn:Ea.
  - injection E as -> ->. split; [left; reflexivity|]. destruct (xt_real w o (w_orig w W) (HM o (or_introl eq_refl))) as [E1 E2]. unfold own_method. unfold xt in E2 at 1. destruct (mods w (real w o)) as [m|]; [|congruence]. rewrite E2. exact Ea.
  - destruct (IH ltac:(intros x Hx; apply HM; right; exact Hx) E) as [H1 H2]. split; [right; exact H1|exact H2].
Qed.
Lemma include_module_has w a t l : Wf w -> mods w a <> None -> has_ancestors w a l -> exists b, eventually (fun f => include_module w f a t = Ok b) /\ (b = true <-> In t l).
Proof.
  intros W Ha A. destruct (w_chain w W a Ha) as [lr R]. assert (l = map (real w) (a :: vis w lr)) by (eapply anc_det; [exact A|apply anc_raw; assumption]). subst l.
  eexists. split; [exists (S (length lr)); intros f Hf; apply include_module_ok; [apply W|exact R|lia]|].
  rewrite existsb_exists. split.
  - intros (x & Hx & E). apply Z.eqb_eq in E. congruence.
  - intros H. exists t. split; [exact H|apply Z.eqb_refl].
Qed.

(* ---- the list after include / prepend ---- *)
Lemma shown_raw w a l : raw w a l -> shown w a (map (real w) (a :: vis w l)) = map (real w) (vis w (a :: l)).
Proof. intros R. unfold shown. change (prepended w a) with (hp w a). unfold vis. cbn [filter]. destruct (hp w a); reflexivity. Qed.
Lemma map_real_old w w' c ns l : Inserted w w' c ns -> (forall x, In x l -> mods w x <> None) -> map (real w') l = map (real w) l.
Proof. intros X H. apply map_ext_in. intros x Hx. apply (i_real _ _ _ _ X). apply H. exact Hx. Qed.
Lemma vis_app w l1 l2 : vis w (l1 ++ l2) = vis w l1 ++ vis w l2.
Proof. unfold vis. apply filter_app. Qed.
Lemma vis_old w w' l c : (forall x, mods w x <> None -> x <> c -> hp w' x = hp w x) -> (forall x, In x l -> mods w x <> None /\ x <> c) -> vis w' l = vis w l.
Proof. intros H1 H2. apply vis_att. intros x Hx. apply H1; apply H2; exact Hx. Qed.
(* the general picture: what the new nodes contribute is NS *)
Lemma inserted_lists w w' c ns : Wf w -> inc w c = false -> Inserted w w' c ns -> (forall x, mods w x <> None -> x <> c -> hp w' x = hp w x) ->
  forall x l, mods w x <> None -> has_ancestors w x l ->
  (~ reaches w x c -> has_ancestors w' x l) /\
  (reaches w x c -> x <> c -> exists p s lc, has_ancestors w c lc /\ raw w c s /\ lc = map (real w) (c :: vis w s) /\ l = p ++ shown w c lc /\
     has_ancestors w' x (p ++ (if hp w' c then [] else [c]) ++ map (real w') (vis w' ns) ++ map (real w) (vis w s))) /\
  (x = c -> has_ancestors w' c (c :: map (real w') (vis w' ns) ++ tl l)).
Proof.
  intros W Hci X HP x l Hx A. assert (Erc : real w' c = c) by (unfold real; destruct (i_self _ _ _ _ X) as (_ & _ & E & _); rewrite E, Hci; reflexivity). pose proof (inserted_wf _ _ _ _ W X) as W'. destruct (w_chain w W x Hx) as [lx R].
  assert (l = map (real w) (x :: vis w lx)) by (eapply anc_det; [exact A|apply anc_raw; assumption]). subst l.
  pose proof (inserted_raw _ _ _ _ _ _ X R) as R'. pose proof (raw_NoDup _ _ _ R) as ND.
  assert (HM : forall y, In y (x :: lx) -> mods w y <> None) by (intros y Hy; eapply raw_mods; eassumption).
  split; [|split].
  - intros NR. rewrite (reaches_in w x c lx R) in NR. rewrite expand_id in R' by exact NR. cbn [tl] in R'. pose proof (anc_raw w' x lx W' R') as A'.
    rewrite (vis_old w w' lx c HP) in A'; [|intros y Hy; split; [apply HM; right; exact Hy|intros ->; apply NR; right; exact Hy]].
    rewrite (map_real_old w w' c ns) in A'; [exact A'|exact X|]. intros y [<-|Hy]; [exact Hx|apply HM; right; eapply vis_in; exact Hy].
  - intros RC Hne. rewrite (reaches_in w x c lx R) in RC. destruct RC as [->|RC]; [congruence|]. apply in_split in RC. destruct RC as (p & s & ->).
    assert (Rc : raw w c s) by (destruct R as [_ R]; apply links_suffix in R; exact R).
    assert (Hc : mods w c <> None) by (apply HM; right; apply in_or_app; right; left; reflexivity).
    assert (Np : ~ In c (x :: p) /\ ~ In c s).
    { rewrite app_comm_cons in ND. apply NoDup_remove_2 in ND. rewrite in_app_iff in ND. tauto. }
    destruct Np as [Np Ns]. rewrite app_comm_cons, expand_app, (expand_id c ns (x :: p)) in R' by exact Np. rewrite expand_cons, Z.eqb_refl, (expand_id c ns s) in R' by exact Ns. cbn [tl app] in R'.
    pose proof (anc_raw w' x _ W' R') as A'.
    exists (map (real w) (x :: vis w p)), s, (map (real w) (c :: vis w s)). split; [apply anc_raw; assumption|]. split; [exact Rc|]. split; [reflexivity|]. split.
    + rewrite shown_raw by exact Rc. rewrite vis_app, <- map_app. reflexivity.
    + rewrite vis_app, app_comm_cons, map_app in A'. unfold vis at 2 in A'. cbn [filter] in A'. change (c :: ns ++ s) with ([c] ++ ns ++ s) in A'.
      fold (vis w' (ns ++ s)) in A'. rewrite vis_app in A'.
      rewrite (vis_old w w' p c HP) in A' by (intros y Hy; split; [apply HM; right; apply in_or_app; left; exact Hy|intros ->; apply Np; right; exact Hy]).
      rewrite (vis_old w w' s c HP) in A' by (intros y Hy; split; [apply HM; right; apply in_or_app; right; right; exact Hy|intros ->; apply Ns; exact Hy]).
      rewrite (map_real_old w w' c ns (x :: vis w p) X) in A' by (intros y [<-|Hy]; [exact Hx|apply HM; right; apply in_or_app; left; eapply vis_in; exact Hy]).
      destruct (hp w' c); cbn [negb] in A'.
      * rewrite map_app in A'. rewrite (map_real_old w w' c ns (vis w s) X) in A' by (intros y Hy; apply HM; right; apply in_or_app; right; right; eapply vis_in; exact Hy). exact A'.
      * cbn [map] in A'. rewrite map_app in A'. rewrite (map_real_old w w' c ns (vis w s) X) in A' by (intros y Hy; apply HM; right; apply in_or_app; right; right; eapply vis_in; exact Hy).
        rewrite Erc in A'. exact A'.
  - intros ->. inversion ND as [|? ? Nc ND']; subst. rewrite expand_cons, Z.eqb_refl, (expand_id c ns lx) in R' by exact Nc. cbn [tl app] in R'. pose proof (anc_raw w' c _ W' R') as A'.
    rewrite vis_app in A'. rewrite (vis_old w w' lx c HP) in A' by (intros y Hy; split; [apply HM; right; exact Hy|intros ->; apply Nc; exact Hy]).
    cbn [map tl] in *. rewrite Erc, map_app in A'. rewrite (map_real_old w w' c ns (vis w lx) X) in A' by (intros y Hy; apply HM; right; eapply vis_in; exact Hy). exact A'.
Qed.
Lemma forall2_shown w w' ns src : Forall2 (fun n s => hp w' n = hp w s /\ real w' n = real w s) ns src -> map (real w') (vis w' ns) = map (real w) (vis w src).
Proof. intros F. induction F as [|n s ns src [E1 E2] F IH]; [reflexivity|]. unfold vis in *. cbn [filter]. rewrite E1. destruct (hp w s); cbn; [exact IH|]. rewrite E2. f_equal. exact IH. Qed.
Lemma vis_vis w a l : vis w (a :: vis w l) = vis w (a :: l).
Proof.
  unfold vis. cbn [filter]. assert (E : filter (fun x => negb (hp w x)) (filter (fun x => negb (hp w x)) l) = filter (fun x => negb (hp w x)) l).
  { induction l as [|x l IH]; [reflexivity|]. cbn [filter]. destruct (negb (hp w x)) eqn:E; [|exact IH]. cbn [filter]. rewrite E, IH. reflexivity. }
  rewrite E. reflexivity.
Qed.
Lemma has_anc_same w w' x l : mods w' = mods w -> exts w' = exts w -> (forall f, ancestors w f x = Ok l -> ancestors w' f x = Ok l) -> has_ancestors w x l -> has_ancestors w' x l.
Proof. intros _ _ H [N A]. exists N. intros f Hf. apply H, A, Hf. Qed.
Lemma skip_prepend_inc w f : forall a, skip_prepend (inc_version w) f a = skip_prepend w f a.
Proof. induction f as [|n IH]; intros a; [reflexivity|]. cbn [skip_prepend]. unfold get_mod. cbn [inc_version mods]. destruct (mods w a) as [m|]; [|reflexivity]. cbn [rbind]. destruct (has_prepend m), (m_upper m); auto. Qed.
Lemma ancestors_inc w f : forall a, ancestors (inc_version w) f a = ancestors w f a.
Proof.
  induction f as [|n IH]; intros a; [reflexivity|]. cbn [ancestors]. change (real_module (inc_version w) a) with (real_module w a). destruct (real_module w a) as [r| |]; [|reflexivity|reflexivity]. cbn [rbind].
  assert (E : upper (inc_version w) (S n) a = upper w (S n) a).
  { unfold upper, get_mod. cbn [inc_version mods]. destruct (mods w a) as [m|]; [|reflexivity]. cbn [rbind]. destruct (m_upper m); [apply skip_prepend_inc|reflexivity]. }
  rewrite E. destruct (upper w (S n) a) as [[b|]| |]; cbn [rbind]; auto. rewrite IH. reflexivity.
Qed.
Lemma has_anc_inc w x l : has_ancestors (inc_version w) x l <-> has_ancestors w x l.
Proof. split; intros [N A]; exists N; intros f Hf; specialize (A f Hf); [rewrite ancestors_inc in A|rewrite ancestors_inc]; exact A. Qed.

Lemma include_lists w c M w' lc lm : Wf w -> user_mod w c = true -> user_mod w M = true -> module_p w M = true -> c <> M -> prepended w c = false ->
  has_ancestors w c lc -> has_ancestors w M lm -> eventually (fun f => append_include f w c M = Ok w') ->
  has_ancestors w' c (c :: shown w M lm ++ tl lc) /\
  forall x l, mods w x <> None -> has_ancestors w x l ->
    (~ reaches w x c -> has_ancestors w' x l) /\
    (reaches w x c -> exists p, l = p ++ lc /\ has_ancestors w' x (p ++ c :: shown w M lm ++ tl lc)).
Proof.
  intros W Hc HM HMm Hne Hp AC AM E. destruct (include_step w c M w' W Hc HM HMm Hne E) as (W' & _ & _ & w2 & ns & rm & -> & RM & X & I).
  apply user_mod_ok in Hc. destruct Hc as [Hc Hci].
  assert (HP : forall x, mods w x <> None -> x <> c -> hp w2 x = hp w x) by (intros x Hx _; apply att_hp; apply (x_old _ _ _ _ X); exact Hx).
  assert (HPc : hp w2 c = false) by (rewrite (att_hp w w2 c c (x_old _ _ _ _ X c Hc)); exact Hp).
  assert (NS : map (real w2) (vis w2 ns) = shown w M lm).
  { assert (lm = map (real w) (M :: vis w rm)) by (eapply anc_det; [exact AM|apply anc_raw; assumption]). subst lm. rewrite shown_raw by exact RM.
    rewrite (forall2_shown w w2 ns (M :: vis w rm)); [rewrite vis_vis; reflexivity|]. eapply F2_impl; [|exact (x_new _ _ _ _ X)]. intros n s (_ & H1 & H2). split; [apply (copy_facts _ _ _ _ H1)|exact H2]. }
  pose proof (inserted_lists w w2 c ns W Hci I HP) as IL. rewrite NS in IL. split.
  - apply has_anc_inc. destruct (IL c lc Hc AC) as (_ & _ & H). apply H. reflexivity.
  - intros x l Hx A. destruct (IL x l Hx A) as (H1 & H2 & H3). split; [intros NR; apply has_anc_inc; apply H1; exact NR|]. intros RC. destruct (Z.eq_dec x c) as [->|Hxc].
    + exists []. assert (l = lc) by (eapply anc_det; eassumption). subst l. split; [reflexivity|]. apply has_anc_inc. apply H3. reflexivity.
    + destruct (H2 RC Hxc) as (p & s & lc' & A1 & Rs & El & E1 & A2). assert (lc = lc') by (eapply anc_det; eassumption). subst lc. rewrite HPc in A2. exists p. split.
      * rewrite E1. unfold shown. change (prepended w c) with (hp w c). change (prepended w c) with (hp w c) in Hp. rewrite Hp. reflexivity.
      * apply has_anc_inc. rewrite El. cbn [map tl]. exact A2.
Qed.
Lemma prepend_lists w c M w' lc lm : Wf w -> user_mod w c = true -> user_mod w M = true -> module_p w M = true -> c <> M ->
  has_ancestors w c lc -> has_ancestors w M lm -> eventually (fun f => append_prepend f w c M = Ok w') ->
  has_ancestors w' c (c :: shown w M lm ++ shown w c lc) /\
  forall x l, mods w x <> None -> has_ancestors w x l ->
    (~ reaches w x c -> has_ancestors w' x l) /\
    (reaches w x c -> x <> c -> exists p, l = p ++ shown w c lc /\ has_ancestors w' x (p ++ shown w M lm ++ shown w c lc)).
Proof.
  intros W Hc HM HMm Hne AC AM E. destruct (prepend_step w c M w' W Hc HM HMm Hne E) as (W' & _ & _ & w2 & ns & ds & rm & -> & RM & I & HPc & F & D & HP).
  apply user_mod_ok in Hc. destruct Hc as [Hc Hci]. destruct (w_chain w W c Hc) as [rc RC0].
  assert (lc = map (real w) (c :: vis w rc)) by (eapply anc_det; [exact AC|apply anc_raw; assumption]). subst lc.
  assert (Rcc : real w c = c) by (unfold real; rewrite Hci; reflexivity).
  assert (NS : map (real w2) (vis w2 ns) = shown w M lm).
  { assert (lm = map (real w) (M :: vis w rm)) by (eapply anc_det; [exact AM|apply anc_raw; assumption]). subst lm. rewrite shown_raw by exact RM.
    rewrite (forall2_shown w w2 ns (M :: vis w rm) F). rewrite vis_vis. reflexivity. }
  assert (DS : map (real w2) (vis w2 ds) = if hp w c then [] else [c]).
  { destruct (hp w c); [rewrite D; reflexivity|]. destruct D as (d & -> & D1 & D2). unfold vis. cbn [filter]. rewrite D1. cbn. rewrite D2. reflexivity. }
  pose proof (inserted_lists w w2 c (ns ++ ds) W Hci I HP) as IL. rewrite vis_app, map_app, NS, DS, HPc in IL. split.
  - apply has_anc_inc. destruct (IL c _ Hc AC) as (_ & _ & H). specialize (H eq_refl). cbn [map tl] in H. unfold shown. change (prepended w c) with (hp w c). rewrite <- app_assoc in H.
    destruct (hp w c); cbn [map tl app] in *; [exact H|]. rewrite Rcc. exact H.
  - intros x l Hx A. destruct (IL x l Hx A) as (H1 & H2 & _). split; [intros NR; apply has_anc_inc; apply H1; exact NR|]. intros RC Hxc.
    destruct (H2 RC Hxc) as (p & s & lc' & A1 & Rs & El & E1 & A2). assert (Es : s = rc) by (eapply links_det; [exact Rs|exact RC0]). subst s lc'. exists p. split; [exact E1|].
    apply has_anc_inc. rewrite <- app_assoc in A2. unfold shown. change (prepended w c) with (hp w c). destruct (hp w c); cbn [map tl app] in *; [exact A2|]. rewrite Rcc. exact A2.
Qed.


(* ---- super ---- *)
Lemma find_split {A} (f : A -> bool) l x : find f l = Some x -> exists p q, l = p ++ x :: q /\ f x = true /\ forall y, In y p -> f y = false.
Proof.
  induction l as [|a l IH]; [discriminate|]. cbn. destruct (f a) eqn:E.
  - intros [= ->]. exists [], l. split; [reflexivity|]. split; [exact E|]. intros y [].
  - intros H. destruct (IH H) as (p & q & -> & H1 & H2). exists (a :: p), q. split; [reflexivity|]. split; [exact H1|]. intros y [<-|Hy]; auto.
Qed.
Lemma first_own_app w name l1 l2 : first_own w name (l1 ++ l2) = match first_own w name l1 with Some f => Some f | None => first_own w name l2 end.
Proof. induction l1 as [|a l IH]; [reflexivity|]. cbn. destruct (own_method w name a); auto. Qed.
Lemma super_next site w c name lc s : CInv site w -> mods w c <> None -> has_ancestors w c lc -> eventually (fun f => superclass w f c = Ok (Some s)) ->
  prepended w s = false -> single w s = false ->
  exists mid ls, lc = hd 0 lc :: mid ++ ls /\ has_ancestors w s ls /\
    (first_own w name mid = None -> exists w', eventually (fun f => super_method w f c name = Ok (first_own w name (tl lc), w'))).
Proof.
  intros CI Hc A S Hp Hs. pose proof (c_wf site w CI) as W. destruct (w_chain w W c Hc) as [l R].
  assert (lc = map (real w) (c :: vis w l)) by (eapply anc_det; [exact A|apply anc_raw; assumption]). subst lc.
  assert (Ef : Some s = find (fun x => negb (inc w x)) l) by (eapply (ev_det (fun f => superclass w f c)); [exact S|exists (length l); intros f Hf; apply superclass_ok; assumption]).
  symmetry in Ef. destruct (find_split _ _ _ Ef) as (p & q & -> & Hf & Hpi). assert (Rs : raw w s q) by (destruct R as [_ R]; apply links_suffix in R; exact R).
  assert (Hsm : mods w s <> None) by (eapply raw_mods; [exact Rs|left; reflexivity]).
  exists (map (real w) (vis w p)), (map (real w) (s :: vis w q)).
  assert (Ev : vis w (p ++ s :: q) = vis w p ++ s :: vis w q).
  { rewrite vis_app. unfold vis at 2. cbn [filter]. change (prepended w s) with (hp w s) in Hp. rewrite Hp. reflexivity. }
  split; [cbn [map hd]; rewrite Ev, map_app; reflexivity|]. split; [apply anc_raw; assumption|]. intros Hm.
  destruct (look_total w name s W Hsm) as [r L]. pose proof (lookup_own w name s _ r W Hsm (anc_raw w s q W Rs) L (or_introl Hs)) as Er.
  destruct (super_ok site w c name _ s r CI R Ef L) as (w' & F & _). exists w'. rewrite Er in F. cbn [map tl]. rewrite Ev, map_app, first_own_app, Hm. exact F.
Qed.

(* ---- constants ---- *)
Lemma first_const_app w id l1 l2 : first_const w id (l1 ++ l2) = match first_const w id l1 with Some f => Some f | None => first_const w id l2 end.
Proof. induction l1 as [|a l IH]; [reflexivity|]. cbn. destruct (own_const w id a); auto. Qed.
Lemma get_const_own w a id : mods w a <> None -> get_const w a id = Ok (own_const w id a).
Proof. unfold get_const, own_const, get_mod. destruct (mods w a); [reflexivity|congruence]. Qed.
Lemma own_const_real w id a : origins_ok w -> mods w a <> None -> own_const w id (real w a) = own_const w id a.
Proof.
  intros O Ha. destruct (xt_real w a O Ha) as [E1 E2]. unfold own_const. unfold xt in E2. destruct (mods w (real w a)); [|congruence]. destruct (mods w a); [|congruence]. rewrite E2. reflexivity.
Qed.
Lemma first_const_real w id l : origins_ok w -> (forall x, In x l -> mods w x <> None) -> first_const w id (map (real w) l) = first_const w id l.
Proof. intros O. induction l as [|a l IH]; intros H; [reflexivity|]. cbn. rewrite own_const_real; [|exact O|apply H; left; reflexivity]. rewrite IH; [reflexivity|]. intros x Hx. apply H. right. exact Hx. Qed.
Lemma lexical_const_ok w id l : (forall x, In x l -> mods w x <> None) -> lexical_const w l id = Ok (first_const w id l).
Proof.
  induction l as [|a l IH]; intros H; [reflexivity|]. cbn [lexical_const first_const]. rewrite get_const_own by (apply H; left; reflexivity). cbn [rbind]. destruct (own_const w id a); [reflexivity|].
  apply IH. intros x Hx. apply H. right. exact Hx.
Qed.
Lemma super_const_ok w id ob im : mods w ob <> None -> forall fuel a l, raw w a l -> (length l < fuel)%nat ->
  super_const w fuel a id im ob = match first_const w id (a :: vis w l ++ if im : bool then [ob] else []) with Some v => Ok v | None => Err NameErr end.
Proof.
  intros Hob. induction fuel as [|n IH]; intros a l R HF; [lia|]. cbn [super_const first_const].
  assert (Ha : mods w a <> None) by (eapply raw_mods; [exact R|left; reflexivity]). rewrite get_const_own by exact Ha. cbn [rbind]. destruct (own_const w id a); [reflexivity|].
  destruct (upper_ok w (S n) a l R ltac:(lia)) as [[H1 H2]|(p & c & s & H1 & H2 & H3 & H4 & H5)].
  - rewrite H2. cbn [rbind]. rewrite H1. cbn [app]. destruct im; [|reflexivity]. rewrite get_const_own by exact Hob. cbn [rbind first_const]. destruct (own_const w id ob); reflexivity.
  - rewrite H4. cbn [rbind]. rewrite (IH c s H5); [rewrite H2; reflexivity|]. subst l. rewrite app_length in HF. cbn in HF. lia.
Qed.
Lemma find_const_spec w scope cls id ob anc : Wf w -> (forall a, In a scope -> mods w a <> None) -> mods w cls <> None -> mods w ob <> None -> has_ancestors w cls anc ->
  eventually (fun f => find_const w f scope cls id ob = match first_const w id (const_path w scope cls anc ob) with Some v => Ok v | None => Err NameErr end).
Proof.
  intros W Hs Hc Ho A. destruct (w_chain w W cls Hc) as [l R]. assert (anc = map (real w) (cls :: vis w l)) by (eapply anc_det; [exact A|apply anc_raw; assumption]). subst anc.
  exists (S (length l)). intros f Hf. unfold find_const, const_path. rewrite lexical_const_ok by (intros x Hx; apply Hs; apply in_rev; exact Hx). cbn [rbind]. rewrite first_const_app.
  destruct (first_const w id (rev scope)); [reflexivity|]. unfold get_super_const, get_mod, module_p. destruct (mods w cls) as [m|] eqn:Em; [|congruence]. cbn [rbind].
  rewrite (super_const_ok w id ob (is_module m) Ho f cls l R ltac:(lia)). rewrite !first_const_app. rewrite first_const_real; [|apply W|].
  - cbn [first_const]. destruct (own_const w id cls); [reflexivity|]. rewrite first_const_app. reflexivity.
  - intros x [<-|Hx]; [congruence|]. eapply raw_mods; [exact R|right; eapply vis_in; exact Hx].
Qed.
(* preservation of successful lookups *)
Section kagree.
Variables (w w' : world).
Hypothesis K : kagree w w'.
Lemma k_mod a m : get_mod w a = Ok m -> get_mod w' a = Ok m.
Proof using K. unfold get_mod. destruct (mods w a) as [x|] eqn:E; [|discriminate]. intros [= <-]. destruct K as [K1 _]. rewrite K1, E; [reflexivity|congruence]. Qed.
Lemma k_const a id x : get_const w a id = Ok x -> get_const w' a id = Ok x.
Proof using K.
  unfold get_const. intros E. apply bind_ok in E. destruct E as (m & Em & E). rewrite (k_mod a m Em). cbn [rbind]. destruct K as [_ K2]. unfold get_mod in Em.
  specialize (K2 a). unfold xt in K2. destruct (mods w a); [|discriminate]. injection Em as ->. rewrite K2 by congruence. exact E.
Qed.
Lemma k_skip : forall f a x, skip_prepend w f a = Ok x -> skip_prepend w' f a = Ok x.
Proof using K.
  induction f as [|n IH]; intros a x E; [discriminate|]. cbn [skip_prepend] in *. apply bind_ok in E. destruct E as (m & Em & E). rewrite (k_mod a m Em). cbn [rbind].
  destruct (has_prepend m); [|exact E]. destruct (m_upper m); [apply IH; exact E|exact E].
Qed.
Lemma k_upper f a x : upper w f a = Ok x -> upper w' f a = Ok x.
Proof using K. unfold upper. intros E. apply bind_ok in E. destruct E as (m & Em & E). rewrite (k_mod a m Em). cbn [rbind]. destruct (m_upper m); [apply k_skip; exact E|exact E]. Qed.
Lemma k_super id im ob v : forall f a, super_const w f a id im ob = Ok v -> super_const w' f a id im ob = Ok v.
Proof using K.
  induction f as [|n IH]; intros a E; [discriminate|]. cbn [super_const] in *. apply bind_ok in E. destruct E as (c & Ec & E). rewrite (k_const a id c Ec). cbn [rbind]. destruct c; [exact E|].
  apply bind_ok in E. destruct E as (u & Eu & E). rewrite (k_upper _ _ _ Eu). cbn [rbind]. destruct u as [b|]; [apply IH; exact E|]. destruct im; [|exact E].
  apply bind_ok in E. destruct E as (o & Eo & E). rewrite (k_const ob id o Eo). exact E.
Qed.
Lemma k_lex id : forall l x, lexical_const w l id = Ok x -> lexical_const w' l id = Ok x.
Proof using K.
  induction l as [|a l IH]; intros x E; [exact E|]. cbn [lexical_const] in *. apply bind_ok in E. destruct E as (c & Ec & E). rewrite (k_const a id c Ec). cbn [rbind]. destruct c; [exact E|]. apply IH. exact E.
Qed.
Lemma k_find f scope cls id ob v : find_const w f scope cls id ob = Ok v -> find_const w' f scope cls id ob = Ok v.
Proof using K.
  unfold find_const. intros E. apply bind_ok in E. destruct E as (c & Ec & E). rewrite (k_lex id _ c Ec). cbn [rbind]. destruct c; [exact E|].
  unfold get_super_const in *. apply bind_ok in E. destruct E as (m & Em & E). rewrite (k_mod _ _ Em). cbn [rbind]. apply k_super. exact E.
Qed.
End kagree.
Lemma reads_agree csite w w' slot v : kagree w w' -> reads csite w slot v -> reads csite w' slot v.
Proof. intros K. unfold reads. destruct (csite slot) as [[scope cls] [id ob]]. intros [N H]. exists N. intros f Hf. apply (k_find w w' K). apply H. exact Hf. Qed.
Definition ce_ok csite (w : world) (i : Z) (e : centry) : Prop := 0 <= ce_version e <= cversion w /\ (forall v, ce_version e = cversion w -> ce_val e = Some v -> reads csite w i v).
Definition KInv csite (w : world) : Prop := 0 <= cversion w /\ forall i e, v_get (ccache w) i = Ok e -> ce_ok csite w i e.
Lemma v_get_in {A} (l : list A) i x : v_get l i = Ok x -> In x l.
Proof. unfold v_get. destruct ((0 <=? i) && (i <? zlen l)); [|discriminate]. destruct (nth_error l (Z.to_nat i)) as [y|] eqn:E; [|discriminate]. intros [= ->]. eapply nth_error_In. exact E. Qed.
Lemma quiet_calm site csite w : quiet site csite w -> calm site csite w.
Proof. induction 1; [constructor|econstructor; eassumption]. Qed.
Lemma kinv_same csite w w' : KInv csite w -> kagree w w' -> cversion w' = cversion w -> ccache w' = ccache w -> KInv csite w'.
Proof.
  intros [V H] K E1 E2. split; [lia|]. intros i e He. rewrite E2 in He. destruct (H i e He) as [B R]. split; [lia|]. intros v Ev Es. eapply reads_agree; [exact K|]. apply R; [lia|exact Es].
Qed.
Lemma kinv_bump csite w w' : KInv csite w -> cversion w' = (cversion w + 1) mod 2 ^ 32 -> cversion w <= cversion w' -> ccache w' = ccache w -> KInv csite w'.
Proof.
  intros [V H] E1 Hle E2. assert (cversion w' <> cversion w) by (rewrite E1; change (2 ^ 32) with 4294967296; lia).
  split; [lia|]. intros i e He. rewrite E2 in He. destruct (H i e He) as [B R]. split; [lia|]. intros v Ev. lia.
Qed.
Lemma read_const_ok csite w slot : KInv csite w -> 0 <= slot < zlen (ccache w) -> let '((scope, cls), (id, ob)) := csite slot in
  forall r, (r <> Panic) -> eventually (fun f => find_const w f scope cls id ob = r) ->
  match r with
  | Ok v => exists w', eventually (fun f => get_const_cached w f slot scope cls id ob = Ok (v, w')) /\ KInv csite w'
  | Err k => eventually (fun f => get_const_cached w f slot scope cls id ob = Err k)
  | Panic => False
  end.
Proof.
  intros [V K] Hs. destruct (csite slot) as [[scope cls] [id ob]] eqn:Ec. intros r Hr F.
  assert (Hne : ccache w <> []) by (intros E; rewrite E in Hs; change (zlen (@nil centry)) with 0 in Hs; lia).
  destruct (ccache w) as [|e0 t0] eqn:Ei; [congruence|]. rewrite <- Ei in *. set (e := nth (Z.to_nat slot) (ccache w) e0).
  assert (Ee : v_get (ccache w) slot = Ok e) by (apply v_get_nth; exact Hs). destruct (K slot e Ee) as [B L].
  assert (HIT : forall v, match ce_val e with Some v => if ce_version e =? cversion w then Some v else None | None => None end = Some v -> r = Ok v).
  { intros v E. destruct (ce_val e) as [v'|] eqn:Ev; [|discriminate]. destruct (Z.eqb_spec (ce_version e) (cversion w)); [|discriminate]. injection E as ->. specialize (L v e1 eq_refl).
    unfold reads in L. rewrite Ec in L. destruct F as [N1 F], L as [N2 L]. specialize (F (N1 + N2)%nat ltac:(lia)). specialize (L (N1 + N2)%nat ltac:(lia)). congruence. }
  destruct (match ce_val e with Some v => if ce_version e =? cversion w then Some v else None | None => None end) as [v|] eqn:Em.
  - rewrite (HIT v eq_refl). exists w. split; [|split; assumption]. exists O. intros f _. unfold get_const_cached. rewrite Ee. cbn [rbind]. rewrite Em. reflexivity.
  - destruct r as [v|k|]; [| |congruence].
    + destruct (v_set_total (ccache w) slot (mkCE (cversion w) (Some v)) Hs) as [t Et]. eexists. split.
      * destruct F as [N F]. exists N. intros f Hf. unfold get_const_cached. rewrite Ee. cbn [rbind]. rewrite Em, (F f Hf). cbn [rbind]. rewrite Et. reflexivity.
      * set (w' := mkW _ _ _ _ _ _ _ _ _ _). assert (KA : kagree w w') by (apply kagree_eq; reflexivity). split; [exact V|]. intros i x Hx. destruct (v_get_v_set _ _ _ _ _ _ Et Hx) as [[-> ->]|Hx'].
        -- split; [cbn; lia|]. cbn. intros v' _ [= <-]. eapply reads_agree; [exact KA|]. unfold reads. rewrite Ec. exact F.
        -- destruct (K i x Hx') as [B1 L1]. split; [exact B1|]. intros v' E1 E2. eapply reads_agree; [exact KA|]. apply L1; assumption.
    + destruct F as [N F]. exists N. intros f Hf. unfold get_const_cached. rewrite Ee. cbn [rbind]. rewrite Em, (F f Hf). reflexivity.
Qed.
Lemma read_step_kinv csite w slot w' : KInv csite w -> (let '((scope, cls), (id, ob)) := csite slot in eventually (fun f => (r <- get_const_cached w f slot scope cls id ob ;; Ok (snd r)) = Ok w')) -> KInv csite w'.
Proof.
  intros K R. destruct (csite slot) as [[scope cls] [id ob]] eqn:Ec. destruct R as [N R].
  pose proof (R N ltac:(lia)) as R0. apply bind_ok in R0. destruct R0 as (r0 & E0 & R0). injection R0 as R0. unfold get_const_cached in E0. apply bind_ok in E0. destruct E0 as (e & Ee & E0).
  destruct (match ce_val e with Some v => if ce_version e =? cversion w then Some v else None | None => None end) as [v|] eqn:Em; [injection E0 as <-; cbn in R0; subst; exact K|].
  apply bind_ok in E0. destruct E0 as (v & Ef & E0). apply bind_ok in E0. destruct E0 as (t & Et & E0). injection E0 as <-. cbn in R0.
  assert (F : eventually (fun f => find_const w f scope cls id ob = Ok v)).
  { exists N. intros f Hf. pose proof (R f Hf) as Rf. unfold get_const_cached in Rf. rewrite Ee in Rf. cbn [rbind] in Rf. rewrite Em in Rf.
    apply bind_ok in Rf. destruct Rf as (rf & E1 & Rf). apply bind_ok in E1. destruct E1 as (v1 & Ef1 & E1). apply bind_ok in E1. destruct E1 as (t1 & Et1 & E1). injection E1 as <-. injection Rf as Rf. cbn in Rf.
    assert (Etv : v_get t slot = Ok (mkCE (cversion w) (Some v))).
    { destruct (nth_v_set _ _ _ _ e Et) as (B & EL & Ei & _). rewrite (v_get_nth t slot e) by lia. f_equal. exact Ei. }
    assert (Etv1 : v_get t1 slot = Ok (mkCE (cversion w) (Some v1))).
    { destruct (nth_v_set _ _ _ _ e Et1) as (B & EL & Ei & _). rewrite (v_get_nth t1 slot e) by lia. f_equal. exact Ei. }
    assert (t1 = t) by (rewrite <- Rf in R0; injection R0; congruence). subst t1. rewrite Etv in Etv1. injection Etv1 as <-. exact Ef1. }
  pose proof (read_const_ok csite w slot K (v_get_range _ _ _ Ee)) as RC. rewrite Ec in RC. destruct (RC (Ok v) ltac:(discriminate) F) as (w1 & G & K1).
  assert (w' = w1); [|subst; exact K1]. eapply (ev_det (fun f => r <- get_const_cached w f slot scope cls id ob ;; Ok (snd r))); [exists N; exact R|]. eapply ev_mono; [exact G|]. intros f E. rewrite E. reflexivity.
Qed.
Lemma step_kinv site csite o w w' : Wf w -> KInv csite w -> op_ok o -> quiet_op o w -> runs site csite o w w' -> cversion w <= cversion w' -> KInv csite w'.
Proof.
  intros W K OK Q R Hv. destruct (step_ok site csite o w w' W OK R) as [W' E]. destruct E as [Ch Kc (E1 & E2 & E3 & E4) _|Ch (E1 & E2 & E3 & E4) Ho|Ag Ev Ev' E1 E2 E3 _|O Ho].
  - destruct Kc as [Ka _|Kb]; [apply (kinv_same csite w); assumption|]. apply (kinv_bump csite w); assumption.
  - destruct K as [V K]. split; [lia|]. intros i e He. rewrite E3 in He. destruct (K i e He) as [B _]. split; [lia|]. intros v H1 H2. exfalso.
    assert (L : live w) by (exists e; split; [eapply v_get_in; exact He|split; [congruence|lia]]). destruct Ho as (c & m & [-> | ->]); apply Q; exact L.
  - apply (kinv_bump csite w); assumption.
  - destruct (only_caches_agree _ _ O) as [_ KA]. destruct O as (_ & _ & _ & _ & _ & _ & OC).
    destruct Ho as [(s & c & ->)|[(c & n & ->)|[(c & n & ->)|[(s & ->)|[-> | ->]]]]]; unfold runs in R; cbn [exec] in R.
    + apply ev_if in R. destruct R as [C R]. apply ev_here in R. destruct R as [N R]. apply bind_ok in R. destruct R as (r & E & R). injection R as <-. destruct (find_inline_only _ _ _ _ _ _ E) as [_ E2]. apply (kinv_same csite w); assumption.
    + apply ev_if in R. destruct R as [C R]. apply ev_here in R. destruct R as [N R]. apply bind_ok in R. destruct R as (r & E & R). injection R as <-. destruct (find_method_only _ _ _ _ _ E) as (_ & _ & E2). apply (kinv_same csite w); assumption.
    + apply ev_if in R. destruct R as [C R]. apply ev_here in R. destruct R as [N R]. apply bind_ok in R. destruct R as (r & E & R). injection R as <-. destruct (super_only _ _ _ _ _ E) as (_ & _ & E2). apply (kinv_same csite w); assumption.
    + apply (read_step_kinv csite w s w' K). destruct (csite s) as [[scope cls] [id ob]]. exact R.
    + apply ev_ok in R. injection R as <-. apply (kinv_same csite w); auto.
    + apply ev_ok in R. injection R as <-. destruct K as [V K]. split; [exact V|]. intros i e He. cbn [add_ccache snd ccache] in He. apply v_get_snoc in He. destruct He as [He|[-> ->]].
      * destruct (K i e He) as [B L]. split; [exact B|]. intros v H1 H2. eapply reads_agree; [exact KA|]. apply L; assumption.
      * split; [cbn; lia|]. cbn. discriminate.
Qed.
Lemma quiet_kinv site csite w : quiet site csite w -> KInv csite w.
Proof.
  induction 1 as [|w o w' Q IH OK QO R V1 V2].
  - split; [cbn; lia|]. intros i e He. apply v_get_range in He. change (zlen (ccache world0)) with 0 in He. lia.
  - eapply step_kinv; try eassumption. eapply hist_wf. eapply calm_hist. eapply quiet_calm. exact Q.
Qed.
