(* Property C110: comparing modules and asking them for constants. *)
From Verif Require Import Base ProofsBase ModelArray ProofsArray ModelGC ProofsGC ModelClass SpecClass ProofsClass ProofsClass2 ProofsClass3 ProofsClass4 ProofsClass5 ProofsClass6 ProofsClass7 ProofsClass8 ProofsRaise ProofsRaise2 ModelReflect SpecReflect PropsClass PropsReflect ModelModule SpecModule ProofsModule.

(* ---- <=>, ===, include? ---- *)
Theorem C110_compare : forall site csite w a b la lb, hist site csite w -> user_mod w a = true -> user_mod w b = true -> has_ancestors w a la -> has_ancestors w b lb ->
  exists r, eventually (fun f => mod_cmp w f a b = Ok r) /\ (r = Some 0 <-> a = b) /\ (r = Some 1 <-> a <> b /\ In a lb) /\ (r = Some (-1) <-> a <> b /\ ~ In a lb /\ In b la) /\
    (r = None <-> a <> b /\ ~ In a lb /\ ~ In b la).
Proof.
  intros site csite w a b la lb H Ha Hb A B. pose proof (hist_wf _ _ _ H) as W. destruct (user_mod_ok _ _ Ha) as [Ham _], (user_mod_ok _ _ Hb) as [Hbm _].
  destruct (include_module_has w b a lb W Hbm B) as (x & [N1 X] & Ix). destruct (include_module_has w a b la W Ham A) as (y & [N2 Y] & Iy).
  exists (if a =? b then Some 0 else if x then Some 1 else if y then Some (-1) else None). split.
  - exists (N1 + N2)%nat. intros f Hf. unfold mod_cmp. destruct (Z.eqb_spec a b); [reflexivity|]. destruct (mods w b) eqn:Eb; [|congruence]. rewrite X, Y by lia. cbn [rbind]. destruct x; [reflexivity|]. cbn [rbind]. destruct y; reflexivity.
  - destruct (Z.eqb_spec a b) as [->|Hne]; [repeat split; try congruence; intros; try tauto; intuition congruence|].
    destruct x, y; repeat split; intros; try discriminate; try (intuition congruence).
Qed.
Theorem C110_compare_other : forall w f a b, a <> b -> mods w b = None -> mod_cmp w f a b = Ok None.
Proof. intros w f a b Hne Hb. unfold mod_cmp. apply Z.eqb_neq in Hne. rewrite Hne, Hb. reflexivity. Qed.
Theorem C110_case : forall site csite w m c l, hist site csite w -> mods w c <> None -> has_ancestors w c l ->
  exists b, eventually (fun f => mod_teq w f m c = Ok b) /\ (b = true <-> In m l).
Proof. intros site csite w m c l H Hc A. apply include_module_has; [exact (hist_wf _ _ _ H)|exact Hc|exact A]. Qed.
(* include? *)
Theorem C110_include_p_partial : forall site csite w c m l, hist site csite w -> user_mod w c = true -> has_ancestors w c l ->
  (module_p w m = true -> m <> c -> exists b, eventually (fun f => mod_include_p w f c m = Ok b) /\ (b = true <-> In m l)) /\ (module_p w m = false -> forall f, mod_include_p w f c m = Err TypeErr).
Proof.
  intros site csite w c m l H Hc A. destruct (user_mod_ok _ _ Hc) as [Hcm _]. unfold mod_include_p. split; [intros -> _|intros ->; reflexivity]. apply include_module_has; [exact (hist_wf _ _ _ H)|exact Hcm|exact A].
Qed.
Print Assumptions C110_compare.
Print Assumptions C110_compare_other.
Print Assumptions C110_case.
Print Assumptions C110_include_p_partial.

(* ---- classes are ordered ---- *)
Definition a_class (w : world) (a : Z) : Prop := user_mod w a = true /\ module_p w a = false.
Lemma above_chain site csite w a b l : hist site csite w -> a_class w a -> user_mod w b = true -> raw w b l -> (above w a b <-> In a (b :: l)).
Proof.
  intros H [Ha Ma] Hb R. pose proof (hist_wf _ _ _ H) as W. destruct (user_mod_ok _ _ Ha) as [Ham Hai], (user_mod_ok _ _ Hb) as [Hbm Hbi].
  rewrite <- (class_on_chain w b l a W (hist_cls _ _ _ H) Hbm Hbi R Ma Ham Hai). pose proof (anc_raw w b l W R) as A. split.
  - intros (l' & A' & Hin). rewrite (anc_det w b _ _ A' A) in Hin. exact Hin.
  - intros Hin. eexists. split; [exact A|exact Hin].
Qed.
Lemma chain_len w a b l : raw w b l -> In a (b :: l) -> exists l1 la, b :: l = l1 ++ a :: la /\ raw w a la.
Proof. intros R Hin. destruct (in_split _ _ Hin) as (l1 & l2 & El). exists l1, l2. split; [exact El|]. unfold raw in *. rewrite El in R. eapply links_suffix. exact R. Qed.
Theorem C110_classes_ordered : forall site csite w a b c, hist site csite w -> a_class w a -> a_class w b -> a_class w c ->
  above w a a /\ (above w a b -> above w b a -> a = b) /\ (above w a b -> above w b c -> above w a c) /\ (above w a c -> above w b c -> above w a b \/ above w b a).
Proof.
  intros site csite w a b c H Ha Hb Hc. pose proof (hist_wf _ _ _ H) as W.
  destruct (w_chain w W a (proj1 (user_mod_ok _ _ (proj1 Ha)))) as [la RA]. destruct (w_chain w W b (proj1 (user_mod_ok _ _ (proj1 Hb)))) as [lb RB]. destruct (w_chain w W c (proj1 (user_mod_ok _ _ (proj1 Hc)))) as [lc RC].
  rewrite (above_chain _ _ _ _ _ _ H Ha (proj1 Ha) RA), (above_chain _ _ _ _ _ _ H Ha (proj1 Hb) RB), (above_chain _ _ _ _ _ _ H Hb (proj1 Ha) RA), (above_chain _ _ _ _ _ _ H Ha (proj1 Hc) RC), (above_chain _ _ _ _ _ _ H Hb (proj1 Hc) RC).
  split; [left; reflexivity|]. split; [|split].
  - intros AB BA. destruct (chain_len _ _ _ _ RB AB) as (l1 & l2 & E1 & R1). destruct (chain_len _ _ _ _ RA BA) as (l3 & l4 & E2 & R2).
    assert (l2 = la) by (eapply links_det; eassumption). assert (l4 = lb) by (eapply links_det; eassumption). subst l2 l4.
    pose proof (f_equal (@length Z) E1) as L1. pose proof (f_equal (@length Z) E2) as L2. rewrite app_length in L1, L2. cbn in L1, L2. destruct l1; [cbn in E1; congruence|cbn in L1; lia].
  - intros AB BC. destruct (chain_len _ _ _ _ RC BC) as (l1 & l2 & E1 & R1). assert (l2 = lb) by (eapply links_det; eassumption). subst l2. rewrite E1. apply in_or_app. right. exact AB.
  - intros AC BC. destruct (chain_len _ _ _ _ RC BC) as (l1 & l2 & E1 & R1). assert (l2 = lb) by (eapply links_det; eassumption). subst l2. rewrite E1 in AC. apply in_app_iff in AC. destruct AC as [AC|AC]; [right|left; exact AC].
    destruct (in_split _ _ AC) as (l3 & l4 & E3). subst l1. rewrite <- app_assoc in E1. cbn [app] in E1.
    assert (RA' : raw w a (l4 ++ b :: lb)) by (unfold raw in *; rewrite E1 in RC; eapply links_suffix; exact RC). assert (la = l4 ++ b :: lb) by (eapply links_det; eassumption). subst la. right. apply in_or_app. right. left. reflexivity.
Qed.
Theorem C110_compare_classes : forall site csite w a b r, hist site csite w -> a_class w a -> a_class w b -> eventually (fun f => mod_cmp w f a b = Ok r) -> eventually (fun f => mod_cmp w f b a = Ok (option_map Z.opp r)).
Proof.
  intros site csite w a b r H Ha Hb E. destruct (C25_every_class_has_ancestors site csite w a H (proj1 (user_mod_ok _ _ (proj1 Ha)))) as [la A]. destruct (C25_every_class_has_ancestors site csite w b H (proj1 (user_mod_ok _ _ (proj1 Hb)))) as [lb B].
  destruct (C110_compare site csite w a b la lb H (proj1 Ha) (proj1 Hb) A B) as (x & X & X0 & X1 & X2 & X3). destruct (C110_compare site csite w b a lb la H (proj1 Hb) (proj1 Ha) B A) as (y & Y & Y0 & Y1 & Y2 & Y3).
  assert (x = r) by (eapply (ev_det (fun f => mod_cmp w f a b)); eassumption). subst x.
  assert (AS : In a lb -> In b la -> a = b).
  { intros HA HB. destruct (C110_classes_ordered site csite w a b a H Ha Hb Ha) as (_ & AS & _). apply AS; [exists lb; auto|exists la; auto]. }
  assert (y = option_map Z.opp r); [|subst y; exact Y].
  destruct (Z.eq_dec a b) as [->|Hne]; [rewrite (proj2 X0 eq_refl), (proj2 Y0 eq_refl); reflexivity|].
  destruct (in_dec Z.eq_dec a lb) as [HA|HA]; [rewrite (proj2 X1 (conj Hne HA)); rewrite (proj2 Y2); [reflexivity|]; split; [congruence|]; split; [intros HB; apply Hne; auto|exact HA]|].
  destruct (in_dec Z.eq_dec b la) as [HB|HB]; [rewrite (proj2 X2 (conj Hne (conj HA HB))), (proj2 Y1); [reflexivity|split; [congruence|exact HB]]|].
  rewrite (proj2 X3 (conj Hne (conj HA HB))), (proj2 Y3); [reflexivity|]. split; [congruence|]. auto.
Qed.
Print Assumptions C110_classes_ordered.
Print Assumptions C110_compare_classes.

(* ---- constants ---- *)
Theorem C110_const_get : forall site csite w c id object l, hist site csite w -> mods w c <> None -> mods w object <> None -> has_ancestors w c l ->
  eventually (fun f => const_get w f c (ASym id) object = match first_const w id (l ++ if module_p w c then [object] else []) with Some v => Ok v | None => Err NameErr end) /\
  eventually (fun f => forall x, x = ASym id \/ x = AStr id -> const_defined w f c x object = Ok (match first_const w id (l ++ if module_p w c then [object] else []) with Some _ => true | None => false end)).
Proof.
  intros site csite w c id object l H Hc Ho A. pose proof (hist_wf _ _ _ H) as W. destruct (find_const_spec w [] c id object l W ltac:(intros a []) Hc Ho A) as [N F]. unfold find_const in F. cbn [rev lexical_const rbind] in F. unfold const_path in F. cbn [rev app] in F.
  split; exists N; intros f Hf; specialize (F f Hf); [exact F|]. intros x Hx. unfold const_defined. replace (expect_name x) with (Ok id : res Z) by (destruct Hx as [->| ->]; reflexivity). cbn [rbind]. rewrite F. destruct (first_const _ _ _); reflexivity.
Qed.
(* A::X *)
Theorem C110_scope_partial : forall w a id, user_mod w a = true -> get_scope w a id = match own_const w id a with Some v => Ok v | None => Err NameErr end.
Proof.
  intros w a id Ha. destruct (user_mod_ok _ _ Ha) as [Ham _]. unfold get_scope. rewrite get_const_own by exact Ham. destruct (mods w a); [reflexivity|congruence].
Qed.
Print Assumptions C110_const_get.
Print Assumptions C110_scope_partial.

Lemma const_names_in w a id m : mods w a = Some m -> In id (const_names (exts w (m_ext m))) <-> own_const w id a <> None.
Proof.
  intros Em. unfold const_names. destruct (set_adds_ok (rev (map fst (ctab (exts w (m_ext m))))) [] (NoDup_nil Z)) as [_ B]. rewrite B, <- in_rev, <- assoc_keys. unfold own_const. rewrite Em. cbn. tauto.
Qed.
Lemma own_const_real w a id : origins_ok w -> mods w a <> None -> own_const w id (real w a) = own_const w id a.
Proof. intros O Ha. destruct (xt_real w a O Ha) as [B E]. unfold own_const, xt in *. destruct (mods w (real w a)); [|congruence]. destruct (mods w a); [|congruence]. rewrite E. reflexivity. Qed.
Lemma walk_ok w object : origins_ok w -> (forall b, mods w b <> None -> (b =? object) = (real w b =? object)) -> forall fuel a l, raw w a l -> (length l < fuel)%nat ->
  exists r, constants_walk w fuel a object true = Ok r /\ forall id, In id r <-> exists x, In x (a :: before object (map (real w) (vis w l))) /\ own_const w id x <> None.
Proof.
  intros O HO. induction fuel as [|k IH]; intros a l R HF; [lia|]. cbn [constants_walk negb].
  pose proof R as [U _]. destruct (get_mod_up _ _ _ U) as (m & Em & _). unfold get_mod at 1. rewrite Em. cbn [rbind].
  destruct (upper_ok w (S k) a l R ltac:(lia)) as [[V E]|(p & c & s & El & V & Hc & E & Rc)]; rewrite E; cbn [rbind]; rewrite V; cbn [map before].
  - eexists. split; [reflexivity|]. intros id. rewrite (const_names_in w a id m Em). split; [intros Hi; exists a; split; [left; reflexivity|exact Hi]|]. intros (x & [<-|[]] & Hx). exact Hx.
  - assert (Hcm : mods w c <> None) by (eapply raw_mods; [exact Rc|left; reflexivity]). rewrite (HO c Hcm). destruct (Z.eqb_spec (real w c) object) as [Eo|No].
    + eexists. split; [reflexivity|]. intros id. rewrite (const_names_in w a id m Em). split; [intros Hi; exists a; split; [left; reflexivity|exact Hi]|]. intros (x & [<-|[]] & Hx). exact Hx.
    + assert (Hl : (length s < k)%nat) by (rewrite El, app_length in HF; cbn in HF; lia). destruct (IH c s Rc Hl) as (r & Er & Ir). rewrite Er. cbn [rbind]. eexists. split; [reflexivity|].
      intros id. rewrite in_app_iff, (const_names_in w a id m Em), Ir. split.
      * intros [Hi|(x & Hx & Hi)]; [exists a; split; [left; reflexivity|exact Hi]|]. destruct Hx as [<-|Hx]; [exists (real w c); split; [right; left; reflexivity|rewrite own_const_real by assumption; exact Hi]|].
        exists x. split; [right; right; exact Hx|exact Hi].
      * intros (x & [<-|[<-|Hx]] & Hi); [left; exact Hi|right; exists c; split; [left; reflexivity|rewrite own_const_real in Hi by assumption; exact Hi]|]. right. exists x. split; [right; exact Hx|exact Hi].
Qed.
Lemma walk_mono w object : forall f g a i x, (f <= g)%nat -> constants_walk w f a object i = Ok x -> constants_walk w g a object i = Ok x.
Proof.
  induction f as [|n IH]; intros [|g] a i x Hg E; try discriminate; [lia|]. cbn [constants_walk] in *. destruct (get_mod w a); cbn [rbind] in *; try discriminate. destruct (negb i); [exact E|].
  destruct (upper w (S n) a) as [u| |] eqn:Eu; cbn [rbind] in E; try discriminate. rewrite (m_upper_ w (S n) (S g) a u Hg Eu). cbn [rbind]. destruct u as [b|]; [|exact E]. destruct (b =? object); [exact E|].
  destruct (constants_walk w n b object i) eqn:Er; cbn [rbind] in E; try discriminate. rewrite (IH g b i _ ltac:(lia) Er). exact E.
Qed.
(* constants: the names the module and its ancestors up to Object define *)
Theorem C110_constants_partial : forall site csite w c object l, hist site csite w -> user_mod w c = true -> a_class w object -> prepended w object = false -> has_ancestors w c l ->
  (exists r, eventually (fun f => constants_walk w f c object true = Ok r) /\ forall id, In id r <-> exists x, In x (c :: before object (tl l)) /\ own_const w id x <> None) /\
  (exists r, eventually (fun f => constants_walk w f c object false = Ok r) /\ NoDup r /\ forall id, In id r <-> own_const w id c <> None).
Proof.
  intros site csite w c object l H Hc [Ho Mo] Hp A. pose proof (hist_wf _ _ _ H) as W. destruct (user_mod_ok _ _ Hc) as [Hcm Hci], (user_mod_ok _ _ Ho) as [Hom Hoi]. split.
  - destruct (w_chain w W c Hcm) as [lr R]. assert (l = map (real w) (c :: vis w lr)) by (eapply anc_det; [exact A|apply anc_raw; assumption]). subst l. cbn [map tl].
    destruct (walk_ok w object (w_orig w W)) with (fuel := S (length lr)) (a := c) (l := lr) as (r & Er & Ir); [|exact R|lia|].
    + intros b Hb. unfold real. destruct (inc w b) eqn:Ei; [|reflexivity]. pose proof (q_inc w (hist_cop _ _ _ H) b Hb Ei) as Q. unfold real in Q. rewrite Ei in Q.
      destruct (Z.eqb_spec b object) as [->|Hne]; [congruence|]. symmetry. apply Z.eqb_neq. intros E. rewrite E in Q. specialize (Q Mo). unfold prepended in Hp. unfold hp in Q. congruence.
    + exists r. split; [|exact Ir]. exists (S (length lr)). intros f Hf. eapply walk_mono; [exact Hf|exact Er].
  - destruct (mods w c) as [m|] eqn:Em; [|congruence]. exists (const_names (exts w (m_ext m))). split; [|split; [|intros id; apply const_names_in; exact Em]].
    + exists 1%nat. intros [|f] Hf; [lia|]. cbn [constants_walk negb]. unfold get_mod. rewrite Em. reflexivity.
    + unfold const_names. apply (set_adds_ok _ [] (NoDup_nil Z)).
Qed.
Print Assumptions C110_constants_partial.

(* 8: Object, 9: class A < Object, 10: module M, 11: module N, 12: class B < A *)
Definition md (l : list op) : world := w_of false (ex_base ++ l).
Definition md1 : list op := [Include 9 10; Prepend 12 11; SetConst 8 300 1; SetConst 9 301 2; SetConst 10 302 3; SetConst 12 301 4].
Example C110_compare_example : hist ex_site ex_csite (md md1) /\ ancestors (md md1) 20 12 = Ok [12; 11; 12; 9; 10; 8] /\ mod_cmp (md md1) 20 9 12 = Ok (Some 1) /\ mod_cmp (md md1) 20 12 10 = Ok (Some (-1)) /\ mod_cmp (md md1) 20 11 10 = Ok None /\
  mod_teq (md md1) 20 11 12 = Ok true /\ mod_include_p (md md1) 20 9 10 = Ok true /\ mod_include_p (md md1) 20 12 9 = Err TypeErr.
Proof. split; [apply hist_of; vm_compute; reflexivity|vm_compute; auto 10]. Qed.
Example C110_classes_ordered_example : a_class (md md1) 8 /\ a_class (md md1) 9 /\ a_class (md md1) 12.
Proof. vm_compute. auto. Qed.
Example C110_constants_example : prepended (md md1) 8 = false /\ constants_walk (md md1) 20 12 8 true = Ok [301; 301; 301; 302] /\ constants_walk (md md1) 20 9 8 false = Ok [301] /\
  const_get (md md1) 20 12 (ASym 302) 8 = Ok 3 /\ const_get (md md1) 20 12 (ASym 301) 8 = Ok 4 /\ const_get (md md1) 20 10 (ASym 300) 8 = Ok 1 /\ const_defined (md md1) 20 10 (AStr 301) 8 = Ok false /\ get_scope (md md1) 9 301 = Ok 2.
Proof. vm_compute. auto 10. Qed.

(* M.include(N); N.include(M) is accepted: each is then above the other *)
Theorem C110_modules_ordered_refuted : exists site csite w m n, hist site csite w /\ user_mod w m = true /\ user_mod w n = true /\ m <> n /\
  eventually (fun f => mod_cmp w f m n = Ok (Some 1)) /\ eventually (fun f => mod_cmp w f n m = Ok (Some 1)).
Proof.
  exists ex_site, ex_csite, (md [Include 10 11; Include 11 10]), 10, 11. split; [apply hist_of; vm_compute; reflexivity|]. split; [vm_compute; reflexivity|]. split; [vm_compute; reflexivity|]. split; [discriminate|].
  split; exists 20%nat; intros f Hf; do 20 (destruct f as [|f]; [lia|]); vm_compute; reflexivity.
Qed.
(* A.include(M); M.include(N): N is above M and M above A, but N is not above A *)
Theorem C110_modules_transitive_refuted : exists site csite w a m n, hist site csite w /\ eventually (fun f => mod_cmp w f n m = Ok (Some 1)) /\ eventually (fun f => mod_cmp w f m a = Ok (Some 1)) /\
  eventually (fun f => mod_cmp w f n a = Ok None).
Proof.
  exists ex_site, ex_csite, (md [Include 9 10; Include 10 11]), 9, 10, 11. split; [apply hist_of; vm_compute; reflexivity|].
  split; [|split]; exists 20%nat; intros f Hf; do 20 (destruct f as [|f]; [lia|]); vm_compute; reflexivity.
Qed.
(* M.include?(M) is true *)
Theorem C110_include_self_refuted : exists site csite w m, hist site csite w /\ module_p w m = true /\ has_ancestors w m [m] /\ eventually (fun f => mod_include_p w f m m = Ok true).
Proof.
  exists ex_site, ex_csite, (md []), 10. split; [apply hist_of; vm_compute; reflexivity|]. split; [vm_compute; reflexivity|]. split; [apply (anc_runs _ 20); vm_compute; reflexivity|].
  exists 20%nat; intros f Hf; do 20 (destruct f as [|f]; [lia|]); vm_compute; reflexivity.
Qed.
(* A::X does not find a constant of a superclass; constants lists a name twice;
   const_get takes no String *)
Theorem C110_scope_refuted : exists site csite w a id l v, hist site csite w /\ has_ancestors w a l /\ first_const w id l = Some v /\ get_scope w a id = Err NameErr.
Proof.
  exists ex_site, ex_csite, (md [SetConst 9 300 1]), 12, 300, [12; 9; 8], 1. split; [apply hist_of; vm_compute; reflexivity|]. split; [apply (anc_runs _ 20); vm_compute; reflexivity|]. split; vm_compute; reflexivity.
Qed.
Theorem C110_constants_refuted : exists site csite w c object r, hist site csite w /\ user_mod w c = true /\ a_class w object /\ eventually (fun f => constants_walk w f c object true = Ok r) /\ ~ NoDup r.
Proof.
  exists ex_site, ex_csite, (md md1), 12, 8, [301; 301; 301; 302]. split; [apply hist_of; vm_compute; reflexivity|]. split; [vm_compute; reflexivity|]. split; [vm_compute; auto|].
  split; [exists 20%nat; intros f Hf; apply (walk_mono _ _ 20); [exact Hf|vm_compute; reflexivity]|]. intros N. inversion N as [|? ? N1 N2]. apply N1. left. reflexivity.
Qed.
Theorem C110_const_get_string_refuted : exists site csite w c id object, hist site csite w /\ eventually (fun f => const_get w f c (AStr id) object = Err TypeErr) /\ eventually (fun f => const_defined w f c (AStr id) object = Ok true).
Proof.
  exists ex_site, ex_csite, (md md1), 9, 301, 8. split; [apply hist_of; vm_compute; reflexivity|]. split; [exists 0%nat; reflexivity|].
  exists 20%nat; intros f Hf; do 20 (destruct f as [|f]; [lia|]); vm_compute; reflexivity.
Qed.
Print Assumptions C110_modules_ordered_refuted.
Print Assumptions C110_modules_transitive_refuted.
Print Assumptions C110_include_self_refuted.
Print Assumptions C110_scope_refuted.
Print Assumptions C110_constants_refuted.
Print Assumptions C110_const_get_string_refuted.
