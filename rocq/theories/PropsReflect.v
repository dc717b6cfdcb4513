(* C101: asking an object about its methods agrees with calling them. *)
From Verif Require Import Base ModelArray ModelGC ModelClass ModelReflect SpecClass SpecReflect ProofsClass ProofsClass2 ProofsClass3 ProofsClass4 ProofsClass5 ProofsClass6 ProofsClass7 ProofsClass8 PropsClass.

(* ---- names ---- *)
Lemma set_add_in k : forall l n, In n (set_add l k) <-> In n l \/ n = k.
Proof.
  induction l as [|x l IH]; intros n; cbn [set_add In]; [intuition congruence|].
  destruct (Z.eqb_spec x k) as [->|Hne]; cbn [In]; [intuition congruence|]. rewrite IH. intuition congruence.
Qed.
Lemma set_add_nodup k : forall l, NoDup l -> NoDup (set_add l k).
Proof.
  induction l as [|x l IH]; intros H; cbn [set_add]; [constructor; [intros []|constructor]|].
  inversion H as [|? ? Hn Hl]; subst. destruct (Z.eqb_spec x k) as [->|Hne]; [exact H|]. constructor; [|auto].
  rewrite set_add_in. intros [?|?]; congruence.
Qed.
Lemma set_adds_ok ks : forall l, NoDup l -> NoDup (set_adds l ks) /\ (forall n, In n (set_adds l ks) <-> In n l \/ In n ks).
Proof.
  unfold set_adds. induction ks as [|k ks IH]; intros l H; cbn [fold_left]; [split; [exact H|intros n; cbn; tauto]|].
  destruct (IH (set_add l k) (set_add_nodup k l H)) as [A B]. split; [exact A|]. intros n. rewrite B, set_add_in. cbn [In]. intuition congruence.
Qed.
Lemma assoc_keys n : forall l : list (Z * Z), assoc n l <> None <-> In n (map fst l).
Proof.
  induction l as [|[k v] l IH]; cbn [assoc map In fst]; [tauto|]. destruct (Z.eqb_spec k n) as [->|Hne]; [|destruct (Z.eqb_spec n k); [congruence|]]; try rewrite IH; intuition congruence.
Qed.
Lemma method_names_ok e : NoDup (method_names e) /\ forall n, In n (method_names e) <-> assoc n (mtab e) <> None.
Proof.
  unfold method_names. destruct (set_adds_ok (rev (map fst (mtab e))) [] (NoDup_nil Z)) as [A B]. split; [exact A|].
  intros n. rewrite B, <- in_rev, assoc_keys. cbn. tauto.
Qed.
Lemma first_def_cons w name a l : first_def w name (a :: l) <> None <-> assoc name (mtab (exts w (xt w a))) <> None \/ first_def w name l <> None.
Proof. cbn [first_def]. destruct (assoc name (mtab (exts w (xt w a)))); intuition congruence. Qed.
Lemma collect_names_ok w : forall fuel a l v, raw w a l -> (length l < fuel)%nat -> NoDup v ->
  exists r, collect_names w fuel a v = Ok r /\ NoDup r /\ forall n, In n r <-> In n v \/ first_def w n (a :: vis w l) <> None.
Proof.
  induction fuel as [|k IH]; intros a l v R HF Hv; [lia|]. cbn [collect_names].
  pose proof R as [U _]. destruct (get_mod_up _ _ _ U) as (m & Em & _). unfold get_mod at 1. rewrite Em. cbn [rbind].
  assert (Ex : xt w a = m_ext m) by (unfold xt; rewrite Em; reflexivity).
  destruct (method_names_ok (exts w (m_ext m))) as [N1 N2]. destruct (set_adds_ok (method_names (exts w (m_ext m))) v Hv) as [A B].
  set (v1 := set_adds v (method_names (exts w (m_ext m)))) in *.
  destruct (upper_ok w (S k) a l R ltac:(lia)) as [[V E]|(p & c & s & El & V & Hc & E & Rc)]; rewrite E; cbn [rbind].
  - exists v1. split; [reflexivity|]. split; [exact A|]. intros n. rewrite V, first_def_cons, B, N2, Ex. cbn [first_def]. intuition congruence.
  - assert (Hl : (length s < k)%nat) by (rewrite El, app_length in HF; cbn in HF; lia).
    destruct (IH c s v1 Rc Hl A) as (r & Er & Nr & Ir). exists r. split; [exact Er|]. split; [exact Nr|].
    intros n. rewrite Ir, B, N2, V, (first_def_cons w n a), Ex. tauto.
Qed.
Lemma chain_first w c l name : Wf w -> mods w c <> None -> has_ancestors w c l ->
  exists lr, raw w c lr /\ l = map (real w) (c :: vis w lr) /\ option_map fst (first_def w name (c :: vis w lr)) = first_own w name l.
Proof.
  intros W Hc A. destruct (w_chain w W c Hc) as [lr R]. exists lr. split; [exact R|].
  assert (l = map (real w) (c :: vis w lr)) by (eapply anc_det; [exact A|apply anc_raw; assumption]). subst l. split; [reflexivity|].
  apply first_def_own; [apply W|]. intros x [<-|Hx]; [exact Hc|]. eapply raw_mods; [exact R|right; eapply vis_in; exact Hx].
Qed.

(* methods and instance_methods list each name once: exactly the names some
   ancestor defines *)
Theorem C101_methods : forall site csite w c l, hist site csite w -> mods w c <> None -> has_ancestors w c l ->
  (exists r, eventually (fun k => instance_methods w k c true = Ok r) /\ NoDup r /\ forall n, In n r <-> first_own w n l <> None) /\
  (exists r, eventually (fun k => instance_methods w k c false = Ok r) /\ NoDup r /\ forall n, In n r <-> own_method w n c <> None).
Proof.
  intros site csite w c l H Hc A. pose proof (hist_wf site csite w H) as W. split.
  - destruct (chain_first w c l 0 W Hc A) as (lr & R & -> & _).
    destruct (collect_names_ok w (S (length lr)) c lr [] R ltac:(lia) (NoDup_nil Z)) as (r & Er & Nr & Ir).
    exists r. split; [|split; [exact Nr|]].
    + exists (S (length lr)). intros k Hk. cbn [instance_methods].
      destruct (collect_names_ok w k c lr [] R ltac:(lia) (NoDup_nil Z)) as (r' & Er' & _ & _). rewrite Er'.
      clear - Er Er' R Hk. revert Er'. 
      assert (D : forall f1 f2 a l v x y, raw w a l -> (length l < f1)%nat -> (length l < f2)%nat -> collect_names w f1 a v = Ok x -> collect_names w f2 a v = Ok y -> x = y).
      { clear. induction f1 as [|f1 IH]; intros f2 a l v x y R H1 H2 E1 E2; [lia|]. destruct f2 as [|f2]; [lia|]. cbn [collect_names] in *.
        destruct (get_mod w a) as [m| |]; cbn [rbind] in *; try discriminate.
        destruct (upper_ok w (S f1) a l R ltac:(lia)) as [[V E]|(p & c & s & El & V & Hc & E & Rc)];
        destruct (upper_ok w (S f2) a l R ltac:(lia)) as [[V' E']|(p' & c' & s' & El' & V' & Hc' & E' & Rc')]; rewrite E in E1; rewrite E' in E2; cbn [rbind] in *; try congruence.
        assert (c = c') by congruence. subst c'. assert (s = s') by (eapply links_det; eassumption). subst s'.
        eapply IH; [exact Rc| | |exact E1|exact E2]; rewrite El, app_length in H1, H2; cbn in H1, H2; lia. }
      intros Er'. f_equal. eapply D; [exact R| | |exact Er'|exact Er]; lia.
    + intros n. rewrite Ir. destruct (chain_first w c _ n W Hc A) as (lr' & R' & El & F). assert (lr' = lr) by (eapply links_det; eassumption). subst lr'.
      rewrite <- F. cbn [In]. destruct (first_def w n (c :: vis w lr)); cbn; intuition congruence.
  - destruct (mods w c) as [m|] eqn:Em; [|congruence]. destruct (method_names_ok (exts w (m_ext m))) as [N1 N2].
    exists (method_names (exts w (m_ext m))). split; [|split; [exact N1|]].
    + exists O. intros k _. cbn [instance_methods]. unfold get_mod. rewrite Em. reflexivity.
    + intros n. rewrite N2. unfold own_method. rewrite Em. tauto.
Qed.
Print Assumptions C101_methods.

(* ---- calls ---- *)
Lemma only_first w w' n l : only_caches w w' -> first_own w' n l = first_own w n l.
Proof. intros (M & X & _). induction l as [|a l IH]; [reflexivity|]. cbn [first_own]. unfold own_method. rewrite M, X, IH. reflexivity. Qed.
Lemma only_facts w w' c l : Wf w -> only_caches w w' -> mods w c <> None -> has_ancestors w c l -> single w c = false -> mods w' c <> None /\ has_ancestors w' c l /\ single w' c = false.
Proof.
  intros W O Hc A S. pose proof O as (M & X & _). split; [rewrite M; exact Hc|]. split; [|unfold single; rewrite M, X; exact S].
  eapply agree_anc; [exact W|eapply only_caches_wf; eassumption|intros; rewrite M; reflexivity|intros; rewrite X; reflexivity|exact Hc|exact A].
Qed.
(* a cached lookup on an ordinary class *)
Lemma find_first site w c l name : CInv site w -> mods w c <> None -> has_ancestors w c l -> single w c = false \/ first_own w name l <> None ->
  exists w', eventually (fun k => find_method w k c name = Ok (first_own w name l, w')) /\ only_caches w w' /\ CInv site w'.
Proof.
  intros CI Hc A S. destruct (look_total w name c (c_wf site w CI) Hc) as [r L].
  destruct (find_method_ok site w c name r CI L) as (w' & F & O & _ & _ & C'). exists w'. rewrite <- (lookup_own w name c l r (c_wf site w CI) Hc A L S). auto.
Qed.
Lemma site_first site w slot c l : CInv site w -> 0 <= slot < zlen (icache w) -> mods w c <> None -> has_ancestors w c l -> single w c = false \/ first_own w (site slot) l <> None ->
  exists w', eventually (fun k => find_method_inline w k slot c (site slot) = Ok (first_own w (site slot) l, w')) /\ only_caches w w' /\ CInv site w'.
Proof.
  intros CI Hs Hc A S. destruct (look_total w (site slot) c (c_wf site w CI) Hc) as [r L].
  destruct (find_inline_ok site w slot c r CI Hs L) as (w' & F & O & _ & C'). exists w'. rewrite <- (lookup_own w (site slot) c l r (c_wf site w CI) Hc A L S). auto.
Qed.

Lemma missing_ok site w w1 c l own name a : CInv site w -> CInv site w1 -> only_caches w w1 -> mods w c <> None -> has_ancestors w c l -> single w c = false -> a_block a = None -> a_kw a = None ->
  first_own w name l = None -> exists r, eventually (fun k => invoke_method_missing w1 k own c name a = r) /\ call_means w l own name a r.
Proof.
  intros CI C1 O Hc A S B K E. destruct (only_facts w w1 c l (c_wf site w CI) O Hc A S) as (Hc1 & A1 & S1).
  destruct (find_first site w1 c l METHOD_MISSING C1 Hc1 A1 (or_introl S1)) as (w2 & F & _). rewrite (only_first w w1 _ l O) in F.
  unfold call_means. rewrite E. destruct (first_own w METHOD_MISSING l) as [m|].
  - exists (Ok (mkCall m (to_missing name a), w2)). split; [|eauto]. eapply ev_mono; [exact F|]. intros k Ek. unfold invoke_method_missing. rewrite Ek. cbn [rbind fst snd]. unfold to_missing. rewrite B, K. reflexivity.
  - exists (Err (if own then NameErr else NoMethodErr)). split; [|reflexivity]. eapply ev_mono; [exact F|]. intros k Ek. unfold invoke_method_missing. rewrite Ek. cbn [rbind fst snd]. destruct own; reflexivity.
Qed.
(* a block and keyword arguments reach the method itself, not method_missing:
   C101_missing_block_refuted; the class of the
   receiver is no singleton class: C101_singleton_refuted *)
Theorem C101_call_partial : forall site csite w slot c l own a, calm site csite w -> 0 <= slot < zlen (icache w) -> mods w c <> None -> has_ancestors w c l -> single w c = false ->
  plain w l (site slot) a ->
  (exists r, eventually (fun k => call_site w k slot own c (site slot) a = r) /\ call_means w l own (site slot) a r) /\
  (exists r, eventually (fun k => invoke_send w k own c (site slot) a = r) /\ call_means w l own (site slot) a r).
Proof.
  intros site csite w slot c l own a C Hs Hc A S P. pose proof (calm_cinv site csite w C) as CI. split.
  - destruct (site_first site w slot c l CI Hs Hc A (or_introl S)) as (w1 & F & O & C1).
    destruct (first_own w (site slot) l) as [f|] eqn:E.
    + exists (Ok (mkCall f a, w1)). split; [|unfold call_means; rewrite E; eauto]. eapply ev_mono; [exact F|]. intros k Ek. unfold call_site. rewrite Ek. reflexivity.
    + destruct P as [P|[B K]]; [congruence|]. destruct (missing_ok site w w1 c l own (site slot) a CI C1 O Hc A S B K E) as (r & Er & M). exists r. split; [|exact M].
      eapply ev_mono; [apply (ev_and _ _ F Er)|]. intros k [Ek E2]. unfold call_site. rewrite Ek. exact E2.
  - destruct (find_first site w c l (site slot) CI Hc A (or_introl S)) as (w1 & F & O & C1).
    destruct (first_own w (site slot) l) as [f|] eqn:E.
    + exists (Ok (mkCall f a, w1)). split; [|unfold call_means; rewrite E; eauto]. eapply ev_mono; [exact F|]. intros k Ek. unfold invoke_send. rewrite Ek. reflexivity.
    + destruct P as [P|[B K]]; [congruence|]. destruct (missing_ok site w w1 c l own (site slot) a CI C1 O Hc A S B K E) as (r & Er & M). exists r. split; [|exact M].
      eapply ev_mono; [apply (ev_and _ _ F Er)|]. intros k [Ek E2]. unfold invoke_send. rewrite Ek. exact E2.
Qed.
Print Assumptions C101_call_partial.

(* respond_to?, method_defined? and the list of methods say the same: whether
   some ancestor defines the method *)
Theorem C101_questions_agree_partial : forall site csite w c l x name, calm site csite w -> mods w c <> None -> has_ancestors w c l -> single w c = false -> names x name ->
  let b := match first_own w name l with Some _ => true | None => false end in
  (exists w', eventually (fun k => respond_to w k c x = Ok (b, w'))) /\
  eventually (fun k => method_defined w k c x true = Ok b) /\
  eventually (fun k => method_defined w k c x false = Ok (match own_method w name c with Some _ => true | None => false end)).
Proof.
  intros site csite w c l x name C Hc A S N b. pose proof (calm_cinv site csite w C) as CI.
  assert (EN : expect_name x = Ok name) by (destruct N as [-> | ->]; reflexivity). split; [|split].
  - destruct (find_first site w c l name CI Hc A (or_introl S)) as (w' & F & _). exists w'. eapply ev_mono; [exact F|]. intros k Ek. unfold respond_to. rewrite EN. cbn [rbind]. rewrite Ek. reflexivity.
  - destruct (look_total w name c (c_wf site w CI) Hc) as [r L]. pose proof (lookup_own w name c l r (c_wf site w CI) Hc A L (or_introl S)) as E.
    eapply ev_mono; [exact L|]. intros k Ek. unfold method_defined. rewrite EN. cbn [rbind]. rewrite Ek. cbn [rbind]. unfold b. rewrite <- E. destruct r; reflexivity.
  - exists O. intros k _. unfold method_defined. rewrite EN. cbn [rbind]. unfold get_mod, own_method. destruct (mods w c); [reflexivity|congruence].
Qed.
Print Assumptions C101_questions_agree_partial.

(* instance_method: the first definition and the ancestor it comes from *)
Lemma first_def_split w name : forall l f o, first_def w name l = Some (f, o) -> exists p q, l = p ++ o :: q /\ first_def w name p = None /\ assoc name (mtab (exts w (xt w o))) = Some f.
Proof.
  induction l as [|a l IH]; intros f o; cbn [first_def]; [discriminate|]. destruct (assoc name (mtab (exts w (xt w a)))) as [g|] eqn:E.
  - intros [= <- <-]. exists [], l. auto.
  - intros H. destruct (IH f o H) as (p & q & -> & Hp & Ho). exists (a :: p), q. split; [reflexivity|]. split; [cbn [first_def]; rewrite E; exact Hp|exact Ho].
Qed.
Theorem C101_instance_method_partial : forall site csite w c l x name, hist site csite w -> mods w c <> None -> has_ancestors w c l -> single w c = false -> names x name ->
  (first_own w name l = None -> eventually (fun k => instance_method w k c x = Err NameErr)) /\
  (forall f, first_own w name l = Some f -> exists o p r q, eventually (fun k => instance_method w k c x = Ok (f, o)) /\ real_module w o = Ok r /\
     l = p ++ r :: q /\ first_own w name p = None /\ own_method w name r = Some f).
Proof.
  intros site csite w c l x name H Hc A S N. pose proof (hist_wf site csite w H) as W.
  assert (EN : expect_name x = Ok name) by (destruct N as [-> | ->]; reflexivity).
  destruct (chain_first w c l name W Hc A) as (lr & R & El & F).
  assert (L : look w name c (sm w name c lr [])) by (apply look_ok; [exact R|congruence]). unfold sm in L. rewrite S in L.
  assert (HM : forall y, In y (c :: vis w lr) -> mods w y <> None) by (intros y [<-|Hy]; [exact Hc|]; eapply raw_mods; [exact R|right; eapply vis_in; exact Hy]).
  split.
  - intros E. rewrite E in F. destruct (first_def w name (c :: vis w lr)); [discriminate|]. eapply ev_mono; [exact L|]. intros k Ek. unfold instance_method. rewrite EN. cbn [rbind]. rewrite Ek. reflexivity.
  - intros f E. rewrite E in F. destruct (first_def w name (c :: vis w lr)) as [[g o]|] eqn:D; [|discriminate]. injection F as ->.
    destruct (first_def_split w name _ f o D) as (p & q & Ep & Hp & Ho).
    assert (Hom : mods w o <> None) by (apply HM; rewrite Ep; apply in_or_app; right; left; reflexivity).
    exists o, (map (real w) p), (real w o), (map (real w) q). split; [eapply ev_mono; [exact L|]; intros k Ek; unfold instance_method; rewrite EN; cbn [rbind]; rewrite Ek; reflexivity|].
    split; [apply real_module_ok; [apply W|exact Hom]|]. split; [rewrite El, Ep, map_app; reflexivity|]. split.
    + rewrite <- (first_def_own w name p (w_orig w W)); [rewrite Hp; reflexivity|]. intros y Hy. apply HM. rewrite Ep. apply in_or_app. left. exact Hy.
    + destruct (xt_real w o (w_orig w W) Hom) as [E1 E2]. unfold own_method. destruct (mods w (real w o)) as [m|] eqn:Em; [|congruence]. unfold xt in E2 at 1. rewrite Em in E2. rewrite E2. exact Ho.
Qed.
Print Assumptions C101_instance_method_partial.

(* send starts what the call at the site starts; not when no ancestor defines
   the method and not with keyword arguments: C101_send_missing_refuted,
   C101_send_keywords_refuted *)
Theorem C101_send_partial : forall site csite w slot c l own a, calm site csite w -> 0 <= slot < zlen (icache w) -> mods w c <> None -> has_ancestors w c l ->
  first_own w (site slot) l <> None -> a_kw a = None ->
  exists k w1 w2, eventually (fun n => call_site w n slot own c (site slot) a = Ok (k, w1)) /\
    eventually (fun n => obj_send w n c (mkArgs (ASym (site slot) :: a_pos a) (a_block a) (a_kw a)) = Ok (k, w2)).
Proof.
  intros site csite w slot c l own a C Hs Hc A Hf K. pose proof (calm_cinv site csite w C) as CI.
  destruct (site_first site w slot c l CI Hs Hc A (or_intror Hf)) as (w1 & F1 & _). destruct (find_first site w c l (site slot) CI Hc A (or_intror Hf)) as (w2 & F2 & _).
  destruct (first_own w (site slot) l) as [f|]; [|congruence]. exists (mkCall f a), w1, w2. split.
  - eapply ev_mono; [exact F1|]. intros n En. unfold call_site. rewrite En. reflexivity.
  - eapply ev_mono; [exact F2|]. intros n En. unfold obj_send, get_method_or_nomethod. cbn [a_pos a_block]. rewrite En. cbn [rbind fst snd]. destruct a as [pos bl kw]. cbn in *. rewrite K. reflexivity.
Qed.
Print Assumptions C101_send_partial.

(* an operation other than defining that method leaves a class's own method alone *)
Lemma step_own site csite o w w' c new : Wf w -> op_ok o -> runs site csite o w w' -> user_mod w c = true -> (forall g, o <> Define c new g) ->
  user_mod w' c = true /\ own_method w' new c = own_method w new c.
Proof.
  intros W OK R U N. pose proof (user_mod_ok _ _ U) as [Hc Hi].
  assert (OC : only_caches w w' -> user_mod w' c = true /\ own_method w' new c = own_method w new c).
  { intros (M & X & _). unfold user_mod, own_method. rewrite M, X. auto. }
  assert (NC : forall p sup sg cls, (p = true -> sup = None) -> (forall s, sup = Some s -> mods w s <> None) -> (sg = true -> mods w cls <> None) -> snd (new_class w p sup sg cls) = w' ->
    user_mod w' c = true /\ own_method w' new c = own_method w new c).
  { intros p sup sg cls H1 H2 H3 E. destruct (new_class w p sup sg cls) as [a w1] eqn:En. cbn in E. subst w1.
    destruct (new_class_effect w p sup sg cls a w' W H1 H2 H3 En) as (_ & _ & _ & _ & _ & _ & M & O & _). split; [unfold user_mod; rewrite M by exact Hc; exact U|apply O; exact Hc]. }
  unfold runs in R. destruct o as [sup cls|cls|sup cls|c' m|c' m|c' name fid|c' id v| | |slot c'|c' name|c' name|slot]; cbn [exec op_ok] in *.
  - apply ev_if in R. destruct R as [C R]. apply ev_ok in R. injection R as R. eapply (NC false sup false cls); try discriminate; [|exact R]. intros s ->. apply andb_prop in C. apply user_mod_ok. apply C.
  - apply ev_ok in R. injection R as R. eapply (NC true None false cls); try discriminate; [reflexivity|exact R].
  - apply ev_if in R. destruct R as [C R]. apply ev_ok in R. injection R as R. apply andb_prop in C. destruct C as [C C3]. apply andb_prop in C. destruct C as [C1 C2].
    eapply (NC false (Some sup) true cls); try discriminate; [| |exact R]; [intros s [= <-]; apply user_mod_ok; exact C1|intros _; apply user_mod_ok; exact C3].
  - apply ev_if in R. destruct R as [C R]. apply andb_prop in C. destruct C as [C Cm]. apply andb_prop in C. destruct C as [C1 C2].
    destruct (include_step w c' m w' W C1 C2 Cm OK R) as (_ & _ & _ & w2 & ns & rm & -> & _ & _ & I). destruct (inserted_own w w2 c' ns new c I Hc) as (A & _ & B). rewrite B. auto.
  - apply ev_if in R. destruct R as [C R]. apply andb_prop in C. destruct C as [C Cm]. apply andb_prop in C. destruct C as [C1 C2].
    destruct (prepend_step w c' m w' W C1 C2 Cm OK R) as (_ & _ & _ & w2 & ns & ds & rm & -> & _ & I & _). destruct (inserted_own w w2 c' (ns ++ ds) new c I Hc) as (A & _ & B). rewrite B. auto.
  - apply (ev_if _ (fun _ => add_method w c' name fid)) in R. destruct R as [C R]. apply ev_ok in R. destruct (define_effect w c' name fid w' W C R) as (D & _). split.
    + unfold add_method in R. apply bind_ok in R. destruct R as (m & _ & [= <-]). exact U.
    + rewrite (D new c U). destruct (Z.eqb_spec c c') as [<-|]; [|reflexivity]. destruct (Z.eqb_spec new name) as [<-|]; [|reflexivity]. destruct (N fid). reflexivity.
  - apply (ev_if _ (fun _ => set_const w c' id v)) in R. destruct R as [C R]. apply ev_ok in R. unfold set_const in R. apply bind_ok in R. destruct R as (m & _ & [= <-]). split; [exact U|].
    unfold own_method. cbn [mods exts]. destruct (mods w c) as [mc|]; [|congruence]. unfold upd. destruct (Z.eqb_spec (m_ext mc) (m_ext m)) as [->|]; reflexivity.
  - apply ev_ok in R. injection R as <-. apply OC. repeat split.
  - apply ev_ok in R. injection R as <-. apply OC. repeat split.
  - apply ev_if in R. destruct R as [C R]. destruct (ev_here _ _ R) as [k Rk]. apply bind_ok in Rk. destruct Rk as (x & Ex & [= <-]). apply OC. apply (find_inline_only _ _ _ _ _ _ Ex).
  - apply ev_if in R. destruct R as [C R]. destruct (ev_here _ _ R) as [k Rk]. apply bind_ok in Rk. destruct Rk as (x & Ex & [= <-]). apply OC. apply (find_method_only _ _ _ _ _ Ex).
  - apply ev_if in R. destruct R as [C R]. destruct (ev_here _ _ R) as [k Rk]. apply bind_ok in Rk. destruct Rk as (x & Ex & [= <-]). apply OC. apply (super_only _ _ _ _ _ Ex).
  - destruct (csite slot) as [[scope cls] [id ob]]. destruct (ev_here _ _ R) as [k Rk]. apply bind_ok in Rk. destruct Rk as (x & Ex & [= <-]). apply OC. apply (read_const_only _ _ _ _ _ _ _ _ Ex).
Qed.
Lemma later_own site csite c new w w2 : later site csite c new w w2 -> hist site csite w -> user_mod w c = true -> own_method w2 new c = own_method w new c.
Proof.
  induction 1 as [|w o w1 w2 OK N R L IH]; intros H U; [reflexivity|]. destruct (step_own site csite o w w1 c new (hist_wf site csite w H) OK R U N) as [U1 E].
  rewrite <- E. apply IH; [eapply h_step; eassumption|exact U1].
Qed.
(* alias: the new name gets what the old one finds now, nothing else changes,
   and the new name keeps it whatever is defined later *)
Theorem C101_alias : forall site csite w c l new org f, calm site csite w -> user_mod w c = true -> has_ancestors w c l -> first_own w org l = Some f ->
  exists w', eventually (fun k => alias_method w k c new org = Ok w') /\ hist site csite w' /\
    (forall n x, user_mod w x = true -> own_method w' n x = if (x =? c) && (n =? new) then Some f else own_method w n x) /\
    (forall x lx, has_ancestors w' x lx <-> has_ancestors w x lx) /\
    (forall w2, later site csite c new w' w2 -> look w2 new c (Some (f, c))).
Proof.
  intros site csite w c l new org f C U A E. pose proof (calm_cinv site csite w C) as CI. pose proof (user_mod_ok _ _ U) as [Hc Hi].
  destruct (find_first site w c l org CI Hc A ltac:(right; congruence)) as (w1 & F & O & C1). rewrite E in F. pose proof O as (OM & OX & _).
  assert (W1 : Wf w1) by apply (c_wf site w1 C1).
  assert (UM : forall x, user_mod w1 x = user_mod w x) by (intros x; unfold user_mod; rewrite OM; reflexivity).
  assert (R1 : runs site csite (Find c org) w w1) by (eapply ev_mono; [exact F|]; intros k Ek; cbn [exec]; rewrite U, Ek; reflexivity).
  assert (H1 : hist site csite w1) by (eapply h_step with (o := Find c org); [apply (calm_hist site csite w C)|exact I|exact R1]).
  destruct (add_method w1 c new f) as [w'| |] eqn:Ea; try (unfold add_method, get_mod in Ea; rewrite OM in Ea; destruct (mods w c); [discriminate|congruence]).
  exists w'. destruct (define_effect w1 c new f w' W1 ltac:(rewrite UM; exact U) Ea) as (D1 & D2 & _).
  assert (H' : hist site csite w') by (eapply h_step with (o := Define c new f); [exact H1|exact I|apply (exec_runs site csite 0); cbn [exec]; rewrite UM, U; exact Ea]).
  split; [eapply ev_mono; [exact F|]; intros k Ek; unfold alias_method, get_method_or_nomethod; rewrite Ek; cbn [rbind fst snd]; exact Ea|]. split; [exact H'|].
  assert (O1 : forall n x, own_method w1 n x = own_method w n x) by (intros n x; unfold own_method; rewrite OM, OX; reflexivity).
  assert (UM' : forall x, user_mod w' x = user_mod w x).
  { intros x. rewrite <- UM. unfold add_method in Ea. apply bind_ok in Ea. destruct Ea as (m & _ & [= <-]). reflexivity. }
  split; [intros n x Hx; rewrite (D1 n x ltac:(rewrite UM; exact Hx)), O1; reflexivity|]. split.
  - intros x lx. rewrite D2. assert (B : forall lx, has_ancestors w x lx -> has_ancestors w1 x lx).
    { intros ly Ay. assert (Hx : mods w x <> None) by (destruct Ay as [N Ay]; specialize (Ay (S N) ltac:(lia)); cbn [ancestors] in Ay; unfold real_module, get_mod in Ay; destruct (mods w x); [discriminate|discriminate Ay]).
      eapply agree_anc; [apply (c_wf site w CI)|exact W1|intros; rewrite OM; reflexivity|intros; rewrite OX; reflexivity|exact Hx|exact Ay]. }
    split; [|apply B]. intros Ay. assert (Hx : mods w x <> None) by (destruct Ay as [N Ay]; specialize (Ay (S N) ltac:(lia)); cbn [ancestors] in Ay; unfold real_module, get_mod in Ay; rewrite OM in Ay; destruct (mods w x); [discriminate|discriminate Ay]).
    eapply agree_anc; [exact W1|apply (c_wf site w CI)|intros; rewrite OM; reflexivity|intros; rewrite OX; reflexivity|rewrite OM; exact Hx|exact Ay].
  - intros w2 L. specialize (D1 new c ltac:(rewrite UM; exact U)). rewrite !Z.eqb_refl in D1. cbn [andb] in D1.
    assert (E2 : own_method w2 new c = Some f) by (rewrite (later_own site csite c new w' w2 L H' ltac:(rewrite UM'; exact U)); exact D1).
    exists 1%nat. intros k Hk. destruct k as [|k]; [lia|]. unfold search_method. cbn [search_chain]. unfold own_method in E2. unfold get_mod.
    destruct (mods w2 c) as [m|]; [|discriminate]. cbn [rbind]. rewrite E2. reflexivity.
Qed.
Print Assumptions C101_alias.
Theorem C101_alias_undefined : forall site csite w c l new org, calm site csite w -> mods w c <> None -> has_ancestors w c l -> single w c = false -> first_own w org l = None ->
  eventually (fun k => alias_method w k c new org = Err NoMethodErr).
Proof.
  intros site csite w c l new org C Hc A S E. destruct (find_first site w c l org (calm_cinv site csite w C) Hc A (or_introl S)) as (w' & F & _). rewrite E in F.
  eapply ev_mono; [exact F|]. intros k Ek. unfold alias_method, get_method_or_nomethod. rewrite Ek. reflexivity.
Qed.
Print Assumptions C101_alias_undefined.

(* ---- examples ---- *)
(* A < Object includes M, B < A; M defines 100, A 101, Object 102 and method_missing; call sites for 100, 101, 102, 103 *)
Definition rx : list op := ex_base ++ [Include 9 10; Define 10 100 1; Define 9 101 2; Define 8 102 3; Define 8 METHOD_MISSING 4; Define 9 101 5; NewSite; NewSite; NewSite; NewSite; Call 1 12].
Definition rw : world := w_of false rx.
Lemma rw_calm : calm ex_site ex_csite rw.
Proof. apply calm_of. vm_compute. reflexivity. Qed.
Lemma rw_anc : has_ancestors rw 12 [12; 9; 10; 8].
Proof. apply (anc_runs _ 20). vm_compute. reflexivity. Qed.
Example C101_methods_example : hist ex_site ex_csite rw /\ mods rw 12 <> None /\ has_ancestors rw 12 [12; 9; 10; 8] /\
  instance_methods rw 9 12 true = Ok [101; 100; 102; 26] /\ instance_methods rw 9 9 false = Ok [101] /\ instance_methods rw 9 12 false = Ok [].
Proof. split; [apply calm_hist, rw_calm|]. split; [vm_compute; discriminate|]. split; [apply rw_anc|]. vm_compute. auto. Qed.
Definition res_call (r : res (call * world)) : res call := x <- r ;; Ok (fst x).
Example C101_call_example : 0 <= 3 < zlen (icache rw) /\ single rw 12 = false /\ plain rw [12; 9; 10; 8] (ex_site 1) (mkArgs [AVal 7] (Some 50) (Some 60)) /\ plain rw [12; 9; 10; 8] (ex_site 3) (mkArgs [AVal 7] None None) /\
  res_call (call_site rw 9 1 false 12 (ex_site 1) (mkArgs [AVal 7] (Some 50) (Some 60))) = Ok (mkCall 5 (mkArgs [AVal 7] (Some 50) (Some 60))) /\
  res_call (call_site rw 9 3 false 12 (ex_site 3) (mkArgs [AVal 7] None None)) = Ok (mkCall 4 (mkArgs [ASym 103; AVal 7] None None)).
Proof.
  split; [vm_compute; split; [discriminate|reflexivity]|]. split; [vm_compute; reflexivity|]. split; [left; vm_compute; discriminate|]. split; [right; auto|]. vm_compute. auto.
Qed.
Example C101_questions_example : names (AStr 100) 100 /\ single rw 12 = false /\ (b <- respond_to rw 9 12 (AStr 100) ;; Ok (fst b)) = Ok true /\ (b <- respond_to rw 9 12 (ASym 103) ;; Ok (fst b)) = Ok false /\
  method_defined rw 9 12 (ASym 101) true = Ok true /\ method_defined rw 9 12 (ASym 101) false = Ok false /\ instance_method rw 9 12 (ASym 100) = Ok (1, 13) /\ real_module rw 13 = Ok 10.
Proof. split; [right; reflexivity|]. vm_compute. auto 10. Qed.
Example C101_send_example : first_own rw (ex_site 1) [12; 9; 10; 8] <> None /\
  res_call (obj_send rw 9 12 (mkArgs [ASym (ex_site 1); AVal 7] (Some 50) None)) = Ok (mkCall 5 (mkArgs [AVal 7] (Some 50) None)).
Proof. split; vm_compute; [discriminate|reflexivity]. Qed.
(* alias 200 101 in B, then A redefines 101: 200 is still the old one *)
Example C101_alias_example : user_mod rw 12 = true /\ first_own rw 101 [12; 9; 10; 8] = Some 5 /\ first_own rw 103 [12; 9; 10; 8] = None /\
  match alias_method rw 9 12 200 101 with
  | Ok w' => match exec ex_site ex_csite 9 (Define 9 101 6) w' with
             | Ok w2 => search_method w2 9 200 12 = Ok (Some (5, 12)) /\ search_method w2 9 101 12 = Ok (Some (6, 9))
             | _ => False end
  | _ => False end.
Proof. vm_compute. auto. Qed.

(* ---- where asking and calling part ---- *)
(* an object with a singleton class responds to the class methods of classes:
   respond_to? says true to what methods does not list *)
Theorem C101_singleton_refuted : exists site csite w c l name w', calm site csite w /\ has_ancestors w c l /\ first_own w name l = None /\
  eventually (fun k => respond_to w k c (ASym name) = Ok (true, w')).
Proof.
  set (w := w_of false [NewClass None 8; NewClass (Some 8) 8; NewSingleton 8 9; Define 9 100 5]).
  assert (C : calm ex_site ex_csite w) by (apply calm_of; vm_compute; reflexivity).
  assert (L : look w 100 10 (Some (5, 9))) by (apply (look_runs _ 20); vm_compute; reflexivity).
  destruct (find_method_ok ex_site w 10 100 _ (calm_cinv _ _ _ C) L) as (w' & F & _).
  exists ex_site, ex_csite, w, 10, [10; 8], 100, w'. split; [exact C|]. split; [apply (anc_runs _ 20); vm_compute; reflexivity|]. split; [vm_compute; reflexivity|].
  eapply ev_mono; [exact F|]. intros k Ek. unfold respond_to. cbn [expect_name rbind]. rewrite Ek. reflexivity.
Qed.
(* the call goes to method_missing, send of the same name raises NoMethodError *)
Theorem C101_send_missing_refuted : exists site csite w slot c a m w1, calm site csite w /\ 0 <= slot < zlen (icache w) /\
  eventually (fun k => call_site w k slot false c (site slot) a = Ok (mkCall m (to_missing (site slot) a), w1)) /\
  eventually (fun k => obj_send w k c (mkArgs (ASym (site slot) :: a_pos a) (a_block a) (a_kw a)) = Err NoMethodErr).
Proof.
  destruct (C101_call_partial ex_site ex_csite rw 3 12 [12; 9; 10; 8] false (mkArgs [AVal 7] None None) rw_calm) as [(r & E & M) _];
    [vm_compute; split; [discriminate|reflexivity]|vm_compute; discriminate|apply rw_anc|vm_compute; reflexivity|right; auto|].
  unfold call_means in M. change (first_own rw (ex_site 3) [12; 9; 10; 8]) with (@None Z) in M. change (first_own rw METHOD_MISSING [12; 9; 10; 8]) with (Some 4) in M. destruct M as [w1 ->].
  exists ex_site, ex_csite, rw, 3, 12, (mkArgs [AVal 7] None None), 4, w1. split; [apply rw_calm|]. split; [vm_compute; split; [discriminate|reflexivity]|]. split; [exact E|].
  destruct (find_first ex_site rw 12 [12; 9; 10; 8] (ex_site 3) (calm_cinv _ _ _ rw_calm)) as (w2 & F & _); [vm_compute; discriminate|apply rw_anc|left; vm_compute; reflexivity|].
  eapply ev_mono; [exact F|]. intros k Ek. unfold obj_send, get_method_or_nomethod. cbn [a_pos]. rewrite Ek. reflexivity.
Qed.
(* send drops keyword arguments *)
Theorem C101_send_keywords_refuted : exists site csite w slot c a f w1 w2 k1 k2, calm site csite w /\ 0 <= slot < zlen (icache w) /\
  eventually (fun k => call_site w k slot false c (site slot) a = Ok (mkCall f k1, w1)) /\ a_kw k1 = Some 60 /\
  eventually (fun k => obj_send w k c (mkArgs (ASym (site slot) :: a_pos a) (a_block a) (a_kw a)) = Ok (mkCall f k2, w2)) /\ a_kw k2 = None.
Proof.
  destruct (C101_call_partial ex_site ex_csite rw 1 12 [12; 9; 10; 8] false (mkArgs [] None (Some 60)) rw_calm) as [(r & E & M) _];
    [vm_compute; split; [discriminate|reflexivity]|vm_compute; discriminate|apply rw_anc|vm_compute; reflexivity|left; vm_compute; discriminate|].
  unfold call_means in M. change (first_own rw (ex_site 1) [12; 9; 10; 8]) with (Some 5) in M. destruct M as [w1 ->].
  destruct (find_first ex_site rw 12 [12; 9; 10; 8] (ex_site 1) (calm_cinv _ _ _ rw_calm)) as (w2 & F & _); [vm_compute; discriminate|apply rw_anc|left; vm_compute; reflexivity|].
  exists ex_site, ex_csite, rw, 1, 12, (mkArgs [] None (Some 60)), 5, w1, w2, (mkArgs [] None (Some 60)), (mkArgs [] None None). split; [apply rw_calm|]. split; [vm_compute; split; [discriminate|reflexivity]|].
  split; [exact E|]. split; [reflexivity|]. split; [|reflexivity]. eapply ev_mono; [exact F|]. intros k Ek. unfold obj_send, get_method_or_nomethod. cbn [a_pos]. rewrite Ek. reflexivity.
Qed.
(* send with the name as a string: ArgumentError, whatever is defined *)
Theorem C101_send_string_refuted : exists site csite w c l name, calm site csite w /\ has_ancestors w c l /\ first_own w name l <> None /\
  forall k rest bl kw, obj_send w k c (mkArgs (AStr name :: rest) bl kw) = Err ArgErr.
Proof. exists ex_site, ex_csite, rw, 12, [12; 9; 10; 8], 101. split; [apply rw_calm|]. split; [apply rw_anc|]. split; [vm_compute; discriminate|]. reflexivity. Qed.
(* method_missing gets neither the block nor the keyword arguments of the call *)
Theorem C101_missing_block_refuted : exists site csite w slot c a m w1 k1, calm site csite w /\ 0 <= slot < zlen (icache w) /\
  eventually (fun k => call_site w k slot false c (site slot) a = Ok (mkCall m k1, w1)) /\ a_block a <> None /\ a_kw a <> None /\ a_block k1 = None /\ a_kw k1 = None.
Proof.
  pose proof (calm_cinv _ _ _ rw_calm) as CI.
  destruct (site_first ex_site rw 3 12 [12; 9; 10; 8] CI) as (w1 & F & O & C1); [vm_compute; split; [discriminate|reflexivity]|vm_compute; discriminate|apply rw_anc|left; vm_compute; reflexivity|].
  destruct (only_facts rw w1 12 [12; 9; 10; 8] (c_wf _ _ CI) O) as (Hc1 & A1 & S1); [vm_compute; discriminate|apply rw_anc|vm_compute; reflexivity|].
  destruct (find_first ex_site w1 12 [12; 9; 10; 8] METHOD_MISSING C1 Hc1 A1 (or_introl S1)) as (w2 & F2 & _). rewrite (only_first rw w1 _ _ O) in F2.
  exists ex_site, ex_csite, rw, 3, 12, (mkArgs [AVal 7] (Some 50) (Some 60)), 4, w2, (mkArgs [ASym 103; AVal 7] None None).
  split; [apply rw_calm|]. split; [vm_compute; split; [discriminate|reflexivity]|]. split; [|cbn; repeat split; discriminate].
  eapply ev_mono; [apply (ev_and _ _ F F2)|]. intros k [E1 E2]. unfold call_site. rewrite E1. change (first_own rw (ex_site 3) [12; 9; 10; 8]) with (@None Z). cbn [rbind fst snd].
  unfold invoke_method_missing. rewrite E2. change (first_own rw METHOD_MISSING [12; 9; 10; 8]) with (Some 4). reflexivity.
Qed.
(* included_modules of a class with a prepended module lists the class itself *)
Theorem C101_included_modules_refuted : exists site csite w c r, calm site csite w /\ module_p w c = false /\ user_mod w c = true /\ included_modules w 20 c = Ok r /\ In c r.
Proof.
  exists ex_site, ex_csite, (w_of false (ex_base ++ [Prepend 9 10])), 9, [10; 9]. split; [apply calm_of; vm_compute; reflexivity|]. split; [vm_compute; reflexivity|]. split; [vm_compute; reflexivity|].
  split; [vm_compute; reflexivity|]. right. left. reflexivity.
Qed.
(* alias in a module of a method of Object: an error, where an object whose
   class includes the module can call the method *)
Theorem C101_alias_module_refuted : exists site csite w c l m org f, calm site csite w /\ has_ancestors w c l /\ In m l /\ module_p w m = true /\ first_own w org l = Some f /\
  eventually (fun k => alias_method w k m 200 org = Err NoMethodErr).
Proof.
  exists ex_site, ex_csite, rw, 12, [12; 9; 10; 8], 10, 102, 3. split; [apply rw_calm|]. split; [apply rw_anc|]. split; [cbn; auto|]. split; [vm_compute; reflexivity|]. split; [vm_compute; reflexivity|].
  apply (C101_alias_undefined ex_site ex_csite rw 10 [10] 200 102 rw_calm); [vm_compute; discriminate|apply (anc_runs _ 20); vm_compute; reflexivity|vm_compute; reflexivity|vm_compute; reflexivity].
Qed.
Print Assumptions C101_singleton_refuted.
Print Assumptions C101_send_missing_refuted.
Print Assumptions C101_send_keywords_refuted.
Print Assumptions C101_send_string_refuted.
Print Assumptions C101_missing_block_refuted.
Print Assumptions C101_included_modules_refuted.
Print Assumptions C101_alias_module_refuted.
