(* Histories of class operations: well-formedness, lookup, caches. *)
From Verif Require Import Base ProofsBase ModelArray ProofsArray ModelGC ProofsGC ModelClass SpecClass ProofsClass ProofsClass2 ProofsClass3.

Lemma ev_and (P Q : nat -> Prop) : eventually P -> eventually Q -> eventually (fun f => P f /\ Q f).
Proof. intros [N1 H1] [N2 H2]. exists (N1 + N2)%nat. intros f Hf. split; [apply H1|apply H2]; lia. Qed.
Lemma ev_det {A} (F : nat -> res A) x y : eventually (fun f => F f = Ok x) -> eventually (fun f => F f = Ok y) -> x = y.
Proof. intros [N1 H1] [N2 H2]. specialize (H1 (N1 + N2)%nat ltac:(lia)). specialize (H2 (N1 + N2)%nat ltac:(lia)). congruence. Qed.
Lemma ev_mono (P Q : nat -> Prop) : eventually P -> (forall f, P f -> Q f) -> eventually Q.
Proof. intros [N H] I. exists N. intros f Hf. apply I, H, Hf. Qed.
Lemma ev_ok (P : Prop) : eventually (fun _ => P) -> P.
Proof. intros [N H]. apply (H N). lia. Qed.

(* worlds that agree where it matters for lookup *)
Definition agree (w w' : world) : Prop :=
  (forall a, mods w a <> None -> mods w' a = mods w a) /\
  (forall a, mods w a <> None -> mtab (exts w' (xt w a)) = mtab (exts w (xt w a)) /\ is_singleton (exts w' (xt w a)) = is_singleton (exts w (xt w a))).
Lemma agree_raw w w' a l : (forall a, mods w a <> None -> mods w' a = mods w a) -> raw w a l -> raw w' a l.
Proof. intros H R. eapply links_ext; [|exact R]. intros x Hx. unfold up. rewrite H; [reflexivity|]. eapply raw_mods; eassumption. Qed.

Lemma new_class_wf w p sup single cls a w' : Wf w -> (p = true -> sup = None) -> (forall s, sup = Some s -> mods w s <> None) -> (single = true -> mods w cls <> None) ->
  new_class w p sup single cls = (a, w') ->
  Wf w' /\ mods w a = None /\ mods w' = upd (mods w) a (Some (mkMod sup p false false (next_ext w) cls)) /\
  exts w' = upd (exts w) (next_ext w) (mkExt [] [] single None) /\ version w' = version w /\ caches_same w w' /\ agree w w'.
Proof.
  intros W Hp Hs Hc E. unfold new_class in E. set (w1 := mkW _ _ _ _ _ _ _ _ _ _) in E.
  assert (S1 : supply_ok w1) by (destruct (wf_supply w W); constructor; assumption).
  destruct (new_mod_ok w1 _ a w' S1 E) as (Hn & Hpos & Em & Ee & Ene & Ev & Ec & S'). change (mods w1) with (mods w) in *. cbn in Ene, Ev.
  change (exts w1) with (upd (exts w) (next_ext w) (mkExt [] [] single None)) in Ee.
  assert (MO : forall x, mods w x <> None -> mods w' x = mods w x) by (intros x Hx; rewrite Em, upd_other; [reflexivity|intros ->; congruence]).
  assert (XO : forall x, mods w x <> None -> exts w' (xt w x) = exts w (xt w x)).
  { intros x Hx. rewrite Ee, upd_other; [reflexivity|]. pose proof (w_ext w W x Hx). lia. }
  assert (D : forall x, mods w' x <> None <-> mods w x <> None \/ x = a).
  { intros x. rewrite Em. unfold upd. destruct (Z.eqb_spec x a) as [->|]; split; intros H; try tauto; try discriminate. }
  assert (IO : forall x, mods w x <> None -> inc w' x = inc w x /\ xt w' x = xt w x /\ modp w' x = modp w x /\ kl w' x = kl w x).
  { intros x Hx. unfold inc, xt, modp, kl. rewrite MO by exact Hx. auto. }
  assert (Ina : inc w' a = false /\ xt w' a = next_ext w /\ kl w' a = cls) by (unfold inc, xt, kl; rewrite Em, upd_same; auto).
  destruct Ina as (Ia & Xa & Ka).
  assert (RO : forall x l, raw w x l -> raw w' x l) by (intros x l; apply agree_raw; exact MO).
  split; [|split; [exact Hn|split; [exact Em|split; [exact Ee|split; [exact Ev|split; [exact Ec|]]]]]].
  - destruct S' as [SA SF SN]. constructor.
    + intros x Hx. apply D in Hx. destruct Hx as [Hx| ->].
      * destruct (w_chain w W x Hx) as [l R]. exists l. auto.
      * destruct sup as [s|].
        -- specialize (Hs s eq_refl). destruct (w_chain w W s Hs) as [l R]. exists (s :: l). split; [unfold up; rewrite Em, upd_same; reflexivity|]. apply RO. exact R.
        -- exists []. split; [unfold up; rewrite Em, upd_same; reflexivity|exact I].
    + intros x Hx Hi. apply D in Hx. destruct Hx as [Hx| ->]; [|congruence]. destruct (IO x Hx) as (H1 & H2 & _). rewrite H1 in Hi.
      destruct (w_orig w W x Hx Hi) as (o & E1 & E2 & E3 & E4). exists o. rewrite H2, XO by exact Hx. destruct (IO o E2) as (H3 & H4 & _). rewrite H3, H4.
      repeat split; try assumption. apply D. left. exact E2.
    + intros x l Hx Hm Hi R y Hy. apply D in Hx. destruct Hx as [Hx| ->].
      * destruct (IO x Hx) as (H1 & H2 & H3 & _). rewrite H1 in Hi. rewrite H3 in Hm. destruct (w_chain w W x Hx) as [l0 R0].
        assert (l = l0) by (eapply links_det; [exact R|apply RO; exact R0]). subst l0. pose proof (w_mod w W x l Hx Hm Hi R0 y Hy).
        assert (Hym : mods w y <> None) by (eapply raw_mods; [exact R0|right; exact Hy]). destruct (IO y Hym) as (E' & _). congruence.
      * assert (p = true) by (unfold modp in Hm; rewrite Em, upd_same in Hm; exact Hm). rewrite (Hp H) in Em.
        destruct R as [U _]. unfold up in U. rewrite Em, upd_same in U. injection U as U. destruct l; [destruct Hy|discriminate].
    + intros x Hx. rewrite Ene. apply D in Hx. destruct Hx as [Hx| ->].
      * destruct (IO x Hx) as (_ & H2 & _). rewrite H2. pose proof (w_ext w W x Hx). lia.
      * rewrite Xa. assert (0 <= next_ext w); [|lia]. destruct sup as [s|].
        -- pose proof (w_ext w W s (Hs s eq_refl)). lia.
        -- pose proof (w_next_ext w W). lia.
    + intros x y Hx Hy Hix Hiy Exy. apply D in Hx. apply D in Hy. destruct Hx as [Hx| ->], Hy as [Hy| ->]; [| | |reflexivity].
      * destruct (IO x Hx) as (H1 & H2 & _), (IO y Hy) as (H3 & H4 & _). apply (w_own w W); congruence.
      * destruct (IO x Hx) as (H1 & H2 & _). pose proof (w_ext w W x Hx). rewrite H2, Xa in Exy. lia.
      * destruct (IO y Hy) as (H1 & H2 & _). pose proof (w_ext w W y Hy). rewrite H2, Xa in Exy. lia.
    + intros x Hx Hsg. apply D in Hx. apply D. destruct Hx as [Hx| ->].
      * destruct (IO x Hx) as (_ & H2 & _ & H4). rewrite H2, XO in Hsg by exact Hx. rewrite H4. left. apply (w_single w W x Hx Hsg).
      * rewrite Xa, Ee, upd_same in Hsg. cbn in Hsg. rewrite Ka. left. apply Hc. exact Hsg.
    + exact SA.
    + exact SF.
    + exact SN.
    + rewrite Ene. pose proof (w_next_ext w W). lia.
  - split; [exact MO|]. intros x Hx. rewrite XO by exact Hx. auto.
Qed.

(* ---- lookup, independent of fuel ---- *)
Lemma single_xt w a : single w a = is_singleton (exts w (xt w a)).
Proof. reflexivity. Qed.
Definition sm (w : world) (name c : Z) (l lk : list Z) : option (Z * Z) :=
  match first_def w name (c :: vis w l) with
  | Some x => Some x
  | None => if single w c then first_def w name (kl w c :: vis w lk) else None
  end.
Lemma search_ok w name c l lk fuel : raw w c l -> (single w c = true -> raw w (kl w c) lk) -> (length l + length lk < fuel)%nat ->
  search_method w fuel name c = Ok (sm w name c l lk).
Proof.
  intros R RK HF. unfold search_method. rewrite (search_chain_ok w name fuel c l R ltac:(lia)).
  destruct R as [U _]. destruct (get_mod_up _ _ _ U) as (m & Em & _). unfold sm, single, kl, xt, get_mod in *. rewrite Em in *. cbn [rbind].
  destruct (first_def w name (c :: vis w l)); [reflexivity|]. destruct (is_singleton (exts w (m_ext m))); [|reflexivity].
  apply search_chain_ok; [apply RK; reflexivity|lia].
Qed.
Lemma wf_kl w c : Wf w -> mods w c <> None -> exists lk, single w c = true -> raw w (kl w c) lk.
Proof.
  intros W Hc. destruct (single w c) eqn:Es; [|exists []; discriminate].
  destruct (w_chain w W (kl w c) (w_single w W c Hc Es)) as [lk R]. exists lk. auto.
Qed.
Lemma look_ok w name c l lk : raw w c l -> (single w c = true -> raw w (kl w c) lk) -> look w name c (sm w name c l lk).
Proof. intros R RK. exists (S (length l + length lk)). intros f Hf. apply search_ok; auto; lia. Qed.
Lemma look_mods w name c r : look w name c r -> mods w c <> None.
Proof. intros [N H]. specialize (H N ltac:(lia)). unfold search_method, get_mod in H. destruct (mods w c); [discriminate|discriminate H]. Qed.
Lemma first_def_agree w w' name l : (forall x, In x l -> xt w' x = xt w x /\ mtab (exts w' (xt w x)) = mtab (exts w (xt w x))) -> first_def w' name l = first_def w name l.
Proof.
  induction l as [|a l IH]; intros H; [reflexivity|]. cbn [first_def]. destruct (H a (or_introl eq_refl)) as [E1 E2]. rewrite E1, E2, IH; [reflexivity|].
  intros x Hx. apply H. right. exact Hx.
Qed.
Lemma vis_in w l x : In x (vis w l) -> In x l.
Proof. unfold vis. intros H. apply filter_In in H. tauto. Qed.
Lemma look_agree w w' name c r : Wf w -> agree w w' -> look w name c r -> look w' name c r.
Proof.
  intros W [MO XO] L. pose proof (look_mods _ _ _ _ L) as Hc. destruct (w_chain w W c Hc) as [l R]. destruct (wf_kl w c W Hc) as [lk RK].
  assert (E : r = sm w name c l lk) by (eapply (ev_det (fun f => search_method w f name c)); [exact L|apply look_ok; assumption]). subst r.
  assert (AX : forall x, mods w x <> None -> xt w' x = xt w x /\ mtab (exts w' (xt w x)) = mtab (exts w (xt w x))).
  { intros x Hx. split; [unfold xt; rewrite MO by exact Hx; reflexivity|apply XO; exact Hx]. }
  assert (AS : single w' c = single w c).
  { rewrite !single_xt. destruct (AX c Hc) as [E _]. rewrite E. apply XO. exact Hc. }
  assert (AK : kl w' c = kl w c) by (unfold kl; rewrite MO by exact Hc; reflexivity).
  assert (AV : forall l, (forall x, In x l -> mods w x <> None) -> vis w' l = vis w l).
  { intros l0 H0. apply vis_att. intros x Hx. unfold hp. rewrite MO by (apply H0; exact Hx). reflexivity. }
  assert (AF : forall a l, raw w a l -> first_def w' name (a :: vis w' l) = first_def w name (a :: vis w l)).
  { intros a l0 R0. rewrite AV by (intros x Hx; eapply raw_mods; [exact R0|right; exact Hx]). apply first_def_agree. intros x Hx. apply AX.
    eapply raw_mods; [exact R0|]. destruct Hx as [<-|Hx]; [left; reflexivity|right; eapply vis_in; exact Hx]. }
  assert (Es : sm w' name c l lk = sm w name c l lk).
  { unfold sm. rewrite (AF c l R), AS, AK. destruct (first_def w name (c :: vis w l)); [reflexivity|]. destruct (single w c) eqn:Es; [|reflexivity]. apply AF. apply RK. reflexivity. }
  rewrite <- Es. apply look_ok; [eapply agree_raw; eassumption|]. rewrite AS, AK. intros Hs. eapply agree_raw; [exact MO|auto].
Qed.
Lemma agree_refl w w' : mods w' = mods w -> (forall e, mtab (exts w' e) = mtab (exts w e) /\ is_singleton (exts w' e) = is_singleton (exts w e)) -> agree w w'.
Proof. intros H1 H2. split; [intros; rewrite H1; reflexivity|intros; apply H2]. Qed.

(* a change of tables only *)
Lemma tables_wf w w' : mods w' = mods w -> avail w' = avail w -> next_mod w' = next_mod w -> next_ext w' = next_ext w ->
  (forall e, is_singleton (exts w' e) = is_singleton (exts w e) /\ e_origin (exts w' e) = e_origin (exts w e)) -> Wf w -> Wf w'.
Proof.
  intros E1 E2 E3 E4 E5 [WC WO WM WX WW WS WA WF WN WE].
  assert (R : forall a l, raw w' a l <-> raw w a l) by (intros a l; split; apply links_ext; intros; unfold up; rewrite E1; reflexivity).
  assert (Ai : forall a, inc w' a = inc w a) by (intros; unfold inc; rewrite E1; reflexivity).
  assert (Ax : forall a, xt w' a = xt w a) by (intros; unfold xt; rewrite E1; reflexivity).
  constructor; rewrite ?E1, ?E2, ?E3, ?E4; auto.
  - intros a Ha. destruct (WC a Ha) as [l H]. exists l. apply R. exact H.
  - intros a Ha Hi. rewrite E1 in Ha. rewrite Ai in Hi. destruct (WO a Ha Hi) as (o & H1 & H2 & H3 & H4). exists o. rewrite Ax. destruct (E5 (xt w a)) as [_ E]. rewrite E, E1, Ai, Ax. auto.
  - intros a l Ha Hm Hi H x Hx. rewrite Ai in *. apply R in H. apply (WM a l Ha); auto. unfold modp in *. rewrite E1 in Hm. exact Hm.
  - intros a Ha. rewrite Ax. auto.
  - intros a b Ha Hb. rewrite !Ai, !Ax. auto.
  - intros a Ha. rewrite Ax. destruct (E5 (xt w a)) as [E _]. rewrite E. unfold kl. rewrite E1. apply WS. exact Ha.
Qed.
Lemma upd_ext_same w e y m c s o : mkExt m c s o = mkExt m c (is_singleton (exts w e)) (e_origin (exts w e)) ->
  is_singleton (upd (exts w) e (mkExt m c s o) y) = is_singleton (exts w y) /\ e_origin (upd (exts w) e (mkExt m c s o) y) = e_origin (exts w y).
Proof. intros [= -> ->]. unfold upd. destruct (Z.eqb_spec y e) as [->|]; auto. Qed.

Lemma user_mod_ok w a : user_mod w a = true -> mods w a <> None /\ inc w a = false.
Proof. unfold user_mod, inc. destruct (mods w a) as [m|]; [|discriminate]. destruct (included m); [discriminate|]. split; [discriminate|reflexivity]. Qed.

(* include of a module into itself never returns: see C25 *)
Lemma self_include_stuck : forall fuel w a b, Pre w -> up w a = Some (Some b) -> mods w b <> None -> hp w b = false -> copy_chain fuel w a b = Panic.
Proof.
  induction fuel as [|n IH]; intros w a b P U Hb Hh; [reflexivity|]. cbn [copy_chain].
  assert (EU : upper w (S n) a = Ok (Some b)).
  { destruct (get_mod_up _ _ _ U) as (m & Em & Eu). unfold upper, get_mod. rewrite Em. cbn [rbind]. rewrite Eu. cbn [skip_prepend]. unfold get_mod.
    unfold hp in Hh. destruct (mods w b) as [mb|]; [|congruence]. cbn [rbind]. rewrite Hh. reflexivity. }
  rewrite EU. cbn [rbind]. destruct (gen_inc_ok w b P Hb) as (c & w1 & E1 & X1 & U1 & U1'). rewrite E1. cbn [rbind fst snd].
  assert (Hb1 : mods w1 b <> None) by (apply (x_dom _ _ _ _ X1); left; exact Hb).
  destruct (set_upper_ok w1 b (Some c) Hb1) as (w2 & E2 & A2 & EE2 & RS2 & UI & UO). rewrite E2. cbn [rbind].
  pose proof (x_new _ _ _ _ X1) as F. inversion F as [|? ? ? ? (G1 & G2 & G3) _]; subst. destruct (copy_facts _ _ _ _ G2) as (G4 & _ & G5 & _).
  apply IH.
  - eapply Pre_att; [exact A2|exact EE2|exact RS2|apply (x_pre _ _ _ _ X1)].
  - exact UI.
  - apply (att_some w1 w2 c c (A2 c)). exact G4.
  - rewrite (att_hp w1 w2 c c (A2 c)). congruence.
Qed.

Lemma append_self_stuck w a fuel : Wf w -> mods w a <> None -> hp w a = false -> append_include fuel w a a = Panic.
Proof.
  intros W Ha Hh. pose proof (wf_pre w W) as P. destruct (mods w a) as [m|] eqn:Em; [|congruence]. assert (Hm : mods w a <> None) by congruence.
  unfold append_include, get_mod. rewrite Em. cbn [rbind]. destruct (gen_inc_ok w a P Hm) as (c & w1 & E1 & X1 & U1 & U1'). rewrite E1. cbn [rbind fst snd].
  assert (Hb1 : mods w1 a <> None) by (apply (x_dom _ _ _ _ X1); left; exact Hm).
  destruct (set_upper_ok w1 a (Some c) Hb1) as (w2 & E2 & A2 & EE2 & RS2 & UI & UO). rewrite E2. cbn [rbind].
  pose proof (x_new _ _ _ _ X1) as F. inversion F as [|? ? ? ? (G1 & G2 & G3) _]; subst. destruct (copy_facts _ _ _ _ G2) as (G4 & _ & G5 & _).
  rewrite self_include_stuck; [reflexivity|eapply Pre_att; [exact A2|exact EE2|exact RS2|apply (x_pre _ _ _ _ X1)]|exact UI| |].
  - apply (att_some w1 w2 c c (A2 c)). exact G4.
  - rewrite (att_hp w1 w2 c c (A2 c)). congruence.
Qed.

(* ---- one operation ---- *)
Inductive change (w w' : world) : Prop :=
| ch_same : agree w w' -> version w' = version w -> change w w'
| ch_bump : version w' = (version w + 1) mod 2 ^ 32 -> change w w'.
Definition kagree (w w' : world) : Prop := (forall a, mods w a <> None -> mods w' a = mods w a) /\
  (forall a, mods w a <> None -> ctab (exts w' (xt w a)) = ctab (exts w (xt w a))).
Inductive kchange (w w' : world) : Prop :=
| k_same : kagree w w' -> cversion w' = cversion w -> kchange w w'
| k_bump : cversion w' = (cversion w + 1) mod 2 ^ 32 -> kchange w w'.
Lemma kagree_eq w w' : mods w' = mods w -> (forall e, ctab (exts w' e) = ctab (exts w e)) -> kagree w w'.
Proof. intros H1 H2. split; [intros; rewrite H1; reflexivity|intros; apply H2]. Qed.
Lemma bind_ok {A B} (r : res A) (f : A -> res B) y : rbind r f = Ok y -> exists x, r = Ok x /\ f x = Ok y.
Proof. destruct r; cbn; intros H; [eauto|discriminate|discriminate]. Qed.
Lemma new_class_step w p sup sg cls a w' : Wf w -> (p = true -> sup = None) -> (forall s, sup = Some s -> mods w s <> None) -> (sg = true -> mods w cls <> None) ->
  new_class w p sup sg cls = (a, w') -> Wf w' /\ change w w' /\ kchange w w' /\ caches_same w w'.
Proof.
  intros W Hp Hs Hc E. destruct (new_class_wf w p sup sg cls a w' W Hp Hs Hc E) as (W' & Hn & Em & Ee & Ev & Ec & Ag).
  split; [exact W'|]. split; [apply ch_same; assumption|]. split; [|exact Ec]. destruct Ec as (_ & _ & _ & Ecv). apply k_same; [|exact Ecv].
  split; [apply Ag|]. intros x Hx. rewrite Ee, upd_other; [reflexivity|]. pose proof (w_ext w W x Hx). lia.
Qed.
Lemma include_step w c M w' : Wf w -> user_mod w c = true -> user_mod w M = true -> module_p w M = true -> c <> M -> eventually (fun f => append_include f w c M = Ok w') ->
  Wf w' /\ change w w' /\ caches_same w w' /\ exists w2 ns lm, w' = inc_version w2 /\ raw w M lm /\ Extends w w2 ns (M :: vis w lm) /\ Inserted w w2 c ns.
Proof.
  intros W Hc HM HMm Hne [N H]. apply user_mod_ok in Hc, HM. destruct Hc as [Hc Hci], HM as [HM HMi]. destruct (w_chain w W M HM) as [lm RM].
  destruct (append_include_ok w c M lm (N + S (length lm)) W Hc Hci HM HMi HMm Hne RM ltac:(lia)) as (ns & w2 & E & X & I).
  rewrite H in E by lia. injection E as ->. split; [apply inc_version_wf; eapply inserted_wf; eassumption|]. split; [|split].
  - apply ch_bump. cbn. destruct (x_ver _ _ _ _ X) as (V & _). rewrite V. reflexivity.
  - destruct (x_ver _ _ _ _ X) as (_ & V & _). exact V.
  - exists w2, ns, lm. auto.
Qed.
Lemma prepend_step w c M w' : Wf w -> user_mod w c = true -> user_mod w M = true -> module_p w M = true -> c <> M -> eventually (fun f => append_prepend f w c M = Ok w') ->
  Wf w' /\ change w w' /\ caches_same w w' /\ exists w2 ns ds lm, w' = inc_version w2 /\ raw w M lm /\ Inserted w w2 c (ns ++ ds) /\ hp w2 c = true /\
    Forall2 (fun n s => hp w2 n = hp w s /\ real w2 n = real w s) ns (M :: vis w lm) /\
    (if hp w c then ds = [] else exists d, ds = [d] /\ hp w2 d = false /\ real w2 d = c) /\ (forall x, mods w x <> None -> x <> c -> hp w2 x = hp w x).
Proof.
  intros W Hc HM HMm Hne [N H]. apply user_mod_ok in Hc, HM. destruct Hc as [Hc Hci], HM as [HM HMi]. destruct (w_chain w W M HM) as [lm RM].
  destruct (append_prepend_ok w c M lm (N + S (length lm)) W Hc Hci HM HMi HMm Hne RM ltac:(lia)) as (ns & ds & w2 & E & I & P & F & D & O & V & CS).
  rewrite H in E by lia. injection E as ->. split; [apply inc_version_wf; eapply inserted_wf; eassumption|]. split; [|split].
  - apply ch_bump. cbn. rewrite V. reflexivity.
  - exact CS.
  - exists w2, ns, ds, lm. repeat (split; [first [reflexivity|assumption]|]). assumption.
Qed.
Lemma add_method_step w c name fid w' : Wf w -> add_method w c name fid = Ok w' -> Wf w' /\ change w w' /\ kchange w w' /\ caches_same w w'.
Proof.
  intros W E. unfold add_method, get_mod in E. destruct (mods w c) as [m|] eqn:Em; [|discriminate]. cbn [rbind] in E. injection E as <-.
  split; [|split; [|split]].
  - apply (tables_wf w); try reflexivity; [|exact W]. intros y. cbn. apply upd_ext_same. reflexivity.
  - apply ch_bump. reflexivity.
  - apply k_same; [|reflexivity]. apply kagree_eq; [reflexivity|]. intros e. cbn. unfold upd. destruct (Z.eqb_spec e (m_ext m)) as [->|]; reflexivity.
  - repeat split.
Qed.
Lemma set_const_step w c id v w' : Wf w -> set_const w c id v = Ok w' -> Wf w' /\ change w w' /\ kchange w w' /\ icache w' = icache w /\ mcache w' = mcache w /\ ccache w' = ccache w.
Proof.
  intros W E. unfold set_const, get_mod in E. destruct (mods w c) as [m|] eqn:Em; [|discriminate]. cbn [rbind] in E. injection E as <-.
  split; [|split; [|split]].
  - apply (tables_wf w); try reflexivity; [|exact W]. intros y. cbn. apply upd_ext_same. reflexivity.
  - apply ch_same; [|reflexivity]. apply agree_refl; [reflexivity|]. intros e. cbn. unfold upd. destruct (Z.eqb_spec e (m_ext m)) as [->|]; auto.
  - apply k_bump. reflexivity.
  - auto.
Qed.
Definition only_caches (w w' : world) : Prop := mods w' = mods w /\ exts w' = exts w /\ avail w' = avail w /\ next_mod w' = next_mod w /\ next_ext w' = next_ext w /\ version w' = version w /\ cversion w' = cversion w.
Lemma only_caches_wf w w' : only_caches w w' -> Wf w -> Wf w'.
Proof. intros (E1 & E2 & E3 & E4 & E5 & _) W. apply (tables_wf w); auto. rewrite E2. auto. Qed.
Lemma only_caches_agree w w' : only_caches w w' -> agree w w' /\ kagree w w'.
Proof. intros (E1 & E2 & _). split; [apply agree_refl|apply kagree_eq]; auto; rewrite E2; auto. Qed.
Lemma find_method_only w fuel c name r : find_method w fuel c name = Ok r -> only_caches w (snd r) /\ icache (snd r) = icache w /\ ccache (snd r) = ccache w.
Proof.
  unfold find_method. destruct (mc_get w c name) as [fid|]; [intros [= <-]; repeat split|]. destruct (search_method w fuel name c) as [[[fid o]|]| |]; cbn [rbind]; intros [= <-]; repeat split.
Qed.
Lemma find_inline_only w fuel slot c name r : find_method_inline w fuel slot c name = Ok r -> only_caches w (snd r) /\ ccache (snd r) = ccache w.
Proof.
  unfold find_method_inline. intros E. apply bind_ok in E. destruct E as (e & _ & E). destruct ((version w =? ie_version e) && (c =? ie_class e)); [injection E as <-; repeat split|].
  apply bind_ok in E. destruct E as (r1 & E1 & E). destruct (find_method_only _ _ _ _ _ E1) as (O & _ & K). destruct (fst r1) as [fid|]; [|injection E as <-; auto].
  apply bind_ok in E. destruct E as (t & _ & E). injection E as <-. destruct O as (O1 & O2 & O3 & O4 & O5 & O6 & O7). repeat split; assumption.
Qed.
Lemma super_only w fuel c name r : super_method w fuel c name = Ok r -> only_caches w (snd r) /\ icache (snd r) = icache w /\ ccache (snd r) = ccache w.
Proof.
  unfold super_method. intros E. apply bind_ok in E. destruct E as (s & _ & E). destruct s as [b|]; [eapply find_method_only; exact E|]. injection E as <-. repeat split.
Qed.
Lemma read_const_only w fuel slot scope cls id ob r : get_const_cached w fuel slot scope cls id ob = Ok r -> only_caches w (snd r) /\ icache (snd r) = icache w /\ mcache (snd r) = mcache w.
Proof.
  unfold get_const_cached. intros E. apply bind_ok in E. destruct E as (e & _ & E). destruct (match ce_val e with Some v => _ | None => None end); [injection E as <-; repeat split|].
  apply bind_ok in E. destruct E as (v & _ & E). apply bind_ok in E. destruct E as (t & _ & E). injection E as <-. repeat split.
Qed.
