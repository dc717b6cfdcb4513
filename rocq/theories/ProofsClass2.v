(* Copying chains: include and prepend. *)
From Verif Require Import Base ProofsBase ModelArray ProofsArray ModelGC ProofsGC ModelClass ProofsClass.

(* a node without its upper pointer *)
Definition strip (m : minfo) : minfo := mkMod None (is_module m) (included m) (has_prepend m) (m_ext m) (m_class m).
Definition copy (m : minfo) : minfo := mkMod None (is_module m) true (has_prepend m) (m_ext m) (m_class m).
Definition att (w : world) (a : Z) : option minfo := option_map strip (mods w a).
Lemma att_none w a : att w a = None <-> mods w a = None.
Proof. unfold att. destruct (mods w a); cbn; split; congruence. Qed.
Lemma att_hp w w' a b : att w' a = att w b -> hp w' a = hp w b.
Proof. unfold att, hp. destruct (mods w' a), (mods w b); cbn; intros H; inversion H; auto. Qed.
Lemma att_inc w w' a b : att w' a = att w b -> inc w' a = inc w b.
Proof. unfold att, inc. destruct (mods w' a), (mods w b); cbn; intros H; inversion H; auto. Qed.
Lemma att_modp w w' a b : att w' a = att w b -> modp w' a = modp w b.
Proof. unfold att, modp. destruct (mods w' a), (mods w b); cbn; intros H; inversion H; auto. Qed.
Lemma att_xt w w' a b : att w' a = att w b -> xt w' a = xt w b.
Proof. unfold att, xt. destruct (mods w' a), (mods w b); cbn; intros H; inversion H; auto. Qed.
Lemma att_kl w w' a b : att w' a = att w b -> kl w' a = kl w b.
Proof. unfold att, kl. destruct (mods w' a), (mods w b); cbn; intros H; inversion H; auto. Qed.
Lemma att_some w w' a b : att w' a = att w b -> (mods w' a <> None <-> mods w b <> None).
Proof. intros H. rewrite <- !att_none, H. tauto. Qed.
Lemma up_mods w a : mods w a <> None <-> up w a <> None.
Proof. unfold up. destruct (mods w a); cbn; split; congruence. Qed.
Definition is_copy (w : world) (s : Z) (w' : world) (n : Z) : Prop := att w' n = option_map copy (att w s) /\ mods w s <> None.
Lemma copy_facts w s w' n : is_copy w s w' n -> mods w' n <> None /\ inc w' n = true /\ hp w' n = hp w s /\ modp w' n = modp w s /\ xt w' n = xt w s /\ kl w' n = kl w s.
Proof.
  unfold is_copy, att, inc, hp, modp, xt, kl. destruct (mods w s) as [m|]; [|intros [_ H]; congruence]. destruct (mods w' n) as [m'|]; cbn; intros [H _]; [|discriminate].
  inversion H. repeat split; try discriminate; assumption.
Qed.
Definition own (w : world) : Prop := forall a b, mods w a <> None -> mods w b <> None -> inc w a = false -> inc w b = false -> xt w a = xt w b -> a = b.
Record Pre (w : world) : Prop := {
  p_supply : supply_ok w;
  p_orig : origins_ok w;
  p_own : own w;
  p_ext : forall a, mods w a <> None -> 0 <= xt w a < next_ext w }.
Lemma wf_pre w : Wf w -> Pre w.
Proof. intros H. constructor; [apply wf_supply; exact H|apply w_orig; exact H|exact (w_own w H)|exact (w_ext w H)]. Qed.
Definition rest_same (w w' : world) : Prop := avail w' = avail w /\ next_mod w' = next_mod w /\ next_ext w' = next_ext w /\ version w' = version w /\ caches_same w w'.
Lemma Pre_att w w' : (forall a, att w' a = att w a) -> exts w' = exts w -> rest_same w w' -> Pre w -> Pre w'.
Proof.
  intros EA EE (R1 & R2 & R3 & _) [S O W X].
  assert (EM : forall a, mods w' a <> None <-> mods w a <> None) by (intros a; apply att_some; apply EA).
  constructor.
  - destruct S as [[S1 S2] S3 [S4 S5]]. constructor; rewrite ?R1, ?R2.
    + split; [exact S1|]. intros a Ha. destruct (S2 a Ha) as [H1 H2]. split; [|exact H2]. apply att_none. rewrite EA. apply att_none. exact H1.
    + intros a Ha. apply S3, EM, Ha.
    + auto.
  - intros a Ha Hi. rewrite (att_inc w w' a a (EA a)) in Hi. destruct (O a (proj1 (EM a) Ha) Hi) as (o & E1 & E2 & E3 & E4). exists o.
    rewrite EE, (att_xt w w' a a (EA a)), (att_inc w w' o o (EA o)), (att_xt w w' o o (EA o)). repeat split; try assumption. apply EM. exact E2.
  - intros a b Ha Hb. rewrite !(att_inc w w' _ _ (EA _)), !(att_xt w w' _ _ (EA _)). apply W; apply EM; assumption.
  - intros a Ha. rewrite (att_xt w w' a a (EA a)), R3. apply X. apply EM. exact Ha.
Qed.
Lemma real_att w w' a : att w' a = att w a -> (forall e, e_origin (exts w' e) = e_origin (exts w e)) -> real w' a = real w a.
Proof. intros E H. unfold real. rewrite (att_inc w w' a a E), (att_xt w w' a a E), H. reflexivity. Qed.

Lemma set_upper_ok w a u : mods w a <> None -> exists w', set_upper w a u = Ok w' /\ (forall x, att w' x = att w x) /\ exts w' = exts w /\ rest_same w w' /\
  up w' a = Some u /\ (forall x, x <> a -> up w' x = up w x).
Proof.
  intros Ha. unfold set_upper, get_mod. destruct (mods w a) as [m|] eqn:Em; [|congruence]. cbn [rbind]. eexists. split; [reflexivity|]. cbn.
  split; [|split; [reflexivity|split; [repeat split|split]]].
  - intros x. unfold att, set_mods. cbn. unfold upd. destruct (Z.eqb_spec x a) as [->|]; [rewrite Em; reflexivity|reflexivity].
  - unfold up, set_mods. cbn. rewrite upd_same. reflexivity.
  - intros x Hx. unfold up, set_mods. cbn. rewrite upd_other by exact Hx. reflexivity.
Qed.

(* w' extends w with the nodes ns, copies of src; uppers aside *)
Record Extends (w w' : world) (ns src : list Z) : Prop := {
  x_old : forall a, mods w a <> None -> att w' a = att w a;
  x_new : Forall2 (fun n s => mods w n = None /\ is_copy w s w' n /\ real w' n = real w s) ns src;
  x_dom : forall a, mods w' a <> None <-> mods w a <> None \/ In a ns;
  x_exts : same_exts w w';
  x_real : forall a, mods w a <> None -> real w' a = real w a;
  x_pre : Pre w';
  x_ver : version w' = version w /\ caches_same w w' /\ next_ext w' = next_ext w;
  x_nodup : NoDup ns }.
Lemma gen_inc_ok w a : Pre w -> mods w a <> None ->
  exists n w', generate_included w a = Ok (n, w') /\ Extends w w' [n] [a] /\ (forall x, mods w x <> None -> up w' x = up w x) /\ up w' n = up w a.
Proof.
  intros [S O W X] Ha. unfold generate_included. rewrite (real_module_ok w a O Ha). unfold get_mod. destruct (mods w a) as [m|] eqn:Em; [|congruence].
  cbn [rbind].
  assert (Exa : xt w a = m_ext m) by (unfold xt; rewrite Em; reflexivity).
  (* the real module of a shares its ext *)
  assert (RA : mods w (real w a) <> None /\ inc w (real w a) = false /\ xt w (real w a) = xt w a).
  { unfold real. destruct (inc w a) eqn:Ei; [|rewrite Em; repeat split; congruence]. destruct (O a ltac:(congruence) Ei) as (o & E1 & E2 & E3 & E4). rewrite E1. auto. }
  destruct RA as (RA1 & RA2 & RA3).
  set (e := exts w (m_ext m)). set (w1 := set_exts w _).
  destruct (new_mod w1 (mkMod (m_upper m) (is_module m) true (has_prepend m) (m_ext m) (m_class m))) as [n w'] eqn:En.
  assert (S1 : supply_ok w1) by (destruct S; constructor; assumption).
  destruct (new_mod_ok w1 _ n w' S1 En) as (Hn & Hpos & Em' & Ee' & Ene' & Ev' & Ec' & S').
  change (mods w1) with (mods w) in *.
  assert (Hna : forall x, mods w x <> None -> x <> n) by (intros x Hx ->; congruence).
  assert (AO : forall x, mods w x <> None -> att w' x = att w x) by (intros x Hx; unfold att; rewrite Em', upd_other by (apply Hna; exact Hx); reflexivity).
  assert (XE : forall y, e_origin (exts w' y) = if y =? m_ext m then Some (real w a) else e_origin (exts w y)).
  { intros y. rewrite Ee'. unfold w1, set_exts. cbn. unfold upd. destruct (y =? m_ext m); reflexivity. }
  assert (RO : forall x, mods w x <> None -> real w' x = real w x).
  { intros x Hx. unfold real. rewrite (att_inc w w' x x (AO x Hx)), (att_xt w w' x x (AO x Hx)), XE. destruct (inc w x) eqn:Ei; [|reflexivity].
    destruct (O x Hx Ei) as (o & E1 & E2 & E3 & E4). rewrite E1. destruct (Z.eqb_spec (xt w x) (m_ext m)); [|reflexivity].
    apply W; try assumption. congruence. }
  assert (Cn : is_copy w a w' n).
  { split; [|congruence]. unfold att. rewrite Em', upd_same, Em. reflexivity. }
  assert (Rn : real w' n = real w a).
  { destruct (copy_facts _ _ _ _ Cn) as (_ & Hi & _ & _ & Hx & _). unfold real at 1. rewrite Hi, Hx, XE, Exa, Z.eqb_refl. reflexivity. }
  assert (DM : forall x, mods w' x <> None <-> mods w x <> None \/ In x [n]).
  { intros x. rewrite Em'. unfold upd. cbn [In]. destruct (Z.eqb_spec x n) as [->|]; split; intros H; try tauto; try discriminate. destruct H as [H|[H|[]]]; congruence. }
  exists n, w'. split; [reflexivity|]. split; [constructor|split].
  - exact AO.
  - constructor; [auto|constructor].
  - exact DM.
  - intros y. rewrite Ee'. unfold w1, set_exts. cbn. unfold upd. destruct (Z.eqb_spec y (m_ext m)) as [->|]; repeat split; reflexivity.
  - exact RO.
  - constructor.
    + exact S'.
    + intros x Hx Hi. apply DM in Hx. destruct Hx as [Hx|[<-|[]]].
      * rewrite (att_inc w w' x x (AO x Hx)) in Hi. destruct (O x Hx Hi) as (o & E1 & E2 & E3 & E4).
        assert (E0 : real w' x = o) by (rewrite RO by exact Hx; unfold real; rewrite Hi, E1; reflexivity).
        unfold real in E0. rewrite (att_inc w w' x x (AO x Hx)), Hi in E0.
        assert (E5 : e_origin (exts w' (xt w' x)) = Some o).
        { rewrite (att_xt w w' x x (AO x Hx)), XE in *. destruct (xt w x =? m_ext m); [congruence|exact E1]. }
        exists o. rewrite E5. rewrite (att_inc w w' o o (AO o E2)), (att_xt w w' o o (AO o E2)), (att_xt w w' x x (AO x Hx)).
        split; [reflexivity|]. split; [apply DM; left; exact E2|auto].
      * destruct (copy_facts _ _ _ _ Cn) as (_ & _ & _ & _ & Hx & _). exists (real w a). rewrite Hx, XE, Exa, Z.eqb_refl.
        rewrite (att_inc w w' _ _ (AO _ RA1)), (att_xt w w' _ _ (AO _ RA1)). split; [reflexivity|]. split; [apply DM; left; exact RA1|]. split; congruence.
    + intros x y Hx Hy Ix Iy E. apply DM in Hx, Hy. destruct (copy_facts _ _ _ _ Cn) as (_ & Hi & _).
      destruct Hx as [Hx|[<-|[]]]; [|congruence]. destruct Hy as [Hy|[<-|[]]]; [|congruence].
      rewrite (att_inc w w' _ _ (AO _ Hx)) in Ix. rewrite (att_inc w w' _ _ (AO _ Hy)) in Iy. rewrite (att_xt w w' _ _ (AO _ Hx)), (att_xt w w' _ _ (AO _ Hy)) in E.
      apply W; assumption.
    + intros x Hx. apply DM in Hx. rewrite Ene'. destruct Hx as [Hx|[<-|[]]]; [rewrite (att_xt w w' _ _ (AO _ Hx)); apply X; exact Hx|].
      destruct (copy_facts _ _ _ _ Cn) as (_ & _ & _ & _ & Hx & _). rewrite Hx. apply X. congruence.
  - auto.
  - constructor; [intros []|constructor].
  - intros x Hx. unfold up. rewrite Em', upd_other by (apply Hna; exact Hx). reflexivity.
  - unfold up. rewrite Em', upd_same, Em. reflexivity.
Qed.

Lemma F2_impl {A B} (R S : A -> B -> Prop) l1 l2 : (forall a b, R a b -> S a b) -> Forall2 R l1 l2 -> Forall2 S l1 l2.
Proof. intros H F. induction F; constructor; auto. Qed.
Lemma ext_upper w w' ns src w2 : Extends w w' ns src -> (forall x, att w2 x = att w' x) -> exts w2 = exts w' -> rest_same w' w2 -> Extends w w2 ns src.
Proof.
  intros [XO XN XD XE XR XP XV XU] A E R. constructor.
  - intros a Ha. rewrite A. auto.
  - eapply F2_impl; [|exact XN]. cbn. intros n s (H1 & [H2 H3] & H4). split; [exact H1|]. split; [split; [rewrite A; exact H2|exact H3]|].
    rewrite <- H4. apply real_att; [apply A|rewrite E; reflexivity].
  - intros a. rewrite (att_some w' w2 a a (A a)). apply XD.
  - intros y. rewrite E. apply XE.
  - intros a Ha. rewrite <- (XR a Ha). apply real_att; [apply A|rewrite E; reflexivity].
  - eapply Pre_att; eassumption.
  - destruct XV as (V1 & (V2 & V3 & V4 & V5) & V6), R as (R1 & R2 & R3 & R4 & (R5 & R6 & R7 & R8)). unfold caches_same. repeat split; congruence.
  - exact XU.
Qed.
Lemma ext_trans w w1 w2 n1 s1 n2 s2 : Extends w w1 n1 s1 -> Extends w1 w2 n2 s2 -> (forall s, In s s2 -> mods w s <> None) -> Extends w w2 (n1 ++ n2) (s1 ++ s2).
Proof.
  intros X Y HS. destruct X as [XO XN XD XE XR XP XV XU], Y as [YO YN YD YE YR YP YV YU]. constructor.
  - intros a Ha. rewrite YO, XO by (exact Ha || (apply XD; left; exact Ha)). reflexivity.
  - apply Forall2_app.
    + eapply F2_impl; [|exact XN]. cbn. intros n s (H1 & H2 & H3). pose proof (copy_facts _ _ _ _ H2) as (H4 & _). split; [exact H1|].
      split; [split; [rewrite YO by exact H4; apply H2|apply H2]|]. rewrite YR by exact H4. exact H3.
    + clear - YN HS XO XR XD. induction YN as [|n s n2 s2 (H1 & H2 & H3) YN IH]; [constructor|]. constructor; [|apply IH; intros x Hx; apply HS; right; exact Hx].
      assert (Hs : mods w s <> None) by (apply HS; left; reflexivity). split.
      * destruct (mods w n) eqn:E; [|reflexivity]. exfalso. assert (mods w1 n <> None) by (apply XD; left; congruence). contradiction.
      * split; [split; [rewrite (proj1 H2), XO by exact Hs; reflexivity|exact Hs]|]. rewrite H3. apply XR. exact Hs.
  - intros a. rewrite YD, XD, in_app_iff. tauto.
  - intros y. destruct (XE y) as (? & ? & ?), (YE y) as (? & ? & ?). repeat split; congruence.
  - intros a Ha. rewrite YR, XR by (exact Ha || (apply XD; left; exact Ha)). reflexivity.
  - exact YP.
  - destruct XV as (V1 & (V2 & V3 & V4 & V5) & V6), YV as (R4 & (R5 & R6 & R7 & R8) & R9). unfold caches_same. repeat split; congruence.
  - assert (D : forall x, In x n1 -> ~ In x n2).
    { intros x H1 H2. assert (mods w1 x <> None) by (apply XD; right; exact H1). clear - YN H2 H. induction YN as [|n s n2 s2 (H3 & _) YN IH]; [exact H2|].
      destruct H2 as [->|H2]; [contradiction|auto]. }
    clear - XU YU D. induction n1 as [|x n1 IH]; [exact YU|]. inversion XU; subst. cbn. constructor.
    + rewrite in_app_iff. intros [H|H]; [contradiction|]. apply (D x); [left; reflexivity|exact H].
    + apply IH; [assumption|]. intros y Hy. apply D. right. exact Hy.
Qed.
Lemma vis_att w w' l : (forall x, In x l -> hp w' x = hp w x) -> vis w' l = vis w l.
Proof.
  induction l as [|a l IH]; intros H; [reflexivity|]. unfold vis in *. cbn [filter]. rewrite (H a (or_introl eq_refl)), IH; [reflexivity|].
  intros x Hx. apply H. right. exact Hx.
Qed.
Lemma raw_mods w a l x : raw w a l -> In x (a :: l) -> mods w x <> None.
Proof. intros R Hx. apply up_mods. eapply links_some; eassumption. Qed.
Lemma ext_refl w : Pre w -> Extends w w [] [].
Proof.
  intros P. constructor; [reflexivity|constructor| |intros y; auto|reflexivity|exact P|unfold caches_same; auto 10|constructor].
  intros a. cbn. tauto.
Qed.
Lemma copy_chain_ok n : forall l fuel w module im, (length l <= n)%nat -> Pre w -> raw w module l -> ~ In im (module :: l) -> mods w im <> None -> (length l < fuel)%nat ->
  exists ns w' u, copy_chain fuel w module im = Ok (last (im :: ns) 0, w') /\ Extends w w' ns (vis w l) /\
    (forall x, x <> im -> mods w x <> None -> up w' x = up w x) /\ links w' (im :: ns) u.
Proof.
  induction n as [|n IH]; intros l fuel w module im Hl P R Hni Him HF; (destruct fuel as [|fuel]; [lia|]); cbn [copy_chain].
  - destruct l as [|? ?]; [|cbn in Hl; lia]. destruct (upper_ok w (S fuel) module [] R ltac:(cbn; lia)) as [[H1 H2]|(p & c & s & H1 & _)].
    2:{ destruct p; discriminate. }
    rewrite H2. cbn [rbind]. destruct (mods w im) as [m|] eqn:Em; [|congruence]. exists [], w, (m_upper m). split; [reflexivity|]. split.
    + apply ext_refl. exact P.
    + split; [auto|]. split; [unfold up; rewrite Em; reflexivity|exact I].
  - destruct (upper_ok w (S fuel) module l R ltac:(lia)) as [[H1 H2]|(p & c & s & H1 & H2 & H3 & H4 & H5)].
    + rewrite H2. cbn [rbind]. destruct (mods w im) as [m|] eqn:Em; [|congruence]. exists [], w, (m_upper m). split; [reflexivity|]. split.
      * rewrite H1. apply ext_refl. exact P.
      * split; [auto|]. split; [unfold up; rewrite Em; reflexivity|exact I].
    + rewrite H4. cbn [rbind]. assert (Hc : mods w c <> None) by (apply (raw_mods w c s c H5); left; reflexivity).
      destruct (gen_inc_ok w c P Hc) as (k & w1 & E1 & X1 & U1 & _). rewrite E1. cbn [rbind fst snd].
      assert (Him1 : mods w1 im <> None) by (apply (x_dom _ _ _ _ X1); left; exact Him).
      destruct (set_upper_ok w1 im (Some k) Him1) as (w2 & E2 & A2 & EE2 & RS2 & UI & UO). rewrite E2. cbn [rbind].
      pose proof (ext_upper _ _ _ _ w2 X1 A2 EE2 RS2) as X2.
      assert (Hk : mods w k = None) by (pose proof (x_new _ _ _ _ X1) as F; inversion F as [|? ? ? ? (F1 & _) _]; exact F1).
      assert (Hkn : forall x, mods w x <> None -> x <> k) by (intros x Hx ->; congruence).
      assert (Hin : forall x, In x (c :: s) -> mods w x <> None) by (intros x; apply raw_mods; exact H5).
      assert (Hsub : forall x, In x (c :: s) -> In x l) by (intros x Hx; rewrite H1; apply in_or_app; right; exact Hx).
      assert (UP2 : forall x, x <> im -> mods w x <> None -> up w2 x = up w x) by (intros x Hx Hx'; rewrite UO, U1 by assumption; reflexivity).
      assert (R2 : raw w2 c s).
      { unfold raw. eapply links_ext; [|exact H5]. intros x Hx. apply UP2; [|apply Hin; exact Hx]. intros ->. apply Hni. right. apply Hsub. exact Hx. }
      assert (Hk2 : mods w2 k <> None) by (apply (x_dom _ _ _ _ X2); right; left; reflexivity).
      assert (Ls : (length s < length l)%nat) by (rewrite H1, app_length; cbn; lia).
      assert (Himk : k <> im) by (apply not_eq_sym, Hkn, Him).
      destruct (IH s fuel w2 c k) as (ns & w' & u & E & X & UX & LK).
      { lia. } { apply (x_pre _ _ _ _ X2). } { exact R2. } { intros Hx. apply Hin in Hx. congruence. } { exact Hk2. } { lia. }
      exists (k :: ns), w', u. rewrite E. split; [reflexivity|].
      assert (EV : vis w2 s = vis w s) by (apply vis_att; intros x Hx; apply att_hp; apply (x_old _ _ _ _ X2); apply Hin; right; exact Hx).
      split; [|split].
      * rewrite H2. change (k :: ns) with ([k] ++ ns). change (c :: vis w s) with ([c] ++ vis w s). rewrite EV in X. eapply ext_trans; [exact X2|exact X|].
        intros x Hx. apply Hin. right. unfold vis in Hx. apply filter_In in Hx. apply Hx.
      * intros x Hx Hxm. rewrite UX; [apply UP2; assumption|apply Hkn; exact Hxm|]. apply (x_dom _ _ _ _ X2). left. exact Hxm.
      * split; [|exact LK]. cbn [hd_or]. rewrite UX; [exact UI|exact (not_eq_sym Himk)|]. apply (x_dom _ _ _ _ X2). left. exact Him.
Qed.
