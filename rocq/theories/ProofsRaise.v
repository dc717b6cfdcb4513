(* Copies of classes come from prepend only; ancestors that are classes never change. *)
From Verif Require Import Base ProofsBase ModelArray ProofsArray ModelGC ProofsGC ModelClass SpecClass ProofsClass ProofsClass2 ProofsClass3 ProofsClass4 ProofsClass5 ProofsClass6 ProofsClass7 ProofsClass8.

Record Cop (w : world) : Prop := {
  q_inc : forall x, mods w x <> None -> inc w x = true -> modp w (real w x) = false -> hp w (real w x) = true;
  q_mod : forall a l x, mods w a <> None -> modp w a = true -> inc w a = false -> raw w a l -> In x l -> modp w (real w x) = true }.

Lemma cop_same w w' : mods w' = mods w -> (forall e, e_origin (exts w' e) = e_origin (exts w e)) -> Cop w -> Cop w'.
Proof.
  intros EM EO [Q1 Q2]. assert (R : forall x, real w' x = real w x) by (intros x; unfold real, inc, xt; rewrite EM, EO; reflexivity).
  constructor.
  - intros x. rewrite R. unfold inc, modp, hp. rewrite EM. apply Q1.
  - intros a l x. rewrite R. unfold inc, modp. rewrite EM. intros A B C D E. apply (Q2 a l x A B C); [|exact E].
    eapply links_ext; [|exact D]. intros y _. unfold up. rewrite EM. reflexivity.
Qed.
Lemma cop_new w p sup sg cls a w' : Wf w -> (p = true -> sup = None) -> (forall s, sup = Some s -> mods w s <> None) -> (sg = true -> mods w cls <> None) ->
  new_class w p sup sg cls = (a, w') -> Cop w -> Cop w'.
Proof.
  intros W Hp Hs Hc E [Q1 Q2]. destruct (new_class_wf w p sup sg cls a w' W Hp Hs Hc E) as (W' & Hn & Em & Ee & _).
  assert (MO : forall x, x <> a -> mods w' x = mods w x) by (intros x Hx; rewrite Em, upd_other by exact Hx; reflexivity).
  assert (OLD : forall x, mods w x <> None -> x <> a) by congruence.
  assert (RO : forall x, mods w x <> None -> real w' x = real w x).
  { intros x Hx. unfold real, inc, xt. rewrite MO by auto. destruct (mods w x) as [m|] eqn:Emx; [|congruence]. destruct (included m); [|reflexivity].
    rewrite Ee, upd_other; [reflexivity|]. pose proof (w_ext w W x ltac:(congruence)) as H. unfold xt in H. rewrite Emx in H. lia. }
  assert (DOM : forall x, mods w' x <> None -> x = a \/ mods w x <> None).
  { intros x Hx. destruct (Z.eq_dec x a) as [->|H]; [auto|right; rewrite MO in Hx by exact H; exact Hx]. }
  assert (REALM : forall x, mods w x <> None -> mods w (real w x) <> None) by (intros x Hx; apply (xt_real w x (w_orig w W) Hx)).
  assert (IA : inc w' a = false) by (unfold inc; rewrite Em, upd_same; reflexivity).
  constructor.
  - intros x Hx Hi. destruct (DOM x Hx) as [->|Hx']; [congruence|]. rewrite RO by exact Hx'. unfold inc in Hi. rewrite MO in Hi by auto.
    pose proof (Q1 x Hx' Hi) as H. unfold modp, hp in *. rewrite MO by (apply OLD, REALM, Hx'). exact H.
  - intros b l x Hb Hm Hi R Hx. destruct (DOM b Hb) as [->|Hb'].
    + assert (Ep : p = true) by (unfold modp in Hm; rewrite Em, upd_same in Hm; exact Hm). rewrite (Hp Ep) in Em. destruct R as [U _]. unfold up in U. rewrite Em, upd_same in U. cbn in U. destruct l; [destruct Hx|discriminate].
    + destruct (w_chain w W b Hb') as [l0 R0]. assert (R' : raw w' b l0) by (apply (agree_raw w w' b l0); [intros y Hy; apply MO; auto|exact R0]).
      assert (l = l0) by (eapply links_det; [exact R|exact R']). subst l0. assert (Hxm : mods w x <> None) by (eapply raw_mods; [exact R0|right; exact Hx]).
      rewrite RO by exact Hxm. unfold modp, inc in Hm, Hi. rewrite MO in Hm, Hi by auto. pose proof (Q2 b l x Hb' Hm Hi R0 Hx) as H. unfold modp in *. rewrite MO by (apply OLD, REALM, Hxm). exact H.
Qed.
(* what include and prepend have in common *)
Lemma cop_insert w w' c ns : Wf w -> mods w c <> None -> inc w c = false -> Inserted w w' c ns ->
  (forall x, mods w x <> None -> hp w x = true -> hp w' x = true) ->
  (forall n, In n ns -> (mods w (real w' n) <> None) /\ (modp w (real w' n) = true \/ (real w' n = c /\ hp w' c = true))) -> Cop w -> Cop w'.
Proof.
  intros W Hc Hci X HP HN [Q1 Q2].
  assert (MP : forall x, mods w x <> None -> modp w' x = modp w x /\ inc w' x = inc w x).
  { intros x Hx. destruct (Z.eq_dec x c) as [->|Hne]; [destruct (i_self _ _ _ _ X) as (_ & A & B & _); auto|].
    split; [apply att_modp|apply att_inc]; apply (i_old _ _ _ _ X); assumption. }
  assert (REALM : forall x, mods w x <> None -> mods w (real w x) <> None) by (intros x Hx; apply (xt_real w x (w_orig w W) Hx)).
  constructor.
  - intros x Hx Hi Hm. apply (i_dom _ _ _ _ X) in Hx. destruct Hx as [Hx|Hx].
    + rewrite (i_real _ _ _ _ X x Hx) in *. rewrite (proj2 (MP x Hx)) in Hi. rewrite (proj1 (MP _ (REALM x Hx))) in Hm. apply HP; [apply REALM; exact Hx|]. apply Q1; assumption.
    + destruct (HN x Hx) as [A [B|[B1 B2]]]; [rewrite (proj1 (MP _ A)) in Hm; congruence|rewrite B1; exact B2].
  - intros a l x Ha Hm Hi R Hx. apply (i_dom _ _ _ _ X) in Ha. destruct Ha as [Ha|Ha]; [|destruct (i_new _ _ _ _ X a Ha) as (_ & H & _); congruence].
    destruct (w_chain w W a Ha) as [l0 R0]. assert (El : l = tl (expand c ns (a :: l0))) by (eapply links_det; [exact R|apply (inserted_raw _ _ _ _ _ _ X R0)]). subst l.
    rewrite (proj1 (MP a Ha)) in Hm. rewrite (proj2 (MP a Ha)) in Hi.
    assert (NC : ~ In c l0) by (intros H; pose proof (w_mod w W a l0 Ha Hm Hi R0 c H); congruence).
    assert (OLD : forall y, In y l0 -> modp w' (real w' y) = true).
    { intros y Hy. assert (Hym : mods w y <> None) by (eapply raw_mods; [exact R0|right; exact Hy]). rewrite (i_real _ _ _ _ X y Hym), (proj1 (MP _ (REALM y Hym))). apply (Q2 a l0 y Ha Hm Hi R0 Hy). }
    rewrite expand_cons, (expand_id c ns l0 NC) in Hx. destruct (Z.eqb_spec a c) as [->|]; cbn [tl app] in Hx; [|auto]. apply in_app_iff in Hx. destruct Hx as [Hx|Hx]; [|auto].
    destruct (HN x Hx) as [A [B|[B1 B2]]]; [rewrite (proj1 (MP _ A)); exact B|]. rewrite B1, (proj1 (MP c Hc)). exact Hm.
Qed.
Lemma cop_step site csite o w w' : Wf w -> op_ok o -> runs site csite o w w' -> Cop w -> Cop w'.
Proof.
  intros W OK R Q. unfold runs in R. destruct o; cbn [exec op_ok] in *.
  - apply ev_if in R. destruct R as [C R]. apply ev_ok in R. injection R as E. destruct (new_class w false sup false cls) as [a w1] eqn:En. cbn in E. subst w1.
    eapply cop_new; try exact En; auto; try discriminate. intros s ->. apply andb_prop in C. apply user_mod_ok. apply C.
  - apply ev_ok in R. injection R as E. destruct (new_class w true None false cls) as [a w1] eqn:En. cbn in E. subst w1. eapply cop_new; try exact En; auto; discriminate.
  - apply ev_if in R. destruct R as [C R]. apply ev_ok in R. injection R as E. destruct (new_class w false (Some sup) true cls) as [a w1] eqn:En. cbn in E. subst w1.
    apply andb_prop in C. destruct C as [C Cc]. apply andb_prop in C. destruct C as [Cs _]. eapply cop_new; try exact En; auto; try discriminate.
    + intros s [= ->]. apply user_mod_ok. exact Cs. + intros _. apply user_mod_ok. exact Cc.
  - apply ev_if in R. destruct R as [C R]. apply andb_prop in C. destruct C as [C Cm]. apply andb_prop in C. destruct C as [C1 C2].
    destruct (include_step w c m w' W C1 C2 Cm OK R) as (_ & _ & _ & w2 & ns & lm & -> & RM & X & I).
    apply user_mod_ok in C1, C2. destruct C1 as [Hc Hci], C2 as [Hm Hmi].
    apply (cop_same w2); [reflexivity|reflexivity|]. apply (cop_insert w w2 c ns W Hc Hci I); [|intros n Hn|exact Q].
    + intros x Hx Hh. rewrite <- Hh. apply att_hp. apply (x_old _ _ _ _ X). exact Hx.
    + destruct (ext_new_in _ _ _ _ n X Hn) as (_ & s & Hs & (_ & Hsm) & E). rewrite E. split; [apply (xt_real w s (w_orig w W) Hsm)|]. left.
      destruct Hs as [<-|Hs]; [unfold real; rewrite Hmi; exact Cm|]. apply (q_mod w Q m lm s Hm Cm Hmi RM). eapply vis_in. exact Hs.
  - apply ev_if in R. destruct R as [C R]. apply andb_prop in C. destruct C as [C Cm]. apply andb_prop in C. destruct C as [C1 C2].
    destruct (prepend_step w c m w' W C1 C2 Cm OK R) as (_ & _ & _ & w2 & ns & ds & lm & -> & RM & I & HC & F & D & HH).
    apply user_mod_ok in C1, C2. destruct C1 as [Hc Hci], C2 as [Hm Hmi].
    apply (cop_same w2); [reflexivity|reflexivity|]. apply (cop_insert w w2 c (ns ++ ds) W Hc Hci I); [|intros n Hn|exact Q].
    + intros x Hx Hh. destruct (Z.eq_dec x c) as [->|Hne]; [exact HC|]. rewrite HH; assumption.
    + apply in_app_iff in Hn. destruct Hn as [Hn|Hn].
      * assert (HS : exists s, In s (m :: vis w lm) /\ real w2 n = real w s).
        { clear - F Hn. induction F as [|n0 s0 ns src [_ E] F IH]; [destruct Hn|]. destruct Hn as [<-|Hn]; [exists s0; split; [left; reflexivity|exact E]|].
          destruct (IH Hn) as (s & Hs & E'). exists s. split; [right; exact Hs|exact E']. }
        destruct HS as (s & Hs & E). assert (Hsm : mods w s <> None) by (eapply raw_mods; [exact RM|]; destruct Hs as [<-|Hs]; [left; reflexivity|right; eapply vis_in; exact Hs]).
        rewrite E. split; [apply (xt_real w s (w_orig w W) Hsm)|]. left.
        destruct Hs as [<-|Hs]; [unfold real; rewrite Hmi; exact Cm|]. apply (q_mod w Q m lm s Hm Cm Hmi RM). eapply vis_in. exact Hs.
      * destruct (hp w c); [rewrite D in Hn; destruct Hn|]. destruct D as (d & -> & _ & E). destruct Hn as [<-|[]]. rewrite E. split; [exact Hc|]. right. auto.
  - apply ev_if in R. destruct R as [C R]. apply ev_ok in R. unfold add_method in R. apply bind_ok in R. destruct R as (mm & Em & R). injection R as <-.
    apply (cop_same w); [reflexivity| |exact Q]. intros e. cbn. unfold upd. destruct (Z.eqb_spec e (m_ext mm)) as [->|]; reflexivity.
  - apply ev_if in R. destruct R as [C R]. apply ev_ok in R. unfold set_const in R. apply bind_ok in R. destruct R as (mm & Em & R). injection R as <-.
    apply (cop_same w); [reflexivity| |exact Q]. intros e. cbn. unfold upd. destruct (Z.eqb_spec e (m_ext mm)) as [->|]; reflexivity.
  - apply ev_ok in R. injection R as <-. apply (cop_same w); auto.
  - apply ev_ok in R. injection R as <-. apply (cop_same w); auto.
  - apply ev_if in R. destruct R as [C R]. apply ev_here in R. destruct R as [N R]. apply bind_ok in R. destruct R as (r & E & R). injection R as <-. destruct (find_inline_only _ _ _ _ _ _ E) as ((E1 & E2 & _) & _).
    apply (cop_same w); auto. rewrite E2. reflexivity.
  - apply ev_if in R. destruct R as [C R]. apply ev_here in R. destruct R as [N R]. apply bind_ok in R. destruct R as (r & E & R). injection R as <-. destruct (find_method_only _ _ _ _ _ E) as ((E1 & E2 & _) & _).
    apply (cop_same w); auto. rewrite E2. reflexivity.
  - apply ev_if in R. destruct R as [C R]. apply ev_here in R. destruct R as [N R]. apply bind_ok in R. destruct R as (r & E & R). injection R as <-. destruct (super_only _ _ _ _ _ E) as ((E1 & E2 & _) & _).
    apply (cop_same w); auto. rewrite E2. reflexivity.
  - destruct (csite slot) as [[scope cls] [id object]] eqn:Es. apply ev_here in R. destruct R as [N R]. apply bind_ok in R. destruct R as (r & E & R). injection R as <-.
    destruct (read_const_only _ _ _ _ _ _ _ _ E) as ((E1 & E2 & _) & _). apply (cop_same w); auto. rewrite E2. reflexivity.
Qed.
Lemma cop_world0 : Cop world0.
Proof. constructor; intros; exfalso; cbn in *; congruence. Qed.
Lemma hist_cop site csite w : hist site csite w -> Cop w.
Proof. induction 1; [apply cop_world0|]. eapply cop_step; try eassumption. eapply hist_wf. eassumption. Qed.
