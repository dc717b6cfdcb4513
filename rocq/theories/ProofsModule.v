(* Classes among the ancestors are those on the chain itself. *)
From Verif Require Import Base ProofsBase ModelArray ProofsArray ModelGC ProofsGC ModelClass SpecClass ProofsClass ProofsClass2 ProofsClass3 ProofsClass4 ProofsClass5 ProofsClass6 ProofsClass7 ProofsClass8 ProofsRaise ProofsRaise2.

Record Cls (w : world) : Prop := {
  k_copy : forall a l y, mods w a <> None -> inc w a = false -> raw w a l -> In y l -> inc w y = true -> modp w (real w y) = false -> In (real w y) (a :: l);
  k_self : forall a l, mods w a <> None -> inc w a = false -> hp w a = true -> raw w a l -> exists d, In d l /\ hp w d = false /\ real w d = a }.

Lemma cls_same w w' : mods w' = mods w -> (forall e, e_origin (exts w' e) = e_origin (exts w e)) -> Cls w -> Cls w'.
Proof.
  intros EM EO [K1 K2]. assert (R : forall x, real w' x = real w x) by (intros x; unfold real, inc, xt; rewrite EM, EO; reflexivity).
  assert (RW : forall x l, raw w' x l -> raw w x l) by (intros x l B; eapply links_ext; [|exact B]; intros y _; unfold up; rewrite EM; reflexivity).
  constructor.
  - intros a l y. rewrite R. unfold inc, modp in *. rewrite EM. intros H1 H2 H3. apply K1; auto.
  - intros a l. unfold hp, inc in *. rewrite EM. intros H1 H2 H3 H4. destruct (K2 a l H1 H2 H3 (RW _ _ H4)) as (d & D1 & D2 & D3). exists d. rewrite R. auto.
Qed.
Lemma cls_new w p sup sg cls a w' : Wf w -> (p = true -> sup = None) -> (forall s, sup = Some s -> mods w s <> None /\ inc w s = false) -> (sg = true -> mods w cls <> None) ->
  new_class w p sup sg cls = (a, w') -> Cls w -> Cls w'.
Proof.
  intros W Hp Hs Hc E [K1 K2]. destruct (new_class_wf w p sup sg cls a w' W Hp (fun s H => proj1 (Hs s H)) Hc E) as (W' & Hn & Em & Ee & Ev & Ec & Ag).
  assert (MO : forall x, mods w x <> None -> mods w' x = mods w x) by (apply Ag).
  assert (XO : forall x, mods w x <> None -> exts w' (xt w x) = exts w (xt w x)).
  { intros x Hx. rewrite Ee, upd_other; [reflexivity|]. pose proof (w_ext w W x Hx). lia. }
  assert (D : forall x, mods w' x <> None -> mods w x <> None \/ x = a).
  { intros x. rewrite Em. unfold upd. destruct (Z.eqb_spec x a); auto. }
  assert (RO : forall x, mods w x <> None -> inc w' x = inc w x /\ real w' x = real w x /\ hp w' x = hp w x).
  { intros x Hx. pose proof (XO x Hx) as X. unfold real, inc, xt, hp in *. rewrite MO by exact Hx. rewrite X. auto. }
  assert (MP : forall x, mods w x <> None -> modp w' x = modp w x) by (intros x Hx; unfold modp; rewrite MO by exact Hx; reflexivity).
  assert (OLD : forall x l, mods w x <> None -> raw w' x l -> raw w x l).
  { intros x l Hx B. destruct (w_chain w W x Hx) as [l0 A]. pose proof (agree_raw w w' x l0 MO A) as A'. assert (l = l0) by (eapply links_det; [exact B|exact A']). subst l. exact A. }
  assert (NEW : forall l, raw w' a l -> match sup with None => l = [] | Some s => exists ls, l = s :: ls /\ raw w s ls end).
  { intros l [U L]. unfold up in U. rewrite Em, upd_same in U. cbn in U. injection U as U. destruct l as [|b ls]; cbn in U; subst sup; [reflexivity|]. exists ls. split; [reflexivity|]. apply OLD; [apply (Hs b eq_refl)|exact L]. }
  assert (Ha : inc w' a = false /\ hp w' a = false) by (unfold inc, hp; rewrite Em, upd_same; auto).
  constructor.
  - intros x l y Hx Hi R Hy Hyi Hym. destruct (D x Hx) as [Hx0| ->].
    + pose proof (OLD x l Hx0 R) as R0. assert (Hy0 : mods w y <> None) by (eapply raw_mods; [exact R0|right; exact Hy]). destruct (RO y Hy0) as (A & B & C). rewrite A in Hyi. rewrite B in *.
      destruct (RO x Hx0) as (A' & _). rewrite A' in Hi. apply (K1 x l y Hx0 Hi R0 Hy Hyi). rewrite <- Hym. symmetry. apply MP. apply (xt_real w y (w_orig w W) Hy0).
    + pose proof (NEW l R) as N. destruct sup as [s|]; [|subst l; destruct Hy]. destruct N as (ls & -> & Rs). destruct (Hs s eq_refl) as [Hsm Hsi].
      destruct Hy as [<-|Hy]; [destruct (RO s Hsm) as (A & _); congruence|].
      assert (Hy0 : mods w y <> None) by (eapply raw_mods; [exact Rs|right; exact Hy]). destruct (RO y Hy0) as (A & B & C). rewrite A in Hyi. rewrite B in *. right.
      apply (K1 s ls y Hsm Hsi Rs Hy Hyi). rewrite <- Hym. symmetry. apply MP. apply (xt_real w y (w_orig w W) Hy0).
  - intros x l Hx Hi Hh R. destruct (D x Hx) as [Hx0| ->]; [|destruct Ha; congruence]. pose proof (OLD x l Hx0 R) as R0. destruct (RO x Hx0) as (A' & _ & C'). rewrite A' in Hi. rewrite C' in Hh.
    destruct (K2 x l Hx0 Hi Hh R0) as (d & D1 & D2 & D3). assert (Hd : mods w d <> None) by (eapply raw_mods; [exact R0|right; exact D1]). destruct (RO d Hd) as (A & B & C). exists d. rewrite B, C. auto.
Qed.
Lemma cls_insert w w' c ns : Wf w -> mods w c <> None -> inc w c = false -> Inserted w w' c ns ->
  (forall x, mods w x <> None -> x <> c -> hp w' x = hp w x) ->
  (forall n, In n ns -> modp w (real w' n) = true \/ real w' n = c) ->
  hp w' c = hp w c \/ (hp w c = false /\ exists d, In d ns /\ real w' d = c /\ hp w' d = false) -> (forall x, mods w x <> None -> modp w' x = modp w x) ->
  (forall n, In n ns -> mods w (real w' n) <> None) -> Cls w -> Cls w'.
Proof.
  intros W Hc Hci X HH HN HC MP NR [K1 K2].
  assert (IO : forall y, mods w y <> None -> inc w' y = inc w y).
  { intros y Hy. destruct (Z.eq_dec y c) as [->|Hne]; [apply (i_self _ _ _ _ X)|apply att_inc; apply (i_old _ _ _ _ X); assumption]. }
  assert (OLD : forall x l, mods w' x <> None -> inc w' x = false -> raw w' x l -> mods w x <> None /\ inc w x = false /\ exists l0, raw w x l0 /\ l = tl (expand c ns (x :: l0))).
  { intros x l Hx Hi R. assert (Hx0 : mods w x <> None). { apply (i_dom _ _ _ _ X) in Hx. destruct Hx as [Hx|Hx]; [exact Hx|]. destruct (i_new _ _ _ _ X x Hx) as (_ & E & _). congruence. }
    split; [exact Hx0|]. split; [rewrite <- IO; assumption|]. destruct (w_chain w W x Hx0) as [l0 A]. exists l0. split; [exact A|]. eapply links_det; [exact R|apply (inserted_raw _ _ _ _ _ _ X A)]. }
  assert (MEM : forall x l y, In y (x :: tl (expand c ns (x :: l))) <-> In y (x :: l) \/ (In c (x :: l) /\ In y ns)).
  { intros x l. assert (EX : x :: tl (expand c ns (x :: l)) = expand c ns (x :: l)) by (rewrite expand_cons; destruct (Z.eqb_spec x c) as [->|]; reflexivity).
    rewrite EX. intros y. unfold expand. rewrite in_flat_map. split.
    - intros (z & Hz & Hy). destruct (Z.eqb_spec z c) as [->|]; [destruct Hy as [<-|Hy]; auto|destruct Hy as [<-|[]]; auto].
    - intros [Hy|[Hz Hy]].
      + exists y. split; [exact Hy|]. destruct (Z.eqb_spec y c) as [->|]; left; reflexivity.
      + exists c. split; [exact Hz|]. rewrite Z.eqb_refl. right. exact Hy. }
  assert (TL : forall x l y, In y l \/ (x = c /\ In y ns) -> In y (tl (expand c ns (x :: l)))).
  { intros x l y H. rewrite expand_cons. assert (EL : In y l -> In y (expand c ns l)).
    { intros Hy. unfold expand. apply in_flat_map. exists y. split; [exact Hy|]. destruct (Z.eqb_spec y c) as [->|]; left; reflexivity. }
    destruct (Z.eqb_spec x c) as [->|]; cbn [app tl]; [apply in_or_app; destruct H as [H|[_ H]]; auto|destruct H as [H|[H _]]; [auto|congruence]]. }
  constructor.
  - intros x l y Hx Hi R Hy Hyi Hym. destruct (OLD x l Hx Hi R) as (Hx0 & Hi0 & l0 & R0 & ->). apply MEM.
    assert (Hin : In y (x :: tl (expand c ns (x :: l0)))) by (right; exact Hy). apply MEM in Hin. destruct Hin as [Hin|[Hcin Hin]].
    + assert (Hy0 : mods w y <> None) by (eapply raw_mods; [exact R0|exact Hin]). rewrite (i_real _ _ _ _ X y Hy0) in *. rewrite IO in Hyi by exact Hy0.
      destruct Hin as [<-|Hin]; [congruence|]. left. apply (K1 x l0 y Hx0 Hi0 R0 Hin Hyi). rewrite <- Hym. symmetry. apply MP. apply (xt_real w y (w_orig w W) Hy0).
    + destruct (HN y Hin) as [E|E]; [rewrite <- MP in E by (apply NR; exact Hin); congruence|]. left. rewrite E. exact Hcin.
  - intros x l Hx Hi Hh R. destruct (OLD x l Hx Hi R) as (Hx0 & Hi0 & l0 & R0 & ->).
    destruct (Bool.bool_dec (hp w x) true) as [Hh0|Hh0].
    + destruct (K2 x l0 Hx0 Hi0 Hh0 R0) as (d & D1 & D2 & D3). assert (Hd : mods w d <> None) by (eapply raw_mods; [exact R0|right; exact D1]).
      destruct (Z.eq_dec d c) as [->|Hne].
      { unfold real in D3. rewrite Hci in D3. subst x. congruence. }
      exists d. split; [apply TL; left; exact D1|]. rewrite HH by assumption. rewrite (i_real _ _ _ _ X d Hd). auto.
    + assert (x = c). { destruct (Z.eq_dec x c) as [E|Hne]; [exact E|]. rewrite HH in Hh by assumption. congruence. } subst x.
      destruct HC as [HC|(HC & d & D1 & D2 & D3)]; [congruence|]. exists d. split; [apply TL; right; auto|auto].
Qed.
Lemma cls_inc w : Cls w -> Cls (inc_version w).
Proof. apply cls_same; reflexivity. Qed.
Lemma cls_step site csite o w w' : Wf w -> Cop w -> op_ok o -> runs site csite o w w' -> Cls w -> Cls w'.
Proof.
  intros W Q OK R K. unfold runs in R. destruct o; cbn [exec op_ok] in *.
  - apply ev_if in R. destruct R as [C R]. apply ev_ok in R. injection R as E. destruct (new_class w false sup false cls) as [a w1] eqn:En. cbn in E. subst w1.
    eapply cls_new; try exact En; auto; try discriminate. intros s ->. apply andb_prop in C. apply user_mod_ok. apply C.
  - apply ev_ok in R. injection R as E. destruct (new_class w true None false cls) as [a w1] eqn:En. cbn in E. subst w1. eapply cls_new; try exact En; auto; discriminate.
  - apply ev_if in R. destruct R as [C R]. apply ev_ok in R. injection R as E. destruct (new_class w false (Some sup) true cls) as [a w1] eqn:En. cbn in E. subst w1.
    apply andb_prop in C. destruct C as [C Cc]. apply andb_prop in C. destruct C as [Cs _]. eapply cls_new; try exact En; auto; try discriminate.
    + intros s [= ->]. apply user_mod_ok. exact Cs. + intros _. apply user_mod_ok. exact Cc.
  - apply ev_if in R. destruct R as [C R]. apply andb_prop in C. destruct C as [C Cm]. apply andb_prop in C. destruct C as [C1 C2].
    destruct (keeps_step site csite (Include c m) w w' W Q OK) as [[_ KM] _]; [unfold runs; eapply ev_mono; [exact R|]; intros f E; cbn [exec]; rewrite C1, C2, Cm; exact E|].
    destruct (include_step w c m w' W C1 C2 Cm OK R) as (_ & _ & _ & w2 & ns & lm & -> & RM & X & I).
    apply user_mod_ok in C1, C2. destruct C1 as [Hc Hci], C2 as [Hm Hmi].
    assert (HS : forall n, In n ns -> exists s, In s (m :: lm) /\ real w2 n = real w s).
    { intros n Hn. destruct (ext_new_in _ _ _ _ n X Hn) as (_ & s & Hs & _ & E). exists s. split; [|exact E]. destruct Hs as [<-|Hs]; [left; reflexivity|right; eapply vis_in; exact Hs]. }
    apply cls_inc. apply (cls_insert w w2 c ns W Hc Hci I); [| | | | |exact K].
    + intros x Hx _. apply att_hp. apply (x_old _ _ _ _ X). exact Hx.
    + intros n Hn. left. destruct (HS n Hn) as (s & [<-|Hs] & E); rewrite E; [unfold real; rewrite Hmi; exact Cm|]. apply (q_mod w Q m lm s Hm Cm Hmi RM Hs).
    + left. apply att_hp. apply (x_old _ _ _ _ X). exact Hc.
    + intros x Hx. apply (KM x Hx).
    + intros n Hn. destruct (HS n Hn) as (s & Hs & E). rewrite E. apply xt_real; [apply W|]. eapply raw_mods; [exact RM|exact Hs].
  - apply ev_if in R. destruct R as [C R]. apply andb_prop in C. destruct C as [C Cm]. apply andb_prop in C. destruct C as [C1 C2].
    destruct (keeps_step site csite (Prepend c m) w w' W Q OK) as [[_ KM] _]; [unfold runs; eapply ev_mono; [exact R|]; intros f E; cbn [exec]; rewrite C1, C2, Cm; exact E|].
    destruct (prepend_step w c m w' W C1 C2 Cm OK R) as (_ & _ & _ & w2 & ns & ds & lm & -> & RM & I & HC & F & D & HH).
    apply user_mod_ok in C1, C2. destruct C1 as [Hc Hci], C2 as [Hm Hmi].
    assert (HS : forall n, In n ns -> exists s, In s (m :: lm) /\ real w2 n = real w s).
    { intros n Hn. clear - F Hn. assert (G : exists s, In s (m :: vis w lm) /\ real w2 n = real w s).
      { induction F as [|n0 s0 ns src [_ E] F IH]; [destruct Hn|]. destruct Hn as [<-|Hn]; [exists s0; split; [left; reflexivity|exact E]|].
        destruct (IH Hn) as (s & Hs & E'). exists s. split; [right; exact Hs|exact E']. }
      destruct G as (s & [<-|Hs] & E); [exists m; split; [left; reflexivity|exact E]|]. exists s. split; [right; eapply vis_in; exact Hs|exact E]. }
    assert (HD : forall n, In n ds -> real w2 n = c).
    { intros n Hn. destruct (hp w c); [rewrite D in Hn; destruct Hn|]. destruct D as (d & -> & D1 & E). destruct Hn as [<-|[]]. tauto. }
    apply cls_inc. apply (cls_insert w w2 c (ns ++ ds) W Hc Hci I); [exact HH| | | | |exact K].
    + intros n Hn. apply in_app_iff in Hn. destruct Hn as [Hn|Hn]; [|right; apply HD; exact Hn].
      left. destruct (HS n Hn) as (s & [<-|Hs] & E); rewrite E; [unfold real; rewrite Hmi; exact Cm|]. apply (q_mod w Q m lm s Hm Cm Hmi RM Hs).
    + destruct (hp w c); [left; congruence|]. right. split; [reflexivity|]. destruct D as (d & -> & D1 & E). exists d. split; [apply in_or_app; right; left; reflexivity|]. auto.
    + intros x Hx. apply (KM x Hx).
    + intros n Hn. apply in_app_iff in Hn. destruct Hn as [Hn|Hn]; [|rewrite HD by exact Hn; exact Hc]. destruct (HS n Hn) as (s & Hs & E). rewrite E. apply xt_real; [apply W|]. eapply raw_mods; [exact RM|exact Hs].
  - apply ev_if in R. destruct R as [C R]. apply ev_ok in R. unfold add_method in R. apply bind_ok in R. destruct R as (mm & Em & R). injection R as <-.
    eapply cls_same; [| |exact K]; [reflexivity|]; intros e; cbn; unfold upd; destruct (Z.eqb_spec e (m_ext mm)) as [->|]; auto.
  - apply ev_if in R. destruct R as [C R]. apply ev_ok in R. unfold set_const in R. apply bind_ok in R. destruct R as (mm & Em & R). injection R as <-.
    eapply cls_same; [| |exact K]; [reflexivity|]; intros e; cbn; unfold upd; destruct (Z.eqb_spec e (m_ext mm)) as [->|]; auto.
  - apply ev_ok in R. injection R as <-. eapply cls_same; [| |exact K]; reflexivity.
  - apply ev_ok in R. injection R as <-. eapply cls_same; [| |exact K]; reflexivity.
  - apply ev_if in R. destruct R as [C R]. apply ev_here in R. destruct R as [N R]. apply bind_ok in R. destruct R as (r & E & R). injection R as <-. destruct (find_inline_only _ _ _ _ _ _ E) as ((E1 & E2 & _) & _).
    eapply cls_same; [exact E1|intros e; rewrite E2; reflexivity|exact K].
  - apply ev_if in R. destruct R as [C R]. apply ev_here in R. destruct R as [N R]. apply bind_ok in R. destruct R as (r & E & R). injection R as <-. destruct (find_method_only _ _ _ _ _ E) as ((E1 & E2 & _) & _).
    eapply cls_same; [exact E1|intros e; rewrite E2; reflexivity|exact K].
  - apply ev_if in R. destruct R as [C R]. apply ev_here in R. destruct R as [N R]. apply bind_ok in R. destruct R as (r & E & R). injection R as <-. destruct (super_only _ _ _ _ _ E) as ((E1 & E2 & _) & _).
    eapply cls_same; [exact E1|intros e; rewrite E2; reflexivity|exact K].
  - destruct (csite slot) as [[scope cls] [id object]] eqn:Es. apply ev_here in R. destruct R as [N R]. apply bind_ok in R. destruct R as (r & E & R). injection R as <-.
    destruct (read_const_only _ _ _ _ _ _ _ _ E) as ((E1 & E2 & _) & _). eapply cls_same; [exact E1|intros e; rewrite E2; reflexivity|exact K].
Qed.
Lemma hist_cls site csite w : hist site csite w -> Cls w.
Proof.
  induction 1 as [|w o w' H IH OK R]; [constructor; intros a l; intros; exfalso; cbn in *; congruence|].
  eapply cls_step; [exact (hist_wf _ _ _ H)|exact (hist_cop _ _ _ H)|exact OK|exact R|exact IH].
Qed.

(* a class is among the ancestors exactly when it is on the chain *)
Lemma class_on_chain w c l t : Wf w -> Cls w -> mods w c <> None -> inc w c = false -> raw w c l -> modp w t = false -> mods w t <> None -> inc w t = false ->
  (In t (map (real w) (c :: vis w l)) <-> In t (c :: l)).
Proof.
  intros W [K1 K2] Hc Hci R Ht Htm Hti. rewrite sees_in. split.
  - intros (y & Hy & V & E). destruct (inc w y) eqn:Ei; [|unfold real in E; rewrite Ei in E; subst y; exact Hy].
    destruct Hy as [<-|Hy]; [congruence|]. rewrite <- E. apply (K1 c l y); auto. rewrite E. exact Ht.
  - intros Hin. destruct (Bool.bool_dec (hp w t) true) as [Hh|Hh].
    + destruct (in_split _ _ Hin) as (l1 & l2 & El). assert (RT : raw w t l2) by (unfold raw in *; rewrite El in R; eapply links_suffix; exact R).
      destruct (K2 t l2 Htm Hti Hh RT) as (d & D1 & D2 & D3). exists d. split; [rewrite El; apply in_or_app; right; right; exact D1|]. auto.
    + exists t. split; [exact Hin|]. split; [right; destruct (hp w t); congruence|]. unfold real. rewrite Hti. reflexivity.
Qed.
