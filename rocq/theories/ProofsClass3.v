(* Effect of include and prepend on every chain; well-formedness. *)
From Verif Require Import Base ProofsBase ModelArray ProofsArray ModelGC ProofsGC ModelClass ProofsClass ProofsClass2.

Lemma links_last w w' l u u' : l <> [] -> NoDup l -> links w l u -> up w' (last l 0) = Some u' -> (forall x, x <> last l 0 -> In x l -> up w' x = up w x) -> links w' l u'.
Proof.
  induction l as [|a l IH]; intros Hne ND L U O; [congruence|]. inversion ND as [|? ? Hn ND']; subst. destruct L as [La L]. destruct l as [|b l].
  - split; [exact U|exact I].
  - change (last (a :: b :: l) 0) with (last (b :: l) 0) in *.
    assert (Ha : a <> last (b :: l) 0) by (intros E; apply Hn; rewrite E; destruct (@exists_last Z (b :: l) ltac:(discriminate)) as (l' & x & El); rewrite El, last_last; apply in_or_app; right; left; reflexivity).
    split; [rewrite O; [exact La|exact Ha|left; reflexivity]|]. apply IH; auto; [discriminate|]. intros x Hx Hi. apply O; [exact Hx|right; exact Hi].
Qed.
Lemma last_in (l : list Z) : l <> [] -> In (last l 0) l.
Proof. intros H. destruct (@exists_last Z l H) as (l' & x & ->). rewrite last_last. apply in_or_app. right. left. reflexivity. Qed.
Lemma ext_len w w' ns src : Extends w w' ns src -> length ns = length src.
Proof. intros X. pose proof (x_new _ _ _ _ X) as F. clear X. induction F; cbn; congruence. Qed.
Lemma ext_new_in w w' ns src n : Extends w w' ns src -> In n ns -> mods w n = None /\ exists s, In s src /\ is_copy w s w' n /\ real w' n = real w s.
Proof.
  intros X Hn. pose proof (x_new _ _ _ _ X) as F. clear X. induction F as [|a s ns src (H1 & H2 & H3) F IH]; [destruct Hn|]. destruct Hn as [->|Hn].
  - split; [exact H1|]. exists s. split; [left; reflexivity|auto].
  - destruct (IH Hn) as (E & s' & Hs & H). split; [exact E|]. exists s'. split; [right; exact Hs|exact H].
Qed.

(* the common first half of include and prepend *)
Lemma attach_ok w c M lm fuel uc : Wf w -> mods w c <> None -> inc w c = false -> mods w M <> None -> inc w M = false -> modp w M = true -> c <> M ->
  raw w M lm -> (length lm < fuel)%nat -> up w c = Some uc ->
  exists r w1 l ns u, generate_included w M = Ok r /\ set_upper (snd r) c (Some (fst r)) = Ok w1 /\ copy_chain fuel w1 M (fst r) = Ok l /\
    fst l = last ns 0 /\ ns <> [] /\ hd_or ns None = Some (fst r) /\ Extends w (snd l) ns (M :: vis w lm) /\
    (forall x, x <> c -> mods w x <> None -> up (snd l) x = up w x) /\ up (snd l) c = Some (hd_or ns None) /\ links (snd l) ns u.
Proof.
  intros W Hc Hci HM HMi HMm Hne RM HF Uc. pose proof (wf_pre w W) as P.
  destruct (gen_inc_ok w M P HM) as (n & w1 & E1 & X1 & U1 & _).
  assert (Hn : mods w n = None) by (destruct (ext_new_in _ _ _ _ n X1 (or_introl eq_refl)) as [H _]; exact H).
  assert (Hc1 : mods w1 c <> None) by (apply (x_dom _ _ _ _ X1); left; exact Hc).
  destruct (set_upper_ok w1 c (Some n) Hc1) as (w2 & E2 & A2 & EE2 & RS2 & UI & UO).
  pose proof (ext_upper _ _ _ _ w2 X1 A2 EE2 RS2) as X2.
  assert (Hlm : forall x, In x (M :: lm) -> mods w x <> None /\ x <> c /\ x <> n).
  { intros x Hx. assert (Hxm : mods w x <> None) by (eapply raw_mods; eassumption). split; [exact Hxm|]. split; [|intros ->; congruence].
    destruct Hx as [<-|Hx]; [congruence|]. intros ->. pose proof (w_mod w W M lm HM HMm HMi RM c Hx). congruence. }
  assert (U2 : forall x, x <> c -> mods w x <> None -> up w2 x = up w x) by (intros x H1 H2; rewrite UO, U1 by assumption; reflexivity).
  assert (R2 : raw w2 M lm).
  { eapply links_ext; [|exact RM]. intros x Hx. destruct (Hlm x Hx) as (H1 & H2 & H3). apply U2; assumption. }
  assert (Hn2 : mods w2 n <> None) by (apply (x_dom _ _ _ _ X2); right; left; reflexivity).
  destruct (copy_chain_ok (length lm) lm fuel w2 M n) as (ns & w3 & u & E3 & X3 & U3 & L3).
  { lia. } { apply (x_pre _ _ _ _ X2). } { exact R2. } { intros Hx. destruct (Hlm n Hx) as (_ & _ & H). congruence. } { exact Hn2. } { exact HF. }
  assert (EV : vis w2 lm = vis w lm) by (apply vis_att; intros x Hx; apply att_hp; apply (x_old _ _ _ _ X2); apply Hlm; right; exact Hx).
  rewrite EV in X3.
  exists (n, w1), w2, (last (n :: ns) 0, w3), (n :: ns), u. cbn [fst snd]. repeat (split; [first [assumption|reflexivity]|]).
  split; [discriminate|]. split; [reflexivity|]. split; [|split; [|split]].
  - change (n :: ns) with ([n] ++ ns). change (M :: vis w lm) with ([M] ++ vis w lm). eapply ext_trans; [exact X2|exact X3|].
    intros x Hx. apply Hlm. right. unfold vis in Hx. apply filter_In in Hx. apply Hx.
  - intros x H1 H2. rewrite U3; [apply U2; assumption|intros ->; congruence|]. apply (x_dom _ _ _ _ X2). left. exact H2.
  - rewrite U3; [exact UI|intros ->; congruence|]. apply (x_dom _ _ _ _ X2). left. exact Hc.
  - exact L3.
Qed.

Record Inserted (w w' : world) (c : Z) (ns : list Z) : Prop := {
  i_old : forall a, mods w a <> None -> a <> c -> att w' a = att w a;
  i_self : mods w' c <> None /\ modp w' c = modp w c /\ inc w' c = inc w c /\ xt w' c = xt w c /\ kl w' c = kl w c;
  i_new : forall n, In n ns -> mods w n = None /\ inc w' n = true /\ exists s, mods w s <> None /\ xt w' n = xt w s /\ kl w' n = kl w s;
  i_dom : forall a, mods w' a <> None <-> mods w a <> None \/ In a ns;
  i_exts : same_exts w w';
  i_real : forall a, mods w a <> None -> real w' a = real w a;
  i_pre : Pre w';
  i_next : next_ext w' = next_ext w;
  i_up : forall x, x <> c -> mods w x <> None -> up w' x = up w x;
  i_seg : exists uc, up w c = Some uc /\ links w' (c :: ns) uc }.
Definition expand (c : Z) (ns l : list Z) : list Z := flat_map (fun a => if a =? c then c :: ns else [a]) l.
Lemma expand_hd c ns l u : hd_or (expand c ns l) u = hd_or l u.
Proof. destruct l as [|a l]; [reflexivity|]. unfold expand. cbn. destruct (Z.eqb_spec a c) as [->|]; reflexivity. Qed.
Lemma expand_id c ns l : ~ In c l -> expand c ns l = l.
Proof.
  induction l as [|a l IH]; intros H; [reflexivity|]. unfold expand in *. cbn. destruct (Z.eqb_spec a c) as [->|]; [exfalso; apply H; left; reflexivity|].
  cbn. f_equal. apply IH. intros Hi. apply H. right. exact Hi.
Qed.
Lemma expand_app c ns l1 l2 : expand c ns (l1 ++ l2) = expand c ns l1 ++ expand c ns l2.
Proof. unfold expand. apply flat_map_app. Qed.
Lemma expand_cons c ns a l : expand c ns (a :: l) = (if a =? c then c :: ns else [a]) ++ expand c ns l.
Proof. reflexivity. Qed.
Lemma inserted_links w w' c ns l : Inserted w w' c ns -> links w l None -> links w' (expand c ns l) None.
Proof.
  intros X. induction l as [|a l IH]; intros L; [exact I|]. pose proof (links_some _ _ _ L a (or_introl eq_refl)) as Ha. destruct L as [U L]. specialize (IH L).
  rewrite expand_cons. apply links_app. split; [|exact IH]. rewrite expand_hd. destruct (Z.eqb_spec a c) as [->|Hne].
  - destruct (i_seg _ _ _ _ X) as (uc & E & S). rewrite E in U. injection U as ->. exact S.
  - split; [|exact I]. cbn [hd_or]. rewrite (i_up _ _ _ _ X a Hne); [exact U|]. apply up_mods. exact Ha.
Qed.
Lemma inserted_raw w w' c ns a l : Inserted w w' c ns -> raw w a l -> raw w' a (tl (expand c ns (a :: l))).
Proof.
  intros X R. pose proof (inserted_links w w' c ns _ X R) as L. unfold raw. rewrite expand_cons in *. destruct (Z.eqb_spec a c) as [->|]; cbn in *; exact L.
Qed.
Lemma inserted_wf w w' c ns : Wf w -> Inserted w w' c ns -> Wf w'.
Proof.
  intros W X. pose proof (i_pre _ _ _ _ X) as P. destruct (p_supply _ P) as [PA PF PN].
  assert (Hc : mods w c <> None).
  { destruct (i_seg _ _ _ _ X) as (uc & E & _). apply up_mods. congruence. }
  assert (OI : forall a, mods w a <> None -> modp w' a = modp w a /\ inc w' a = inc w a /\ xt w' a = xt w a /\ kl w' a = kl w a).
  { intros a Ha. destruct (Z.eq_dec a c) as [->|Hne]; [destruct (i_self _ _ _ _ X) as (_ & H); exact H|].
    pose proof (i_old _ _ _ _ X a Ha Hne) as E. split; [eapply att_modp; exact E|]. split; [eapply att_inc; exact E|]. split; [eapply att_xt; exact E|eapply att_kl; exact E]. }
  constructor.
  - intros a Ha. apply (i_dom _ _ _ _ X) in Ha. destruct Ha as [Ha|Ha].
    + destruct (w_chain w W a Ha) as [l R]. eexists. eapply inserted_raw; eassumption.
    + destruct (w_chain w W c Hc) as [lc Rc]. pose proof (inserted_links _ _ _ _ _ X Rc) as L. rewrite expand_cons, Z.eqb_refl in L.
      apply in_split in Ha. destruct Ha as (n1 & n2 & ->). exists (n2 ++ expand c (n1 ++ a :: n2) lc). unfold raw.
      change ((c :: n1 ++ a :: n2) ++ expand c (n1 ++ a :: n2) lc) with (c :: (n1 ++ a :: n2) ++ expand c (n1 ++ a :: n2) lc) in L.
      rewrite <- app_assoc in L. cbn [app] in L. rewrite app_comm_cons in L. apply (links_suffix _ (c :: n1)). exact L.
  - apply (p_orig _ P).
  - intros a l Ha Hm Hi R x Hx. apply (i_dom _ _ _ _ X) in Ha. destruct Ha as [Ha|Ha]; [|destruct (i_new _ _ _ _ X a Ha) as (_ & H & _); congruence].
    destruct (OI a Ha) as (H1 & H2 & _). rewrite H1 in Hm. rewrite H2 in Hi. destruct (w_chain w W a Ha) as [l0 R0].
    pose proof (inserted_raw _ _ _ _ _ _ X R0) as R1. assert (El : l = tl (expand c ns (a :: l0))) by (eapply links_det; [exact R|exact R1]). subst l.
    pose proof (w_mod w W a l0 Ha Hm Hi R0) as HI.
    assert (OLD : forall y, In y l0 -> inc w' y = true).
    { intros y Hy. assert (Hym : mods w y <> None) by (eapply raw_mods; [exact R0|right; exact Hy]). destruct (OI y Hym) as (_ & E & _). rewrite E. auto. }
    assert (NEW : forall y, In y ns -> inc w' y = true) by (intros y Hy; apply (i_new _ _ _ _ X y Hy)).
    assert (INX : forall y, In y (expand c ns l0) -> inc w' y = true).
    { intros y Hy. unfold expand in Hy. apply in_flat_map in Hy. destruct Hy as (z & Hz & Hy). destruct (Z.eqb_spec z c) as [->|].
      - destruct Hy as [<-|Hy]; auto.
      - destruct Hy as [<-|[]]. auto. }
    rewrite expand_cons in Hx. destruct (Z.eqb_spec a c) as [->|]; cbn [tl app] in Hx; [apply in_app_iff in Hx; destruct Hx; auto|auto].
  - apply (p_ext _ P).
  - exact (p_own _ P).
  - intros a Ha Hs. destruct (i_exts _ _ _ _ X (xt w' a)) as (_ & _ & Es). rewrite Es in Hs. apply (i_dom _ _ _ _ X).
    apply (i_dom _ _ _ _ X) in Ha. destruct Ha as [Ha|Ha].
    + destruct (OI a Ha) as (_ & _ & H3 & H4). rewrite H3 in Hs. rewrite H4. left. apply (w_single w W a Ha Hs).
    + destruct (i_new _ _ _ _ X a Ha) as (_ & _ & s & Hs' & E1 & E2). rewrite E1 in Hs. rewrite E2. left. apply (w_single w W s Hs' Hs).
  - exact PA.
  - exact PF.
  - exact PN.
  - rewrite (i_next _ _ _ _ X). apply (w_next_ext w W).
Qed.

Lemma inc_version_wf w : Wf w -> Wf (inc_version w).
Proof.
  intros [WC ? WM ? ? ? ? ? ? ?]. assert (R : forall a l, raw (inc_version w) a l <-> raw w a l) by (intros a l; split; apply links_ext; reflexivity).
  constructor; try assumption.
  - intros a Ha. destruct (WC a Ha) as [l H]. exists l. apply R. exact H.
  - intros a l Ha Hm Hi H. apply R in H. exact (WM a l Ha Hm Hi H).
Qed.
Lemma extends_inserted w w' c ns src : mods w c <> None -> Extends w w' ns src ->
  (forall x, x <> c -> mods w x <> None -> up w' x = up w x) ->
  (exists uc, up w c = Some uc /\ links w' (c :: ns) uc) -> Inserted w w' c ns.
Proof.
  intros Hc X U S. assert (AC : att w' c = att w c) by (apply (x_old _ _ _ _ X); exact Hc). constructor.
  - intros a Ha _. apply (x_old _ _ _ _ X). exact Ha.
  - split; [apply (x_dom _ _ _ _ X); left; exact Hc|]. split; [apply att_modp; exact AC|]. split; [apply att_inc; exact AC|]. split; [apply att_xt; exact AC|apply att_kl; exact AC].
  - intros n Hn. destruct (ext_new_in _ _ _ _ n X Hn) as (H1 & s & Hs & Hcp & _). destruct (copy_facts _ _ _ _ Hcp) as (_ & H2 & _ & _ & H3 & H4).
    split; [exact H1|]. split; [exact H2|]. exists s. split; [apply Hcp|auto].
  - apply (x_dom _ _ _ _ X).
  - apply (x_exts _ _ _ _ X).
  - apply (x_real _ _ _ _ X).
  - apply (x_pre _ _ _ _ X).
  - apply (x_ver _ _ _ _ X).
  - exact U.
  - exact S.
Qed.
Lemma append_include_ok w c M lm fuel : Wf w -> mods w c <> None -> inc w c = false -> mods w M <> None -> inc w M = false -> modp w M = true -> c <> M ->
  raw w M lm -> (length lm < fuel)%nat ->
  exists ns w', append_include fuel w c M = Ok (inc_version w') /\ Extends w w' ns (M :: vis w lm) /\ Inserted w w' c ns.
Proof.
  intros W Hc Hci HM HMi HMm Hne RM HF. destruct (mods w c) as [mc|] eqn:Emc; [|congruence]. clear Hc. assert (Hc : mods w c <> None) by congruence.
  assert (Uc : up w c = Some (m_upper mc)) by (unfold up; rewrite Emc; reflexivity).
  destruct (attach_ok w c M lm fuel _ W Hc Hci HM HMi HMm Hne RM HF Uc) as (r & w1 & l & ns & u & E1 & E2 & E3 & El & Hns & Hhd & X & U & UC & L).
  unfold append_include, get_mod. rewrite Emc. cbn [rbind]. rewrite E1. cbn [rbind]. rewrite E2. cbn [rbind]. rewrite E3. cbn [rbind]. rewrite El.
  assert (Hlast : mods (snd l) (last ns 0) <> None) by (apply (x_dom _ _ _ _ X); right; apply last_in; exact Hns).
  destruct (set_upper_ok (snd l) (last ns 0) (m_upper mc) Hlast) as (w' & E4 & A4 & EE4 & RS4 & UI & UO). rewrite E4. cbn [rbind].
  assert (Hln : mods w (last ns 0) = None) by (apply (ext_new_in _ _ _ _ _ X); apply last_in; exact Hns).
  assert (X' : Extends w w' ns (M :: vis w lm)) by (eapply ext_upper; eassumption).
  exists ns, w'. split; [reflexivity|]. split; [exact X'|]. apply (extends_inserted w w' c ns (M :: vis w lm)); auto.
  - intros x H1 H2. rewrite UO; [apply U; assumption|intros ->; congruence].
  - exists (m_upper mc). split; [exact Uc|]. split.
    + rewrite UO; [|intros ->; congruence]. rewrite UC. f_equal. destruct ns; [congruence|reflexivity].
    + eapply links_last; [exact Hns|apply (x_nodup _ _ _ _ X)|exact L|exact UI|]. intros x Hx _. apply UO. exact Hx.
Qed.

(* prepend on a class that has none yet *)
Lemma set_prepend_ok w a : mods w a <> None -> exists w', set_prepend w a = Ok w' /\ (forall x, x <> a -> att w' x = att w x) /\
  (modp w' a = modp w a /\ inc w' a = inc w a /\ xt w' a = xt w a /\ kl w' a = kl w a /\ hp w' a = true) /\
  exts w' = exts w /\ rest_same w w' /\ (forall x, up w' x = up w x) /\ (forall x, mods w' x <> None <-> mods w x <> None).
Proof.
  intros Ha. unfold set_prepend, get_mod. destruct (mods w a) as [m|] eqn:Em; [|congruence]. cbn [rbind]. eexists. split; [reflexivity|].
  unfold att, modp, inc, xt, kl, hp, up, set_mods. cbn. rewrite upd_same, Em.
  split; [intros x Hx; rewrite upd_other by exact Hx; reflexivity|]. split; [auto|]. split; [reflexivity|]. split; [repeat split|].
  split; intros x; unfold upd; destruct (Z.eqb_spec x a) as [->|]; try rewrite Em; try reflexivity; try tauto. split; congruence.
Qed.
Lemma Pre_flag w w' a : (forall x, x <> a -> att w' x = att w x) -> inc w' a = inc w a -> xt w' a = xt w a ->
  (forall x, mods w' x <> None <-> mods w x <> None) -> exts w' = exts w -> rest_same w w' -> Pre w -> Pre w'.
Proof.
  intros EA Ei Ex EM EE (R1 & R2 & R3 & _) [S O W X].
  assert (I : forall x, inc w' x = inc w x) by (intros x; destruct (Z.eq_dec x a) as [->|H]; [exact Ei|apply att_inc; auto]).
  assert (T : forall x, xt w' x = xt w x) by (intros x; destruct (Z.eq_dec x a) as [->|H]; [exact Ex|apply att_xt; auto]).
  constructor.
  - destruct S as [[S1 S2] S3 [S4 S5]]. constructor; rewrite ?R1, ?R2.
    + split; [exact S1|]. intros x Hx. destruct (S2 x Hx) as [H1 H2]. split; [|exact H2]. destruct (mods w' x) eqn:E; [|reflexivity]. exfalso. apply (proj1 (EM x)); [congruence|exact H1].
    + intros x Hx. apply S3, EM, Hx.
    + auto.
  - intros x Hx Hi. rewrite I in Hi. destruct (O x (proj1 (EM x) Hx) Hi) as (o & E1 & E2 & E3 & E4). exists o. rewrite EE, !T, I. repeat split; try assumption. apply EM. exact E2.
  - intros x y Hx Hy. rewrite !I, !T. apply W; apply EM; assumption.
  - intros x Hx. rewrite T, R3. apply X. apply EM. exact Hx.
Qed.
(* what prepend inserts: the copies, and on the first time a copy of the class *)
Lemma append_prepend_ok w c M lm fuel : Wf w -> mods w c <> None -> inc w c = false -> mods w M <> None -> inc w M = false -> modp w M = true -> c <> M ->
  raw w M lm -> (length lm < fuel)%nat ->
  exists ns ds w', append_prepend fuel w c M = Ok (inc_version w') /\ Inserted w w' c (ns ++ ds) /\ hp w' c = true /\
    Forall2 (fun n s => hp w' n = hp w s /\ real w' n = real w s) ns (M :: vis w lm) /\
    (if hp w c then ds = [] else exists d, ds = [d] /\ hp w' d = false /\ real w' d = c) /\
    (forall x, mods w x <> None -> x <> c -> hp w' x = hp w x) /\ version w' = version w /\ caches_same w w'.
Proof.
  intros W Hc Hci HM HMi HMm Hne RM HF. destruct (mods w c) as [mc|] eqn:Emc; [|congruence]. clear Hc. assert (Hc : mods w c <> None) by congruence.
  assert (Uc : up w c = Some (m_upper mc)) by (unfold up; rewrite Emc; reflexivity).
  destruct (attach_ok w c M lm fuel _ W Hc Hci HM HMi HMm Hne RM HF Uc) as (r & w1 & l & ns & u & E1 & E2 & E3 & El & Hns & Hhd & X & U & UC & L).
  unfold append_prepend, get_mod. rewrite Emc. cbn [rbind]. rewrite E1. cbn [rbind]. rewrite E2. cbn [rbind]. rewrite E3. cbn [rbind].
  assert (Hh : hp w c = has_prepend mc) by (unfold hp; rewrite Emc; reflexivity). rewrite Hh.
  assert (Hlast : mods (snd l) (last ns 0) <> None) by (apply (x_dom _ _ _ _ X); right; apply last_in; exact Hns).
  assert (Hln : mods w (last ns 0) = None) by (apply (ext_new_in _ _ _ _ _ X); apply last_in; exact Hns).
  assert (FN : forall w' , (forall n, In n ns -> att w' n = att (snd l) n /\ real w' n = real (snd l) n) ->
    Forall2 (fun n s => hp w' n = hp w s /\ real w' n = real w s) ns (M :: vis w lm)).
  { intros w' H. pose proof (x_new _ _ _ _ X) as F. clear - F H. induction F as [|n s ns src (F1 & F2 & F3) F IH]; [constructor|]. constructor.
    - destruct (H n (or_introl eq_refl)) as [A R]. rewrite R, (att_hp _ _ _ _ A). split; [apply (copy_facts _ _ _ _ F2)|exact F3].
    - apply IH. intros x Hx. apply H. right. exact Hx. }
  destruct (has_prepend mc) eqn:Ehp.
  - rewrite El. destruct (set_upper_ok (snd l) (last ns 0) (m_upper mc) Hlast) as (w' & E4 & A4 & EE4 & RS4 & UI & UO). rewrite E4. cbn [rbind].
    assert (X' : Extends w w' ns (M :: vis w lm)) by (eapply ext_upper; eassumption).
    exists ns, [], w'. rewrite app_nil_r. split; [reflexivity|]. split; [|split; [|split; [|split; [reflexivity|split]]]].
    + apply (extends_inserted w w' c ns (M :: vis w lm)); auto.
      * intros x H1 H2. rewrite UO; [apply U; assumption|intros ->; congruence].
      * exists (m_upper mc). split; [exact Uc|]. split.
        -- rewrite UO; [|intros ->; congruence]. rewrite UC. f_equal. destruct ns; [congruence|reflexivity].
        -- eapply links_last; [exact Hns|apply (x_nodup _ _ _ _ X)|exact L|exact UI|]. intros x Hx _. apply UO. exact Hx.
    + rewrite (att_hp w w' c c); [congruence|]. apply (x_old _ _ _ _ X'). exact Hc.
    + apply FN. intros n _. split; [apply A4|]. apply real_att; [apply A4|rewrite EE4; reflexivity].
    + intros x Hx _. apply att_hp. apply (x_old _ _ _ _ X'). exact Hx.
    + destruct (x_ver _ _ _ _ X') as (V1 & V2 & _). auto.
  - assert (Hcl : mods (snd l) c <> None) by (apply (x_dom _ _ _ _ X); left; exact Hc).
    destruct (gen_inc_ok (snd l) c (x_pre _ _ _ _ X) Hcl) as (d & w2 & E4 & X4 & U4 & _). rewrite E4. cbn [rbind fst snd].
    assert (Hd : mods (snd l) d = None) by (apply (ext_new_in _ _ _ _ d X4); left; reflexivity).
    assert (Hdw : mods w d = None) by (destruct (mods w d) eqn:E; [|reflexivity]; exfalso; assert (mods (snd l) d <> None) by (apply (x_dom _ _ _ _ X); left; congruence); contradiction).
    assert (X5 : Extends w w2 (ns ++ [d]) ((M :: vis w lm) ++ [c])).
    { eapply ext_trans; [exact X|exact X4|]. intros s [<-|[]]. exact Hc. }
    assert (Hd2 : mods w2 d <> None) by (apply (x_dom _ _ _ _ X5); right; apply in_or_app; right; left; reflexivity).
    destruct (set_upper_ok w2 d (m_upper mc) Hd2) as (w3 & E5 & A5 & EE5 & RS5 & UI5 & UO5). rewrite E5. cbn [rbind]. rewrite El.
    pose proof (ext_upper _ _ _ _ w3 X5 A5 EE5 RS5) as X6.
    assert (Hl3 : mods w3 (last ns 0) <> None) by (apply (x_dom _ _ _ _ X6); right; apply in_or_app; left; apply last_in; exact Hns).
    destruct (set_upper_ok w3 (last ns 0) (Some d) Hl3) as (w4 & E6 & A6 & EE6 & RS6 & UI6 & UO6). rewrite E6. cbn [rbind].
    pose proof (ext_upper _ _ _ _ w4 X6 A6 EE6 RS6) as X7.
    assert (Hc4 : mods w4 c <> None) by (apply (x_dom _ _ _ _ X7); left; exact Hc).
    destruct (set_prepend_ok w4 c Hc4) as (w5 & E7 & A7 & (F1 & F2 & F3 & F4 & F5) & EE7 & RS7 & U7 & D7). rewrite E7. cbn [rbind].
    assert (Hdl : d <> last ns 0).
    { intros E. rewrite E in Hd. contradiction. }
    assert (Hcl' : c <> last ns 0) by (intros ->; congruence).
    assert (Hcd : c <> d) by (intros ->; congruence).
    assert (UPO : forall x, x <> c -> mods w x <> None -> up w5 x = up w x).
    { intros x H1 H2. rewrite U7, UO6, UO5, U4, U; try assumption; try reflexivity.
      - apply (x_dom _ _ _ _ X). left. exact H2. - intros ->; congruence. - intros ->; congruence. }
    assert (RL : forall x, mods w4 x <> None -> real w5 x = real w4 x).
    { intros x Hx. unfold real. destruct (Z.eq_dec x c) as [->|Hn].
      - rewrite F2, F3, EE7. reflexivity.
      - rewrite (att_inc w4 w5 x x (A7 x Hn)), (att_xt w4 w5 x x (A7 x Hn)), EE7. reflexivity. }
    assert (AN : forall n, In n (ns ++ [d]) -> n <> c).
    { intros n Hn ->. pose proof (ext_new_in _ _ _ _ c X7 Hn) as (H & _). contradiction. }
    exists ns, [d], w5. split; [reflexivity|]. split; [|split; [exact F5|split; [|split; [|split]]]].
    + pose proof (x_old _ _ _ _ X7 c Hc) as AC. constructor.
      * intros a Ha Hn. rewrite A7 by exact Hn. apply (x_old _ _ _ _ X7). exact Ha.
      * split; [apply D7; exact Hc4|]. rewrite F1, F2, F3, F4.
        split; [eapply att_modp; exact AC|]. split; [eapply att_inc; exact AC|]. split; [eapply att_xt; exact AC|eapply att_kl; exact AC].
      * intros n Hn. destruct (ext_new_in _ _ _ _ n X7 Hn) as (H1 & s & Hs & Hcp & _). destruct (copy_facts _ _ _ _ Hcp) as (_ & H2 & _ & _ & H3 & H4).
        pose proof (A7 n (AN n Hn)) as An. split; [exact H1|]. split; [rewrite (att_inc _ _ _ _ An); exact H2|]. exists s. split; [apply Hcp|].
        rewrite (att_xt _ _ _ _ An), (att_kl _ _ _ _ An). auto.
      * intros a. rewrite D7. apply (x_dom _ _ _ _ X7).
      * intros y. rewrite EE7. apply (x_exts _ _ _ _ X7).
      * intros a Ha. rewrite RL; [apply (x_real _ _ _ _ X7); exact Ha|]. apply (x_dom _ _ _ _ X7). left. exact Ha.
      * eapply (Pre_flag w4 w5 c); eauto. apply (x_pre _ _ _ _ X7).
      * destruct RS7 as (_ & _ & R & _). rewrite R. apply (x_ver _ _ _ _ X7).
      * exact UPO.
      * exists (m_upper mc). split; [exact Uc|]. split.
        -- rewrite U7, UO6, UO5, U4, UC by assumption. f_equal. destruct ns; [congruence|reflexivity].
        -- apply links_app. split.
           ++ cbn [hd_or]. eapply (links_ext w4); [intros x _; apply U7|]. eapply links_last; [exact Hns|apply (x_nodup _ _ _ _ X)|exact L|exact UI6|].
              intros x Hx Hi. assert (mods (snd l) x <> None) by (apply (x_dom _ _ _ _ X); right; exact Hi).
              rewrite UO6, UO5, U4; auto. intros ->. congruence.
           ++ split; [|exact I]. cbn [hd_or]. rewrite U7, UO6 by exact Hdl. exact UI5.
    + apply FN. intros n Hn. assert (Hn' : In n (ns ++ [d])) by (apply in_or_app; left; exact Hn). pose proof (AN n Hn') as Hnc.
      assert (Hnl : mods (snd l) n <> None) by (apply (x_dom _ _ _ _ X); right; exact Hn).
      assert (An : att w4 n = att (snd l) n) by (rewrite A6, A5; apply (x_old _ _ _ _ X4); exact Hnl).
      split; [rewrite A7 by exact Hnc; exact An|]. rewrite RL by (apply (x_dom _ _ _ _ X7); right; exact Hn').
      rewrite <- (x_real _ _ _ _ X4 n Hnl). apply real_att; [rewrite A6, A5; reflexivity|]. rewrite EE6, EE5. reflexivity.
    + exists d. split; [reflexivity|]. pose proof (x_new _ _ _ _ X4) as F. inversion F as [|? ? ? ? (G1 & G2 & G3) _]; subst.
      destruct (copy_facts _ _ _ _ G2) as (_ & _ & G4 & _).
      assert (Ad : att w5 d = att w2 d) by (rewrite A7 by auto; rewrite A6, A5; reflexivity).
      split.
      * rewrite (att_hp _ _ _ _ Ad), G4. rewrite (att_hp w (snd l) c c) by (apply (x_old _ _ _ _ X); exact Hc). congruence.
      * rewrite RL by (apply (x_dom _ _ _ _ X7); right; apply in_or_app; right; left; reflexivity).
        rewrite (real_att w2 w4 d); [|rewrite A6, A5; reflexivity|rewrite EE6, EE5; reflexivity]. rewrite G3. rewrite (x_real _ _ _ _ X c Hc). unfold real. rewrite Hci. reflexivity.
    + intros x Hx Hn. rewrite (att_hp _ _ _ _ (A7 x Hn)). apply att_hp. apply (x_old _ _ _ _ X7). exact Hx.
    + destruct (x_ver _ _ _ _ X7) as (V1 & (V2 & V3 & V4 & V5) & _), RS7 as (_ & _ & _ & R4 & (R5 & R6 & R7 & R8)). unfold caches_same. repeat split; congruence.
Qed.
