(* The superclass of a class never changes. *)
From Verif Require Import Base ProofsBase ModelArray ProofsArray ModelGC ProofsGC ModelClass SpecClass ProofsClass ProofsClass2 ProofsClass3 ProofsClass4 ProofsClass5 ProofsClass6 ProofsClass7 ProofsClass8 ProofsRaise ProofsRaise2 ModelClassDef SpecClassDef.

Definition sup_of (w : world) (l : list Z) : option Z := find (fun x => negb (inc w x)) l.
Definition keeps_super (w w' : world) : Prop := forall x l l', mods w x <> None -> raw w x l -> raw w' x l' -> sup_of w' l' = sup_of w l.

Lemma find_same (P Q : Z -> bool) l : (forall x, In x l -> P x = Q x) -> find P l = find Q l.
Proof. induction l as [|a l IH]; intros H; [reflexivity|]. cbn. rewrite (H a (or_introl eq_refl)), IH; [reflexivity|]. intros x Hx. apply H. right. exact Hx. Qed.
Lemma find_app P (a b : list Z) : (forall x, In x a -> P x = false) -> find P (a ++ b) = find P b.
Proof. induction a as [|x a IH]; intros H; [reflexivity|]. cbn. rewrite (H x (or_introl eq_refl)). apply IH. intros y Hy. apply H. right. exact Hy. Qed.
Lemma find_expand (P : Z -> bool) c ns l : (forall x, In x ns -> P x = false) -> find P (expand c ns l) = find P l.
Proof.
  intros H. induction l as [|a l IH]; [reflexivity|]. rewrite expand_cons. destruct (Z.eqb_spec a c) as [->|]; cbn [app find]; [|rewrite IH; reflexivity].
  destruct (P c); [reflexivity|]. rewrite find_app by exact H. exact IH.
Qed.
Lemma ks_same w w' : mods w' = mods w -> keeps_super w w'.
Proof.
  intros EM x l l' _ A B. assert (B' : raw w x l') by (eapply links_ext; [|exact B]; intros y _; unfold up; rewrite EM; reflexivity).
  assert (l = l') by (eapply links_det; [exact A|exact B']). subst l'. unfold sup_of, inc. rewrite EM. reflexivity.
Qed.
Lemma ks_agree w w' : Wf w -> (forall x, mods w x <> None -> mods w' x = mods w x) -> keeps_super w w'.
Proof.
  intros W MO x l l' Hx A B. assert (B' : raw w' x l) by (apply (agree_raw w w' x l MO A)). assert (l' = l) by (eapply links_det; [exact B|exact B']). subst l'.
  apply find_same. intros y Hy. unfold inc. rewrite MO; [reflexivity|]. eapply raw_mods; [exact A|right; exact Hy].
Qed.
Lemma ks_insert w w' c ns : Inserted w w' c ns -> keeps_super w w'.
Proof.
  intros X x l l' Hx A B.
  assert (El : l' = tl (expand c ns (x :: l))) by (eapply links_det; [exact B|apply (inserted_raw _ _ _ _ _ _ X A)]). subst l'.
  assert (NS : forall y, In y ns -> negb (inc w' y) = false) by (intros y Hy; destruct (i_new _ _ _ _ X y Hy) as (_ & E & _); rewrite E; reflexivity).
  assert (IO : forall y, mods w y <> None -> inc w' y = inc w y).
  { intros y Hy. destruct (Z.eq_dec y c) as [->|Hne]; [apply (i_self _ _ _ _ X)|apply att_inc; apply (i_old _ _ _ _ X); assumption]. }
  assert (E : sup_of w' (tl (expand c ns (x :: l))) = sup_of w' l).
  { unfold sup_of. rewrite expand_cons. destruct (Z.eqb_spec x c); cbn [app tl]; [rewrite find_app by exact NS|]; apply find_expand; exact NS. }
  rewrite E. apply find_same. intros y Hy. rewrite IO; [reflexivity|]. eapply raw_mods; [exact A|right; exact Hy].
Qed.
Lemma ks_inc w w2 : keeps_super w w2 -> keeps_super w (inc_version w2).
Proof. intros A x l l' H1 H2 H3. assert (H3' : raw w2 x l') by (eapply links_ext; [|exact H3]; reflexivity). apply (A x l l' H1 H2 H3'). Qed.
Lemma new_super w p sup sg cls a w' : Wf w -> (p = true -> sup = None) -> (forall s, sup = Some s -> mods w s <> None) -> (sg = true -> mods w cls <> None) ->
  new_class w p sup sg cls = (a, w') -> keeps_super w w'.
Proof.
  intros W Hp Hs Hc E. destruct (new_class_wf w p sup sg cls a w' W Hp Hs Hc E) as (W' & Hn & Em & Ee & Ev & Ec & Ag). apply ks_agree; [exact W|apply Ag].
Qed.
Lemma super_step site csite o w w' : Wf w -> op_ok o -> runs site csite o w w' -> keeps_super w w'.
Proof.
  intros W OK R. unfold runs in R. destruct o; cbn [exec op_ok] in *.
  - apply ev_if in R. destruct R as [C R]. apply ev_ok in R. injection R as E. destruct (new_class w false sup false cls) as [a w1] eqn:En. cbn in E. subst w1.
    eapply new_super; try exact En; auto; try discriminate. intros s ->. apply andb_prop in C. apply user_mod_ok. apply C.
  - apply ev_ok in R. injection R as E. destruct (new_class w true None false cls) as [a w1] eqn:En. cbn in E. subst w1. eapply new_super; try exact En; auto; discriminate.
  - apply ev_if in R. destruct R as [C R]. apply ev_ok in R. injection R as E. destruct (new_class w false (Some sup) true cls) as [a w1] eqn:En. cbn in E. subst w1.
    apply andb_prop in C. destruct C as [C Cc]. apply andb_prop in C. destruct C as [Cs _]. eapply new_super; try exact En; auto; try discriminate.
    + intros s [= ->]. apply user_mod_ok. exact Cs. + intros _. apply user_mod_ok. exact Cc.
  - apply ev_if in R. destruct R as [C R]. apply andb_prop in C. destruct C as [C Cm]. apply andb_prop in C. destruct C as [C1 C2].
    destruct (include_step w c m w' W C1 C2 Cm OK R) as (_ & _ & _ & w2 & ns & lm & -> & RM & X & I). apply ks_inc. eapply ks_insert. exact I.
  - apply ev_if in R. destruct R as [C R]. apply andb_prop in C. destruct C as [C Cm]. apply andb_prop in C. destruct C as [C1 C2].
    destruct (prepend_step w c m w' W C1 C2 Cm OK R) as (_ & _ & _ & w2 & ns & ds & lm & -> & RM & I & HC & F & D & HH). apply ks_inc. eapply ks_insert. exact I.
  - apply ev_if in R. destruct R as [C R]. apply ev_ok in R. unfold add_method in R. apply bind_ok in R. destruct R as (mm & Em & R). injection R as <-. apply ks_same; reflexivity.
  - apply ev_if in R. destruct R as [C R]. apply ev_ok in R. unfold set_const in R. apply bind_ok in R. destruct R as (mm & Em & R). injection R as <-. apply ks_same; reflexivity.
  - apply ev_ok in R. injection R as <-. apply ks_same; reflexivity.
  - apply ev_ok in R. injection R as <-. apply ks_same; reflexivity.
  - apply ev_if in R. destruct R as [C R]. apply ev_here in R. destruct R as [N R]. apply bind_ok in R. destruct R as (r & E & R). injection R as <-. destruct (find_inline_only _ _ _ _ _ _ E) as ((E1 & E2 & _) & _). apply ks_same; auto.
  - apply ev_if in R. destruct R as [C R]. apply ev_here in R. destruct R as [N R]. apply bind_ok in R. destruct R as (r & E & R). injection R as <-. destruct (find_method_only _ _ _ _ _ E) as ((E1 & E2 & _) & _). apply ks_same; auto.
  - apply ev_if in R. destruct R as [C R]. apply ev_here in R. destruct R as [N R]. apply bind_ok in R. destruct R as (r & E & R). injection R as <-. destruct (super_only _ _ _ _ _ E) as ((E1 & E2 & _) & _). apply ks_same; auto.
  - destruct (csite slot) as [[scope cls] [id object]] eqn:Es. apply ev_here in R. destruct R as [N R]. apply bind_ok in R. destruct R as (r & E & R). injection R as <-.
    destruct (read_const_only _ _ _ _ _ _ _ _ E) as ((E1 & E2 & _) & _). apply ks_same; auto.
Qed.

Lemma later_hist site csite P w w' : hist site csite w -> later site csite P w w' -> hist site csite w'.
Proof. intros H L. induction L as [|w w1 o w2 L IH HP OK R]; [exact H|]. eapply h_step; [apply IH; exact H|exact OK|exact R]. Qed.
Definition has_super (w : world) (c : Z) (r : option Z) : Prop := eventually (fun f => superclass w f c = Ok r).
Lemma has_super_raw w c l : raw w c l -> has_super w c (sup_of w l).
Proof. intros R. exists (length l). intros f Hf. apply superclass_ok; assumption. Qed.
Lemma has_super_det w c r r' : has_super w c r -> has_super w c r' -> r = r'.
Proof. intros [N H] [N' H']. specialize (H (N + N')%nat ltac:(lia)). specialize (H' (N + N')%nat ltac:(lia)). congruence. Qed.
Lemma later_super site csite P w w' c r : hist site csite w -> later site csite P w w' -> mods w c <> None -> has_super w c r -> mods w' c <> None /\ has_super w' c r.
Proof.
  intros H L Hc HS. induction L as [|w w1 o w2 L IH HP OK R]; [auto|]. destruct (IH H Hc HS) as [Hc1 HS1]. pose proof (later_hist _ _ _ _ _ H L) as H1.
  pose proof (hist_wf _ _ _ H1) as W1. pose proof (hist_wf site csite w2 (h_step _ _ _ _ _ H1 OK R)) as W2.
  destruct (keeps_step site csite o w1 w2 W1 (hist_cop _ _ _ H1) OK R) as [[_ KM] _]. destruct (KM c Hc1) as [Hc2 _]. split; [exact Hc2|].
  destruct (w_chain w1 W1 c Hc1) as [l1 A1]. destruct (w_chain w2 W2 c Hc2) as [l2 A2].
  rewrite (has_super_det _ _ _ _ HS1 (has_super_raw _ _ _ A1)). rewrite <- (super_step _ _ _ _ _ W1 OK R c l1 l2 Hc1 A1 A2). apply has_super_raw. exact A2.
Qed.
Lemma later_kind site csite P w w' c : hist site csite w -> later site csite P w w' -> user_mod w c = true -> user_mod w' c = true /\ module_p w' c = module_p w c.
Proof.
  intros H L Hc. induction L as [|w w1 o w2 L IH HP OK R]; [auto|]. destruct (IH H Hc) as [Hc1 Hp1]. pose proof (later_hist _ _ _ _ _ H L) as H1.
  destruct (keeps_step site csite o w1 w2 (hist_wf _ _ _ H1) (hist_cop _ _ _ H1) OK R) as [[_ KM] _]. destruct (user_mod_ok _ _ Hc1) as [A B]. destruct (KM c A) as (C & D & E & _).
  unfold user_mod, module_p, modp, inc in *. destruct (mods w1 c); [|congruence]. destruct (mods w2 c); [|congruence]. rewrite E. rewrite <- Hp1. auto.
Qed.
Lemma later_const site csite w w' cur id v : hist site csite w -> later site csite (leaves cur id) w w' -> user_mod w cur = true -> own_const w id cur = v -> own_const w' id cur = v.
Proof.
  intros H L Hc HV. induction L as [|w w1 o w2 L IH HP OK R]; [exact HV|]. pose proof (later_hist _ _ _ _ _ H L) as H1. destruct (later_kind _ _ _ _ _ _ H L Hc) as [Hc1 _].
  destruct (keeps_step site csite o w1 w2 (hist_wf _ _ _ H1) (hist_cop _ _ _ H1) OK R) as [_ KK]. rewrite (KK id cur Hc1 HP). apply IH; auto.
Qed.

(* the two steps of a new definition *)
Lemma get_const_own w c id : user_mod w c = true -> get_const w c id = Ok (own_const w id c).
Proof. unfold user_mod, get_const, get_mod, own_const. destruct (mods w c); [reflexivity|discriminate]. Qed.
Lemma set_const_runs w c id v : user_mod w c = true -> exists w', set_const w c id v = Ok w' /\ mods w' = mods w.
Proof. unfold user_mod, set_const, get_mod. destruct (mods w c); [|discriminate]. intros _. eexists. split; reflexivity. Qed.
Lemma class_p_of w s : is_class_of w s -> class_p w s = true /\ user_mod w s = true /\ module_p w s = false.
Proof. intros (m & E & A & B). unfold class_p, user_mod, module_p. rewrite E, A, B. auto. Qed.
