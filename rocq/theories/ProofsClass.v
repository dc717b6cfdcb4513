(* Chains of modules, include and prepend. *)
From Verif Require Import Base ProofsBase ModelArray ProofsArray ModelGC ProofsGC ModelClass.

Definition up (w : world) (a : Z) : option (option Z) := option_map m_upper (mods w a).
Definition hp (w : world) (a : Z) : bool := match mods w a with Some m => has_prepend m | None => false end.
Definition inc (w : world) (a : Z) : bool := match mods w a with Some m => included m | None => false end.
Definition modp (w : world) (a : Z) : bool := match mods w a with Some m => is_module m | None => false end.
Definition xt (w : world) (a : Z) : Z := match mods w a with Some m => m_ext m | None => 0 end.
Definition kl (w : world) (a : Z) : Z := match mods w a with Some m => m_class m | None => 0 end.
Definition hd_or (l : list Z) (u : option Z) : option Z := match l with [] => u | b :: _ => Some b end.
Fixpoint links (w : world) (l : list Z) (u : option Z) : Prop :=
  match l with
  | [] => True
  | a :: r => up w a = Some (hd_or r u) /\ links w r u
  end.
Definition raw (w : world) (a : Z) (l : list Z) : Prop := links w (a :: l) None.

Lemma links_app w l1 l2 u : links w (l1 ++ l2) u <-> links w l1 (hd_or l2 u) /\ links w l2 u.
Proof.
  induction l1 as [|a l1 IH]; cbn [app links]; [tauto|]. rewrite IH. destruct l1; cbn [app hd_or]; tauto.
Qed.
Lemma links_det w l1 l2 a : links w (a :: l1) None -> links w (a :: l2) None -> l1 = l2.
Proof.
  revert l2 a. induction l1 as [|b l1 IH]; intros l2 a [U1 L1] [U2 L2]; rewrite U1 in U2; injection U2 as U2; destruct l2 as [|c l2]; try discriminate; [reflexivity|].
  injection U2 as <-. f_equal. eapply IH; eassumption.
Qed.
Lemma links_some w l u : links w l u -> forall x, In x l -> up w x <> None.
Proof. induction l as [|a l IH]; intros H x Hx; [destruct Hx|]. destruct H as [U L]. destruct Hx as [<-|Hx]; [congruence|auto]. Qed.
Lemma links_ext w w' l u : (forall x, In x l -> up w' x = up w x) -> links w l u -> links w' l u.
Proof.
  induction l as [|a l IH]; intros E H; [exact I|]. destruct H as [U L]. split; [rewrite E; [exact U|left; reflexivity]|].
  apply IH; [intros x Hx; apply E; right; exact Hx|exact L].
Qed.
Lemma links_suffix w l1 b l2 u : links w (l1 ++ b :: l2) u -> links w (b :: l2) u.
Proof. rewrite links_app. tauto. Qed.
Lemma raw_NoDup w a l : raw w a l -> NoDup (a :: l).
Proof.
  (* a repeated node would have two different tails *)
  unfold raw. revert a. induction l as [|b l IH]; intros a H; [constructor; [intros []|constructor]|].
  pose proof H as [_ H']. constructor; [|apply IH; exact H'].
  intros Hin. apply in_split in Hin. destruct Hin as (l1 & l2 & E). rewrite E in H.
  assert (E2 : l1 ++ a :: l2 = l2).
  { eapply links_det; [exact H|]. destruct H as [_ H]. apply (links_suffix _ l1 a l2 None). exact H. }
  apply (f_equal (@length Z)) in E2. rewrite app_length in E2. cbn in E2. lia.
Qed.

Definition vis (w : world) (l : list Z) : list Z := filter (fun a => negb (hp w a)) l.
Lemma get_mod_up w a u : up w a = Some u -> exists m, mods w a = Some m /\ m_upper m = u.
Proof. unfold up. destruct (mods w a) as [m|]; [|discriminate]. intros [= <-]. eauto. Qed.
Lemma skip_prepend_ok w fuel : forall b l, raw w b l -> (length l < fuel)%nat ->
  (vis w (b :: l) = [] /\ skip_prepend w fuel b = Ok None) \/
  (exists p c s, b :: l = p ++ c :: s /\ vis w (b :: l) = c :: vis w s /\ hp w c = false /\ skip_prepend w fuel b = Ok (Some c)).
Proof.
  induction fuel as [|n IH]; intros b l R HF; [lia|]. destruct R as [U R]. destruct (get_mod_up _ _ _ U) as (m & Em & Eu).
  cbn [skip_prepend]. unfold get_mod. rewrite Em. cbn [rbind]. unfold vis. cbn [filter]. unfold hp at 1 4. rewrite Em. destruct (has_prepend m) eqn:Eh; cbn [negb].
  - rewrite Eu. destruct l as [|c l]; cbn [hd_or]; [left; auto|].
    destruct (IH c l R ltac:(cbn in HF; lia)) as [[H1 H2]|(p & d & s & H1 & H2 & H3 & H4)]; [left; split; assumption|right].
    exists (b :: p), d, s. split; [cbn; f_equal; exact H1|]. split; [exact H2|]. split; assumption.
  - right. exists [], b, l. unfold hp. rewrite Em, Eh. auto.
Qed.
Lemma upper_ok w fuel a l : raw w a l -> (length l <= fuel)%nat ->
  (vis w l = [] /\ upper w fuel a = Ok None) \/
  (exists p c s, l = p ++ c :: s /\ vis w l = c :: vis w s /\ hp w c = false /\ upper w fuel a = Ok (Some c) /\ raw w c s).
Proof.
  intros R HF. pose proof R as [U R']. destruct (get_mod_up _ _ _ U) as (m & Em & Eu). unfold upper, get_mod. rewrite Em. cbn [rbind]. rewrite Eu.
  destruct l as [|b l]; cbn [hd_or]; [left; auto|].
  destruct (skip_prepend_ok w fuel b l R' ltac:(cbn in HF; lia)) as [[H1 H2]|(p & c & s & H1 & H2 & H3 & H4)]; [left; auto|right].
  exists p, c, s. repeat (split; [assumption|]). unfold raw. rewrite H1 in R'. apply links_suffix in R'. exact R'.
Qed.

(* the real module behind a node *)
Definition real (w : world) (a : Z) : Z := if inc w a then match e_origin (exts w (xt w a)) with Some o => o | None => a end else a.
Definition origins_ok (w : world) : Prop := forall a, mods w a <> None -> inc w a = true ->
  exists o, e_origin (exts w (xt w a)) = Some o /\ mods w o <> None /\ inc w o = false /\ xt w o = xt w a.
Lemma real_module_ok w a : origins_ok w -> mods w a <> None -> real_module w a = Ok (real w a).
Proof.
  intros HO Ha. unfold real_module, real, get_mod. destruct (mods w a) as [m|] eqn:Em; [|congruence]. cbn [rbind].
  destruct (included m) eqn:Ei.
  - assert (Hi : inc w a = true) by (unfold inc; rewrite Em; exact Ei). destruct (HO a ltac:(congruence) Hi) as (o & E & _).
    unfold xt in E |- *. rewrite Em in *. rewrite Hi, E. reflexivity.
  - unfold inc. rewrite Em, Ei. reflexivity.
Qed.
Lemma ancestors_ok w : origins_ok w -> forall fuel a l, raw w a l -> (length l < fuel)%nat ->
  ancestors w fuel a = Ok (map (real w) (a :: vis w l)).
Proof.
  intros HO. induction fuel as [|n IH]; intros a l R HF; [lia|]. cbn [ancestors].
  assert (Ha : mods w a <> None) by (destruct R as [U _]; destruct (get_mod_up _ _ _ U) as (m & E & _); congruence).
  rewrite real_module_ok by assumption. cbn [rbind].
  destruct (upper_ok w (S n) a l R ltac:(lia)) as [[H1 H2]|(p & c & s & H1 & H2 & H3 & H4 & H5)].
  - rewrite H2. cbn [rbind]. rewrite H1. reflexivity.
  - rewrite H4. cbn [rbind]. rewrite (IH c s H5); [cbn [rbind]; rewrite H2; reflexivity|].
    subst l. rewrite app_length in HF. cbn in HF. lia.
Qed.
Lemma include_module_ok w t : origins_ok w -> forall fuel a l, raw w a l -> (length l < fuel)%nat ->
  include_module w fuel a t = Ok (existsb (fun x => x =? t) (map (real w) (a :: vis w l))).
Proof.
  intros HO. induction fuel as [|n IH]; intros a l R HF; [lia|]. cbn [include_module].
  assert (Ha : mods w a <> None) by (destruct R as [U _]; destruct (get_mod_up _ _ _ U) as (m & E & _); congruence).
  rewrite real_module_ok by assumption. cbn [rbind map existsb]. destruct (real w a =? t); [reflexivity|]. cbn [orb].
  destruct (upper_ok w (S n) a l R ltac:(lia)) as [[H1 H2]|(p & c & s & H1 & H2 & H3 & H4 & H5)].
  - rewrite H2. cbn [rbind]. rewrite H1. reflexivity.
  - rewrite H4. cbn [rbind]. rewrite (IH c s H5); [rewrite H2; reflexivity|].
    subst l. rewrite app_length in HF. cbn in HF. lia.
Qed.
(* the first definition along a list of nodes *)
Fixpoint first_def (w : world) (name : Z) (l : list Z) : option (Z * Z) :=
  match l with
  | [] => None
  | a :: r => match assoc name (mtab (exts w (xt w a))) with Some f => Some (f, a) | None => first_def w name r end
  end.
Lemma search_chain_ok w name : forall fuel a l, raw w a l -> (length l < fuel)%nat ->
  search_chain w fuel name a = Ok (first_def w name (a :: vis w l)).
Proof.
  induction fuel as [|n IH]; intros a l R HF; [lia|]. cbn [search_chain first_def].
  pose proof R as [U _]. destruct (get_mod_up _ _ _ U) as (m & Em & _). unfold get_mod, xt. rewrite Em. cbn [rbind].
  destruct (assoc name (mtab (exts w (m_ext m)))) as [f|]; [reflexivity|].
  destruct (upper_ok w (S n) a l R ltac:(lia)) as [[H1 H2]|(p & c & s & H1 & H2 & H3 & H4 & H5)].
  - rewrite H2. cbn [rbind]. rewrite H1. reflexivity.
  - rewrite H4. cbn [rbind]. rewrite (IH c s H5); [rewrite H2; reflexivity|].
    subst l. rewrite app_length in HF. cbn in HF. lia.
Qed.

(* ---- well-formed worlds ---- *)
Record Wf (w : world) : Prop := {
  w_chain : forall a, mods w a <> None -> exists l, raw w a l;
  w_orig : origins_ok w;
  w_mod : forall a l, mods w a <> None -> modp w a = true -> inc w a = false -> raw w a l -> forall x, In x l -> inc w x = true;
  w_ext : forall a, mods w a <> None -> 0 <= xt w a < next_ext w;
  w_own : forall a b, mods w a <> None -> mods w b <> None -> inc w a = false -> inc w b = false -> xt w a = xt w b -> a = b;
  w_single : forall a, mods w a <> None -> is_singleton (exts w (xt w a)) = true -> mods w (kl w a) <> None;
  w_avail : NoDup (avail w) /\ forall a, In a (avail w) -> mods w a = None /\ a < next_mod w;
  w_fresh : forall a, mods w a <> None -> NIL_ADDR < a < next_mod w;
  w_next : NIL_ADDR < next_mod w /\ forall a, In a (avail w) -> NIL_ADDR < a;
  w_next_ext : 0 <= next_ext w }.

(* what a new node leaves alone *)
Definition same_exts (w w' : world) : Prop := forall e, mtab (exts w' e) = mtab (exts w e) /\ ctab (exts w' e) = ctab (exts w e) /\ is_singleton (exts w' e) = is_singleton (exts w e).
Definition caches_same (w w' : world) : Prop := icache w' = icache w /\ mcache w' = mcache w /\ ccache w' = ccache w /\ cversion w' = cversion w.
Record supply_ok (w : world) : Prop := {
  s_avail : NoDup (avail w) /\ forall a, In a (avail w) -> mods w a = None /\ a < next_mod w;
  s_fresh : forall a, mods w a <> None -> NIL_ADDR < a < next_mod w;
  s_next : NIL_ADDR < next_mod w /\ forall a, In a (avail w) -> NIL_ADDR < a }.
Lemma wf_supply w : Wf w -> supply_ok w.
Proof. intros [? ? ? ? ? ? ? ? ? ?]. constructor; assumption. Qed.
Lemma new_mod_ok w m a w' : supply_ok w -> new_mod w m = (a, w') ->
  mods w a = None /\ NIL_ADDR < a /\ mods w' = upd (mods w) a (Some m) /\ exts w' = exts w /\ next_ext w' = next_ext w /\ version w' = version w /\ caches_same w w' /\ supply_ok w'.
Proof.
  intros [[AN AF] F [N NA]] E. unfold new_mod in E. destruct (avail w) as [|b r] eqn:Ea; injection E as <- <-.
  - assert (Hn : mods w (next_mod w) = None) by (destruct (mods w (next_mod w)) eqn:E; [pose proof (F (next_mod w) ltac:(congruence)); lia|reflexivity]).
    split; [exact Hn|]. split; [exact N|]. cbn. repeat (split; [reflexivity|]). split; [repeat split|]. constructor; cbn.
    + split; [constructor|intros a []].
    + intros a. unfold upd. destruct (Z.eqb_spec a (next_mod w)); [lia|]. intros H. pose proof (F a H). lia.
    + split; [lia|intros a []].
  - destruct (AF b (or_introl eq_refl)) as [Hn Hb]. split; [exact Hn|]. split; [apply NA; left; reflexivity|]. cbn. repeat (split; [reflexivity|]).
    split; [repeat split|]. inversion AN; subst. constructor; cbn.
    + split; [assumption|]. intros a Ha. unfold upd. destruct (Z.eqb_spec a b); [subst; contradiction|]. apply AF. right. exact Ha.
    + intros a. unfold upd. destruct (Z.eqb_spec a b); [subst; intros _; split; [apply NA; left; reflexivity|exact Hb]|apply F].
    + split; [exact N|]. intros a Ha. apply NA. right. exact Ha.
Qed.
