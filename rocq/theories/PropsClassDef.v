(* Property C109: class and module definitions. *)
From Verif Require Import Base ProofsBase ModelArray ProofsArray ModelGC ProofsGC ModelClass SpecClass ProofsClass ProofsClass2 ProofsClass3 ProofsClass4 ProofsClass5 ProofsClass6 ProofsClass7 ProofsClass8 ProofsRaise ProofsRaise2 ModelClassDef SpecClassDef ProofsClassDef.

Definition at_base (base : option Z) (cur : Z) : Z := match base with None => cur | Some b => b end.

(* the new class or module with its constant *)
Lemma define_new site csite w p sup cls k id : hist site csite w -> user_mod w k = true -> (p = true -> sup = None) -> (forall s, sup = Some s -> is_class_of w s) ->
  exists c w1 w', new_class w p sup false cls = (c, w1) /\ set_const w1 k id c = Ok w' /\ hist site csite w' /\ user_mod w' c = true /\ module_p w' c = p /\ user_mod w' k = true /\
    named_new w w' k id c /\ rest_same w w' /\
    (match sup with None => has_ancestors w' c [c] | Some s => forall ls, has_ancestors w s ls -> has_ancestors w' c (c :: shown w s ls) end) /\ has_super w' c sup.
Proof.
  intros H Hk Hp Hs. pose proof (hist_wf _ _ _ H) as W. pose proof (proj1 (user_mod_ok _ _ Hk)) as Hkm. destruct (new_class w p sup false cls) as [c w1] eqn:En. exists c, w1.
  assert (HS : forall s, sup = Some s -> mods w s <> None) by (intros s E; destruct (Hs s E) as (m & Em & _); congruence).
  assert (HF : false = true -> mods w cls <> None) by discriminate.
  destruct (new_class_effect w p sup false cls c w1 W Hp HS HF En) as (E1 & E2 & E3 & E4 & E5 & E6 & E7 & E8 & E9 & E10).
  destruct (new_class_wf w p sup false cls c w1 W Hp HS HF En) as (W1 & _ & Em & Ee & _).
  assert (R1 : exists o, op_ok o /\ runs site csite o w w1).
  { destruct p.
    - exists (NewModule cls). split; [exact I|]. exists 0%nat. intros f _. cbn [exec]. rewrite (Hp eq_refl) in En. rewrite En. reflexivity.
    - exists (NewClass sup cls). split; [exact I|]. exists 0%nat. intros f _. cbn [exec]. rewrite En. destruct sup as [s|]; [|reflexivity].
      destruct (class_p_of _ _ (Hs s eq_refl)) as (_ & A & B). rewrite A, B. reflexivity. }
  destruct R1 as (o & OK & R1). pose proof (h_step _ _ _ _ _ H OK R1) as H1.
  assert (Hk1 : user_mod w1 k = true) by (unfold user_mod in *; rewrite E7 by exact Hkm; exact Hk).
  destruct (set_const_runs w1 k id c Hk1) as (w' & Ew & EM). exists w'.
  pose proof (set_const_effect w1 k id c w' W1 Hk1 Ew) as (S1 & S2 & S3).
  assert (H2 : hist site csite w').
  { apply (h_step site csite w1 (SetConst k id c) w' H1 I). exists 0%nat. intros f _. cbn [exec]. rewrite Hk1. exact Ew. }
  assert (XO : forall i x, user_mod w x = true -> own_const w1 i x = own_const w i x).
  { intros i x Hx. destruct (user_mod_ok _ _ Hx) as [Hxm _]. pose proof (w_ext w W x Hxm) as B. unfold xt in B. unfold own_const. rewrite E7 by exact Hxm. destruct (mods w x) as [mx|]; [|reflexivity].
    rewrite Ee, upd_other; [reflexivity|]. lia. }
  assert (NE : c <> k) by (intros ->; congruence).
  split; [reflexivity|]. split; [exact Ew|]. split; [exact H2|]. split; [unfold user_mod in *; rewrite EM; exact E2|]. split; [unfold module_p in *; rewrite EM; exact E3|].
  split; [unfold user_mod in *; rewrite EM; exact Hk1|]. split; [|split; [|split]].
  - split; [exact E1|]. split; [intros n; rewrite S3; apply E5|]. split; [intros n; rewrite (S1 n c E2); rewrite (proj2 (Z.eqb_neq c k) NE); apply E6|].
    split; [rewrite (S1 id k Hk1), !Z.eqb_refl; reflexivity|]. intros i x Hx Hne.
    assert (Hx1 : user_mod w1 x = true) by (unfold user_mod in *; rewrite E7 by (apply user_mod_ok; exact Hx); exact Hx).
    rewrite (S1 i x Hx1), (XO i x Hx). destruct (Z.eqb_spec x k) as [->|]; [|reflexivity]. destruct (Z.eqb_spec i id) as [->|]; [|reflexivity]. congruence.
  - split; [intros n x Hx; rewrite S3; apply E8; exact Hx|]. intros x l Hx A. apply S2. apply E9; assumption.
  - destruct sup as [s|]; [intros ls A; apply S2; apply E10; exact A|apply S2; exact E10].
  - exists 1%nat. intros f Hf. destruct f as [|f]; [lia|]. unfold superclass, get_mod. rewrite EM, Em, upd_same. cbn [rbind m_upper]. destruct sup as [s|]; [|reflexivity].
    destruct (Hs s eq_refl) as (m & Es & _ & Ei). cbn [skip_included]. unfold get_mod. rewrite EM, Em, upd_other by (intros ->; congruence). rewrite Es. cbn [rbind]. rewrite Ei. reflexivity.
Qed.

(* class C < S, class C: a new class below S (Object) *)
Theorem C109_new_class : forall site csite w object cur base id sup cls, hist site csite w ->
  let k := at_base base cur in let s := match sup with Some s => s | None => object end in
  user_mod w k = true -> own_const w id k = None -> is_class_of w s ->
  exists c w', eventually (fun f => define_class w f object cur base id false sup cls = Ok (c, w')) /\ hist site csite w' /\ is_class_of w' c /\
    named_new w w' k id c /\ rest_same w w' /\ (forall ls, has_ancestors w s ls -> has_ancestors w' c (c :: shown w s ls)).
Proof.
  intros site csite w object cur base id sup cls H k s Hk Hn Hs. 
  destruct (define_new site csite w false (Some s) cls k id H Hk ltac:(discriminate)) as (c & w1 & w' & En & Ew & H2 & U & M & _ & N & R & A & _); [intros s' [= <-]; exact Hs|].
  exists c, w'. split; [|split; [exact H2|]; split; [|auto]].
  - exists 0%nat. intros f _. unfold define_class. fold (at_base base cur). fold k. rewrite get_const_own by exact Hk. rewrite Hn. cbn [rbind].
    assert (ES : match sup with None => Ok object | Some t => if class_p w t then Ok t else Err TypeErr end = Ok s).
    { unfold s in *. destruct sup as [t|]; [|reflexivity]. rewrite (proj1 (class_p_of _ _ Hs)). reflexivity. }
    rewrite ES. cbn [rbind]. rewrite En, Ew. reflexivity.
  - unfold user_mod, module_p in *. unfold is_class_of. destruct (mods w' c) as [m|]; [|discriminate]. exists m. repeat split; [exact M|]. destruct (included m); [discriminate|reflexivity].
Qed.
(* module M: a new module *)
Theorem C109_new_module : forall site csite w object cur base id cls, hist site csite w -> let k := at_base base cur in
  user_mod w k = true -> own_const w id k = None ->
  exists c w', eventually (fun f => define_class w f object cur base id true None cls = Ok (c, w')) /\ hist site csite w' /\ is_module_of w' c /\
    named_new w w' k id c /\ rest_same w w' /\ has_ancestors w' c [c].
Proof.
  intros site csite w object cur base id cls H k Hk Hn. 
  destruct (define_new site csite w true None cls k id H Hk) as (c & w1 & w' & En & Ew & H2 & U & M & _ & N & R & A & _); [reflexivity|discriminate|].
  exists c, w'. split; [|split; [exact H2|]; split; [|auto]].
  - exists 0%nat. intros f _. unfold define_class. fold (at_base base cur). fold k. rewrite get_const_own by exact Hk. rewrite Hn. cbn [rbind]. rewrite En, Ew. reflexivity.
  - unfold user_mod, module_p in *. unfold is_module_of. destruct (mods w' c) as [m|]; [|discriminate]. exists m. repeat split; [exact M|]. destruct (included m); [discriminate|reflexivity].
Qed.
Print Assumptions C109_new_class.
Print Assumptions C109_new_module.

(* what a definition did, from its result *)
Lemma defined_class site csite w f object cur base id sup cls c w1 : hist site csite w -> let k := at_base base cur in let s := match sup with Some s => s | None => object end in
  user_mod w k = true -> own_const w id k = None -> is_class_of w s -> define_class w f object cur base id false sup cls = Ok (c, w1) ->
  hist site csite w1 /\ user_mod w1 c = true /\ module_p w1 c = false /\ user_mod w1 k = true /\ own_const w1 id k = Some c /\ has_super w1 c (Some s).
Proof.
  intros H k s Hk Hn Hs D.
  destruct (define_new site csite w false (Some s) cls k id H Hk ltac:(discriminate)) as (c' & w1' & w' & En & Ew & H2 & U & M & UK & N & _ & _ & HS); [intros s' [= <-]; exact Hs|].
  unfold define_class in D. fold (at_base base cur) in D. fold k in D. rewrite get_const_own in D by exact Hk. rewrite Hn in D. cbn [rbind] in D.
  assert (ES : match sup with None => Ok object | Some t => if class_p w t then Ok t else Err TypeErr end = Ok s).
  { unfold s in *. destruct sup as [t|]; [|reflexivity]. rewrite (proj1 (class_p_of _ _ Hs)). reflexivity. }
  rewrite ES in D. cbn [rbind] in D. rewrite En, Ew in D. injection D as <- <-. destruct N as (_ & _ & _ & N & _). auto 10.
Qed.
Lemma defined_module site csite w f object cur base id cls c w1 : hist site csite w -> let k := at_base base cur in
  user_mod w k = true -> own_const w id k = None -> define_class w f object cur base id true None cls = Ok (c, w1) ->
  hist site csite w1 /\ user_mod w1 c = true /\ module_p w1 c = true /\ user_mod w1 k = true /\ own_const w1 id k = Some c /\ has_super w1 c None.
Proof.
  intros H k Hk Hn D.
  destruct (define_new site csite w true None cls k id H Hk) as (c' & w1' & w' & En & Ew & H2 & U & M & UK & N & _ & _ & HS); [reflexivity|discriminate|].
  unfold define_class in D. fold (at_base base cur) in D. fold k in D. rewrite get_const_own in D by exact Hk. rewrite Hn in D. cbn [rbind] in D.
  rewrite En, Ew in D. injection D as <- <-. destruct N as (_ & _ & _ & N & _). auto 10.
Qed.

Lemma reopen w f object cur base id p sup cls c r : let k := at_base base cur in user_mod w k = true -> own_const w id k = Some c -> user_mod w c = true -> superclass w f c = Ok r ->
  define_class w f object cur base id p sup cls =
    if Bool.eqb (module_p w c) p then match sup with None => Ok (c, w) | Some t => match r with Some s => if s =? t then Ok (c, w) else Err TypeErr | None => Err TypeErr end end else Err TypeErr.
Proof.
  intros k Hk Hc Uc Hr. unfold define_class. fold (at_base base cur). fold k. rewrite get_const_own by exact Hk. rewrite Hc. cbn [rbind].
  unfold user_mod, module_p, get_mod in *. destruct (mods w c) as [m|]; [|discriminate]. cbn [rbind]. destruct (Bool.eqb (is_module m) p); cbn [negb]; [|reflexivity]. rewrite Hr. reflexivity.
Qed.
(* the same name again, whatever came between: the same class, if the superclass
   is the first one or none is given; otherwise a TypeError *)
Theorem C109_reopen_class : forall site csite w f object cur base id sup cls c w1 w2, hist site csite w ->
  let k := at_base base cur in let s := match sup with Some s => s | None => object end in
  user_mod w k = true -> own_const w id k = None -> is_class_of w s -> define_class w f object cur base id false sup cls = Ok (c, w1) ->
  later site csite (leaves k id) w1 w2 ->
  eventually (fun f => forall cur' base' object' cls', at_base base' cur' = k ->
    define_class w2 f object' cur' base' id false None cls' = Ok (c, w2) /\
    (forall t, define_class w2 f object' cur' base' id false (Some t) cls' = if t =? s then Ok (c, w2) else Err TypeErr) /\
    (forall t, define_class w2 f object' cur' base' id true t cls' = Err TypeErr)).
Proof.
  intros site csite w f object cur base id sup cls c w1 w2 H k s Hk Hn Hs D L.
  destruct (defined_class site csite w f object cur base id sup cls c w1 H Hk Hn Hs D) as (H1 & U & M & UK & N & HS).
  destruct (later_kind _ _ _ _ _ _ H1 L U) as [U2 M2]. destruct (later_kind _ _ _ _ _ _ H1 L UK) as [UK2 _]. pose proof (later_const _ _ _ _ _ _ _ H1 L UK N) as N2.
  destruct (later_super _ _ _ _ _ _ _ H1 L (proj1 (user_mod_ok _ _ U)) HS) as [_ [F HS2]]. exists F. intros g Hg cur' base' object' cls' EB. specialize (HS2 g Hg).
  rewrite M in M2. fold k in UK2, N2. rewrite <- EB in UK2, N2. repeat split; intros; rewrite (reopen w2 g object' cur' base' id _ _ cls' c (Some s) UK2 N2 U2 HS2), M2; cbn [Bool.eqb]; try reflexivity. rewrite Z.eqb_sym. reflexivity.
Qed.
Theorem C109_reopen_module : forall site csite w f object cur base id cls c w1 w2, hist site csite w -> let k := at_base base cur in
  user_mod w k = true -> own_const w id k = None -> define_class w f object cur base id true None cls = Ok (c, w1) -> later site csite (leaves k id) w1 w2 ->
  eventually (fun f => forall cur' base' object' cls', at_base base' cur' = k ->
    define_class w2 f object' cur' base' id true None cls' = Ok (c, w2) /\ (forall t, define_class w2 f object' cur' base' id false t cls' = Err TypeErr)).
Proof.
  intros site csite w f object cur base id cls c w1 w2 H k Hk Hn D L.
  destruct (defined_module site csite w f object cur base id cls c w1 H Hk Hn D) as (H1 & U & M & UK & N & HS).
  destruct (later_kind _ _ _ _ _ _ H1 L U) as [U2 M2]. destruct (later_kind _ _ _ _ _ _ H1 L UK) as [UK2 _]. pose proof (later_const _ _ _ _ _ _ _ H1 L UK N) as N2.
  destruct (later_super _ _ _ _ _ _ _ H1 L (proj1 (user_mod_ok _ _ U)) HS) as [_ [F HS2]]. exists F. intros g Hg cur' base' object' cls' EB. specialize (HS2 g Hg).
  rewrite M in M2. fold k in UK2, N2. rewrite <- EB in UK2, N2. split; intros; rewrite (reopen w2 g object' cur' base' id _ _ cls' c None UK2 N2 U2 HS2), M2; reflexivity.
Qed.
Print Assumptions C109_reopen_class.
Print Assumptions C109_reopen_module.

(* Class#superclass: what the class was made below, for ever *)
Theorem C109_superclass : forall site csite w w2,
  (forall f object cur base id sup cls c w1, hist site csite w -> let k := at_base base cur in let s := match sup with Some s => s | None => object end in
    user_mod w k = true -> own_const w id k = None -> is_class_of w s -> define_class w f object cur base id false sup cls = Ok (c, w1) ->
    later site csite any_op w1 w2 -> eventually (fun f => class_superclass w2 f c = Ok (Some s))) /\
  (forall object arg cls c w1, hist site csite w -> let s := match arg with Some s => s | None => object end in is_class_of w s -> class_new w object arg cls = Ok (c, w1) ->
    later site csite any_op w1 w2 -> eventually (fun f => class_superclass w2 f c = Ok (Some s))) /\
  (forall c r, hist site csite w -> user_mod w c = true -> later site csite any_op w w2 -> eventually (fun f => class_superclass w f c = Ok r) -> eventually (fun f => class_superclass w2 f c = Ok r)).
Proof.
  intros site csite w w2. split; [|split].
  - intros f object cur base id sup cls c w1 H k s Hk Hn Hs D L. destruct (defined_class site csite w f object cur base id sup cls c w1 H Hk Hn Hs D) as (H1 & U & _ & _ & _ & HS).
    apply (later_super _ _ _ _ _ _ _ H1 L (proj1 (user_mod_ok _ _ U)) HS).
  - intros object arg cls c w1 H s Hs D L. unfold class_new in D.
    assert (ES : match arg with None => Ok object | Some t => if class_p w t then Ok t else Err TypeErr end = Ok s).
    { unfold s in *. destruct arg as [t|]; [|reflexivity]. rewrite (proj1 (class_p_of _ _ Hs)). reflexivity. }
    rewrite ES in D. cbn [rbind] in D. injection D as D. pose proof (hist_wf _ _ _ H) as W.
    assert (HM : forall s', Some s = Some s' -> mods w s' <> None) by (intros s' [= <-]; destruct Hs as (m & E & _); congruence).
    destruct (new_class_wf w false (Some s) false cls c w1 W ltac:(discriminate) HM ltac:(discriminate) D) as (W1 & Hn & Em & _).
    assert (H1 : hist site csite w1).
    { apply (h_step site csite w (NewClass (Some s) cls) w1 H I). exists 0%nat. intros f _. cbn [exec]. rewrite D. destruct (class_p_of _ _ Hs) as (_ & A & B). rewrite A, B. reflexivity. }
    apply (later_super site csite any_op w1 w2 c (Some s) H1 L); [rewrite Em, upd_same; discriminate|].
    exists 1%nat. intros f Hf. destruct f as [|f]; [lia|]. unfold superclass, get_mod. rewrite Em, upd_same. cbn [rbind m_upper].
    destruct Hs as (m & Es & _ & Ei). cbn [skip_included]. unfold get_mod. rewrite Em, upd_other by (intros ->; congruence). rewrite Es. cbn [rbind]. rewrite Ei. reflexivity.
  - intros c r H U L HS. apply (later_super _ _ _ _ _ _ _ H L (proj1 (user_mod_ok _ _ U)) HS).
Qed.
Print Assumptions C109_superclass.

(* a superclass that is no class *)
Theorem C109_superclass_is_a_class : forall site csite w f object cur base id t cls, hist site csite w -> user_mod w (at_base base cur) = true -> own_const w id (at_base base cur) = None ->
  (mods w t = None \/ is_module_of w t) -> define_class w f object cur base id false (Some t) cls = Err TypeErr /\ class_new w object (Some t) cls = Err TypeErr.
Proof.
  intros site csite w f object cur base id t cls H Hk Hn Ht. assert (E : class_p w t = false) by (unfold class_p; destruct Ht as [->|(m & -> & -> & _)]; reflexivity).
  unfold define_class, class_new. fold (at_base base cur). rewrite get_const_own by exact Hk. rewrite Hn, E. split; reflexivity.
Qed.
Print Assumptions C109_superclass_is_a_class.

(* 8: Object, 9: class S < Object, 10: module M, 11: a singleton class below S; constants: 300 is C *)
Definition cd_site (s : Z) : Z := 100 + s.
Definition cd_csite (s : Z) : (list Z * Z) * (Z * Z) := (([] : list Z, 9), (300, 8)).
Definition cd_world (l : list op) : world := match run_ops cd_site cd_csite false l world0 with Ok w => w | _ => world0 end.
Definition cd_base : list op := [NewClass None 8; NewClass (Some 8) 8; NewModule 8; NewSingleton 9 8].
Lemma cd_hist l : run_ops cd_site cd_csite false l world0 = Ok (cd_world l) -> hist cd_site cd_csite (cd_world l).
Proof. intros E. apply calm_hist. eapply run_calm; [apply cl_start|exact E]. Qed.
Definition cd_c : Z * world := match define_class (cd_world cd_base) 20 8 8 None 300 false (Some 9) 8 with Ok r => r | _ => (0, world0) end.
Definition cd_then : list op := [Prepend 9 10; Include 12 10; Define 12 100 7].
Definition cd_after : world := match run_ops cd_site cd_csite false cd_then (snd cd_c) with Ok w => w | _ => world0 end.
Lemma cd_later P l : forall w0 w w', later cd_site cd_csite P w0 w -> run_ops cd_site cd_csite false l w = Ok w' -> (forall o, In o l -> P o) -> later cd_site cd_csite P w0 w'.
Proof.
  induction l as [|o l IH]; intros w0 w w' L E HP; cbn [run_ops] in E; [congruence|]. apply bind_ok in E. destruct E as (w1 & E1 & E). destruct (op_okb o && _ && _ && _) eqn:B; [|discriminate].
  apply andb_prop in B. destruct B as [B _]. apply andb_prop in B. destruct B as [B _]. apply andb_prop in B. destruct B as [B _].
  apply (IH w0 w1); [|exact E|intros x Hx; apply HP; right; exact Hx]. apply (l_then _ _ _ w0 w o w1 L); [apply HP; left; reflexivity|apply op_okb_ok; exact B|apply (exec_runs _ _ 20); exact E1].
Qed.
Example C109_new_class_example : hist cd_site cd_csite (cd_world cd_base) /\ user_mod (cd_world cd_base) 8 = true /\ own_const (cd_world cd_base) 300 8 = None /\ is_class_of (cd_world cd_base) 9 /\
  fst cd_c = 12 /\ ancestors (snd cd_c) 20 12 = Ok [12; 9; 8] /\ own_const (snd cd_c) 300 8 = Some 12.
Proof. split; [apply cd_hist; vm_compute; reflexivity|]. repeat split; try (vm_compute; reflexivity). eexists. vm_compute. auto. Qed.
(* class C < S; end; S.prepend M; C.include M; class C < S; end *)
Example C109_reopen_class_example : define_class (cd_world cd_base) 20 8 8 None 300 false (Some 9) 8 = Ok (12, snd cd_c) /\ later cd_site cd_csite (leaves 8 300) (snd cd_c) cd_after /\
  ancestors cd_after 20 12 = Ok [12; 10; 10; 9; 8] /\ define_class cd_after 20 8 8 None 300 false (Some 9) 8 = Ok (12, cd_after) /\ define_class cd_after 20 8 8 None 300 false (Some 8) 8 = Err TypeErr /\
  superclass cd_after 20 12 = Ok (Some 9).
Proof.
  split; [vm_compute; reflexivity|]. split; [apply (cd_later _ cd_then _ (snd cd_c)); [apply l_now|vm_compute; reflexivity|intros o [<-|[<-|[<-|[]]]] v; discriminate]|].
  repeat split; vm_compute; reflexivity.
Qed.
Example C109_new_module_example : exists w, define_class (cd_world cd_base) 20 8 8 (Some 9) 301 true None 8 = Ok (12, w) /\ own_const w 301 9 = Some 12 /\ own_const w 301 8 = None /\ ancestors w 20 12 = Ok [12] /\
  (exists w2, define_class w 20 8 9 None 301 true None 8 = Ok (12, w2)) /\ define_class w 20 8 9 None 301 false None 8 = Err TypeErr.
Proof. eexists. split; [vm_compute; reflexivity|]. repeat split; try (vm_compute; reflexivity). eexists. vm_compute. reflexivity. Qed.
Example C109_superclass_is_a_class_example : is_module_of (cd_world cd_base) 10 /\ mods (cd_world cd_base) 77 = None.
Proof. split; [eexists; vm_compute; auto|vm_compute; reflexivity]. Qed.

(* A = 3; class A; end stops the interpreter, so does class A::B; end: Ruby raises
   a TypeError. A singleton class is taken as a superclass *)
Theorem C109_not_a_class_refuted :
  (exists site csite w object cur id v, hist site csite w /\ user_mod w cur = true /\ own_const w id cur = Some v /\ mods w v = None /\ forall f p sup cls, define_class w f object cur None id p sup cls = Panic) /\
  (exists site csite w b, hist site csite w /\ mods w b = None /\ forall f object cur id p sup cls, define_class w f object cur (Some b) id p sup cls = Panic).
Proof.
  split.
  - exists cd_site, cd_csite, (cd_world (cd_base ++ [SetConst 8 300 77])), 8, 8, 300, 77. split; [apply cd_hist; vm_compute; reflexivity|]. repeat split; intros; vm_compute; reflexivity.
  - exists cd_site, cd_csite, (cd_world cd_base), 77. split; [apply cd_hist; vm_compute; reflexivity|]. repeat split; intros; vm_compute; reflexivity.
Qed.
Theorem C109_singleton_superclass_refuted : exists site csite w object cur id s cls, hist site csite w /\ user_mod w cur = true /\ own_const w id cur = None /\ single w s = true /\
  exists c w', eventually (fun f => define_class w f object cur None id false (Some s) cls = Ok (c, w')) /\ has_ancestors w' c [c; s; 9; 8].
Proof.
  exists cd_site, cd_csite, (cd_world cd_base), 8, 8, 300, 11, 8. split; [apply cd_hist; vm_compute; reflexivity|]. repeat split; try (vm_compute; reflexivity).
  eexists _, _. split; [exists 0%nat; intros f _; vm_compute; reflexivity|apply (anc_runs _ 20); vm_compute; reflexivity].
Qed.
Print Assumptions C109_not_a_class_refuted.
Print Assumptions C109_singleton_superclass_refuted.
