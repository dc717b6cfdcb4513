(* C113: a Method object, a symbol given as a block and a module function start
   the method that the call in the program would start. *)
From Verif Require Import Base ModelArray ModelGC ModelClass ModelReflect ModelMethodObj SpecClass SpecReflect SpecMethodObj ProofsClass ProofsClass2 ProofsClass3 ProofsClass4 ProofsClass5 ProofsClass6 ProofsClass7 ProofsClass8 ProofsRaise PropsClass PropsReflect.

(* ---- looking up ---- *)
Lemma names_expect x name : names x name -> expect_name x = Ok name.
Proof. intros [-> | ->]; reflexivity. Qed.
Lemma instance_search w k c x name f o : names x name -> instance_method w k c x = Ok (f, o) -> search_method w k name c = Ok (Some (f, o)).
Proof.
  intros N. unfold instance_method. rewrite (names_expect x name N). cbn [rbind]. destruct (search_method w k name c) as [[q|]| |]; cbn [rbind]; congruence.
Qed.
Lemma instance_none w k c x name : names x name -> instance_method w k c x = Err NameErr -> search_method w k name c = Ok None \/ search_method w k name c = Err NameErr.
Proof.
  intros N. unfold instance_method. rewrite (names_expect x name N). cbn [rbind]. destruct (search_method w k name c) as [[q|]|e|]; cbn [rbind]; try discriminate; intros H; [left; reflexivity|right; congruence].
Qed.
Lemma obj_found w k c v name f o : search_method w k name c = Ok (Some (f, o)) -> obj_method w k c v (ASym name) = Ok (mkMobj name (Some v) f o).
Proof. intros E. unfold obj_method. rewrite E. reflexivity. Qed.
Lemma mod_found w k c x name f o : names x name -> search_method w k name c = Ok (Some (f, o)) -> module_instance_method w k c x = Ok (mkMobj name None f o).
Proof. intros N E. unfold module_instance_method, instance_method. rewrite (names_expect x name N). cbn [rbind]. rewrite E. reflexivity. Qed.

(* the method, found for the class, with the class it was found in *)
Lemma found site csite w c l name : hist site csite w -> mods w c <> None -> has_ancestors w c l -> single w c = false ->
  match first_own w name l with
  | Some f => exists o, look w name c (Some (f, o)) /\ exists r, real_module w o = Ok r /\ defined_in w name l r
  | None => look w name c None
  end.
Proof.
  intros H Hc A S. destruct (C101_instance_method_partial site csite w c l (ASym name) name H Hc A S (or_introl eq_refl)) as [N F].
  destruct (first_own w name l) as [f|] eqn:E.
  - destruct (F f eq_refl) as (o & p & r & q & L & R & El & Ep & Or). exists o. split.
    + eapply ev_mono; [exact L|]. intros k. apply instance_search. left. reflexivity.
    + exists r. split; [exact R|]. exists p, q. rewrite Or. repeat split; auto. discriminate.
  - destruct (look_total w name c (hist_wf site csite w H) Hc) as [r L]. pose proof (lookup_own w name c l r (hist_wf site csite w H) Hc A L (or_introl S)) as E2.
    rewrite E in E2. destruct r; [discriminate|exact L].
Qed.

(* v.method(:m).call(args) and v.m(args): the same method, receiver, arguments,
   block and keyword arguments *)
Theorem C113_method_call_partial : forall site csite w slot c l v own, calm site csite w -> 0 <= slot < zlen (icache w) -> mods w c <> None -> has_ancestors w c l -> single w c = false ->
  (first_own w (site slot) l = None -> eventually (fun k => obj_method w k c v (ASym (site slot)) = Err NameErr)) /\
  (forall f, first_own w (site slot) l = Some f -> exists m, eventually (fun k => obj_method w k c v (ASym (site slot)) = Ok m) /\
     forall a, method_call m a = Ok (v, mkCall f a) /\ exists w', eventually (fun k => call_site w k slot own c (site slot) a = Ok (mkCall f a, w'))).
Proof.
  intros site csite w slot c l v own C Hs Hc A S. pose proof (found site csite w c l (site slot) (calm_hist site csite w C) Hc A S) as F. split.
  - intros E. rewrite E in F. eapply ev_mono; [exact F|]. intros k Ek. unfold obj_method. rewrite Ek. reflexivity.
  - intros f E. rewrite E in F. destruct F as (o & L & _). exists (mkMobj (site slot) (Some v) f o). split; [eapply ev_mono; [exact L|]; intros k; apply obj_found|].
    intros a. split; [reflexivity|]. destruct (site_first site w slot c l (calm_cinv site csite w C) Hs Hc A (or_introl S)) as (w1 & G & _). exists w1.
    rewrite E in G. eapply ev_mono; [exact G|]. intros k Ek. unfold call_site. rewrite Ek. reflexivity.
Qed.
Print Assumptions C113_method_call_partial.

(* an instance method taken from the class: its name; a clone is the same; once
   bound it is what v.method(:m) is for an object of that class, and starts the
   class's method; unbinding gives the unbound method back *)
Theorem C113_bind : forall site csite w c l x name f, hist site csite w -> mods w c <> None -> has_ancestors w c l -> single w c = false -> names x name -> first_own w name l = Some f ->
  exists u, eventually (fun k => module_instance_method w k c x = Ok u) /\ unbound_name u = ASym name /\ unbound_clone u = u /\
    (forall a, length (a_pos a) <> 1%nat -> unbound_bind u a = Err ArgErr) /\ (forall bl kw, unbound_bind_call u (mkArgs [] bl kw) = Err ArgErr) /\
    forall v bl kw, exists m, unbound_bind u (mkArgs [v] bl kw) = Ok m /\ eventually (fun k => obj_method w k c v (ASym name) = Ok m) /\
      method_unbind m = u /\ method_owner m = method_owner u /\ (forall a, method_call m a = Ok (v, mkCall f a)) /\
      (forall pos, unbound_bind_call u (mkArgs (v :: pos) None None) = Ok (v, mkCall f (mkArgs pos None None))).
Proof.
  intros site csite w c l x name f H Hc A S N E. pose proof (found site csite w c l name H Hc A S) as F. rewrite E in F. destruct F as (o & L & _).
  exists (mkMobj name None f o). split; [eapply ev_mono; [exact L|]; intros k; apply mod_found; exact N|]. split; [reflexivity|]. split; [reflexivity|].
  split; [intros [[|y [|z r]] bl kw] Ha; [reflexivity|destruct Ha; reflexivity|reflexivity]|]. split; [reflexivity|].
  intros v bl kw. exists (mkMobj name (Some v) f o). split; [reflexivity|]. split; [eapply ev_mono; [exact L|]; intros k; apply obj_found|]. repeat split; reflexivity.
Qed.
Print Assumptions C113_bind.
Theorem C113_undefined : forall site csite w c l x name v, hist site csite w -> mods w c <> None -> has_ancestors w c l -> single w c = false -> names x name -> first_own w name l = None ->
  eventually (fun k => module_instance_method w k c x = Err NameErr) /\ eventually (fun k => obj_method w k c v (ASym name) = Err NameErr).
Proof.
  intros site csite w c l x name v H Hc A S N E. pose proof (found site csite w c l name H Hc A S) as F. rewrite E in F. split; (eapply ev_mono; [exact F|]); intros k Ek.
  - unfold module_instance_method, instance_method. rewrite (names_expect x name N). cbn [rbind]. rewrite Ek. reflexivity.
  - unfold obj_method. rewrite Ek. reflexivity.
Qed.
Print Assumptions C113_undefined.

(* the owner of a method that a class without prepended modules defines is
   that class; of a module's method it is not the module: C113_owner_refuted *)
Theorem C113_owner_partial : forall site csite w c l name f v r, hist site csite w -> mods w c <> None -> has_ancestors w c l -> single w c = false -> first_own w name l = Some f ->
  defined_in w name l r -> module_p w r = false -> prepended w r = false ->
  exists m, eventually (fun k => obj_method w k c v (ASym name) = Ok m) /\ method_owner m = r.
Proof.
  intros site csite w c l name f v r H Hc A S E D M P. pose proof (found site csite w c l name H Hc A S) as F. rewrite E in F. destruct F as (o & L & r' & R & D').
  exists (mkMobj name (Some v) f o). split; [eapply ev_mono; [exact L|]; intros k; apply obj_found|]. cbn.
  assert (r' = r).
  { destruct D as (p & q & -> & Hp & Hr), D' as (p' & q' & El & Hp' & Hr'). clear - El Hp Hr Hp' Hr'. revert p' El Hp'. induction p as [|y p IH]; intros [|y' p'] El Hp'; cbn in *.
    - congruence.
    - injection El as -> _. destruct (own_method w name y'); [discriminate|congruence].
    - injection El as -> _. destruct (own_method w name r'); [discriminate|congruence].
    - injection El as -> El. destruct (own_method w name y'); [discriminate|]. eapply IH; eauto. }
  subst r'. pose proof (hist_wf site csite w H) as W. assert (Ho : mods w o <> None).
  { unfold real_module, get_mod in R. destruct (mods w o); [discriminate|discriminate R]. }
  rewrite (real_module_ok w o (w_orig w W) Ho) in R. injection R as R. destruct (inc w o) eqn:Ei.
  - exfalso. pose proof (q_inc w (hist_cop site csite w H) o Ho Ei) as K. rewrite R in K. specialize (K M). unfold hp in K. unfold prepended in P. congruence.
  - unfold real in R. rewrite Ei in R. exact R.
Qed.
Print Assumptions C113_owner_partial.

(* == of two Method objects, taken at whatever times: the same object, the same
   name, the same definition *)
Lemma arg_same_iff x y : arg_same x y = true <-> x = y.
Proof. destruct x, y; cbn; rewrite ?Z.eqb_eq; split; congruence. Qed.
Theorem C113_equal : forall site csite w1 w2 c1 c2 l1 l2 v1 v2 n1 n2 f1 f2, hist site csite w1 -> hist site csite w2 -> mods w1 c1 <> None -> mods w2 c2 <> None ->
  has_ancestors w1 c1 l1 -> has_ancestors w2 c2 l2 -> single w1 c1 = false -> single w2 c2 = false -> first_own w1 n1 l1 = Some f1 -> first_own w2 n2 l2 = Some f2 ->
  exists m1 m2, eventually (fun k => obj_method w1 k c1 v1 (ASym n1) = Ok m1) /\ eventually (fun k => obj_method w2 k c2 v2 (ASym n2) = Ok m2) /\
    (mobj_eq m1 m2 = true <-> v1 = v2 /\ n1 = n2 /\ f1 = f2).
Proof.
  intros site csite w1 w2 c1 c2 l1 l2 v1 v2 n1 n2 f1 f2 H1 H2 M1 M2 A1 A2 S1 S2 E1 E2.
  pose proof (found site csite w1 c1 l1 n1 H1 M1 A1 S1) as F1. rewrite E1 in F1. destruct F1 as (o1 & L1 & _).
  pose proof (found site csite w2 c2 l2 n2 H2 M2 A2 S2) as F2. rewrite E2 in F2. destruct F2 as (o2 & L2 & _).
  exists (mkMobj n1 (Some v1) f1 o1), (mkMobj n2 (Some v2) f2 o2). split; [eapply ev_mono; [exact L1|]; intros k; apply obj_found|]. split; [eapply ev_mono; [exact L2|]; intros k; apply obj_found|].
  unfold mobj_eq. cbn. rewrite !Bool.andb_true_iff, !Z.eqb_eq, arg_same_iff. tauto.
Qed.
Print Assumptions C113_equal.

(* ---- symbols as blocks ---- *)
Lemma send_means site csite w c l own name a : calm site csite w -> mods w c <> None -> has_ancestors w c l -> single w c = false -> plain w l name a ->
  exists r, eventually (fun k => invoke_send w k own c name a = r) /\ call_means w l own name a r.
Proof.
  intros C Hc A S P. pose proof (calm_cinv site csite w C) as CI.
  destruct (find_first site w c l name CI Hc A (or_introl S)) as (w1 & F & O & C1). destruct (first_own w name l) as [f|] eqn:E.
  - exists (Ok (mkCall f a, w1)). split; [|unfold call_means; rewrite E; eauto]. eapply ev_mono; [exact F|]. intros k Ek. unfold invoke_send. rewrite Ek. reflexivity.
  - destruct P as [P|[B K]]; [congruence|]. destruct (missing_ok site w w1 c l own name a CI C1 O Hc A S B K E) as (r & Er & M). exists r. split; [|exact M].
    eapply ev_mono; [apply (ev_and _ _ F Er)|]. intros k [Ek E2]. unfold invoke_send. rewrite Ek. exact E2.
Qed.
Lemma means_starts w l own name v a r : call_means w l own name a r -> starts w l own name v a (x <- r ;; Ok (v, fst x, snd x)).
Proof.
  intros M. destruct r as [[k w']|e|]; cbn; [auto|exact M|]. unfold call_means in M. destruct (first_own w name l); [destruct M; discriminate|]. destruct (first_own w METHOD_MISSING l); [destruct M; discriminate|destruct own; discriminate].
Qed.
Lemma starts_found w l own name v a r f : first_own w name l = Some f -> starts w l own name v a r -> exists w', r = Ok (v, mkCall f a, w').
Proof.
  intros F M. destruct r as [[[v' k] w']|e|]; cbn in M; [|unfold call_means in M; rewrite F in M; destruct M; discriminate|destruct M].
  destruct M as [-> M]. unfold call_means in M. rewrite F in M. destruct M as [w2 [= -> ->]]. eauto.
Qed.
(* yield(v, args) to the block &:m is v.m(args), block and keyword arguments
   too; to no argument it is an ArgumentError *)
Theorem C113_yield_symbol_partial : forall site csite w cls own name v rest bl kw l, calm site csite w -> mods w (cls v) <> None -> has_ancestors w (cls v) l -> single w (cls v) = false ->
  plain w l name (mkArgs rest bl kw) ->
  (exists r, eventually (fun k => yield_sym w k cls own name (mkArgs (v :: rest) bl kw) = r) /\ starts w l own name v (mkArgs rest bl kw) r) /\
  (forall k, yield_sym w k cls own name (mkArgs [] bl kw) = Err ArgErr).
Proof.
  intros site csite w cls own name v rest bl kw l C Hc A S P. split; [|reflexivity].
  destruct (send_means site csite w (cls v) l own name (mkArgs rest bl kw) C Hc A S P) as (r & E & M).
  exists (x <- r ;; Ok (v, fst x, snd x)). split; [|apply means_starts; exact M]. eapply ev_mono; [exact E|]. intros k Ek. unfold yield_sym. cbn [a_pos a_block a_kw]. rewrite Ek. reflexivity.
Qed.
Print Assumptions C113_yield_symbol_partial.
(* each, map and the other methods of Array and Hash with the block &:m: v.m for
   every element v; those of Range and Integer: C113_iterate_refuted *)
Theorem C113_iterate_partial : forall site csite w cls own name v l, calm site csite w -> mods w (cls v) <> None -> has_ancestors w (cls v) l -> single w (cls v) = false ->
  exists r, eventually (fun k => iterate_sym ViaFn w k cls own name v = r) /\ starts w l own name v (mkArgs [] None None) r.
Proof.
  intros site csite w cls own name v l C Hc A S.
  destruct (send_means site csite w (cls v) l own name (mkArgs [] None None) C Hc A S (or_intror (conj eq_refl eq_refl))) as (r & E & M).
  exists (x <- r ;; Ok (v, fst x, snd x)). split; [|apply means_starts; exact M]. eapply ev_mono; [exact E|]. intros k Ek. unfold iterate_sym. rewrite Ek. reflexivity.
Qed.
Print Assumptions C113_iterate_partial.
(* :m.to_proc called with one argument *)
Theorem C113_symbol_proc_partial : forall site csite w cls slot own v l, calm site csite w -> 0 <= slot < zlen (icache w) -> mods w (cls v) <> None -> has_ancestors w (cls v) l -> single w (cls v) = false ->
  exists r, eventually (fun k => call_sym_proc w k cls slot own (site slot) (mkArgs [v] None None) = r) /\ starts w l own (site slot) v (mkArgs [] None None) r.
Proof.
  intros site csite w cls slot own v l C Hs Hc A S.
  destruct (C101_call_partial site csite w slot (cls v) l own (mkArgs [] None None) C Hs Hc A S (or_intror (conj eq_refl eq_refl))) as [(r & E & M) _].
  exists (x <- r ;; Ok (v, fst x, snd x)). split; [|apply means_starts; exact M]. eapply ev_mono; [exact E|]. intros k Ek. unfold call_sym_proc. cbn [a_pos]. rewrite Ek. reflexivity.
Qed.
Print Assumptions C113_symbol_proc_partial.

(* ---- module_function ---- *)
Lemma anc_user w c l : Wf w -> mods w c <> None -> has_ancestors w c l -> forall x, In x l -> user_mod w x = true.
Proof.
  intros W Hc A x Hx. destruct (w_chain w W c Hc) as [lr R]. assert (l = map (real w) (c :: vis w lr)) by (eapply anc_det; [exact A|apply anc_raw; assumption]). subst l.
  apply in_map_iff in Hx. destruct Hx as (y & <- & Hy).
  assert (Hym : mods w y <> None) by (destruct Hy as [<-|Hy]; [exact Hc|]; eapply raw_mods; [exact R|right; eapply vis_in; exact Hy]).
  assert (mods w (real w y) <> None /\ inc w (real w y) = false) as [B1 B2].
  { unfold real. destruct (inc w y) eqn:Ei; [|auto]. destruct (w_orig w W y Hym Ei) as (o & E1 & E2 & E3 & _). rewrite E1. auto. }
  unfold user_mod. unfold inc in B2. destruct (mods w (real w y)) as [m|]; [|congruence]. rewrite B2. reflexivity.
Qed.
Lemma first_same w w' name : forall l, (forall x, In x l -> own_method w' name x = own_method w name x) -> first_own w' name l = first_own w name l.
Proof. induction l as [|a l IH]; intros H; [reflexivity|]. cbn [first_own]. rewrite (H a (or_introl eq_refl)), IH; [reflexivity|]. intros x Hx. apply H. right. exact Hx. Qed.

(* one name *)
Lemma function_step site csite w c s l name f : hist site csite w -> CInv site w -> version w + 1 < 2 ^ 32 -> user_mod w c = true -> user_mod w s = true -> has_ancestors w c l -> ~ In s l -> first_own w name l = Some f ->
  exists w', eventually (fun k => (r <- get_method_or_nomethod w k c name ;; add_method (snd r) s name (fst r)) = Ok w') /\ hist site csite w' /\ CInv site w' /\ version w' = version w + 1 /\
    (forall x, user_mod w' x = user_mod w x) /\ has_ancestors w' c l /\ (forall n, first_own w' n l = first_own w n l) /\
    (forall n x, user_mod w x = true -> own_method w' n x = if (x =? s) && (n =? name) then Some f else own_method w n x).
Proof.
  intros H CI HV Uc Us A Hs E. pose proof (user_mod_ok _ _ Uc) as [Hc _]. pose proof (user_mod_ok _ _ Us) as [Hsm _].
  destruct (find_first site w c l name CI Hc A ltac:(right; congruence)) as (w1 & F & O & C1). rewrite E in F. pose proof O as (OM & OX & _ & _ & _ & OV & _).
  assert (UM : forall x, user_mod w1 x = user_mod w x) by (intros x; unfold user_mod; rewrite OM; reflexivity).
  assert (O1 : forall n x, own_method w1 n x = own_method w n x) by (intros n x; unfold own_method; rewrite OM, OX; reflexivity).
  assert (W1 : Wf w1) by apply (c_wf site w1 C1).
  assert (H1 : hist site csite w1) by (eapply h_step with (o := Find c name); [exact H|exact I|]; eapply ev_mono; [exact F|]; intros k Ek; cbn [exec]; rewrite Uc, Ek; reflexivity).
  destruct (add_method w1 s name f) as [w'| |] eqn:Ea; try (unfold add_method, get_mod in Ea; rewrite OM in Ea; destruct (mods w s); [discriminate|congruence]).
  exists w'. assert (R : runs site csite (Define s name f) w1 w') by (apply (exec_runs site csite 0); cbn [exec]; rewrite UM, Us; exact Ea).
  assert (V' : version w' = version w + 1).
  { pose proof (c_ver site w CI). unfold add_method in Ea. apply bind_ok in Ea. destruct Ea as (m & _ & [= <-]). cbn [set_exts inc_version version]. rewrite OV. apply Z.mod_small. lia. }
  assert (UM' : forall x, user_mod w' x = user_mod w x) by (intros x; rewrite <- UM; unfold add_method in Ea; apply bind_ok in Ea; destruct Ea as (m & _ & [= <-]); reflexivity).
  destruct (define_effect w1 s name f w' W1 ltac:(rewrite UM; exact Us) Ea) as (D1 & D2 & _).
  assert (D : forall n x, user_mod w x = true -> own_method w' n x = if (x =? s) && (n =? name) then Some f else own_method w n x) by (intros n x Hx; rewrite (D1 n x ltac:(rewrite UM; exact Hx)), O1; reflexivity).
  split; [eapply ev_mono; [exact F|]; intros k Ek; unfold get_method_or_nomethod; rewrite Ek; cbn [rbind fst snd]; exact Ea|].
  split; [eapply h_step with (o := Define s name f); [exact H1|exact I|exact R]|].
  split; [eapply (step_cinv site csite (Define s name f) w1 w'); [exact C1|exact I|exact R|lia]|]. split; [exact V'|]. split; [exact UM'|]. split; [|split; [|exact D]].
  - apply D2. eapply agree_anc; [apply (c_wf site w CI)|exact W1|intros; rewrite OM; reflexivity|intros; rewrite OX; reflexivity|exact Hc|exact A].
  - intros n. apply first_same. intros x Hx. rewrite (D n x (anc_user w c l (c_wf site w CI) Hc A x Hx)). destruct (Z.eqb_spec x s) as [->|]; [contradiction|reflexivity].
Qed.
Lemma function_all site csite c s l : forall xs ns, Forall2 names xs ns -> forall w, hist site csite w -> CInv site w -> version w + zlen xs < 2 ^ 32 -> user_mod w c = true -> user_mod w s = true -> has_ancestors w c l -> ~ In s l ->
  (forall n, In n ns -> first_own w n l <> None) ->
  exists w', eventually (fun k => module_function w k c s xs = Ok w') /\ hist site csite w' /\ (forall x, user_mod w' x = user_mod w x) /\
    (forall n, In n ns -> own_method w' n s = first_own w n l) /\ (forall n x, user_mod w x = true -> x <> s \/ ~ In n ns -> own_method w' n x = own_method w n x).
Proof.
  induction 1 as [|x name xs ns N _ IH]; intros w H CI HV Uc Us A Hs HF.
  - exists w. split; [exists O; reflexivity|]. split; [exact H|]. split; [reflexivity|]. split; [intros n []|reflexivity].
  - destruct (first_own w name l) as [f|] eqn:E; [|destruct (HF name (or_introl eq_refl) E)].
    assert (Z1 : zlen (x :: xs) = zlen xs + 1) by (unfold zlen; cbn [length]; lia). assert (0 <= zlen xs) by (unfold zlen; lia).
    destruct (function_step site csite w c s l name f H CI ltac:(lia) Uc Us A Hs E) as (w1 & R1 & H1 & C1 & V1 & U1 & A1 & F1 & D1).
    destruct (IH w1 H1 C1 ltac:(lia) ltac:(rewrite U1; exact Uc) ltac:(rewrite U1; exact Us) A1 Hs) as (w2 & R2 & H2 & U2 & G2 & D2).
    { intros n Hn. rewrite F1. apply HF. right. exact Hn. }
    exists w2. split; [|split; [exact H2|split; [intros y; rewrite U2, U1; reflexivity|split]]].
    + eapply ev_mono; [apply (ev_and _ _ R1 R2)|]. intros k [E1 E2]. cbn [module_function]. rewrite (names_expect x name N). cbn [rbind].
      destruct (get_method_or_nomethod w k c name) as [fw| |]; cbn [rbind] in *; [rewrite E1; exact E2|discriminate|discriminate].
    + intros n Hn. destruct (in_dec Z.eq_dec n ns) as [Hi|Hi]; [rewrite (G2 n Hi); apply F1|]. destruct Hn as [<-|Hn]; [|contradiction].
      rewrite (D2 name s ltac:(rewrite U1; exact Us) (or_intror Hi)), (D1 name s Us), !Z.eqb_refl. cbn [andb]. congruence.
    + intros n y Uy Hy. rewrite (D2 n y ltac:(rewrite U1; exact Uy)), (D1 n y Uy).
      * destruct (Z.eqb_spec y s) as [->|]; [|reflexivity]. destruct (Z.eqb_spec n name) as [->|]; [|reflexivity]. destruct Hy as [Hy|Hy]; [congruence|]. destruct Hy. left. reflexivity.
      * destruct Hy as [Hy|Hy]; [left; exact Hy|right; intros Hi; apply Hy; right; exact Hi].
Qed.
(* module_function :m, ...: the module itself gets the methods its objects have
   now, nothing else changes, and it keeps them whatever is defined elsewhere *)
Theorem C113_module_function : forall site csite w c s l xs ns, calm site csite w -> version w + zlen xs < 2 ^ 32 -> user_mod w c = true -> user_mod w s = true -> has_ancestors w c l -> ~ In s l ->
  Forall2 names xs ns -> (forall n, In n ns -> first_own w n l <> None) ->
  exists w', eventually (fun k => module_function w k c s xs = Ok w') /\ hist site csite w' /\
    (forall n, In n ns -> own_method w' n s = first_own w n l) /\
    (forall n x, user_mod w x = true -> x <> s \/ ~ In n ns -> own_method w' n x = own_method w n x) /\
    (forall n f w2, In n ns -> first_own w n l = Some f -> later site csite s n w' w2 -> look w2 n s (Some (f, s))).
Proof.
  intros site csite w c s l xs ns C HV Uc Us A Hs N HF.
  destruct (function_all site csite c s l xs ns N w (calm_hist site csite w C) (calm_cinv site csite w C) HV Uc Us A Hs HF) as (w' & R & H' & U' & G & D).
  exists w'. split; [exact R|]. split; [exact H'|]. split; [exact G|]. split; [exact D|]. intros n f w2 Hn E L.
  assert (E2 : own_method w2 n s = Some f) by (rewrite (later_own site csite s n w' w2 L H' ltac:(rewrite U'; exact Us)), (G n Hn); exact E).
  exists 1%nat. intros k Hk. destruct k as [|k]; [lia|]. unfold search_method. cbn [search_chain]. unfold own_method in E2. unfold get_mod.
  destruct (mods w2 s) as [m|]; [|discriminate]. cbn [rbind]. rewrite E2. reflexivity.
Qed.
Print Assumptions C113_module_function.

(* ---- examples ---- *)
(* values: 1 and 2 are objects of B (12), 3 of A (9) *)
Definition ex_cls (v : arg) : Z := match v with AVal 3 => 9 | _ => 12 end.
Example C113_method_example : 0 <= 1 < zlen (icache rw) /\ single rw 12 = false /\ first_own rw (ex_site 1) [12; 9; 10; 8] = Some 5 /\
  obj_method rw 9 12 (AVal 1) (ASym 101) = Ok (mkMobj 101 (Some (AVal 1)) 5 9) /\ obj_method rw 9 12 (AVal 1) (ASym 103) = Err NameErr /\
  method_call (mkMobj 101 (Some (AVal 1)) 5 9) (mkArgs [AVal 7] (Some 50) (Some 60)) = Ok (AVal 1, mkCall 5 (mkArgs [AVal 7] (Some 50) (Some 60))) /\
  defined_in rw 101 [12; 9; 10; 8] 9 /\ module_p rw 9 = false /\ prepended rw 9 = false.
Proof.
  split; [vm_compute; split; [discriminate|reflexivity]|]. do 5 (split; [vm_compute; reflexivity|]). split; [|vm_compute; auto].
  exists [12], [10; 8]. split; [reflexivity|]. split; [vm_compute; reflexivity|vm_compute; discriminate].
Qed.
Example C113_bind_example : names (AStr 100) 100 /\ first_own rw 100 [12; 9; 10; 8] = Some 1 /\ first_own rw 103 [12; 9; 10; 8] = None /\
  module_instance_method rw 9 12 (AStr 100) = Ok (mkMobj 100 None 1 13) /\ unbound_bind (mkMobj 100 None 1 13) (mkArgs [AVal 2] None None) = Ok (mkMobj 100 (Some (AVal 2)) 1 13) /\
  unbound_bind_call (mkMobj 100 None 1 13) (mkArgs [AVal 2; AVal 7] None None) = Ok (AVal 2, mkCall 1 (mkArgs [AVal 7] None None)).
Proof. split; [right; reflexivity|]. vm_compute. auto. Qed.
(* the same method, again, of another object, after A defines 101 anew *)
Example C113_equal_example :
  match obj_method rw 9 12 (AVal 1) (ASym 101), obj_method rw 9 12 (AVal 2) (ASym 101), exec ex_site ex_csite 9 (Define 9 101 6) rw with
  | Ok m, Ok m2, Ok w2 => mobj_eq m m = true /\ mobj_eq m m2 = false /\
      match obj_method w2 9 12 (AVal 1) (ASym 101) with Ok m3 => mobj_eq m m3 = false /\ method_call m (mkArgs [] None None) = Ok (AVal 1, mkCall 5 (mkArgs [] None None)) | _ => False end
  | _, _, _ => False end.
Proof. vm_compute. auto. Qed.
Definition res_start (r : res (arg * call * world)) : res (arg * call) := x <- r ;; Ok (fst x).
Example C113_symbol_example : plain rw [9; 10; 8] 100 (mkArgs [AVal 7] (Some 50) (Some 60)) /\ has_ancestors rw (ex_cls (AVal 3)) [9; 10; 8] /\ mods rw 9 <> None /\ single rw (ex_cls (AVal 3)) = false /\
  res_start (yield_sym rw 9 ex_cls false 100 (mkArgs [AVal 3; AVal 7] (Some 50) (Some 60))) = Ok (AVal 3, mkCall 1 (mkArgs [AVal 7] (Some 50) (Some 60))) /\
  res_start (yield_sym rw 9 ex_cls false 103 (mkArgs [AVal 3; AVal 7] None None)) = Ok (AVal 3, mkCall 4 (mkArgs [ASym 103; AVal 7] None None)) /\
  res_start (iterate_sym ViaFn rw 9 ex_cls false 100 (AVal 3)) = Ok (AVal 3, mkCall 1 (mkArgs [] None None)) /\
  res_start (call_sym_proc rw 9 ex_cls 1 false (ex_site 1) (mkArgs [AVal 3] None None)) = Ok (AVal 3, mkCall 5 (mkArgs [] None None)).
Proof.
  split; [left; vm_compute; discriminate|]. split; [apply (anc_runs _ 20); vm_compute; reflexivity|]. split; [vm_compute; discriminate|]. vm_compute. auto.
Qed.
(* module M (10) with its singleton class 14: module_function 100, 104; then M defines 100 anew *)
Definition fx : list op := rx ++ [Define 10 104 8; NewSingleton 8 8].
Definition fw : world := w_of false fx.
Example C113_module_function_example : calm ex_site ex_csite fw /\ version fw + 2 < 2 ^ 32 /\ user_mod fw 10 = true /\ user_mod fw 14 = true /\ single fw 14 = true /\ has_ancestors fw 10 [10] /\ ~ In 14 [10] /\
  Forall2 names [ASym 100; AStr 104] [100; 104] /\ first_own fw 100 [10] = Some 1 /\ first_own fw 104 [10] = Some 8 /\
  match module_function fw 9 10 14 [ASym 100; AStr 104] with
  | Ok w' => match exec ex_site ex_csite 9 (Define 10 100 6) w' with
             | Ok w2 => search_method w2 9 100 14 = Ok (Some (1, 14)) /\ search_method w2 9 104 14 = Ok (Some (8, 14)) /\ search_method w2 9 100 10 = Ok (Some (6, 10))
             | _ => False end
  | _ => False end.
Proof.
  split; [apply calm_of; vm_compute; reflexivity|]. do 4 (split; [vm_compute; reflexivity|]). split; [apply (anc_runs _ 20); vm_compute; reflexivity|]. split; [intros [H|[]]; discriminate|].
  split; [constructor; [left; reflexivity|constructor; [right; reflexivity|constructor]]|]. vm_compute. auto.
Qed.

(* ---- where they part ---- *)
(* the owner of a method from a module is not that module but its hidden copy *)
Theorem C113_owner_refuted : exists site csite w c l name f m r, calm site csite w /\ has_ancestors w c l /\ first_own w name l = Some f /\ defined_in w name l r /\
  eventually (fun k => module_instance_method w k c (ASym name) = Ok m) /\ method_owner m <> r /\ user_mod w (method_owner m) = false.
Proof.
  exists ex_site, ex_csite, rw, 12, [12; 9; 10; 8], 100, 1, (mkMobj 100 None 1 13), 10. split; [apply rw_calm|]. split; [apply rw_anc|]. split; [vm_compute; reflexivity|]. split.
  - exists [12; 9], [8]. split; [reflexivity|]. split; [vm_compute; reflexivity|vm_compute; discriminate].
  - split; [|split; [discriminate|vm_compute; reflexivity]].
    assert (L : look rw 100 12 (Some (1, 13))) by (apply (look_runs _ 20); vm_compute; reflexivity). eapply ev_mono; [exact L|]. intros k. apply mod_found. left. reflexivity.
Qed.
(* an unbound method can be bound to an object whose class has no such method:
   Ruby raises TypeError *)
Theorem C113_bind_type_refuted : exists site csite w c name v cv lv u m, calm site csite w /\ eventually (fun k => module_instance_method w k c (ASym name) = Ok u) /\
  has_ancestors w cv lv /\ ~ In c lv /\ first_own w name lv = None /\ unbound_bind u (mkArgs [v] None None) = Ok m /\ method_call m (mkArgs [] None None) = Ok (v, mkCall 7 (mkArgs [] None None)).
Proof.
  set (w := w_of false (rx ++ [Define 12 105 7])). assert (L : look w 105 12 (Some (7, 12))) by (apply (look_runs _ 20); vm_compute; reflexivity).
  exists ex_site, ex_csite, w, 12, 105, (AVal 3), 9, [9; 10; 8], (mkMobj 105 None 7 12), (mkMobj 105 (Some (AVal 3)) 7 12). split; [apply calm_of; vm_compute; reflexivity|].
  split; [eapply ev_mono; [exact L|]; intros k; apply mod_found; left; reflexivity|]. split; [apply (anc_runs _ 20); vm_compute; reflexivity|]. split; [cbn; intuition discriminate|]. split; [vm_compute; reflexivity|]. split; reflexivity.
Qed.
(* bind_call drops the block and the keyword arguments that bind and call pass on *)
Theorem C113_bind_call_refuted : exists site csite w c name u m v a b, calm site csite w /\ eventually (fun k => module_instance_method w k c (ASym name) = Ok u) /\ unbound_bind u (mkArgs [v] None None) = Ok m /\
  method_call m a = Ok (v, mkCall 5 a) /\ unbound_bind_call u (mkArgs (v :: a_pos a) (a_block a) (a_kw a)) = Ok (v, mkCall 5 b) /\ a_block a <> None /\ a_kw a <> None /\ a_block b = None /\ a_kw b = None.
Proof.
  assert (L : look rw 101 12 (Some (5, 9))) by (apply (look_runs _ 20); vm_compute; reflexivity).
  exists ex_site, ex_csite, rw, 12, 101, (mkMobj 101 None 5 9), (mkMobj 101 (Some (AVal 1)) 5 9), (AVal 1), (mkArgs [AVal 7] (Some 50) (Some 60)), (mkArgs [AVal 7] None None).
  split; [apply rw_calm|]. split; [eapply ev_mono; [exact L|]; intros k; apply mod_found; left; reflexivity|]. cbn. repeat split; discriminate.
Qed.
(* two unbound methods are never equal, not even of one class and name *)
Theorem C113_unbound_equal_refuted : exists site csite w c name u, calm site csite w /\ eventually (fun k => module_instance_method w k c (ASym name) = Ok u) /\ mobj_eq u u = false /\ mobj_eq u (unbound_clone u) = false.
Proof.
  assert (L : look rw 101 12 (Some (5, 9))) by (apply (look_runs _ 20); vm_compute; reflexivity).
  exists ex_site, ex_csite, rw, 12, 101, (mkMobj 101 None 5 9). split; [apply rw_calm|]. split; [eapply ev_mono; [exact L|]; intros k; apply mod_found; left; reflexivity|]. split; reflexivity.
Qed.
(* method takes no string *)
Theorem C113_method_string_refuted : exists site csite w c l name, calm site csite w /\ has_ancestors w c l /\ first_own w name l <> None /\ forall k v, obj_method w k c v (AStr name) = Err TypeErr.
Proof. exists ex_site, ex_csite, rw, 12, [12; 9; 10; 8], 101. split; [apply rw_calm|]. split; [apply rw_anc|]. split; [vm_compute; discriminate|reflexivity]. Qed.
(* [v].map(&:m) starts v.m, (v..v).map(&:m) ends the interpreter *)
Theorem C113_iterate_refuted : exists site csite w cls name v k w', calm site csite w /\ eventually (fun n => iterate_sym ViaFn w n cls false name v = Ok (v, k, w')) /\
  forall n, iterate_sym ViaIter w n cls false name v = Panic.
Proof.
  destruct (C113_iterate_partial ex_site ex_csite rw ex_cls false 100 (AVal 3) [9; 10; 8] rw_calm) as (r & E & M); [vm_compute; discriminate|apply (anc_runs _ 20); vm_compute; reflexivity|vm_compute; reflexivity|].
  pose proof (starts_found rw [9; 10; 8] false 100 (AVal 3) (mkArgs [] None None) r 1 ltac:(vm_compute; reflexivity) M) as K.
  destruct K as [w' ->]. exists ex_site, ex_csite, rw, ex_cls, 100, (AVal 3), (mkCall 1 (mkArgs [] None None)), w'. split; [apply rw_calm|]. split; [exact E|reflexivity].
Qed.
(* def f(&b) b.call(v, x) end; f(&:m) loses x, where yield v, x keeps it *)
Theorem C113_symbol_proc_refuted : exists site csite w cls slot v x k1 k2 w1 w2, calm site csite w /\ 0 <= slot < zlen (icache w) /\
  eventually (fun n => yield_sym w n cls false (site slot) (mkArgs [v; x] None None) = Ok (v, k1, w1)) /\ a_pos (c_args k1) = [x] /\
  eventually (fun n => call_sym_proc w n cls slot false (site slot) (mkArgs [v; x] None None) = Ok (v, k2, w2)) /\ a_pos (c_args k2) = [] /\ c_fid k1 = c_fid k2.
Proof.
  assert (H9 : mods rw 9 <> None) by (vm_compute; discriminate). assert (A9 : has_ancestors rw 9 [9; 10; 8]) by (apply (anc_runs _ 20); vm_compute; reflexivity). assert (S9 : single rw 9 = false) by (vm_compute; reflexivity).
  assert (F9 : first_own rw (ex_site 1) [9; 10; 8] = Some 5) by (vm_compute; reflexivity). assert (HS : 0 <= 1 < zlen (icache rw)) by (vm_compute; split; [discriminate|reflexivity]).
  destruct (find_first ex_site rw 9 [9; 10; 8] (ex_site 1) (calm_cinv _ _ _ rw_calm) H9 A9 (or_introl S9)) as (w1 & F1 & _).
  destruct (site_first ex_site rw 1 9 [9; 10; 8] (calm_cinv _ _ _ rw_calm) HS H9 A9 (or_introl S9)) as (w2 & F2 & _). rewrite F9 in F1, F2.
  exists ex_site, ex_csite, rw, ex_cls, 1, (AVal 3), (AVal 7), (mkCall 5 (mkArgs [AVal 7] None None)), (mkCall 5 (mkArgs [] None None)), w1, w2.
  split; [apply rw_calm|]. split; [exact HS|]. split; [eapply ev_mono; [exact F1|]; intros k Ek; unfold yield_sym, invoke_send; cbn [a_pos a_block a_kw ex_cls]; rewrite Ek; reflexivity|].
  split; [reflexivity|]. split; [eapply ev_mono; [exact F2|]; intros k Ek; unfold call_sym_proc, call_site; cbn [a_pos ex_cls]; rewrite Ek; reflexivity|]. split; reflexivity.
Qed.
(* :m.to_proc called with nothing calls nil.m instead of raising ArgumentError *)
Theorem C113_symbol_proc_empty_refuted : exists site csite w cls slot k w', calm site csite w /\ 0 <= slot < zlen (icache w) /\
  (forall n, yield_sym w n cls false (site slot) (mkArgs [] None None) = Err ArgErr) /\
  eventually (fun n => call_sym_proc w n cls slot false (site slot) (mkArgs [] None None) = Ok (NILV, k, w')).
Proof.
  assert (H9 : mods rw 12 <> None) by (vm_compute; discriminate). assert (S9 : single rw 12 = false) by (vm_compute; reflexivity).
  assert (F9 : first_own rw (ex_site 1) [12; 9; 10; 8] = Some 5) by (vm_compute; reflexivity). assert (HS : 0 <= 1 < zlen (icache rw)) by (vm_compute; split; [discriminate|reflexivity]).
  destruct (site_first ex_site rw 1 12 [12; 9; 10; 8] (calm_cinv _ _ _ rw_calm) HS H9 rw_anc (or_introl S9)) as (w2 & F2 & _). rewrite F9 in F2.
  exists ex_site, ex_csite, rw, ex_cls, 1, (mkCall 5 (mkArgs [] None None)), w2. split; [apply rw_calm|]. split; [exact HS|]. split; [reflexivity|].
  eapply ev_mono; [exact F2|]. intros k Ek. unfold call_sym_proc, call_site. cbn [a_pos ex_cls NILV]. rewrite Ek. reflexivity.
Qed.
Print Assumptions C113_owner_refuted.
Print Assumptions C113_bind_type_refuted.
Print Assumptions C113_bind_call_refuted.
Print Assumptions C113_unbound_equal_refuted.
Print Assumptions C113_method_string_refuted.
Print Assumptions C113_iterate_refuted.
Print Assumptions C113_symbol_proc_refuted.
Print Assumptions C113_symbol_proc_empty_refuted.
