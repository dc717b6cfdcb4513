(* C25-C28, C70: method lookup, method caches, super, constants. *)
From Verif Require Import Base ProofsBase ModelArray ProofsArray ModelGC ProofsGC ModelClass SpecClass ProofsClass ProofsClass2 ProofsClass3 ProofsClass4 ProofsClass5 ProofsClass6 ProofsClass7 ProofsClass8.

(* The walks of the model take fuel. A result holds when it is reached with
   any large enough fuel (SpecClass.eventually). hist: worlds reached from the
   empty one by any operations, except that no module is included into or
   prepended to itself (see C25_self_include_refuted). calm: the same, while
   the two 32-bit version counters do not wrap. quiet: moreover no include or
   prepend while a constant read is cached. *)

(* ---- C25 ---- *)
Theorem C25_every_class_has_ancestors : forall site csite w c, hist site csite w -> mods w c <> None -> exists l, has_ancestors w c l.
Proof. exact (fun site csite w c H Hc => match w_chain w (hist_wf site csite w H) c Hc with ex_intro _ l R => ex_intro _ _ (anc_raw w c l (hist_wf site csite w H) R) end). Qed.
Theorem C25_lookup_takes_first_definition : forall site csite w c name l, hist site csite w -> mods w c <> None -> has_ancestors w c l ->
  single w c = false \/ first_own w name l <> None ->
  exists r, look w name c r /\ option_map fst r = first_own w name l.
Proof.
  exact (fun site csite w c name l H Hc A Hs => match look_total w name c (hist_wf site csite w H) Hc with
    ex_intro _ r L => ex_intro _ r (conj L (lookup_own w name c l r (hist_wf site csite w H) Hc A L Hs)) end).
Qed.
Theorem C25_kind_of_agrees_with_ancestors : forall site csite w c t l, hist site csite w -> mods w c <> None -> has_ancestors w c l ->
  exists b, eventually (fun f => include_module w f c t = Ok b) /\ (b = true <-> In t l).
Proof. exact (fun site csite w c t l H Hc A => include_module_has w c t l (hist_wf site csite w H) Hc A). Qed.
Theorem C25_definition_takes_effect : forall site csite w c name fid w', hist site csite w -> runs site csite (Define c name fid) w w' ->
  (forall n x, user_mod w x = true -> own_method w' n x = if (x =? c) && (n =? name) then Some fid else own_method w n x) /\
  (forall x l, has_ancestors w' x l <-> has_ancestors w x l).
Proof.
  exact (fun site csite w c name fid w' H R => match ev_if _ (fun _ => add_method w c name fid) TypeErr w' R with
    conj U E => match define_effect w c name fid w' (hist_wf site csite w H) U (ev_ok _ E) with conj A (conj B _) => conj A B end end).
Qed.
Definition super_lists (w w' : world) (a : Z) (sup : option Z) : Prop :=
  match sup with
  | None => has_ancestors w' a [a]
  | Some s => forall ls, has_ancestors w s ls -> has_ancestors w' a (a :: shown w s ls)
  end.
Theorem C25_new_class_extends_superclass : forall site csite w sup cls w', hist site csite w -> runs site csite (NewClass sup cls) w w' ->
  exists a, mods w a = None /\ user_mod w' a = true /\ (forall n, own_method w' n a = None) /\ super_lists w w' a sup /\
    (forall n x, mods w x <> None -> own_method w' n x = own_method w n x) /\ (forall x l, mods w x <> None -> has_ancestors w x l -> has_ancestors w' x l).
Proof.
  intros site csite w sup cls w' H R. pose proof (hist_wf site csite w H) as W. apply (ev_if _ (fun _ => Ok (snd (new_class w false sup false cls)))) in R. destruct R as [C R]. apply ev_ok in R. injection R as E.
  destruct (new_class w false sup false cls) as [a w1] eqn:En. cbn in E. subst w1. exists a.
  destruct (new_class_effect w false sup false cls a w' W) as (E1 & E2 & E3 & E4 & E5 & E6 & E7 & E8 & E9 & E10); try discriminate; [|exact En|auto 10].
  intros s ->. apply andb_prop in C. apply user_mod_ok. apply C.
Qed.
Theorem C25_new_module_stands_alone : forall site csite w cls w', hist site csite w -> runs site csite (NewModule cls) w w' ->
  exists a, mods w a = None /\ user_mod w' a = true /\ module_p w' a = true /\ (forall n, own_method w' n a = None) /\ has_ancestors w' a [a] /\
    (forall n x, mods w x <> None -> own_method w' n x = own_method w n x) /\ (forall x l, mods w x <> None -> has_ancestors w x l -> has_ancestors w' x l).
Proof.
  intros site csite w cls w' H R. pose proof (hist_wf site csite w H) as W. apply (ev_ok (Ok (snd (new_class w true None false cls)) = Ok w')) in R. injection R as E.
  destruct (new_class w true None false cls) as [a w1] eqn:En. cbn in E. subst w1. exists a.
  destruct (new_class_effect w true None false cls a w' W) as (E1 & E2 & E3 & E4 & E5 & E6 & E7 & E8 & E9 & E10); try discriminate; auto 10.
Qed.
(* include: the module and what it includes come right after the class, in
   every class that inherits from it; nothing else changes *)
Theorem C25_include_places_module_after_class : forall site csite w c M w' lc lm, hist site csite w -> c <> M -> prepended w c = false ->
  has_ancestors w c lc -> has_ancestors w M lm -> runs site csite (Include c M) w w' ->
  has_ancestors w' c (c :: shown w M lm ++ tl lc) /\
  (forall x l, mods w x <> None -> has_ancestors w x l ->
    (~ reaches w x c -> has_ancestors w' x l) /\
    (reaches w x c -> exists p, l = p ++ lc /\ has_ancestors w' x (p ++ c :: shown w M lm ++ tl lc))) /\
  (forall n x, mods w x <> None -> own_method w' n x = own_method w n x).
Proof.
  intros site csite w c M w' lc lm H Hne Hp AC AM R. pose proof (hist_wf site csite w H) as W.
  apply (ev_if _ (fun f => append_include f w c M)) in R. destruct R as [C R]. apply andb_prop in C. destruct C as [C Cm]. apply andb_prop in C. destruct C as [C1 C2].
  destruct (include_lists w c M w' lc lm W C1 C2 Cm Hne Hp AC AM R) as [A B]. split; [exact A|]. split; [exact B|]. intros n x Hx.
  destruct (include_step w c M w' W C1 C2 Cm Hne R) as (_ & _ & _ & w2 & ns & rm & -> & _ & _ & I). apply (inserted_own w w2 c ns n x I Hx).
Qed.
(* prepend: right for the classes inheriting from c. In c itself the modules
   come after c: C25_prepend_refuted *)
Theorem C25_prepend_partial : forall site csite w c M w' lc lm, hist site csite w -> c <> M ->
  has_ancestors w c lc -> has_ancestors w M lm -> runs site csite (Prepend c M) w w' ->
  has_ancestors w' c (c :: shown w M lm ++ shown w c lc) /\
  (forall x l, mods w x <> None -> has_ancestors w x l ->
    (~ reaches w x c -> has_ancestors w' x l) /\
    (reaches w x c -> x <> c -> exists p, l = p ++ shown w c lc /\ has_ancestors w' x (p ++ shown w M lm ++ shown w c lc))) /\
  (forall n x, mods w x <> None -> own_method w' n x = own_method w n x).
Proof.
  intros site csite w c M w' lc lm H Hne AC AM R. pose proof (hist_wf site csite w H) as W.
  apply (ev_if _ (fun f => append_prepend f w c M)) in R. destruct R as [C R]. apply andb_prop in C. destruct C as [C Cm]. apply andb_prop in C. destruct C as [C1 C2].
  destruct (prepend_lists w c M w' lc lm W C1 C2 Cm Hne AC AM R) as [A B]. split; [exact A|]. split; [exact B|]. intros n x Hx.
  destruct (prepend_step w c M w' W C1 C2 Cm Hne R) as (_ & _ & _ & w2 & ns & ds & rm & -> & _ & I & _). apply (inserted_own w w2 c (ns ++ ds) n x I Hx).
Qed.
Print Assumptions C25_every_class_has_ancestors.
Print Assumptions C25_lookup_takes_first_definition.
Print Assumptions C25_kind_of_agrees_with_ancestors.
Print Assumptions C25_definition_takes_effect.
Print Assumptions C25_new_class_extends_superclass.
Print Assumptions C25_new_module_stands_alone.
Print Assumptions C25_include_places_module_after_class.
Print Assumptions C25_prepend_partial.

(* 8: Object, 9: class A < Object, 10: module M, 11: module N, 12: class B < A *)
Definition ex_site (s : Z) : Z := 100 + s.
Definition ex_csite (s : Z) : (list Z * Z) * (Z * Z) := (([] : list Z, 9), (300, 8)).
Definition run0 q (l : list op) : res world := run_ops ex_site ex_csite q l world0.
Definition w_of q (l : list op) : world := match run0 q l with Ok w => w | _ => world0 end.
Definition ex_base : list op := [NewClass None 8; NewClass (Some 8) 8; NewModule 8; NewModule 8; NewClass (Some 9) 8].
Lemma calm_of l : run0 false l = Ok (w_of false l) -> calm ex_site ex_csite (w_of false l).
Proof. intros E. eapply run_calm; [apply cl_start|exact E]. Qed.
Lemma hist_of l : run0 false l = Ok (w_of false l) -> hist ex_site ex_csite (w_of false l).
Proof. intros E. apply calm_hist, calm_of, E. Qed.
Lemma quiet_of l : run0 true l = Ok (w_of true l) -> quiet ex_site ex_csite (w_of true l).
Proof. intros E. eapply run_quiet; [apply q_start|exact E]. Qed.
(* M includes N, A includes M: B sees A, M, N, Object *)
Definition ex_inc : list op := ex_base ++ [Include 10 11; Include 9 10; Define 11 100 7; Define 8 100 6].
Example C25_include_example : hist ex_site ex_csite (w_of false ex_inc) /\ ancestors (w_of false ex_inc) 9 12 = Ok [12; 9; 10; 11; 8] /\
  search_method (w_of false ex_inc) 9 100 12 = Ok (Some (7, 15)) /\ single (w_of false ex_inc) 12 = false.
Proof. split; [apply hist_of; vm_compute; reflexivity|vm_compute; auto]. Qed.
(* N prepended to A, then M: B sees M, N, A, Object; A itself is listed twice *)
Definition ex_prep : list op := ex_base ++ [Prepend 9 11; Prepend 9 10].
Example C25_prepend_example : hist ex_site ex_csite (w_of false ex_prep) /\ ancestors (w_of false ex_prep) 9 12 = Ok [12; 10; 11; 9; 8] /\
  ancestors (w_of false ex_prep) 9 9 = Ok [9; 10; 11; 9; 8].
Proof. split; [apply hist_of; vm_compute; reflexivity|vm_compute; auto]. Qed.
(* including a module twice lists it twice *)
Example C25_include_twice : ancestors (w_of false (ex_base ++ [Include 9 10; Include 9 10])) 9 9 = Ok [9; 10; 10; 8].
Proof. vm_compute. reflexivity. Qed.

(* A and M define foo, M is prepended to A: A's own foo still runs *)
Theorem C25_prepend_refuted : exists site csite w w' c M name f g o,
  hist site csite w /\ runs site csite (Prepend c M) w w' /\ own_method w' name M = Some f /\ f <> g /\ look w' name c (Some (g, o)).
Proof.
  exists ex_site, ex_csite, (w_of false (ex_base ++ [Define 9 100 1; Define 10 100 2])), (w_of false (ex_base ++ [Define 9 100 1; Define 10 100 2; Prepend 9 10])), 9, 10, 100, 2, 1, 9.
  split; [apply hist_of; vm_compute; reflexivity|]. split; [apply (exec_runs _ _ 20); vm_compute; reflexivity|]. split; [vm_compute; reflexivity|]. split; [discriminate|].
  apply (look_runs _ 20). vm_compute. reflexivity.
Qed.
(* include into a class with a prepended module: the new module comes before
   the prepended one and the class, not after the class *)
Theorem C25_include_after_prepend_refuted : exists site csite w w' c M P sub, hist site csite w /\ runs site csite (Include c M) w w' /\
  has_ancestors w sub [sub; P; c; 8] /\ has_ancestors w M [M] /\ has_ancestors w' sub [sub; M; P; c; 8].
Proof.
  exists ex_site, ex_csite, (w_of false (ex_base ++ [Prepend 9 11])), (w_of false (ex_base ++ [Prepend 9 11; Include 9 10])), 9, 10, 11, 12.
  split; [apply hist_of; vm_compute; reflexivity|]. split; [apply (exec_runs _ _ 20); vm_compute; reflexivity|].
  split; [apply (anc_runs _ 20); vm_compute; reflexivity|]. split; apply (anc_runs _ 20); vm_compute; reflexivity.
Qed.
(* a singleton class of an ordinary object (sup: its class, cls: Class) also
   finds the instance methods of Class *)
Theorem C25_singleton_refuted : exists site csite w c name f o l, hist site csite w /\ has_ancestors w c l /\ first_own w name l = None /\ look w name c (Some (f, o)).
Proof.
  exists ex_site, ex_csite, (w_of false [NewClass None 8; NewClass (Some 8) 8; NewSingleton 8 9; Define 9 100 5]), 10, 100, 5, 9, [10; 8].
  split; [apply hist_of; vm_compute; reflexivity|]. split; [apply (anc_runs _ 20); vm_compute; reflexivity|]. split; [vm_compute; reflexivity|]. apply (look_runs _ 20). vm_compute. reflexivity.
Qed.
(* a module including itself: no number of steps is enough *)
Theorem C25_self_include_refuted : forall site csite w m, hist site csite w -> user_mod w m = true -> module_p w m = true -> prepended w m = false ->
  forall fuel, exec site csite fuel (Include m m) w = Panic.
Proof.
  intros site csite w m H U M P fuel. cbn [exec]. rewrite U, M. cbn [andb]. pose proof (user_mod_ok _ _ U) as [Hm _]. apply append_self_stuck; [apply (hist_wf site csite w H)|exact Hm|exact P].
Qed.
Example C25_self_include_applies : hist ex_site ex_csite (w_of false ex_base) /\ user_mod (w_of false ex_base) 10 = true /\ module_p (w_of false ex_base) 10 = true /\ prepended (w_of false ex_base) 10 = false.
Proof. split; [apply hist_of; vm_compute; reflexivity|vm_compute; auto]. Qed.
Print Assumptions C25_prepend_refuted.
Print Assumptions C25_include_after_prepend_refuted.
Print Assumptions C25_singleton_refuted.
Print Assumptions C25_self_include_refuted.

(* ---- C26 ---- *)
(* without collections (C26_collection_refuted) and counter wraps (C26_wrap_refuted) *)
Theorem C26_cached_call_is_uncached_lookup_partial : forall site csite w slot c, calm site csite w -> 0 <= slot < zlen (icache w) -> mods w c <> None ->
  exists r w', look w (site slot) c r /\ eventually (fun f => find_method_inline w f slot c (site slot) = Ok (option_map fst r, w')).
Proof.
  exact (fun site csite w slot c C Hs Hc => match look_total w (site slot) c (c_wf site w (calm_cinv site csite w C)) Hc with ex_intro _ r L =>
    match find_inline_ok site w slot c r (calm_cinv site csite w C) Hs L with ex_intro _ w' (conj F _) => ex_intro _ r (ex_intro _ w' (conj L F)) end end).
Qed.
Theorem C26_global_cache_is_uncached_lookup_partial : forall site csite w c name, calm site csite w -> mods w c <> None ->
  exists r w', look w name c r /\ eventually (fun f => find_method w f c name = Ok (option_map fst r, w')).
Proof.
  exact (fun site csite w c name C Hc => match look_total w name c (c_wf site w (calm_cinv site csite w C)) Hc with ex_intro _ r L =>
    match find_method_ok site w c name r (calm_cinv site csite w C) L with ex_intro _ w' (conj F _) => ex_intro _ r (ex_intro _ w' (conj L F)) end end).
Qed.
Print Assumptions C26_cached_call_is_uncached_lookup_partial.
Print Assumptions C26_global_cache_is_uncached_lookup_partial.
(* the cached answer changes when a method is redefined, an include hides it *)
Definition ex_calls : list op := ex_base ++ [Define 8 100 1; NewSite; Call 0 12; Call 0 12; Include 9 10; Define 10 100 2].
Example C26_example : calm ex_site ex_csite (w_of false ex_calls) /\ icache (w_of false ex_calls) = [mkIE 1 12 1] /\
  match find_method_inline (w_of false ex_calls) 9 0 12 100 with Ok (Some f, w') => f = 2 /\ icache w' = [mkIE 3 12 2] | _ => False end /\
  match find_method_inline (w_of false (ex_base ++ [Define 8 100 1; NewSite; Call 0 12])) 0 0 12 100 with Ok (Some f, _) => f = 1 | _ => False end.
Proof. split; [apply calm_of; vm_compute; reflexivity|vm_compute; auto]. Qed.

(* a class nothing refers to is collected; a new class gets its address; the
   caches still answer for the old class *)
Theorem C26_collection_refuted : exists site csite w a w' sup name f g o,
  calm site csite w /\ unreferenced w a /\ runs site csite (NewClass sup 8) (collect w a) w' /\ mods w' a <> None /\ own_method w' name a = None /\
  look w' name a (Some (g, o)) /\ f <> g /\ eventually (fun k => find_method w' k a name = Ok (Some f, w')).
Proof.
  exists ex_site, ex_csite, (w_of false (ex_base ++ [Define 8 100 1; Define 12 100 2; Find 12 100])), 12.
  eexists. exists (Some 8), 100, 2, 1, 8. split; [apply calm_of; vm_compute; reflexivity|]. split.
  - intros x m E. vm_compute in E. repeat match type of E with context [match ?y with _ => _ end] => destruct y; try discriminate E end; injection E as <-; split; discriminate.
  - split; [apply (exec_runs _ _ 20); vm_compute; reflexivity|]. split; [vm_compute; discriminate|]. split; [vm_compute; reflexivity|]. split; [apply (look_runs _ 20); vm_compute; reflexivity|]. split; [discriminate|].
    exists O. intros k _. unfold find_method. vm_compute. reflexivity.
Qed.
(* after 2^32 definitions elsewhere the counter is back at the old version *)
Theorem C26_wrap_refuted : exists site csite w c name f g o, hist site csite w /\ look w name c (Some (g, o)) /\ f <> g /\
  forall k, find_method w k c name = Ok (Some f, w).
Proof.
  set (w1 := w_of false (ex_base ++ [Define 12 100 2; Find 12 100; Define 12 100 3])).
  assert (H1 : hist ex_site ex_csite w1) by (apply hist_of; vm_compute; reflexivity).
  assert (U1 : user_mod w1 8 = true) by (vm_compute; reflexivity).
  assert (V1 : version w1 = 2) by (vm_compute; reflexivity).
  destruct (bump_many ex_site ex_csite 8 (Z.to_nat (2 ^ 32 - 1)) w1 H1 U1) as (w2 & H2 & V2 & M2 & _ & Mo & X2); [rewrite V1; lia|].
  exists ex_site, ex_csite, w2, 12, 100, 2, 3, 12. split; [exact H2|].
  assert (V : version w2 = 1).
  { rewrite V2, V1, Z2Nat.id by lia. reflexivity. }
  split; [|split; [discriminate|]].
  - exists 1%nat. intros f Hf. destruct f as [|f]; [lia|]. unfold search_method, search_chain, get_mod. rewrite Mo.
    assert (E12 : mods w1 12 = Some (mkMod (Some 9) false false false 4 8)) by (vm_compute; reflexivity). rewrite E12. cbn [rbind m_ext].
    rewrite X2 by (vm_compute; discriminate). vm_compute (mtab (exts w1 4)). reflexivity.
  - intros k. unfold find_method, mc_get. rewrite M2, V. vm_compute (mcache w1). reflexivity.
Qed.
Print Assumptions C26_collection_refuted.
Print Assumptions C26_wrap_refuted.

(* ---- C27 ---- *)
(* super in a method of the receiver's own class, when no module between the
   class and its superclass defines the method *)
Theorem C27_super_continues_at_next_definition_partial : forall site csite w c name lc s, calm site csite w -> user_mod w c = true -> own_method w name c <> None ->
  has_ancestors w c lc -> eventually (fun f => superclass w f c = Ok (Some s)) -> prepended w s = false -> single w s = false ->
  exists mid ls, lc = c :: mid ++ ls /\ has_ancestors w s ls /\
    (first_own w name mid = None -> exists w', eventually (fun f => super_method w f c name = Ok (first_own w name (after c lc), w'))).
Proof.
  intros site csite w c name lc s C U Hm A S Hp Hs. pose proof (user_mod_ok _ _ U) as [Hc Hi]. pose proof (calm_cinv site csite w C) as CI. pose proof (c_wf site w CI) as W.
  destruct (super_next site w c name lc s CI Hc A S Hp Hs) as (mid & ls & E & B & F). exists mid, ls.
  assert (Eh : hd 0 lc = c).
  { destruct (w_chain w W c Hc) as [l R]. assert (lc = map (real w) (c :: vis w l)) by (eapply anc_det; [exact A|apply anc_raw; assumption]). subst lc. cbn. unfold real. rewrite Hi. reflexivity. }
  rewrite Eh in E. split; [exact E|]. split; [exact B|]. intros H. destruct (F H) as [w' G]. exists w'. rewrite E in G |- *. cbn [after tl] in *. rewrite Z.eqb_refl. exact G.
Qed.
Print Assumptions C27_super_continues_at_next_definition_partial.
Definition ex_sup : list op := ex_base ++ [Define 8 100 1; Include 9 10; Include 12 11; Define 12 100 2].
Example C27_applies : calm ex_site ex_csite (w_of false ex_sup) /\ user_mod (w_of false ex_sup) 12 = true /\ own_method (w_of false ex_sup) 100 12 = Some 2 /\
  ancestors (w_of false ex_sup) 9 12 = Ok [12; 11; 9; 10; 8] /\ superclass (w_of false ex_sup) 9 12 = Ok (Some 9) /\
  match super_method (w_of false ex_sup) 9 12 100 with Ok (Some f, _) => f = 1 | _ => False end.
Proof. split; [apply calm_of; vm_compute; reflexivity|vm_compute; auto 10]. Qed.
(* the method of an included module is skipped *)
Theorem C27_included_module_refuted : exists site csite w c name lc f g, calm site csite w /\ own_method w name c <> None /\ has_ancestors w c lc /\
  first_own w name (after c lc) = Some f /\ f <> g /\ exists w', eventually (fun k => super_method w k c name = Ok (Some g, w')).
Proof.
  exists ex_site, ex_csite, (w_of false (ex_base ++ [Define 8 100 1; Include 9 10; Define 10 100 2; Define 9 100 3])), 9, 100, [9; 10; 8], 2, 1.
  split; [apply calm_of; vm_compute; reflexivity|]. split; [vm_compute; discriminate|]. split; [apply (anc_runs _ 20); vm_compute; reflexivity|]. split; [vm_compute; reflexivity|]. split; [discriminate|].
  eexists. exists 20%nat. intros k Hk. apply (m_super _ 20 k); [exact Hk|]. vm_compute. reflexivity.
Qed.
(* super in an inherited method finds that same method again: it never ends *)
Theorem C27_inherited_method_refuted : exists site csite w c name lc f g o, calm site csite w /\ has_ancestors w c lc /\ look w name c (Some (f, o)) /\
  first_own w name (after o lc) = Some g /\ f <> g /\ exists w', eventually (fun k => super_method w k c name = Ok (Some f, w')).
Proof.
  exists ex_site, ex_csite, (w_of false (ex_base ++ [Define 8 100 1; Define 9 100 2])), 12, 100, [12; 9; 8], 2, 1, 9.
  split; [apply calm_of; vm_compute; reflexivity|]. split; [apply (anc_runs _ 20); vm_compute; reflexivity|]. split; [apply (look_runs _ 20); vm_compute; reflexivity|]. split; [vm_compute; reflexivity|]. split; [discriminate|].
  eexists. exists 20%nat. intros k Hk. apply (m_super _ 20 k); [exact Hk|]. vm_compute. reflexivity.
Qed.
Print Assumptions C27_included_module_refuted.
Print Assumptions C27_inherited_method_refuted.

(* ---- C28 ---- *)
(* one class of self for each read (C28_other_self_refuted), no include or
   prepend while reads are cached (C28_include_refuted) *)
Theorem C28_cached_constant_is_uncached_lookup_partial : forall site csite w slot scope cls id object anc, quiet site csite w -> 0 <= slot < zlen (ccache w) ->
  csite slot = ((scope, cls), (id, object)) -> (forall a, In a scope -> mods w a <> None) -> mods w cls <> None -> mods w object <> None -> has_ancestors w cls anc ->
  eventually (fun f => find_const w f scope cls id object = match first_const w id (const_path w scope cls anc object) with Some v => Ok v | None => Err NameErr end) /\
  match first_const w id (const_path w scope cls anc object) with
  | Some v => exists w', eventually (fun f => get_const_cached w f slot scope cls id object = Ok (v, w'))
  | None => eventually (fun f => get_const_cached w f slot scope cls id object = Err NameErr)
  end.
Proof.
  intros site csite w slot scope cls id object anc Q Hs Ec Hsc Hc Ho A. pose proof (quiet_kinv site csite w Q) as K. pose proof (hist_wf _ _ _ (calm_hist _ _ _ (quiet_calm _ _ _ Q))) as W.
  pose proof (find_const_spec w scope cls id object anc W Hsc Hc Ho A) as F. split; [exact F|]. pose proof (read_const_ok csite w slot K Hs) as R. rewrite Ec in R.
  destruct (first_const w id (const_path w scope cls anc object)) as [v|].
  - destruct (R (Ok v) ltac:(discriminate) F) as (w' & G & _). exists w'. exact G.
  - exact (R (Err NameErr) ltac:(discriminate) F).
Qed.
Theorem C28_assignment_takes_effect : forall site csite w c id v w', hist site csite w -> runs site csite (SetConst c id v) w w' ->
  (forall i x, user_mod w x = true -> own_const w' i x = if (x =? c) && (i =? id) then Some v else own_const w i x) /\
  (forall x l, has_ancestors w' x l <-> has_ancestors w x l).
Proof.
  exact (fun site csite w c id v w' H R => match ev_if _ (fun _ => set_const w c id v) TypeErr w' R with
    conj U E => match set_const_effect w c id v w' (hist_wf site csite w H) U (ev_ok _ E) with conj A (conj B _) => conj A B end end).
Qed.
Print Assumptions C28_cached_constant_is_uncached_lookup_partial.
Print Assumptions C28_assignment_takes_effect.
Definition ex_const : list op := ex_base ++ [Include 9 10; SetConst 8 300 1; NewConstSite; ReadConst 0; ReadConst 0; SetConst 10 300 2].
Example C28_example : quiet ex_site ex_csite (w_of true ex_const) /\ ccache (w_of true ex_const) = [mkCE 1 (Some 1)] /\
  match get_const_cached (w_of true ex_const) 9 0 [] 9 300 8 with Ok (v, w') => v = 2 /\ ccache w' = [mkCE 2 (Some 2)] | _ => False end.
Proof. split; [apply quiet_of; vm_compute; reflexivity|vm_compute; auto]. Qed.
(* module M reads X; included in A (X = 1) and B (X = 2): the second reader
   gets the first reader's value *)
Theorem C28_other_self_refuted : exists site csite w slot scope cls1 cls2 id object w' v1 v2, quiet site csite w /\
  get_const_cached w 9 slot scope cls1 id object = Ok (v1, w') /\ find_const w' 9 scope cls2 id object = Ok v2 /\ v1 <> v2 /\
  eventually (fun f => get_const_cached w' f slot scope cls2 id object = Ok (v1, w')).
Proof.
  exists ex_site, ex_csite, (w_of true [NewClass None 8; NewClass (Some 8) 8; NewModule 8; NewClass (Some 8) 8; Include 9 10; Include 11 10; SetConst 9 300 1; SetConst 11 300 2; NewConstSite]), 0, [10], 9, 11, 300, 8.
  eexists. exists 1, 2. split; [apply quiet_of; vm_compute; reflexivity|]. split; [vm_compute; reflexivity|]. split; [vm_compute; reflexivity|]. split; [discriminate|].
  exists O. intros f _. unfold get_const_cached. vm_compute. reflexivity.
Qed.
Theorem C28_include_refuted : exists site csite w slot scope cls id object v1 v2, calm site csite w /\ csite slot = ((scope, cls), (id, object)) /\
  find_const w 9 scope cls id object = Ok v2 /\ v1 <> v2 /\ eventually (fun f => get_const_cached w f slot scope cls id object = Ok (v1, w)).
Proof.
  exists ex_site, ex_csite, (w_of false (ex_base ++ [SetConst 8 300 1; SetConst 10 300 2; NewConstSite; ReadConst 0; Include 9 10])), 0, [], 9, 300, 8, 1, 2.
  split; [apply calm_of; vm_compute; reflexivity|]. split; [reflexivity|]. split; [vm_compute; reflexivity|]. split; [discriminate|].
  exists O. intros f _. unfold get_const_cached. vm_compute. reflexivity.
Qed.
Print Assumptions C28_other_self_refuted.
Print Assumptions C28_include_refuted.

(* ---- C70 ---- *)
(* when self is a direct instance of the innermost class *)
Theorem C70_constant_in_instance_method_partial : forall site csite w outer cls id object anc, hist site csite w ->
  (forall a, In a outer -> mods w a <> None) -> mods w cls <> None -> mods w object <> None -> has_ancestors w cls anc -> In object anc ->
  eventually (fun f => find_const w f (outer ++ [cls]) cls id object = match first_const w id (cls :: rev outer ++ anc) with Some v => Ok v | None => Err NameErr end).
Proof.
  intros site csite w outer cls id object anc H Ho Hc Hob A Hin. pose proof (hist_wf site csite w H) as W.
  assert (Hs : forall a, In a (outer ++ [cls]) -> mods w a <> None) by (intros a Ha; apply in_app_iff in Ha; destruct Ha as [Ha|[<-|[]]]; auto).
  pose proof (find_const_spec w (outer ++ [cls]) cls id object anc W Hs Hc Hob A) as F. eapply ev_mono; [exact F|]. cbn beta. intros f E. rewrite E. unfold const_path. rewrite rev_app_distr. cbn [rev app].
  replace (first_const w id (cls :: rev outer ++ anc ++ (if module_p w cls then [object] else []))) with (first_const w id (cls :: rev outer ++ anc)); [reflexivity|].
  cbn [first_const]. destruct (own_const w id cls); [reflexivity|]. rewrite !first_const_app. destruct (first_const w id (rev outer)); [reflexivity|]. destruct (first_const w id anc) eqn:Ea; [reflexivity|].
  destruct (module_p w cls); [|reflexivity]. cbn. assert (En : own_const w id object = None); [|rewrite En; reflexivity].
  clear - Hin Ea. induction anc as [|a anc IH]; [destruct Hin|]. cbn in Ea. destruct (own_const w id a) eqn:E; [discriminate|]. destruct Hin as [<-|Hin]; [exact E|auto].
Qed.
Print Assumptions C70_constant_in_instance_method_partial.
(* class B < A with X defined in A, read in the body of B (self is B, the class of self is Class): X is not found *)
Theorem C70_inherited_constant_in_class_body_refuted : exists site csite w b cls id object anc v, hist site csite w /\ has_ancestors w b anc /\ first_const w id (b :: anc) = Some v /\
  eventually (fun f => find_const w f [b] cls id object = Err NameErr).
Proof.
  set (w := w_of false (ex_base ++ [NewClass (Some 8) 8; SetConst 9 300 1])).
  exists ex_site, ex_csite, w, 12, 13, 300, 8, [12; 9; 8], 1.
  split; [apply hist_of; vm_compute; reflexivity|]. split; [apply (anc_runs _ 20); vm_compute; reflexivity|]. split; [vm_compute; reflexivity|].
  pose proof (find_const_spec w [12] 13 300 8 [13; 8]) as F. assert (E : first_const w 300 (const_path w [12] 13 [13; 8] 8) = None) by (vm_compute; reflexivity). rewrite E in F. apply F.
  - eapply hist_wf. apply hist_of. vm_compute. reflexivity.
  - intros a [<-|[]]. vm_compute. discriminate.
  - vm_compute. discriminate.
  - vm_compute. discriminate.
  - apply (anc_runs _ 20). vm_compute. reflexivity.
Qed.
Print Assumptions C70_inherited_constant_in_class_body_refuted.
Example C70_applies : hist ex_site ex_csite (w_of false (ex_base ++ [SetConst 9 300 1])) /\ ancestors (w_of false (ex_base ++ [SetConst 9 300 1])) 9 12 = Ok [12; 9; 8] /\
  find_const (w_of false (ex_base ++ [SetConst 9 300 1])) 9 [12] 12 300 8 = Ok 1.
Proof. split; [apply hist_of; vm_compute; reflexivity|vm_compute; auto]. Qed.
