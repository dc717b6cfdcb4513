(** Collections and what a program can get hold of (C98). *)
From Verif Require Import Base ModelGC ProofsGC ProofsGC2 ProofsGC3 ProofsGC4 PropsGC ModelKinds SpecKinds.

(** The heap holds the objects of the store. *)
Definition holds (A : Z -> option obj) (S : store) : Prop :=
  forall a, match A a, S a with
            | Some o, Some r => refs o = obj_refs r
            | None, None => True
            | _, _ => False
            end.

Lemma ptrs_in x : forall l, In (Some x) l -> In x (ptrs l).
Proof.
  induction l as [|[a|] l IH]; cbn; [intros []| |].
  - intros [H|H]; [injection H as ->|]; auto.
  - intros [H|H]; [discriminate|auto].
Qed.
Lemma gives_visited o x : gives o x -> In x (obj_refs o).
Proof.
  intros H. unfold obj_refs. apply ptrs_in.
  assert (K : In (Some x) (kind_refs (kd o)) -> In (Some x) (klass o :: match var_table o with Some t => map snd t | None => [] end ++ kind_refs (kd o))).
  { intros I. right. apply in_or_app. right. exact I. }
  destruct H as [x H|t n x H I|x i H|x r H|l i x H I|l x v H I|l k x H I|x e H|x b H|x H|c x H U|c n x H I|c x H U|x e H|s e l x H I J|x w H
    |f e l x H D F I J|f x H D I|f x a H D F|f r a x H D F I|f r a x H D F I|f r a x H D F I|e l x H I J].
  - left. exact H.
  - right. apply in_or_app. left. rewrite H. apply in_map_iff. exists (n, Some x). auto.
  - apply K. rewrite H. cbn. auto.
  - apply K. rewrite H. cbn. auto.
  - apply K. rewrite H. cbn. eapply nth_error_In; eauto.
  - apply K. rewrite H. cbn. apply in_flat_map. exists (Some x, v). cbn. auto.
  - apply K. rewrite H. cbn. apply in_flat_map. exists (k, Some x). cbn. auto.
  - apply K. rewrite H. cbn. auto.
  - apply K. rewrite H. cbn. auto.
  - apply K. rewrite H. cbn. auto.
  - apply K. rewrite H. cbn. auto.
  - apply K. rewrite H. cbn. right. apply in_or_app. left. apply in_map_iff. exists (n, Const (Some x)). auto.
  - apply K. rewrite H. cbn. right. apply in_or_app. right. cbn. auto.
  - apply K. rewrite H. cbn. auto.
  - apply K. rewrite H. cbn. right. apply in_concat. eauto.
  - apply K. rewrite H. cbn. auto.
  - apply K. rewrite H. cbn. unfold fiber_refs. destruct (state f); try congruence; rewrite F; apply in_or_app; right; apply in_concat; eauto.
  - apply K. rewrite H. cbn. unfold fiber_refs. destruct (state f); try congruence; apply in_or_app; left; exact I.
  - apply K. rewrite H. cbn. unfold fiber_refs. destruct (state f); try congruence; rewrite F; apply in_or_app; right; left; reflexivity.
  - apply K. rewrite H. cbn. unfold fiber_refs. destruct (state f); try congruence; rewrite F; apply in_or_app; right; right; apply in_or_app; left; exact I.
  - apply K. rewrite H. cbn. unfold fiber_refs. destruct (state f); try congruence; rewrite F; apply in_or_app; right; right; apply in_or_app; right; cbn; auto.
  - apply K. rewrite H. cbn. unfold fiber_refs. destruct (state f); try congruence; rewrite F; apply in_or_app; right; right; apply in_or_app; right; cbn; auto.
  - apply K. rewrite H. cbn. apply in_concat. eauto.
Qed.
Lemma starts_visited g x : starts g x -> In x (globals_refs g).
Proof.
  intros H. unfold globals_refs. apply ptrs_in. destruct H as [x H|n x H|x H|x H|x H]; rewrite !in_app_iff; cbn; auto.
  - right. right. left. apply in_map_iff. exists (n, Some x). auto.
  - auto 10.
  - auto 10.
Qed.
Lemma can_get_reach A S g x : holds A S -> can_get S g x -> live A (globals_refs g) ->
  (forall a o, A a = Some o -> live A (refs o)) -> reach A (globals_refs g) x.
Proof.
  intros HS H HL HC. assert (P : reach A (globals_refs g) x /\ A x <> None); [|apply P]. induction H as [x H|a o x H (IH & IA) E G].
  - apply starts_visited in H. split; [apply reach_root; exact H|apply HL; exact H].
  - specialize (HS a). rewrite E in HS. destruct (A a) as [w|] eqn:EA; [|contradiction]. apply gives_visited in G. rewrite <- HS in G.
    split; [eapply reach_ref; eauto|eapply HC; eauto].
Qed.

(** Whatever has been allocated, stored and collected before, a collection keeps
    every object that the program can get from the variables and frames it runs in
    by calling methods, reading constants and variables, iterating and calling
    closures; the object is where it was and is what it was. Missing: the ways of
    the theorems below. *)
Theorem C98_kept_partial : forall off h A S g fuel, layout_ok off -> history off h A -> holds A S ->
  live A (globals_refs g) -> enough off fuel h ->
  exists h' A', gc off fuel (globals_refs g) h = Ok h' /\ history off h' A' /\
    forall x, can_get S g x -> exists o r, S x = Some r /\ A x = Some o /\ refs o = obj_refs r /\ A' x = Some o /\ mem h' x = Obj o.
Proof.
  intros off h A S g fuel OFF H HS HL HF. destruct (C22_collection_keeps_reachable_objects off h A (globals_refs g) fuel OFF H HL HF)
    as (h' & A' & E & HC & H' & K). exists h', A'. split; [exact E|]. split; [exact H'|]. intros x G.
  pose proof (can_get_reach A S g x HS G HL ltac:(intros a o EA; apply (C24_memory_holds_every_live_object off h A OFF H a o EA))) as R.
  destruct (K x R) as (o & EA & _ & EM). specialize (HS x). rewrite EA in HS. destruct (S x) as [r|] eqn:ES; [|contradiction].
  exists o, r. destruct (HC x) as (HC1 & _). rewrite (HC1 R). auto.
Qed.
Print Assumptions C98_kept_partial.

(** A heap of three objects: a class, which is its own class, an object, and one
    more, the main object. *)
Definition c0 : Z := ex_cell 0.
Definition c1 : Z := ex_cell 1.
Definition c2 : Z := ex_cell 2.
Definition the_class : robj := mkrobj (Some c0) None (Module (mkclass None [] None None)).
Definition the_object : robj := mkrobj (Some c0) None Plain.
Definition three (k : kind) : store := fun a =>
  if a =? c2 then Some (mkrobj (Some c0) None k) else if a =? c1 then Some the_object else if a =? c0 then Some the_class else None.
Definition only_main : globals := mkglobals [] (Some c2) [] [] [] None [].
Definition to_obj (r : robj) : obj := ex_o (obj_refs r) 0.
Definition h2 : heap := ex_step (to_obj the_object) (write (ex_step (ex_o [] 0) ex_h0) c0 (to_obj the_class)).
Definition h3 (k : kind) : heap := ex_step (to_obj (mkrobj (Some c0) None k)) h2.
Lemma three_history k : (forall x, In x (ptrs (kind_refs k)) -> x = c0 \/ x = c1) ->
  exists A, history 0 (h3 k) A /\ holds A (three k) /\ live A (globals_refs only_main) /\ enough 0 5 (h3 k) /\
    A c2 = Some (to_obj (mkrobj (Some c0) None k)) /\ A c0 = Some (to_obj the_class) /\ A c1 = Some (to_obj the_object).
Proof.
  intros HK. eexists. split; [|split; [|split; [|split; [|split; [|split]]]]].
  - unfold h3. eapply (ex_hist h2 _ _ c2); [reflexivity|intros [H|[[]|[]]]; discriminate| |].
    2:{ unfold h2. eapply (ex_hist _ _ _ c1); [reflexivity|intros [H|[[]|[]]]; discriminate| |].
        2:{ apply h_write; [eapply (ex_hist _ _ _ c0); [reflexivity|intros [H|[[]|[]]]; discriminate|intros x []|]| |].
            - apply h_new; [split; reflexivity|intros p; split; [reflexivity|]; apply Forall_forall; intros w Hw; apply repeat_spec in Hw; subst; lia].
            - discriminate.
            - intros x [<-|[]]. discriminate. }
        intros x [<-|[]]. discriminate. }
    intros x Hx. unfold to_obj, obj_refs in Hx. cbn [refs ex_o klass var_table kd app] in Hx. cbn [ptrs] in Hx.
    destruct Hx as [<-|Hx]; [discriminate|]. destruct (HK x Hx) as [->| ->]; discriminate.
  - intros a. unfold three. destruct (Z.eqb_spec a c2); [reflexivity|]. destruct (Z.eqb_spec a c1); [reflexivity|].
    destruct (Z.eqb_spec a c0); [reflexivity|exact I].
  - intros x [<-|[]]. discriminate.
  - unfold enough. assert (E : cells 0 (h3 k) = [c0; c1; c2]) by reflexivity. rewrite E. cbn. lia.
  - reflexivity.
  - reflexivity.
  - reflexivity.
Qed.
(** The main object is an array that holds the object. *)
Example C98_kept_partial_ex : exists A, let k := Array [None; Some c1] in
  history 0 (h3 k) A /\ holds A (three k) /\ live A (globals_refs only_main) /\ enough 0 5 (h3 k) /\ can_get (three k) only_main c1.
Proof.
  destruct (three_history (Array [None; Some c1])) as (A & H1 & H2 & H3 & H4 & _); [cbn; intuition|].
  exists A. repeat (split; [assumption|]). eapply C_next; [apply C_start, S_main; reflexivity|reflexivity|].
  eapply (G_element _ _ 1%nat); reflexivity.
Qed.

(** What is not visited is gone. *)
Definition loses (S : store) (g : globals) (x : Z) : Prop :=
  exists off h A fuel h' n, layout_ok off /\ history off h A /\ holds A S /\ live A (globals_refs g) /\ enough off fuel h /\
    gc off fuel (globals_refs g) h = Ok h' /\ S x <> None /\ mem h' x = Invalid n.
Definition frees (k : kind) : bool :=
  match gc 0 5 (globals_refs only_main) (h3 k) with Ok h' => match mem h' c1 with Invalid _ => true | _ => false end | _ => false end.
Lemma lost_object k : (forall x, In x (ptrs (kind_refs k)) -> x = c0) -> frees k = true -> loses (three k) only_main c1.
Proof.
  intros HK HF. destruct (three_history k) as (A & H1 & H2 & H3 & H4 & _); [auto|]. unfold frees in HF.
  destruct (gc 0 5 (globals_refs only_main) (h3 k)) as [h'| |] eqn:E; try discriminate.
  destruct (mem h' c1) as [|n] eqn:EM; [discriminate|].
  exists 0, (h3 k), A, 5%nat, h', n. split; [split; vm_compute; congruence|]. repeat (split; [assumption|]). split; [discriminate|exact EM].
Qed.
(** A program has the main object, an operation on it leads to another object, which the collection has freed. *)
Definition leads_to_freed (o : robj) : Prop :=
  exists S g a x, main_object g = Some a /\ S a = Some o /\ gives_too o x /\ loses S g x.
Lemma freed k : gives_too (mkrobj (Some c0) None k) c1 -> (forall x, In x (ptrs (kind_refs k)) -> x = c0) -> frees k = true ->
  leads_to_freed (mkrobj (Some c0) None k).
Proof. intros G H F. exists (three k), only_main, c2, c1. repeat (split; [reflexivity || assumption|]). apply lost_object; assumption. Qed.

(** the owner of a method or unbound method *)
Theorem C98_owner_refuted : exists o r w, kd o = Method r w /\ leads_to_freed o.
Proof. do 3 eexists. split; [|apply (freed (Method None (Some c1)))]; [reflexivity|eapply T_owner; reflexivity|intros x []|vm_compute; reflexivity]. Qed.
Print Assumptions C98_owner_refuted.
(** the object of a singleton class *)
Theorem C98_singleton_refuted : exists o c, kd o = Module c /\ leads_to_freed o.
Proof. do 2 eexists. split; [|apply (freed (Module (mkclass (Some c0) [] (Some c1) None)))]; [reflexivity|eapply T_singleton; reflexivity|intros x [H|[]]; auto|vm_compute; reflexivity]. Qed.
Print Assumptions C98_singleton_refuted.
(** the receiver of an enumerator after its last value *)
Theorem C98_exhausted_refuted : exists o f, kd o = FiberObj f /\ state f = Dead /\ leads_to_freed o.
Proof.
  do 2 eexists. split; [|split; [|apply (freed (FiberObj (mkfiber Dead [] (Enum (Some c1) (mkargs [] None None)))))]];
    [reflexivity|reflexivity|eapply T_exhausted; reflexivity|intros x []|vm_compute; reflexivity].
Qed.
Print Assumptions C98_exhausted_refuted.
(** The class of packed values, once its constant has another value. *)
Theorem C98_builtin_class_refuted : exists S g x, In (Some x) (g_builtins g) /\ loses S g x.
Proof.
  exists (three Plain), (mkglobals [] (Some c2) [] [] [] None [Some c1]), c1. split; [left; reflexivity|].
  apply (lost_object Plain); [intros x []|vm_compute; reflexivity].
Qed.
Print Assumptions C98_builtin_class_refuted.
(** The receiver of a binding, the receiver of the block of a fiber that has not
    started, and the block that a proc yields to (see also C97). *)
Theorem C98_receiver_refuted : exists o1 o2 o3 e f s e', kd o1 = Binding e /\ kd o2 = FiberObj f /\ state f = Created /\ kd o3 = Proc s e' /\
  leads_to_freed o1 /\ leads_to_freed o2 /\ leads_to_freed o3.
Proof.
  pose (e1 := mkenv (Some c1) None [[]]). pose (e2 := mkenv None (Some c1) [[]]).
  exists (mkrobj (Some c0) None (Binding e1)), (mkrobj (Some c0) None (FiberObj (mkfiber Created [] (Fiber e1)))), (mkrobj (Some c0) None (Proc None e2)).
  do 4 eexists. split; [reflexivity|]. split; [reflexivity|]. split; [reflexivity|]. split; [reflexivity|]. split; [|split].
  - apply freed; [eapply T_binding_self; reflexivity|intros x []|vm_compute; reflexivity].
  - apply freed; [eapply T_fiber_self; try reflexivity; discriminate|intros x []|vm_compute; reflexivity].
  - apply freed; [eapply T_block; reflexivity|intros x []|vm_compute; reflexivity].
Qed.
Print Assumptions C98_receiver_refuted.
