(** Properties of singleton methods (C83). *)
From Coq Require Import ZArith List Bool Lia.
From Verif Require Import Base ModelObject SpecObject ProofsObject ProofsObject2.
Import ListNotations.
Open Scope Z_scope.

(** ** C83: singleton methods *)

(** a heap with an object (6) of class Object *)
Definition one : heap := snd (alloc boot (mkcell 1 [] KOrd)).
Ltac cells1 H := match type of H with context [?x =? ?y] => destruct (Z.eqb_spec x y); [injection H as <-|cells1 H] | _ => discriminate H end.
Ltac cells H := cbn in H; unfold upd in H; cells1 H.
Lemma one_sound : sound_heap one.
Proof.
  split.
  - intros a A. cbn in *. unfold upd. repeat match goal with |- context [?x =? ?y] => destruct (Z.eqb_spec x y); [lia|] end. reflexivity.
  - intros b d H. cells H; cbn; lia.
  - intros b d di u H K U. cells H; cbn in K; try discriminate K; injection K as <-; cbn in U; try discriminate U; injection U as <-; cbn; lia.
  - intros b d di H K. cells H; cbn in K; try discriminate K; injection K as <-; cbn; lia.
  - intros v. cbn. lia.
  - cbn. lia.
Qed.
Lemma one_lone : lone one 6.
Proof. exists 1, 1, false. split; [|discriminate]. do 3 eexists. split; [reflexivity|]. split; [discriminate|]. repeat split. Qed.
Lemma one_nowhere f : nowhere one f.
Proof. intros e m. cbn. discriminate. Qed.
Lemma away_at h a c e : h_cells h a = Some c -> ~ uses a (o_class c) e -> away h a e.
Proof. intros C U s x (c' & k & ci & C' & _ & E & _). rewrite C in C'. injection C' as <-. now subst s. Qed.

(** A method that is only defined on one object, with [def o.m], is found
    through that object only, whatever else the program does: other objects,
    classes, copies of other objects, modules, variables.  While the object has
    a singleton class the program does not copy the object and does not
    instantiate, inherit from, copy or include that class *)
Theorem C83_only_there_partial : forall fuel a f h0 l h v m,
  sound_heap h0 -> lone h0 a -> nowhere h0 f ->
  runs_away fuel a h0 l h -> Forall (only_on a f) l -> v <> Rf a ->
  lookup fuel h v m <> Ok (Some (MFn f)).
Proof.
  intros fuel a f h0 l h v m SH LO NW R F V. apply lookup_hidden with (a := a); [|auto].
  eapply Inv_runs; [|exact R|exact F]. apply lone_Inv; auto. now intros k [= <-].
Qed.
Print Assumptions C83_only_there_partial.
(** [def o.m] on object 6, another object (8), a subclass of Object (9), its
    singleton method, a copy of 8 *)
Example C83_only_there_case : let m := [109] in exists l h,
  runs_away 9 6 one l h /\ Forall (only_on 6 2) l /\ length l = 5%nat /\
  lookup 9 h (Rf 6) m = Ok (Some (MFn 2)) /\ lookup 9 h (Rf 8) m = Ok None /\ lookup 9 h (Rf 9) m = Ok (Some (MFn 3)).
Proof.
  intros m.
  assert (S : forall l h e o h', runs_away 9 6 one l h -> (exists c, h_cells h 6 = Some c /\ ~ uses 6 (o_class c) e) ->
    step 9 e h = Ok (o, h') -> runs_away 9 6 one ((e, Some o) :: l) h').
  { intros l h e o h' R (c & C & U) E. eapply AOk; eauto. eapply away_at; eauto. }
  do 2 eexists. split; [|split; [|split; [|split; [|split]]]].
  - eapply (S _ _ (ADup (Rf 8))); [eapply (S _ _ (ADefS (Rf 9) m 3)); [eapply (S _ _ (AClass 1)); [eapply (S _ _ (AAlloc 1)); [eapply (S _ _ (ADefS (Rf 6) m 2)); [apply ANil
      |eexists; split; [vm_compute; reflexivity|cbn; lia]|vm_compute; reflexivity]
      |eexists; split; [vm_compute; reflexivity|cbn; lia]|vm_compute; reflexivity]
      |eexists; split; [vm_compute; reflexivity|cbn; lia]|vm_compute; reflexivity]
      |eexists; split; [vm_compute; reflexivity|cbn; lia]|vm_compute; reflexivity]
      |eexists; split; [vm_compute; reflexivity|cbn; lia]|vm_compute; reflexivity].
  - repeat constructor; cbn; try reflexivity; discriminate.
  - reflexivity.
  - vm_compute. reflexivity.
  - vm_compute. reflexivity.
  - vm_compute. reflexivity.
Qed.


(** Defining one: the object finds it; other objects find what they found
    before; the object finds the other methods it had *)
Theorem C83_define : forall fuel a m f h o h',
  sound_heap h -> lone h a -> (0 < fuel)%nat -> step fuel (ADefS (Rf a) m f) h = Ok (o, h') ->
  lookup fuel h' (Rf a) m = Ok (Some (MFn f)) /\
  (forall v m' r, v <> Rf a -> lookup fuel h v m' = Ok r -> lookup fuel h' v m' = Ok r) /\
  (forall m' q, m' <> m -> lookup fuel h (Rf a) m' = Ok (Some q) -> lookup (S fuel) h' (Rf a) m' = Ok (Some q)) /\
  sound_heap h' /\ lone h' a.
Proof.
  intros fuel a m f h o h' SH LO FU H.
  assert (I : Inv a None h) by (apply lone_Inv; auto; discriminate).
  assert (I' : Inv a None h').
  { cbn [step] in H. apply bind_ok in H as (h1 & G & H). injection H as <- <-. unfold define_singleton_method in G. cbn [get_singleton_class] in G.
    apply bind_ok in G as ([r h2] & G1 & G2). cbn [fst snd] in G2.
    destruct (own_singleton _ _ _ _ _ _ I G1) as (e & C' & I' & _). exists r, e, true.
    assert (GG : good a r e true None h2 h1). { eapply good_add_method; [exact I'|exact G2|discriminate|]. intros ci CI _. eapply classed_ext; eauto. }
    split; [eapply classed_good; eauto|apply GG]. }
  assert (FIN := Inv_lone _ _ _ I'). clear I'.
  cbn [step] in H. apply bind_ok in H as (h1 & G & H). injection H as <- <-. unfold define_singleton_method in G. cbn [get_singleton_class] in G.
  apply bind_ok in G as ([r h2] & G1 & G2). cbn [fst snd] in G2.
  destruct (add_method_eq _ _ _ _ _ G2) as (ci & CI & HC & HP & XO & XM & XS).
  destruct I as (s & e & b & C & I). pose proof C as (c & k & si & Ca & N & EC & K & KK & EX & ES).
  destruct b.
  - destruct (same_singleton _ _ _ _ _ _ _ C G1) as (-> & ->).
    assert (CX : ci_ext ci = e) by (eapply classed_ext; eauto). rewrite CX in *.
    destruct (i_on _ _ _ _ _ _ I eq_refl) as (LS & LE & P).
    assert (SAME : forall b, h_cells h1 b = h_cells h b) by (intros; now rewrite HC).
    assert (AS : forall b, as_class h1 b = as_class h b) by (intros; unfold as_class, get_cell; now rewrite HC).
    split; [|split; [|split; [|exact FIN]]].
    + apply (lookup_own fuel h1 a c m (MFn f) ci); [now rewrite HC|rewrite AS, EC; exact CI| |auto].
      rewrite EC. rewrite <- (table_ext h1 s ci); [|now rewrite AS]. now rewrite CX, XM, tget_tset, name_eqb_refl.
    + intros v m' r V L. unfold lookup in *. apply bind_ok in L as (cl & CL & L).
      assert (CL' : class_for_method h1 v = Ok cl) by (unfold class_for_method, get_cell in *; rewrite HC, HP; exact CL).
      rewrite CL'. cbn [rbind]. apply (search_same fuel (fun b => b <> s) m' h h1 cl r); [| |exact L].
      * intros b kb bi NB Cb Kb. assert (NA : b <> a) by (eapply notme_mod; [exact I|apply as_class_ok; eauto]).
        split; [rewrite AS; apply as_class_ok; eauto|]. split; [now rewrite XO by (exact (ap_ext _ _ _ _ P _ _ _ Cb Kb NB))|].
        split; [apply XS|]. split; [intros u U ->; exact (ap_up _ _ _ _ P _ _ _ Cb Kb U)|].
        exists kb. split; [now rewrite HC|]. split; [reflexivity|]. exact (ap_class _ _ _ _ P _ _ Cb NA).
      * unfold class_for_method in CL. destruct v as [w|n|x]; try (injection CL as <-; apply P).
        apply bind_ok in CL as (kx & Kx & CL). injection CL as <-. apply get_cell_ok in Kx. apply (ap_class _ _ _ _ P _ _ Kx). congruence.
    + intros m' q NM L. unfold lookup, class_for_method, get_cell in *. rewrite HC. rewrite Ca in *. cbn [rbind] in *. apply search_fuel.
      apply (search_same fuel (fun b => True) m' h h1 (o_class c) (Some q)); [|auto|exact L].
      intros b kb bi _ Cb Kb. split; [rewrite AS; apply as_class_ok; eauto|]. split.
      { destruct (Z.eq_dec (ci_ext bi) e) as [->|D]; [|now rewrite XO]. now rewrite XM, tget_tset, name_eqb_neq. }
      split; [apply XS|]. split; [auto|]. exists kb. rewrite HC. auto.
  - destruct (fresh_singleton _ _ _ _ _ _ _ _ C I G1) as (ER & C2 & I2 & CO & EO & AC & EN & PK).
    rewrite AC in CI. injection CI as <-. cbn [ci_ext] in *.
    assert (CA2 : exists c2, h_cells h1 a = Some c2 /\ o_class c2 = r).
    { destruct C2 as (c2 & k2 & i2 & A2 & _ & O2 & _). exists c2. rewrite HC. auto. }
    destruct CA2 as (c2 & Ca2 & O2).
    assert (AC1 : as_class h1 r = Ok (mkci (Some s) false false (h_nexte h))) by (unfold as_class, get_cell in *; rewrite HC; exact AC).
    assert (OLD : forall b kb bi, h_cells h b = Some kb -> o_kind kb = KMod bi -> h_cells h1 b = Some kb /\ h_exts h1 (ci_ext bi) = h_exts h (ci_ext bi)).
    { intros b kb bi Cb Kb. pose proof (below _ _ _ SH Cb). assert (NA : b <> a) by (eapply notme_mod; [exact I|apply as_class_ok; eauto]).
      split; [rewrite HC, CO; auto; lia|]. pose proof (sh_ext _ SH _ _ _ Cb Kb). rewrite XO, EO; auto; lia. }
    split; [|split; [|split; [|exact FIN]]].
    + eapply (lookup_own fuel h1 a c2 m (MFn f)); [exact Ca2|rewrite O2; exact AC1| |auto].
      rewrite O2. rewrite <- (table_ext h1 r _ AC1). cbn [ci_ext]. now rewrite XM, tget_tset, name_eqb_refl.
    + intros v m' q V L. unfold lookup in *. apply bind_ok in L as (cl & CL & L).
      assert (CL' : class_for_method h1 v = Ok cl).
      { unfold class_for_method, get_cell in *. rewrite HP, PK. destruct v as [w|n|x]; try exact CL.
        destruct (h_cells h x) as [kx|] eqn:Cx; [|discriminate]. rewrite HC, CO, Cx; [exact CL|congruence|]. apply below in Cx; [lia|auto]. }
      rewrite CL'. cbn [rbind]. apply (search_same fuel (fun b => True) m' h h1 cl q); [|auto|exact L].
      intros b kb bi _ Cb Kb. destruct (OLD _ _ _ Cb Kb) as (C1 & X1). rewrite X1. split; [apply as_class_ok; eauto|].
      repeat split; auto. exists kb. auto.
    + intros m' q NM L. unfold lookup, class_for_method, get_cell in L. rewrite Ca in L. cbn [rbind] in L. rewrite EC in L.
      unfold search_method, is_singleton in L. assert (AS : as_class h s = Ok si) by (apply as_class_ok; eauto). rewrite AS in L. cbn [rbind] in L.
      rewrite EX, ES in L. apply bind_ok in L as (w & SC & L). destruct w as [w|]; [|discriminate]. injection L as ->.
      assert (SC' : search_chain fuel h1 s m' = Ok (Some q)).
      { apply (chain_same fuel (fun b => True) m' h h1 s (Some q)); [|auto|exact SC].
        intros b kb bi _ Cb Kb. destruct (OLD _ _ _ Cb Kb) as (C1 & X1). rewrite X1. split; [apply as_class_ok; eauto|]. auto. }
      unfold lookup, class_for_method, get_cell. rewrite Ca2. cbn [rbind]. rewrite O2. unfold search_method, is_singleton. rewrite AC1. cbn [rbind ci_ext].
      cbn [search_chain]. rewrite AC1. cbn [rbind ci_ext ci_up]. rewrite XM, EN. cbn [x_meth tset tget].
      rewrite name_eqb_neq by auto. rewrite SC'. reflexivity.
Qed.
Print Assumptions C83_define.
(** [def o.m] on object 6, which has [n] from Object, twice *)
Example C83_define_case : let m := [109] in let n := [110] in exists h h1 h2 o1 o2,
  add_method one 1 n (MFn 1) = Ok h /\ sound_heap h /\ lone h 6 /\
  step 9 (ADefS (Rf 6) m 2) h = Ok (o1, h1) /\ step 9 (ADefS (Rf 6) n 3) h1 = Ok (o2, h2) /\
  lookup 9 h2 (Rf 6) m = Ok (Some (MFn 2)) /\ lookup 9 h2 (Rf 6) n = Ok (Some (MFn 3)) /\ lookup 9 h2 (Rf 5) n = Ok (Some (MFn 1)).
Proof.
  intros m n. do 5 eexists. split; [reflexivity|].
  split; [destruct one_sound; split; auto|].
  split; [exists 1, 1, false; split; [|discriminate]; do 3 eexists; split; [reflexivity|]; split; [discriminate|]; repeat split|].
  split; [vm_compute; reflexivity|]. split; [vm_compute; reflexivity|]. split; [vm_compute; reflexivity|]. split; vm_compute; reflexivity.
Qed.

(** Without the restriction on copies the method is found through another
    object: a copy has the singleton class of its original, and so have the
    objects of a class that was made from it *)
Theorem C83_copy_refuted : exists l h v m f,
  sound_heap one /\ lone one 6 /\ nowhere one f /\ runs 9 one l h /\ Forall (only_on 6 f) l /\ v <> Rf 6 /\
  lookup 9 h v m = Ok (Some (MFn f)).
Proof.
  do 2 eexists. exists (Rf 8), [109], 2. split; [exact one_sound|]. split; [exact one_lone|]. split; [apply one_nowhere|].
  split; [|split; [|split]].
  - eapply (ROk _ _ _ _ (ADefS (Rf 6) [109] 2)); [eapply (ROk _ _ _ _ (ADup (Rf 6))); [eapply (ROk _ _ _ _ (ASing (Rf 6))); [apply RNil|vm_compute; reflexivity]|vm_compute; reflexivity]|vm_compute; reflexivity].
  - repeat constructor; cbn; reflexivity.
  - discriminate.
  - vm_compute. reflexivity.
Qed.
Print Assumptions C83_copy_refuted.
