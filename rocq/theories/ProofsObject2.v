(** Lemmas about singleton classes. *)
From Coq Require Import ZArith List Bool Lia.
From Verif Require Import Base ModelObject SpecObject ProofsObject.
Import ListNotations.
Open Scope Z_scope.

Definition noclass (c : cell) : Prop := forall ci, o_kind c <> KMod ci.
Lemma below h b d : sound_heap h -> h_cells h b = Some d -> b < h_next h.
Proof. intros S H. destruct (Z.lt_ge_cases b (h_next h)); auto. rewrite (sh_tidy _ S) in H by lia. discriminate. Qed.
Definition kind_up (k k' : kind) : Prop :=
  match k, k' with
  | KMod c, KMod c' => ci_mod c = ci_mod c' /\ ci_inc c = ci_inc c' /\ ci_ext c = ci_ext c'
  | KMod _, _ | _, KMod _ => False
  | _, _ => True
  end.
Lemma kind_up_refl k : kind_up k k. Proof. destruct k; cbn; auto. Qed.

(** The object at [a]; when [on], [s] is its singleton class with table [e], and
    method [f] is in no other table *)
Section Ops.
Variables (a s e : Z) (on : bool) (f : option Z).

Definition g (r : Z) : Prop := on = true -> r <> s.
(** no table but that of [s] has [f] *)
Definition hidden (h : heap) : Prop :=
  forall x m k, tget (x_meth (h_exts h x)) m = Some (MFn k) -> f = Some k -> on = true /\ x = e.
Record inv (h : heap) : Prop := mkinv {
  i_sound : sound_heap h;
  i_obj : exists d, h_cells h a = Some d /\ noclass d;
  i_on : on = true -> s < h_next h /\ e < h_nexte h /\ apart h a s e;
  i_hid : hidden h }.

(** How the heap goes on when nothing is done to [a] *)
Record ev (h h' : heap) : Prop := mkev {
  ev_next : h_next h <= h_next h' /\ h_nexte h <= h_nexte h';
  ev_const : h_pk h' = h_pk h /\ h_class h' = h_class h /\ h_module h' = h_module h;
  ev_mod : forall b d di, h_cells h b = Some d -> o_kind d = KMod di ->
    exists d' di', h_cells h' b = Some d' /\ o_kind d' = KMod di' /\ ci_ext di' = ci_ext di /\ ci_mod di' = ci_mod di;
  ev_single : forall e, e < h_nexte h -> x_single (h_exts h' e) = x_single (h_exts h e);
  ev_obj : forall c, h_cells h a = Some c -> noclass c -> exists c', h_cells h' a = Some c' /\ noclass c' /\ o_class c' = o_class c }.
Definition good (h h' : heap) : Prop := inv h' /\ ev h h'.

Lemma ev_refl h : ev h h.
Proof. split; auto; [lia|eauto 8|eauto]. Qed.
Lemma ev_trans h1 h2 h3 : ev h1 h2 -> ev h2 h3 -> ev h1 h3.
Proof.
  intros A B. split.
  - destruct (ev_next _ _ A), (ev_next _ _ B). lia.
  - destruct (ev_const _ _ A) as (? & ? & ?), (ev_const _ _ B) as (? & ? & ?). repeat split; congruence.
  - intros b d di H K. destruct (ev_mod _ _ A _ _ _ H K) as (d1 & i1 & H1 & K1 & E1 & M1).
    destruct (ev_mod _ _ B _ _ _ H1 K1) as (d2 & i2 & H2 & K2 & E2 & M2). exists d2, i2. repeat split; congruence.
  - intros x X. rewrite (ev_single _ _ B), (ev_single _ _ A); auto. destruct (ev_next _ _ A). lia.
  - intros c H N. destruct (ev_obj _ _ A _ H N) as (c1 & H1 & N1 & E1).
    destruct (ev_obj _ _ B _ H1 N1) as (c2 & H2 & N2 & E2). exists c2. repeat split; congruence.
Qed.
Lemma good_refl h : inv h -> good h h.
Proof. intros I. split; [auto|apply ev_refl]. Qed.
Lemma good_trans h1 h2 h3 : good h1 h2 -> good h2 h3 -> good h1 h3.
Proof. intros [A B] [C D]. split; [auto|eauto using ev_trans]. Qed.

(** *** Primitive changes *)
Lemma good_set_ext h x y : inv h -> x_single y = x_single (h_exts h x) ->
  (forall m k, tget (x_meth y) m = Some (MFn k) -> f = Some k -> on = true /\ x = e) -> good h (set_ext h x y).
Proof.
  intros [[A B C D E F] O P H] X HY. split; [split; cbn; auto|split; cbn; auto; [lia|eauto 8| |eauto]].
  - split; auto.
  - intros ON. destruct (P ON) as (? & ? & [P1 P2 P3 P4 P5]). split; [auto|]. split; [auto|]. split; auto.
  - intros x' m k. cbn. unfold upd. destruct (Z.eqb_spec x' x) as [->|]; [exact (HY m k)|apply H].
  - intros x' _. unfold upd. destruct (Z.eqb_spec x' x); subst; auto.
Qed.
Lemma good_alloc_ext h y : inv h -> x_meth y = [] -> good h (snd (alloc_ext h y)).
Proof.
  intros [[A B C D E F] O P H] Y. split; [split; cbn; auto|split; cbn; auto; [lia|eauto 8| |eauto]].
  - split; auto. cbn. intros b d di K1 K2. specialize (D b d di K1 K2). lia.
  - intros ON. destruct (P ON) as (? & ? & [P1 P2 P3 P4 P5]). split; [auto|]. split; [lia|]. split; auto.
  - intros x' m k. cbn. unfold upd. destruct (Z.eqb_spec x' (h_nexte h)); [rewrite Y; discriminate|apply H].
  - intros e' L. rewrite upd_other by lia. reflexivity.
Qed.
Lemma good_alloc h c : inv h -> o_class c < h_next h -> g (o_class c) ->
  (forall ci, o_kind c = KMod ci -> ci_ext ci < h_nexte h /\ (on = true -> ci_ext ci <> e) /\
     forall u, ci_up ci = Some u -> u < h_next h /\ g u) ->
  good h (snd (alloc h c)).
Proof.
  intros I CL GC KM. pose proof I as [SH (d0 & O & NO) P HI].
  assert (NX : forall b d, h_cells h b = Some d -> b <> h_next h) by (intros b d H ->; now apply below in H; [lia|]).
  split.
  - split.
    + pose proof SH as [A B C D E F]. split; cbn; auto.
      * now apply (tidy_alloc h c).
      * intros b d. unfold upd. destruct (Z.eqb_spec b (h_next h)); [intros [= <-]; lia|]. intros H. specialize (B _ _ H). lia.
      * intros b d di u. unfold upd. destruct (Z.eqb_spec b (h_next h)).
        { intros [= <-] K U. destruct (KM _ K) as (_ & _ & KU). destruct (KU _ U). lia. }
        { intros H K U. specialize (C _ _ _ _ H K U). lia. }
      * intros b d di. unfold upd. destruct (Z.eqb_spec b (h_next h)).
        { intros [= <-] K. now apply KM. }
        { eauto. }
      * intros v. specialize (E v). lia.
      * lia.
    + exists d0. cbn. rewrite upd_other by eauto. auto.
    + intros ON. destruct (P ON) as (? & ? & [P1 P2 P3 P4 P5]). cbn. split; [lia|]. split; [auto|]. split; auto; cbn.
      * intros b k. unfold upd. destruct (Z.eqb_spec b (h_next h)); [intros [= <-]; auto|eauto].
      * intros b k ki. unfold upd. destruct (Z.eqb_spec b (h_next h)); [|eauto]. intros [= <-] K U. destruct (KM _ K) as (_ & _ & KU).
        destruct (KU _ U) as (_ & GU). exact (GU ON eq_refl).
      * intros b k ki. unfold upd. destruct (Z.eqb_spec b (h_next h)); [intros [= <-] K _; now apply KM|eauto].
    + exact HI.
  - split; cbn; auto; [lia| |].
    + intros b d di H K. exists d, di. rewrite upd_other by eauto. auto.
    + intros d H N. exists d. rewrite upd_other by eauto. auto.
Qed.
Lemma good_set_cell h b c c' : inv h -> h_cells h b = Some c -> kind_up (o_kind c) (o_kind c') ->
  o_class c' < h_next h -> (b = a -> o_class c' = o_class c) -> (b <> a -> g (o_class c')) ->
  (forall ci u, o_kind c' = KMod ci -> ci_up ci = Some u -> u < h_next h /\ g u) ->
  good h (set_cell h b c').
Proof.
  intros I H KU CL CA GC KM. pose proof I as [SH (d0 & O & NO) P HI].
  assert (KE : forall ci', o_kind c' = KMod ci' -> exists ci, o_kind c = KMod ci /\ ci_ext ci' = ci_ext ci).
  { intros ci' K. rewrite K in KU. destruct (o_kind c); cbn in KU; try contradiction. eexists. split; [reflexivity|]. symmetry. apply KU. }
  assert (OB : forall d, h_cells h a = Some d -> noclass d -> exists c'', h_cells (set_cell h b c') a = Some c'' /\ noclass c'' /\ o_class c'' = o_class d).
  { intros d Hd N. cbn. unfold upd. destruct (Z.eqb_spec a b); [subst|eauto].
    rewrite H in Hd. injection Hd as <-. exists c'. split; auto. split; [|auto].
    intros ci K. destruct (KE _ K) as (ci2 & KC & _). exact (N _ KC). }
  split.
  - split.
    + pose proof SH as [A B C D E F]. split; cbn; auto.
      * intros b' L. cbn in *. unfold upd. destruct (Z.eqb_spec b' b); [subst; apply below in H; [lia|auto]|auto].
      * intros b' d. unfold upd. destruct (Z.eqb_spec b' b); [intros [= <-]; auto|eauto].
      * intros b' d di u. unfold upd. destruct (Z.eqb_spec b' b); [intros [= <-] K U; now apply (KM di u)|eauto].
      * intros b' d di. unfold upd. destruct (Z.eqb_spec b' b); [|eauto]. intros [= <-] K.
        destruct (KE _ K) as (ci & KC & ->). eauto.
    + destruct (OB _ O NO) as (c2 & ? & ? & _). eauto.
    + intros ON. destruct (P ON) as (? & ? & [P1 P2 P3 P4 P5]). cbn. split; [auto|]. split; [auto|]. split; auto; cbn.
      * intros b' k. unfold upd. destruct (Z.eqb_spec b' b); [intros [= <-] NB; subst; now apply GC|eauto].
      * intros b' k ki. unfold upd. destruct (Z.eqb_spec b' b); [|eauto]. intros [= <-] K U. destruct (KM _ _ K U) as (_ & GU). exact (GU ON eq_refl).
      * intros b' k ki. unfold upd. destruct (Z.eqb_spec b' b); [|eauto]. intros [= <-] K NS. subst b'.
        destruct (KE _ K) as (ci & KC & ->). eauto.
    + exact HI.
  - split; cbn; auto; [lia|].
    intros b' d di Hd K. unfold upd. destruct (Z.eqb_spec b' b); [subst|eauto 8].
    rewrite H in Hd. injection Hd as <-. rewrite K in KU. destruct (o_kind c') eqn:K'; cbn in KU; try contradiction.
    exists c', c0. intuition congruence.
Qed.

(** *** Operations *)
Lemma notme_mod h b ci : inv h -> as_class h b = Ok ci -> b <> a.
Proof.
  intros I H ->. destruct (i_obj _ I) as (d & D & N). apply as_class_ok in H as (c' & C' & K).
  rewrite D in C'. injection C' as <-. exact (N _ K).
Qed.
Lemma up_g h b c ci u : inv h -> h_cells h b = Some c -> o_kind c = KMod ci -> ci_up ci = Some u -> u < h_next h /\ g u.
Proof.
  intros I C K U. split; [exact (sh_up _ (i_sound _ I) _ _ _ _ C K U)|].
  intros ON ->. destruct (i_on _ I ON) as (_ & _ & P). exact (ap_up _ _ _ _ P _ _ _ C K U).
Qed.
Lemma upper_g h b u : inv h -> upper h b = Ok (Some u) -> u < h_next h /\ g u.
Proof.
  unfold upper. intros I H. apply bind_ok in H as (ci & CI & H). injection H as H.
  apply as_class_ok in CI as (c & C & K). eapply up_g; eauto.
Qed.
Lemma skip_ok fuel : forall h b u, inv h -> g b -> skip_included fuel h b = Ok (Some u) -> g u /\ exists ci, as_class h u = Ok ci.
Proof.
  induction fuel as [|n IH]; intros h b u I G H; [discriminate|]. cbn [skip_included] in H.
  apply bind_ok in H as (ci & CI & H). destruct (ci_inc ci).
  - destruct (ci_up ci) as [b'|] eqn:U; [|discriminate]. eapply IH; [exact I| |exact H].
    apply as_class_ok in CI as (c & C & K). eapply up_g; eauto.
  - injection H as <-. eauto.
Qed.
Lemma superclass_ok fuel h b u : inv h -> superclass fuel h b = Ok (Some u) -> g u /\ exists ci, as_class h u = Ok ci.
Proof.
  unfold superclass. intros I H. apply bind_ok in H as (v & U & H). destruct v as [v|]; [|discriminate].
  eapply skip_ok; [exact I| |exact H]. eapply upper_g; eauto.
Qed.
Lemma class_g h b c : inv h -> b <> a -> h_cells h b = Some c -> o_class c < h_next h /\ g (o_class c).
Proof.
  intros I B C. split; [exact (sh_class _ (i_sound _ I) _ _ C)|]. intros ON. destruct (i_on _ I ON) as (_ & _ & P).
  exact (ap_class _ _ _ _ P _ _ C B).
Qed.
Lemma good_set_class h b r h' : inv h -> b <> a -> r < h_next h -> g r -> set_class h b r = Ok h' -> good h h'.
Proof.
  unfold set_class. intros I NM L G H. apply bind_ok in H as (c & C & H). injection H as <-. apply get_cell_ok in C.
  apply good_set_cell with (c := c); cbn; auto using kind_up_refl; [contradiction|].
  intros ci u K U. eapply up_g; eauto.
Qed.
Lemma fresh_g h : inv h -> g (h_next h).
Proof. intros I ON E. destruct (i_on _ I ON) as (L & _). lia. Qed.
Lemma builtin_g h : inv h -> (h_class h < h_next h /\ g (h_class h)) /\ (h_module h < h_next h /\ g (h_module h)).
Proof.
  intros I. destruct (sh_builtin _ (i_sound _ I)). unfold g. repeat split; auto; intros ON; destruct (i_on _ I ON) as (_ & _ & P); apply P.
Qed.
(** a new class or module *)
Lemma good_new_mod h cl y sup md h' r : inv h -> x_meth y = [] -> cl < h_next h -> g cl -> (forall u, sup = Some u -> u < h_next h /\ g u) ->
  (let (x, h1) := alloc_ext h y in alloc h1 (mkcell cl [] (KMod (mkci sup md false x)))) = (r, h') ->
  good h h' /\ r = h_next h /\ r < h_next h'.
Proof.
  intros I Y CL GC SU H. pose proof (good_alloc_ext h y I Y) as G1. cbn [alloc_ext] in H.
  set (h1 := snd (alloc_ext h y)) in *.
  assert (H1 : (h_next h1, snd (alloc h1 (mkcell cl [] (KMod (mkci sup md false (h_nexte h)))))) = (r, h')) by exact H. clear H.
  apply pair_equal_spec in H1 as (<- & <-). split; [|split; [reflexivity|cbn; lia]].
  eapply good_trans; [exact G1|]. apply good_alloc; [apply G1|exact CL|exact GC|].
  cbn [o_kind]. intros ci [= <-]. cbn. split; [lia|]. split; [|auto]. intros ON E. destruct (i_on _ I ON) as (_ & L & _). lia.
Qed.
Lemma good_singleton_from h sup r h' : inv h -> (forall u, sup = Some u -> u < h_next h /\ g u) ->
  singleton_from h sup = (r, h') -> good h h' /\ r = h_next h /\ r < h_next h'.
Proof.
  intros I SU H. destruct (builtin_g h I) as ((? & ?) & _).
  exact (good_new_mod h (h_class h) (mkxt [] true None) sup false h' r I eq_refl H0 H1 SU H).
Qed.
Lemma good_singleton fuel : forall h b r h', inv h -> b <> a -> singleton_class fuel h b = Ok (r, h') ->
  good h h' /\ r < h_next h' /\ g r.
Proof.
  induction fuel as [|n IH]; intros h b r h' I NB H; [discriminate|]. cbn [singleton_class] in H.
  apply bind_ok in H as (c & C & H). apply bind_ok in H as (sg & B & H). apply get_cell_ok in C.
  destruct (class_g h b c I NB C) as (CL & CG).
  destruct sg; [injection H as <- <-; auto using good_refl|].
  apply bind_ok in H as ([sup h1] & P & H).
  assert (G1 : good h h1 /\ forall u, sup = Some u -> u < h_next h1 /\ g u).
  { assert (TR : forall u, Some (o_class c) = Some u -> u < h_next h /\ g u) by (intros u [= <-]; auto).
    destruct (o_kind c) as [|ci| | |]; try (injection P as <- <-; auto using good_refl).
    destruct (ci_mod ci); [injection P as <- <-; auto using good_refl|].
    apply bind_ok in P as (u & U & P). destruct u as [u|]; [|injection P as <- <-; split; [now apply good_refl|discriminate]].
    apply bind_ok in P as ([s2 h2] & S2 & P). injection P as <- <-. cbn [fst].
    destruct (superclass_ok _ _ _ _ I U) as (GU & cu & CU).
    destruct (IH _ _ _ _ I (notme_mod _ _ _ I CU) S2) as (G2 & L2 & R2).
    split; [auto|]. intros v [= <-]. auto. }
  destruct G1 as (G1 & SU). destruct (singleton_from h1 sup) as [s3 h3] eqn:S3.
  destruct (good_singleton_from _ _ _ _ (proj1 G1) SU S3) as (G3 & E3 & L3).
  apply bind_ok in H as (h4 & S4 & H). injection H as <- <-.
  assert (GS : g s3) by (subst s3; apply fresh_g, G1).
  assert (G4 := good_set_class _ _ _ _ (proj1 G3) NB L3 GS S4).
  split; [eauto using good_trans|]. split; [|auto]. destruct (ev_next _ _ (proj2 G4)). lia.
Qed.
Lemma good_class_under fuel h sup r h' : inv h -> sup < h_next h -> g sup -> class_under fuel h sup = Ok (r, h') -> good h h'.
Proof.
  intros I L G H. unfold class_under in H. destruct (builtin_g h I) as ((BL & BG) & _).
  destruct (alloc_ext h (mkxt [] false None)) as [x h1] eqn:A1.
  destruct (alloc h1 _) as [b h2] eqn:A2 in H.
  assert (A : (let (x, h1) := alloc_ext h (mkxt [] false None) in alloc h1 (mkcell (h_class h) [] (KMod (mkci (Some sup) false false x)))) = (b, h2)).
  { rewrite A1. injection A1 as <- <-. exact A2. }
  destruct (good_new_mod h (h_class h) (mkxt [] false None) (Some sup) false h2 b I eq_refl BL BG) as (G2 & EB & LB); [intros u [= <-]; auto|exact A|].
  apply bind_ok in H as ([r2 h3] & S3 & H). injection H as <- <-. cbn [snd].
  assert (NB : b <> a). { destruct (i_obj _ I) as (d & D & _). apply below in D; [lia|apply I]. }
  destruct (good_singleton _ _ _ _ _ (proj1 G2) NB S3) as (G3 & _). eauto using good_trans.
Qed.
Lemma good_module h r h' : inv h -> module_new h = (r, h') -> good h h'.
Proof.
  intros I H. destruct (builtin_g h I) as (_ & (BL & BG)).
  destruct (good_new_mod h (h_module h) (mkxt [] false None) None true h' r I eq_refl BL BG) as (G2 & _); [discriminate|exact H|auto].
Qed.
Lemma good_add_method h c m q h' : inv h -> add_method h c m q = Ok h' -> (forall k, q = MFn k -> f = Some k -> on = true /\ c = s) ->
  (forall ci, as_class h s = Ok ci -> on = true -> ci_ext ci = e) -> good h h'.
Proof.
  unfold add_method. intros I H Q SE. apply bind_ok in H as (ci & CI & H). injection H as <-.
  apply good_set_ext; [auto|reflexivity|]. cbn. intros m' k. rewrite tget_tset. destruct (name_eqb m' m).
  - intros [= E] Fk. destruct (Q k E Fk) as (ON & ->). split; [auto|]. now apply SE.
  - intros E. exact (i_hid _ I _ _ _ E).
Qed.
Lemma good_attr ms : forall h c h', inv h -> attr_accessor h c ms = Ok h' -> (forall h2, good h h2 -> forall ci, as_class h2 s = Ok ci -> on = true -> ci_ext ci = e) -> good h h'.
Proof.
  induction ms as [|m ms IH]; intros h c h' I H SE; cbn in H; [injection H as <-; now apply good_refl|].
  apply bind_ok in H as (h1 & A1 & H). apply bind_ok in H as (h2 & A2 & H).
  assert (G1 : good h h1) by (eapply good_add_method; [exact I|exact A1|discriminate|apply SE, good_refl, I]).
  assert (G2 : good h1 h2) by (eapply good_add_method; [apply G1|exact A2|discriminate|apply SE, G1]).
  assert (G12 := good_trans _ _ _ G1 G2). eapply good_trans; [exact G12|]. eapply IH; [apply G2|exact H|].
  intros h3 G3. apply SE. eauto using good_trans.
Qed.
Lemma good_set_upper h b u h' : inv h -> (forall v, u = Some v -> v < h_next h /\ g v) -> set_upper h b u = Ok h' -> good h h'.
Proof.
  unfold set_upper. intros I U H. apply bind_ok in H as (c & C & H). apply bind_ok in H as (ci & CI & H). injection H as <-.
  apply get_cell_ok in C. pose proof (notme_mod _ _ _ I CI) as NB. apply as_class_ok in CI as (c' & C' & K). rewrite C in C'. injection C' as <-.
  destruct (class_g _ _ _ I NB C) as (CL & CG).
  apply good_set_cell with (c := c); cbn; auto.
  - rewrite K. cbn. auto.
  - intros ci2 v [= <-]. cbn. auto.
Qed.
Lemma good_generate h b r h' : inv h -> g b -> generate_included h b = Ok (r, h') -> good h h' /\ g r /\ r < h_next h'.
Proof.
  unfold generate_included. intros I GB H.
  apply bind_ok in H as (c & C & H). apply bind_ok in H as (ci & CI & H). apply bind_ok in H as (o & O & H). apply ok_inj in H.
  apply get_cell_ok in C. pose proof (notme_mod _ _ _ I CI) as NB. apply as_class_ok in CI as (c' & C' & K). rewrite C in C'. injection C' as <-.
  destruct (class_g _ _ _ I NB C) as (CL & CG).
  set (x := h_exts h (ci_ext ci)) in *.
  assert (G1 : good h (set_ext h (ci_ext ci) (mkxt (x_meth x) (x_single x) (Some o)))).
  { apply good_set_ext; [auto|reflexivity|]. cbn. intros m k E. exact (i_hid _ I _ _ _ E). }
  set (h1 := set_ext h (ci_ext ci) (mkxt (x_meth x) (x_single x) (Some o))) in *.
  assert (H1 : (h_next h1, snd (alloc h1 (mkcell (o_class c) (o_vars c) (KMod (mkci (ci_up ci) (ci_mod ci) true (ci_ext ci)))))) = (r, h')) by exact H.
  apply pair_equal_spec in H1 as (<- & <-). split; [|split; [apply (fresh_g h I)|cbn; lia]].
  eapply good_trans; [exact G1|]. apply good_alloc; [apply G1|exact CL|exact CG|].
  cbn [o_kind]. intros ci2 [= <-]. cbn. split; [exact (sh_ext _ (i_sound _ I) _ _ _ C K)|]. split.
  - intros ON. destruct (i_on _ I ON) as (_ & _ & P). apply (ap_ext _ _ _ _ P _ _ _ C K). now apply GB.
  - intros u U. eapply up_g; eauto.
Qed.
Lemma good_include_loop fuel : forall h m p r h', inv h -> include_loop fuel h m p = Ok (r, h') -> good h h'.
Proof.
  induction fuel as [|n IH]; intros h m p r h' I H; [discriminate|]. cbn [include_loop] in H.
  apply bind_ok in H as (u & U & H). destruct u as [u|]; [|injection H as <- <-; now apply good_refl].
  apply bind_ok in H as ([q h1] & Q & H). apply bind_ok in H as (h2 & S2 & H). cbn [fst snd] in *.
  destruct (upper_g _ _ _ I U) as (_ & GU). destruct (good_generate _ _ _ _ I GU Q) as (G1 & GQ & LQ).
  assert (G2 : good h1 h2). { eapply good_set_upper; [apply G1| |exact S2]. intros v [= <-]. auto. }
  eapply good_trans; [eapply good_trans; [exact G1|exact G2]|]. eapply IH; [apply G2|exact H].
Qed.
Lemma good_include fuel h c m h' : inv h -> (forall b, m = Rf b -> g b) -> include fuel h c m = Ok h' -> good h h'.
Proof.
  unfold include. intros I GM H. apply bind_ok in H as ([b k] & P & H). cbn [fst snd] in H.
  destruct m as [| |b']; try discriminate. cbn in P. apply bind_ok in P as (k' & _ & P). injection P as -> ->.
  destruct (o_kind k) as [|mi| | |]; try discriminate. destruct (ci_mod mi); [|discriminate].
  apply bind_ok in H as (sup & U & H). apply bind_ok in H as ([q h1] & Q & H). apply bind_ok in H as (h2 & S2 & H).
  apply bind_ok in H as ([r h3] & R & H). cbn [fst snd] in *.
  destruct (good_generate _ _ _ _ I (GM _ eq_refl) Q) as (G1 & GQ & LQ).
  assert (G2 : good h1 h2). { eapply good_set_upper; [apply G1| |exact S2]. intros v [= <-]. auto. }
  assert (G3 : good h2 h3) by (eapply good_include_loop; [apply G2|exact R]).
  assert (G13 : good h h3) by eauto using good_trans. eapply good_trans; [exact G13|].
  eapply good_set_upper; [apply G3| |exact H]. intros v ->. destruct (upper_g _ _ _ I U) as (LU & GU). split; [|auto].
  destruct (ev_next _ _ (proj2 G13)). lia.
Qed.
Lemma good_vars h b c t : inv h -> h_cells h b = Some c -> good h (set_cell h b (mkcell (o_class c) t (o_kind c))).
Proof.
  intros I C. apply good_set_cell with (c := c); cbn; auto using kind_up_refl.
  - exact (sh_class _ (i_sound _ I) _ _ C).
  - intros NB. now apply (class_g h b c).
  - intros ci u K U. eapply up_g; eauto.
Qed.
Lemma good_set_cvar fuel : forall h org b x v h', inv h -> set_cvar_from fuel h org b x v = Ok h' -> good h h'.
Proof.
  assert (W : forall h b x v h', inv h -> set_var_at h b x v = Ok h' -> good h h').
  { intros h b x v h' I H. unfold set_var_at in H. apply bind_ok in H as (c & C & H). injection H as <-. apply get_cell_ok in C. now apply good_vars. }
  induction fuel as [|n IH]; intros h org b x v h' I H; [discriminate|]. cbn [set_cvar_from] in H.
  apply bind_ok in H as (c & C & H). destruct (tget (o_vars c) x); [eauto|].
  apply bind_ok in H as (u & U & H). destruct u; eauto.
Qed.

(** *** Acts on other objects *)
Lemma good_step fuel h q o h' : inv h -> (on = true -> ~ uses a s q) ->
  (forall v, (exists m k, q = ADefS v m k) \/ q = ASing v \/ (exists m, q = AExtend v m) -> v <> Rf a) ->
  (forall v m k, q = ADefS v m k -> f <> Some k) -> (forall c m k, q = ADef c m k -> f <> Some k) ->
  (forall h2, good h h2 -> forall ci, as_class h2 s = Ok ci -> on = true -> ci_ext ci = e) ->
  step fuel q h = Ok (o, h') -> good h h'.
Proof.
  intros I US NA D1 D2 SE H.
  assert (CU : forall c ci, as_class h c = Ok ci -> c < h_next h).
  { intros c ci CI. apply as_class_ok in CI as (k & C & _). eapply below; [apply I|eauto]. }
  destruct q; cbn [step] in H.
  - apply bind_ok in H as ([u h1] & A & H). injection H as <- <-. unfold allocate in A. apply bind_ok in A as (ci & CI & A). injection A as <- <-.
    apply (good_alloc h (mkcell c [] KOrd)); [exact I|cbn; eauto|cbn; intros ON E; exact (US ON E)|discriminate].
  - apply bind_ok in H as (ci & CI & H). injection H as <- <-.
    apply (good_alloc h (mkcell c [] (KArr l))); [exact I|cbn; eauto|cbn; intros ON E; exact (US ON E)|discriminate].
  - apply bind_ok in H as ([u h1] & A & H). injection H as <- <-. destruct o0 as [| |b]; cbn in A; try (injection A as <- <-; now apply good_refl).
    apply bind_ok in A as (c & C & A). injection A as <- <-. apply get_cell_ok in C.
    apply (good_alloc h (mkcell (o_class c) (o_vars c) (dup_kind (o_kind c)))); cbn; auto.
    + exact (sh_class _ (i_sound _ I) _ _ C).
    + intros ON. destruct (i_on _ I ON) as (_ & _ & P). apply (ap_class _ _ _ _ P _ _ C). intros ->. apply (US ON). cbn. auto.
    + intros ci K. assert (K' : o_kind c = KMod ci) by (destruct (o_kind c); cbn in K; congruence).
      split; [exact (sh_ext _ (i_sound _ I) _ _ _ C K')|]. split.
      * intros ON. destruct (i_on _ I ON) as (_ & _ & P). apply (ap_ext _ _ _ _ P _ _ _ C K'). intros ->. apply (US ON). cbn. auto.
      * intros u U. eapply up_g; eauto.
  - apply (write_step fuel w o0 x v h o h') in H as (_ & b & c & _ & C & ->). now apply good_vars.
  - assert (h' = h) as -> by (destruct w; apply bind_ok in H as (? & _ & H); congruence). now apply good_refl.
  - bd. subst. now apply good_refl.
  - bd. subst. now apply good_refl.
  - bd. subst. now apply good_refl.
  - apply bind_ok in H as (h1 & RP & H). injection H as <- <-. unfold replace in RP.
    destruct o0 as [| |b]; try discriminate. cbn in RP. apply bind_ok in RP as ([b' d] & P & RP). cbn [fst snd] in RP.
    apply bind_ok in P as (d' & D & P). injection P as -> ->. apply get_cell_ok in D.
    destruct (o_kind d) eqn:K; try discriminate. injection RP as <-.
    apply good_set_cell with (c := d); cbn; auto; [now rewrite K| | |discriminate].
    + exact (sh_class _ (i_sound _ I) _ _ D).
    + intros NB. now apply (class_g h b' d).
  - apply bind_ok in H as ([r h1] & G & H). injection H as <- <-. destruct o0 as [| |b]; try discriminate.
    assert (b <> a). { intros ->. apply (NA (Rf a)); auto. }
    now apply (good_singleton fuel h b r h1).
  - apply bind_ok in H as (h1 & G & H). injection H as <- <-. unfold define_singleton_method in G.
    apply bind_ok in G as ([r h2] & G1 & G2). cbn [fst snd] in G2. destruct o0 as [| |b]; try discriminate.
    assert (b <> a). { intros ->. apply (NA (Rf a)); eauto. }
    destruct (good_singleton fuel h b r h2 I H G1) as (GS & _).
    eapply good_trans; [exact GS|]. eapply good_add_method; [apply GS|exact G2| |].
    + intros k [= <-] E. exfalso. eapply D1; eauto.
    + apply SE, GS.
  - apply bind_ok in H as (h1 & G & H). injection H as <- <-. eapply good_add_method; [exact I|exact G| |apply SE, good_refl, I].
    intros k [= <-] E. exfalso. eapply D2; eauto.
  - apply bind_ok in H as (h1 & G & H). injection H as <- <-. eapply good_attr; eauto.
  - apply bind_ok in H as (h1 & G & H). injection H as <- <-. eapply good_include; [exact I| |exact G].
    intros b -> ON ->. now apply (US ON).
  - apply bind_ok in H as (h1 & G & H). injection H as <- <-. unfold extend in G.
    apply bind_ok in G as ([r h2] & G1 & G2). cbn [fst snd] in G2. destruct o0 as [| |b]; try discriminate.
    assert (b <> a). { intros ->. apply (NA (Rf a)); eauto. }
    destruct (good_singleton fuel h b r h2 I H G1) as (GS & _).
    eapply good_trans; [exact GS|]. eapply good_include; [apply GS| |exact G2].
    intros b' -> ON ->. now apply (US ON).
  - apply bind_ok in H as (ci & CI & H). apply bind_ok in H as ([r h1] & G & H). injection H as <- <-.
    assert (GS : g sup) by (intros ON ->; now apply (US ON)).
    eapply good_class_under; eauto.
  - destruct (module_new h) as [r h1] eqn:M. injection H as <- <-. eapply good_module; eauto.
  - apply bind_ok in H as (h1 & G & H). injection H as <- <-. unfold set_class_var in G. destruct (is_main h o0); [discriminate|].
    apply bind_ok in G as (c & C & G). eapply good_set_cvar; eauto.
  - bd. subst. now apply good_refl.
  - bd. subst. now apply good_refl.
  - injection H as <- <-. now apply good_refl.
  - injection H as <- <-. now apply good_refl.
Qed.
End Ops.

(** ** The object itself *)
Definition Inv (a : Z) (f : option Z) (h : heap) : Prop := exists s e b, classed h a s e b /\ inv a s e b f h.

Lemma classed_good a s e b f h h' on : classed h a s e b -> inv a s e on f h -> good a s e on f h h' -> classed h' a s e b.
Proof.
  intros (c & k & ci & C & N & EC & K & KK & EX & XS) I (I' & E). destruct (ev_obj _ _ _ E _ C N) as (c' & C' & N' & EC').
  destruct (ev_mod _ _ _ E _ _ _ K KK) as (k' & ci' & K' & KK' & EX' & _).
  exists c', k', ci'. repeat split; auto; try congruence. rewrite (ev_single _ _ _ E); [auto|].
  rewrite <- EX. exact (sh_ext _ (i_sound _ _ _ _ _ _ I) _ _ _ K KK).
Qed.
Lemma classed_ext a s e b h ci : classed h a s e b -> as_class h s = Ok ci -> ci_ext ci = e.
Proof.
  intros (c & k & ci' & C & N & EC & K & KK & EX & XS) H. apply as_class_ok in H as (k' & K' & KK'). congruence.
Qed.
Lemma classed_se a s e b f h on : classed h a s e b -> inv a s e on f h ->
  forall h2, good a s e on f h h2 -> forall ci, as_class h2 s = Ok ci -> on = true -> ci_ext ci = e.
Proof. intros C I h2 G ci CI _. eapply classed_ext; [eapply classed_good; eauto|exact CI]. Qed.

(** The singleton class of [a] when there is none yet *)
Lemma fresh_singleton a s e f h fuel r h' : classed h a s e false -> inv a s e false f h -> singleton_class fuel h a = Ok (r, h') ->
  r = h_next h /\ classed h' a r (h_nexte h) true /\ inv a r (h_nexte h) true f h' /\
  (forall b, b <> a -> b <> r -> h_cells h' b = h_cells h b) /\ (forall x, x <> h_nexte h -> h_exts h' x = h_exts h x) /\
  as_class h' r = Ok (mkci (Some s) false false (h_nexte h)) /\ h_exts h' (h_nexte h) = mkxt [] true None /\ h_pk h' = h_pk h.
Proof.
  intros CL I H. pose proof CL as (c & k & ci & C & N & EC & K & KK & EX & XS).
  destruct fuel as [|n]; [discriminate|]. cbn [singleton_class] in H. unfold get_cell in H. rewrite C in H. cbn [rbind] in H.
  unfold is_singleton in H. rewrite EC in H. assert (AC : as_class h s = Ok ci) by (apply as_class_ok; eauto).
  rewrite AC in H. cbn [rbind] in H. rewrite EX, XS in H.
  assert (P : (match o_kind c with
             | KMod ci0 => if ci_mod ci0 then Ok (Some s, h) else u <- superclass (S n) h a;; match u with | Some b => p <- singleton_class n h b;; Ok (Some (fst p), snd p) | None => Ok (None, h) end
             | _ => Ok (Some s, h) end) = Ok (Some s, h)) by (clear H; destruct (o_kind c) as [|ci'| | |]; auto; exfalso; exact (N _ eq_refl)).
  rewrite P in H. cbn [rbind] in H. unfold singleton_from in H. cbn [alloc_ext alloc] in H. unfold set_class, get_cell in H.
  cbn [h_cells] in H. pose proof (i_sound _ _ _ _ _ _ I) as SH. pose proof (below _ _ _ SH C) as LA. pose proof (below _ _ _ SH K) as LS.
  rewrite upd_other in H by (cbn; lia). cbn [h_cells] in H. rewrite C in H. cbn [rbind] in H. injection H as <- <-.
  set (hh := set_cell _ _ _).
  assert (CE : forall b, h_cells hh b = if b =? a then Some (mkcell (h_next h) (o_vars c) (o_kind c))
     else if b =? h_next h then Some (mkcell (h_class h) [] (KMod (mkci (Some s) false false (h_nexte h)))) else h_cells h b) by reflexivity.
  assert (XE : forall x, h_exts hh x = if x =? h_nexte h then mkxt [] true None else h_exts h x) by reflexivity.
  assert (NA : (h_next h =? a) = false) by (apply Z.eqb_neq; lia).
  assert (CLS : classed hh a (h_next h) (h_nexte h) true).
  { exists (mkcell (h_next h) (o_vars c) (o_kind c)), (mkcell (h_class h) [] (KMod (mkci (Some s) false false (h_nexte h)))), (mkci (Some s) false false (h_nexte h)).
    rewrite !CE, XE, !Z.eqb_refl, NA. repeat split; auto. }
  pose proof SH as [S1 S2 S3 S4 S5 S6].
  split; [reflexivity|]. split; [exact CLS|]. split; [|split; [|split; [|split; [|split; [|reflexivity]]]]].
  - split.
    + split.
      * intros b L. cbn in L. rewrite CE. destruct (Z.eqb_spec b a); [lia|]. destruct (Z.eqb_spec b (h_next h)); [lia|]. apply S1. lia.
      * intros b d. rewrite CE. cbn [hh set_cell h_next]. destruct (Z.eqb_spec b a); [intros [= <-]; cbn; lia|].
        destruct (Z.eqb_spec b (h_next h)); [intros [= <-]; cbn; lia|]. intros H. specialize (S2 _ _ H). cbn. lia.
      * intros b d di u. rewrite CE. destruct (Z.eqb_spec b a); [intros [= <-] KD; exfalso; exact (N _ KD)|].
        destruct (Z.eqb_spec b (h_next h)); [intros [= <-] [= <-] [= <-]; cbn; lia|]. intros H KD U. specialize (S3 _ _ _ _ H KD U). cbn. lia.
      * intros b d di. rewrite CE. destruct (Z.eqb_spec b a); [intros [= <-] KD; exfalso; exact (N _ KD)|].
        destruct (Z.eqb_spec b (h_next h)); [intros [= <-] [= <-]; cbn; lia|]. intros H KD. specialize (S4 _ _ _ H KD). cbn. lia.
      * intros v. specialize (S5 v). cbn. lia.
      * cbn. lia.
    + exists (mkcell (h_next h) (o_vars c) (o_kind c)). rewrite CE, Z.eqb_refl. split; [auto|exact N].
    + intros _. cbn. split; [lia|]. split; [lia|]. split.
      * intros b d. rewrite CE. destruct (Z.eqb_spec b a); [contradiction|]. destruct (Z.eqb_spec b (h_next h)); [intros [= <-] _; cbn; lia|].
        intros H _. specialize (S2 _ _ H). lia.
      * intros b d di. rewrite CE. destruct (Z.eqb_spec b a); [intros [= <-] KD; exfalso; exact (N _ KD)|].
        destruct (Z.eqb_spec b (h_next h)); [intros [= <-] [= <-]; cbn; intros [= E]; lia|]. intros H KD U. specialize (S3 _ _ _ _ H KD U). lia.
      * intros b d di. rewrite CE. destruct (Z.eqb_spec b a); [intros [= <-] KD; exfalso; exact (N _ KD)|].
        destruct (Z.eqb_spec b (h_next h)); [contradiction|]. intros H KD _. specialize (S4 _ _ _ H KD). lia.
      * intros v. specialize (S5 v). cbn. lia.
      * cbn. lia.
    + intros x m q. rewrite XE. destruct (Z.eqb_spec x (h_nexte h)); [discriminate|]. intros E Fq. destruct (i_hid _ _ _ _ _ _ I _ _ _ E Fq). discriminate.
  - intros b B1 B2. rewrite CE. destruct (Z.eqb_spec b a); [contradiction|]. destruct (Z.eqb_spec b (h_next h)); [contradiction|reflexivity].
  - intros x X. rewrite XE. destruct (Z.eqb_spec x (h_nexte h)); [contradiction|reflexivity].
  - apply as_class_ok. eexists. rewrite CE, NA, Z.eqb_refl. split; reflexivity.
  - rewrite XE, Z.eqb_refl. reflexivity.
Qed.

Lemma same_singleton a s e h fuel r h' : classed h a s e true -> singleton_class fuel h a = Ok (r, h') -> r = s /\ h' = h.
Proof.
  intros (c & k & ci & C & N & EC & K & KK & EX & XS) H.
  destruct fuel as [|n]; [discriminate|]. cbn [singleton_class] in H. unfold get_cell in H. rewrite C in H. cbn [rbind] in H.
  unfold is_singleton in H. rewrite EC in H. assert (AC : as_class h s = Ok ci) by (apply as_class_ok; eauto).
  rewrite AC in H. cbn [rbind] in H. rewrite EX, XS in H. injection H as <- <-. auto.
Qed.

(** In both cases there is one afterwards *)
Lemma own_singleton a f h fuel r h' : Inv a f h -> singleton_class fuel h a = Ok (r, h') ->
  exists e, classed h' a r e true /\ inv a r e true f h' /\ (classed h a r e true \/ exists s, as_class h' r = Ok (mkci (Some s) false false e)).
Proof.
  intros (s & e & b & C & I) H. destruct b.
  - destruct (same_singleton _ _ _ _ _ _ _ C H) as (-> & ->). exists e. auto.
  - destruct (fresh_singleton _ _ _ _ _ _ _ _ C I H) as (-> & C' & I' & _ & _ & AC & _). exists (h_nexte h). eauto.
Qed.

Lemma Inv_step a f fuel h q o h' : Inv a f h -> away h a q -> (forall k, f = Some k -> only_on a k (q, Some o)) -> step fuel q h = Ok (o, h') -> Inv a f h'.
Proof.
  intros I AW ON H.
  assert (OTHER : (forall v, (exists m k, q = ADefS v m k) \/ q = ASing v \/ (exists m, q = AExtend v m) -> v <> Rf a) -> Inv a f h').
  { intros NA. destruct I as (s & e & b & C & I). exists s, e, b.
    assert (G : good a s e b f h h').
    { eapply good_step; [exact I| |exact NA| | | |exact H].
      - intros ->. eapply AW; eauto.
      - intros v m k -> E. specialize (ON k E). cbn in ON. apply (NA v); [eauto|auto].
      - intros c m k -> E. specialize (ON k E). cbn in ON. auto.
      - eapply classed_se; eauto. }
    split; [eapply classed_good; eauto|apply G]. }
  destruct q; try (apply OTHER; intros ? [(? & ? & ?)|[?|(? & ?)]]; discriminate).
  - destruct o0 as [w|n|b]; try discriminate. destruct (Z.eq_dec b a) as [->|D].
    + cbn [step get_singleton_class] in H. apply bind_ok in H as ([r h1] & G & H). injection H as <- <-. cbn [snd].
      destruct (own_singleton _ _ _ _ _ _ I G) as (e & C' & I' & _). exists r, e, true. auto.
    + apply OTHER. intros ? [(? & ? & ?)|[?|(? & ?)]]; congruence.
  - destruct o0 as [w|n|b]; try discriminate. destruct (Z.eq_dec b a) as [->|D].
    + cbn [step] in H. apply bind_ok in H as (h1 & G & H). injection H as <- <-. unfold define_singleton_method in G. cbn [get_singleton_class] in G.
      apply bind_ok in G as ([r h2] & G1 & G2). cbn [fst snd] in G2.
      destruct (own_singleton _ _ _ _ _ _ I G1) as (e & C' & I' & _). exists r, e, true.
      assert (GG : good a r e true f h2 h1). { eapply good_add_method; [exact I'|exact G2|auto|]. intros ci CI _. eapply classed_ext; eauto. }
      split; [eapply classed_good; eauto|apply GG].
    + apply OTHER. intros ? [(? & ? & ?)|[?|(? & ?)]]; congruence.
  - destruct o0 as [w|n|b]; try discriminate. destruct (Z.eq_dec b a) as [->|D].
    + cbn [step] in H. apply bind_ok in H as (h1 & G & H). injection H as <- <-. unfold extend in G. cbn [get_singleton_class] in G.
      apply bind_ok in G as ([r h2] & G1 & G2). cbn [fst snd] in G2.
      destruct (own_singleton _ _ _ _ _ _ I G1) as (e & C' & I' & CASE). exists r, e, true.
      assert (GG : good a r e true f h2 h1).
      { eapply good_include; [exact I'| |exact G2]. intros b -> _ ->.
        destruct CASE as [CASE|(s & CASE)].
        - apply (AW _ _ CASE). reflexivity.
        - unfold include, rvalue, get_cell in G2. apply as_class_ok in CASE as (k & K & KK). rewrite K in G2. cbn in G2. rewrite KK in G2. discriminate. }
      split; [eapply classed_good; eauto|apply GG].
    + apply OTHER. intros ? [(? & ? & ?)|[?|(? & ?)]]; congruence.
Qed.
Lemma Inv_err a f fuel h q : Inv a f h -> Inv a f (after_err fuel q h).
Proof.
  intros I. destruct q; cbn; auto. destruct o as [w|n|b]; cbn; auto.
  destruct (singleton_class fuel h b) as [[r h1]| |] eqn:G; auto. cbn. destruct (Z.eq_dec b a) as [->|D].
  - destruct (own_singleton _ _ _ _ _ _ I G) as (e & C' & I' & _). exists r, e, true. auto.
  - destruct I as (s & e & b2 & C & I). exists s, e, b2. destruct (good_singleton a s e b2 f fuel h b r h1 I D G) as (GG & _).
    split; [eapply classed_good; eauto|apply GG].
Qed.
Lemma Inv_runs a f fuel h0 l h : Inv a (Some f) h0 -> runs_away fuel a h0 l h -> Forall (only_on a f) l -> Inv a (Some f) h.
Proof.
  intros I R. induction R as [|l h e o h' R IH AW S|l h e k R IH AW S]; intros F; [auto| |]; inversion_clear F as [|? ? F1 F2].
  - refine (Inv_step a (Some f) fuel h e o h' (IH F2) AW _ S). now intros k [= <-].
  - apply Inv_err; auto.
Qed.

(** ** Finding methods *)
Lemma chain_hidden a s e on f fuel : forall h c m, inv a s e on (Some f) h -> g s on c -> search_chain fuel h c m <> Ok (Some (MFn f)).
Proof.
  induction fuel as [|n IH]; intros h c m I G H; [discriminate|]. cbn [search_chain] in H.
  apply bind_ok in H as (ci & CI & H). pose proof CI as CI2. apply as_class_ok in CI2 as (k & C & K).
  destruct (tget _ m) eqn:T.
  - injection H as ->. destruct (i_hid _ _ _ _ _ _ I _ _ _ T eq_refl) as (ON & E). destruct (i_on _ _ _ _ _ _ I ON) as (_ & _ & P).
    exact (ap_ext _ _ _ _ P _ _ _ C K (G ON) E).
  - destruct (ci_up ci) as [u|] eqn:U; [|discriminate]. eapply IH; [exact I| |exact H]. eapply up_g; eauto.
Qed.
Lemma lookup_hidden a f fuel h v m : Inv a (Some f) h -> v <> Rf a -> lookup fuel h v m <> Ok (Some (MFn f)).
Proof.
  intros (s & e & b & C & I) V H. unfold lookup in H. apply bind_ok in H as (c & CC & H).
  assert (G : g s b c).
  { destruct v as [w|n|x]; cbn in CC; try (injection CC as <-; intros ->; destruct (i_on _ _ _ _ _ _ I eq_refl) as (_ & _ & P); apply P).
    apply bind_ok in CC as (k & K & CC). injection CC as <-. apply get_cell_ok in K. eapply class_g; [exact I| |exact K]. congruence. }
  unfold search_method in H. apply bind_ok in H as (sg & SG & H). apply bind_ok in H as (r & SC & H).
  destruct r as [q|].
  - injection H as ->. eapply chain_hidden; eauto.
  - destruct sg; [|discriminate]. apply bind_ok in H as (k & K & H). apply get_cell_ok in K.
    unfold is_singleton in SG. apply bind_ok in SG as (ci & CI & _).
    eapply chain_hidden; [exact I| |exact H]. eapply class_g; [exact I| |exact K]. eapply notme_mod; eauto.
Qed.

Lemma chain_same fuel (D : Z -> Prop) m : forall h h' c r,
  (forall b k ci, D b -> h_cells h b = Some k -> o_kind k = KMod ci ->
     as_class h' b = Ok ci /\ tget (x_meth (h_exts h' (ci_ext ci))) m = tget (x_meth (h_exts h (ci_ext ci))) m /\ (forall u, ci_up ci = Some u -> D u)) ->
  D c -> search_chain fuel h c m = Ok r -> search_chain fuel h' c m = Ok r.
Proof.
  induction fuel as [|n IH]; intros h h' c r S DC H; [discriminate|]. cbn [search_chain] in *.
  apply bind_ok in H as (ci & CI & H). apply as_class_ok in CI as (k & C & K). destruct (S _ _ _ DC C K) as (AC & X & U).
  rewrite AC. cbn [rbind]. rewrite X. destruct (tget _ m); [auto|]. destruct (ci_up ci) as [u|]; [|auto]. eapply IH; eauto.
Qed.
Lemma chain_fuel fuel : forall h c m r, search_chain fuel h c m = Ok r -> search_chain (S fuel) h c m = Ok r.
Proof.
  induction fuel as [|n IH]; intros h c m r H; [discriminate|]. cbn [search_chain] in H. change (search_chain (S (S n)) h c m) with
    (ci <- as_class h c ;; match tget (x_meth (h_exts h (ci_ext ci))) m with Some f => Ok (Some f) | None => match ci_up ci with Some b => search_chain (S n) h b m | None => Ok None end end).
  apply bind_ok in H as (ci & -> & H). cbn [rbind]. destruct (tget _ m); [auto|]. destruct (ci_up ci); [auto|auto].
Qed.

(** A search that starts in [D] and meets the same classes *)
Lemma search_same fuel (D : Z -> Prop) m h h' c r :
  (forall b k ci, D b -> h_cells h b = Some k -> o_kind k = KMod ci ->
     as_class h' b = Ok ci /\ tget (x_meth (h_exts h' (ci_ext ci))) m = tget (x_meth (h_exts h (ci_ext ci))) m /\
     x_single (h_exts h' (ci_ext ci)) = x_single (h_exts h (ci_ext ci)) /\ (forall u, ci_up ci = Some u -> D u) /\
     exists k', h_cells h' b = Some k' /\ o_class k' = o_class k /\ D (o_class k)) ->
  D c -> search_method fuel h c m = Ok r -> search_method fuel h' c m = Ok r.
Proof.
  intros S DC H.
  assert (S' : forall b k ci, D b -> h_cells h b = Some k -> o_kind k = KMod ci ->
     as_class h' b = Ok ci /\ tget (x_meth (h_exts h' (ci_ext ci))) m = tget (x_meth (h_exts h (ci_ext ci))) m /\ (forall u, ci_up ci = Some u -> D u)).
  { intros b k ci Db C K. destruct (S _ _ _ Db C K) as (? & ? & _ & ? & _). auto. }
  unfold search_method in *. apply bind_ok in H as (sg & SG & H). apply bind_ok in H as (q & SC & H).
  unfold is_singleton in *. apply bind_ok in SG as (ci & CI & SG). injection SG as SG. apply as_class_ok in CI as (k & C & K).
  destruct (S _ _ _ DC C K) as (AC & _ & XS & _ & k' & C' & OC & DO). rewrite AC. cbn [rbind]. rewrite XS, SG.
  rewrite (chain_same _ D m _ _ _ _ S' DC SC). cbn [rbind]. destruct q; [auto|]. destruct sg; [|auto].
  apply bind_ok in H as (k2 & K2 & H). apply get_cell_ok in K2. rewrite C in K2. injection K2 as <-.
  unfold get_cell. rewrite C'. cbn [rbind]. rewrite OC. eapply chain_same; eauto.
Qed.

Lemma add_method_eq h c m q h' : add_method h c m q = Ok h' -> exists ci, as_class h c = Ok ci /\
  h_cells h' = h_cells h /\ h_pk h' = h_pk h /\
  (forall x, x <> ci_ext ci -> h_exts h' x = h_exts h x) /\
  x_meth (h_exts h' (ci_ext ci)) = tset (x_meth (h_exts h (ci_ext ci))) m q /\
  (forall x, x_single (h_exts h' x) = x_single (h_exts h x)).
Proof.
  unfold add_method. intros H. apply bind_ok in H as (ci & CI & H). injection H as <-. exists ci. cbn.
  repeat split; auto.
  - intros x X. now rewrite upd_other.
  - now rewrite upd_same.
  - intros x. unfold upd. destruct (Z.eqb_spec x (ci_ext ci)); subst; reflexivity.
Qed.
Lemma lone_Inv h a f : sound_heap h -> lone h a -> (forall k, f = Some k -> nowhere h k) -> Inv a f h.
Proof.
  intros SH (s & e & b & C & P) NW. exists s, e, b. split; [auto|]. pose proof C as (c & k & ci & Ha & N & EC & K & KK & EX & XS). split; auto.
  - exists c. auto.
  - intros B. split; [exact (below _ _ _ SH K)|]. split; [|auto]. rewrite <- EX. exact (sh_ext _ SH _ _ _ K KK).
  - intros x m q T F. exfalso. exact (NW q F x m T).
Qed.
Lemma Inv_lone h a f : Inv a f h -> sound_heap h /\ lone h a.
Proof.
  intros (s & e & b & C & I). split; [apply I|]. exists s, e, b. split; [auto|]. intros B. now apply I.
Qed.
Lemma search_fuel fuel h c m r : search_method fuel h c m = Ok r -> search_method (S fuel) h c m = Ok r.
Proof.
  unfold search_method. intros H. apply bind_ok in H as (sg & -> & H). apply bind_ok in H as (q & SC & H). cbn [rbind].
  rewrite (chain_fuel _ _ _ _ _ SC). cbn [rbind]. destruct q; [auto|]. destruct sg; [|auto].
  apply bind_ok in H as (k & -> & H). cbn [rbind]. now apply chain_fuel.
Qed.
