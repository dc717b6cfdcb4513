(** Lemmas about objects and their variables. *)
From Coq Require Import ZArith List Bool Lia.
From Verif Require Import Base ModelObject SpecObject.
Import ListNotations.
Open Scope Z_scope.

(** ** Names and tables *)
Lemma name_eqb_spec x y : reflect (x = y) (name_eqb x y).
Proof.
  revert y; induction x as [|a x IH]; destruct y as [|b y]; cbn; try (constructor; congruence).
  destruct (Z.eqb_spec a b); cbn; [|constructor; congruence].
  destruct (IH y); constructor; congruence.
Qed.
Lemma name_eqb_refl x : name_eqb x x = true.
Proof. destruct (name_eqb_spec x x); congruence. Qed.
Lemma name_eqb_neq x y : x <> y -> name_eqb x y = false.
Proof. destruct (name_eqb_spec x y); congruence. Qed.

Lemma tget_tset {A} (t : list (name * A)) x v y :
  tget (tset t x v) y = if name_eqb y x then Some v else tget t y.
Proof.
  induction t as [|[z w] t IH]; cbn.
  - destruct (name_eqb_spec x y), (name_eqb_spec y x); subst; congruence.
  - destruct (name_eqb_spec z x); cbn.
    + subst. destruct (name_eqb_spec x y), (name_eqb_spec y x); subst; congruence.
    + rewrite IH. destruct (name_eqb_spec z y), (name_eqb_spec y x); subst; congruence.
Qed.
Lemma tget_in {A} (t : list (name * A)) x : tget t x <> None <-> In x (map fst t).
Proof.
  induction t as [|[z w] t IH]; cbn; [split; [congruence|tauto]|].
  destruct (name_eqb_spec z x); [split; intros; [auto|congruence]|].
  rewrite IH. tauto.
Qed.

Lemma bind_ok {A B} (r : res A) (f : A -> res B) b : rbind r f = Ok b -> exists a, r = Ok a /\ f a = Ok b.
Proof. destruct r; cbn; intros E; [eauto|discriminate..]. Qed.
Lemma ok_inj {A} (x y : A) : Ok x = Ok y -> x = y.
Proof. congruence. Qed.
Ltac bd := repeat match goal with
  | H : rbind _ _ = Ok _ |- _ => apply bind_ok in H; destruct H as (? & ? & H)
  | H : Ok _ = Ok _ |- _ => injection H as H
  | p : (_ * _)%type |- _ => destruct p
  end.

Lemma upd_same {A} (f : Z -> A) a v : upd f a v a = v.
Proof. unfold upd. now rewrite Z.eqb_refl. Qed.
Lemma upd_other {A} (f : Z -> A) a v b : b <> a -> upd f a v b = f b.
Proof. unfold upd. intros H. now destruct (Z.eqb_spec b a). Qed.

Lemma get_cell_ok h a c : get_cell h a = Ok c <-> h_cells h a = Some c.
Proof. unfold get_cell. destruct (h_cells h a); split; congruence. Qed.
Lemma as_class_ok h a ci : as_class h a = Ok ci <-> exists c, h_cells h a = Some c /\ o_kind c = KMod ci.
Proof.
  unfold as_class, get_cell. destruct (h_cells h a) as [c|]; cbn.
  - split.
    + intros H. exists c. split; [auto|]. destruct (o_kind c); congruence.
    + intros (d & [= <-] & ->). reflexivity.
  - split; [discriminate|intros (? & ? & _); discriminate].
Qed.

(** ** What grows without touching variables *)
Definition kind_same (k k' : kind) : Prop :=
  match k, k' with
  | KMod c, KMod c' => ci_mod c = ci_mod c' /\ ci_inc c = ci_inc c' /\ ci_ext c = ci_ext c'
  | _, _ => k = k'
  end.
Definition vars_same (t t' : list (name * ov)) : Prop := forall x, ivar x -> tget t' x = tget t x.
Definition is_arr (k : kind) : Prop := match k with KArr _ => True | _ => False end.
Record grows (h h' : heap) : Prop := mkgrows {
  g_old : forall a c, h_cells h a = Some c ->
    exists c', h_cells h' a = Some c' /\ vars_same (o_vars c) (o_vars c') /\ kind_same (o_kind c) (o_kind c');
  g_new : forall a c', h_cells h a = None -> h_cells h' a = Some c' ->
    h_next h <= a /\ ~ is_arr (o_kind c') /\ (in_chain (o_kind c') = true \/ vars_same [] (o_vars c'));
  g_next : h_next h <= h_next h';
  g_tidy : tidy h -> tidy h' }.

Lemma kind_same_refl k : kind_same k k. Proof. destruct k; cbn; auto. Qed.
Lemma kind_same_trans a b c : kind_same a b -> kind_same b c -> kind_same a c.
Proof. destruct a, b; cbn; try discriminate; try congruence; destruct c; cbn; try discriminate; try congruence; intuition congruence. Qed.
Lemma kind_same_chain k k' : kind_same k k' -> in_chain k' = in_chain k.
Proof. destruct k, k'; cbn; try discriminate; try congruence; intuition. Qed.
Lemma kind_same_arr k k' : kind_same k k' -> is_arr k' -> is_arr k.
Proof. destruct k, k'; cbn; try discriminate; try congruence; intuition. Qed.
Lemma vars_same_refl t : vars_same t t. Proof. intros x _; auto. Qed.

Lemma grows_refl h : grows h h.
Proof.
  split; [|congruence|lia|auto]. intros a c H. exists c. auto using kind_same_refl, vars_same_refl.
Qed.
Lemma grows_trans h1 h2 h3 : grows h1 h2 -> grows h2 h3 -> grows h1 h3.
Proof.
  intros [O1 N1 L1 T1] [O2 N2 L2 T2]. split; [| |lia|auto].
  - intros a c H. destruct (O1 _ _ H) as (c1 & H1 & V1 & K1). destruct (O2 _ _ H1) as (c2 & H2 & V2 & K2).
    exists c2. split; auto. split; [|eauto using kind_same_trans]. intros x X. rewrite V2, V1; auto.
  - intros a c H H3. destruct (h_cells h2 a) as [c2|] eqn:E.
    2:{ destruct (N2 _ _ E H3) as (A & B & C). split; [lia|auto]. }
    destruct (N1 _ _ H E) as (L & A & B). split; [auto|]. destruct (O2 _ _ E) as (c3 & H3' & V & K).
    rewrite H3 in H3'. injection H3' as <-. split; [eauto using kind_same_arr|].
    destruct B as [B|B]; [left; rewrite <- B; now apply kind_same_chain|right].
    intros x X. rewrite V by auto. now apply B.
Qed.

Lemma grows_set_cell h a c c' :
  h_cells h a = Some c -> vars_same (o_vars c) (o_vars c') -> kind_same (o_kind c) (o_kind c') -> grows h (set_cell h a c').
Proof.
  intros H V K. split; cbn; [| |lia|].
  - intros b d Hb. unfold upd. destruct (Z.eqb_spec b a); subst.
    + rewrite H in Hb. injection Hb as <-. exists c'. auto.
    + exists d. auto using kind_same_refl, vars_same_refl.
  - intros b d Hb. unfold upd. destruct (Z.eqb_spec b a); subst; congruence.
  - intros T b Hb. cbn in *. unfold upd. destruct (Z.eqb_spec b a); subst; [rewrite T in H by auto; discriminate|now apply T].
Qed.
Lemma grows_set_ext h e x : grows h (set_ext h e x).
Proof. split; cbn; [|congruence|lia|auto]. intros a c H. exists c. auto using kind_same_refl, vars_same_refl. Qed.
Lemma grows_alloc_ext h x : grows h (snd (alloc_ext h x)).
Proof. split; cbn; [|congruence|lia|auto]. intros a c H. exists c. auto using kind_same_refl, vars_same_refl. Qed.
Lemma tidy_alloc h c : tidy h -> tidy (snd (alloc h c)).
Proof. intros T b Hb. cbn in *. rewrite upd_other by lia. apply T. lia. Qed.
Lemma grows_alloc h c : tidy h -> ~ is_arr (o_kind c) -> (in_chain (o_kind c) = true \/ vars_same [] (o_vars c)) -> grows h (snd (alloc h c)).
Proof.
  intros T A V. split; cbn; [| |lia|].
  - intros b d Hb. rewrite upd_other; [exists d; auto using kind_same_refl, vars_same_refl|].
    intros ->. rewrite T in Hb by lia. discriminate.
  - intros b d Hb. unfold upd. destruct (Z.eqb_spec b (h_next h)); [|congruence].
    intros [= <-]. split; [lia|auto].
  - apply tidy_alloc.
Qed.

(** [hoare]-like: an operation grows the heap it starts from *)
Lemma set_class_grows h a s h' : set_class h a s = Ok h' -> grows h h'.
Proof.
  unfold set_class. intros H. bd. subst. apply get_cell_ok in H0.
  eapply grows_set_cell; eauto using kind_same_refl, vars_same_refl.
Qed.
Lemma singleton_from_grows h sup : tidy h -> grows h (snd (singleton_from h sup)).
Proof.
  intros T. unfold singleton_from. pose proof (grows_alloc_ext h (mkxt [] true None)) as G.
  destruct (alloc_ext _ _) as [e h1]. cbn [snd] in G.
  eapply grows_trans; [exact G|]. apply grows_alloc; [now apply G|cbn; auto|right; apply vars_same_refl].
Qed.
Lemma singleton_class_grows fuel : forall h a s h', tidy h -> singleton_class fuel h a = Ok (s, h') -> grows h h'.
Proof.
  induction fuel as [|n IH]; intros h a s h' T H; [discriminate|]. cbn [singleton_class] in H.
  apply bind_ok in H as (c & C & H). apply bind_ok in H as (b & B & H).
  destruct b; [injection H as <- <-; apply grows_refl|].
  apply bind_ok in H as ([sup h1] & P & H).
  assert (G1 : grows h h1).
  { destruct (o_kind c) as [|ci| | |]; try (injection P as <- <-; apply grows_refl).
    destruct (ci_mod ci); [injection P as <- <-; apply grows_refl|].
    apply bind_ok in P as (u & U & P). destruct u as [u|]; [|injection P as <- <-; apply grows_refl].
    apply bind_ok in P as ([s2 h2] & S2 & P). injection P as <- <-. eauto. }
  pose proof (singleton_from_grows h1 sup (g_tidy _ _ G1 T)) as G2.
  destruct (singleton_from h1 sup) as [s3 h3]. cbn [snd] in G2.
  apply bind_ok in H as (h4 & S4 & H). injection H as <- <-.
  eapply grows_trans; [exact G1|]. eapply grows_trans; [exact G2|]. eapply set_class_grows; eauto.
Qed.
Lemma get_singleton_class_grows fuel h v s h' : tidy h -> get_singleton_class fuel h v = Ok (s, h') -> grows h h'.
Proof. destruct v; cbn; try discriminate. apply singleton_class_grows. Qed.
Lemma add_method_grows h c m f h' : add_method h c m f = Ok h' -> grows h h'.
Proof. unfold add_method. intros H. bd. subst. apply grows_set_ext. Qed.
Lemma class_under_grows fuel h sup a h' : tidy h -> class_under fuel h sup = Ok (a, h') -> grows h h'.
Proof.
  intros T. unfold class_under. pose proof (grows_alloc_ext h (mkxt [] false None)) as G.
  destruct (alloc_ext _ _) as [e h1]. cbn [snd] in G.
  assert (G2 : grows h1 (snd (alloc h1 (mkcell (h_class h1) [] (KMod (mkci (Some sup) false false e)))))).
  { apply grows_alloc; [now apply G|cbn; auto|right; apply vars_same_refl]. }
  destruct (alloc h1 _) as [b h2]. cbn [snd] in G2. intros H.
  apply bind_ok in H as ([s h3] & S3 & H). injection H as <- <-. cbn [snd].
  assert (G12 := grows_trans _ _ _ G G2).
  eapply grows_trans; [exact G12|]. eapply singleton_class_grows; [now apply G12|eauto].
Qed.
Lemma module_new_grows h : tidy h -> grows h (snd (module_new h)).
Proof.
  intros T. unfold module_new. pose proof (grows_alloc_ext h (mkxt [] false None)) as G.
  destruct (alloc_ext _ _) as [e h1]. cbn [snd] in G.
  eapply grows_trans; [exact G|]. apply grows_alloc; [now apply G|cbn; auto|right; apply vars_same_refl].
Qed.
Lemma set_upper_grows h a u h' : set_upper h a u = Ok h' -> grows h h'.
Proof.
  unfold set_upper. intros H. bd. subst. apply get_cell_ok in H0. apply as_class_ok in H1 as (c & C & K).
  rewrite H0 in C. injection C as <-.
  eapply grows_set_cell; [eauto|apply vars_same_refl|]. rewrite K. cbn. auto.
Qed.
Lemma generate_included_grows h a b h' : tidy h -> generate_included h a = Ok (b, h') -> grows h h'.
Proof.
  unfold generate_included. intros T H.
  apply bind_ok in H as (c & C & H). apply bind_ok in H as (ci & CI & H). apply bind_ok in H as (o & O & H).
  apply ok_inj in H.
  match type of H with alloc ?h1 ?k = _ => assert (G : grows h1 (snd (alloc h1 k))) end.
  { apply grows_alloc; [exact T|cbn; auto|left; reflexivity]. }
  rewrite H in G. cbn [snd] in G. eapply grows_trans; [|exact G]. apply grows_set_ext.
Qed.
Lemma include_loop_grows fuel : forall h m p b h', tidy h -> include_loop fuel h m p = Ok (b, h') -> grows h h'.
Proof.
  induction fuel as [|n IH]; intros h m p b h' T H; [discriminate|]. cbn [include_loop] in H.
  apply bind_ok in H as (u & U & H). destruct u as [u|]; [|injection H as <- <-; apply grows_refl].
  apply bind_ok in H as ([q h1] & Q & H). apply bind_ok in H as (h2 & S2 & H).
  pose proof (generate_included_grows _ _ _ _ T Q) as G1. pose proof (set_upper_grows _ _ _ _ S2) as G2.
  cbn [fst snd] in *.
  assert (G12 := grows_trans _ _ _ G1 G2). eapply grows_trans; [exact G12|]. eapply IH; [now apply G12|eauto].
Qed.
Lemma include_grows fuel h c m h' : tidy h -> include fuel h c m = Ok h' -> grows h h'.
Proof.
  unfold include. intros T H. apply bind_ok in H as ([a k] & P & H). cbn [fst snd] in H.
  destruct (o_kind k) as [|mi| | |]; try discriminate. destruct (ci_mod mi); [|discriminate].
  apply bind_ok in H as (sup & U & H). apply bind_ok in H as ([q h1] & Q & H). apply bind_ok in H as (h2 & S2 & H).
  apply bind_ok in H as ([r h3] & R & H). cbn [fst snd] in *.
  pose proof (generate_included_grows _ _ _ _ T Q) as G1. pose proof (set_upper_grows _ _ _ _ S2) as G2.
  assert (G12 := grows_trans _ _ _ G1 G2).
  pose proof (include_loop_grows _ _ _ _ _ _ (g_tidy _ _ G12 T) R) as G3.
  eapply grows_trans; [exact G12|]. eapply grows_trans; [exact G3|]. eapply set_upper_grows; eauto.
Qed.
Lemma attr_accessor_grows ms : forall h c h', attr_accessor h c ms = Ok h' -> grows h h'.
Proof.
  induction ms as [|m ms IH]; intros h c h' H; cbn in H; [injection H as <-; apply grows_refl|].
  apply bind_ok in H as (h1 & A1 & H). apply bind_ok in H as (h2 & A2 & H).
  eapply grows_trans; [eapply add_method_grows; eauto|]. eapply grows_trans; [eapply add_method_grows; eauto|eauto].
Qed.
Lemma set_cvar_grows fuel : forall h org a x v h', cvar x -> set_cvar_from fuel h org a x v = Ok h' -> grows h h'.
Proof.
  assert (W : forall h a x v h', cvar x -> set_var_at h a x v = Ok h' -> grows h h').
  { intros h a x v h' X H. unfold set_var_at in H. bd. subst. apply get_cell_ok in H0.
    eapply grows_set_cell; [eauto| |apply kind_same_refl]. cbn. intros y [_ Y].
    rewrite tget_tset, name_eqb_neq; auto. intros ->. auto. }
  induction fuel as [|n IH]; intros h org a x v h' X H; [discriminate|]. cbn [set_cvar_from] in H.
  apply bind_ok in H as (c & C & H). destruct (tget (o_vars c) x); [eauto|].
  apply bind_ok in H as (u & U & H). destruct u; eauto.
Qed.
Lemma set_class_var_grows fuel h o x v h' : cvar x -> set_class_var fuel h o x v = Ok h' -> grows h h'.
Proof.
  unfold set_class_var. destruct (is_main h o); [discriminate|]. intros X H.
  apply bind_ok in H as (c & C & H). eauto using set_cvar_grows.
Qed.
Lemma extend_grows fuel h o m h' : tidy h -> extend fuel h o m = Ok h' -> grows h h'.
Proof.
  unfold extend. intros T H. apply bind_ok in H as ([s h1] & S1 & H). cbn [fst snd] in H.
  pose proof (get_singleton_class_grows _ _ _ _ _ T S1) as G. eapply grows_trans; [exact G|].
  eapply include_grows; [now apply G|eauto].
Qed.
Lemma after_err_grows fuel a h : tidy h -> grows h (after_err fuel a h).
Proof.
  intros T. destruct a; cbn; try apply grows_refl.
  destruct (get_singleton_class fuel h o) as [[s h1]| |] eqn:E; try apply grows_refl.
  eauto using get_singleton_class_grows.
Qed.

(** ** What is in the heap is what was done *)
Definition tracks (h0 : heap) (l : list (act * option out)) (h : heap) : Prop :=
  tidy h /\
  (forall a, h_next h <= a -> h_cells h0 a = None) /\
  (forall a x, h_next h <= a -> last_value (start_vars h0) l a x = None) /\
  (forall a, h_next h <= a -> last_content (start_content h0) l a = None) /\
  forall a c, h_cells h a = Some c -> in_chain (o_kind c) = false ->
    (forall x, ivar x -> tget (o_vars c) x = last_value (start_vars h0) l a x) /\
    start_content h a = last_content (start_content h0) l a.

Lemma start_content_same h h' a c c' :
  h_cells h a = Some c -> h_cells h' a = Some c' -> kind_same (o_kind c) (o_kind c') -> start_content h' a = start_content h a.
Proof.
  unfold start_content. intros -> -> K. destruct c as [? ? k], c' as [? ? k']. cbn in K.
  destruct k, k'; cbn in *; try discriminate; try reflexivity; try contradiction; now injection K as ->.
Qed.
Lemma not_arr_content h a c : h_cells h a = Some c -> ~ is_arr (o_kind c) -> start_content h a = None.
Proof. unfold start_content. intros -> A. destruct c as [? ? k]. destruct k; cbn in *; tauto. Qed.

Lemma tracks_grows h0 l h h' e :
  tracks h0 l h -> grows h h' ->
  (forall a x, last_value (start_vars h0) (e :: l) a x = last_value (start_vars h0) l a x) ->
  (forall a, last_content (start_content h0) (e :: l) a = last_content (start_content h0) l a) ->
  tracks h0 (e :: l) h'.
Proof.
  intros (T & Z0 & V & C & I) [GO GN GL GT] EV EC. split; [auto|]. split; [intros; apply Z0; lia|].
  split; [intros a x A; rewrite EV; apply V; lia|]. split; [intros a A; rewrite EC; apply C; lia|].
  intros a c' H' N. destruct (h_cells h a) as [c|] eqn:H.
  - destruct (GO _ _ H) as (c1 & H1 & VS & K). rewrite H' in H1. injection H1 as <-.
    destruct (I _ _ H) as (IV & IC); [rewrite <- N; symmetry; now apply kind_same_chain|]. split.
    + intros x X. rewrite VS, EV by auto. auto.
    + rewrite EC, <- IC. eapply start_content_same; eauto.
  - destruct (GN _ _ H H') as (L & A & B). split.
    + intros x X. rewrite EV, V by auto. destruct B as [B|B]; [congruence|]. now rewrite B.
    + rewrite EC, C by auto. eapply not_arr_content; eauto.
Qed.

(** One cell is replaced *)
Lemma tracks_set h0 l h a c c' e :
  tracks h0 l h -> h_cells h a = Some c -> in_chain (o_kind c') = in_chain (o_kind c) ->
  (in_chain (o_kind c) = false -> forall x, ivar x -> tget (o_vars c') x = last_value (start_vars h0) (e :: l) a x) ->
  (in_chain (o_kind c) = false -> start_content (set_cell h a c') a = last_content (start_content h0) (e :: l) a) ->
  (forall b x, b <> a -> last_value (start_vars h0) (e :: l) b x = last_value (start_vars h0) l b x) ->
  (forall b, b <> a -> last_content (start_content h0) (e :: l) b = last_content (start_content h0) l b) ->
  tracks h0 (e :: l) (set_cell h a c').
Proof.
  intros (T & Z0 & V & C & I) H K HV HC EV EC.
  assert (L : a < h_next h). { destruct (Z.lt_ge_cases a (h_next h)); auto. rewrite T in H by auto. discriminate. }
  split. { intros b B. cbn in *. rewrite upd_other by lia. auto. }
  split; [exact Z0|]. cbn [set_cell h_next].
  split; [intros b x B; rewrite EV by lia; auto|]. split; [intros b B; rewrite EC by lia; auto|].
  intros b d Hb N. cbn in Hb. unfold upd in Hb. destruct (Z.eqb_spec b a) as [->|D].
  - injection Hb as <-. rewrite K in N. split; auto.
  - destruct (I _ _ Hb N) as (IV & IC). split.
    + intros x X. rewrite EV by auto. auto.
    + rewrite EC, <- IC by auto. unfold start_content. cbn. now rewrite upd_other by auto.
Qed.

(** One cell is new *)
Lemma tracks_alloc h0 l h c e :
  tracks h0 l h ->
  (in_chain (o_kind c) = false -> forall x, ivar x -> tget (o_vars c) x = last_value (start_vars h0) (e :: l) (h_next h) x) ->
  (in_chain (o_kind c) = false -> start_content (snd (alloc h c)) (h_next h) = last_content (start_content h0) (e :: l) (h_next h)) ->
  (forall b x, b <> h_next h -> last_value (start_vars h0) (e :: l) b x = last_value (start_vars h0) l b x) ->
  (forall b, b <> h_next h -> last_content (start_content h0) (e :: l) b = last_content (start_content h0) l b) ->
  tracks h0 (e :: l) (snd (alloc h c)).
Proof.
  intros (T & Z0 & V & C & I) HV HC EV EC.
  split; [now apply tidy_alloc|]. cbn [alloc snd h_next].
  split; [intros b B; apply Z0; lia|].
  split; [intros b x B; rewrite EV by lia; apply V; lia|]. split; [intros b B; rewrite EC by lia; apply C; lia|].
  intros b d Hb N. cbn in Hb. unfold upd in Hb. destruct (Z.eqb_spec b (h_next h)) as [->|D].
  - injection Hb as <-. split; auto. 
  - destruct (I _ _ Hb N) as (IV & IC). split.
    + intros x X. rewrite EV by auto. auto.
    + rewrite EC, <- IC by auto. unfold start_content. cbn. now rewrite upd_other by auto.
Qed.

Lemma write_cell h o x v h' : set_var h o x v = Ok h' ->
  exists a c, o = Rf a /\ h_cells h a = Some c /\ h' = set_cell h a (mkcell (o_class c) (tset (o_vars c) x v) (o_kind c)).
Proof.
  destruct o; cbn; try discriminate. unfold set_var_at. intros H. bd. apply get_cell_ok in H0. eauto 6.
Qed.
Lemma write_step fuel w o x v h r h' : step fuel (AWrite w o x v) h = Ok (r, h') ->
  r = OV v /\ exists a c, o = Rf a /\ h_cells h a = Some c /\ h' = set_cell h a (mkcell (o_class c) (tset (o_vars c) x v) (o_kind c)).
Proof.
  destruct w; cbn [step]; intros H.
  - apply bind_ok in H as (h1 & W & H). injection H as <- <-. split; [auto|]. now apply write_cell in W.
  - apply bind_ok in H as ([u h1] & W & H). unfold instance_variable_set in W. apply bind_ok in W as (h2 & W & E).
    injection E as <- <-. injection H as <- <-. split; [auto|]. now apply write_cell in W.
  - apply bind_ok in H as ([u h1] & W & H). injection H as <- <-. cbn in W. destruct o as [| |a]; try discriminate.
    apply bind_ok in W as (h2 & W & E). injection E as <- <-. split; [auto|]. now apply (write_cell h (Rf a)) in W.
Qed.

Lemma tracks_write h0 l h w a x v r h' fuel :
  tracks h0 l h -> step fuel (AWrite w (Rf a) x v) h = Ok (r, h') -> tracks h0 ((AWrite w (Rf a) x v, Some r) :: l) h'.
Proof.
  intros TR H. destruct (write_step _ _ _ _ _ _ _ _ H) as (-> & a' & c & [= <-] & C & ->).
  apply tracks_set with (c := c); auto; cbn [o_kind o_vars last_value last_content].
  - intros N y Y. rewrite Z.eqb_refl. cbn. rewrite tget_tset. destruct (name_eqb_spec y x); auto.
    destruct TR as (_ & _ & _ & _ & I). now apply I.
  - intros N. destruct TR as (_ & _ & _ & _ & I). destruct (I _ _ C N) as (_ & IC). rewrite <- IC.
    unfold start_content. cbn. rewrite upd_same, C. now destruct c.
  - intros b y B. destruct (Z.eqb_spec b a); [contradiction|reflexivity].
Qed.

Lemma tracks_step fuel h0 l h e o h' :
  tracks h0 l h -> lexed (e, Some o) -> step fuel e h = Ok (o, h') -> tracks h0 ((e, Some o) :: l) h'.
Proof.
  intros TR LX H. pose proof (proj1 TR) as T.
  destruct e; cbn [step] in H.
  - (* alloc *)
    unfold allocate in H. apply bind_ok in H as ([u h1] & A & H). injection H as <- <-.
    apply bind_ok in A as (ci & CI & A). injection A as <- <-. cbn [fst snd].
    eapply tracks_grows; [exact TR| |auto..]. apply (grows_alloc h (mkcell c [] KOrd)); cbn; auto. right. apply vars_same_refl.
  - (* array *)
    apply bind_ok in H as (ci & CI & H). injection H as <- <-.
    pose proof TR as (T' & Z0 & V & C & I).
    apply (tracks_alloc h0 l h (mkcell c [] (KArr l0))); cbn [o_kind o_vars last_value last_content].
    + exact TR.
    + intros _ x X. rewrite V by lia. reflexivity.
    + intros _. rewrite Z.eqb_refl. unfold start_content. cbn. now rewrite upd_same.
    + auto.
    + intros b B. destruct (Z.eqb_spec b (h_next h)); [contradiction|reflexivity].
  - (* dup *)
    apply bind_ok in H as ([u h1] & D & H). injection H as <- <-. cbn [fst snd].
    destruct o0 as [w|s|a]; cbn in D; try (injection D as <- <-; eapply tracks_grows; [exact TR|apply grows_refl|auto..]).
    apply bind_ok in D as (c & C & D). apply get_cell_ok in C. injection D as <- <-.
    assert (KK : in_chain (dup_kind (o_kind c)) = in_chain (o_kind c)) by (destruct (o_kind c); reflexivity).
    assert (LT : a <> h_next h). { intros ->. rewrite T in C by lia. discriminate. }
    pose proof TR as (_ & _ & _ & _ & I).
    apply (tracks_alloc h0 l h (mkcell (o_class c) (o_vars c) (dup_kind (o_kind c)))); cbn [o_kind o_vars last_value last_content].
    + exact TR.
    + intros N x X. rewrite Z.eqb_refl. rewrite KK in N. now apply I.
    + intros N. rewrite KK in N. rewrite Z.eqb_refl. destruct (I _ _ C N) as (_ & <-).
      unfold start_content. cbn. rewrite upd_same, C. destruct c as [? ? k]. now destruct k.
    + intros b x B. destruct (Z.eqb_spec b (h_next h)); [contradiction|reflexivity].
    + intros b B. destruct (Z.eqb_spec b (h_next h)); [contradiction|reflexivity].
  - (* write *)
    pose proof H as H2. apply (write_step fuel w o0 x v h o h') in H2 as (_ & a & c & -> & _).
    exact (tracks_write h0 l h w a x v o h' fuel TR H).
  - (* read *)
    assert (h' = h) as -> by (destruct w; apply bind_ok in H as (? & _ & H); congruence).
    eapply tracks_grows; [exact TR|apply grows_refl|auto..].
  - bd. subst. eapply tracks_grows; [exact TR|apply grows_refl|auto..].
  - bd. subst. eapply tracks_grows; [exact TR|apply grows_refl|auto..].
  - bd. subst. eapply tracks_grows; [exact TR|apply grows_refl|auto..].
  - (* replace *)
    apply bind_ok in H as (h1 & R & H). injection H as <- <-.
    unfold replace in R. apply bind_ok in R as ([a c] & P & R). cbn [fst snd] in R.
    destruct o0 as [w|s|a']; try discriminate. cbn in P. apply bind_ok in P as (c' & C & P). injection P as -> ->.
    apply get_cell_ok in C. destruct (o_kind c) as [| |l1| |] eqn:K; try discriminate. injection R as <-.
    pose proof TR as (_ & _ & _ & _ & I).
    apply tracks_set with (c := c); auto; cbn [o_kind o_vars last_value last_content].
    + now rewrite K.
    + intros N x X. now apply I.
    + intros N. rewrite Z.eqb_refl. unfold start_content. cbn. now rewrite upd_same.
    + intros b B. destruct (Z.eqb_spec b a); [contradiction|reflexivity].
  - (* sing *)
    apply bind_ok in H as ([s h1] & G & H). injection H as <- <-. cbn [snd].
    eapply tracks_grows; [exact TR|eapply get_singleton_class_grows; eauto|auto..].
  - (* defs *)
    apply bind_ok in H as (h1 & G & H). injection H as <- <-. unfold define_singleton_method in G.
    apply bind_ok in G as ([s h2] & G1 & G2). cbn [fst snd] in G2.
    eapply tracks_grows; [exact TR| |auto..].
    eapply grows_trans; [eapply get_singleton_class_grows; eauto|eapply add_method_grows; eauto].
  - apply bind_ok in H as (h1 & G & H). injection H as <- <-. eapply tracks_grows; [exact TR|eapply add_method_grows; eauto|auto..].
  - apply bind_ok in H as (h1 & G & H). injection H as <- <-. eapply tracks_grows; [exact TR|eapply attr_accessor_grows; eauto|auto..].
  - apply bind_ok in H as (h1 & G & H). injection H as <- <-. eapply tracks_grows; [exact TR|eapply include_grows; eauto|auto..].
  - apply bind_ok in H as (h1 & G & H). injection H as <- <-. eapply tracks_grows; [exact TR|eapply extend_grows; eauto|auto..].
  - apply bind_ok in H as (ci & CI & H). apply bind_ok in H as ([a h1] & G & H). injection H as <- <-. eapply tracks_grows; [exact TR|eapply class_under_grows; eauto|auto..].
  - pose proof (module_new_grows h T) as G. destruct (module_new h) as [a h1]. injection H as <- <-. eapply tracks_grows; [exact TR|exact G|auto..].
  - apply bind_ok in H as (h1 & G & H). injection H as <- <-. eapply tracks_grows; [exact TR|exact (set_class_var_grows fuel h o0 x v h1 LX G)|auto..].
  - bd. subst. eapply tracks_grows; [exact TR|apply grows_refl|auto..].
  - bd. subst. eapply tracks_grows; [exact TR|apply grows_refl|auto..].
  - injection H as <- <-. cbn [snd]. eapply tracks_grows; [exact TR|apply grows_refl|auto..].
  - injection H as <- <-. eapply tracks_grows; [exact TR|apply grows_refl|auto..].
Qed.

Lemma tracks_err fuel h0 l h e : tracks h0 l h -> tracks h0 ((e, None) :: l) (after_err fuel e h).
Proof.
  intros TR. eapply tracks_grows; [exact TR|apply after_err_grows; apply TR| |].
  - intros a x. destruct e; cbn; auto; destruct o; auto.
  - intros a. destruct e; cbn; auto; destruct o; auto.
Qed.

Lemma runs_tracks fuel h0 l h : tidy h0 -> runs fuel h0 l h -> Forall lexed l -> tracks h0 l h.
Proof.
  intros T R. induction R as [|l h e o h' R IH S|l h e k R IH S]; intros F.
  - split; [auto|]. split; [auto|]. cbn. unfold start_vars, start_content. split; [intros; now rewrite T|].
    split; [intros; now rewrite T|]. intros a c H N. rewrite H. auto.
  - inversion_clear F. eapply tracks_step; eauto.
  - inversion_clear F. now apply tracks_err; auto.
Qed.

(** ** Reading *)
Lemma read_step fuel h w a c x :
  h_cells h a = Some c -> step fuel (ARead w (Rf a) x) h = Ok (OV (or_nil (tget (o_vars c) x)), h).
Proof. intros H. destruct w; cbn; unfold get_ivar, instance_variable_get, get_var, get_var_at, get_cell; rewrite H; reflexivity. Qed.
Lemma check_step fuel h a c x :
  h_cells h a = Some c -> step fuel (ACheck (Rf a) x) h = Ok (OB (match tget (o_vars c) x with Some _ => false | None => true end), h).
Proof. intros H. cbn. unfold check_ivar, get_var, get_var_at, get_cell; rewrite H; reflexivity. Qed.
Lemma list_step fuel h a c :
  h_cells h a = Some c -> step fuel (AList (Rf a)) h = Ok (ON (filter starts_at (map fst (o_vars c))), h).
Proof. intros H. cbn. unfold instance_variables, rvalue, get_cell; rewrite H; reflexivity. Qed.
Lemma listed c x : ivar x -> In x (filter starts_at (map fst (o_vars c))) <-> tget (o_vars c) x <> None.
Proof.
  intros [(r & ->) _]. rewrite filter_In, <- tget_in. cbn. tauto.
Qed.

(** ** Copies *)
Lemma dup_step fuel h b o h' : step fuel (ADup (Rf b)) h = Ok (o, h') -> o = OV (Rf (h_next h)).
Proof. cbn. intros H. apply bind_ok in H as ([u h1] & D & H). apply bind_ok in D as (c & _ & D). injection D as <- <-. now injection H as <- <-. Qed.

Lemma tidy_runs fuel h0 l h : tidy h0 -> runs fuel h0 l h -> Forall lexed l -> tidy h.
Proof. intros T R F. now apply (runs_tracks fuel h0 l h T R F). Qed.
Lemma next_runs fuel h0 l h : tidy h0 -> runs fuel h0 l h -> Forall lexed l -> h_next h0 <= h_next h.
Proof.
  intros T R. induction R as [|l h e o h' R IH S|l h e k R IH S]; intros F; [lia| |].
  - inversion_clear F. specialize (IH H0). pose proof (tidy_runs _ _ _ _ T R H0) as Th. clear R H0. 
    enough (h_next h <= h_next h') by lia. clear IH T.
    destruct e; cbn [step] in S.
    + apply bind_ok in S as ([u h1] & A & S). injection S as <- <-. apply bind_ok in A as (ci & CI & A). injection A as <- <-. cbn. lia.
    + apply bind_ok in S as (ci & CI & S). injection S as <- <-. cbn. lia.
    + apply bind_ok in S as ([u h1] & A & S). injection S as <- <-.
      destruct o0; cbn in A; try (injection A as <- <-; cbn; lia).
      apply bind_ok in A as (ci & CI & A). injection A as <- <-. cbn. lia.
    + apply (write_step fuel w o0 x v h o h') in S as (_ & a & c & _ & _ & ->). cbn. lia.
    + assert (h' = h) as -> by (destruct w; apply bind_ok in S as (? & _ & S); congruence). lia.
    + bd. subst. lia.
    + bd. subst. lia.
    + bd. subst. lia.
    + apply bind_ok in S as (h1 & RP & S). injection S as <- <-. unfold replace in RP.
      apply bind_ok in RP as ([a c] & P & RP). cbn [fst snd] in RP. destruct (o_kind c); try discriminate. injection RP as <-. cbn. lia.
    + apply bind_ok in S as ([s h1] & G & S). injection S as <- <-. exact (g_next _ _ (get_singleton_class_grows _ _ _ _ _ Th G)).
    + apply bind_ok in S as (h1 & G & S). injection S as <- <-. unfold define_singleton_method in G.
      apply bind_ok in G as ([s h2] & G1 & G2). cbn [fst snd] in G2.
      exact (g_next _ _ (grows_trans _ _ _ (get_singleton_class_grows _ _ _ _ _ Th G1) (add_method_grows _ _ _ _ _ G2))).
    + apply bind_ok in S as (h1 & G & S). injection S as <- <-. eapply g_next, add_method_grows; eauto.
    + apply bind_ok in S as (h1 & G & S). injection S as <- <-. eapply g_next, attr_accessor_grows; eauto.
    + apply bind_ok in S as (h1 & G & S). injection S as <- <-. eapply g_next, include_grows; eauto.
    + apply bind_ok in S as (h1 & G & S). injection S as <- <-. eapply g_next, extend_grows; eauto.
    + apply bind_ok in S as (ci & CI & S). apply bind_ok in S as ([a h1] & G & S). injection S as <- <-. eapply g_next, class_under_grows; eauto.
    + pose proof (module_new_grows h Th) as G. destruct (module_new h) as [a h1]. injection S as <- <-. apply G.
    + apply bind_ok in S as (h1 & G & S). injection S as <- <-. exact (g_next _ _ (set_class_var_grows fuel h o0 x v h1 H G)).
    + bd. subst. lia.
    + bd. subst. lia.
    + injection S as <- <-. cbn. lia.
    + injection S as <- <-. lia.
  - inversion_clear F. specialize (IH H0). pose proof (tidy_runs _ _ _ _ T R H0) as Th.
    pose proof (g_next _ _ (after_err_grows fuel e h Th)). lia.
Qed.

(** A cell that is there stays there *)
Lemma held_step fuel h e o h' a c :
  tidy h -> lexed (e, Some o) -> step fuel e h = Ok (o, h') -> h_cells h a = Some c ->
  exists c', h_cells h' a = Some c' /\ in_chain (o_kind c') = in_chain (o_kind c).
Proof.
  intros Th LX S C.
  assert (LT : a <> h_next h). { intros ->. rewrite Th in C by lia. discriminate. }
  assert (ID : exists c', h_cells h a = Some c' /\ in_chain (o_kind c') = in_chain (o_kind c)) by eauto.
  assert (GR : forall h2, grows h h2 -> exists c', h_cells h2 a = Some c' /\ in_chain (o_kind c') = in_chain (o_kind c)).
  { intros h2 G. destruct (g_old _ _ G _ _ C) as (c' & C' & _ & K). exists c'. split; auto. now apply kind_same_chain. }
  destruct e; cbn [step] in S.
  + apply bind_ok in S as ([u h1] & A & S). injection S as <- <-. apply bind_ok in A as (ci & CI & A). injection A as <- <-.
    cbn. rewrite upd_other by auto. auto.
  + apply bind_ok in S as (ci & CI & S). injection S as <- <-. cbn. rewrite upd_other by auto. auto.
  + apply bind_ok in S as ([u h1] & A & S). injection S as <- <-.
    destruct o0; cbn in A; try (injection A as <- <-; cbn; auto).
    apply bind_ok in A as (ci & CI & A). injection A as <- <-. cbn. rewrite upd_other by auto. auto.
  + apply (write_step fuel w o0 x v h o h') in S as (_ & b & d & _ & D & ->). cbn. unfold upd.
    destruct (Z.eqb_spec a b); [subst|auto]. rewrite C in D. injection D as <-. eauto.
  + assert (h' = h) as -> by (destruct w; apply bind_ok in S as (? & _ & S); congruence). auto.
  + bd. subst. auto.
  + bd. subst. auto.
  + bd. subst. auto.
  + apply bind_ok in S as (h1 & RP & S). injection S as <- <-. unfold replace in RP.
    destruct o0 as [| |b]; try discriminate. cbn in RP. apply bind_ok in RP as ([b' d] & P & RP). cbn [fst snd] in RP.
    apply bind_ok in P as (d' & D & P). injection P as -> ->. apply get_cell_ok in D.
    destruct (o_kind d) eqn:K; try discriminate. injection RP as <-. cbn. unfold upd.
    destruct (Z.eqb_spec a b'); [subst|auto]. rewrite C in D. injection D as <-. rewrite K. eauto.
  + apply bind_ok in S as ([s h1] & G & S). injection S as <- <-. eapply GR, get_singleton_class_grows; eauto.
  + apply bind_ok in S as (h1 & G & S). injection S as <- <-. unfold define_singleton_method in G.
    apply bind_ok in G as ([s h2] & G1 & G2). cbn [fst snd] in G2.
    eapply GR, grows_trans; [eapply get_singleton_class_grows; eauto|eapply add_method_grows; eauto].
  + apply bind_ok in S as (h1 & G & S). injection S as <- <-. eapply GR, add_method_grows; eauto.
  + apply bind_ok in S as (h1 & G & S). injection S as <- <-. eapply GR, attr_accessor_grows; eauto.
  + apply bind_ok in S as (h1 & G & S). injection S as <- <-. eapply GR, include_grows; eauto.
  + apply bind_ok in S as (h1 & G & S). injection S as <- <-. eapply GR, extend_grows; eauto.
  + apply bind_ok in S as (ci & CI & S). apply bind_ok in S as ([b h1] & G & S). injection S as <- <-. eapply GR, class_under_grows; eauto.
  + pose proof (module_new_grows h Th) as G. destruct (module_new h) as [b h1]. injection S as <- <-. auto.
  + apply bind_ok in S as (h1 & G & S). injection S as <- <-. exact (GR _ (set_class_var_grows fuel h o0 x v h1 LX G)).
  + bd. subst. auto.
  + bd. subst. auto.
  + injection S as <- <-. auto.
  + injection S as <- <-. auto.
Qed.
Lemma held_runs fuel h0 l h a : tidy h0 -> runs fuel h0 l h -> Forall lexed l -> held h0 a -> held h a.
Proof.
  intros T R F. induction R as [|l h e o h' R IH S|l h e k R IH S]; [auto| |]; inversion_clear F; intros Ha.
  - destruct (IH H0 Ha) as (c & C & N). destruct (held_step _ _ _ _ _ _ _ (tidy_runs _ _ _ _ T R H0) H S C) as (c' & C' & N').
    exists c'. split; congruence.
  - destruct (IH H0 Ha) as (c & C & N). destruct (g_old _ _ (after_err_grows fuel e h (tidy_runs _ _ _ _ T R H0)) _ _ C) as (c' & C' & _ & K).
    exists c'. split; auto. rewrite (kind_same_chain _ _ K). auto.
Qed.

(** In the specification: nothing is written, nothing changes *)
Lemma last_value_quiet fuel h0 l h a x :
  tidy h0 -> runs fuel h0 l h -> Forall lexed l -> held h0 a -> (forall e, In e l -> ~ touches a e) ->
  last_value (start_vars h0) l a x = start_vars h0 a x /\ last_content (start_content h0) l a = start_content h0 a.
Proof.
  intros T R F Ha Q. induction R as [|l h e o h' R IH S|l h e k R IH S]; [auto| |]; inversion_clear F.
  - assert (IH' := IH H0 (fun e I => Q e (or_intror I))). clear IH.
    assert (NT : ~ touches a (e, Some o)) by (apply Q; now left).
    assert (NN : a <> h_next h).
    { destruct (held_runs _ _ _ _ _ T R H0 Ha) as (c & C & _). intros ->. rewrite (tidy_runs _ _ _ _ T R H0) in C by lia. discriminate. }
    destruct e; cbn [last_value last_content]; auto.
    + (* array *) cbn [step] in S. apply bind_ok in S as (ci & CI & S). injection S as <- <-.
      destruct (Z.eqb_spec a (h_next h)); [contradiction|auto].
    + (* dup *) destruct o0 as [| |b]; auto. apply dup_step in S. subst. destruct (Z.eqb_spec a (h_next h)); [contradiction|auto].
    + destruct o0 as [| |b]; auto. destruct (Z.eqb_spec a b); [subst; exfalso; apply NT; reflexivity|auto].
    + destruct o0 as [| |b]; auto. destruct (Z.eqb_spec a b); [subst; exfalso; apply NT; reflexivity|auto].
  - assert (IH' := IH H0 (fun e I => Q e (or_intror I))). clear IH.
    assert (NN : forall (e0 : act), last_value (start_vars h0) ((e0, None) :: l) a x = last_value (start_vars h0) l a x).
    { intros e0. destruct e0; cbn; auto; destruct o; auto. }
    assert (NN2 : forall (e0 : act), last_content (start_content h0) ((e0, None) :: l) a = last_content (start_content h0) l a).
    { intros e0. destruct e0; cbn; auto; destruct o; auto. }
    rewrite NN, NN2. exact IH'.
Qed.

(** ** Accessors *)
Definition table (h : heap) (c : Z) : list (name * meth) :=
  match as_class h c with Ok ci => x_meth (h_exts h (ci_ext ci)) | _ => [] end.
Lemma add_method_table h c m f h' : add_method h c m f = Ok h' ->
  h_cells h' = h_cells h /\ table h' c = tset (table h c) m f /\ (exists ci, as_class h c = Ok ci) /\
  (forall ci, as_class h c = Ok ci -> forall e, e <> ci_ext ci -> h_exts h' e = h_exts h e) /\
  forall e, x_single (h_exts h' e) = x_single (h_exts h e).
Proof.
  unfold add_method. intros H. apply bind_ok in H as (ci & CI & H). injection H as <-. split; [reflexivity|].
  split; [|split; [eauto|split]].
  - unfold table. rewrite CI. unfold as_class, get_cell in *. cbn [h_cells set_ext]. 
    destruct (h_cells h c); [|discriminate]. cbn in *. destruct (o_kind c0); try discriminate. injection CI as ->.
    now rewrite upd_same.
  - intros ci' E e D. rewrite CI in E. injection E as <-. cbn. now rewrite upd_other.
  - intros e. cbn. unfold upd. destruct (Z.eqb_spec e (ci_ext ci)); subst; reflexivity.
Qed.
Lemma setter_inj m1 m2 : setter_name m1 = setter_name m2 -> m1 = m2.
Proof. apply app_inv_tail. Qed.
Lemma attr_cells ms : forall h c h', attr_accessor h c ms = Ok h' -> h_cells h' = h_cells h.
Proof.
  induction ms as [|m ms IH]; intros h c h' H; cbn in H; [now injection H as <-|].
  apply bind_ok in H as (h1 & A1 & H). apply bind_ok in H as (h2 & A2 & H).
  apply add_method_table in A1 as (<- & _). apply add_method_table in A2 as (<- & _). eauto.
Qed.
Lemma attr_frame ms : forall h c h' q, attr_accessor h c ms = Ok h' -> (forall m, In m ms -> q <> m /\ q <> setter_name m) ->
  tget (table h' c) q = tget (table h c) q.
Proof.
  induction ms as [|m ms IH]; intros h c h' q H Q; cbn in H; [now injection H as <-|].
  apply bind_ok in H as (h1 & A1 & H). apply bind_ok in H as (h2 & A2 & H).
  apply add_method_table in A1 as (_ & T1 & _). apply add_method_table in A2 as (_ & T2 & _).
  destruct (Q m) as (Q1 & Q2); [now left|].
  rewrite (IH _ _ _ q H) by (intros; apply Q; now right). rewrite T2, tget_tset, name_eqb_neq by auto.
  now rewrite T1, tget_tset, name_eqb_neq by auto.
Qed.
Lemma attr_table ms : forall h c h' m, attr_accessor h c ms = Ok h' -> In m ms ->
  (forall m1 m2, In m1 ms -> In m2 ms -> m1 <> setter_name m2) ->
  tget (table h' c) m = Some (MRd (64 :: m)) /\ tget (table h' c) (setter_name m) = Some (MWr (64 :: m)).
Proof.
  induction ms as [|m0 ms IH]; intros h c h' m H I D; [destruct I|]. cbn in H.
  apply bind_ok in H as (h1 & A1 & H). apply bind_ok in H as (h2 & A2 & H).
  assert (D' : forall m1 m2, In m1 ms -> In m2 ms -> m1 <> setter_name m2) by (intros; apply D; now right).
  destruct (in_dec (list_eq_dec Z.eq_dec) m ms) as [J|J]; [eauto|].
  destruct I as [->|I]; [|contradiction].
  apply add_method_table in A1 as (_ & T1 & _). apply add_method_table in A2 as (_ & T2 & _).
  split.
  - rewrite (attr_frame _ _ _ _ m H).
    + rewrite T2, tget_tset, name_eqb_neq by (apply D; now left). now rewrite T1, tget_tset, name_eqb_refl.
    + intros q Q. split; [intros ->; contradiction|]. apply D; [now left|now right].
  - rewrite (attr_frame _ _ _ _ (setter_name m) H).
    + now rewrite T2, tget_tset, name_eqb_refl.
    + intros q Q. split.
      * intros E. symmetry in E. revert E. apply D; [now right|now left].
      * intros E. apply setter_inj in E. subst; contradiction.
Qed.
Lemma table_ext h c ci : as_class h c = Ok ci -> x_meth (h_exts h (ci_ext ci)) = table h c.
Proof. unfold table. now intros ->. Qed.
Lemma lookup_own fuel h a k m f ci :
  h_cells h a = Some k -> as_class h (o_class k) = Ok ci -> tget (table h (o_class k)) m = Some f -> (0 < fuel)%nat ->
  lookup fuel h (Rf a) m = Ok (Some f).
Proof.
  intros K CI T FU. unfold lookup, class_for_method, get_cell. rewrite K. cbn [rbind].
  unfold search_method, is_singleton. rewrite CI. cbn [rbind]. destruct fuel as [|n]; [lia|]. cbn [search_chain].
  rewrite CI. cbn [rbind]. rewrite (table_ext _ _ _ CI), T. reflexivity.
Qed.
