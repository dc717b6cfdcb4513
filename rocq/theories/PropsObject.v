(** Properties of objects: instance variables, copies (C81, C82). *)
From Coq Require Import ZArith List Bool Lia.
From Verif Require Import Base ModelObject SpecObject ProofsObject.
Import ListNotations.
Open Scope Z_scope.

(** ** C81: instance variables *)

Lemma boot_tidy : tidy boot.
Proof. intros a A. cbn in *. repeat match goal with |- context [?x =? ?y] => destruct (Z.eqb_spec x y); [lia|] end. reflexivity. Qed.

(** Whatever a program did, reading a variable of an object in any of the three
    ways gives what was last written to that variable of that object in any of
    the three ways, or to the object it is a copy of before the copy; defined?
    and instance_variables agree; a write succeeds and gives its value *)
Theorem C81_instance_variables : forall fuel h0 l h a x,
  tidy h0 -> runs fuel h0 l h -> Forall lexed l -> held h a -> ivar x ->
  let val := last_value (start_vars h0) l a x in
  (forall w, step fuel (ARead w (Rf a) x) h = Ok (OV (match val with Some v => v | None => nil_value end), h)) /\
  step fuel (ACheck (Rf a) x) h = Ok (OB (match val with Some _ => false | None => true end), h) /\
  (exists names, step fuel (AList (Rf a)) h = Ok (ON names, h) /\ (In x names <-> val <> None)) /\
  (forall w v, exists h', step fuel (AWrite w (Rf a) x v) h = Ok (OV v, h')).
Proof.
  intros fuel h0 l h a x T R F (c & C & N) X val.
  destruct (runs_tracks _ _ _ _ T R F) as (_ & _ & _ & _ & I). destruct (I _ _ C N) as (IV & _).
  specialize (IV x X). fold val in IV. split; [|split; [|split]].
  - intros w. now rewrite (read_step fuel h w a c x C), IV.
  - now rewrite (check_step fuel h a c x C), IV.
  - eexists. split; [apply (list_step fuel h a c C)|]. now rewrite listed, IV.
  - intros w v. destruct w; cbn; unfold set_ivar, instance_variable_set, set_var, set_var_at, get_cell; rewrite C; cbn; eauto.
Qed.
Print Assumptions C81_instance_variables.
(** an object (6), @x written three ways, a copy (8), another class between *)
Example C81_instance_variables_case :
  let x := [64; 120] in let y := [64; 121] in
  exists l h, runs 9 boot l h /\ Forall lexed l /\ held h 8 /\ ivar x /\
  last_value (start_vars boot) l 8 x = Some (Pk 3) /\ last_value (start_vars boot) l 6 x = Some (Pk 4) /\
  last_value (start_vars boot) l 8 y = None /\ length l = 8%nat.
Proof.
  intros x y.
  pose (acts := [AAlloc 1; AWrite WSyntax (Rf 6) x (Pk 1); AModule; AWrite WReflect (Rf 6) x (Pk 3); ADup (Rf 6);
                 ACvSet (Rf 6) [64; 64; 120] (Pk 5); AWrite WAttr (Rf 6) x (Pk 4); AWrite WSyntax (Rf 6) y (Rf 8)]).
  destruct (exec 9 boot [] acts) as [[l h]|] eqn:E; [|vm_compute in E; discriminate].
  assert (L : l = match exec 9 boot [] acts with Some (l, _) => l | None => [] end) by now rewrite E.
  assert (K : h_cells h 8 = match exec 9 boot [] acts with Some (_, h) => h_cells h 8 | None => None end) by now rewrite E.
  vm_compute in L. vm_compute in K.
  exists l, h. split; [exact (exec_runs 9 boot acts [] boot l h (RNil _ _) E)|]. clear E. subst l.
  split; [repeat constructor; exists [120]; reflexivity|].
  split; [eexists; split; [exact K|reflexivity]|].
  split; [split; [exists [120]; reflexivity|intros (r & Hr); discriminate]|].
  repeat split.
Qed.

(** A method made by attr_accessor reads and writes the variable of its name *)
Theorem C81_accessors : forall fuel h c ms h1 a k m v,
  attr_accessor h c ms = Ok h1 -> In m ms -> (forall m1 m2, In m1 ms -> In m2 ms -> m1 <> m2 ++ [61]) ->
  h_cells h1 a = Some k -> o_class k = c -> (0 < fuel)%nat ->
  exists h2, send fuel h1 (Rf a) (m ++ [61]) [v] = Ok (v, h2) /\
    send fuel h2 (Rf a) m [] = Ok (v, h2) /\
    step fuel (AWrite WSyntax (Rf a) (64 :: m) v) h1 = Ok (OV v, h2).
Proof.
  intros fuel h c ms h1 a k m v A I D K Kc FU. change (m ++ [61]) with (setter_name m). destruct (attr_table _ _ _ _ _ A I D) as (T1 & T2).
  assert (CI : exists ci, as_class h1 c = Ok ci).
  { destruct ms as [|m0 r]; [destruct I|]. cbn in A. apply bind_ok in A as (h2 & A1 & A).
    pose proof (attr_cells (m0 :: r) h c h1) as EC. cbn in EC. rewrite A1 in EC. cbn in EC.
    apply add_method_table in A1 as (_ & _ & (ci & CI) & _). exists ci. unfold as_class, get_cell in *. rewrite EC by exact A. exact CI. }
  destruct CI as (ci & CI). subst c.
  unfold send. rewrite (lookup_own fuel h1 a k (setter_name m) (MWr (64 :: m)) ci K CI T2 FU). cbn [rbind invoke exec_setter].
  unfold set_var_at, get_cell. rewrite K. cbn [rbind].
  eexists. split; [reflexivity|]. split.
  - set (h2 := set_cell h1 a _).
    assert (K2 : h_cells h2 a = Some (mkcell (o_class k) (tset (o_vars k) (64 :: m) v) (o_kind k))) by (cbn; now rewrite upd_same).
    assert (CI2 : as_class h2 (o_class k) = Ok ci).
    { apply as_class_ok. apply as_class_ok in CI as (d & Hd & Kd). cbn. unfold upd.
      destruct (Z.eqb_spec (o_class k) a) as [E|]; [|eauto]. rewrite E, K in Hd. injection Hd as <-. eexists. split; [reflexivity|exact Kd]. }
    rewrite (lookup_own fuel h2 a _ m (MRd (64 :: m)) ci K2 CI2); [| |auto].
    + cbn [rbind invoke exec_getter]. unfold get_var_at, get_cell. rewrite K2. cbn [rbind o_vars]. rewrite tget_tset, name_eqb_refl. reflexivity.
    + cbn [o_class]. rewrite <- (table_ext _ _ _ CI2). rewrite <- (table_ext _ _ _ CI) in T1. exact T1.
  - cbn. unfold set_ivar, set_var, set_var_at, get_cell. rewrite K. reflexivity.
Qed.
Print Assumptions C81_accessors.
(** attr_accessor :a, :b in Object, on the main object *)
Example C81_accessors_case : exists h1 k,
  attr_accessor boot 1 [[97]; [98]] = Ok h1 /\ h_cells h1 5 = Some k /\ o_class k = 1 /\
  (forall m1 m2, In m1 [[97]; [98]] -> In m2 [[97]; [98]] -> m1 <> m2 ++ [61]).
Proof.
  do 2 eexists. split; [reflexivity|]. split; [reflexivity|]. split; [reflexivity|].
  intros m1 m2 [<-|[<-|[]]] [<-|[<-|[]]]; discriminate.
Qed.

(** A program cannot rely on it for integers, symbols and the like: using a
    variable of such a receiver is undefined (Ruby raises or gives nil), while
    an accessor reads nil *)
Theorem C81_packed_refuted : exists fuel h w x v,
  tidy h /\ ivar x /\
  step fuel (AWrite WSyntax (Pk w) x v) h = Panic /\ step fuel (ARead WSyntax (Pk w) x) h = Panic /\
  step fuel (ARead WReflect (Pk w) x) h = Panic /\ step fuel (ARead WAttr (Pk w) x) h = Ok (OV nil_value, h).
Proof.
  exists 9%nat, boot, 3, [64; 120], (Pk 1). split; [exact boot_tidy|].
  split; [split; [exists [120]; reflexivity|intros (r & Hr); discriminate]|]. repeat split.
Qed.
Print Assumptions C81_packed_refuted.

(** instance_variables of a class gives its class variables too, and
    instance_variable_set writes them *)
Theorem C81_names_refuted : exists acts x,
  cvar x /\ answers 9 boot acts = Some [Some (OV (Pk 7)); Some (OV (Pk 7)); Some (ON [x]); Some (OV (Pk 1)); Some (OV (Rf 6))] /\
  acts = [AClass 1; ACvSet (Rf 6) x (Pk 1); AList (Rf 6); AWrite WReflect (Rf 6) x (Pk 7); ACvGet (Rf 6) x].
Proof. eexists _, [64; 64; 120]. split; [exists [120]; reflexivity|]. split; [|reflexivity]. vm_compute. reflexivity. Qed.
Print Assumptions C81_names_refuted.

(** ** C82: copies *)

Lemma chain_more fuel : forall h h' a m r,
  (forall b c, h_cells h b = Some c -> h_cells h' b = Some c) -> h_exts h' = h_exts h ->
  search_chain fuel h a m = Ok r -> search_chain fuel h' a m = Ok r.
Proof.
  induction fuel as [|n IH]; intros h h' a m r C X H; [discriminate|]. cbn [search_chain] in *.
  apply bind_ok in H as (ci & CI & H).
  assert (CI' : as_class h' a = Ok ci). { apply as_class_ok. apply as_class_ok in CI as (c & Hc & K). eauto. }
  rewrite CI'. cbn [rbind]. rewrite X. destruct (tget _ m); [auto|]. destruct (ci_up ci); eauto.
Qed.

(** A copy is another object with the same class, variables and content, and
    answers to the same methods.  What is later done to one of them leaves the
    other as it was *)
Theorem C82_copy : forall fuel h0 b c h1 l h x,
  tidy h0 -> held h0 b -> step fuel (ADup (Rf b)) h0 = Ok (OV (Rf c), h1) ->
  runs fuel h1 l h -> Forall lexed l -> ivar x ->
  c <> b /\
  (forall m r, lookup fuel h0 (Rf b) m = Ok r -> lookup fuel h1 (Rf c) m = Ok r) /\
  ((forall e, In e l -> ~ touches c e) ->
     (forall w v, step fuel (ARead w (Rf b) x) h0 = Ok (OV v, h0) -> step fuel (ARead w (Rf c) x) h = Ok (OV v, h)) /\
     (forall d, step fuel (AContent (Rf b)) h0 = Ok (OL d, h0) -> step fuel (AContent (Rf c)) h = Ok (OL d, h))) /\
  ((forall e, In e l -> ~ touches b e) ->
     (forall w v, step fuel (ARead w (Rf b) x) h0 = Ok (OV v, h0) -> step fuel (ARead w (Rf b) x) h = Ok (OV v, h)) /\
     (forall d, step fuel (AContent (Rf b)) h0 = Ok (OL d, h0) -> step fuel (AContent (Rf b)) h = Ok (OL d, h))).
Proof.
  intros fuel h0 b c h1 l h x T (k & K & N) S R F X.
  assert (c = h_next h0) as -> by (apply dup_step in S; congruence).
  assert (H1 : h1 = snd (alloc h0 (mkcell (o_class k) (o_vars k) (dup_kind (o_kind k))))).
  { cbn in S. unfold get_cell in S. rewrite K in S. cbn in S. injection S as <-. reflexivity. }
  assert (NB : h_next h0 <> b). { intros <-. rewrite T in K by lia. discriminate. }
  assert (T1 : tidy h1) by (subst; now apply tidy_alloc).
  assert (Kc : h_cells h1 (h_next h0) = Some (mkcell (o_class k) (o_vars k) (dup_kind (o_kind k)))) by (subst; cbn; now rewrite upd_same).
  assert (Kb : h_cells h1 b = Some k) by (subst; cbn; now rewrite upd_other by auto).
  assert (NK : in_chain (dup_kind (o_kind k)) = false) by (rewrite <- N; destruct (o_kind k); reflexivity).
  assert (Hc : held h1 (h_next h0)) by (eexists; split; [exact Kc|exact NK]).
  assert (Hb : held h1 b) by (eexists; split; [exact Kb|exact N]).
  split; [auto|]. split.
  { intros m r L. unfold lookup, class_for_method, get_cell in *. rewrite K in L. rewrite Kc. cbn [rbind o_class] in *.
    assert (M : forall b c, h_cells h0 b = Some c -> h_cells h1 b = Some c).
    { intros b' c' B. subst h1. cbn. rewrite upd_other; auto. intros ->. rewrite T in B by lia. discriminate. }
    assert (EX : h_exts h1 = h_exts h0) by (subst; reflexivity).
    unfold search_method in *. apply bind_ok in L as (s & SI & L). apply bind_ok in L as (f & SC & L).
    unfold is_singleton in *. apply bind_ok in SI as (ci & CI & SI).
    assert (CI' : as_class h1 (o_class k) = Ok ci). { apply as_class_ok. apply as_class_ok in CI as (d & Hd & Kd). eauto. }
    rewrite CI'. cbn [rbind]. rewrite EX. injection SI as ->. rewrite (chain_more _ _ _ _ _ _ M EX SC). cbn [rbind].
    destruct f; [auto|]. destruct s; [|auto]. apply bind_ok in L as (d & D & L). apply get_cell_ok in D.
    unfold get_cell. rewrite (M _ _ D). cbn [rbind]. eapply chain_more; eauto. }
  assert (TR := runs_tracks _ _ _ _ T1 R F). destruct TR as (_ & _ & _ & _ & I).
  assert (A : forall a k1, h_cells h1 a = Some k1 -> in_chain (o_kind k1) = false -> (forall e, In e l -> ~ touches a e) ->
     (forall w v, or_nil (tget (o_vars k1) x) = v -> step fuel (ARead w (Rf a) x) h = Ok (OV v, h)) /\
     (forall d, o_kind k1 = KArr d -> step fuel (AContent (Rf a)) h = Ok (OL d, h))).
  { intros a k1 Ka Na Q. assert (Ha : held h1 a) by (eexists; eauto).
    destruct (held_runs _ _ _ _ _ T1 R F Ha) as (k2 & K2 & N2). destruct (I _ _ K2 N2) as (IV & IC).
    destruct (last_value_quiet _ _ _ _ a x T1 R F Ha Q) as (LV & LC). split.
    - intros w v <-. rewrite (read_step fuel h w a k2 x K2), (IV x X), LV. unfold start_vars. now rewrite Ka.
    - intros d Kd. rewrite LC in IC. unfold start_content in IC. rewrite Ka, K2 in IC. destruct k1 as [? ? q1], k2 as [? ? q2].
      cbn in Kd. subst q1. cbn [step]. unfold content, rvalue, get_cell. rewrite K2. cbn. destruct q2; try discriminate; injection IC as ->; reflexivity. }
  assert (RB : forall w v, step fuel (ARead w (Rf b) x) h0 = Ok (OV v, h0) -> or_nil (tget (o_vars k) x) = v).
  { intros w v E. rewrite (read_step fuel h0 w b k x K) in E. congruence. }
  assert (CB : forall d, step fuel (AContent (Rf b)) h0 = Ok (OL d, h0) -> o_kind k = KArr d).
  { intros d E. cbn in E. unfold content, rvalue, get_cell in E. rewrite K in E. cbn in E. destruct (o_kind k); try discriminate. cbn in E. congruence. }
  split; intros Q.
  - destruct (A _ _ Kc NK Q) as (A1 & A2). split; [intros w v E; apply A1; cbn; eauto|].
    intros d E. apply A2. cbn. now rewrite (CB d E).
  - destruct (A _ _ Kb N Q) as (A1 & A2). split; [intros w v E; apply A1; eauto|]. eauto.
Qed.
Print Assumptions C82_copy.
(** an array (6) with a variable, its copy (7), then both changed *)
Example C82_copy_case : exists h0 h1 l h,
  tidy h0 /\ held h0 6 /\ step 9 (ADup (Rf 6)) h0 = Ok (OV (Rf 7), h1) /\ runs 9 h1 l h /\ Forall lexed l /\ length l = 2%nat /\
  step 9 (AContent (Rf 6)) h0 = Ok (OL [Pk 3], h0) /\ (forall e, In e l -> ~ touches 7 e) /\
  step 9 (AContent (Rf 6)) h = Ok (OL [], h) /\ step 9 (AContent (Rf 7)) h = Ok (OL [Pk 3], h).
Proof.
  pose (h0 := match exec 9 boot [] [AArray 1 [Pk 3]; AWrite WReflect (Rf 6) [64; 120] (Pk 1)] with Some (_, h) => h | None => boot end).
  pose (h1 := match exec 9 boot [] [AArray 1 [Pk 3]; AWrite WReflect (Rf 6) [64; 120] (Pk 1); ADup (Rf 6)] with Some (_, h) => h | None => boot end).
  pose (acts := [AReplace (Rf 6) []; AWrite WReflect (Rf 6) [64; 120] (Pk 2)]).
  destruct (exec 9 h1 [] acts) as [[l h]|] eqn:E; [|vm_compute in E; discriminate].
  assert (L : l = match exec 9 h1 [] acts with Some (l, _) => l | None => [] end) by now rewrite E.
  assert (H : h = match exec 9 h1 [] acts with Some (_, h) => h | None => boot end) by now rewrite E.
  exists h0, h1, l, h. repeat split.
  - intros a A. unfold h0 in *. cbn in *. unfold upd.
    repeat match goal with |- context [?x =? ?y] => destruct (Z.eqb_spec x y); [lia|] end. reflexivity.
  - eexists. split; reflexivity.
  - exact (exec_runs 9 h1 acts [] h1 l h (RNil _ _) E).
  - vm_compute in L. subst l. repeat constructor.
  - vm_compute in L. subst l. reflexivity.
  - vm_compute in L. subst l. intros e [<-|[<-|[]]]; cbn; lia.
  - clear L. subst h. reflexivity.
  - clear L. subst h. reflexivity.
Qed.

(** A copy of an object with singleton methods shares its singleton class: a
    method defined on the copy is there on the original *)
Theorem C82_singleton_refuted : exists acts m,
  answers 9 boot acts = Some [Some (OM (Some (MFn 2))); Some (OV (Sy m)); Some (OM None); Some (OV (Rf 8)); Some (OV (Rf 7)); Some (OV (Rf 6))] /\
  acts = [AAlloc 1; ASing (Rf 6); ADup (Rf 6); ALookup (Rf 6) m; ADefS (Rf 8) m 2; ALookup (Rf 6) m].
Proof. eexists _, [109]. split; [|reflexivity]. vm_compute. reflexivity. Qed.
Print Assumptions C82_singleton_refuted.

(** A copy of a class shares its methods: one defined in the copy is found by
    the objects of the original *)
Theorem C82_class_refuted : exists acts m h l,
  exec 9 boot [] acts = Some (l, h) /\ map snd l =
    [Some (OM (Some (MFn 2))); Some (OV (Sy m)); Some (OM None); Some (OV (Rf 9)); Some (OV (Rf 8)); Some (OV (Rf 6))] /\
  acts = [AClass 0; AAlloc 6; ADup (Rf 6); ALookup (Rf 8) m; ADef 9 m 2; ALookup (Rf 8) m].
Proof. eexists _, [109], _, _. split; [|split; [|reflexivity]]; vm_compute; reflexivity. Qed.
Print Assumptions C82_class_refuted.

(** A copy of an enumerator has no content: using it is undefined *)
Theorem C82_enumerator_refuted : exists h a h1 b,
  use_enum h (Rf a) = Ok vnil /\ shallow_dup h (Rf a) = Ok (Rf b, h1) /\ use_enum h1 (Rf b) = Panic.
Proof. exists (snd (alloc boot (mkcell 1 [] KEnum))), 6. do 2 eexists. split; [reflexivity|]. split; reflexivity. Qed.
Print Assumptions C82_enumerator_refuted.

(** freeze does nothing: the object is not frozen and is still written *)
Theorem C82_freeze_refuted : exists acts x,
  answers 9 boot acts = Some [Some (OV (Pk 1)); Some (OV (Pk 1)); Some (OB false); Some (OV (Rf 6)); Some (OV (Rf 6))] /\
  acts = [AAlloc 1; AFreeze (Rf 6); AFrozen (Rf 6); AWrite WSyntax (Rf 6) x (Pk 1); ARead WSyntax (Rf 6) x].
Proof. eexists _, [64; 120]. split; [|reflexivity]. vm_compute. reflexivity. Qed.
Print Assumptions C82_freeze_refuted.
