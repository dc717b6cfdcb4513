(** Lemmas on class variables and Struct. *)
From Coq Require Import ZArith List Bool Lia.
From Verif Require Import Base ModelObject SpecObject ProofsObject ProofsObject2.
Import ListNotations.
Open Scope Z_scope.

(** ** Class variables *)
Lemma upwards_head h c l : upwards h c l -> exists r, l = c :: r.
Proof. destruct 1; eauto. Qed.
Lemma upwards_class h c l : upwards h c l -> exists ci, as_class h c = Ok ci.
Proof. destruct 1; eexists; apply as_class_ok; eauto. Qed.
Lemma upwards_step h c d r : upwards h c (c :: d :: r) -> exists ci, as_class h c = Ok ci /\ ci_up ci = Some d /\ upwards h d (d :: r).
Proof.
  inversion 1; subst. destruct (upwards_head _ _ _ H5) as (r' & E). injection E as <- <-.
  eexists. split; [apply as_class_ok; eauto|auto].
Qed.

Lemma skip_ok h c l2 : plain h c -> forall l1 b fuel, upwards h b (l1 ++ c :: l2) -> (length l1 < fuel)%nat ->
  exists d l1', skip_included fuel h b = Ok (Some d) /\ upwards h d (l1' ++ c :: l2) /\ incl l1' l1 /\ (length l1' <= length l1)%nat /\
    exists di, as_class h d = Ok di /\ ci_inc di = false.
Proof.
  intros (k & ci & K & KK & NI & NS). induction l1 as [|a l1 IH]; intros b fuel U F; (destruct fuel as [|n]; [cbn in F; lia|]); cbn [skip_included].
  - destruct (upwards_head _ _ _ U) as (r & E). injection E as -> ->.
    assert (A : as_class h b = Ok ci) by (apply as_class_ok; eauto). rewrite A. cbn [rbind]. rewrite NI.
    exists b, []. repeat split; auto using incl_refl. eauto.
  - destruct (upwards_head _ _ _ U) as (r & E). cbn in E. injection E as -> <-.
    destruct (upwards_class _ _ _ U) as (bi & A). rewrite A. cbn [rbind]. destruct (ci_inc bi) eqn:I.
    + destruct (l1 ++ c :: l2) as [|d r] eqn:L; [destruct l1; discriminate|].
      cbn [app] in U. try rewrite L in U. destruct (upwards_step _ _ _ _ U) as (bi' & A' & UP & U'). rewrite A in A'. injection A' as <-. rewrite UP.
      cbn [length] in F. destruct (IH d n U') as (e & l1' & S & UE & IN & LE & X); [lia|].
      exists e, l1'. split; [auto|]. split; [auto|]. split; [now apply incl_tl|]. split; [cbn; lia|auto].
    + exists b, (b :: l1). repeat split; auto using incl_refl. eauto.
Qed.
Lemma real_class_ok h c l2 : plain h c -> forall fuel s l1 si, upwards h s (l1 ++ c :: l2) -> (length l1 < fuel)%nat ->
  as_class h s = Ok si -> ci_inc si = false -> (forall b, In b l1 -> ~ plain h b) -> real_class fuel h s = Ok c.
Proof.
  intros P. induction fuel as [|n IH]; intros s l1 si U F A NI NP; [lia|]. cbn [real_class]. unfold is_singleton. rewrite A. cbn [rbind].
  destruct l1 as [|d l1].
  - destruct (upwards_head _ _ _ U) as (r & E). injection E as <- <-. destruct P as (k & ci & K & KK & NI' & NS).
    assert (A' : as_class h c = Ok ci) by (apply as_class_ok; eauto). rewrite A in A'. injection A' as ->. now rewrite NS.
  - destruct (upwards_head _ _ _ U) as (r & E). cbn in E. injection E as -> <-.
    destruct (x_single (h_exts h (ci_ext si))) eqn:SG.
    2:{ exfalso. apply (NP s); [now left|]. apply as_class_ok in A as (k & K & KK). exists k, si. auto. }
    unfold superclass, upper. rewrite A. cbn [rbind].
    destruct (l1 ++ c :: l2) as [|d r] eqn:L; [destruct l1; discriminate|].
    cbn [app] in U. rewrite L in U. destruct (upwards_step _ _ _ _ U) as (bi' & A' & UP & U'). rewrite A in A'. injection A' as <-. rewrite UP.
    rewrite <- L in U'. cbn [length] in F. destruct (skip_ok h c l2 P l1 d (S n) U') as (e & l1' & S & UE & IN & LE & di & AD & ND); [lia|].
    rewrite S. cbn [rbind]. eapply IH; eauto; [lia|]. intros b B. apply NP. right. now apply IN.
Qed.
Lemma holder_ok h self c : holder h self c -> exists n, forall fuel, (n <= fuel)%nat -> get_class_if_object fuel h self = Ok c.
Proof.
  destruct self as [w|s|a]; cbn [holder get_class_if_object]; [intros ->; exists O; auto..|].
  intros (k & K & H). unfold get_cell. rewrite K. cbn [rbind].
  destruct (o_kind k) as [|ki| | |]; try (subst; exists O; reflexivity);
  destruct H as (s & si & l1 & l2 & HS & SK & NI & U & P & NP); exists (S (length l1)); intros fuel F;
  eapply real_class_ok; eauto; apply as_class_ok; eauto.
Qed.

Lemma get_cvar_found h x : forall l c o fuel, upwards h c l -> first_with h x l o -> (length l <= fuel)%nat ->
  exists w, start_vars h o x = Some w /\ get_cvar_from fuel h c x = Ok w.
Proof.
  intros l c o fuel U. revert o fuel. induction U as [c k ci K KK UP|c k ci u l K KK UP U IH]; intros o fuel (l1 & l2 & E & H & N) F;
    (destruct fuel as [|n]; [cbn in F; lia|]); cbn [get_cvar_from]; unfold get_cell; rewrite K; cbn [rbind].
  - destruct l1 as [|a l1]; [|destruct l1; discriminate]. injection E as <- <-. unfold has_var, start_vars in *. rewrite K in *.
    destruct (tget (o_vars k) x) as [w|]; [eauto|now exfalso; apply H].
  - destruct l1 as [|a l1].
    + injection E as -> ->. unfold has_var, start_vars in *. rewrite K in *. destruct (tget (o_vars k) x) as [w|]; [eauto|now exfalso; apply H].
    + injection E as <- ->. assert (NC := N c (or_introl eq_refl)). unfold has_var at 1, start_vars at 1 in NC. rewrite K in NC.
      destruct (tget (o_vars k) x) as [w|]; [exfalso; apply NC; discriminate|].
      unfold upper. assert (A : as_class h c = Ok ci) by (apply as_class_ok; eauto). rewrite A. cbn [rbind]. rewrite UP.
      apply IH; [|cbn in F; lia]. exists l1, l2. split; [auto|]. split; [auto|]. intros b B. apply N. now right.
Qed.
Lemma get_cvar_none h x : forall l c fuel, upwards h c l -> (forall b, In b l -> ~ has_var h x b) -> (length l <= fuel)%nat ->
  get_cvar_from fuel h c x = Err NameErr.
Proof.
  intros l c fuel U. revert fuel. induction U as [c k ci K KK UP|c k ci u l K KK UP U IH]; intros fuel N F;
    (destruct fuel as [|n]; [cbn in F; lia|]); cbn [get_cvar_from]; unfold get_cell; rewrite K; cbn [rbind];
    assert (NC := N c (or_introl eq_refl)); unfold has_var, start_vars in NC; rewrite K in NC;
    (destruct (tget (o_vars k) x) as [w|]; [exfalso; apply NC; discriminate|]);
    unfold upper; (assert (A : as_class h c = Ok ci) by (apply as_class_ok; eauto)); rewrite A; cbn [rbind]; rewrite UP; [auto|].
  apply IH; [|cbn in F; lia]. intros b B. apply N. now right.
Qed.
Lemma set_cvar_found h org x v : forall l c o fuel, upwards h c l -> first_with h x l o -> (length l <= fuel)%nat ->
  set_cvar_from fuel h org c x v = set_var_at h o x v.
Proof.
  intros l c o fuel U. revert o fuel. induction U as [c k ci K KK UP|c k ci u l K KK UP U IH]; intros o fuel (l1 & l2 & E & H & N) F;
    (destruct fuel as [|n]; [cbn in F; lia|]); cbn [set_cvar_from]; unfold get_cell; rewrite K; cbn [rbind].
  - destruct l1 as [|a l1]; [|destruct l1; discriminate]. injection E as <- <-. unfold has_var, start_vars in *. rewrite K in *.
    destruct (tget (o_vars k) x) as [w|]; [reflexivity|now exfalso; apply H].
  - destruct l1 as [|a l1].
    + injection E as -> ->. unfold has_var, start_vars in *. rewrite K in *. destruct (tget (o_vars k) x) as [w|]; [reflexivity|now exfalso; apply H].
    + injection E as <- ->. assert (NC := N c (or_introl eq_refl)). unfold has_var at 1, start_vars at 1 in NC. rewrite K in NC.
      destruct (tget (o_vars k) x) as [w|]; [exfalso; apply NC; discriminate|].
      unfold upper. assert (A : as_class h c = Ok ci) by (apply as_class_ok; eauto). rewrite A. cbn [rbind]. rewrite UP.
      apply IH; [|cbn in F; lia]. exists l1, l2. split; [auto|]. split; [auto|]. intros b B. apply N. now right.
Qed.
Lemma set_cvar_none h org x v : forall l c fuel, upwards h c l -> (forall b, In b l -> ~ has_var h x b) -> (length l <= fuel)%nat ->
  set_cvar_from fuel h org c x v = set_var_at h org x v.
Proof.
  intros l c fuel U. revert fuel. induction U as [c k ci K KK UP|c k ci u l K KK UP U IH]; intros fuel N F;
    (destruct fuel as [|n]; [cbn in F; lia|]); cbn [set_cvar_from]; unfold get_cell; rewrite K; cbn [rbind];
    assert (NC := N c (or_introl eq_refl)); unfold has_var, start_vars in NC; rewrite K in NC;
    (destruct (tget (o_vars k) x) as [w|]; [exfalso; apply NC; discriminate|]);
    unfold upper; (assert (A : as_class h c = Ok ci) by (apply as_class_ok; eauto)); rewrite A; cbn [rbind]; rewrite UP; [auto|].
  apply IH; [|cbn in F; lia]. intros b B. apply N. now right.
Qed.
Lemma has_dec h x c : has_var h x c \/ ~ has_var h x c.
Proof. unfold has_var. destruct (start_vars h c x); [left; discriminate|right; auto]. Qed.
Lemma first_or_none h x l : (exists o, first_with h x l o) \/ forall b, In b l -> ~ has_var h x b.
Proof.
  induction l as [|a l IH]; [right; intros b []|]. destruct (has_dec h x a) as [H|H].
  - left. exists a, [], l. split; [reflexivity|]. split; [auto|intros c []].
  - destruct IH as [(o & l1 & l2 & -> & Ho & N)|N].
    + left. exists o, (a :: l1), l2. split; [reflexivity|]. split; [auto|]. intros c [<-|C]; auto.
    + right. intros b [<-|B]; auto.
Qed.
Lemma first_in h x l o : first_with h x l o -> In o l.
Proof. intros (l1 & l2 & -> & _). apply in_or_app. right. now left. Qed.
Lemma first_unique h x l o o' : first_with h x l o -> first_with h x l o' -> o = o'.
Proof.
  intros (l1 & l2 & -> & H & N) (m1 & m2 & E & H' & N').
  revert m1 m2 E N N'. induction l1 as [|a l1 IH]; intros m1 m2 E N N'; destruct m1 as [|b m1]; cbn in E.
  - congruence.
  - injection E as <- _. exfalso. apply (N' o); [now left|auto].
  - injection E as -> _. exfalso. apply (N o'); [now left|auto].
  - injection E as _ E. eapply IH; eauto; intros; [apply N|apply N']; now right.
Qed.
Lemma upwards_mem h c l : upwards h c l -> forall o, In o l -> exists k, h_cells h o = Some k.
Proof.
  induction 1 as [c k ci K KK UP|c k ci u l K KK UP U IH]; intros o [<-|I]; eauto. destruct I.
Qed.

Lemma set_at h o x v k : h_cells h o = Some k -> exists h', set_var_at h o x v = Ok h' /\ start_vars h' o x = Some v /\
  (forall b y, b <> o \/ y <> x -> start_vars h' b y = start_vars h b y) /\ same_classes h h'.
Proof.
  intros K. unfold set_var_at, get_cell. rewrite K. cbn [rbind]. eexists. split; [reflexivity|]. unfold start_vars. cbn [h_cells set_cell].
  split; [rewrite upd_same; cbn [o_vars]; now rewrite tget_tset, name_eqb_refl|]. split.
  - intros b y D. unfold upd. destruct (Z.eqb_spec b o) as [->|]; [|reflexivity]. rewrite K. cbn [o_vars].
    destruct D as [D|D]; [congruence|]. rewrite tget_tset, name_eqb_neq by congruence. reflexivity.
  - split; [|auto]. intros a. cbn [h_cells set_cell]. unfold upd. destruct (Z.eqb_spec a o) as [->|].
    + rewrite K. auto.
    + destruct (h_cells h a); auto.
Qed.
Lemma same_cell h h' a k : same_classes h h' -> h_cells h a = Some k -> exists k', h_cells h' a = Some k' /\ o_class k' = o_class k /\ o_kind k' = o_kind k.
Proof. intros (S & _) K. specialize (S a). rewrite K in S. destruct (h_cells h' a) as [k'|]; [|contradiction]. exists k'. tauto. Qed.
Lemma same_sym h h' : same_classes h h' -> same_classes h' h.
Proof.
  intros (S & A & B & C). split; [|auto]. intros a. specialize (S a). destruct (h_cells h a), (h_cells h' a); try tauto. destruct S; auto.
Qed.
Lemma same_upwards h h' c l : same_classes h h' -> upwards h c l -> upwards h' c l.
Proof.
  intros S U. induction U as [c k ci K KK UP|c k ci u l K KK UP U IH]; destruct (same_cell _ _ _ _ S K) as (k' & K' & _ & EK).
  - eapply UTop; eauto. congruence.
  - eapply UUp; eauto. congruence.
Qed.
Lemma same_plain h h' c : same_classes h h' -> plain h c -> plain h' c.
Proof.
  intros S (k & ci & K & KK & I & X). destruct (same_cell _ _ _ _ S K) as (k' & K' & _ & EK).
  exists k', ci. destruct S as (_ & EX & _). rewrite EX. repeat split; auto. congruence.
Qed.
Lemma same_holder h h' self c : same_classes h h' -> holder h self c -> holder h' self c.
Proof.
  intros S. destruct self as [w|s|a]; cbn [holder]; [destruct S as (_ & _ & EP & _); now rewrite EP..|].
  intros (k & K & H). destruct (same_cell _ _ _ _ S K) as (k' & K' & EC & EK). exists k'. split; [auto|]. rewrite EK, EC.
  assert (T : (exists s si l1 l2, h_cells h (o_class k) = Some s /\ o_kind s = KMod si /\ ci_inc si = false /\
               upwards h (o_class k) (l1 ++ c :: l2) /\ plain h c /\ forall b, In b l1 -> ~ plain h b) ->
     exists s si l1 l2, h_cells h' (o_class k) = Some s /\ o_kind s = KMod si /\ ci_inc si = false /\
               upwards h' (o_class k) (l1 ++ c :: l2) /\ plain h' c /\ forall b, In b l1 -> ~ plain h' b).
  { intros (s & si & l1 & l2 & A1 & A2 & A3 & A4 & A5 & A6). destruct (same_cell _ _ _ _ S A1) as (s' & B1 & _ & B2).
    exists s', si, l1, l2. split; [auto|]. split; [congruence|]. split; [auto|]. split; [now apply (same_upwards h)|].
    split; [now apply (same_plain h)|]. intros b B Q. apply (A6 b B). apply (same_plain h'); auto using same_sym. }
  destruct (o_kind k); auto.
Qed.

(** ** Struct *)
Lemma set_class_frame h a s h' : set_class h a s = Ok h' -> h_exts h' = h_exts h /\ h_nexte h' = h_nexte h.
Proof. unfold set_class. intros H. apply bind_ok in H as (c & _ & H). injection H as <-. auto. Qed.
Lemma singleton_exts fuel : forall h a s h', singleton_class fuel h a = Ok (s, h') ->
  h_nexte h <= h_nexte h' /\ forall e, e < h_nexte h -> h_exts h' e = h_exts h e.
Proof.
  induction fuel as [|n IH]; intros h a s h' H; [discriminate|]. cbn [singleton_class] in H.
  apply bind_ok in H as (c & C & H). apply bind_ok in H as (b & B & H).
  destruct b; [injection H as <- <-; split; [lia|auto]|].
  apply bind_ok in H as ([sup h1] & P & H).
  assert (G1 : h_nexte h <= h_nexte h1 /\ forall e, e < h_nexte h -> h_exts h1 e = h_exts h e).
  { destruct (o_kind c) as [|ci| | |]; try (injection P as <- <-; split; [lia|auto]; fail).
    destruct (ci_mod ci); [injection P as <- <-; split; [lia|auto]|].
    apply bind_ok in P as (u & U & P). destruct u as [u|]; [|injection P as <- <-; split; [lia|auto]].
    apply bind_ok in P as ([s2 h2] & S2 & P). apply ok_inj, pair_equal_spec in P as (_ & <-). cbn [snd]. eauto. }
  destruct G1 as (L1 & G1). unfold singleton_from in H. cbn [alloc_ext alloc] in H.
  apply bind_ok in H as (h4 & S4 & H). apply ok_inj, pair_equal_spec in H as (_ & <-). apply set_class_frame in S4 as (E4 & N4).
  rewrite E4, N4. cbn. split; [lia|]. intros e E. rewrite upd_other by lia. auto.
Qed.

Lemma singleton_cell fuel : forall h a s h' b k, tidy h -> singleton_class fuel h a = Ok (s, h') -> h_cells h b = Some k ->
  exists k', h_cells h' b = Some k' /\ o_vars k' = o_vars k /\ o_kind k' = o_kind k.
Proof.
  induction fuel as [|n IH]; intros h a s h' b k T H K; [discriminate|]. cbn [singleton_class] in H.
  apply bind_ok in H as (c & C & H). apply bind_ok in H as (sg & B & H).
  destruct sg; [injection H as <- <-; eauto|].
  apply bind_ok in H as ([sup h1] & P & H).
  assert (G1 : grows h h1 /\ exists k', h_cells h1 b = Some k' /\ o_vars k' = o_vars k /\ o_kind k' = o_kind k).
  { destruct (o_kind c) as [|ci| | |]; try (injection P as <- <-; eauto using grows_refl; fail).
    destruct (ci_mod ci); [injection P as <- <-; eauto using grows_refl|].
    apply bind_ok in P as (u & U & P). destruct u as [u|]; [|injection P as <- <-; eauto using grows_refl].
    apply bind_ok in P as ([s2 h2] & S2 & P). apply ok_inj, pair_equal_spec in P as (_ & <-). cbn [snd].
    split; [eapply singleton_class_grows; eauto|eauto]. }
  destruct G1 as (G & k1 & K1 & V1 & KK1). pose proof (g_tidy _ _ G T) as T1.
  unfold singleton_from in H. cbn [alloc_ext alloc] in H.
  apply bind_ok in H as (h4 & S4 & H). apply ok_inj, pair_equal_spec in H as (_ & <-). unfold set_class in S4.
  apply bind_ok in S4 as (q & Q & S4). apply ok_inj in S4. subst h4. apply get_cell_ok in Q. cbn [h_cells set_cell h_next] in *.
  assert (NB : b <> h_next h1). { intros ->. rewrite T1 in K1 by lia. discriminate. }
  destruct (Z.eq_dec b a) as [->|D].
  - rewrite upd_same. rewrite upd_other in Q by auto. rewrite K1 in Q. injection Q as <-. eexists. split; [reflexivity|]. auto.
  - rewrite upd_other by auto. rewrite upd_other by auto. eauto.
Qed.

(** The class that Struct.new made *)
Record shape (h : heap) (c : Z) (ms : list name) : Prop := mkshape {
  sp_class : exists k ci arr ka, h_cells h c = Some k /\ o_kind k = KMod ci /\ x_single (h_exts h (ci_ext ci)) = false /\
    tget (o_vars k) n_members = Some (Rf arr) /\ h_cells h arr = Some ka /\ o_kind ka = KArr (map Sy ms);
  sp_init : tget (table h c) n_initialize = Some MInit;
  sp_attr : forall m, In m ms -> tget (table h c) m = Some (MRd (64 :: m)) /\ tget (table h c) (setter_name m) = Some (MWr (64 :: m)) }.
Lemma shape_frame h h' c ms : shape h c ms -> h_exts h' = h_exts h ->
  (forall a k, h_cells h a = Some k -> o_kind k <> KOrd -> h_cells h' a = Some k) -> shape h' c ms.
Proof.
  intros [(k & ci & arr & ka & K & KK & X & M & A & AK) I AT] E F.
  assert (K' : h_cells h' c = Some k) by (apply F; auto; congruence).
  assert (T : table h' c = table h c) by (unfold table, as_class, get_cell; rewrite K, K', E; reflexivity).
  split; [|now rewrite T|intros m; rewrite T; auto].
  exists k, ci, arr, ka. rewrite E. repeat split; auto. apply F; auto; congruence.
Qed.

Lemma struct_shape fuel h sup ms c h1 : tidy h -> struct_new fuel h sup ms = Ok (c, h1) ->
  (forall m1 m2, In m1 ms -> In m2 ms -> m1 <> setter_name m2) -> ~ In n_initialize ms -> shape h1 c ms /\ tidy h1.
Proof.
  intros T H D NI. unfold struct_new in H. destruct ms as [|m0 ms0] eqn:EM; [discriminate|]. rewrite <- EM in *. clear m0 ms0 EM.
  apply bind_ok in H as ([c0 h2] & CU & H). apply bind_ok in H as (h3 & A3 & H). 
  assert (G2 : grows h h2) by (eapply class_under_grows; eauto). pose proof (g_tidy _ _ G2 T) as T2.
  assert (CL : exists k ci, h_cells h2 c0 = Some k /\ o_kind k = KMod ci /\ o_vars k = [] /\ x_single (h_exts h2 (ci_ext ci)) = false).
  { unfold class_under in CU. cbn [alloc_ext alloc] in CU.
    match type of CU with context [singleton_class fuel ?x ?y] => set (hh := x) in *; set (aa := y) in * end.
    apply bind_ok in CU as ([s h4] & SC & CU). apply ok_inj, pair_equal_spec in CU as (<- & <-). cbn [snd].
    assert (TH : tidy hh). { unfold hh. intros b B. cbn in *. rewrite upd_other by lia. apply T. lia. }
    assert (KH : h_cells hh aa = Some (mkcell (h_class h) [] (KMod (mkci (Some sup) false false (h_nexte h))))) by (unfold hh, aa; cbn; now rewrite upd_same).
    destruct (singleton_cell _ _ _ _ _ _ _ TH SC KH) as (k' & K' & V' & KK').
    exists k', (mkci (Some sup) false false (h_nexte h)). split; [auto|]. split; [auto|]. split; [auto|]. cbn [ci_ext].
    destruct (singleton_exts _ _ _ _ _ SC) as (_ & EX). rewrite EX by (unfold hh; cbn; lia). unfold hh. cbn. now rewrite upd_same. }
  destruct CL as (k & ci & K & KK & V & X).
  pose proof (add_method_table _ _ _ _ _ A3) as (C3 & T3 & _ & _ & X3).
  destruct (alloc h3 _) as [arr h4] eqn:AL. apply bind_ok in H as (h5 & S5 & H). apply bind_ok in H as (h6 & A6 & H).
  apply ok_inj, pair_equal_spec in H as (<- & <-).
  assert (NX : h_next h3 = h_next h2). { unfold add_method in A3. apply bind_ok in A3 as (? & _ & A3). injection A3 as <-. reflexivity. }
  unfold alloc in AL. apply pair_equal_spec in AL as (EA & E4).
  assert (CN : c0 <> arr). { intros ->. rewrite <- EA, NX in K. rewrite T2 in K by lia. discriminate. }
  assert (K4 : h_cells h4 c0 = Some k). { subst h4 arr. cbn [h_cells]. rewrite upd_other by auto. now rewrite C3. }
  unfold set_var_at, get_cell in S5. rewrite K4 in S5. cbn [rbind] in S5. apply ok_inj in S5.
  pose proof (attr_cells _ _ _ _ A6) as C6.
  assert (X5 : h_exts h5 = h_exts h3) by (subst h5 h4; reflexivity).
  assert (K5 : h_cells h5 c0 = Some (mkcell (o_class k) (tset (o_vars k) n_members (Rf arr)) (o_kind k))) by (subst h5; cbn [h_cells set_cell]; now rewrite upd_same).
  assert (T5 : table h5 c0 = table h3 c0).
  { unfold table, as_class, get_cell. rewrite K5, C3, K. cbn [rbind o_kind]. now rewrite KK, X5. }
  assert (SN : forall m, n_initialize <> setter_name m).
  { intros m E. assert (last n_initialize 0 = last (setter_name m) 0) as L by now rewrite E. unfold setter_name in L. rewrite last_last in L. discriminate L. }
  split.
  - split.
    + exists (mkcell (o_class k) (tset (o_vars k) n_members (Rf arr)) (o_kind k)), ci, arr, (mkcell (h_class h3) [] (KArr (map Sy ms))).
      rewrite C6. split; [auto|]. split; [auto|]. split.
      { assert (XS : forall ms h h', attr_accessor h c0 ms = Ok h' -> forall e, x_single (h_exts h' e) = x_single (h_exts h e)).
        { clear. induction ms as [|m ms IH]; intros h h' H e; cbn in H; [now injection H as <-|].
          apply bind_ok in H as (h1 & A1 & H). apply bind_ok in H as (h2 & A2 & H).
          apply add_method_table in A1 as (_ & _ & _ & _ & X1). apply add_method_table in A2 as (_ & _ & _ & _ & X2). rewrite (IH _ _ H), X2, X1. auto. }
        rewrite (XS _ _ _ A6), X5, X3. auto. }
      split; [cbn [o_vars]; now rewrite tget_tset, name_eqb_refl|]. split; [|reflexivity].
      subst h5 h4. cbn [h_cells set_cell]. rewrite upd_other by auto. rewrite EA. now rewrite upd_same.
    + rewrite (attr_frame _ _ _ _ n_initialize A6), T5, T3, tget_tset, name_eqb_refl; [auto|]. intros m M. split; [congruence|auto].
    + intros m M. exact (attr_table _ _ _ _ _ A6 M D).
  - intros b B. rewrite C6. assert (EN : h_next h6 = h_next h3 + 1).
    { assert (XN : forall ms h h', attr_accessor h c0 ms = Ok h' -> h_next h' = h_next h).
      { clear. induction ms as [|m ms IH]; intros h h' H; cbn in H; [now injection H as <-|].
        apply bind_ok in H as (h1 & A1 & H). apply bind_ok in H as (h2 & A2 & H). rewrite (IH _ _ H).
        unfold add_method in A1, A2. apply bind_ok in A1 as (? & _ & A1). apply bind_ok in A2 as (? & _ & A2). apply ok_inj in A1, A2. subst. reflexivity. }
      rewrite (XN _ _ _ A6). subst h5 h4. reflexivity. }
    rewrite EN in B. subst h5 h4. cbn [h_cells set_cell]. rewrite upd_other; [rewrite upd_other by lia; rewrite C3; apply T2; lia|].
    intros ->. rewrite T2 in K by lia. discriminate.
Qed.

Lemma set_members_ok : forall ms args h a k, NoDup ms -> h_cells h a = Some k -> (length args <= length ms)%nat ->
  (forall m, In m ms -> tget (o_vars k) (64 :: m) = None) ->
  exists h' k', set_members h (Rf a) (map Sy ms) args = Ok h' /\ h_cells h' a = Some k' /\ o_class k' = o_class k /\ o_kind k' = o_kind k /\
    (forall b, b <> a -> h_cells h' b = h_cells h b) /\ h_exts h' = h_exts h /\ h_next h' = h_next h /\
    (forall m, In m ms -> or_nil (tget (o_vars k') (64 :: m)) = arg_of ms args m) /\
    (forall m, ~ In m ms -> tget (o_vars k') (64 :: m) = tget (o_vars k) (64 :: m)).
Proof.
  induction ms as [|n ms IH]; intros args h a k ND K L E.
  - destruct args; [|cbn in L; lia]. exists h, k. cbn. repeat split; auto. intros m [].
  - destruct args as [|v args].
    + exists h, k. cbn [set_members map]. repeat split; auto. intros m M. now rewrite E.
    + inversion ND as [|? ? NI ND']; subst. cbn [map set_members]. unfold set_var, set_var_at, get_cell. rewrite K. cbn [rbind].
      set (k1 := mkcell (o_class k) (tset (o_vars k) (ivar_name n) v) (o_kind k)). set (h1 := set_cell h a k1).
      assert (K1 : h_cells h1 a = Some k1) by (cbn; now rewrite upd_same).
      destruct (IH args h1 a k1 ND' K1) as (h' & k' & S & K' & C' & KK' & FR & EX & NX & V & O).
      { cbn in L. lia. }
      { intros m M. unfold k1. cbn [o_vars]. rewrite tget_tset, name_eqb_neq; [apply E; now right|]. unfold ivar_name, c_at. intros Q. injection Q as ->. contradiction. }
      exists h', k'. rewrite S. repeat split; auto.
      * intros b B. rewrite FR by auto. cbn. now rewrite upd_other.
      * intros m [<-|M]; cbn [arg_of].
        { rewrite name_eqb_refl, O by auto. unfold k1. cbn [o_vars]. change (ivar_name n) with (64 :: n). now rewrite tget_tset, name_eqb_refl. }
        { rewrite name_eqb_neq by (intros ->; contradiction). auto. }
      * intros m M. rewrite O by (intros Q; apply M; now right). unfold k1. cbn [o_vars]. rewrite tget_tset, name_eqb_neq; [auto|].
        unfold ivar_name, c_at. intros Q. injection Q as ->. apply M. now left.
Qed.

Definition keeps (c : Z) (ms : list name) (l : list (sact * option ov)) (h : heap) : Prop :=
  tidy h /\ shape h c ms /\ forall a, made l a -> exists k, h_cells h a = Some k /\ o_class k = c /\ o_kind k = KOrd /\
    forall m, In m ms -> or_nil (tget (o_vars k) (64 :: m)) = member ms l a m.

Lemma new_ok fuel c ms l h args : NoDup ms -> (0 < fuel)%nat -> keeps c ms l h ->
  ((length ms < length args)%nat -> new_object fuel h c args = Err ArgErr) /\
  ((length args <= length ms)%nat -> exists h', new_object fuel h c args = Ok (Rf (h_next h), h') /\ ~ made l (h_next h) /\
     keeps c ms ((SNew args, Some (Rf (h_next h))) :: l) h').
Proof.
  intros ND FU (T & SP & MD). pose proof SP as [(k & ci & arr & ka & K & KK & X & M & A & AK) I AT].
  assert (NM : ~ made l (h_next h)). { intros Q. destruct (MD _ Q) as (q & Q1 & _). rewrite T in Q1 by lia. discriminate. }
  assert (CI : as_class h c = Ok ci) by (apply as_class_ok; eauto).
  assert (NE : new_object fuel h c args =
    (h' <- struct_initialize fuel (snd (alloc h (mkcell c [] KOrd))) (Rf (h_next h)) args ;; Ok (Rf (h_next h), h'))).
  { unfold new_object. rewrite CI. cbn [rbind]. destruct (alloc h (mkcell c [] KOrd)) as [a h1] eqn:E. unfold alloc in E. apply pair_equal_spec in E as (<- & <-).
    match goal with |- context [search_method fuel ?x c n_initialize] => set (h1 := x) end.
    assert (K1 : h_cells h1 (h_next h) = Some (mkcell c [] KOrd)) by (cbn; now rewrite upd_same).
    assert (C1 : as_class h1 c = Ok ci). { apply as_class_ok. exists k. split; [|auto]. cbn. rewrite upd_other; [auto|]. intros ->. rewrite T in K by lia. discriminate. }
    assert (S1 : search_method fuel h1 c n_initialize = Ok (Some MInit)).
    { assert (LO : lookup fuel h1 (Rf (h_next h)) n_initialize = Ok (Some MInit)).
      { apply (lookup_own fuel h1 (h_next h) _ n_initialize MInit ci K1 C1); [|auto]. cbn [o_class]. rewrite <- (table_ext _ _ _ C1). rewrite <- (table_ext _ _ _ CI) in I. exact I. }
      unfold lookup, class_for_method, get_cell in LO. rewrite K1 in LO. exact LO. }
    rewrite S1. cbn [rbind invoke snd]. destruct (struct_initialize fuel h1 _ args); reflexivity. }
  set (h1 := snd (alloc h (mkcell c [] KOrd))) in *.
  assert (K1 : h_cells h1 (h_next h) = Some (mkcell c [] KOrd)) by (cbn; now rewrite upd_same).
  assert (OLD : forall a q, h_cells h a = Some q -> h_cells h1 a = Some q). { intros a q Q. cbn. rewrite upd_other; [auto|]. intros ->. rewrite T in Q by lia. discriminate. }
  assert (SI : struct_initialize fuel h1 (Rf (h_next h)) args = if (length ms <? length args)%nat then Err ArgErr else set_members h1 (Rf (h_next h)) (map Sy ms) args).
  { unfold struct_initialize, get_class, get_cell at 1. rewrite K1. cbn [rbind o_class]. destruct fuel as [|n]; [lia|]. cbn [real_class].
    unfold is_singleton. assert (C1 : as_class h1 c = Ok ci) by (apply as_class_ok; eauto). rewrite C1. cbn [rbind].
    change (h_exts h1) with (h_exts h). rewrite X. cbn [rbind]. unfold get_var_at, get_cell. rewrite (OLD _ _ K). cbn [rbind]. rewrite M.
    unfold rvalue, get_cell. rewrite (OLD _ _ A). cbn [rbind snd]. rewrite AK, map_length. reflexivity. }
  rewrite NE, SI. split.
  - intros L. destruct (Nat.ltb_spec (length ms) (length args)); [reflexivity|lia].
  - intros L. destruct (Nat.ltb_spec (length ms) (length args)); [lia|].
    destruct (set_members_ok ms args h1 (h_next h) _ ND K1 L) as (h' & k' & S & K' & C' & KK' & FR & EX & NX & V & O); [intros; reflexivity|].
    exists h'. rewrite S. split; [reflexivity|]. split; [auto|]. split; [|split].
    + intros b B. rewrite NX in B. cbn in B. rewrite FR by lia. cbn. rewrite upd_other by lia. apply T. lia.
    + apply (shape_frame h); auto. intros a q Q NO. rewrite FR; [auto|]. intros ->. rewrite T in Q by lia. discriminate.
    + intros a (args' & [Q|Q]).
      * injection Q as <- <-. exists k'. split; [auto|]. split; [auto|]. split; [auto|]. intros m Im. cbn [member]. rewrite Z.eqb_refl. auto.
      * assert (MA : made l a) by (exists args'; auto). destruct (MD a MA) as (q & Q1 & Q2 & Q3 & Q4).
        assert (NA : a <> h_next h) by congruence. exists q. split; [rewrite FR by auto; auto|]. split; [auto|]. split; [auto|].
        intros m Im. cbn [member]. destruct (Z.eqb_spec a (h_next h)); [contradiction|auto].
Qed.
Lemma get_ok fuel c ms l h a m : (0 < fuel)%nat -> keeps c ms l h -> made l a -> In m ms ->
  send fuel h (Rf a) m [] = Ok (member ms l a m, h).
Proof.
  intros FU (T & SP & MD) MA Im. pose proof SP as [(k & ci & arr & ka & K & KK & X & M & A & AK) I AT].
  destruct (MD a MA) as (q & Q1 & Q2 & Q3 & Q4). assert (CI : as_class h c = Ok ci) by (apply as_class_ok; eauto). destruct (AT m Im) as (A1 & _). rewrite <- Q2 in CI, A1.
  unfold send. rewrite (lookup_own fuel h a q m _ ci Q1 CI A1 FU). cbn [rbind invoke exec_getter]. unfold get_var_at, get_cell. rewrite Q1. cbn [rbind].
  now rewrite Q4.
Qed.
Lemma set_ok fuel c ms l h a m v : (0 < fuel)%nat -> keeps c ms l h -> made l a -> In m ms ->
  exists h', send fuel h (Rf a) (setter_name m) [v] = Ok (v, h') /\ keeps c ms ((SSet (Rf a) m v, Some v) :: l) h'.
Proof.
  intros FU (T & SP & MD) MA Im. pose proof SP as [(k & ci & arr & ka & K & KK & X & M & A & AK) I AT].
  destruct (MD a MA) as (q & Q1 & Q2 & Q3 & Q4). assert (CI : as_class h c = Ok ci) by (apply as_class_ok; eauto). destruct (AT m Im) as (_ & A1). rewrite <- Q2 in CI, A1.
  unfold send. rewrite (lookup_own fuel h a q _ _ ci Q1 CI A1 FU). cbn [rbind invoke exec_setter]. unfold set_var_at, get_cell. rewrite Q1. cbn [rbind].
  eexists. split; [reflexivity|]. split; [|split].
  - intros b B. cbn [h_next set_cell h_cells] in *. rewrite upd_other; [now apply T|]. intros ->. rewrite T in Q1 by lia. discriminate.
  - apply (shape_frame h); auto. intros b d D NO. cbn [h_cells set_cell]. rewrite upd_other; [auto|]. intros ->. congruence.
  - intros b (args & [Q|Q]); [discriminate|]. assert (MB : made l b) by (exists args; auto). cbn [h_cells set_cell member].
    destruct (Z.eq_dec b a) as [->|NA].
    + rewrite upd_same. eexists. split; [reflexivity|]. cbn [o_class o_kind o_vars]. split; [auto|]. split; [auto|]. intros n In'.
      rewrite Z.eqb_refl. cbn [andb]. rewrite tget_tset. destruct (name_eqb_spec (64 :: n) (64 :: m)) as [E|NE].
      * injection E as ->. now rewrite name_eqb_refl.
      * rewrite name_eqb_neq by congruence. auto.
    + rewrite upd_other by auto. destruct (MD b MB) as (d & D1 & D2 & D3 & D4). exists d. split; [auto|]. split; [auto|]. split; [auto|].
      intros n In'. destruct (Z.eqb_spec b a); [contradiction|]. cbn [andb]. auto.
Qed.
Lemma keeps_same c ms l h e : keeps c ms l h -> (forall a, made ((e, None) :: l) a -> made l a) -> keeps c ms ((e, None) :: l) h.
Proof.
  intros (T & SP & MD) Q. split; [auto|]. split; [auto|]. intros a MA. destruct (MD a (Q a MA)) as (k & K). exists k.
  replace (member ms ((e, None) :: l) a) with (member ms l a) in *; [auto|].
  destruct e as [args|[w|s|b] m v|[w|s|b] m]; reflexivity.
Qed.
Lemma keeps_runs fuel c ms h0 l h : NoDup ms -> (0 < fuel)%nat -> shape h0 c ms -> tidy h0 -> sruns fuel c h0 l h -> all_proper ms l -> keeps c ms l h.
Proof.
  intros ND FU SP T R. induction R as [|l h e v h' R IH S|l h e k R IH S]; intros AP.
  - split; [auto|]. split; [auto|]. intros a (args & []).
  - destruct AP as (P & AP). specialize (IH AP). destruct e as [args|[w0|s|a] m w|[w0|s|a] m]; try contradiction; cbn [sstep] in S.
    + destruct (new_ok fuel c ms l h args ND FU IH) as (N1 & N2). destruct (Nat.le_gt_cases (length args) (length ms)) as [L|L].
      * destruct (N2 L) as (h2 & E & _ & KP). rewrite E in S. apply ok_inj, pair_equal_spec in S as (<- & <-). auto.
      * rewrite N1 in S by auto. discriminate.
    + destruct P as (MA & Im). destruct (set_ok fuel c ms l h a m w FU IH MA Im) as (h2 & E & KP). change (m ++ [61]) with (setter_name m) in S; rewrite E in S. apply ok_inj, pair_equal_spec in S as (<- & <-). auto.
    + destruct P as (MA & Im). rewrite (get_ok fuel c ms l h a m FU IH MA Im) in S. apply ok_inj, pair_equal_spec in S as (<- & <-).
      destruct IH as (T1 & SP1 & MD). split; [auto|]. split; [auto|]. intros b (args & [Q|Q]); [discriminate|]. destruct (MD b (ex_intro _ args Q)) as (q & Q'). exists q. cbn [member]. auto.
  - destruct AP as (_ & AP). apply keeps_same; [auto|]. intros a (args & [Q|Q]); [discriminate|]. exists args; auto.
Qed.
