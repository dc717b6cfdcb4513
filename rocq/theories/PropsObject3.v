(** Properties of class variables and of Struct (C84, C85). *)
From Coq Require Import ZArith List Bool Lia.
From Verif Require Import Base ModelObject SpecObject ProofsObject ProofsObject2 ProofsObject3 PropsObject.
Import ListNotations.
Open Scope Z_scope.

(** ** C84: class variables *)

(** class A (6), class B < A (9), an object of B with a singleton class (11) and
    one of A (13); A has @@x *)
Definition cvx : name := [64; 64; 120].
Definition fam : heap :=
  match exec 9 boot [] [AClass 1; AClass 6; AAlloc 9; ASing (Rf 11); AAlloc 6; ACvSet (Rf 6) cvx (Pk 1)] with Some (_, h) => h | None => boot end.
Definition kcls (c : Z) (vars : list (name * ov)) (up : option Z) (e : Z) : cell := mkcell c vars (KMod (mkci up false false e)).
Lemma fam_facts : h_cells fam 0 = Some (kcls 4 [] None 0) /\ h_cells fam 1 = Some (kcls 7 [] (Some 0) 1) /\
  h_cells fam 6 = Some (kcls 8 [(cvx, Pk 1)] (Some 1) 5) /\ h_cells fam 9 = Some (kcls 10 [] (Some 6) 8) /\ h_cells fam 12 = Some (kcls 3 [] (Some 9) 10) /\
  h_cells fam 11 = Some (mkcell 12 [] KOrd) /\ h_cells fam 13 = Some (mkcell 6 [] KOrd) /\
  x_single (h_exts fam 5) = false /\ x_single (h_exts fam 8) = false /\ x_single (h_exts fam 10) = true /\ h_main fam = 5.
Proof. repeat (split; [vm_compute; reflexivity|]). vm_compute. reflexivity. Qed.
Opaque fam.
Lemma fam_up : upwards fam 9 [9; 6; 1; 0] /\ upwards fam 6 [6; 1; 0] /\ upwards fam 12 [12; 9; 6; 1; 0].
Proof.
  destruct fam_facts as (K0 & K1 & K6 & K9 & K12 & _).
  assert (U0 : upwards fam 0 [0]) by (eapply UTop; [exact K0|reflexivity|reflexivity]).
  assert (U1 : upwards fam 1 [1; 0]) by (eapply UUp; [exact K1|reflexivity|reflexivity|exact U0]).
  assert (U6 : upwards fam 6 [6; 1; 0]) by (eapply UUp; [exact K6|reflexivity|reflexivity|exact U1]).
  assert (U9 : upwards fam 9 [9; 6; 1; 0]) by (eapply UUp; [exact K9|reflexivity|reflexivity|exact U6]).
  split; [auto|]. split; [auto|]. eapply UUp; [exact K12|reflexivity|reflexivity|exact U9].
Qed.
Lemma fam_holder : holder fam (Rf 11) 9 /\ holder fam (Rf 13) 6 /\ holder fam (Rf 6) 6.
Proof.
  destruct fam_facts as (K0 & K1 & K6 & K9 & K12 & K11 & K13 & X5 & X8 & X10 & _).
  assert (P9 : plain fam 9) by (do 2 eexists; split; [exact K9|]; split; [reflexivity|]; split; [reflexivity|exact X8]).
  assert (P6 : plain fam 6) by (do 2 eexists; split; [exact K6|]; split; [reflexivity|]; split; [reflexivity|exact X5]).
  split; [|split; [|eexists; split; [exact K6|reflexivity]]].
  - eexists. split; [exact K11|]. cbn [o_kind o_class]. do 2 eexists. exists [12], [6; 1; 0].
    split; [exact K12|]. split; [reflexivity|]. split; [reflexivity|]. split; [apply fam_up|]. split; [auto|].
    intros b [<-|[]] (k & ci & K & KK & _ & S). rewrite K12 in K. injection K as <-. injection KK as <-. cbn [ci_ext] in S. congruence.
  - eexists. split; [exact K13|]. cbn [o_kind o_class]. do 2 eexists. exists [], [1; 0].
    split; [exact K6|]. split; [reflexivity|]. split; [reflexivity|]. split; [apply fam_up|]. split; [auto|]. intros b [].
Qed.
Lemma fam_main a : a <> 5 -> Rf a <> Rf (h_main fam).
Proof. destruct fam_facts as (_ & _ & _ & _ & _ & _ & _ & _ & _ & _ & ->). congruence. Qed.
Lemma fam_vars y : start_vars fam 9 y = None /\ start_vars fam 6 y = tget [(cvx, Pk 1)] y /\ start_vars fam 1 y = None /\ start_vars fam 0 y = None.
Proof. destruct fam_facts as (K0 & K1 & K6 & K9 & _). unfold start_vars. rewrite K0, K1, K6, K9. auto. Qed.
Lemma fam_first : first_with fam cvx [9; 6; 1; 0] 6 /\ first_with fam cvx [6; 1; 0] 6.
Proof.
  destruct (fam_vars cvx) as (V9 & V6 & _ & _). split.
  - exists [9], [1; 0]. split; [reflexivity|]. split; [unfold has_var; rewrite V6; discriminate|]. intros c [<-|[]] H. now apply H.
  - exists [], [1; 0]. split; [reflexivity|]. split; [unfold has_var; rewrite V6; discriminate|]. intros c [].
Qed.
Definition cvy : name := [64; 64; 121].
Lemma fam_none o : In o [9; 6; 1; 0] -> ~ has_var fam cvy o.
Proof. destruct (fam_vars cvy) as (V9 & V6 & V1 & V0). intros [<-|[<-|[<-|[<-|[]]]]] H; apply H; auto. Qed.

(** A class variable is read from the first class that has it, starting with
    the class of the receiver (or the receiver, if that is a class) and going
    upwards; there is a NameError if none has it *)
Theorem C84_get : forall h self x c l,
  self <> Rf (h_main h) -> holder h self c -> upwards h c l ->
  (forall o, first_with h x l o -> exists w, start_vars h o x = Some w /\ reads h self x (Some w)) /\
  ((forall o, In o l -> ~ has_var h x o) -> reads h self x None).
Proof.
  intros h self x c l NM HO U. destruct (holder_ok _ _ _ HO) as (n & HN).
  assert (M : is_main h self = false).
  { unfold is_main. destruct self as [| |a]; auto. destruct (Z.eqb_spec a (h_main h)); congruence. }
  split.
  - intros o F. destruct (get_cvar_found h x l c o (length l) U F (le_n _)) as (w & W & _). exists w. split; [auto|].
    exists (n + length l)%nat. intros fuel L. cbn [step]. unfold get_class_var. rewrite M, HN by lia. cbn [rbind].
    destruct (get_cvar_found h x l c o fuel U F) as (w' & W' & ->); [lia|]. cbn [rbind]. congruence.
  - intros N. exists (n + length l)%nat. intros fuel L. cbn [step]. unfold get_class_var. rewrite M, HN by lia. cbn [rbind].
    rewrite (get_cvar_none h x l c fuel U N); [reflexivity|lia].
Qed.
Print Assumptions C84_get.
(** the object of B reads @@x from A and has no @@y *)
Example C84_get_case : reads fam (Rf 11) cvx (Some (Pk 1)) /\ reads fam (Rf 11) cvy None.
Proof.
  assert (H9 := proj1 fam_holder). assert (U9 := proj1 fam_up). assert (N := fam_main 11 ltac:(discriminate)).
  destruct (C84_get fam (Rf 11) cvx 9 _ N H9 U9) as (G & _).
  destruct (C84_get fam (Rf 11) cvy 9 _ N H9 U9) as (_ & G').
  split; [|exact (G' fam_none)].
  destruct (G 6 (proj1 fam_first)) as (w & W & R). rewrite (proj1 (proj2 (fam_vars cvx))) in W. now injection W as <-.
Qed.

(** A write goes to the first class that has the variable; if none has it, the
    class of the receiver gets it.  Nothing else changes *)
Theorem C84_set : forall h self x v c l,
  self <> Rf (h_main h) -> holder h self c -> upwards h c l ->
  exists h' o, writes h self x v h' /\
    (first_with h x l o \/ (forall b, In b l -> ~ has_var h x b) /\ o = c) /\
    start_vars h' o x = Some v /\
    (forall b y, b <> o \/ y <> x -> start_vars h' b y = start_vars h b y) /\ same_classes h h'.
Proof.
  intros h self x v c l NM HO U. destruct (holder_ok _ _ _ HO) as (n & HN).
  assert (M : is_main h self = false).
  { unfold is_main. destruct self as [| |a]; auto. destruct (Z.eqb_spec a (h_main h)); congruence. }
  destruct (first_or_none h x l) as [(o & F)|N].
  - destruct (upwards_mem _ _ _ U o (first_in _ _ _ _ F)) as (k & K). destruct (set_at h o x v k K) as (h' & S & V & FR & SC).
    exists h', o. split; [|auto]. exists (n + length l)%nat. intros fuel L. cbn [step]. unfold set_class_var. rewrite M, HN by lia. cbn [rbind].
    rewrite (set_cvar_found h c x v l c o fuel U F) by lia. rewrite S. reflexivity.
  - destruct (upwards_head _ _ _ U) as (r & ->). destruct (upwards_mem _ _ _ U c (or_introl eq_refl)) as (k & K).
    destruct (set_at h c x v k K) as (h' & S & V & FR & SC).
    exists h', c. split; [|auto]. exists (n + length (c :: r))%nat. intros fuel L. cbn [step]. unfold set_class_var. rewrite M, HN by lia. cbn [rbind].
    rewrite (set_cvar_none h c x v (c :: r) c fuel U N) by lia. rewrite S. reflexivity.
Qed.
Print Assumptions C84_set.
(** the object of B writes @@x, which A has, and @@y, which nobody has *)
Example C84_set_case : exists h1 h2, writes fam (Rf 11) cvx (Pk 3) h1 /\ start_vars h1 6 cvx = Some (Pk 3) /\
  writes fam (Rf 11) cvy (Pk 4) h2 /\ start_vars h2 9 cvy = Some (Pk 4) /\ start_vars h2 6 cvy = None.
Proof.
  assert (H9 := proj1 fam_holder). assert (U9 := proj1 fam_up). assert (N := fam_main 11 ltac:(discriminate)).
  destruct (C84_set fam (Rf 11) cvx (Pk 3) 9 _ N H9 U9) as (h1 & o1 & W1 & O1 & V1 & _).
  destruct (C84_set fam (Rf 11) cvy (Pk 4) 9 _ N H9 U9) as (h2 & o2 & W2 & O2 & V2 & F2 & _).
  exists h1, h2. split; [auto|].
  assert (o1 = 6) as ->.
  { destruct O1 as [F|(Q & _)]; [exact (first_unique _ _ _ _ _ F (proj1 fam_first))|]. exfalso. apply (Q 6); [cbn; auto|]. now destruct (proj1 fam_first) as (? & ? & _ & H & _). }
  split; [auto|]. split; [auto|].
  assert (o2 = 9) as ->.
  { destruct O2 as [F|(_ & E)]; [|auto]. exfalso. apply (fam_none o2); [exact (first_in _ _ _ _ F)|]. now destruct F as (? & ? & _ & H & _). }
  split; [auto|]. rewrite F2 by (left; discriminate). exact (proj1 (proj2 (fam_vars cvy))).
Qed.

Lemma reads_same h self x r r' : reads h self x r -> reads h self x r' -> r = r'.
Proof.
  intros (n & A) (m & B). specialize (A (n + m)%nat ltac:(lia)). specialize (B (n + m)%nat ltac:(lia)). rewrite A in B.
  destruct r, r'; congruence.
Qed.
Lemma writes_same h self x v h1 h2 : writes h self x v h1 -> writes h self x v h2 -> h1 = h2.
Proof.
  intros (n & A) (m & B). specialize (A (n + m)%nat ltac:(lia)). specialize (B (n + m)%nat ltac:(lia)). rewrite A in B. congruence.
Qed.
Lemma first_frame h h' x l o : (forall b, In b l -> start_vars h' b x = start_vars h b x) -> first_with h x l o -> first_with h' x l o.
Proof.
  intros F (l1 & l2 & -> & H & N). exists l1, l2. split; [auto|]. unfold has_var in *. split.
  - rewrite F; [auto|]. apply in_or_app. right. now left.
  - intros c C. rewrite F; [auto|]. apply in_or_app. now left.
Qed.
Lemma reads_frame h h' self x c l r : self <> Rf (h_main h) -> holder h self c -> upwards h c l -> same_classes h h' ->
  (forall o, first_with h x l o -> first_with h' x l o /\ start_vars h' o x = start_vars h o x) ->
  ((forall o, In o l -> ~ has_var h x o) -> forall o, In o l -> ~ has_var h' x o) ->
  reads h self x r -> reads h' self x r.
Proof.
  intros NM HO U SC A B R. destruct (C84_get h self x c l NM HO U) as (G1 & G2).
  assert (NM' : self <> Rf (h_main h')) by (destruct SC as (_ & _ & _ & ->); auto).
  destruct (C84_get h' self x c l NM' (same_holder _ _ _ _ SC HO) (same_upwards _ _ _ _ SC U)) as (G1' & G2').
  destruct (first_or_none h x l) as [(o & F)|N].
  - destruct (G1 o F) as (w & W & RW). destruct (A o F) as (F' & V). destruct (G1' o F') as (w' & W' & RW').
    assert (r = Some w) by (eapply reads_same; eauto). subst r. congruence.
  - assert (r = None) by (eapply reads_same; eauto). subst r. auto.
Qed.

(** After a write by one receiver: it reads the value back; so does every
    receiver that reads the variable from the same class; a variable found in
    another class, and every other variable, reads as before *)
Theorem C84_shared : forall h self x v h' c l self' c' l',
  self <> Rf (h_main h) -> holder h self c -> upwards h c l ->
  self' <> Rf (h_main h) -> holder h self' c' -> upwards h c' l' ->
  writes h self x v h' ->
  reads h' self x (Some v) /\
  (forall y r, y <> x -> reads h self' y r -> reads h' self' y r) /\
  (forall o, first_with h x l o ->
     (first_with h x l' o -> reads h' self' x (Some v)) /\
     (~ first_with h x l' o -> forall r, reads h self' x r -> reads h' self' x r)) /\
  ((forall o, In o l -> ~ has_var h x o) ->
     (forall l1 l2, l' = l1 ++ c :: l2 -> (forall o, In o l1 -> ~ has_var h x o) -> reads h' self' x (Some v)) /\
     (forall r, ~ In c l' -> reads h self' x r -> reads h' self' x r)).
Proof.
  intros h self x v h' c l self' c' l' NM HO U NM' HO' U' W.
  destruct (C84_set h self x v c l NM HO U) as (h1 & o & W1 & O & V & FR & SC).
  assert (h1 = h') by (eapply writes_same; eauto). subst h1. clear W1.
  assert (MN : forall s, s <> Rf (h_main h) -> s <> Rf (h_main h')) by (destruct SC as (_ & _ & _ & ->); auto).
  assert (RD : forall s d m, s <> Rf (h_main h) -> holder h s d -> upwards h d m -> first_with h' x m o -> reads h' s x (Some v)).
  { intros s d m N1 H1 U1 F. destruct (C84_get h' s x d m (MN s N1) (same_holder _ _ _ _ SC H1) (same_upwards _ _ _ _ SC U1)) as (G & _).
    destruct (G o F) as (w & E & R). congruence. }
  assert (FO : forall m l1 l2, m = l1 ++ o :: l2 -> (forall b, In b l1 -> ~ has_var h x b) -> exists o', first_with h' x m o' /\ o' = o).
  { intros m l1 l2 -> N. exists o. split; [|auto]. revert N. induction l1 as [|a l1 IH]; intros N.
    - exists [], l2. split; [auto|]. split; [unfold has_var; congruence|intros b []].
    - destruct (Z.eq_dec a o) as [->|D].
      + exists [], (l1 ++ o :: l2). split; [auto|]. split; [unfold has_var; congruence|intros b []].
      + destruct IH as (p1 & p2 & E & H & M); [intros b B; apply N; now right|].
        exists (a :: p1), p2. split; [cbn; now rewrite E|]. split; [auto|]. intros b [<-|B]; [|auto].
        unfold has_var. rewrite FR by auto. apply N. now left. }
  split; [|split; [|split]].
  - apply (RD self c l NM HO U). destruct O as [(l1 & l2 & -> & H & N)|(N & ->)].
    + destruct (FO (l1 ++ o :: l2) l1 l2 eq_refl N) as (o' & F & ->). auto.
    + destruct (upwards_head _ _ _ U) as (r & ->). destruct (FO (c :: r) [] r eq_refl) as (o' & F & ->); [intros b []|auto].
  - intros y r Y R. apply (reads_frame h h' self' y c' l' r NM' HO' U' SC); [| |exact R].
    + intros q F. split; [|now rewrite FR by auto]. eapply first_frame; [|exact F]. intros; apply FR; auto.
    + intros N q Q. unfold has_var. rewrite FR by auto. now apply N.
  - intros o1 F1. assert (o1 = o) as ->.
    { destruct O as [F|(N & _)]; [eapply first_unique; eauto|]. exfalso. destruct F1 as (l1 & l2 & -> & H & _).
      apply (N o1); [apply in_or_app; right; now left|auto]. }
    split.
    + intros (l1 & l2 & E & H & N). apply (RD self' c' l' NM' HO' U'). destruct (FO l' l1 l2 E N) as (o' & F & ->). auto.
    + intros NF r R. assert (HV : has_var h x o) by (destruct F1 as (? & ? & _ & H & _); auto).
      assert (SAME : forall q, has_var h' x q <-> has_var h x q).
      { intros q. destruct (Z.eq_dec q o) as [->|D]; [|unfold has_var; rewrite FR by auto; tauto]. unfold has_var. rewrite V. split; intros _; [exact HV|discriminate]. }
      apply (reads_frame h h' self' x c' l' r NM' HO' U' SC); [| |exact R].
      * intros q (l1 & l2 & E & H & N). split.
        { exists l1, l2. split; [auto|]. split; [now apply SAME|]. intros b B. rewrite SAME. auto. }
        rewrite FR; [auto|]. left. intros ->. apply NF. exists l1, l2. auto.
      * intros N q Q. rewrite SAME. auto.
  - intros NN. assert (o = c) as ->. { destruct O as [F|(_ & E)]; [|auto]. exfalso. apply (NN o); [eapply first_in; eauto|]. destruct F as (? & ? & _ & H & _). auto. }
    split.
    + intros l1 l2 E N. apply (RD self' c' l' NM' HO' U'). destruct (FO l' l1 l2 E N) as (o' & F & ->). auto.
    + intros r NI R. apply (reads_frame h h' self' x c' l' r NM' HO' U' SC); [| |exact R].
      * intros q F. split; [|rewrite FR; [auto|]; left; intros ->; apply NI; eapply first_in; eauto].
        eapply first_frame; [|exact F]. intros b B. apply FR. left. intros ->. contradiction.
      * intros N q Q. unfold has_var. rewrite FR; [now apply N|]. left. intros ->. contradiction.
Qed.
Print Assumptions C84_shared.
(** what the object of B writes to @@x the object of A reads *)
Example C84_shared_case : exists h', writes fam (Rf 11) cvx (Pk 3) h' /\ reads h' (Rf 13) cvx (Some (Pk 3)).
Proof.
  destruct C84_set_case as (h' & _ & W & _). exists h'. split; [auto|].
  assert (H9 := proj1 fam_holder). assert (H6 := proj1 (proj2 fam_holder)). assert (U9 := proj1 fam_up). assert (U6 := proj1 (proj2 fam_up)).
  assert (N11 := fam_main 11 ltac:(discriminate)). assert (N13 := fam_main 13 ltac:(discriminate)).
  destruct (C84_shared fam (Rf 11) cvx (Pk 3) h' 9 _ (Rf 13) 6 _ N11 H9 U9 N13 H6 U6 W) as (_ & _ & G & _).
  exact (proj1 (G 6 (proj1 fam_first)) (proj2 fam_first)).
Qed.

(** The class is that of the receiver, not the one the method is written in
    (executor.rs:580-627): a method of A that writes @@y, run on an object of
    B < A, puts @@y into B, and the same method run on an object of A does not
    find it.  In Ruby the variable is A's in both cases *)
Theorem C84_lexical_refuted : exists acts y,
  cvar y /\ answers 9 boot acts = Some [None; Some (OV (Pk 1)); Some (OV (Pk 1)); Some (OV (Rf 12)); Some (OV (Rf 11)); Some (OV (Rf 9)); Some (OV (Rf 6))] /\
  acts = [AClass 1; AClass 6; AAlloc 9; AAlloc 6; ACvSet (Rf 11) y (Pk 1); ACvGet (Rf 11) y; ACvGet (Rf 12) y].
Proof. eexists _, [64; 64; 121]. split; [exists [121]; reflexivity|]. split; [|reflexivity]. vm_compute. reflexivity. Qed.
Print Assumptions C84_lexical_refuted.

(** In [class << self] the singleton class gets the variable, and the class does
    not have it *)
Theorem C84_singleton_refuted : exists acts y,
  cvar y /\ answers 9 boot acts = Some [None; Some (OV (Pk 1)); Some (OV (Rf 8)); Some (OV (Rf 6))] /\
  acts = [AClass 1; ASing (Rf 6); ACvSet (Rf 8) y (Pk 1); ACvGet (Rf 6) y].
Proof. eexists _, [64; 64; 121]. split; [exists [121]; reflexivity|]. split; [|reflexivity]. vm_compute. reflexivity. Qed.
Print Assumptions C84_singleton_refuted.

(** include copies the variables of the module: the class (7) keeps reading the
    value the module (6) had when it was included, and misses later ones *)
Theorem C84_include_refuted : exists acts x y,
  cvar x /\ cvar y /\
  answers 9 boot acts = Some [None; Some (OV (Pk 1)); Some (OV (Pk 4)); Some (OV (Pk 3)); Some (OV (Rf 7)); Some (OV (Pk 1)); Some (OV (Rf 7)); Some (OV (Rf 6))] /\
  acts = [AModule; AClass 1; ACvSet (Rf 6) x (Pk 1); AInclude 7 (Rf 6); ACvSet (Rf 6) x (Pk 3); ACvSet (Rf 6) y (Pk 4); ACvGet (Rf 7) x; ACvGet (Rf 7) y].
Proof.
  eexists _, [64; 64; 120], [64; 64; 121]. split; [exists [120]; reflexivity|]. split; [exists [121]; reflexivity|]. split; [|reflexivity].
  vm_compute. reflexivity.
Qed.
Print Assumptions C84_include_refuted.

(** ** C85: Struct *)

(** Objects of a class made by Struct.new, after any calls of new, of the member
    writers and of the member readers on them: a member reads what was last
    assigned to it, before that the argument of new in its place, and nil if there
    was none; every assignment succeeds; new with at most as many arguments as
    members gives a new object; with more there is an ArgumentError *)
Theorem C85_struct : forall fuel h sup ms c h0 l h1,
  tidy h -> struct_new fuel h sup ms = Ok (c, h0) -> NoDup ms -> (0 < fuel)%nat ->
  (forall m1 m2, In m1 ms -> In m2 ms -> m1 <> m2 ++ [61]) -> ~ In n_initialize ms ->
  sruns fuel c h0 l h1 -> all_proper ms l ->
  (forall a m, made l a -> In m ms ->
     sstep fuel c (SGet (Rf a) m) h1 = Ok (member ms l a m, h1) /\
     forall v, exists h2, sstep fuel c (SSet (Rf a) m v) h1 = Ok (v, h2)) /\
  (forall args, (length args <= length ms)%nat -> exists a h2, sstep fuel c (SNew args) h1 = Ok (Rf a, h2) /\ ~ made l a) /\
  (forall args, (length ms < length args)%nat -> sstep fuel c (SNew args) h1 = Err ArgErr).
Proof.
  intros fuel h sup ms c h0 l h1 T S ND FU D NI R AP. destruct (struct_shape _ _ _ _ _ _ T S D NI) as (SP & T0).
  assert (KP := keeps_runs _ _ _ _ _ _ ND FU SP T0 R AP). cbn [sstep]. split; [|split].
  - intros a m MA Im. split; [exact (get_ok _ _ _ _ _ _ _ FU KP MA Im)|]. intros v.
    destruct (set_ok fuel c ms l h1 a m v FU KP MA Im) as (h2 & E & _). eauto.
  - intros args L. destruct (new_ok fuel c ms l h1 args ND FU KP) as (_ & N). destruct (N L) as (h2 & E & M & _). eauto.
  - intros args L. destruct (new_ok fuel c ms l h1 args ND FU KP) as (N & _). auto.
Qed.
Print Assumptions C85_struct.
(** members a and b: an object (10) with one argument, whose b is then assigned,
    one (11) with two, and a call with three *)
Example C85_struct_case : let ms := [[97]; [98]] in exists h0 l h1,
  struct_new 9 boot 1 ms = Ok (6, h0) /\ NoDup ms /\ (forall m1 m2, In m1 ms -> In m2 ms -> m1 <> m2 ++ [61]) /\ ~ In n_initialize ms /\
  sruns 9 6 h0 l h1 /\ all_proper ms l /\ length l = 5%nat /\
  made l 10 /\ made l 11 /\ member ms l 10 [97] = Pk 3 /\ member ms l 10 [98] = Pk 9 /\ member ms l 11 [98] = Pk 7.
Proof.
  intros ms. destruct (struct_new 9 boot 1 ms) as [[c h0]| |] eqn:E0; [|vm_compute in E0; discriminate..].
  assert (EC : c = 6). { assert (X : match struct_new 9 boot 1 ms with Ok (c, _) => c | _ => 0 end = c) by now rewrite E0. vm_compute in X. auto. } subst c.
  assert (EH : h0 = match struct_new 9 boot 1 ms with Ok (_, h) => h | _ => boot end) by now rewrite E0.
  pose (acts := [SNew [Pk 3]; SNew [Pk 5; Pk 7]; SSet (Rf 10) [98] (Pk 9); SNew [Pk 1; Pk 3; Pk 5]; SGet (Rf 10) [97]]).
  destruct (sexec 9 6 h0 [] acts) as [[l h1]|] eqn:E; [|subst h0; vm_compute in E; discriminate].
  assert (L : l = match sexec 9 6 h0 [] acts with Some (l, _) => l | None => [] end) by now rewrite E.
  exists h0, l, h1. split; [reflexivity|]. split; [repeat constructor; cbn; intuition discriminate|].
  split; [intros m1 m2 [<-|[<-|[]]] [<-|[<-|[]]]; discriminate|]. split; [cbn; intuition discriminate|].
  split; [exact (sexec_runs 9 6 h0 acts [] h0 l h1 (SNil _ _ _) E)|]. clear E E0. subst h0. vm_compute in L. subst l.
  split; [|split; [reflexivity|]; split; [eexists; cbn; eauto 9|]; split; [eexists; cbn; eauto 9|]; repeat split].
  cbn. repeat split; auto; eexists; cbn; eauto 9.
Qed.

(** An object of a subclass of such a class cannot be made: initialize looks for
    the members in the class of the object only and panics *)
Theorem C85_subclass_refuted : exists fuel h sup ms c h0 d h1,
  tidy h /\ struct_new fuel h sup ms = Ok (c, h0) /\ class_under fuel h0 c = Ok (d, h1) /\
  forall args, new_object fuel h1 d args = Panic.
Proof.
  exists 9%nat, boot, 1, [[97]], 6.
  destruct (struct_new 9 boot 1 [[97]]) as [[c h0]| |] eqn:E0; [|vm_compute in E0; discriminate..].
  assert (EC : c = 6). { assert (X : match struct_new 9 boot 1 [[97]] with Ok (c, _) => c | _ => 0 end = c) by now rewrite E0. vm_compute in X. auto. } subst c.
  assert (EH : h0 = match struct_new 9 boot 1 [[97]] with Ok (_, h) => h | _ => boot end) by now rewrite E0. clear E0.
  destruct (class_under 9 h0 6) as [[d h1]| |] eqn:E1; [|subst h0; vm_compute in E1; discriminate..].
  exists h0, d, h1. split; [exact boot_tidy|]. split; [reflexivity|]. split; [exact E1|]. intros args.
  assert (D : d = match class_under 9 h0 6 with Ok p => fst p | _ => 0 end) by now rewrite E1.
  assert (H : h1 = match class_under 9 h0 6 with Ok p => snd p | _ => boot end) by now rewrite E1. clear E1.
  rewrite D, H, EH. vm_compute. reflexivity.
Qed.
Print Assumptions C85_subclass_refuted.

(** The same member twice is accepted (Ruby raises ArgumentError): both
    arguments go to one variable *)
Theorem C85_duplicate_refuted : exists fuel h sup m c h0,
  tidy h /\ struct_new fuel h sup [m; m] = Ok (c, h0) /\
  exists o h1, new_object fuel h0 c [Pk 3; Pk 5] = Ok (o, h1) /\ send fuel h1 o m [] = Ok (Pk 5, h1).
Proof.
  exists 9%nat, boot, 1, [97], 6. eexists. split; [exact boot_tidy|]. split; [vm_compute; reflexivity|].
  do 2 eexists. split; vm_compute; reflexivity.
Qed.
Print Assumptions C85_duplicate_refuted.
