(** Proofs about literals. *)
From Coq Require Import ZArith List Bool Lia.
From Verif Require Import ModelLiteral SpecLiteral.
Import ListNotations.

Lemma lit_ind2 (Q : lit -> Prop) : (forall w, Q (LNum w)) -> (forall s, Q (LStr s)) ->
  (forall l, Forall Q l -> Q (LArr l)) -> (forall i, Q (LVar i)) -> forall n, Q n.
Proof.
  intros A B C D. fix IH 1. intros [w|s|l|i]; [apply A|apply B| |apply D].
  apply C. induction l as [|n l IHl]; constructor; [apply IH|exact IHl].
Qed.

Fixpoint gens (l : list lit) (w : world) : world * list linst :=
  match l with
  | [] => (w, [])
  | n :: l => let (w, c1) := gen n w in let (w, c2) := gens l w in (w, c1 ++ c2)
  end.
Lemma gen_arr l w : gen (LArr l) w =
  if forallb is_const_expr l then
    match l with
    | [] => (w, [ICreate 0])
    | _ => let (h, v) := const_array l (heap_of w) in
           let (w, i) := gen_const_val v h w in (w, [i])
    end
  else let (w, c) := gens l w in (w, c ++ [ICreate (length l)]).
Proof. reflexivity. Qed.

(** ** The invariant of the heap: no object refers to an object of the table *)
Definition okref (h : heap) (ct : list lval) (v : lval) : Prop :=
  match v with VNum _ => True | VRef a => (a < length h)%nat /\ ~ In (VRef a) ct end.
Definition okcell (h : heap) (ct : list lval) (c : cell) : Prop := Forall (okref h ct) (refs c).
Definition wf (w : world) : Prop :=
  Forall (okcell (heap_of w) (consts w)) (heap_of w) /\
  (forall a, In (VRef a) (consts w) -> (a < length (heap_of w))%nat).

Lemma okref_ext h hs ct v : okref h ct v -> okref (h ++ hs) ct v.
Proof. destruct v; cbn; [auto|]. rewrite app_length. intuition lia. Qed.
Lemma okcell_ext h hs ct c : okcell h ct c -> okcell (h ++ hs) ct c.
Proof. apply Forall_impl. intros v. apply okref_ext. Qed.
Lemma okref_ct h ct cs v : okref h ct v -> (forall a, In (VRef a) cs -> (length h <= a)%nat) ->
  okref h (ct ++ cs) v.
Proof.
  destruct v as [|a]; cbn; [auto|]. intros [A B] C. split; [exact A|].
  intros I. apply in_app_or in I as [I|I]; [exact (B I)|]. apply C in I. lia.
Qed.

(** what a part of the code of a literal refers to *)
Definition inner (n : lit) (v : lval) : Prop :=
  match n with LNum w => v = VNum w | _ => exists b, v = VRef b end.
Inductive cok (h : heap) (ct : list lval) : lit -> list linst -> Prop :=
| ck_num w : cok h ct (LNum w) [IVal w]
| ck_var i : cok h ct (LVar i) [IGet i]
| ck_str s id a : nth_error ct id = Some (VRef a) -> nth_error h a = Some (CStr s) ->
    cok h ct (LStr s) [IConst id]
| ck_empty : cok h ct (LArr []) [ICreate 0]
| ck_const l id a vs : forallb is_const_expr l = true -> nth_error ct id = Some (VRef a) ->
    nth_error h a = Some (CArr vs) -> Forall2 inner l vs -> cok h ct (LArr l) [IConst id]
| ck_arr l c : forallb is_const_expr l = false -> coks h ct l c ->
    cok h ct (LArr l) (c ++ [ICreate (length l)])
with coks (h : heap) (ct : list lval) : list lit -> list linst -> Prop :=
| cks_nil : coks h ct [] []
| cks_cons n c l c' : cok h ct n c -> coks h ct l c' -> coks h ct (n :: l) (c ++ c').

Scheme cok_mut := Minimality for cok Sort Prop with coks_mut := Minimality for coks Sort Prop.
Combined Scheme cok_both from cok_mut, coks_mut.

(** the code of a literal depends on the objects of the table only *)
Definition keeps (h h' : heap) (ct : list lval) : Prop :=
  forall a c, In (VRef a) ct -> nth_error h a = Some c -> nth_error h' a = Some c.
Lemma nth_ext {A} (l l' : list A) i x : nth_error l i = Some x -> nth_error (l ++ l') i = Some x.
Proof.
  intros H. rewrite nth_error_app1; [exact H|]. apply nth_error_Some. congruence.
Qed.
Lemma cok_keeps h h' ct cs : keeps h h' ct ->
  (forall n c, cok h ct n c -> cok h' (ct ++ cs) n c) /\
  (forall l c, coks h ct l c -> coks h' (ct ++ cs) l c).
Proof.
  intros K. apply cok_both; intros.
  - apply ck_num.
  - apply ck_var.
  - eapply ck_str; [apply nth_ext; eassumption|]. eapply K; [|eassumption].
    eapply nth_error_In; eassumption.
  - apply ck_empty.
  - eapply ck_const; [eassumption|apply nth_ext; eassumption| |eassumption].
    eapply K; [|eassumption]. eapply nth_error_In; eassumption.
  - apply ck_arr; assumption.
  - apply cks_nil.
  - apply cks_cons; assumption.
Qed.
Lemma keeps_ext h hs ct : keeps h (h ++ hs) ct.
Proof. intros a c _. apply nth_ext. Qed.

(** ** Code generation *)
Definition grows (w w' : world) : Prop :=
  (exists hs, heap_of w' = heap_of w ++ hs) /\
  (exists cs, consts w' = consts w ++ cs /\
     forall a, In (VRef a) cs -> (length (heap_of w) <= a)%nat).
Lemma grows_refl w : grows w w.
Proof.
  split; [exists []; rewrite app_nil_r; reflexivity|].
  exists []. rewrite app_nil_r. split; [reflexivity|intros a []].
Qed.
Lemma grows_trans w w1 w2 : grows w w1 -> grows w1 w2 -> grows w w2.
Proof.
  intros [[h1 A1] [c1 [B1 C1]]] [[h2 A2] [c2 [B2 C2]]]. split.
  - exists (h1 ++ h2). rewrite A2, A1, app_assoc. reflexivity.
  - exists (c1 ++ c2). split; [rewrite B2, B1, app_assoc; reflexivity|].
    intros a I. apply in_app_or in I as [I|I]; [apply C1, I|].
    apply C2 in I. rewrite A1, app_length in I. lia.
Qed.

Lemma alloc_ok h ct c : Forall (okcell h ct) h -> okcell h ct c -> Forall (okcell (h ++ [c]) ct) (h ++ [c]).
Proof.
  intros A B. apply Forall_app. split.
  - eapply Forall_impl; [|exact A]. intros x. apply okcell_ext.
  - constructor; [apply okcell_ext, B|constructor].
Qed.

(** an object made last, to which nothing refers, goes into the table *)
Lemma top_ok h ct c : Forall (okcell h ct) h -> okcell h ct c ->
  (forall a, In (VRef a) ct -> (a < length h)%nat) ->
  wf (mkworld (h ++ [c]) (ct ++ [VRef (length h)])).
Proof.
  intros A B C. split; cbn [heap_of consts].
  - assert (X : forall x, okcell h ct x -> okcell (h ++ [c]) (ct ++ [VRef (length h)]) x).
    { intros x. apply Forall_impl. intros v V. apply okref_ext. apply okref_ct; [exact V|].
      intros a [E|[]]. injection E as <-. lia. }
    apply Forall_app. split; [|constructor; [apply X, B|constructor]].
    eapply Forall_impl; [|exact A]. exact X.
  - intros a I. rewrite app_length. cbn. apply in_app_or in I as [I|[I|[]]].
    + apply C in I. lia.
    + injection I as <-. lia.
Qed.

Lemma const_exprs_ok ct l : forall h h' vs, forallb is_const_expr l = true ->
  Forall (okcell h ct) h -> (forall a, In (VRef a) ct -> (a < length h)%nat) ->
  const_exprs l h = (h', vs) ->
  exists hs, h' = h ++ hs /\ Forall (okcell h' ct) h' /\ Forall (okref h' ct) vs /\ Forall2 inner l vs.
Proof.
  induction l as [|n l IH]; intros h h' vs CL A B H; cbn in H.
  - injection H as <- <-. exists []. rewrite app_nil_r. repeat split; try constructor. exact A.
  - cbn in CL. apply andb_prop in CL as [CN CL].
    destruct (const_expr n h) as [h1 v] eqn:E. destruct (const_exprs l h1) as [h2 vs2] eqn:E2.
    injection H as <- <-.
    assert (X : exists hs, h1 = h ++ hs /\ Forall (okcell h1 ct) h1 /\ okref h1 ct v /\ inner n v).
    { destruct n; try discriminate CN; cbn in E; injection E as <- <-.
      - exists []. rewrite app_nil_r. repeat split. exact A.
      - exists [CStr s]. split; [reflexivity|]. split; [apply alloc_ok; [exact A|constructor]|].
        split; [|eexists; reflexivity]. cbn. rewrite app_length. cbn. split; [lia|].
        intros I. apply B in I. lia. }
    destruct X as (hs & -> & A1 & V1 & I1).
    destruct (IH _ _ _ CL A1 ltac:(intros a I; apply B in I; rewrite app_length; lia) E2)
      as (hs2 & -> & A2 & V2 & I2).
    exists (hs ++ hs2). rewrite app_assoc. split; [reflexivity|]. split; [exact A2|].
    split; constructor; try assumption. apply okref_ext, V1.
Qed.

Lemma gen_ok n : forall w w' c, wf w -> gen n w = (w', c) ->
  wf w' /\ grows w w' /\ cok (heap_of w') (consts w') n c.
Proof.
  induction n as [x|s|l IH|i] using lit_ind2; intros w w' c W H.
  - cbn in H. injection H as <- <-. split; [exact W|]. split; [apply grows_refl|constructor].
  - cbn in H. injection H as <- <-. destruct w as [h ct], W as [A B]. cbn [heap_of consts] in *.
    split; [apply top_ok; [exact A|constructor|exact B]|]. split.
    + split; [exists [CStr s]; reflexivity|]. exists [VRef (length h)]. split; [reflexivity|].
      intros a [E|[]]. injection E as <-. cbn. lia.
    + cbn. apply (ck_str _ _ s (length ct) (length h)).
      * rewrite nth_error_app2 by lia. rewrite Nat.sub_diag. reflexivity.
      * rewrite nth_error_app2 by lia. rewrite Nat.sub_diag. reflexivity.
  - rewrite gen_arr in H. destruct (forallb is_const_expr l) eqn:CL.
    + destruct l as [|n0 l].
      { injection H as <- <-. split; [exact W|]. split; [apply grows_refl|constructor]. }
      remember (n0 :: l) as ll eqn:EL. unfold const_array in H.
      destruct (const_exprs ll (heap_of w)) as [h1 vs] eqn:E. cbn in H. injection H as <- <-.
      destruct w as [h ct], W as [A B]. cbn [heap_of consts] in *.
      destruct (const_exprs_ok ct ll h h1 vs CL A B E) as (hs & -> & A1 & V1 & I1).
      split; [|split].
      * apply top_ok; [exact A1|exact V1|]. intros a I. apply B in I. rewrite app_length. lia.
      * split; [exists (hs ++ [CArr vs]); cbn [heap_of]; rewrite app_assoc; reflexivity|].
        exists [VRef (length (h ++ hs))]. split; [reflexivity|]. cbn [heap_of].
        intros a [Q|[]]. injection Q as <-. rewrite app_length. lia.
      * cbn. eapply (ck_const _ _ _ (length ct) (length (h ++ hs)) vs); try assumption.
        -- rewrite nth_error_app2 by lia. rewrite Nat.sub_diag. reflexivity.
        -- rewrite nth_error_app2 by lia. rewrite Nat.sub_diag. reflexivity.
    + destruct (gens l w) as [w1 c1] eqn:E. injection H as <- <-.
      enough (Q : wf w1 /\ grows w w1 /\ coks (heap_of w1) (consts w1) l c1).
      { destruct Q as (Q1 & Q2 & Q3). split; [exact Q1|]. split; [exact Q2|]. apply ck_arr; assumption. }
      clear CL. revert w w1 c1 W E. induction IH as [|n l IHn _ IHl]; intros w w1 c1 W E; cbn in E.
      * injection E as <- <-. split; [exact W|]. split; [apply grows_refl|constructor].
      * destruct (gen n w) as [w2 c2] eqn:E2. destruct (gens l w2) as [w3 c3] eqn:E3.
        injection E as <- <-.
        destruct (IHn _ _ _ W E2) as (W2 & G2 & K2). destruct (IHl _ _ _ W2 E3) as (W3 & G3 & K3).
        split; [exact W3|]. split; [eapply grows_trans; eassumption|].
        constructor; [|exact K3]. destruct G3 as [[hs EH] [cs [EC _]]]. rewrite EH, EC.
        eapply cok_keeps; [apply keeps_ext|exact K2].
  - cbn in H. injection H as <- <-. split; [exact W|]. split; [apply grows_refl|constructor].
Qed.

(** ** Evaluation *)
Lemma run_app ct env c c' s : run ct env (c ++ c') s =
  match run ct env c s with Some s => run ct env c' s | None => None end.
Proof.
  revert s. induction c as [|i c IH]; intros s; [reflexivity|]. cbn.
  destruct (step ct env i s); [apply IH|reflexivity].
Qed.

Scheme outline_mut := Minimality for outline Sort Prop
  with outline_all_mut := Minimality for outline_all Sort Prop.
Combined Scheme outline_both from outline_mut, outline_all_mut.
Lemma outline_ext h hs env :
  (forall n v own, outline h env n v own -> outline (h ++ hs) env n v own) /\
  (forall l vs own, outline_all h env l vs own -> outline_all (h ++ hs) env l vs own).
Proof.
  apply outline_both; intros.
  - constructor.
  - constructor; assumption.
  - constructor. apply nth_ext; assumption.
  - eapply o_const; [assumption|apply nth_ext; eassumption|assumption].
  - eapply o_arr; [assumption|apply nth_ext; eassumption|assumption].
  - constructor.
  - constructor; assumption.
Qed.

(** what an evaluation does to the heap *)
Definition made (h h' : heap) (ct : list lval) (own : list nat) : Prop :=
  (exists hs, h' = h ++ hs) /\ Forall (okcell h' ct) h' /\
  NoDup own /\ Forall (fun a => (length h <= a < length h')%nat) own.

Lemma const_same n : constant n = is_const_expr n.
Proof. destruct n; reflexivity. Qed.
Lemma consts_same l : forallb constant l = forallb is_const_expr l.
Proof. induction l as [|n l IH]; [reflexivity|]. cbn. rewrite IH, const_same. reflexivity. Qed.

Lemma NoDup_parts a b c (l l' : list nat) : NoDup l -> NoDup l' ->
  Forall (fun x => (a <= x < b)%nat) l -> Forall (fun x => (b <= x < c)%nat) l' -> NoDup (l ++ l').
Proof.
  intros A B C D. induction l as [|x l IH]; [exact B|]. inversion A. inversion C. subst.
  cbn. constructor; [|apply IH; assumption]. intros I. apply in_app_or in I as [I|I]; [contradiction|].
  rewrite Forall_forall in D. apply D in I. lia.
Qed.

Section Eval.
Variables ct env : list lval.

Lemma dup_ok h a c stk id : nth_error ct id = Some (VRef a) -> nth_error h a = Some c ->
  run ct env [IConst id] (h, stk) = Some (h ++ [c], VRef (length h) :: stk).
Proof. intros A B. cbn. rewrite A. cbn. rewrite B. reflexivity. Qed.

Lemma made_one h c : Forall (okcell h ct) h -> okcell h ct c -> made h (h ++ [c]) ct [length h].
Proof.
  intros A B. split; [eexists; reflexivity|]. split; [apply alloc_ok; assumption|].
  split; [constructor; [intros []|constructor]|]. constructor; [|constructor].
  rewrite app_length. cbn. lia.
Qed.
Lemma cell_of h a c : Forall (okcell h ct) h -> nth_error h a = Some c -> okcell h ct c.
Proof. intros A B. rewrite Forall_forall in A. apply A. eapply nth_error_In, B. Qed.
Lemma last_cell (h : heap) c : nth_error (h ++ [c]) (length h) = Some c.
Proof. rewrite nth_error_app2 by lia. rewrite Nat.sub_diag. reflexivity. Qed.

Definition ready (h h0 : heap) : Prop :=
  keeps h h0 ct /\ Forall (okcell h0 ct) h0 /\
  (forall a, In (VRef a) ct -> (a < length h0)%nat) /\ Forall (okref h0 ct) env.

Lemma ready_next h h0 h1 own : ready h h0 -> made h0 h1 ct own -> ready h h1.
Proof.
  intros (K & A & B & E) ((hs & ->) & A1 & _). split; [|split; [exact A1|split]].
  - intros a c I H. apply nth_ext. eapply K; eassumption.
  - intros a I. apply B in I. rewrite app_length. lia.
  - eapply Forall_impl; [|exact E]. intros v. apply okref_ext.
Qed.

Lemma eval_ok h :
  (forall n c, cok h ct n c -> forall h0 stk, ready h h0 -> bound (length env) n = true ->
     exists h' v own, run ct env c (h0, stk) = Some (h', v :: stk) /\
       made h0 h' ct own /\ okref h' ct v /\ outline h' env n v own) /\
  (forall l c, coks h ct l c -> forall h0 stk, ready h h0 -> forallb (bound (length env)) l = true ->
     exists h' vs own, run ct env c (h0, stk) = Some (h', rev vs ++ stk) /\
       made h0 h' ct own /\ Forall (okref h' ct) vs /\ outline_all h' env l vs own).
Proof.
  assert (NEW : forall h0 c, ready h h0 -> okref (h0 ++ [c]) ct (VRef (length h0))).
  { intros h0 c (_ & _ & B & _). cbn. rewrite app_length. cbn. split; [lia|].
    intros I. apply B in I. lia. }
  assert (NOTHING : forall h0, ready h h0 -> made h0 h0 ct []).
  { intros h0 (_ & A & _). split; [exists []; rewrite app_nil_r; reflexivity|].
    split; [exact A|]. split; constructor. }
  apply cok_both.
  - intros w h0 stk R _. exists h0, (VNum w), []. split; [reflexivity|].
    split; [apply NOTHING, R|]. split; [exact I|constructor].
  - intros i h0 stk R BD. cbn in BD. apply Nat.ltb_lt in BD.
    destruct (nth_error env i) as [v|] eqn:E; [|apply nth_error_None in E; lia].
    exists h0, v, []. split; [cbn; rewrite E; reflexivity|]. split; [apply NOTHING, R|].
    split; [|constructor; exact E]. destruct R as (_ & _ & _ & F). rewrite Forall_forall in F.
    apply F. eapply nth_error_In, E.
  - intros s id a C H h0 stk R _. pose proof R as (K & A & _).
    assert (H0 : nth_error h0 a = Some (CStr s)).
    { eapply K; [eapply nth_error_In, C|exact H]. }
    exists (h0 ++ [CStr s]), (VRef (length h0)), [length h0].
    split; [eapply dup_ok; eassumption|]. split; [apply made_one; [exact A|constructor]|].
    split; [apply NEW, R|]. constructor. apply last_cell.
  - intros h0 stk R _. pose proof R as (K & A & _).
    exists (h0 ++ [CArr []]), (VRef (length h0)), [length h0].
    split; [reflexivity|]. split; [apply made_one; [exact A|constructor]|].
    split; [apply NEW, R|]. eapply o_const; [reflexivity|apply last_cell|constructor].
  - intros l id a vs CL C H F h0 stk R _. pose proof R as (K & A & _).
    assert (H0 : nth_error h0 a = Some (CArr vs)).
    { eapply K; [eapply nth_error_In, C|exact H]. }
    exists (h0 ++ [CArr vs]), (VRef (length h0)), [length h0].
    split; [eapply dup_ok; eassumption|].
    split; [apply made_one; [exact A|eapply cell_of; eassumption]|].
    split; [apply NEW, R|]. eapply o_const; [rewrite consts_same; exact CL|apply last_cell|exact F].
  - intros l c CL _ IH h0 stk R BD. cbn [bound] in BD.
    destruct (IH h0 stk R BD) as (h1 & vs & own & E & M & V & O).
    pose proof (ready_next _ _ _ _ R M) as R1. pose proof M as (_ & A1 & ND & FA).
    destruct M as ((hs & EH) & _).
    assert (LV : length vs = length l).
    { clear - O. induction O; cbn; congruence. }
    exists (h1 ++ [CArr vs]), (VRef (length h1)), (length h1 :: own).
    split; [|split; [|split]].
    + rewrite run_app, E. cbn [run step].
      replace (length (rev vs ++ stk) <? length l)%nat with false.
      2: { symmetry. apply Nat.ltb_ge. rewrite app_length, rev_length. lia. }
      rewrite <- LV, <- rev_length.
      rewrite firstn_app, skipn_app, Nat.sub_diag, firstn_all, skipn_all. cbn [firstn skipn app].
      rewrite app_nil_r, rev_involutive. reflexivity.
    + split; [exists (hs ++ [CArr vs]); rewrite EH, app_assoc; reflexivity|].
      split; [apply alloc_ok; [exact A1|exact V]|]. split.
      * constructor; [|exact ND]. intros I. rewrite Forall_forall in FA. apply FA in I. lia.
      * assert (LE : (length h0 <= length h1)%nat) by (rewrite EH, app_length; lia).
        constructor; [rewrite app_length; cbn; lia|].
        eapply Forall_impl; [|exact FA]. intros a. rewrite app_length. cbn. lia.
    + apply NEW, R1.
    + eapply o_arr; [rewrite consts_same; exact CL|apply last_cell|].
      apply outline_ext, O.
  - intros h0 stk R _. exists h0, [], []. split; [reflexivity|].
    split; [apply NOTHING, R|]. split; constructor.
  - intros n c l c' _ IHn _ IHl h0 stk R BD. cbn in BD. apply andb_prop in BD as [BN BL].
    destruct (IHn h0 stk R BN) as (h1 & v & own & E & M & V & O).
    pose proof (ready_next _ _ _ _ R M) as R1.
    destruct (IHl h1 (v :: stk) R1 BL) as (h2 & vs & own2 & E2 & M2 & V2 & O2).
    destruct M as ((hs & EH) & A1 & ND & FA), M2 as ((hs2 & EH2) & A2 & ND2 & FA2).
    exists h2, (v :: vs), (own ++ own2). split; [|split; [|split]].
    + rewrite run_app, E, E2. cbn [rev]. rewrite <- app_assoc. reflexivity.
    + split; [exists (hs ++ hs2); rewrite EH2, EH, app_assoc; reflexivity|].
      split; [exact A2|]. split; [eapply NoDup_parts; eassumption|].
      assert (L1 : (length h0 <= length h1)%nat) by (rewrite EH, app_length; lia).
      assert (L2 : (length h1 <= length h2)%nat) by (rewrite EH2, app_length; lia).
      apply Forall_app. split; (eapply Forall_impl; [|eassumption]); intros a; cbn; lia.
    + constructor; [|exact V2]. rewrite EH2. apply okref_ext, V.
    + constructor; [|exact O2]. rewrite EH2. apply outline_ext, O.
Qed.
End Eval.

(** ** Programs *)
Definition inv (p : prog) : Prop :=
  wf (w_of p) /\ Forall (okref (heap_of (w_of p)) (consts (w_of p))) (known p) /\
  Forall (fun x => cok (heap_of (w_of p)) (consts (w_of p)) (fst x) (snd x)) (lits p).

Lemma has_ok h ct k v : Forall (okcell h ct) h -> Forall (okref h ct) k -> has h k v -> okref h ct v.
Proof.
  intros A K. rewrite Forall_forall in K. induction 1 as [w|v I|a l v H IH E I].
  - exact I.
  - apply K, I.
  - pose proof (cell_of _ _ _ _ A E) as C. unfold okcell in C. rewrite Forall_forall in C. apply C, I.
Qed.

Lemma cok_mono h hs ct n c : cok h ct n c -> cok (h ++ hs) ct n c.
Proof. intros H. rewrite <- (app_nil_r ct). eapply cok_keeps; [apply keeps_ext|exact H]. Qed.

(** the value of an evaluation, if there is one *)
Lemma run_okcell ct env c : forall h stk h' stk',
  Forall (okcell h ct) h -> (forall a, In (VRef a) ct -> (a < length h)%nat) ->
  Forall (okref h ct) env -> Forall (okref h ct) stk ->
  run ct env c (h, stk) = Some (h', stk') ->
  (exists hs, h' = h ++ hs) /\ Forall (okcell h' ct) h' /\ Forall (okref h' ct) stk'.
Proof.
  induction c as [|i c IH]; intros h stk h' stk' A B E S R; cbn [run] in R.
  - injection R as <- <-. split; [exists []; rewrite app_nil_r; reflexivity|]. auto.
  - destruct (step ct env i (h, stk)) as [[h1 stk1]|] eqn:ST; [|discriminate].
    assert (X : (exists hs, h1 = h ++ hs) /\ Forall (okcell h1 ct) h1 /\ Forall (okref h1 ct) stk1).
    { assert (EX : forall l c, Forall (okref h ct) l -> Forall (okref (h ++ [c]) ct) l).
      { intros l c0. apply Forall_impl. intros v. apply okref_ext. }
      assert (NEW : forall c, okref (h ++ [c]) ct (VRef (length h))).
      { intros c0. cbn. rewrite app_length. cbn. split; [lia|]. intros I. apply B in I. lia. }
      destruct i as [w|id|n|k]; cbn [step] in ST.
      - injection ST as <- <-. split; [exists []; rewrite app_nil_r; reflexivity|].
        split; [exact A|]. constructor; [exact I|exact S].
      - destruct (nth_error ct id) as [[w|a]|]; [| |discriminate]; cbn in ST.
        + injection ST as <- <-. split; [exists []; rewrite app_nil_r; reflexivity|].
          split; [exact A|]. constructor; [exact I|exact S].
        + destruct (nth_error h a) as [c0|] eqn:H; [|discriminate]. injection ST as <- <-.
          split; [eexists; reflexivity|].
          split; [apply alloc_ok; [exact A|eapply cell_of; eassumption]|].
          constructor; [apply NEW|apply EX, S].
      - destruct (length stk <? n)%nat; [discriminate|]. cbn [alloc] in ST. injection ST as <- <-.
        split; [eexists; reflexivity|]. split.
        + apply alloc_ok; [exact A|]. apply Forall_rev.
          rewrite Forall_forall in S |- *. intros v I. apply S. rewrite <- (firstn_skipn n stk).
          apply in_or_app. left. exact I.
        + constructor; [apply NEW|]. apply EX.
          rewrite Forall_forall in S |- *. intros v I. apply S. rewrite <- (firstn_skipn n stk).
          apply in_or_app. right. exact I.
      - destruct (nth_error env k) as [v|] eqn:EV; [|discriminate]. injection ST as <- <-.
        split; [exists []; rewrite app_nil_r; reflexivity|]. split; [exact A|].
        constructor; [|exact S]. rewrite Forall_forall in E. apply E. eapply nth_error_In, EV. }
    destruct X as ((hs & EH) & A1 & S1).
    destruct (IH h1 stk1 h' stk' A1) as ((hs2 & EH2) & A2 & S2); try assumption.
    + intros a I. apply B in I. rewrite EH, app_length. lia.
    + rewrite EH. eapply Forall_impl; [|exact E]. intros v. apply okref_ext.
    + split; [exists (hs ++ hs2); rewrite EH2, EH, app_assoc; reflexivity|]. auto.
Qed.

Lemma does_inv p p' : inv p -> does p p' -> inv p'.
Proof.
  intros ((A & B) & K & L) D.
  destruct D as [w ls k n w' c G|w ls k n c env h v I E R|w ls k c F|w ls k a c h1 c0 h2 HA F EH LA];
    cbn [w_of lits known] in *.
  - destruct (gen_ok n w w' c (conj A B) G) as (W' & G' & C).
    destruct G' as [[hs EH] [cs [EC NW]]]. split; [exact W'|]. cbn [w_of lits known]. split.
    + rewrite EH, EC. eapply Forall_impl; [|exact K]. intros v V.
      apply okref_ext, okref_ct; assumption.
    + constructor; [exact C|]. eapply Forall_impl; [|exact L]. intros x X. rewrite EH, EC.
      eapply cok_keeps; [apply keeps_ext|exact X].
  - destruct (run_okcell (consts w) env c (heap_of w) [] h [v]) as ((hs & EH) & A1 & S1); auto.
    { eapply Forall_impl; [|exact E]. intros x. apply has_ok; assumption. }
    split; [split; cbn; [exact A1|]|cbn [w_of lits known heap_of consts]; split].
    + intros a J. apply B in J. rewrite EH, app_length. lia.
    + inversion S1. subst. constructor; [assumption|]. eapply Forall_impl; [|exact K].
      intros x. apply okref_ext.
    + eapply Forall_impl; [|exact L]. intros x X. rewrite EH. apply cok_mono, X.
  - assert (OC : okcell (heap_of w) (consts w) c).
    { unfold okcell. eapply Forall_impl; [|exact F]. intros x. apply has_ok; assumption. }
    split; [split; cbn; [apply alloc_ok; assumption|]|cbn [w_of lits known heap_of consts]; split].
    + intros a J. apply B in J. rewrite app_length. lia.
    + constructor.
      * cbn. rewrite app_length. cbn. split; [lia|]. intros J. apply B in J. lia.
      * eapply Forall_impl; [|exact K]. intros x. apply okref_ext.
    + eapply Forall_impl; [|exact L]. intros x X. apply cok_mono, X.
  - assert (OC : okcell (heap_of w) (consts w) c).
    { unfold okcell. eapply Forall_impl; [|exact F]. intros x. apply has_ok; assumption. }
    pose proof (has_ok _ _ _ _ A K HA) as [_ NT].
    assert (LEN : length (h1 ++ c :: h2) = length (heap_of w)).
    { rewrite EH, !app_length. reflexivity. }
    assert (SR : forall v, okref (heap_of w) (consts w) v -> okref (h1 ++ c :: h2) (consts w) v).
    { intros [x|x]; cbn; [auto|]. rewrite LEN. auto. }
    assert (SC : forall x, okcell (heap_of w) (consts w) x -> okcell (h1 ++ c :: h2) (consts w) x).
    { intros x. apply Forall_impl. exact SR. }
    split; [split; cbn|cbn [w_of lits known heap_of consts]; split].
    + rewrite EH in A at 2. apply Forall_app in A as [A1 A2]. inversion A2. subst.
      apply Forall_app. split; [eapply Forall_impl; [exact SC|assumption]|].
      constructor; [apply SC, OC|eapply Forall_impl; [exact SC|assumption]].
    + intros x J. rewrite LEN. apply B, J.
    + eapply Forall_impl; [exact SR|exact K].
    + eapply Forall_impl; [|exact L]. intros x X. rewrite <- (app_nil_r (consts w)).
      eapply cok_keeps; [|exact X]. intros b y J Y. rewrite EH in Y.
      assert (b <> a) by (intros ->; exact (NT J)).
      destruct (Nat.lt_ge_cases b (length h1)).
      * rewrite nth_error_app1 in Y |- * by assumption. exact Y.
      * rewrite nth_error_app2 in Y |- * by assumption.
        destruct (b - length h1)%nat eqn:Q; [lia|]. exact Y.
Qed.

Lemma doing_inv p : doing p -> inv p.
Proof.
  induction 1 as [|p p' _ IH D]; [|eapply does_inv; eassumption].
  split; [split; [constructor|intros a []]|]. split; constructor.
Qed.

(** ** Literals without strings in constant arrays *)
Lemma plain_denotes h env :
  (forall n v own, outline h env n v own -> plain n = true -> denotes h env n v own) /\
  (forall l vs own, outline_all h env l vs own -> forallb plain l = true -> denote_all h env l vs own).
Proof.
  apply outline_both.
  - intros w _. constructor.
  - intros i v E _. constructor. exact E.
  - intros s a E _. constructor. exact E.
  - intros l a vs C E F P. cbn [plain] in P. rewrite C in P. eapply d_arr; [exact E|].
    clear E C. induction F as [|n v l vs R F IH]; [constructor|].
    cbn in P. apply andb_prop in P as [P1 P2]. apply (ds_cons h env n v [] l vs []); [|apply IH, P2].
    destruct n; try discriminate P1. subst. constructor.
  - intros l a vs own C E _ IH P. cbn [plain] in P. rewrite C in P.
    eapply d_arr; [exact E|]. apply IH, P.
  - intros _. constructor.
  - intros n v own l vs own' _ IHn _ IHl P. cbn in P. apply andb_prop in P as [P1 P2].
    constructor; auto.
Qed.
