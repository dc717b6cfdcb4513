(* C107: raise and rescue. *)
From Coq Require Import String.
From Verif Require Import Base ProofsBase ModelArray ProofsArray ModelGC ProofsGC ModelText ModelClass SpecClass ProofsClass ProofsClass2 ProofsClass3 ProofsClass4 ProofsClass5 ProofsClass6 ProofsClass7 ProofsClass8 ModelRaise SpecRaise ProofsRaise ProofsRaise2 ProofsRaise3.
Local Open Scope Z_scope.

(* A clause takes exactly the errors whose class has one of the listed classes
   among its ancestors: for classes without prepended modules; missing: listed
   modules, and classes with prepended modules (refuted below) *)
Theorem C107_rescue_partial : forall site csite w v c exs, hist site csite w -> class_of w v c -> plain_list w exs ->
  exists b, eventually (fun f => eval_rescue w f v exs = Ok b) /\ (b = true <-> takes w exs c).
Proof. intros site csite w v c exs H C P. apply eval_rescue_ok; auto; [eapply hist_wf|eapply hist_cop]; eassumption. Qed.

(* The value an error is, when it arrives at a begin block *)
Inductive arrives (w : world) (id : Z) : rerr -> evalue -> Prop :=
| ar_val v : arrives w id (Exception_, v) v
| ar_err e g n c : error_class e = Some n -> named w n c -> arrives w id (e, g) (EExc id c (err_message e))
| ar_none m g c : named w NStandardError c -> arrives w id (None_ m, g) (EExc id c m).
Lemma top_named w n c : n <> NDomainError -> named w n c -> get_toplevel_constant w n = Ok c.
Proof.
  intros Hn H. assert (E : own_const w (cid n) OBJECT = Some c) by (destruct n; try congruence; exact H).
  unfold get_toplevel_constant, get_const, get_mod. unfold own_const in E. destruct (mods w OBJECT) as [m|]; [|discriminate]. cbn [rbind]. rewrite E. reflexivity.
Qed.
Lemma arrives_from w id e v : Booted w -> arrives w id e v ->
  exists o, from_exception w id (fst e) = Ok o /\ match o with Some u => u | None => snd e end = v.
Proof.
  intros B A. destruct A as [v|e g n c E N|m g c N]; cbn [fst snd].
  - exists None. auto.
  - exists (Some (EExc id c (err_message e))). split; [|reflexivity]. destruct e as [b m|k m| | | |code|m|m]; cbn [error_class] in E; try discriminate; injection E as <-; cbn [from_exception].
    + rewrite (top_named w _ c) by (discriminate || exact N). reflexivity.
    + destruct k; cbn [ruby_class] in N; try (rewrite (top_named w _ c) by (discriminate || exact N); reflexivity).
      destruct N as (mm & N1 & N2). rewrite (top_named w NMath mm) by (discriminate || exact N1). cbn [rbind]. unfold get_const, get_mod. unfold own_const in N2. destruct (mods w mm) as [mi|]; [|discriminate]. cbn [rbind]. rewrite N2. reflexivity.
    + rewrite (top_named w _ c) by (discriminate || exact N). reflexivity.
  - exists (Some (EExc id c m)). split; [|reflexivity]. cbn [from_exception]. pose proof (bt_named w B NStandardError ltac:(split; discriminate)) as H. cbn [named] in *. rewrite N in H. injection H as ->. reflexivity.
Qed.
(* The clauses: the first one that takes the error runs, with the error; if there
   is none, the same error goes on. *)
Theorem C107_clauses_partial : forall site csite w id e v c std cs, after_boot site csite w -> arrives w id e v -> class_of w v c -> named w NStandardError std ->
  (forall x, In x cs -> plain_list w (match x with [] => [One std] | _ => x end)) ->
  exists k, first_taking w std c cs k /\ eventually (fun f => handle w f id e cs = Ok (match k with Some i => Clause i v | None => Rethrown Exception_ v end)).
Proof.
  intros site csite w id e v c std cs HA A C N P. pose proof (after_hist _ _ _ HA) as H. pose proof (after_booted _ _ _ HA) as B.
  destruct (clauses_ok w v c std cs (hist_wf _ _ _ H) (hist_cop _ _ _ H) C N P) as (k & F & [M E]). exists k. split; [exact F|]. exists M. intros f Hf.
  destruct (arrives_from w id e v B A) as (o & E1 & E2). unfold handle. specialize (E f Hf).
  assert (NI : forall m, fst e <> Internal m) by (intros m; inversion A as [|x g n cc EE|]; subst; cbn; try discriminate; intros ->; discriminate EE).
  assert (G : (o0 <- from_exception w id (fst e) ;; (let v0 := match o0 with Some v0 => v0 | None => snd e end in k0 <- clauses w f v0 cs ;; match k0 with Some i => Ok (Clause i v0) | None => Ok (Rethrown Exception_ v0) end))
    = Ok (match k with Some i => Clause i v | None => Rethrown Exception_ v end)).
  { rewrite E1. cbn [rbind]. cbv zeta. rewrite E2, E. cbn [rbind]. destruct k; reflexivity. }
  destruct (fst e) eqn:Ee; try exact G. destruct (NI m eq_refl).
Qed.

(* ---- the errors of the interpreter ---- *)
Fixpoint kindb (fuel : nat) (n t : cname) : bool :=
  (cid n =? cid t) || match fuel with O => false | S f => match ruby_super n with Some m => kindb f m t | None => false end end.
Lemma kindb_sound t : forall fuel n, kindb fuel n t = true -> ruby_kind_of n t.
Proof.
  induction fuel as [|f IH]; intros n H; cbn [kindb] in H; apply orb_prop in H; destruct H as [H|H]; try (apply Z.eqb_eq in H; apply cid_inj in H; subst; constructor); [discriminate|].
  destruct (ruby_super n) as [m|] eqn:E; [|discriminate]. econstructor; [exact E|apply IH; exact H].
Qed.
Lemma kindb_complete n t : ruby_kind_of n t -> kindb 5 n t = true.
Proof.
  intros H. assert (G : exists k, (k <= 5)%nat /\ kindb k n t = true); [|destruct n, t; destruct G as (k & Hk & G); do 6 (destruct k as [|k]; [first [discriminate G|reflexivity]|]); lia].
  induction H as [n|n m k E H (j & Hj & IH)]; [exists O; split; [lia|]; cbn; rewrite Z.eqb_refl; reflexivity|].
  assert (G5 : kindb 5 m k = true) by (destruct m, k; do 6 (destruct j as [|j]; [first [discriminate IH|reflexivity]|]); lia).
  exists 5%nat. split; [lia|]. destruct n; cbn in E; try discriminate; injection E as <-; destruct k; cbn in G5 |- *; first [discriminate G5|reflexivity].
Qed.
Lemma boot_table n t : placed n -> present t -> (In (addr t) (boot_anc n) <-> ruby_kind_of n t).
Proof.
  intros (A & B & C & D) [E F]. assert (K : (if in_dec Z.eq_dec (addr t) (boot_anc n) then true else false) = kindb 5 n t) by (destruct n; try congruence; destruct t; try congruence; vm_compute; reflexivity).
  generalize dependent (boot_anc n). intros L K. destruct (in_dec Z.eq_dec (addr t) L) as [HI|HI]; split; intros H; try exact HI.
  - apply (kindb_sound t 5). symmetry. exact K.
  - destruct (HI H).
  - apply kindb_complete in H. congruence.
Qed.
Lemma named_det w n c : Booted w -> present n -> named w n c -> c = addr n.
Proof.
  intros B P N. pose proof (bt_named w B n P) as H. destruct n; cbn [named] in *; try congruence. destruct N as (m & N1 & N2), H as (m' & H1 & H2). congruence.
Qed.
(* Errors the interpreter raises are of Ruby's class, and rescue (by class, or
   bare) takes them as Ruby's class hierarchy says. Missing: LoadError and
   RangeError (there are no such classes), StopIteration and Math::DomainError
   (which have another superclass), classes with prepended modules. *)
Theorem C107_interpreter_errors_partial : forall site csite w id e g n ns cs c, after_boot site csite w -> error_class e = Some n -> placed n -> named w n c ->
  Forall2 (fun t a => present t /\ named w t a /\ prepended w a = false) (match ns with [] => [NStandardError] | _ => ns end) cs ->
  exists r, eventually (fun f => handle w f id (e, g) [match ns with [] => [] | _ => map One cs end] = Ok r) /\
    let v := EExc id c (err_message e) in
    (r = Clause 0 v /\ exists t, In t (match ns with [] => [NStandardError] | _ => ns end) /\ ruby_kind_of n t) \/
    (r = Rethrown Exception_ v /\ forall t, In t (match ns with [] => [NStandardError] | _ => ns end) -> ~ ruby_kind_of n t).
Proof.
  intros site csite w id e g n ns cs c HA E P N F. pose proof (after_hist _ _ _ HA) as H. pose proof (after_booted _ _ _ HA) as B.
  assert (Pn : present n) by (destruct P as (A1 & A2 & _); split; assumption).
  pose proof (named_det w n c B Pn N) as ->. set (v := EExc id (addr n) (err_message e)).
  assert (AR : arrives w id (e, g) v) by (apply (ar_err w id e g n (addr n)); assumption).
  assert (Hn : mods w (addr n) <> None) by (apply user_mod_ok; apply (bt_class w B n Pn)).
  assert (CO : class_of w v (addr n)) by (split; [discriminate|]; cbn; apply p_here; [exact Hn|apply (bt_single w B n Pn)]).
  set (std := addr NStandardError). assert (NS : named w NStandardError std) by (apply (bt_named w B); split; discriminate).
  set (L := match ns with [] => [NStandardError] | _ => ns end) in *.
  assert (EXS : match (match ns with [] => [] | _ => map One cs end) with [] => [One std] | _ => (match ns with [] => [] | _ => map One cs end) end = map One cs).
  { unfold L in F. destruct ns as [|n0 ns].
    - inversion F as [|? a ? r (F1 & F2 & _) F3]; subst. inversion F3; subst. cbn. unfold std. rewrite (named_det w NStandardError a B F1 F2). reflexivity.
    - inversion F; subst. reflexivity. }
  assert (LI : forall a, listed (map One cs) a -> exists t, In t L /\ present t /\ named w t a /\ prepended w a = false).
  { intros a [H1|(l & H1 & _)]; apply in_map_iff in H1; destruct H1 as (b & E1 & H1); [injection E1 as ->|discriminate E1]. clear - F H1. clearbody L. induction F as [|t x ls lc H F IH]; [destruct H1|].
    destruct H1 as [->|H1]; [exists t; split; [left; reflexivity|exact H]|]. destruct (IH H1) as (t' & A & C). exists t'. split; [right; exact A|exact C]. }
  assert (IL : forall t, In t L -> exists a, listed (map One cs) a /\ present t /\ named w t a).
  { intros t Ht. clear - F Ht. clearbody L. induction F as [|t0 x ls lc (H1 & H2 & H3) F IH]; [destruct Ht|]. destruct Ht as [->|Ht]; [exists x; split; [left; left; reflexivity|auto]|].
    destruct (IH Ht) as (a & [A|(l & A & A')] & C); exists a; (split; [|exact C]); [left; right; exact A|right; exists l; split; [right; exact A|exact A']]. }
  assert (PL : plain_list w (map One cs)).
  { intros a HL _. destruct (LI a HL) as (t & _ & Pt & Nt & Pr). rewrite (named_det w t a B Pt Nt) in *. destruct (bt_class w B t Pt) as [U M]. auto. }
  assert (TK : takes w (map One cs) (addr n) <-> exists t, In t L /\ ruby_kind_of n t).
  { destruct (w_chain w (hist_wf _ _ _ H) (addr n) Hn) as [lr R]. pose proof (anc_raw w _ lr (hist_wf _ _ _ H) R) as A. split.
    - intros (a & l & A' & Hin & HL). destruct (LI a HL) as (t & Ht & Pt & Nt & _). rewrite (named_det w t a B Pt Nt) in Hin. exists t. split; [exact Ht|].
      exact (proj1 (boot_table n t P Pt) (proj1 (bt_anc w B n t l Pn Pt A') Hin)).
    - intros (t & Ht & K). destruct (IL t Ht) as (a & HL & Pt & Nt). exists a, (map (real w) (addr n :: vis w lr)). split; [exact A|]. split; [|exact HL]. rewrite (named_det w t a B Pt Nt).
      exact (proj2 (bt_anc w B n t _ Pn Pt A) (proj2 (boot_table n t P Pt) K)). }
  destruct (C107_clauses_partial site csite w id (e, g) v (addr n) std [match ns with [] => [] | _ => map One cs end] HA AR CO NS) as (k & FT & EV).
  { intros x [<-|[]]. rewrite EXS. exact PL. }
  exists (match k with Some i => Clause i v | None => Rethrown Exception_ v end). split; [exact EV|]. cbv zeta. inversion FT as [|x r T|x r k' T FT']; subst; rewrite EXS in T.
  - left. split; [reflexivity|]. apply TK. exact T.
  - right. inversion FT'; subst. split; [reflexivity|]. intros t Ht K. apply T. apply TK. exists t. auto.
Qed.

(* ---- raise ---- *)
(* the text of an interpreter error is somewhere in its message *)
Theorem C107_message_partial : forall site csite w id k m g c std, after_boot site csite w -> named w (ruby_class k) c -> placed (ruby_class k) -> named w NStandardError std -> prepended w std = false ->
  eventually (fun f => exists v p q, handle w f id (RuntimeErr k m, g) [[]] = Ok (Clause 0 v) /\ message_of v = Some (p ++ m ++ q)%list).
Proof.
  intros site csite w id k m g c std HA N P NS PS.
  destruct (C107_interpreter_errors_partial site csite w id (RuntimeErr k m) g _ [] [std] c HA eq_refl P N) as (r & [M E] & D).
  { constructor; [|constructor]. split; [split; discriminate|]. split; assumption. }
  exists M. intros f Hf. specialize (E f Hf). exists (EExc id c (err_message (RuntimeErr k m))), (kind_name k ++ text " (")%list, (text ")"). split.
  - destruct D as [[-> _]|[_ D]]; [exact E|]. exfalso. apply (D NStandardError (or_introl eq_refl)). apply (kindb_sound _ 5). destruct k; try reflexivity; exfalso; unfold placed in P; cbn in P; tauto.
  - cbn [message_of err_message]. rewrite <- app_assoc. reflexivity.
Qed.
(* C.new(text) has that text as its message, C.new none but its class's name; and
   of a raised exception object: the first clause that takes its class gets that very
   object; if there is none, that object goes on *)
Theorem C107_raise_object_partial : forall site csite w new id' id c0 c m g std cs, after_boot site csite w -> class_of w (EExc id c0 m) c -> named w NStandardError std ->
  (forall x, In x cs -> plain_list w (match x with [] => [One std] | _ => x end)) ->
  exists k, first_taking w std c cs k /\ eventually (fun f => exists e, raise w f new [EExc id c0 m] g = Ok e /\
    handle w f id' e cs = Ok (match k with Some i => Clause i (EExc id c0 m) | None => Rethrown Exception_ (EExc id c0 m) end)) /\
    forall si sc nm, exception_new id c0 nm [EStr si sc m] g = inl (EExc id c0 m) /\ exception_new id c0 m [] g = inl (EExc id c0 m).
Proof.
  intros site csite w new id' id c0 c m g std cs HA CO NS P.
  destruct (C107_clauses_partial site csite w id' (Exception_, EExc id c0 m) _ c std cs HA (ar_val w id' _) CO NS P) as (k & FT & [N E]). exists k. split; [exact FT|]. split; [|intros; split; reflexivity].
  exists N. intros f Hf. exists (Exception_, EExc id c0 m). split; [reflexivity|apply E; exact Hf].
Qed.
(* a class: an object of that class, if the class descends from Exception; else a TypeError *)
Theorem C107_raise_class : forall site csite w c l new id name g, after_boot site csite w -> user_mod w c = true -> has_ancestors w c l -> prepended w EXCEPTION = false ->
  (forall a, new a = exception_new id a (name a) [] g) ->
  (In EXCEPTION l -> eventually (fun f => raise w f new [EClass c] g = Ok (Exception_, EExc id c (name c)))) /\
  (~ In EXCEPTION l -> eventually (fun f => exists m, raise w f new [EClass c] g = Ok (RuntimeErr KType m, g))).
Proof.
  intros site csite w c l new id name g HA U A PE NW. pose proof (after_hist _ _ _ HA) as H. pose proof (after_booted _ _ _ HA) as B. destruct (bt_class w B NException ltac:(split; discriminate)) as [UE ME].
  destruct (is_exception_anc w c l (hist_wf _ _ _ H) (hist_cop _ _ _ H) U UE ME PE A) as (b & [N E] & BI). split; intros HI; exists N; intros f Hf; cbn [raise]; rewrite (E f Hf); cbn [rbind].
  - apply BI in HI. rewrite HI. rewrite NW. reflexivity.
  - destruct b; [exfalso; apply HI, BI; reflexivity|]. exists []. reflexivity.
Qed.
(* a text: an error with that message, taken by a bare rescue. Missing: it should be
   a RuntimeError *)
Theorem C107_raise_text_partial : forall site csite w new id sid sc s g f, after_boot site csite w -> prepended w (addr NStandardError) = false ->
  exists e, raise w f new [EStr sid sc s] g = Ok e /\ exists c v, named w NStandardError c /\ class_of w v c /\ message_of v = Some s /\ eventually (fun f => handle w f id e [[]] = Ok (Clause 0 v)).
Proof.
  intros site csite w new id sid sc s g f HA PS. pose proof (after_hist _ _ _ HA) as H. pose proof (after_booted _ _ _ HA) as B. exists (None_ s, g). split; [reflexivity|].
  assert (Ps : present NStandardError) by (split; discriminate). pose proof (bt_named w B _ Ps) as NS. exists (addr NStandardError), (EExc id (addr NStandardError) s). split; [exact NS|].
  destruct (bt_class w B _ Ps) as [U M]. pose proof (proj1 (user_mod_ok _ _ U)) as Hm.
  assert (CO : class_of w (EExc id (addr NStandardError) s) (addr NStandardError)) by (split; [discriminate|]; cbn; apply p_here; [exact Hm|apply (bt_single w B _ Ps)]).
  split; [exact CO|]. split; [reflexivity|].
  destruct (C107_clauses_partial site csite w id (None_ s, g) _ _ (addr NStandardError) [[]] HA (ar_none w id s g _ NS) CO NS) as (k & FT & EV).
  { intros x [<-|[]] t [HL|(l & HL & _)] _; destruct HL as [HL|[]]; try discriminate; injection HL as <-. auto. }
  inversion FT as [|x r T|x r k' T FT']; subst; [exact EV|]. exfalso. apply T. destruct (w_chain w (hist_wf _ _ _ H) _ Hm) as [lr R]. eexists _, _. split; [apply (anc_raw w _ lr (hist_wf _ _ _ H) R)|].
  split; [left; unfold real; rewrite (proj2 (user_mod_ok _ _ U)); reflexivity|]. left. left. reflexivity.
Qed.

(* ---- examples and what is false ---- *)
Definition keepsb (o : op) : bool := match o with SetConst c _ _ => negb ((c =? OBJECT) || (c =? MATH)) | _ => true end.
Lemma after_ops site csite l : forall w w', after_boot site csite w -> run_ops site csite false l w = Ok w' -> forallb keepsb l = true -> after_boot site csite w'.
Proof.
  induction l as [|o l IH]; intros w w' A E K; cbn [run_ops forallb] in *; [congruence|]. apply andb_prop in K. destruct K as [K K']. apply bind_ok in E. destruct E as (w1 & E1 & E).
  destruct (op_okb o && _ && _ && _) eqn:B; [|discriminate]. apply andb_prop in B. destruct B as [B _]. apply andb_prop in B. destruct B as [B _]. apply andb_prop in B. destruct B as [B1 _].
  apply (IH w1 w'); auto. apply (a_step site csite w o w1 A); [apply op_okb_ok; exact B1| |apply (exec_runs site csite 20); exact E1].
  destruct o; cbn in *; auto. intros [->| ->]; [discriminate K|discriminate K].
Qed.
Definition after (l : list op) : world := match run_ops site0 csite0 false l wboot with Ok w => w | _ => world0 end.
Lemma after_is l : run_ops site0 csite0 false l wboot = Ok (after l) -> forallb keepsb l = true -> after_boot site0 csite0 (after l).
Proof. intros E K. eapply after_ops; [apply boot_after|exact E|exact K]. Qed.

Definition is_some {A} (o : option A) : bool := match o with Some _ => true | None => false end.
Lemma class_exc w id c m : is_some (mods w c) && negb (single w c) = true -> class_of w (EExc id c m) c.
Proof. intros E. apply andb_prop in E. destruct E as [E E']. split; [discriminate|]. change (class_field (EExc id c m)) with c. apply p_here; [destruct (mods w c); discriminate|destruct (single w c); [discriminate|reflexivity]]. Qed.
Definition all_listed (exs : list exarg) : list Z := flat_map (fun e => match e with One t => [t] | Splat l => l end) exs.
Lemma listed_all exs t : listed exs t -> In t (all_listed exs).
Proof. intros [H|(l & H & Ht)]; unfold all_listed; apply in_flat_map; eexists; (split; [exact H|]); cbn; auto. Qed.
Lemma plain_all w exs : forallb (fun t => user_mod w t && negb (module_p w t) && negb (prepended w t)) (all_listed exs) = true -> plain_list w exs.
Proof.
  intros E t L _. apply listed_all in L. rewrite forallb_forall in E. specialize (E t L). apply andb_prop in E. destruct E as [E E3]. apply andb_prop in E. destruct E as [E1 E2].
  split; [exact E1|]. split; [destruct (module_p w t)|destruct (prepended w t)]; try reflexivity; discriminate.
Qed.

(* 28: module M; 29: class E < StandardError, which includes M; 30: M's copy; 31: class F < E *)
Definition ops_inc : list op := [NewModule OBJECT; NewClass (Some STANDARD) OBJECT; Include 29 28; NewClass (Some 29) OBJECT].
Example C107_example : after_boot site0 csite0 (after ops_inc) /\ class_of (after ops_inc) (EExc 900 31 [97]) 31 /\ plain_list (after ops_inc) [One 11; Splat [29; 21]] /\
  takes (after ops_inc) [One 11; Splat [29; 21]] 31 /\ named (after ops_inc) NStandardError 10 /\
  handle (after ops_inc) 20 901 (Exception_, EExc 900 31 [97]) [[One 11]; [One 12; Splat [29; 21]]; []] = Ok (Clause 1 (EExc 900 31 [97])) /\
  handle (after ops_inc) 20 901 (Exception_, EExc 900 31 [97]) [[One 11]; []] = Ok (Clause 1 (EExc 900 31 [97])) /\
  handle (after ops_inc) 20 901 (Exception_, EExc 900 31 [97]) [[One 11]] = Ok (Rethrown Exception_ (EExc 900 31 [97])).
Proof.
  split; [apply after_is; vm_compute; reflexivity|]. split; [apply class_exc; vm_compute; reflexivity|]. split.
  - apply plain_all. vm_compute. reflexivity.
  - split; [|vm_compute; auto]. exists 29, [31; 29; 28; 10; 9; 8]. split; [apply (anc_runs _ 20); vm_compute; reflexivity|]. split; [right; left; reflexivity|]. right. exists [29; 21]. cbn. auto.
Qed.
Example C107_errors_example : handle (after ops_inc) 20 901 (RuntimeErr KNoMethod [97], EOther 0 8) [[One 11]; [One 16]] = Ok (Clause 1 (EExc 901 17 (text "NoMethodError (a)"))) /\
  handle (after ops_inc) 20 901 (SystemExit_ 3, EOther 0 8) [[]] = Ok (Rethrown Exception_ (EExc 901 25 (text "SystemExit"))) /\ placed NNoMethodError /\ ruby_kind_of NNoMethodError NStandardError.
Proof. split; [vm_compute; reflexivity|]. split; [vm_compute; reflexivity|]. split; [repeat split; discriminate|]. apply (kindb_sound _ 5). reflexivity. Qed.
Example C107_raise_example : raise (after ops_inc) 20 (fun a => exception_new 900 a (text "E") [] (EOther 0 8)) [EClass 31] (EOther 0 8) = Ok (Exception_, EExc 900 31 (text "E")) /\
  raise (after ops_inc) 20 (fun a => exception_new 900 a (text "E") [] (EOther 0 8)) [EClass 26] (EOther 0 8) = Ok (RuntimeErr KType [], EOther 0 8) /\
  user_mod (after ops_inc) 31 = true /\ prepended (after ops_inc) EXCEPTION = false /\ prepended (after ops_inc) (addr NStandardError) = false.
Proof. vm_compute. auto. Qed.

(* a module in the list never takes an error, though it is an ancestor *)
Theorem C107_rescue_module_refuted : exists site csite w v c exs, after_boot site csite w /\ class_of w v c /\ takes w exs c /\ (forall t, listed exs t -> user_mod w t = true) /\
  eventually (fun f => eval_rescue w f v exs = Ok false).
Proof.
  exists site0, csite0, (after ops_inc), (EExc 900 29 []), 29, [One 28]. split; [apply after_is; vm_compute; reflexivity|]. split; [apply class_exc; vm_compute; reflexivity|].
  split; [exists 28, [29; 28; 10; 9; 8]; split; [apply (anc_runs _ 20); vm_compute; reflexivity|]; split; [right; left; reflexivity|left; left; reflexivity]|].
  split; [intros t [[[= <-]|[]]|(l & [H|[]] & _)]; [vm_compute; reflexivity|discriminate H]|].
  exists 20%nat. intros f Hf. do 20 (destruct f as [|f]; [lia|]). vm_compute. reflexivity.
Qed.
(* 28: module M; 29: class E < StandardError; 30: class F < E; M is prepended to E *)
Definition ops_prep : list op := [NewModule OBJECT; NewClass (Some STANDARD) OBJECT; NewClass (Some 29) OBJECT; Prepend 29 28].
(* rescue E does not take an F any more *)
Theorem C107_rescue_prepended_refuted : exists site csite w v c t, after_boot site csite w /\ class_of w v c /\ takes w [One t] c /\ user_mod w t = true /\ module_p w t = false /\
  eventually (fun f => eval_rescue w f v [One t] = Ok false).
Proof.
  exists site0, csite0, (after ops_prep), (EExc 900 30 []), 30, 29. split; [apply after_is; vm_compute; reflexivity|]. split; [apply class_exc; vm_compute; reflexivity|].
  split; [exists 29, [30; 28; 29; 10; 9; 8]; split; [apply (anc_runs _ 20); vm_compute; reflexivity|]; split; [right; right; left; reflexivity|left; left; reflexivity]|].
  split; [vm_compute; reflexivity|]. split; [vm_compute; reflexivity|].
  exists 20%nat. intros f Hf. do 20 (destruct f as [|f]; [lia|]). vm_compute. reflexivity.
Qed.
(* RangeError and LoadError: the interpreter panics where the error should be
   rescued; StopIteration is no IndexError, Math::DomainError no ArgumentError *)
Theorem C107_interpreter_errors_refuted : exists site csite w, after_boot site csite w /\
  (forall k, k = KRange \/ k = KLoadError -> forall f id m g cs, handle w f id (RuntimeErr k m, g) cs = Panic) /\
  (exists c, named w NIndexError c /\ ruby_kind_of (ruby_class KStopIteration) NIndexError /\ eventually (fun f => exists v, handle w f 900 (RuntimeErr KStopIteration [], EOther 0 8) [[One c]] = Ok (Rethrown Exception_ v))) /\
  (exists c, named w NArgumentError c /\ ruby_kind_of (ruby_class KDomainError) NArgumentError /\ eventually (fun f => exists v, handle w f 900 (RuntimeErr KDomainError [], EOther 0 8) [[One c]] = Ok (Rethrown Exception_ v))).
Proof.
  exists site0, csite0, wboot. split; [apply boot_after|]. split; [intros k [->| ->] f id m g cs; vm_compute; reflexivity|]. split.
  - exists 12. split; [vm_compute; reflexivity|]. split; [apply (kindb_sound _ 5); reflexivity|]. exists 20%nat. intros f Hf. do 20 (destruct f as [|f]; [lia|]). eexists. vm_compute. reflexivity.
  - exists 11. split; [vm_compute; reflexivity|]. split; [apply (kindb_sound _ 5); reflexivity|]. exists 20%nat. intros f Hf. do 20 (destruct f as [|f]; [lia|]). eexists. vm_compute. reflexivity.
Qed.
(* raise "text" is no RuntimeError *)
Theorem C107_raise_text_refuted : exists site csite w c, after_boot site csite w /\ named w NRuntimeError c /\
  eventually (fun f => exists e v, raise w f (fun a => exception_new 900 a [] [] (EOther 0 8)) [EStr 901 8 [97]] (EOther 0 8) = Ok e /\ handle w f 902 e [[One c]] = Ok (Rethrown Exception_ v)).
Proof.
  exists site0, csite0, wboot, 21. split; [apply boot_after|]. split; [vm_compute; reflexivity|]. exists 20%nat. intros f Hf. do 20 (destruct f as [|f]; [lia|]). eexists _, _. split; [vm_compute; reflexivity|vm_compute; reflexivity].
Qed.
(* raise C, "text" does not raise a C *)
Theorem C107_raise_class_text_refuted : exists site csite w c, after_boot site csite w /\ named w NTypeError c /\
  eventually (fun f => exists e v, raise w f (fun a => exception_new 900 a [] [] (EOther 0 8)) [EClass c; EStr 901 8 [97]] (EOther 0 8) = Ok e /\ handle w f 902 e [[One c]] = Ok (Rethrown Exception_ v)).
Proof.
  exists site0, csite0, wboot, 14. split; [apply boot_after|]. split; [vm_compute; reflexivity|]. exists 20%nat. intros f Hf. do 20 (destruct f as [|f]; [lia|]). eexists _, _. split; [vm_compute; reflexivity|vm_compute; reflexivity].
Qed.
(* the message of an interpreter error starts with the name of its class *)
Theorem C107_message_refuted : exists site csite w m, after_boot site csite w /\
  eventually (fun f => exists v, handle w f 902 (RuntimeErr KType m, EOther 0 8) [[]] = Ok (Clause 0 v) /\ message_of v <> Some m).
Proof.
  exists site0, csite0, wboot, [97]. split; [apply boot_after|]. exists 20%nat. intros f Hf. do 20 (destruct f as [|f]; [lia|]). eexists. split; [vm_compute; reflexivity|]. vm_compute. discriminate.
Qed.

Print Assumptions C107_rescue_partial.
Print Assumptions C107_clauses_partial.
Print Assumptions C107_interpreter_errors_partial.
Print Assumptions C107_message_partial.
Print Assumptions C107_raise_object_partial.
Print Assumptions C107_raise_class.
Print Assumptions C107_raise_text_partial.
Print Assumptions C107_rescue_module_refuted.
Print Assumptions C107_rescue_prepended_refuted.
Print Assumptions C107_interpreter_errors_refuted.
Print Assumptions C107_raise_text_refuted.
Print Assumptions C107_raise_class_text_refuted.
Print Assumptions C107_message_refuted.
