(* The walk of a rescue clause; the exception classes after the boot. *)
From Coq Require Import String.
From Verif Require Import Base ProofsBase ModelArray ProofsArray ModelGC ProofsGC ModelText ModelClass SpecClass ProofsClass ProofsClass2 ProofsClass3 ProofsClass4 ProofsClass5 ProofsClass6 ProofsClass7 ProofsClass8 ModelRaise SpecRaise ProofsRaise ProofsRaise2.
Local Open Scope Z_scope.

Lemma has_id_iff exs t : existsb (fun x => has_id x t) exs = true <-> listed exs t.
Proof.
  rewrite existsb_exists. unfold listed. split.
  - intros (x & Hx & H). destruct x as [b|l]; cbn in H; [apply Z.eqb_eq in H; subst b; auto|]. right. exists l. split; [exact Hx|]. apply existsb_exists in H. destruct H as (b & Hb & E). apply Z.eqb_eq in E. subst b. exact Hb.
  - intros [H|(l & H & Ht)]; [exists (One t); split; [exact H|apply Z.eqb_refl]|]. exists (Splat l). split; [exact H|]. cbn. apply existsb_exists. exists t. split; [exact Ht|apply Z.eqb_refl].
Qed.
Definition hit (w : world) (exs : list exarg) (a : Z) : bool := negb (modp w a) && existsb (fun x => has_id x a) exs.
Lemma rescue_walk_ok w exs : forall fuel a l, raw w a l -> (length l < fuel)%nat -> rescue_walk w fuel a exs = Ok (existsb (hit w exs) (a :: vis w l)).
Proof.
  induction fuel as [|n IH]; intros a l R HF; [lia|]. cbn [rescue_walk existsb]. pose proof R as [U _]. destruct (get_mod_up _ _ _ U) as (m & Em & _).
  unfold get_mod. rewrite Em. cbn [rbind]. unfold hit at 1, modp. rewrite Em. destruct (negb (is_module m) && existsb (fun x => has_id x a) exs); [reflexivity|]. cbn [orb].
  destruct (upper_ok w (S n) a l R ltac:(lia)) as [[H1 H2]|(p & c & s & H1 & H2 & H3 & H4 & H5)].
  - rewrite H2. cbn [rbind]. rewrite H1. reflexivity.
  - rewrite H4. cbn [rbind]. rewrite (IH c s H5); [rewrite H2; reflexivity|]. subst l. rewrite app_length in HF. cbn in HF. lia.
Qed.
Lemma takes_iff w exs c l : Wf w -> raw w c l -> (takes w exs c <-> exists t, sees w c t l /\ listed exs t).
Proof.
  intros W R. pose proof (anc_raw w c l W R) as A. split.
  - intros (t & l' & A' & Ht & HL). exists t. split; [|exact HL]. apply sees_in. rewrite <- (anc_det w c _ _ A' A). exact Ht.
  - intros (t & Hs & HL). exists t, (map (real w) (c :: vis w l)). split; [exact A|]. split; [|exact HL]. apply sees_in. exact Hs.
Qed.
Lemma walk_takes w exs c l : Wf w -> Cop w -> raw w c l -> plain_list w exs -> (existsb (hit w exs) (c :: vis w l) = true <-> takes w exs c).
Proof.
  intros W Q R P. rewrite (takes_iff w exs c l W R). rewrite existsb_exists.
  assert (ALL : forall y, In y (c :: l) -> mods w y <> None) by (intros y Hy; eapply raw_mods; eassumption). split.
  - intros (x & Hx & H). apply andb_prop in H. destruct H as [H1 H2]. apply has_id_iff in H2. exists x. split; [|exact H2].
    assert (Hin : In x (c :: l)) by (destruct Hx as [<-|Hx]; [left; reflexivity|right; eapply vis_in; exact Hx]).
    destruct (P x H2 (ALL x Hin)) as (U & _). apply user_mod_ok in U. destruct U as [_ Ui]. exists x. split; [exact Hin|]. split; [|unfold real; rewrite Ui; reflexivity].
    destruct Hx as [<-|Hx]; [left; reflexivity|right]. unfold vis in Hx. apply filter_In in Hx. apply Bool.negb_true_iff. apply Hx.
  - intros (t & (y & Hy & V & E) & HL). assert (Hym : mods w y <> None) by (apply ALL; exact Hy). assert (Htm : mods w t <> None) by (rewrite <- E; apply (xt_real w y (w_orig w W) Hym)).
    destruct (P t HL Htm) as (U & M & H). assert (Ei : inc w y = false).
    { destruct (inc w y) eqn:Ei; [|reflexivity]. pose proof (q_inc w Q y Hym Ei) as K. rewrite E in K. unfold prepended in H. unfold module_p in M. specialize (K M). unfold hp in K. congruence. }
    unfold real in E. rewrite Ei in E. subst y. exists t. split.
    + destruct Hy as [<-|Hy]; [left; reflexivity|]. destruct V as [->|V]; [left; reflexivity|]. right. unfold vis. apply filter_In. rewrite V. auto.
    + unfold hit. apply andb_true_intro. split; [unfold modp; unfold module_p in M; rewrite M; reflexivity|apply has_id_iff; exact HL].
Qed.
Lemma real_class_ok w c r : plain_class w c r -> eventually (fun f => real_class w f c = Ok r).
Proof.
  induction 1 as [c Hc Hs|c s r Hc Hs [N Hsup] HP [M IH]].
  - exists 1%nat. intros [|f] Hf; [lia|]. cbn [real_class]. unfold single in Hs. unfold get_mod. destruct (mods w c) as [m|]; [|congruence]. cbn [rbind]. rewrite Hs. reflexivity.
  - exists (S (Nat.max N M)). intros [|f] Hf; [lia|]. cbn [real_class]. rewrite Hsup by lia. unfold single in Hs. unfold get_mod. destruct (mods w c) as [m|]; [|congruence]. cbn [rbind]. rewrite Hs. apply IH. lia.
Qed.
Lemma plain_mods w c r : plain_class w c r -> mods w r <> None.
Proof. induction 1; auto. Qed.
Lemma eval_rescue_ok w v exs c : Wf w -> Cop w -> class_of w v c -> plain_list w exs ->
  exists b, eventually (fun f => eval_rescue w f v exs = Ok b) /\ (b = true <-> takes w exs c).
Proof.
  intros W Q [NC PC] P. destruct (w_chain w W c (plain_mods _ _ _ PC)) as [l R]. exists (existsb (hit w exs) (c :: vis w l)). split; [|apply walk_takes; assumption].
  destruct (real_class_ok _ _ _ PC) as [N H]. exists (N + S (length l))%nat. intros f Hf. unfold eval_rescue.
  destruct v as [a| | |]; [destruct (NC a eq_refl)| | |]; cbn [class_field] in H; rewrite H by lia; cbn [rbind]; apply rescue_walk_ok; auto; lia.
Qed.
Lemma clauses_ok w v c std cs : Wf w -> Cop w -> class_of w v c -> own_const w (cid NStandardError) OBJECT = Some std ->
  (forall x, In x cs -> plain_list w (match x with [] => [One std] | _ => x end)) ->
  exists k, first_taking w std c cs k /\ eventually (fun f => clauses w f v cs = Ok k).
Proof.
  intros W Q C SC. assert (GT : get_toplevel_constant w NStandardError = Ok std).
  { unfold get_toplevel_constant, get_const, get_mod. unfold own_const in SC. destruct (mods w OBJECT) as [m|]; [|discriminate]. cbn [rbind]. rewrite SC. reflexivity. }
  induction cs as [|x cs IH]; intros P; [exists None; split; [constructor|exists O; reflexivity]|].
  destruct (eval_rescue_ok w v (match x with [] => [One std] | _ => x end) c W Q C (P x (or_introl eq_refl))) as (b & [N E] & B).
  destruct (IH ltac:(intros y Hy; apply P; right; exact Hy)) as (k & F & [M E']).
  assert (EX : (match x with [] => s <- get_toplevel_constant w NStandardError ;; Ok [One s] | _ => Ok x end) = Ok (match x with [] => [One std] | _ => x end)) by (destruct x; [rewrite GT|]; reflexivity).
  destruct b.
  - exists (Some O). split; [apply f_here; apply B; reflexivity|]. exists N. intros f Hf. cbn [clauses]. rewrite EX. cbn [rbind]. rewrite E by lia. reflexivity.
  - exists (option_map S k). split; [apply f_later; [intros T; apply B in T; discriminate|exact F]|]. exists (N + M)%nat. intros f Hf. cbn [clauses]. rewrite EX. cbn [rbind]. rewrite E by lia. cbn [rbind]. rewrite E' by lia. reflexivity.
Qed.
(* ---- is_exception_class ---- *)
Lemma skipped_links w p b s : links w (p ++ b :: s) None -> raw w b s.
Proof. intros H. apply links_suffix in H. exact H. Qed.
Lemma is_exception_ok w : forall fuel a l, raw w a l -> inc w a = false -> (length l < fuel)%nat ->
  exists b, is_exception_class w fuel a = Ok b /\ (b = true <-> exists y, In y (a :: l) /\ inc w y = false /\ y = EXCEPTION).
Proof.
  induction fuel as [|n IH]; intros a l R Hi HF; [lia|]. cbn [is_exception_class]. destruct (Z.eqb_spec a EXCEPTION) as [->|Hne].
  - exists true. split; [reflexivity|]. split; [|reflexivity]. intros _. exists EXCEPTION. split; [left; reflexivity|]. auto.
  - rewrite (superclass_ok w (S n) a l R ltac:(lia)). cbn [rbind]. destruct (find (fun x => negb (inc w x)) l) as [b|] eqn:Ef.
    + destruct (find_split _ _ _ Ef) as (p & q & -> & Hb & Hp). apply Bool.negb_true_iff in Hb.
      assert (Rb : raw w b q) by (destruct R as [_ R]; apply (skipped_links w p b q R)).
      destruct (IH b q Rb Hb ltac:(rewrite app_length in HF; cbn in HF; lia)) as (r & E & B). exists r. split; [exact E|]. rewrite B. split.
      * intros (y & Hy & H). exists y. split; [right; apply in_or_app; right; exact Hy|exact H].
      * intros (y & Hy & H1 & H2). destruct Hy as [<-|Hy]; [congruence|]. apply in_app_or in Hy. destruct Hy as [Hy|Hy]; [apply Hp in Hy; rewrite H1 in Hy; discriminate|]. exists y. auto.
    + exists false. split; [reflexivity|]. split; [discriminate|]. intros (y & Hy & H1 & H2). destruct Hy as [<-|Hy]; [congruence|]. apply (find_none _ _ Ef) in Hy. rewrite H1 in Hy. discriminate.
Qed.
Lemma is_exception_anc w a l : Wf w -> Cop w -> user_mod w a = true -> user_mod w EXCEPTION = true -> module_p w EXCEPTION = false -> prepended w EXCEPTION = false -> has_ancestors w a l ->
  exists b, eventually (fun f => is_exception_class w f a = Ok b) /\ (b = true <-> In EXCEPTION l).
Proof.
  intros W Q U UE ME PE A. apply user_mod_ok in U, UE. destruct U as [Ha Hi], UE as [HE Ei]. destruct (w_chain w W a Ha) as [lr R].
  assert (El : l = map (real w) (a :: vis w lr)) by (eapply anc_det; [exact A|apply anc_raw; assumption]). subst l.
  assert (B0 : exists b : bool, b = true <-> exists y, In y (a :: lr) /\ inc w y = false /\ y = EXCEPTION).
  { destruct (is_exception_ok w (S (length lr)) a lr R Hi ltac:(lia)) as (b & _ & B). exists b. exact B. }
  destruct B0 as [b B]. exists b. split.
  - exists (S (length lr)). intros f Hf. destruct (is_exception_ok w f a lr R Hi ltac:(lia)) as (b' & E & B'). rewrite E. f_equal. destruct b, b'; auto; exfalso; [assert (false = true) by (apply B'; apply B; reflexivity)|assert (false = true) by (apply B; apply B'; reflexivity)]; discriminate.
  - rewrite B, sees_in. unfold sees. split.
    + intros (y & Hy & Hyi & ->). exists EXCEPTION. split; [exact Hy|]. split; [right; exact PE|]. unfold real. rewrite Ei. reflexivity.
    + intros (y & Hy & V & E). assert (Hym : mods w y <> None) by (eapply raw_mods; eassumption). destruct (inc w y) eqn:Eiy.
      * exfalso. pose proof (q_inc w Q y Hym Eiy) as K. rewrite E in K. specialize (K ME). unfold hp in K. unfold prepended in PE. congruence.
      * unfold real in E. rewrite Eiy in E. exists y. auto.
Qed.

(* ---- the boot ---- *)
Definition site0 (s : Z) : Z := s.
Definition csite0 (s : Z) : (list Z * Z) * (Z * Z) := (([] : list Z, 8), (300, 8)).
Definition wboot : world := match run_ops site0 csite0 false boot world0 with Ok w => w | _ => world0 end.
Lemma run_ops_all site csite l : forall w w0 w1, run_ops site csite false l w = Ok w0 -> runs_all site csite l w w1 -> w1 = w0.
Proof.
  induction l as [|o l IH]; intros w w0 w1 E R; inversion R; subst; cbn [run_ops] in E; [congruence|]. apply bind_ok in E. destruct E as (w2 & E2 & E).
  destruct (op_okb o && _ && _ && _); [|discriminate]. apply (IH w2 w0 w1 E). replace w2 with w3; [assumption|]. eapply exec_det; [eassumption|apply (exec_runs site csite 20); exact E2].
Qed.
Lemma boot_runs site csite : run_ops site csite false boot world0 = Ok wboot.
Proof. vm_compute. reflexivity. Qed.
Lemma boot_det site csite w : runs_all site csite boot world0 w -> w = wboot.
Proof. intros R. eapply run_ops_all; [apply boot_runs|exact R]. Qed.
Lemma boot_hist site csite : hist site csite wboot.
Proof. apply calm_hist. eapply run_calm; [apply cl_start|apply boot_runs]. Qed.
Lemma run_all_ops site csite l : forall w w0, run_ops site csite false l w = Ok w0 -> runs_all site csite l w w0.
Proof.
  induction l as [|o l IH]; intros w w0 E; cbn [run_ops] in E; [injection E as ->; constructor|]. apply bind_ok in E. destruct E as (w2 & E2 & E).
  destruct (op_okb o && _ && _ && _); [|discriminate]. econstructor; [apply (exec_runs site csite 20); exact E2|apply IH; exact E].
Qed.
Lemma boot_after site csite : after_boot site csite wboot.
Proof. apply a_boot. apply run_all_ops. apply boot_runs. Qed.
Lemma after_hist site csite w : after_boot site csite w -> hist site csite w.
Proof. induction 1 as [w H|]; [rewrite (boot_det _ _ _ H); apply boot_hist|econstructor; eassumption]. Qed.
(* the classes the boot makes *)
Definition addr (n : cname) : Z :=
  match n with
  | NException => 9 | NStandardError => 10 | NArgumentError => 11 | NIndexError => 12 | NRegexpError => 13
  | NTypeError => 14 | NFiberError => 15 | NNameError => 16 | NNoMethodError => 17 | NZeroDivisionError => 18
  | NStopIteration => 19 | NLocalJumpError => 20 | NRuntimeError => 21 | NFrozenError => 22 | NScriptError => 23
  | NSyntaxError => 24 | NSystemExit => 25 | NMath => 26 | NDomainError => 27 | NLoadError => 0 | NRangeError => 0
  end.
Definition present (n : cname) : Prop := n <> NLoadError /\ n <> NRangeError.
Definition boot_anc (n : cname) : list Z := match ancestors wboot 20 (addr n) with Ok l => l | _ => [] end.
Record Booted (w : world) : Prop := {
  bt_object : user_mod w OBJECT = true;
  bt_class : forall n, present n -> user_mod w (addr n) = true /\ module_p w (addr n) = false;
  bt_named : forall n, present n -> named w n (addr n);
  bt_absent : own_const w (cid NLoadError) OBJECT = None /\ own_const w (cid NRangeError) OBJECT = None;
  bt_single : forall n, present n -> single w (addr n) = false;
  bt_anc : forall n t l, present n -> present t -> has_ancestors w (addr n) l -> (In (addr t) l <-> In (addr t) (boot_anc n)) }.
Lemma wboot_booted : Booted wboot.
Proof.
  constructor.
  - vm_compute. reflexivity.
  - intros [] [A B]; try congruence; vm_compute; auto.
  - intros [] [A B]; try congruence; vm_compute; auto. eexists. split; [reflexivity|reflexivity].
  - vm_compute. auto.
  - intros [] [A B]; try congruence; vm_compute; auto.
  - intros n t l Hn Ht A. assert (E : ancestors wboot 20 (addr n) = Ok (boot_anc n)) by (destruct Hn as [A1 A2]; destruct n; try congruence; vm_compute; reflexivity).
    rewrite (anc_det wboot (addr n) l (boot_anc n) A (anc_runs wboot 20 _ _ E)). reflexivity.
Qed.
Lemma cid_inj n m : cid n = cid m -> n = m.
Proof. destruct n, m; intros E; first [reflexivity|discriminate E]. Qed.
Lemma user_keeps w w' x : keeps_mods w w' -> user_mod w x = true -> user_mod w' x = true /\ module_p w' x = module_p w x /\ single w' x = single w x.
Proof.
  intros K U. apply user_mod_ok in U. destruct U as [Hx Hi]. destruct (K x Hx) as (A & B & C & D). unfold modp, inc in B, C. unfold inc in Hi. unfold user_mod, module_p.
  destruct (mods w' x) as [m'|]; [|congruence]. destruct (mods w x) as [m|]; [|congruence]. rewrite C, Hi, B, D. auto.
Qed.
Lemma booted_step site csite o w w' : Wf w -> Cop w -> op_ok o -> keeps o -> runs site csite o w w' -> Booted w -> Booted w'.
Proof.
  intros W Q OK KO R [BO BC BN [BA1 BA2] BS BT]. destruct (keeps_step site csite o w w' W Q OK R) as ((KC & KM) & KK). destruct (step_ok site csite o w w' W OK R) as [W' _].
  assert (CO : forall n, own_const w' (cid n) OBJECT = own_const w (cid n) OBJECT).
  { intros n. apply KK; [exact BO|]. intros v ->. cbn in KO. apply (KO (or_introl eq_refl) n). reflexivity. }
  assert (CM : forall n, own_const w' (cid n) MATH = own_const w (cid n) MATH).
  { intros n. apply KK; [apply (BC NMath); split; discriminate|]. intros v ->. cbn in KO. apply (KO (or_intror eq_refl) n). reflexivity. }
  constructor.
  - apply (user_keeps w w' OBJECT KM BO).
  - intros n Hn. destruct (BC n Hn) as [U M]. destruct (user_keeps w w' _ KM U) as (U' & M' & _). rewrite M'. auto.
  - intros n Hn. pose proof (BN n Hn) as H. destruct n; cbn [named] in *; rewrite ?CO; try exact H. destruct H as (m & E1 & E2). exists m. split; [exact E1|].
    assert (m = MATH) by (pose proof (BN NMath ltac:(split; discriminate)) as HM; cbn [named] in HM; rewrite E1 in HM; injection HM as ->; reflexivity). subst m. rewrite CM. exact E2.
  - rewrite !CO. auto.
  - intros n Hn. destruct (user_keeps w w' _ KM (proj1 (BC n Hn))) as (_ & _ & S'). rewrite S'. auto.
  - intros n t l Hn Ht A. pose proof (proj1 (user_mod_ok _ _ (proj1 (BC n Hn)))) as Hx. pose proof (proj1 (user_mod_ok _ _ (proj1 (BC t Ht)))) as Htm.
    destruct (w_chain w W _ Hx) as [lr Rr]. destruct (w_chain w' W' _ (proj1 (KM _ Hx))) as [lr' Rr'].
    rewrite <- (BT n t _ Hn Ht (anc_raw w _ lr W Rr)). rewrite (anc_det w' _ _ _ A (anc_raw w' _ lr' W' Rr')). rewrite !sees_in. apply KC; auto. apply (BC t Ht).
Qed.
Lemma after_booted site csite w : after_boot site csite w -> Booted w.
Proof.
  induction 1 as [w H|w o w' H IH OK KO R]; [rewrite (boot_det _ _ _ H); apply wboot_booted|]. pose proof (after_hist _ _ _ H) as HH.
  eapply booted_step; try eassumption; [eapply hist_wf; eassumption|eapply hist_cop; eassumption].
Qed.
