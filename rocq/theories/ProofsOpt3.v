(** The bytes of rewritten code. *)
From Coq Require Import ZArith List Bool Lia.
From Verif Require Import Base ModelValue ModelInst ProofsInst ModelCodegen ModelVM SpecCore
  SpecOpt ProofsCore1 ProofsCore2 ProofsCore8 ProofsShape ProofsOpt ProofsOpt2.
Import ListNotations.
Ltac Zify.zify_post_hook ::= Z.div_mod_to_equations.
Open Scope Z_scope.

Lemma sizes_id l : sizes l (map CI l).
Proof. apply rel_sizes, rel_init. Qed.
Lemma byte_enc l k i : nth_error l k = Some i -> byte_at (encodes l) (pos l k) = Some (opcode i).
Proof.
  intros N. rewrite <- cbs_ci, (byte_at_pos _ _ _ _ (sizes_id l) (map_nth_error CI _ _ N)).
  cbn [cin]. rewrite norm_opcode. reflexivity.
Qed.
Lemma byte_end (c : list Z) p b : byte_at c p = Some b -> 0 <= p < zlength c.
Proof.
  unfold byte_at. destruct (Z.ltb_spec p 0); [discriminate|]. intros X.
  assert (nth_error c (Z.to_nat p) <> None) as Y by congruence. apply nth_error_Some in Y.
  unfold zlength. lia.
Qed.

Lemma starts_pos l p : starts (encodes l) p -> exists k, (k <= length l)%nat /\ p = pos l k.
Proof.
  induction 1 as [|p b n _ (k & L & ->) B S].
  - exists O. split; [lia|reflexivity].
  - pose proof (byte_end _ _ _ B) as E.
    destruct (Nat.eq_dec k (length l)) as [->|NE].
    + rewrite pos_all in E by lia. unfold lsz in E. lia.
    + destruct (nth_lt l k) as [i N]; [lia|]. rewrite (byte_enc _ _ _ N) in B.
      injection B as <-. rewrite encode_length in S. injection S as <-.
      exists (Datatypes.S k). split; [lia|]. rewrite (pos_S _ _ _ N). reflexivity.
Qed.
Lemma starts_inst l p b : starts (encodes l) p -> byte_at (encodes l) p = Some b ->
  exists k i, nth_error l k = Some i /\ p = pos l k /\ b = opcode i.
Proof.
  intros S B. destruct (starts_pos _ _ S) as (k & L & ->). pose proof (byte_end _ _ _ B) as E.
  destruct (Nat.eq_dec k (length l)) as [->|NE].
  - rewrite pos_all in E by lia. unfold lsz in E. lia.
  - destruct (nth_lt l k) as [i N]; [lia|]. rewrite (byte_enc _ _ _ N) in B.
    injection B as <-. eauto.
Qed.

Lemma byte_in l cs k c j : sizes l cs -> nth_error cs k = Some c -> (j < length (cb c))%nat ->
  byte_at (cbs cs) (pos l k + Z.of_nat j) = nth_error (cb c) j.
Proof.
  intros SZ N L. destruct (cbs_at _ _ _ _ SZ N) as (a & b & -> & E & _).
  pose proof (zlength_nonneg a). unfold byte_at.
  destruct (Z.ltb_spec (pos l k + Z.of_nat j) 0); [lia|].
  replace (Z.to_nat (pos l k + Z.of_nat j)) with (length a + j)%nat
    by (rewrite <- E; unfold zlength; lia).
  rewrite nth_error_app2 by lia. replace (length a + j - length a)%nat with j by lia.
  apply nth_error_app1, L.
Qed.

Lemma starts_cells l cs : rel l cs -> forall k, (k <= length l)%nat -> starts (cbs cs) (pos l k).
Proof.
  intros R. pose proof (rel_sizes _ _ R) as SZ.
  induction k as [|k IH]; intros L; [apply starts_0|].
  specialize (IH ltac:(lia)). destruct (nth_lt l k) as [i N]; [lia|].
  destruct (rel_nth' _ _ _ _ R N) as (c & M & R1).
  rewrite (pos_S _ _ _ N). inversion R1; subst.
  - eapply starts_next; [exact IH|apply (byte_at_pos _ _ _ _ SZ M)|].
    cbn [cin]. rewrite norm_opcode. apply encode_length.
  - eapply starts_next; [exact IH|apply (byte_at_pos _ _ _ _ SZ M)|].
    cbn [cin]. rewrite norm_opcode. apply (encode_length (IJ o d)).
  - change (isz (IJ o d)) with 5.
    assert (Q : forall j, (j <= 5)%nat -> starts (cbs cs) (pos l k + Z.of_nat j)).
    { induction j as [|j IHj]; intros LJ; [rewrite Z.add_0_r; exact IH|].
      replace (pos l k + Z.of_nat (Datatypes.S j)) with (pos l k + Z.of_nat j + 1) by lia.
      eapply starts_next; [apply IHj; lia| |].
      - rewrite (byte_in _ _ _ _ _ SZ M) by (cbn; lia). cbn [cb].
        do 5 (destruct j as [|j]; [reflexivity|]). lia.
      - destruct p; try discriminate; reflexivity. }
    apply (Q 5%nat). lia.
Qed.

(** ** Jumps *)
Lemma jumps_inst i : jumps (opcode i) = true <-> exists o d, i = IJ o d.
Proof.
  split.
  - destruct i; each_op; try destruct use; vm_compute; try discriminate; eauto.
  - intros (o & d & ->). each_op; reflexivity.
Qed.
Lemma goto_inst i : goto (opcode i) = is_jmp i.
Proof. apply eq_true_iff_eq. symmetry. apply opcode_jmp. Qed.

Lemma jump_cell l cs k o d t : sizes l cs -> nth_error cs k = Some (CI (IJ o d)) ->
  pos l (S k) = pos l k + 5 ->
  jump_to (cbs cs) (pos l k) t <-> t = pos l (S k) + i32 d.
Proof.
  intros SZ M P5. pose proof (read_disp_pos _ _ _ _ _ SZ M) as RD. split.
  - intros (b & d' & _ & _ & D & ->). rewrite RD in D. injection D as <-. lia.
  - intros ->. exists (opcode (IJ o d)), (i32 d).
    split; [apply (byte_at_pos _ _ _ _ SZ M)|]. split; [apply jumps_inst; eauto|].
    split; [exact RD|lia].
Qed.
Lemma jump_inst l k o d t : nth_error l k = Some (IJ o d) ->
  jump_to (encodes l) (pos l k) t <-> t = pos l (S k) + i32 d.
Proof.
  intros N. rewrite <- cbs_ci.
  apply jump_cell with (o := o); [apply sizes_id|apply (map_nth_error CI _ _ N)|].
  apply (pos_jump _ _ _ N). eauto.
Qed.
Lemma jump_at l p t : starts (encodes l) p -> jump_to (encodes l) p t ->
  exists k o d, nth_error l k = Some (IJ o d) /\ p = pos l k /\ t = pos l (S k) + i32 d.
Proof.
  intros S J. assert (J' := J). destruct J' as (b & d & B & JB & _ & _).
  destruct (starts_inst _ _ _ S B) as (k & i & N & -> & ->).
  apply jumps_inst in JB as (o & d' & ->). exists k, o, d'. split; [exact N|].
  split; [reflexivity|]. apply (jump_inst _ _ _ _ _ N), J.
Qed.

Lemma jreach_leads l a f i : jreach l a f -> nth_error l f = Some i -> is_jmp i = false ->
  leads (encodes l) (pos l a) (pos l f).
Proof.
  intros H N J. induction H as [k|k i0 d t j N0 J0 D GO _ IH].
  - eapply leads_here; [apply (byte_enc _ _ _ N)|]. rewrite goto_inst. exact J.
  - destruct (is_jmp_form _ J0) as (o & d0 & ->). cbn in D. injection D as ->.
    eapply leads_on; [apply (byte_enc _ _ _ N0)|rewrite goto_inst; exact J0| |apply IH, N].
    apply (jump_inst _ _ _ _ _ N0). symmetry. apply GO.
Qed.
Lemma leads_jreach l p q : wf l -> leads (encodes l) p q -> forall a, (a < length l)%nat -> p = pos l a ->
  exists f i, jreach l a f /\ nth_error l f = Some i /\ is_jmp i = false /\ q = pos l f.
Proof.
  intros WF. induction 1 as [p b B G|p b t q B G J _ IH]; intros a L ->.
  - destruct (nth_lt l a L) as [i N]. rewrite (byte_enc _ _ _ N) in B. injection B as <-.
    rewrite goto_inst in G. exists a, i. split; [constructor|auto].
  - destruct (nth_lt l a L) as [i N]. rewrite (byte_enc _ _ _ N) in B. injection B as <-.
    rewrite goto_inst in G. destruct (is_jmp_form _ G) as (o & d & ->).
    apply (jump_inst _ _ _ _ _ N) in J. destruct (WF _ _ _ N eq_refl) as (t' & GO).
    destruct (IH t') as (f & i & A & B & C & D); [apply GO|rewrite J; apply GO|].
    exists f, i. split; [|auto]. eapply jr_step; [exact N|exact G|reflexivity|exact GO|exact A].
Qed.
Lemma leads_det c p q : leads c p q -> forall q', leads c p q' -> q = q'.
Proof.
  induction 1 as [p b B G|p b t q B G J _ IH]; intros q' L; inversion L; subst.
  - reflexivity.
  - congruence.
  - congruence.
  - apply IH. destruct J as (? & d & _ & _ & D & ->), H1 as (? & d' & _ & _ & D' & ->).
    rewrite D in D'. injection D' as <-. exact H2.
Qed.

Lemma chains_iff l : wf l -> chains_end l <->
  forall p t, starts (encodes l) p -> jump_to (encodes l) p t -> exists q, leads (encodes l) t q.
Proof.
  intros WF. split.
  - intros CE p t S J. destruct (jump_at _ _ _ S J) as (k & o & d & N & -> & ->).
    destruct (WF _ _ _ N eq_refl) as (t' & GO). rewrite (proj2 GO).
    destruct (CE _ _ _ _ N GO) as (f & i & A & B & C). exists (pos l f).
    eapply jreach_leads; eassumption.
  - intros H k o d t N GO.
    assert (S : starts (encodes l) (pos l k)).
    { rewrite <- cbs_ci. apply starts_cells; [apply rel_init|].
      assert (k < length l)%nat by (apply nth_error_Some; congruence). lia. }
    destruct (H _ (pos l t) S) as [q L].
    { apply (jump_inst _ _ _ _ _ N). symmetry. apply GO. }
    destruct (leads_jreach _ _ _ WF L t (proj1 GO) eq_refl) as (f & i & A & B & C & _).
    exists f, i. auto.
Qed.

Lemma bytes_cell l cs k c : sizes l cs -> nth_error cs k = Some c ->
  bytes (cbs cs) (pos l k) (Z.of_nat (length (cb c))) = cb c.
Proof.
  intros SZ N. destruct (cbs_at _ _ _ _ SZ N) as (a & b & -> & E & _). unfold bytes.
  rewrite <- E. unfold zlength. rewrite !Nat2Z.id, skipn_app, skipn_all, Nat.sub_diag.
  cbn [skipn app]. rewrite firstn_app, firstn_all, Nat.sub_diag. cbn. apply app_nil_r.
Qed.

Lemma retlike_leaves p : leaves (op0_byte p) = retlike p.
Proof. destruct p; reflexivity. Qed.

Lemma leaves_inst i : leaves (opcode i) = true -> exists p, i = I0 p /\ retlike p = true.
Proof.
  destruct i; each_op; try destruct use; vm_compute; try discriminate; intros _;
      eexists; split; reflexivity.
Qed.

Lemma rewritten_ok l cs p b : wf l -> rel l cs -> proc l cs (length l) ->
  starts (encodes l) p -> byte_at (encodes l) p = Some b -> rewritten (encodes l) (cbs cs) p b.
Proof.
  intros WF R PR S B. destruct (starts_inst _ _ _ S B) as (k & i & N & -> & ->).
  pose proof (rel_sizes _ _ R) as SZ.
  destruct (rel_nth' _ _ _ _ R N) as (c & M & R1).
  assert (KL : (k < length l)%nat) by (apply nth_error_Some; congruence).
  constructor.
  - intros J n IS. rewrite encode_length in IS.
    assert (n = Z.of_nat (length (cb (CI i)))) as -> by (cbn [cb]; congruence). clear IS.
    assert (c = CI i) as ->.
    { inversion R1; subst; [reflexivity|exfalso..];
        (assert (X : jumps (opcode (IJ o d)) = true) by (apply jumps_inst; eauto); congruence). }
    rewrite (bytes_cell _ _ _ _ SZ M), <- cbs_ci.
    rewrite (bytes_cell _ _ _ _ (sizes_id l) (map_nth_error CI _ _ N)). reflexivity.
  - intros J G. apply jumps_inst in J as (o & d & ->). rewrite goto_inst in G.
    pose proof (pos_jump _ _ _ N (ex_intro _ o (ex_intro _ d eq_refl))) as P5.
    destruct (PR k o d c KL N M) as [(d' & t & j & -> & GO & GJ & JR & NJ)|[q ->]].
    2:{ inversion R1; subst. congruence. }
    destruct (nth_lt cs j) as [x X]. { rewrite (proj1 R). exact (proj1 GJ). }
    destruct (NJ _ X) as [XJ _].
    destruct (rel_nth _ _ _ _ R X) as (y & Y & RY).
    assert (Q : exists f i, jreach l t f /\ nth_error l f = Some i /\ is_jmp i = false /\
      (j = f \/ opcode (cin x) = opcode i /\ leaves (opcode i) = true)).
    { inversion RY; subst.
      - exists j, y. auto.
      - exists j, (IJ o0 d0). auto.
      - exists f, (I0 p). split.
        + eapply jreach_trans; [exact JR|].
          eapply jr_step; [exact Y|eassumption|reflexivity|eassumption|eassumption].
        + split; [assumption|]. split; [reflexivity|]. right. split; [reflexivity|].
          destruct p; try discriminate; reflexivity. }
    destruct Q as (f & z & JF & NF & ZJ & TQ).
    exists (pos l t), (pos l f), (pos l j), (opcode (cin x)), (opcode z).
    split; [rewrite (byte_at_pos _ _ _ _ SZ M); cbn [cin]; rewrite norm_opcode; reflexivity|].
    split; [apply (jump_inst _ _ _ _ _ N); symmetry; apply GO|].
    split; [eapply jreach_leads; eassumption|]. split; [apply byte_enc, NF|].
    split; [apply (jump_cell _ _ _ _ _ _ SZ M P5); symmetry; apply GJ|].
    split; [apply (byte_at_pos _ _ _ _ SZ X)|]. split; [unfold goto; rewrite cjmp_byte; exact XJ|].
    split; [rewrite <- cbs_ci; apply starts_cells; [apply rel_init|destruct GJ; lia]|].
    destruct TQ as [->|TQ]; auto.
  - intros G. rewrite goto_inst in G. destruct (is_jmp_form _ G) as (o & d & ->).
    pose proof (pos_jump _ _ _ N (ex_intro _ o (ex_intro _ d eq_refl))) as P5.
    destruct (PR k o d c KL N M) as [(d' & t & j & -> & GO & GJ & JR & NJ)|[q ->]].
    + destruct (nth_lt cs j) as [x X]. { rewrite (proj1 R). exact (proj1 GJ). }
      destruct (NJ _ X) as [XJ XR].
      destruct (rel_nth _ _ _ _ R X) as (y & Y & RY).
      assert (Q : is_jmp y = false /\ opcode (cin x) = opcode y).
      { inversion RY; subst.
        - split; [exact XJ|]. cbn [cin]. apply norm_opcode.
        - split; [exact XJ|reflexivity].
        - specialize (XR G p eq_refl). congruence. }
      destruct Q as [YJ OP].
      exists (pos l t), (pos l j), (opcode y).
      split; [apply (jump_inst _ _ _ _ _ N); symmetry; apply GO|].
      split; [eapply jreach_leads; eassumption|]. split; [apply byte_enc, Y|].
      destruct (leaves (opcode y)) eqn:LY.
      * exfalso. rewrite <- OP in LY. apply leaves_inst in LY as (p & P1 & P2).
        specialize (XR G p P1). congruence.
      * split; [rewrite (byte_at_pos _ _ _ _ SZ M); cbn [cin]; rewrite norm_opcode; reflexivity|].
        apply (jump_cell _ _ _ _ _ _ SZ M P5). symmetry. apply GJ.
    + inversion R1; subst. exists (pos l t), (pos l f), (op0_byte q).
      split; [apply (jump_inst _ _ _ _ _ N); symmetry; apply H3|].
      split; [eapply jreach_leads; [eassumption|eassumption|reflexivity]|].
      split; [apply (byte_enc _ _ _ H5)|]. rewrite retlike_leaves, H6.
      exact (bytes_cell _ _ _ _ SZ M).
Qed.
