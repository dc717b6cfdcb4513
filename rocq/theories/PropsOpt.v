(** C30: the jump-threading pass *)
From Coq Require Import ZArith List Bool Lia.
From Verif Require Import Base ModelValue ModelInst ModelCodegen ModelVM SpecCore SpecIntPrims
  SpecOpt ProofsCore1 ProofsShape ProofsOpt ProofsOpt2 ProofsOpt3 PropsCore.
Import ListNotations.
Open Scope Z_scope.

Lemma body_rel cx body G fuel c' : compiled_to cx body G -> optimize fuel (pr_code G) = Ok c' ->
  exists l cs, shaped G l /\ c' = cbs cs /\ rel l cs /\ proc l cs (length l).
Proof.
  intros (k & m & m2 & c & st & GB & LD & FT) O.
  destruct (body_shaped _ _ _ _ _ _ _ _ GB LD FT) as (l & SH & _).
  rewrite (sh_code _ _ SH) in O.
  destruct (optimize_ok l fuel c' (sh_wf _ _ SH) (sh_small _ _ SH) O) as (cs & E & R & PR).
  exists l, cs. auto.
Qed.
Lemma start_bnd G l : shaped G l -> bnd' l 0.
Proof.
  intros SH. destruct (sh_last _ _ SH) as [l0 ->]. exists O. rewrite app_length. cbn.
  split; [lia|reflexivity].
Qed.

(** The rewritten code of a body ends exactly when the code ends, in the same
    way, with the same value, variables and world. *)
Theorem C30_same_end : forall W (P : prims W) cx body G fuel c' stk env w h env' w',
  compiled_to cx body G -> optimize fuel (pr_code G) = Ok c' ->
  (exists n, vrun P (with_code c' G) n (mkvst 0 stk env w) = VDone h env' w')
  <-> (exists n, vrun P G n (mkvst 0 stk env w) = VDone h env' w').
Proof.
  intros W P cx body G fuel c' stk env w h env' w' C O.
  destruct (body_rel _ _ _ _ _ C O) as (l & cs & SH & -> & R & _).
  apply (sim_done P G l SH cs R). exact (start_bnd _ _ SH).
Qed.
Print Assumptions C30_same_end.

(** It runs forever exactly when the code does, *)
Theorem C30_same_divergence : forall W (P : prims W) cx body G fuel c' stk env w,
  compiled_to cx body G -> optimize fuel (pr_code G) = Ok c' ->
  (forall n, exists s, vrun P (with_code c' G) n (mkvst 0 stk env w) = VRunning s)
  <-> (forall n, exists s, vrun P G n (mkvst 0 stk env w) = VRunning s).
Proof.
  intros W P cx body G fuel c' stk env w C O.
  destruct (body_rel _ _ _ _ _ C O) as (l & cs & SH & -> & R & _).
  apply (sim_div_iff P G l SH cs R). exact (start_bnd _ _ SH).
Qed.
Print Assumptions C30_same_divergence.

(** and gets stuck exactly when the code does. *)
Theorem C30_same_stuck : forall W (P : prims W) cx body G fuel c' stk env w,
  compiled_to cx body G -> optimize fuel (pr_code G) = Ok c' ->
  (exists n, vrun P (with_code c' G) n (mkvst 0 stk env w) = VStuck)
  <-> (exists n, vrun P G n (mkvst 0 stk env w) = VStuck).
Proof.
  intros W P cx body G fuel c' stk env w C O.
  destruct (body_rel _ _ _ _ _ C O) as (l & cs & SH & -> & R & _).
  apply (sim_stuck_iff P G l SH cs R). exact (start_bnd _ _ SH).
Qed.
Print Assumptions C30_same_stuck.

(** Together with C29: the rewritten code ends as the source program. *)
Theorem C30_ends_as_source_partial : forall W (P : prims W) cx body G fuel c' f s env o,
  code_of P cx body G -> supported cx body -> holds cx s env ->
  optimize fuel (pr_code G) = Ok c' ->
  eval P (sc_setter cx) (sc_stderr cx) f body s = o -> o <> Fuel -> o <> Out ->
  ends_as P cx (with_code c' G) env (s_w s) o.
Proof.
  intros W P cx body G fuel c' f s env o C K H O E NF NO.
  destruct (C29_ends_as_source_partial W P cx body G f s env o C K H E NF NO)
    as (h & s' & n & env' & A & B & D).
  destruct (co_gen _ _ _ _ C) as (k & m & m2 & c0 & st & _ & GB & LD & FT).
  assert (CT : compiled_to cx body G) by (exists k, m, m2, c0, st; auto).
  destruct (proj2 (C30_same_end W P cx body G fuel c' [] env (s_w s) h env' (s_w s') CT O))
    as [n' V]; [eauto|]. exists h, s', n', env'. auto.
Qed.
Print Assumptions C30_ends_as_source_partial.

(** No byte is added or removed and every instruction still starts where it did. *)
Theorem C30_boundaries : forall cx body G fuel c',
  compiled_to cx body G -> optimize fuel (pr_code G) = Ok c' ->
  length c' = length (pr_code G) /\ forall p, starts (pr_code G) p -> starts c' p.
Proof.
  intros cx body G fuel c' C O.
  destruct (body_rel _ _ _ _ _ C O) as (l & cs & SH & -> & R & _).
  rewrite (sh_code _ _ SH). pose proof (rel_sizes _ _ R) as SZ. split.
  - pose proof (cbs_len l cs (length cs) SZ) as E. rewrite firstn_all, (proj1 R), pos_all in E by lia.
    unfold zlength, lsz, zlength in E. lia.
  - intros p S. destruct (starts_pos _ _ S) as (k & L & ->). apply starts_cells; assumption.
Qed.
Print Assumptions C30_boundaries.

(** Only jumps are rewritten, to what their target leads to. *)
Theorem C30_targets : forall cx body G fuel c' p b,
  compiled_to cx body G -> optimize fuel (pr_code G) = Ok c' ->
  starts (pr_code G) p -> byte_at (pr_code G) p = Some b ->
  rewritten (pr_code G) c' p b.
Proof.
  intros cx body G fuel c' p b C O.
  destruct (body_rel _ _ _ _ _ C O) as (l & cs & SH & -> & R & PR).
  rewrite (sh_code _ _ SH). apply rewritten_ok; [exact (sh_wf _ _ SH)|exact R|exact PR].
Qed.
Print Assumptions C30_targets.

(** The pass terminates exactly if no jump leads into a cycle of JMP and JMP_BACK. *)
Theorem C30_terminates_iff : forall cx body G, compiled_to cx body G ->
  (exists fuel c', optimize fuel (pr_code G) = Ok c')
  <-> (forall p t, starts (pr_code G) p -> jump_to (pr_code G) p t ->
       exists q, leads (pr_code G) t q).
Proof.
  intros cx body G C. assert (C' := C). destruct C' as (k & m & m2 & c & st & GB & LD & FT).
  destruct (body_shaped _ _ _ _ _ _ _ _ GB LD FT) as (l & SH & _).
  rewrite (sh_code _ _ SH), <- (chains_iff l (sh_wf _ _ SH)). split.
  - intros (fuel & c' & O).
    destruct (optimize_ok l fuel c' (sh_wf _ _ SH) (sh_small _ _ SH) O) as (cs & E & R & PR).
    eapply proc_chains; eassumption.
  - apply optimize_terminates; [exact (sh_wf _ _ SH)|exact (sh_small _ _ SH)].
Qed.
Print Assumptions C30_terminates_iff.

(** It does for every body whose loop conditions do not start with a jump. *)
Theorem C30_terminates : forall cx body G, compiled_to cx body G -> loops_ok body = true ->
  exists fuel c', optimize fuel (pr_code G) = Ok c'.
Proof.
  intros cx body G (k & m & m2 & c & st & GB & LD & FT) LO.
  destruct (body_shaped _ _ _ _ _ _ _ _ GB LD FT) as (l & SH & CE).
  rewrite (sh_code _ _ SH).
  apply optimize_terminates; [exact (sh_wf _ _ SH)|exact (sh_small _ _ SH)|exact (CE LO)].
Qed.
Print Assumptions C30_terminates.

(** It never returns for [while (next; true) do end]: the code of [next] is a jump
    to the start of the loop, that is to itself. *)
Definition spin : node := NWhile (NSeq [NNext NNil; NBool true]) (NSeq []) true.

Lemma compiled0 body : compiles0 body = true ->
  (Z.of_nat (length (pr_code (code0 body))) <? 2 ^ 31) = true ->
  (Z.of_nat (length (pr_map (code0 body))) <=? 2 ^ 32) = true ->
  (Z.of_nat (length (pr_map2 (code0 body))) <=? 2 ^ 32) = true ->
  match gen_body cx0 body (empty_cg [] [] [] 0) with Ok st => caches st <=? 2 ^ 32 | _ => true end
    = true ->
  compiled_to cx0 body (code0 body).
Proof.
  intros C A B D E. unfold compiles0, code0 in *.
  destruct (gen_body cx0 body (empty_cg [] [] [] 0)) as [st| |] eqn:GB; try discriminate.
  exists [], [], [], 0, st. split; [exact GB|].
  split; constructor; try reflexivity; try (exists []; rewrite app_nil_r; reflexivity);
    rewrite ?Z.ltb_lt, ?Z.leb_le in *; assumption.
Qed.

Theorem C30_terminates_refuted : exists cx body G, compiled_to cx body G /\
  forall fuel, optimize fuel (pr_code G) = Panic.
Proof.
  exists cx0, spin, (code0 spin).
  assert (C : compiled_to cx0 spin (code0 spin)) by (apply compiled0; vm_compute; reflexivity).
  split; [exact C|]. intros fuel.
  set (c := pr_code (code0 spin)). vm_compute in c.
  assert (CH : forall n, chase n c 0 true = Panic).
  { induction n as [|n IH]; [reflexivity|exact IH]. }
  assert (OA : optimize_at fuel c 0 = Panic).
  { unfold optimize_at. change (byte_at c 0) with (Some 100). cbn [Z.eqb Pos.eqb orb].
    change (read_disp (0 + 5 - 4) c) with (Some (-5)).
    cbv iota beta. change (0 + 5 + -5) with 0. rewrite CH. reflexivity. }
  unfold optimize. change (length c) with (S (length (tl c))). cbn [optimize_from].
  change (0 >=? Z.of_nat (length c)) with false. change (byte_at c 0) with (Some 100).
  rewrite OA. reflexivity.
Qed.
Print Assumptions C30_terminates_refuted.

(** [a = 0
     while a < 3 do
       a += 1
       if a == 2 then next else (if a then c = 5 else c = 6 end) end
     end
     if a then c else a end]
    The pass rewrites jumps to jumps and the jump to the final RETURN; fewer
    instructions are then executed. *)
Definition nested : node :=
  NSeq [NAssign (NLVar 1) (NInt 0);
        NWhile (NBin BLt (NLVar 1) (NInt 3))
          (NSeq [NAssignOp BAdd (NLVar 1) (NInt 1);
                 NIf (NBin BEq (NLVar 1) (NInt 2)) (NNext NNil)
                   (NIf (NLVar 1) (NAssign (NLVar 3) (NInt 5)) (NAssign (NLVar 3) (NInt 6)))]) true;
        NIf (NLVar 1) (NLVar 3) (NLVar 1)].

Example C30_example : compiled_to cx0 nested (code0 nested) /\ loops_ok nested = true /\
  exists c', optimize 5 (pr_code (code0 nested)) = Ok c' /\ c' <> pr_code (code0 nested) /\
  exists n m env w,
    vrun iprims (code0 nested) n (mkvst 0 [] env0 w0) = VDone (HRet (integer 5)) env w /\
    vrun iprims (with_code c' (code0 nested)) m (mkvst 0 [] env0 w0) = VDone (HRet (integer 5)) env w /\
    (m < n)%nat.
Proof.
  split; [apply compiled0; vm_compute; reflexivity|]. split; [reflexivity|].
  eexists. split; [vm_compute; reflexivity|]. split; [vm_compute; discriminate|].
  exists 44%nat, 41%nat. do 2 eexists. split; [vm_compute; reflexivity|].
  split; [vm_compute; reflexivity|]. lia.
Qed.
