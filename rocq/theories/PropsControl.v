(** Breaks, returns from blocks and exceptions (C76, C77, C78). *)
From Verif Require Import Base ModelControl SpecControl ProofsControl.

(** ---- examples of reachable states ---- *)
Ltac can := solve [cbn; unfold running, inside, operands, in_block, ruby; cbn; repeat split; solve [lia | discriminate | reflexivity]].
Ltac reach_by := repeat (eapply Reach_step; [|can|reflexivity]); try apply Reach_init.
Fixpoint reached (l : list cop) (s : cst) : Prop :=
  match l with [] => True | o :: r => can o s /\ match cstep o s with Ok s' => reached r s' | _ => False end end.
Lemma reach_list l : forall s s', reach s -> reached l s -> csteps l s = Ok s' -> reach s'.
Proof.
  induction l as [|o l IH]; cbn; intros s s' R H E; [injection E as <-; exact R|]. destruct H as [C H].
  destruct (cstep o s) as [s1| |] eqn:E1; try contradiction. cbn [rbind] in E. eapply IH; [|exact H|exact E]. eapply Reach_step; eauto.
Qed.
Ltac reaches ops := eapply (reach_list ops); [apply Reach_init|vm_compute; repeat split; try lia; try discriminate|reflexivity].

(** Whatever Ruby code and builtin functions do, the next thing they do finds
    the machine able to do it: frames, counters and the host stack match. *)
Theorem C78_always_goes_on : forall s o, reach s -> can o s -> exists s', cstep o s = Ok s'.
Proof. intros s o R C. destruct (step_ok _ _ (reach_good _ R) C) as (s' & E & _). eauto. Qed.
Print Assumptions C78_always_goes_on.

(** An exception goes on in the innermost frame at a place covered by its
    exception table, at the first entry that covers it; the frames above are
    gone, those below unchanged. Each builtin function on the way returns the
    error it gets. *)
Theorem C78_innermost : forall s w above f e below, reach s -> running s ->
  c_fr s = above ++ f :: below -> Forall uncovered above -> first_entry (c_pc f) (c_tab f) e ->
  exists s', csteps (CRaise w :: repeat CPropagate (natives above)) s = Ok s' /\ c_pend s' = None /\
    c_fr s' = rescued f e w :: below.
Proof.
  intros s w above f e below R HR EF FU FE. pose proof (reach_good _ R) as G. cbn [csteps]. rewrite (raise_dispatch w s G HR).
  destruct (exc_up w above true s f e below (proj1 G) EF FU FE) as (s' & E & E1 & E2 & _). eauto.
Qed.
Print Assumptions C78_innermost.
(** the same when a rescue clause that does not match throws again *)
Theorem C78_rethrown : forall s w ops above f e below t r, reach s -> running s -> c_fr s = t :: r -> c_ops t = w :: ops ->
  with_pc (with_ops t ops) (c_pc t - 1) :: r = above ++ f :: below -> Forall uncovered above -> first_entry (c_pc f) (c_tab f) e ->
  exists s', csteps (CThrow :: repeat CPropagate (natives above)) s = Ok s' /\ c_pend s' = None /\
    c_fr s' = rescued f e w :: below.
Proof.
  intros s w ops above f e below t r R [HP HF] ET EO EF FU FE. destruct (reach_good _ R) as [M _]. rewrite ET in M, HF.
  set (s1 := mkcst (with_pc (with_ops t ops) (c_pc t - 1) :: r) (c_hs s) w None).
  assert (E1 : cstep CThrow s = dispatch (inr (Exc w)) true s1).
  { cbn [cstep]. unfold in_loop, dispatch, s1. rewrite HP, ET. cbn [c_hs].
    destruct (matched_ruby _ _ _ M HF) as [(d & u & hs & -> & _)|(ic & hs & -> & _)]; cbn [rbind]; unfold pop_op; rewrite EO; reflexivity. }
  cbn [csteps]. rewrite E1.
  destruct (exc_up w above true s1 f e below) as (s' & E & E2 & E3 & _); auto.
  - eapply matched_top; [exact M|reflexivity..].
  - eauto.
Qed.
Print Assumptions C78_rethrown.
(** and when a builtin function fails by itself *)
Theorem C78_builtin_fails : forall s w n above f e below, reach s -> inside s ->
  c_fr s = n :: above ++ f :: below -> Forall uncovered above -> first_entry (c_pc f) (c_tab f) e ->
  exists s', csteps (CFail w :: repeat CPropagate (natives above)) s = Ok s' /\ c_pend s' = None /\
    c_fr s' = rescued f e w :: below.
Proof.
  intros s w n above f e below R [HP HK] EF FU FE. pose proof (reach_good _ R) as [M _]. rewrite EF in HK.
  assert (NE : exists h rest, app above (f :: below) = h :: rest) by (destruct above; cbn; eauto). destruct NE as (h & rest & ER).
  assert (EQ : csteps (CFail w :: repeat CPropagate (natives above)) s =
               (s1 <- dispatch (inr (Exc w)) true s ;; csteps (repeat CPropagate (natives (n :: above))) s1)).
  { rewrite (natives_nat n) by exact HK. cbn [csteps cstep]. unfold in_native, dispatch. rewrite HP. rewrite EF, ER in M.
    destruct (matched_native _ _ _ M HK) as [[E _]|(h' & hs & E & _)]; [discriminate|]. rewrite E. cbn [rbind repeat csteps cstep c_hs c_pend c_fr c_val].
    unfold native_end, pop_frame. rewrite EF, ER, E. reflexivity. }
  rewrite EQ. destruct (exc_up w (n :: above) true s f e below M EF) as (s' & E & E1 & E2 & _); [|exact FE|eauto].
  constructor; [|exact FU]. intros x. rewrite EF in M.
  assert (T : c_tab n = []) by (inversion M; subst; auto; contradiction). rewrite T. contradiction.
Qed.
Print Assumptions C78_builtin_fails.
(** An exception that no frame covers reaches the host program. *)
Theorem C78_uncaught : forall s w above host, reach s -> running s ->
  c_fr s = above ++ [host] -> Forall uncovered above ->
  exists s', csteps (CRaise w :: repeat CPropagate (natives above)) s = Ok s' /\ c_pend s' = Some (Exc w) /\ c_fr s' = [host].
Proof.
  intros s w above host R HR EF FU. pose proof (reach_good _ R) as G. cbn [csteps]. rewrite (raise_dispatch w s G HR).
  assert (KH : c_kind host = Nat).
  { destruct G as [M _]. rewrite EF in M. clear - M. revert M. generalize (c_hs s). induction above as [|g above IH]; cbn; intros hs M.
    - inversion M; subst; auto; match goal with A : matched [] _ |- _ => inversion A end.
    - inversion M; subst; eauto; destruct above; discriminate. }
  destruct (exc_out w above true s host (proj1 G) EF FU KH) as (s' & E & E1 & E2). eauto.
Qed.
Print Assumptions C78_uncaught.

(* a method at place 5, which its table covers, calls a builtin function that
   runs a block, which calls a method, which fails *)
Definition tab1 : list centry := [mkcentry true 0 3 40; mkcentry true 3 9 50; mkcentry true 0 90 60].
Definition ops1 : list cop :=
  [CRun Meth tab1 0; CPush 7; CPush 8; CPc 5; CNative true 1; CRun Blk [] 1; CPush 9; CInvoke Meth true 1 [mkcentry true 10 20 5] 0; CPush 3].
Definition state_of (l : list cop) : cst := match csteps l cinit with Ok s => s | _ => cinit end.
Lemma reach_ops1 : reach (state_of ops1).
Proof. reaches ops1. Qed.
Example C78_always_goes_on_ex : reach (state_of ops1) /\ can CReturn (state_of ops1) /\ can (CRaise 4) (state_of ops1).
Proof. split; [exact reach_ops1|]. split; can. Qed.
Example C78_innermost_ex : exists above f below,
  reach (state_of ops1) /\ running (state_of ops1) /\ c_fr (state_of ops1) = above ++ f :: below /\ Forall uncovered above /\
  first_entry (c_pc f) (c_tab f) (mkcentry true 3 9 50) /\ natives above = 1%nat.
Proof.
  exists (firstn 3 (c_fr (state_of ops1))), (nth 3 (c_fr (state_of ops1)) (mkcframe Nat true [] 0 [] 0)), (skipn 4 (c_fr (state_of ops1))).
  split; [exact reach_ops1|]. split; [can|]. split; [reflexivity|]. split; [|split; [|reflexivity]].
  - repeat constructor; unfold uncovered; cbn; intros e H; repeat destruct H as [<-|H]; try contradiction; cbn; lia.
  - cbn. constructor 2; [cbn; lia|]. constructor 1. cbn. lia.
Qed.
Example C78_rethrown_ex : exists t r, reach (state_of ops1) /\ running (state_of ops1) /\ c_fr (state_of ops1) = t :: r /\ c_ops t = [3].
Proof. eexists _, _. split; [exact reach_ops1|]. split; [can|]. split; reflexivity. Qed.
Definition ops7 : list cop := ops1 ++ [CNative false 0; CCall].
Example C78_builtin_fails_ex : exists n above f below,
  reach (state_of ops7) /\ inside (state_of ops7) /\ c_fr (state_of ops7) = n :: above ++ f :: below /\ Forall uncovered above /\
  first_entry (c_pc f) (c_tab f) (mkcentry true 3 9 50) /\ natives above = 2%nat.
Proof.
  exists (nth 0 (c_fr (state_of ops7)) (mkcframe Nat true [] 0 [] 0)), (firstn 4 (skipn 1 (c_fr (state_of ops7)))),
    (nth 5 (c_fr (state_of ops7)) (mkcframe Nat true [] 0 [] 0)), (skipn 6 (c_fr (state_of ops7))).
  split; [reaches ops7|]. split; [split; reflexivity|]. split; [reflexivity|]. split; [|split; [|reflexivity]].
  - repeat constructor; unfold uncovered; cbn; intros e H; repeat destruct H as [<-|H]; try contradiction; cbn; lia.
  - cbn. constructor 2; [cbn; lia|]. constructor 1. cbn. lia.
Qed.
Definition ops2 : list cop := [CRun Meth [mkcentry true 3 9 50] 0; CPush 7; CNative true 1; CRun Blk [] 1].
Example C78_uncaught_ex : exists above host, reach (state_of ops2) /\ running (state_of ops2) /\
  c_fr (state_of ops2) = above ++ [host] /\ Forall uncovered above /\ natives above = 1%nat.
Proof.
  exists (firstn 3 (c_fr (state_of ops2))), (nth 3 (c_fr (state_of ops2)) (mkcframe Nat true [] 0 [] 0)).
  split; [reaches ops2|]. split; [can|]. split; [reflexivity|]. split; [|reflexivity].
  repeat constructor; unfold uncovered; cbn; intros e H; repeat destruct H as [<-|H]; try contradiction; cbn; lia.
Qed.

(** ---- break ---- *)
(** A break in a block run by the builtin function it was given to leaves that
    function: the frame the block was written in goes on with the value. The
    full claim is [break_leaves]; missing: blocks run in any other way. *)
Theorem C76_break_partial : forall s b n f below w r, reach s -> can CBreak s ->
  c_fr s = b :: n :: f :: below -> c_kind n = Nat -> ruby f -> c_home b = length below -> c_ops b = w :: r ->
  exists s', csteps [CBreak; CPropagate] s = Ok s' /\ c_pend s' = None /\ c_fr s' = given n w f :: below.
Proof.
  intros s b n f below w r R ((HP & HF) & _ & HB) EF Kn Rf _ EO. destruct (reach_good _ R) as [M _]. unfold in_block in HB. rewrite EF in *.
  destruct (matched_ruby _ _ _ M HF) as [(d & u & hs & EH & M')|(ic & hs & _ & M')].
  2:{ destruct (matched_loop _ _ _ M') as (x & y & [= <- <-] & Rn). contradiction. }
  destruct (matched_native _ _ _ M' Kn) as [[E _]|(h & hs' & E & M2)]; [discriminate|]. injection E as -> -> ->.
  cbn [csteps cstep]. unfold in_loop. rewrite EH, EF, HP. cbn [rbind]. unfold pop_op. rewrite EO. cbn [rbind fst loop_err].
  cbn [c_fr c_hs c_val c_pend]. unfold native_end, pop_frame. cbn [c_fr c_hs c_val rbind snd]. rewrite Nat.eqb_refl. cbn [negb].
  unfold dispatch. cbn [c_fr c_hs c_val].
  destruct (matched_ruby _ _ _ M2 Rf) as [(d2 & u2 & hs2 & [= -> ->] & _)|(ic2 & hs2 & [= -> ->] & _)];
    unfold given, with_ops; destruct (c_use n); cbn [push_top rbind]; eexists; (split; [reflexivity|]); (split; [reflexivity|]); cbn [c_fr];
    unfold ruby, with_ops in *; destruct (c_kind f); congruence.
Qed.
Print Assumptions C76_break_partial.
Definition ops3 : list cop := [CRun Meth [] 0; CPush 7; CPush 8; CNative true 1; CRun Blk [] 1; CPush 5].
Example C76_break_partial_ex : exists b n f below, reach (state_of ops3) /\ can CBreak (state_of ops3) /\
  c_fr (state_of ops3) = b :: n :: f :: below /\ c_kind n = Nat /\ ruby f /\ c_home b = length below /\ c_ops b = [5] /\ c_ops f = [7].
Proof. eexists _, _, _, _. split; [reaches ops3|]. split; [can|]. split; [reflexivity|]. repeat split. discriminate. Qed.

(** A break in a block run by a yield of the method it was given to does not
    leave the method: the method goes on, without a value. *)
Definition ops4 : list cop := [CRun Meth [] 0; CPush 7; CPush 8; CInvoke Meth true 1 [] 0; CInvoke Blk true 0 [] 1; CPush 5].
Theorem C76_yield_refuted : exists s, reach s /\ can CBreak s /\ ~ break_leaves s /\
  exists b call f below, c_fr s = b :: call :: f :: below /\ c_kind call = Meth /\ c_home b = length below /\
    exists s', cstep CBreak s = Ok s' /\ c_pend s' = None /\ c_fr s' = call :: f :: below.
Proof.
  exists (state_of ops4). split; [reaches ops4|]. split; [can|]. split.
  - intros H. destruct (H (mkcframe Blk true [5] 0 [] 1) [] (mkcframe Meth true [] 0 [] 0) (mkcframe Meth true [7] 0 [] 0) [mkcframe Nat true [] 0 [] 0] 5 [])
      as (k & s' & E & _ & EF); try reflexivity; [discriminate|]. destruct k as [|k]; vm_compute in E; [|discriminate]. injection E as <-. discriminate.
  - eexists _, _, _, _. split; [reflexivity|]. split; [reflexivity|]. split; [reflexivity|]. eexists. split; [reflexivity|]. split; reflexivity.
Qed.
Print Assumptions C76_yield_refuted.

(** ---- return in a block ---- *)
(** A return in a block leaves the method the block is written in, if every
    block in between is run by the builtin function it was given to, and the
    value of the method is wanted if Ruby code called it. The full claim is
    [return_leaves]. *)
Lemma direct_written fr m below : direct fr m below -> written_in fr m below.
Proof.
  induction 1 as [b n m below|b n g below m below' Kb Kn Hb Kg D IH].
  - apply (W_meth b [n] m below); assumption.
  - apply (W_block b [n] g below m below'); assumption.
Qed.
Theorem C77_return_partial : forall s b rest m caller below w r, reach s -> can CMReturn s ->
  c_fr s = b :: rest -> c_ops b = w :: r -> direct (c_fr s) m (caller :: below) ->
  (ruby caller -> c_use m = true) ->
  exists k s', csteps (CMReturn :: repeat CPropagate k) s = Ok s' /\ c_pend s' = None /\ c_fr s' = given m w caller :: below.
Proof.
  intros s b rest m caller below w r R (HR & _ & HB) EF EO D HU. pose proof (reach_good _ R) as G. unfold in_block in HB. rewrite EF in HB.
  set (s1 := mkcst (with_ops b r :: rest) (c_hs s) w None).
  assert (D1 : direct (with_ops b r :: rest) m (caller :: below)).
  { rewrite EF in D. inversion D; subst; [apply D_meth|eapply D_block]; eauto. }
  destruct (mret_up _ _ _ D1 s1 true caller below eq_refl) as (k & s' & E & P1 & P2); auto.
  - destruct G as [M _]. rewrite EF in M. eapply matched_top; [exact M|reflexivity..].
  - exists k, s'. cbn [csteps]. rewrite (mreturn_dispatch s b rest w r G HR EF HB EO). split; [exact E|]. split; [exact P1|exact P2].
Qed.
Print Assumptions C77_return_partial.
Definition ops5 : list cop :=
  [CRun Meth [] 0; CPush 7; CPush 8; CInvoke Meth true 1 [] 0; CPush 1; CNative true 1; CRun Blk [] 2; CPush 2; CNative true 1; CRun Blk [] 4; CPush 5].
Example C77_return_partial_ex : exists b rest m caller below, reach (state_of ops5) /\ can CMReturn (state_of ops5) /\
  c_fr (state_of ops5) = b :: rest /\ c_ops b = [5] /\ direct (c_fr (state_of ops5)) m (caller :: below) /\
  (ruby caller -> c_use m = true) /\ ruby caller.
Proof.
  exists (mkcframe Blk true [5] 0 [] 4), (skipn 1 (c_fr (state_of ops5))), (mkcframe Meth true [] 0 [] 0), (mkcframe Meth true [7] 0 [] 0),
    [mkcframe Nat true [] 0 [] 0].
  split; [reaches ops5|]. split; [can|]. split; [reflexivity|]. split; [reflexivity|]. split; [|split; [reflexivity|discriminate]].
  apply D_block; try reflexivity. apply D_meth; reflexivity.
Qed.

(** In a block run by a yield, return only ends the yield. *)
Theorem C77_yield_refuted : exists s, reach s /\ can CMReturn s /\ ~ return_leaves s /\
  exists b call f below w r, c_fr s = b :: call :: f :: below /\ c_ops b = w :: r /\ c_kind f = Meth /\ c_home b = length below /\
    exists s', cstep CMReturn s = Ok s' /\ c_pend s' = None /\
      c_fr s' = mkcframe (c_kind call) (c_use call) (w :: c_ops call) (c_pc call) (c_tab call) (c_home call) :: f :: below.
Proof.
  exists (state_of ops4). split; [reaches ops4|]. split; [can|]. split.
  - intros H. destruct (H (mkcframe Blk true [5] 0 [] 1) (skipn 1 (c_fr (state_of ops4))) (mkcframe Meth true [7] 0 [] 0) (mkcframe Nat true [] 0 [] 0) [] 5 [])
      as (k & s' & E & _ & EF); try reflexivity.
    { apply (W_meth _ [mkcframe Meth true [] 0 [] 0]); reflexivity. }
    destruct k as [|k]; vm_compute in E; [|discriminate]. injection E as <-. discriminate.
  - eexists _, _, _, _, _, _. split; [reflexivity|]. split; [reflexivity|]. split; [reflexivity|]. split; [reflexivity|].
    eexists. split; [reflexivity|]. split; reflexivity.
Qed.
Print Assumptions C77_yield_refuted.
(** In a block (or lambda) called by a builtin function in another method,
    return leaves that method, not the one the block is written in. *)
Definition ops6 : list cop :=
  [CRun Meth [] 0; CPush 7; CPush 8; CInvoke Meth true 1 [] 0; CPush 9; CPush 4; CInvoke Meth true 1 [] 0; CPush 1; CNative true 1; CRun Blk [] 2; CPush 5].
Theorem C77_other_method_refuted : exists s, reach s /\ can CMReturn s /\ ~ return_leaves s /\
  exists b n g f below w r, c_fr s = b :: n :: g :: f :: below /\ c_ops b = w :: r /\ c_kind n = Nat /\ c_kind f = Meth /\ c_home b = length below /\
    exists s', csteps [CMReturn; CPropagate] s = Ok s' /\ c_pend s' = None /\ c_fr s' = given g w f :: below.
Proof.
  exists (state_of ops6). split; [reaches ops6|]. split; [can|]. split.
  - intros H. destruct (H (mkcframe Blk true [5] 0 [] 2) (skipn 1 (c_fr (state_of ops6))) (mkcframe Meth true [9] 0 [] 0) (mkcframe Meth true [7] 0 [] 0)
      [mkcframe Nat true [] 0 [] 0] 5 []) as (k & s' & E & _ & EF); try reflexivity.
    { apply (W_meth _ [mkcframe Nat true [] 0 [] 0; mkcframe Meth true [] 0 [] 0]); reflexivity. }
    destruct k as [|[|k]]; vm_compute in E; [injection E as <-; discriminate|injection E as <-; discriminate|discriminate].
  - eexists _, _, _, _, _, _, _. split; [reflexivity|]. split; [reflexivity|]. split; [reflexivity|]. split; [reflexivity|]. split; [reflexivity|].
    eexists. split; [reflexivity|]. split; reflexivity.
Qed.
Print Assumptions C77_other_method_refuted.
(** If the value of the method is not wanted, it is left among the operands of
    the caller: as many words as the call is repeated. *)
Lemma csteps_app l l' s : csteps (l ++ l') s = (s1 <- csteps l s ;; csteps l' s1).
Proof. revert s. induction l as [|o l IH]; intros s; cbn; [reflexivity|]. destruct (cstep o s); cbn [rbind]; auto. Qed.
Theorem C77_leaks_refuted : exists call body, forall n, exists s f below,
  reach s /\ csteps (CRun Meth [] 0 :: concat (repeat ([CPush 1; call] ++ body) n)) cinit = Ok s /\
  (exists k tab h, call = CInvoke k false 1 tab h) /\ c_fr s = f :: below /\ length (c_ops f) = n.
Proof.
  exists (CInvoke Meth false 1 [] 0), [CPush 1; CNative true 1; CRun Blk [] 2; CPush 5; CMReturn; CPropagate].
  set (l := [CPush 1; CInvoke Meth false 1 [] 0] ++ _).
  assert (ST : forall ops, let s0 := mkcst [mkcframe Meth true ops 0 [] 0; mkcframe Nat true [] 0 [] 0] [HLoop 0; HNat 0 true] 5 None in
            reached l s0 /\ csteps l s0 = Ok (mkcst [mkcframe Meth true (5 :: ops) 0 [] 0; mkcframe Nat true [] 0 [] 0] [HLoop 0; HNat 0 true] 5 None)).
  { intros ops s0. split; [|reflexivity]. cbn. unfold running, inside, operands, in_block, ruby. cbn. repeat split; try lia; try discriminate. }
  assert (S0 : csteps l (mkcst [mkcframe Meth true [] 0 [] 0; mkcframe Nat true [] 0 [] 0] [HLoop 0; HNat 0 true] 0 None) =
               Ok (mkcst [mkcframe Meth true [5] 0 [] 0; mkcframe Nat true [] 0 [] 0] [HLoop 0; HNat 0 true] 5 None)) by reflexivity.
  assert (G : forall n ops s0, reach s0 -> s0 = mkcst [mkcframe Meth true ops 0 [] 0; mkcframe Nat true [] 0 [] 0] [HLoop 0; HNat 0 true] 5 None ->
            exists s ops', reach s /\ csteps (concat (repeat l n)) s0 = Ok s /\ length ops' = (n + length ops)%nat /\
              s = mkcst [mkcframe Meth true ops' 0 [] 0; mkcframe Nat true [] 0 [] 0] [HLoop 0; HNat 0 true] 5 None).
  { induction n as [|n IH]; intros ops s0 R ->; [exists (mkcst [mkcframe Meth true ops 0 [] 0; mkcframe Nat true [] 0 [] 0] [HLoop 0; HNat 0 true] 5 None), ops; cbn; auto|].
    cbn [repeat concat]. rewrite csteps_app. destruct (ST ops) as [Q E]. rewrite E. cbn [rbind].
    destruct (IH (5 :: ops) _ (reach_list l _ _ R Q E) eq_refl) as (s & ops' & R' & E' & L & ES).
    exists s, ops'. split; [exact R'|]. split; [exact E'|]. split; [cbn [length] in L; lia|exact ES]. }
  intros n. destruct n as [|n].
  - eexists _, _, _. split; [reaches [CRun Meth [] 0]|]. split; [reflexivity|]. split; [eauto|]. split; reflexivity.
  - destruct (G n [5] (mkcst [mkcframe Meth true [5] 0 [] 0; mkcframe Nat true [] 0 [] 0] [HLoop 0; HNat 0 true] 5 None)) as (s & ops' & R & E & L & ES); [|reflexivity|].
    { reaches (CRun Meth [] 0 :: l). }
    exists s, (mkcframe Meth true ops' 0 [] 0), [mkcframe Nat true [] 0 [] 0]. split; [exact R|]. split.
    + cbn [repeat concat]. change (CRun Meth [] 0 :: l ++ concat (repeat l n)) with ((CRun Meth [] 0 :: l) ++ concat (repeat l n)).
      rewrite csteps_app. replace (csteps (CRun Meth [] 0 :: l) cinit) with (csteps l (mkcst [mkcframe Meth true [] 0 [] 0; mkcframe Nat true [] 0 [] 0] [HLoop 0; HNat 0 true] 0 None)) by reflexivity.
      rewrite S0. exact E.
    + split; [eauto|]. subst s. split; [reflexivity|]. cbn [c_ops]. rewrite L. cbn. lia.
Qed.
Print Assumptions C77_leaks_refuted.
