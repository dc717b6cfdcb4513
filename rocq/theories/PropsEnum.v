(** C80: enumerators.  Model: ModelEnum.v; what is expected: SpecEnum.v. *)
From Coq Require Import ZArith List Bool Arith Lia.
From Verif Require Import ModelFiber ModelEnum SpecFiber SpecEnum ProofsEnum ProofsEnum2.
Import ListNotations.

(** *** Methods and blocks for the examples: the heap is a list of marks *)
Inductive code : Type := Do (o : op code) | Mark (z : Z) (k : code).
Definition perform (c : code) (g : list Z) : list Z * op code :=
  match c with Do o => (g, o) | Mark z k => (g ++ [z], OTau k) end.
(** `each`: marks 0 and yields, for every element; its result is the receiver *)
Fixpoint iter (self : fval) (l : list fval) : code :=
  match l with
  | [] => Do (OEnd (Value self))
  | v :: l => Mark 0 (Do (OYield [v] (fun r => match r with Value _ => iter self l | _ => Do (OEnd r) end)))
  end.
(** `select` *)
Fixpoint select (acc l : list fval) : code :=
  match l with
  | [] => Do (OEnd (Value (FArr acc)))
  | v :: l => Do (OYield [v] (fun r => match r with
                                       | Value FNil => select acc l
                                       | Value _ => select (acc ++ [v]) l
                                       | _ => Do (OEnd r)
                                       end))
  end.
Lemma iter_plain self l : plain perform (iter self l).
Proof.
  exists (fun a b => exists l, (a = iter self l /\ b = iter self l) \/
                     exists v, a = Do (OYield [v] (fun r => match r with Value _ => iter self l | _ => Do (OEnd r) end)) /\ b = a). split; [exists l; auto|].
  intros a b g (l' & [(-> & ->)|(v & -> & ->)]).
  - destruct l' as [|v l']; cbn; [auto|]. split; [reflexivity|]. exists l'. right. exists v. auto.
  - cbn. split; [reflexivity|]. split; [reflexivity|]. split; [reflexivity|]. split; [intros; exists l'; auto|].
    intros [w|e|w|w] g' F; cbn in F; try contradiction; reflexivity.
Qed.
Lemma select_plain l : plain perform (select [] l).
Proof.
  exists (fun a b => exists l acc acc', a = select acc l /\ b = select acc' l). split; [exists l, [], []; auto|].
  intros a b g (l' & acc & acc' & -> & ->). destruct l' as [|v l']; cbn; [auto|]. split; [reflexivity|]. split; [reflexivity|]. split; [reflexivity|]. split.
  - intros w w'. destruct w, w'; eexists l', _, _; split; reflexivity.
  - intros [w|e|w|w] g' F; cbn in F; try contradiction; reflexivity.
Qed.
(** a block that marks its first argument and gives twice its value; it raises at 9
    and breaks at 8 *)
Definition twice (args : list fval) (g : list Z) (o : outcome) (g' : list Z) : Prop :=
  match args with
  | FObj z :: _ => g' = g ++ [z] /\ o = (if Z.eqb z 9 then Raise (Other 1) else if Z.eqb z 8 then Break (FObj 80) else Value (FObj (2 * z)))
  | _ => False
  end.
Definition array (l : list Z) : fval := FArr (map FObj l).
Definition each_of (l : list Z) : enum code := mkenum (RVal (array l)) (iter (array l) (map FObj l)) (FNew (iter (array l) (map FObj l))).

Fixpoint root_ends K (e : enum K) : ends_at e (root e) :=
  match e with
  | mkenum (RVal v) c f => E_value _ v c f
  | mkenum (REnum e1) c f => E_enum _ e1 c f _ (root_ends K e1)
  end.
Lemma ends_root K (e : enum K) v : ends_at e v -> root e = v.
Proof. induction 1; cbn; [reflexivity|assumption]. Qed.

(** *** C80: each *)
(** Enumerator#each with a block does what the method called with the block does:
    the same calls of the block with the same arguments and outcomes, the same
    effects in the same order, whatever [next] has done before, and it ends with
    the same exception, break or return; if the method ends normally its value
    is the receiver at the end of the chain.  For methods that are [plain].
    Missing, and refuted below: other methods, and the result. *)
Theorem C80_each_partial : forall (K G : Type) (next : K -> G -> G * op K) B recv c f g l r g',
  plain next c ->
  (enum_each next B (mkenum recv c f) g l r g' <->
   exists r0 v, direct next B nothing 0 c g l r0 g' /\ ends_at (mkenum recv c f) v /\
     r = match r0 with Value _ => Value v | _ => r0 end).
Proof.
  intros K G next B recv c f g l r g' (R & R0 & HR). unfold enum_each. split.
  - intros H. destruct (pull_to_direct K G next B R HR _ _ nothing (fun n v => eq_refl) _ _ _ _ _ _ _ H 0 c c eq_refl (ready_new _ _ _ c) R0) as (r0 & D & ->).
    exists r0, (root (mkenum recv c f)). split; [exact D|]. split; [apply root_ends|reflexivity].
  - intros (r0 & v0 & D & E & ->). rewrite <- (ends_root K _ _ E).
    apply (direct_to_pull K G next B R HR (fun _ v => [v]) (fun _ => root (mkenum recv c f)) nothing (fun n v => eq_refl) 0 c g l r0 g' D [] (FNew c) c (ready_new _ _ _ c) R0).
Qed.
Print Assumptions C80_each_partial.
Lemma call_nothing K G next (B : list fval -> G -> outcome -> G -> Prop) n (k : K) (g g1 : G) args k1 o g2 l r g' : next k g = (g1, OYield args k1) -> B args g1 o g2 ->
  direct next B nothing (S n) (k1 o) g2 l r g' -> direct next B nothing n k g ((args, o) :: l) r g'.
Proof. intros. rewrite <- (app_nil_r args). eapply (D_call _ _ _ _ nothing); [eassumption| |eassumption]. cbn. rewrite app_nil_r. assumption. Qed.
Lemma call_number K G next (B : list fval -> G -> outcome -> G -> Prop) n (k : K) (g g1 : G) v k1 o g2 l r g' : next k g = (g1, OYield [v] k1) -> B [v; FObj (Z.of_nat n)] g1 o g2 ->
  direct next B number (S n) (k1 o) g2 l r g' -> direct next B number n k g (([v; FObj (Z.of_nat n)], o) :: l) r g'.
Proof. intros. exact (D_call _ _ _ _ number _ _ _ _ _ _ _ _ _ _ _ H H0 H1). Qed.
Ltac directly := repeat first
  [ eapply D_step; [reflexivity|]
  | eapply call_nothing; [reflexivity|split; reflexivity|]
  | eapply call_number; [reflexivity|split; reflexivity|]
  | eapply D_done; reflexivity ].
Example C80_each_example :
  enum_each perform twice (each_of [1; 2]%Z) [] [([FObj 1], Value (FObj 2)); ([FObj 2], Value (FObj 4))] (Value (array [1; 2]%Z)) [0; 1; 0; 2]%Z /\
  enum_each perform twice (each_of [1; 9; 2]%Z) [] [([FObj 1], Value (FObj 2)); ([FObj 9], Raise (Other 1))] (Raise (Other 1)) [0; 1; 0; 9]%Z.
Proof.
  split; apply C80_each_partial; try apply iter_plain; do 2 eexists; (split; [directly|split; [apply E_value|reflexivity]]).
Qed.

(** *** C80: map and with_index *)
(** The same, with an array of the values of the block; with_index gives the block
    the number of the call as a second argument. *)
Theorem C80_map : forall (K G : Type) (next : K -> G -> G * op K) B recv c f g l r g',
  plain next c ->
  (enum_map next B (mkenum recv c f) g l r g' <->
   exists r0, direct next B nothing 0 c g l r0 g' /\
     r = match r0 with Value _ => Value (FArr (given_values l)) | _ => r0 end).
Proof.
  intros K G next B recv c f g l r g' (R & R0 & HR). unfold enum_map. split.
  - intros H. destruct (pull_to_direct K G next B R HR _ _ nothing (fun n v => eq_refl) _ _ _ _ _ _ _ H 0 c c eq_refl (ready_new _ _ _ c) R0) as (r0 & D & ->).
    exists r0. split; [exact D|reflexivity].
  - intros (r0 & D & ->). apply (direct_to_pull K G next B R HR (fun _ v => [v]) (fun acc => FArr acc) nothing (fun n v => eq_refl) 0 c g l r0 g' D [] (FNew c) c (ready_new _ _ _ c) R0).
Qed.
Print Assumptions C80_map.
Theorem C80_with_index_partial : forall (K G : Type) (next : K -> G -> G * op K) B recv c f g l r g',
  plain next c ->
  (enum_with_index next B (mkenum recv c f) g l r g' <->
   exists r0, direct next B number 0 c g l r0 g' /\
     r = match r0 with Value _ => Value (FArr (given_values l)) | _ => r0 end).
Proof.
  intros K G next B recv c f g l r g' (R & R0 & HR). unfold enum_with_index. split.
  - intros H. destruct (pull_to_direct K G next B R HR _ _ number (fun n v => eq_refl) _ _ _ _ _ _ _ H 0 c c eq_refl (ready_new _ _ _ c) R0) as (r0 & D & ->).
    exists r0. split; [exact D|reflexivity].
  - intros (r0 & D & ->). apply (direct_to_pull K G next B R HR (fun c v => [v; FObj c]) (fun acc => FArr acc) number (fun n v => eq_refl) 0 c g l r0 g' D [] (FNew c) c (ready_new _ _ _ c) R0).
Qed.
Print Assumptions C80_with_index_partial.
Example C80_map_example :
  enum_map perform twice (each_of [1; 2]%Z) [] [([FObj 1], Value (FObj 2)); ([FObj 2], Value (FObj 4))] (Value (array [2; 4]%Z)) [0; 1; 0; 2]%Z /\
  enum_with_index perform twice (each_of [5; 6]%Z) [] [([FObj 5; FObj 0], Value (FObj 10)); ([FObj 6; FObj 1], Value (FObj 12))] (Value (array [10; 12]%Z)) [0; 5; 0; 6]%Z.
Proof.
  split; [apply C80_map|apply C80_with_index_partial]; try apply iter_plain; eexists; (split; [directly|reflexivity]).
Qed.

(** *** C80: next *)
(** `loop { b(e.next) }` does what the method called with the block b does, from the
    start of [e] on: the same calls, effects and exceptions; when the method has
    ended the loop ends with nil, also when the block breaks or StopIteration
    comes from it. *)
Definition loop_value (r0 : outcome) : outcome :=
  match r0 with Value _ => Value FNil | Raise Stop => Value FNil | Break v => Value v | _ => r0 end.
Theorem C80_next : forall (K G : Type) (next : K -> G -> G * op K) B recv c g l r g',
  plain next c ->
  ((exists e', loop_next next B (mkenum recv c (FNew c)) g l r e' g') <->
   exists r0, direct next B nothing 0 c g l r0 g' /\ r = loop_value r0).
Proof.
  intros K G next B recv c g l r g' (R & R0 & HR).
  assert (EQ : forall r0, loop_ended r0 = loop_value r0) by (intros [v|[]|v|v]; reflexivity). split.
  - intros (e' & H). destruct (loop_to_direct K G next B R HR _ _ _ _ _ _ H recv c (FNew c) 0 c c eq_refl ltac:(discriminate) (ready_new _ _ _ c) R0) as (r0 & D & ->).
    exists r0. split; [exact D|apply EQ].
  - intros (r0 & D & ->). rewrite <- EQ. exact (direct_to_loop K G next B R HR 0 c g l r0 g' D recv c (FNew c) c ltac:(discriminate) (ready_new _ _ _ c) R0).
Qed.
Print Assumptions C80_next.
Example C80_next_example :
  (exists e', loop_next perform twice (each_of [1; 2]%Z) [] [([FObj 1], Value (FObj 2)); ([FObj 2], Value (FObj 4))] (Value FNil) e' [0; 1; 0; 2]%Z) /\
  (exists e', loop_next perform twice (each_of [8; 2]%Z) [] [([FObj 8], Break (FObj 80))] (Value (FObj 80)) e' [0; 8]%Z).
Proof. split; apply C80_next; try apply iter_plain; eexists; (split; [directly|reflexivity]). Qed.

(** When [next] has raised StopIteration it does so ever after, and nothing else
    happens. *)
Theorem C80_exhausted : forall (K G : Type) (next : K -> G -> G * op K) e g e' g',
  enum_next next e g (Raise Stop) e' g' ->
  forall h r e'' h', enum_next next e' h r e'' h' <-> r = Raise Stop /\ e'' = e' /\ h' = h.
Proof.
  intros K G next e g e' g' H.
  assert (D : exists recv c, e' = mkenum recv c FDead).
  { inversion H as [recv c ?|recv c f ? ? f' ? Nf U]; subst; [eauto|]. exists recv, c. f_equal.
    assert (A : forall a g f' g', advance next a g (Raise Stop) f' g' -> f' = FDead).
    { clear. intros a g f' g' A. remember (Raise Stop) as r. induction A; [auto|discriminate|reflexivity]. }
    inversion U; subst; eauto. }
  destruct D as (recv & c & ->). intros h r e'' h'. split.
  - intros X. inversion X; subst; [auto|congruence].
  - intros (-> & -> & ->). constructor.
Qed.
Print Assumptions C80_exhausted.
Example C80_exhausted_example :
  enum_next perform (mkenum (RVal FNil) (iter FNil []) (FNew (iter FNil []))) [] (Raise Stop) (mkenum (RVal FNil) (iter FNil []) FDead) [].
Proof. constructor; [discriminate|]. constructor. change (Raise Stop) with (final (KEnum (iter FNil [])) (Value FNil)). apply A_end. reflexivity. Qed.

(** *** C80: on the machine *)
(** On every machine that a program can reach, making an enumerator gives a fiber
    with the method's code to run; resuming it, or [next], runs that code up to its next
    stop, as [resumed] says, and then the program goes on, on its own stack and VM, with the result. *)
Theorem C80_machine : forall (K G : Type) (next : K -> G -> G * op K) k0 g0 tr m,
  runs next (boot k0 g0) tr m -> kept tr ->
  let g := fst (next (m_k m) (m_g m)) in
  match snd (next (m_k m) (m_g m)) with
  | ONew (KEnum c) k => exists tr' m' f, step next m = MStep tr' m' /\ m_k m' = k f /\ m_g m' = g /\ m_vm m' = m_vm m /\ idle m' f (FNew c)
  | OResume f [] k => forall st r st' g', idle m f st -> resumed next st g r st' g' ->
      exists tr' m', runs next m tr' m' /\ m_k m' = k (native r) /\ m_g m' = g' /\ m_vm m' = m_vm m /\ m_cur m' = m_cur m /\ idle m' f st'
  | ONext f k => forall st r st' g', idle m f st -> st <> FDead -> resumed next st g r st' g' ->
      exists tr' m', runs next m tr' m' /\ m_k m' = k (native r) /\ m_g m' = g' /\ m_vm m' = m_vm m /\ m_cur m' = m_cur m /\ idle m' f st'
  | _ => True
  end.
Proof.
  intros K G next k0 g0 tr m H HK. pose proof (reachable_own K G next _ _ _ _ H HK) as O.
  destruct (next (m_k m) (m_g m)) as [g o] eqn:E. cbn [fst snd].
  assert (X : forall f st k r st' g', idle m f st -> o = OResume f [] k \/ o = ONext f k /\ st <> FDead -> resumed next st g r st' g' ->
    exists tr' m', runs next m tr' m' /\ m_k m' = k (native r) /\ m_g m' = g' /\ m_vm m' = m_vm m /\ m_cur m' = m_cur m /\ idle m' f st').
  { intros f st k r st' g' I A U. pose proof (machine K G next m f st k r st' g' O I) as M. rewrite E in M.
    destruct (M A U) as (tr' & m' & M1 & M2 & M3 & M4 & M5 & M6 & _). exists tr', m'. auto 8. }
  destruct o as [|f [|? ?] k|f k|[|c] k|f k|k|r]; auto.
  - intros st r st' g' I U. apply (X f st); auto.
  - intros st r st' g' I N U. apply (X f st); auto.
  - eexists _, _, (m_nfib m). split; [unfold step; rewrite E; reflexivity|]. cbn. repeat (split; [reflexivity|]).
    eexists. split; [apply set_same|]. auto.
Qed.
Print Assumptions C80_machine.
Definition main : code := Do (ONew (KEnum (iter FNil [FObj 1])) (fun f => Do (ONext f (fun r => Do (OEnd r))))).
Example C80_machine_example : exists tr m,
  runs perform (boot main []) tr m /\ m_k m = Do (OEnd (Value (FObj 1))) /\ m_g m = [0%Z] /\
  idle m 0 (FWait (fun r => match r with Value _ => iter FNil [] | _ => Do (OEnd r) end)).
Proof.
  pose proof (C80_machine code (list Z) perform main [] [] _ (R_none _ _ _ _)) as M. cbn in M.
  destruct M as (tr1 & m1 & f & S1 & M1 & M2 & M3 & M4).
  { intros l t f r W. destruct l; discriminate. }
  assert (R1 : runs perform (boot main []) (tr1 ++ []) m1) by (eapply R_step; [exact S1|apply R_none]).
  assert (S2 := S1). cbn in S2. injection S2 as <- <-.
  pose proof (C80_machine code (list Z) perform main [] _ _ R1) as N. cbn [m_k m_g fst snd perform new_fiber] in N. 
  destruct (N ltac:(intros l t f' r W; destruct l as [|? [|? ?]]; discriminate) (FNew (iter FNil [FObj 1])) (Value (FObj 1)) (FWait (fun r => match r with Value _ => iter FNil [] | _ => Do (OEnd r) end)) [0%Z]) as (tr2 & m2 & R2 & N1 & N2 & _ & _ & N3).
  - eexists. split; [reflexivity|]. auto.
  - discriminate.
  - constructor. eapply A_tau; [reflexivity|]. change (FObj 1) with (yield_val [FObj 1]) at 2. apply A_yield. reflexivity.
  - assert (RR : forall a b c ta tb, runs perform a ta b -> runs perform b tb c -> runs perform a (ta ++ tb) c).
    { clear. intros a b c ta tb H. revert tb c. induction H; intros tb c Hc; [exact Hc|]. rewrite <- app_assoc. eapply R_step; [eassumption|]. auto. }
    eexists (_ ++ tr2), m2. split; [eapply RR; [exact R1|exact R2]|]. split; [exact N1|]. split; [exact N2|exact N3].
Qed.

(** *** C80: what differs from calling the method *)
(** what the methods and blocks below do directly, written as the only possibility *)
Lemma direct_tau {K G} (next : K -> G -> G * op K) B more n k g g1 k1 l r g' : next k g = (g1, OTau k1) ->
  direct next B more n k g l r g' -> direct next B more n k1 g1 l r g'.
Proof. intros E H. inversion H; subst; rewrite E in *; try discriminate. congruence. Qed.
Lemma direct_yield {K G} (next : K -> G -> G * op K) B n k g g1 args k1 l r g' : next k g = (g1, OYield args k1) ->
  direct next B nothing n k g l r g' -> exists o g2 l', B args g1 o g2 /\ direct next B nothing (S n) (k1 o) g2 l' r g' /\ l = (args, o) :: l'.
Proof.
  intros E H. inversion H; subst; rewrite E in *; try discriminate.
  match goal with X : (_, _) = (_, _) |- _ => injection X as <- <- <- end.
  match goal with X : B _ _ _ _ |- _ => cbn in X; rewrite app_nil_r in X end. cbn. rewrite app_nil_r. eauto 6.
Qed.
Lemma direct_end {K G} (next : K -> G -> G * op K) B more n k g g1 q l r g' : next k g = (g1, OEnd q) ->
  direct next B more n k g l r g' -> l = [] /\ r = q /\ g' = g1.
Proof. intros E H. inversion H; subst; rewrite E in *; try discriminate. injection H0 as <- <-. auto. Qed.

Lemma each_more {K G} (next : K -> G -> G * op K) (B : list fval -> G -> outcome -> G -> Prop) res c acc f g v f' g1 w g2 l r g' :
  resumed next f g (Value v) f' g1 -> B [v] g1 (Value w) g2 ->
  pull next B (fun _ v => [v]) res (c + 1) (acc ++ [w]) f' g2 l r g' ->
  pull next B (fun _ v => [v]) res c acc f g (([v], Value w) :: l) r g'.
Proof. exact (P_more K G next B (fun _ v => [v]) res c acc f g v f' g1 w g2 l r g'). Qed.
Lemma each_block {K G} (next : K -> G -> G * op K) (B : list fval -> G -> outcome -> G -> Prop) res c acc f g v f' g1 r g' :
  resumed next f g (Value v) f' g1 -> B [v] g1 r g' -> is_value r = false ->
  pull next B (fun _ v => [v]) res c acc f g [([v], r)] r g'.
Proof. exact (P_block K G next B (fun _ v => [v]) res c acc f g v f' g1 r g'). Qed.
Lemma goes {K G} (next : K -> G -> G * op K) k g g1 args k1 : next k g = (g1, OYield args k1) ->
  advance next k g (Value (yield_val args)) (FWait k1) g1.
Proof. apply A_yield. Qed.

(** [e = [1, 2].select] and [e.each { |x| 2 * x }]: Ruby gives what select gives, [[1, 2]]
    here as a new array; the value here is the receiver.  With [e = [1, 2].map] it would be
    [[2, 4]]. *)
Definition select_of (recv : fval) (l : list Z) : enum code := mkenum (RVal recv) (select [] (map FObj l)) (FNew (select [] (map FObj l))).
Theorem C80_each_result_refuted : exists recv l g calls r g',
  plain perform (select [] (map FObj l)) /\
  enum_each perform twice (select_of recv l) g calls r g' /\ r = Value recv /\
  forall calls' r0 g'', direct perform twice nothing 0 (select [] (map FObj l)) g calls' r0 g'' -> r0 <> r.
Proof.
  exists (FObj 7), [1%Z], [], [([FObj 1], Value (FObj 2))], (Value (FObj 7)), [1%Z]. split; [apply select_plain|]. split; [|split; [reflexivity|]].
  - apply C80_each_partial; [apply select_plain|]. do 2 eexists. split; [directly|split; [apply E_value|reflexivity]].
  - intros calls' r0 g'' D. eapply direct_yield in D; [|reflexivity]. destruct D as (o & g2 & l' & (-> & ->) & D & _). cbn in D.
    eapply direct_end in D; [|reflexivity]. destruct D as (_ & -> & _). discriminate.
Qed.
Print Assumptions C80_each_result_refuted.
(** [[1].each.with_index { |x| 2 * x }]: Ruby gives [[1]], the value of each. *)
Theorem C80_with_index_result_refuted : exists l g calls r g',
  enum_with_index perform twice (each_of l) g calls r g' /\
  forall calls' r0 g'', direct perform twice number 0 (iter (array l) (map FObj l)) g calls' r0 g'' -> r0 <> r.
Proof.
  exists [1%Z], [], [([FObj 1; FObj 0], Value (FObj 2))], (Value (array [2%Z])), [0; 1]%Z. split.
  - apply C80_with_index_partial; [apply iter_plain|]. eexists. split; [directly|reflexivity].
  - intros calls' r0 g'' D. eapply direct_tau in D; [|reflexivity]. inversion D; subst; try discriminate. injection H as <- <- <-. cbn in H0. destruct H0 as (-> & ->).
    cbn in H1. eapply direct_end in H1; [|reflexivity]. destruct H1 as (_ & -> & _). discriminate.
Qed.
Print Assumptions C80_with_index_result_refuted.

(** A method that yields two values, like each_with_index: the block gets one array,
    so [|x|] is that array instead of the first value. *)
Definition pair_code : code := Do (OYield [FObj 1; FObj 2] (fun r => Do (OEnd r))).
Definition first_arg (args : list fval) (g : list Z) (o : outcome) (g' : list Z) : Prop := g' = g /\ o = Value (hd FNil args).
Theorem C80_several_values_refuted : exists c g calls r g',
  enum_each perform first_arg (mkenum (RVal FNil) c (FNew c)) g calls r g' /\
  forall calls' r0 g'', direct perform first_arg nothing 0 c g calls' r0 g'' -> calls' <> calls /\ map snd calls' <> map snd calls.
Proof.
  exists pair_code, [], [([FArr [FObj 1; FObj 2]], Value (FArr [FObj 1; FObj 2]))], (Value FNil), []. split.
  - eapply each_more; [constructor; exact (goes perform pair_code [] [] [FObj 1; FObj 2] _ eq_refl)|split; reflexivity|].
    eapply P_stop. constructor. exact (A_end _ _ perform (Do (OEnd (Value FNil))) [] [] _ eq_refl).
  - intros calls' r0 g'' D. eapply direct_yield in D; [|reflexivity]. destruct D as (o & g2 & l' & (-> & ->) & D & ->).
    eapply direct_end in D; [|reflexivity]. destruct D as (-> & _). split; discriminate.
Qed.
Print Assumptions C80_several_values_refuted.

(** A method that stops when the block gives a value other than nil, like find: the
    enumerator never tells it what the block gave, and calls the block for all elements. *)
Fixpoint find (l : list fval) : code :=
  match l with
  | [] => Do (OEnd (Value FNil))
  | v :: l => Do (OYield [v] (fun r => match r with Value FNil => find l | Value _ => Do (OEnd (Value v)) | _ => Do (OEnd r) end))
  end.
Theorem C80_block_value_refuted : exists l g calls r g',
  enum_each perform twice (mkenum (RVal FNil) (find l) (FNew (find l))) g calls r g' /\ length calls = 2 /\
  forall calls' r0 g'', direct perform twice nothing 0 (find l) g calls' r0 g'' -> length calls' = 1 /\ g'' <> g'.
Proof.
  exists [FObj 1; FObj 2], [], [([FObj 1], Value (FObj 2)); ([FObj 2], Value (FObj 4))], (Value FNil), [1; 2]%Z. split; [|split; [reflexivity|]].
  - eapply each_more; [apply U_new; exact (goes perform (find [FObj 1; FObj 2]) [] [] [FObj 1] _ eq_refl)|split; reflexivity|].
    eapply each_more; [apply U_wait; exact (goes perform (find [FObj 2]) _ _ [FObj 2] _ eq_refl)|split; reflexivity|].
    eapply P_stop. apply U_wait. exact (A_end _ _ perform (find []) _ _ (Value FNil) eq_refl).
  - intros calls' r0 g'' D. eapply direct_yield in D; [|reflexivity]. destruct D as (o & g2 & l' & (-> & ->) & D & ->).
    eapply direct_end in D; [|reflexivity]. destruct D as (-> & _ & ->). split; [reflexivity|discriminate].
Qed.
Print Assumptions C80_block_value_refuted.

(** A method with an ensure clause (mark 77) around the yield: when the block raises
    or breaks, the clause does not run. *)
Definition ensured : code := Do (OYield [FObj 9] (fun r => Mark 77 (Do (OEnd r)))).
Theorem C80_ensure_refuted : exists g calls r g',
  enum_each perform twice (mkenum (RVal FNil) ensured (FNew ensured)) g calls r g' /\ ~ In 77%Z g' /\
  forall calls' r0 g'', direct perform twice nothing 0 ensured g calls' r0 g'' -> calls' = calls /\ r0 = r /\ In 77%Z g''.
Proof.
  exists [], [([FObj 9], Raise (Other 1))], (Raise (Other 1)), [9%Z]. split; [|split; [intros [H|[]]; discriminate|]].
  - eapply each_block; [apply U_new; exact (goes perform ensured [] [] [FObj 9] _ eq_refl)|split; reflexivity|reflexivity].
  - intros calls' r0 g'' D. eapply direct_yield in D; [|reflexivity]. destruct D as (o & g2 & l' & (-> & ->) & D & ->). cbn in D.
    eapply direct_tau in D; [|reflexivity]. eapply direct_end in D; [|reflexivity]. destruct D as (-> & -> & ->). split; [reflexivity|]. split; [reflexivity|]. right. left. reflexivity.
Qed.
Print Assumptions C80_ensure_refuted.

(** A method that ends with StopIteration, as by calling [next] on an exhausted
    enumerator: each, map and with_index take that for the normal end. *)
Definition stops : code := Do (OEnd (Raise Stop)).
Theorem C80_stop_refuted : exists g calls r g',
  enum_each perform twice (mkenum (RVal FNil) stops (FNew stops)) g calls r g' /\ r = Value FNil /\
  forall calls' r0 g'', direct perform twice nothing 0 stops g calls' r0 g'' -> r0 = Raise Stop.
Proof.
  exists [], [], (Value FNil), []. split; [|split; [reflexivity|]].
  - eapply P_stop. apply U_new. change (Raise Stop) with (final (KEnum stops) (Raise Stop)). apply A_end. reflexivity.
  - intros calls' r0 g'' D. eapply direct_end in D; [|reflexivity]. apply D.
Qed.
Print Assumptions C80_stop_refuted.
