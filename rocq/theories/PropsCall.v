(** Calls with splat, keyword, [**] and block arguments (C94). *)
From Coq Require Import ZArith List Bool Lia.
From Verif Require Import Base ModelValue ModelInst ModelCodegen ModelVM SpecCore ModelCall SpecCall
  ProofsCore1 ProofsCore2 ProofsCore3 ProofsCore8 SpecIntPrims ProofsIntPrims PropsCore.
Import ListNotations.
Open Scope Z_scope.

(** ** The parser *)
Lemma collect_app l r acc : collect (l ++ r) acc = (acc <- collect l acc ;; collect r acc).
Proof.
  revert acc. induction l as [|a l IH]; intros acc; [reflexivity|]. cbn [app collect].
  destruct (add_arg a acc); cbn [rbind]; [apply IH|reflexivity|reflexivity].
Qed.
Definition pos_node (p : bool * node) : node := if fst p then NOp bSplat [snd p] else snd p.

Lemma collect_pos pos args kw hs d :
  collect (map (fun p : bool * node => if fst p then ASplat (snd p) else APos (snd p)) pos) (mkargs args kw hs None d)
  = Ok (mkargs (args ++ map pos_node pos) kw hs None d).
Proof.
  revert args. induction pos as [|[b n] pos IH]; intros args; [cbn; rewrite app_nil_r; reflexivity|].
  cbn [map fst snd collect]. destruct b; cbn [add_arg rbind]; rewrite IH, <- app_assoc; reflexivity.
Qed.
Lemma collect_kw kw args kw0 hs d :
  collect (map (fun p : Z * node => AKey (fst p) (snd p)) kw) (mkargs args kw0 hs None d)
  = Ok (mkargs args (kw0 ++ kw) hs None d).
Proof.
  revert kw0. induction kw as [|[k n] kw IH]; intros kw0; [cbn; rewrite app_nil_r; reflexivity|].
  cbn [map fst snd collect add_arg rbind]. rewrite IH, <- app_assoc. reflexivity.
Qed.
Lemma collect_hs hs args kw hs0 d :
  collect (map AHash hs) (mkargs args kw hs0 None d) = Ok (mkargs args kw (hs0 ++ hs) None d).
Proof.
  revert hs0. induction hs as [|n hs IH]; intros hs0; [cbn; rewrite app_nil_r; reflexivity|].
  cbn [map collect add_arg rbind]. rewrite IH, <- app_assoc. reflexivity.
Qed.
Lemma parse_written pos kw hs amp :
  parse_args (written pos kw hs amp) = Ok (mkargs (map pos_node pos) kw hs amp false).
Proof.
  unfold parse_args, written. rewrite collect_app, collect_pos. cbn [rbind app].
  rewrite collect_app, collect_kw. cbn [rbind app]. rewrite collect_app, collect_hs. cbn [rbind app].
  destruct amp; reflexivity.
Qed.

(** ** Evaluation *)
Section Eval.
Context {W : Type}.
Variable P : prims W.
Variables (setter : Z -> Z) (std : Z) (f : nat).
Notation ev := (eval P setter std f).

Lemma evals_acc l acc s : evals ev l acc s =
  match evals ev l [] s with LVals vs s => LVals (acc ++ vs) s | LStop o => LStop o end.
Proof.
  revert acc s. induction l as [|x l IH]; intros acc s; [cbn; rewrite app_nil_r; reflexivity|].
  cbn [evals]. destruct (ev x s); try reflexivity. cbn [app].
  rewrite (IH (acc ++ [v])), (IH [v]). match goal with |- context [evals ev l [] ?x] => destruct (evals ev l [] x) end; [|reflexivity].
  rewrite <- app_assoc. reflexivity.
Qed.
Lemma evals_app l r acc s : evals ev (l ++ r) acc s =
  match evals ev l acc s with LVals vs s => evals ev r vs s | LStop o => LStop o end.
Proof.
  revert acc s. induction l as [|x l IH]; intros acc s; [reflexivity|]. cbn [app evals].
  destruct (ev x s); try reflexivity. apply IH.
Qed.

Lemma evals_stop l acc s o : evals ev l acc s = LStop o -> forall v s', o <> Val v s'.
Proof.
  revert acc s. induction l as [|x l IH]; intros acc s H; [discriminate|]. cbn [evals] in H.
  destruct (ev x s); try (injection H as <-; discriminate). eapply IH, H.
Qed.

Lemma evals_pos pos acc s : evals ev (map pos_node pos) acc s = eval_pos P ev pos acc s.
Proof.
  revert acc s. induction pos as [|[b n] pos IH]; intros acc s; [reflexivity|].
  cbn [map eval_pos evals]. destruct b.
  - change (pos_node (true, n)) with (NOp bSplat [n]). cbn [eval evals]. destruct (ev n s); try reflexivity. cbn [app bindl].
    match goal with |- context [p_op P bSplat [v] ?x] => destruct (p_op P bSplat [v] x) end; cbn [prim]; [apply IH|reflexivity].
  - change (pos_node (false, n)) with n. destruct (ev n s); try reflexivity. apply IH.
Qed.
Lemma evals_kw kw acc s : evals ev (kw_nodes kw) acc s =
  match evals ev (map snd kw) [] s with LVals vs s => LVals (acc ++ keyed kw vs) s | LStop o => LStop o end.
Proof.
  revert acc s. induction kw as [|[k n] kw IH]; intros acc s; [cbn; rewrite app_nil_r; reflexivity|].
  unfold kw_nodes. cbn [flat_map fst snd app map evals eval].
  destruct (ev n s); try reflexivity. cbn [app]. fold (kw_nodes kw).
  rewrite IH, (evals_acc (map snd kw) [v]). match goal with |- context [evals ev (map snd kw) [] ?x] => destruct (evals ev (map snd kw) [] x) end; [|reflexivity].
  cbn [keyed app]. rewrite <- !app_assoc. reflexivity.
Qed.


Lemma splat_pos pos : (forall n l, In (false, n) pos -> n <> NOp bSplat l) ->
  existsb is_splat (map pos_node pos) = existsb fst pos.
Proof.
  induction pos as [|[b n] pos IH]; intros H; [reflexivity|]. cbn [map existsb pos_node fst snd].
  rewrite IH by (intros m l I; apply H; right; exact I). f_equal.
  destruct b; [reflexivity|]. destruct n as [| | | | | | | | | | | | | |k l| | | | | | | | | | | | | | | |]; try reflexivity.
  destruct k; try reflexivity. destruct (H _ l (or_introl eq_refl) eq_refl).
Qed.

Lemma some_length {A} (l : list A) : negb (length l =? 0)%nat = some_of l.
Proof. destruct l; reflexivity. Qed.

Lemma call_eval r id pos kw hs amp s : (forall n l, In (false, n) pos -> n <> NOp bSplat l) ->
  ev (call_tree r id (mkargs (map pos_node pos) kw hs amp false) false) s
  = eval_call P ev r id pos kw hs amp s.
Proof.
  intros NS. unfold call_tree. cbn [al_args al_kw al_hash al_block al_delegate].
  rewrite splat_pos, map_length, !some_length by exact NS.
  unfold eval_call.
  set (amp' := match amp with Some _ => true | None => false end).
  destruct (negb amp' && negb (some_of kw) && negb (existsb fst pos) && negb (some_of hs) && negb false) eqn:Q.
  - cbn [eval]. destruct (ev r s) as [rv s1| | | | | |]; try reflexivity. cbn [bindv andb].
    rewrite evals_pos. destruct (eval_pos P ev pos [] s1) as [vs s2|]; [|reflexivity]. cbn [bindl].
    destruct amp, kw, hs, (existsb fst pos); try discriminate Q. reflexivity.
  - cbn [eval evals]. destruct (ev r s) as [rv s1| | | | | |]; try reflexivity. cbn [bindv app].
    rewrite evals_app, evals_acc, evals_pos.
    destruct (eval_pos P ev pos [] s1) as [vs s2|]; [|reflexivity]. cbn [bindl app].
    rewrite evals_app.
    assert (KW : forall (k : list value -> sst -> outcome),
      with_keywords P ev kw s2 k =
      bindl (evals ev (if some_of kw then [NOp bHash (kw_nodes kw)] else []) [] s2) k).
    { intros k. unfold with_keywords. destruct kw as [|p kw]; [reflexivity|].
      cbn [some_of evals eval]. rewrite evals_kw. destruct (evals ev (map snd (p :: kw)) [] s2) as [ks s3|o] eqn:EE.
      2: { pose proof (evals_stop _ _ _ _ EE) as N. destruct o; try reflexivity. destruct (N _ _ eq_refl). }
      cbn [bindl app]. destruct (p_op P bHash (keyed (p :: kw) ks) (s_w s3)); reflexivity. }
    rewrite KW, (evals_acc _ (rv :: vs)).
    destruct (evals ev (if some_of kw then _ else _) [] s2) as [kv s3|] eqn:EK; [|reflexivity].
    cbn [bindl]. rewrite evals_app.
    assert (HS : forall (k : list value -> sst -> outcome),
      with_hashes P ev hs s3 k =
      bindl (evals ev (if some_of hs then [NArray hs] else []) [] s3) k).
    { intros k. unfold with_hashes. destruct hs as [|p hs']; [reflexivity|].
      cbn [some_of]. generalize (p :: hs') as L. intros L. change (evals ev [NArray L] [] s3) with
        (match bindl (evals ev L [] s3) (fun vs s => let (v, w) := p_array P vs (s_w s) in
                 Val v (set_w w s)) with Val v s => LVals [v] s | o => LStop o end).
      destruct (evals ev L [] s3) as [ks s4|o] eqn:EE.
      2: { pose proof (evals_stop _ _ _ _ EE) as N. destruct o; try reflexivity. destruct (N _ _ eq_refl). }
      cbn [bindl app]. destruct (p_array P ks (s_w s4)); reflexivity. }
    rewrite HS, (evals_acc _ ((rv :: vs) ++ kv)).
    destruct (evals ev (if some_of hs then _ else _) [] s3) as [hv s4|] eqn:EH; [|reflexivity].
    cbn [bindl].
    assert (BL : forall (k : list value -> sst -> outcome),
      with_block ev amp s4 k = bindl (evals ev (opt_list amp) [] s4) k).
    { intros k. unfold with_block. destruct amp as [b|]; [|reflexivity].
      cbn [opt_list evals]. destruct (ev b s4); reflexivity. }
    rewrite BL, (evals_acc _ (((rv :: vs) ++ kv) ++ hv)).
    destruct (evals ev (opt_list amp) [] s4) as [bv s5|] eqn:EB; [|reflexivity]. cbn [bindl].
    assert (SB : some_of bv = amp').
    { destruct amp as [b|]; cbn [opt_list evals] in EB.
      - destruct (ev b s4); try discriminate EB. injection EB as <- _. reflexivity.
      - injection EB as <- _. reflexivity. }
    rewrite SB.
    destruct (some_of kw || some_of hs || amp' || existsb fst pos) eqn:F.
    + rewrite <- !app_assoc. reflexivity.
    + exfalso. rewrite !orb_false_iff in F. destruct F as [[[F1 F2] F3] F4].
      rewrite F1, F2, F3, F4 in Q. discriminate Q.
Qed.
End Eval.

(** A call with all kinds of arguments, in the order of the manual, evaluates the receiver and
    the arguments from left to right, each once, and then calls the method with them. *)
Theorem C94_call_partial : forall W (P : prims W) cx r m pos kw hs amp l body G f s env o,
  parse_args (written pos kw hs amp) = Ok l ->
  (forall n ns, In (false, n) pos -> n <> NOp bSplat ns) ->
  body = call_tree r m l false ->
  code_of P cx body G -> supported cx body -> holds cx s env ->
  eval_call P (eval P (sc_setter cx) (sc_stderr cx) f) r m pos kw hs amp s = o ->
  o <> Fuel -> o <> Out ->
  ends_as P cx G env (s_w s) o.
Proof.
  intros W P cx r m pos kw hs amp l body G f s env o EP NS -> C K H E NF NO.
  rewrite parse_written in EP. injection EP as <-.
  eapply C29_ends_as_source_partial with (f := f); eauto. rewrite call_eval; assumption.
Qed.
Print Assumptions C94_call_partial.

(** [self.log2(1, *[3], k: 2, **[4], &a)], where method 9 is no plain one *)
Example C94_example :
  let pos := [(false, NInt 1); (true, NArray [NInt 3])] in
  let kw := [(40, NInt 2)] in
  exists l, parse_args (written pos kw [NArray [NInt 4]] (Some (NLVar 1))) = Ok l /\
  let body := call_tree NSelf 9 l false in
  code_of iprims cx0 body (code0 body) /\ supported cx0 body /\ holds cx0 s0 env0 /\
  match eval_call iprims (eval iprims (sc_setter cx0) 50 5) NSelf 9 pos kw [NArray [NInt 4]]
          (Some (NLVar 1)) s0 with
  | Val v s => option_map (@length value) (elems v (s_w s)) = Some 6%nat
  | _ => False
  end.
Proof.
  cbv zeta. eexists. split; [reflexivity|].
  split; [apply code0_ok; vm_compute; reflexivity|]. split; [reflexivity|].
  split; [exact holds0|]. vm_compute. reflexivity.
Qed.

(** [nil&.m( *[1])] calls m on nil: with a splat, keyword or block argument [&.] is not looked at. *)
Theorem C94_safe_refuted : exists l n v env w,
  parse_args [ASplat (NArray [NInt 1])] = Ok l /\
  run0 n (call_tree NNil 9 l true) = VDone (HRet v) env w /\ v <> nil /\
  length (iw_log w) = 1%nat.
Proof.
  eexists _, 20%nat, _, _, _. split; [reflexivity|]. vm_compute.
  split; [reflexivity|]. split; [discriminate|reflexivity].
Qed.
Print Assumptions C94_safe_refuted.

(** [m( **(log 1), k: (log 2))] evaluates the keyword argument first. *)
Theorem C94_order_refuted : exists l n v env w r,
  parse_args [AHash (NSend NSelf 7 [NInt 1] false); AKey 40 (NSend NSelf 7 [NInt 2] false)] = Ok l /\
  run0 n (call_tree NSelf 9 l false) = VDone (HRet v) env w /\
  iw_log w = [integer 2] :: [integer 1] :: r.
Proof.
  eexists _, 40%nat, _, _, _, _. split; [reflexivity|]. vm_compute. split; reflexivity.
Qed.
Print Assumptions C94_order_refuted.

(** [yield(k: (log 1))] neither evaluates nor passes the argument. *)
Theorem C94_yield_keyword_refuted : exists l n v env w,
  parse_args [AKey 40 (NSend NSelf 7 [NInt 1] false)] = Ok l /\
  run0 n (yield_tree l) = VDone (HRet v) env w /\ iw_log w = [[]].
Proof.
  eexists _, 20%nat, _, _, _. split; [reflexivity|]. vm_compute. split; reflexivity.
Qed.
Print Assumptions C94_yield_keyword_refuted.

(** [super(&b)] panics in the code generator, and [super(k: (log 1))] drops its argument. *)
Theorem C94_super_refuted :
  (exists l, parse_args [ABlock (NLVar 1)] = Ok l /\ super_tree l = Panic) /\
  (exists l t, parse_args [AKey 40 (NSend NSelf 7 [NInt 1] false)] = Ok l /\
    super_tree l = Ok t /\ exists n v env w, run0 n t = VDone (HRet v) env w /\ iw_log w = []).
Proof.
  split.
  - eexists. split; reflexivity.
  - do 2 eexists. split; [reflexivity|]. split; [reflexivity|].
    exists 20%nat. do 3 eexists. vm_compute. split; reflexivity.
Qed.
Print Assumptions C94_super_refuted.
