(* C114: an operator calls the method of its name. *)
From Verif Require Import Base ModelArray ModelGC ModelClass ModelReflect ModelIdent ModelOper SpecClass SpecReflect SpecOper ProofsClass ProofsClass2 ProofsClass3 ProofsClass4 ProofsClass5 ProofsClass6 ProofsClass7 ProofsClass8 ProofsRaise PropsClass PropsReflect PropsMethodObj.
From Coq Require Import String.
Open Scope list_scope.

Lemma invoke_called site csite e w l name v xs : calm site csite w -> of_class e w v l ->
  exists calls r, eventually (fun k => invoke e w k name v xs = (calls, r)) /\ called e w l name v xs calls r.
Proof.
  intros C (Hc & A & S). destruct (send_means site csite w (cls e v) l (is_self e v) name (mkArgs xs None None) C Hc A S (or_intror (conj eq_refl eq_refl))) as (r & E & M).
  unfold call_means in M. unfold called. destruct (first_own w name l) as [f|].
  - destruct M as [w' ->]. do 2 eexists. split; [|split; reflexivity]. eapply ev_mono; [exact E|]. intros k Ek. unfold invoke. rewrite Ek. reflexivity.
  - destruct (first_own w METHOD_MISSING l) as [m|].
    + destruct M as [w' ->]. do 2 eexists. split; [|split; reflexivity]. eapply ev_mono; [exact E|]. intros k Ek. unfold invoke. rewrite Ek. reflexivity.
    + subst r. do 2 eexists. split; [|split; reflexivity]. eapply ev_mono; [exact E|]. intros k Ek. unfold invoke. rewrite Ek. reflexivity.
Qed.
Lemma invoke_truth site csite e w l name v xs : calm site csite w -> of_class e w v l ->
  exists calls r r', eventually (fun k => then_ (invoke e w k name v xs) (truth e) = (calls, r')) /\ called e w l name v xs calls r /\ as_truth e r r'.
Proof.
  intros C O. destruct (invoke_called site csite e w l name v xs C O) as (calls & r & E & M). exists calls, r, (x <- r ;; truth e x).
  split; [eapply ev_mono; [exact E|]; intros k Ek; rewrite Ek; reflexivity|]. split; [exact M|].
  destruct r as [y|x|]; cbn; auto. unfold truth, to_bool, falsy. destruct (kd e y) eqn:K; auto; right; (split; [intros [H|H]; discriminate|reflexivity]).
Qed.
Lemma preset_in s n : rt_get presets s = Some n -> In (s, n) presets.
Proof.
  generalize presets. induction l as [|[t i] l IH]; cbn; [discriminate|]. destruct (String.eqb_spec t s) as [->|]; [intros [= ->]; auto|auto].
Qed.
Lemma preset_id e s n : ids e -> rt_get presets s = Some n -> get_id e s = n.
Proof. intros I G. apply I, preset_in, G. Qed.
Ltac pid e H := repeat match goal with |- context [get_id e ?s] => rewrite (preset_id e s _ H eq_refl) end.

(* v op x for operands without a built-in calculation: the method named op is
   called on v with x; its value is the value of the expression *)
Theorem C114_binary : forall site csite e w l o v x, calm site csite w -> sane e -> of_class e w v l -> ordering o = false ->
  ~ calculated o (kd e v) (kd e x) -> ~ (logical o /\ truth_value (kd e v)) ->
  exists calls r, eventually (fun k => exec_bin e w k o v x = (calls, r)) /\ called e w l (get_id e (op_text o)) v [x] calls r.
Proof.
  intros site csite e w l o v x C (I & _) O Ho N L. destruct (invoke_called site csite e w l (get_id e (op_text o)) v [x] C O) as (calls & r & E & M). exists calls, r. split; [|exact M].
  eapply ev_mono; [exact E|]. intros k <-. unfold calculated, immediate_number, logical, truth_value in *.
  destruct o; try discriminate Ho; cbn [op_text exec_bin]; try (pid e I);
    unfold op_add, op_sub, op_mul, op_div, invoke_op, op_rem, op_exp, op_cmp, op_shl, op_shr, op_bitand, op_bitor, op_bitxor, any_float;
    destruct (kd e v) eqn:Kv; try reflexivity; try (exfalso; intuition congruence); destruct (kd e x) eqn:Kx; try reflexivity; exfalso; intuition congruence.
Qed.
Print Assumptions C114_binary.
(* v < x: the method is called, the expression is true or false as the value
   counts as true or false *)
Theorem C114_ordering_partial : forall site csite e w l o v x, calm site csite w -> sane e -> of_class e w v l -> ordering o = true ->
  ~ calculated o (kd e v) (kd e x) ->
  exists calls r r', eventually (fun k => exec_bin e w k o v x = (calls, r')) /\ called e w l (get_id e (op_text o)) v [x] calls r /\ as_truth e r r'.
Proof.
  intros site csite e w l o v x C (I & _) O Ho N. destruct (invoke_truth site csite e w l (get_id e (op_text o)) v [x] C O) as (calls & r & r' & E & M & T). exists calls, r, r'. split; [|auto].
  eapply ev_mono; [exact E|]. intros k <-. unfold calculated, immediate_number in *.
  destruct o; try discriminate Ho; cbn [op_text exec_bin]; pid e I; unfold op_ge, op_gt, op_le, op_lt, eval_cmp;
    destruct (kd e v) eqn:Kv; try reflexivity; destruct (kd e x) eqn:Kx; try reflexivity; exfalso; intuition congruence.
Qed.
Print Assumptions C114_ordering_partial.
(* the other operands: no method is called, the built-in calculation has the
   operands in their order *)
Theorem C114_calculated : forall e w k o v x, calculated o (kd e v) (kd e x) -> exec_bin e w k o v x = ([], calc e (calculation o) [v; x]).
Proof.
  intros e w k o v x. unfold calculated, immediate_number. destruct o; cbn [exec_bin calculation];
    unfold op_add, op_sub, op_mul, op_div, invoke_op, op_rem, op_exp, op_cmp, op_shl, op_shr, op_bitand, op_bitor, op_bitxor, op_ge, op_gt, op_le, op_lt, eval_cmp, any_float, direct;
    destruct (kd e v) eqn:Kv; try reflexivity; try (intros; exfalso; intuition congruence); destruct (kd e x) eqn:Kx; try reflexivity; intros; exfalso; intuition congruence.
Qed.
Print Assumptions C114_calculated.
(* true, false and nil with &, | and ^: by truth, whatever the other operand is *)
Theorem C114_logical : forall e w k v x (bv bx : bool), truth_value (kd e v) -> (falsy (kd e v) <-> bv = false) -> (falsy (kd e x) <-> bx = false) ->
  exec_bin e w k OAnd v x = ([], Ok (bool_val e (bv && bx))) /\
  exec_bin e w k OOr v x = ([], Ok (bool_val e (bv || bx))) /\
  exec_bin e w k OXor v x = ([], Ok (bool_val e (xorb bv bx))).
Proof.
  intros e w k v x bv bx T Hv Hx. assert (Ex : to_bool e x = bx).
  { unfold to_bool, falsy in *. destruct (kd e x), bx; try reflexivity; exfalso; intuition (try discriminate; congruence). }
  unfold exec_bin, op_bitand, op_bitor, op_bitxor, truth, not_truth. rewrite Ex. unfold falsy, truth_value in *.
  destruct (kd e v); try (exfalso; intuition congruence); destruct bv; try (exfalso; intuition congruence); destruct bx; repeat split; reflexivity.
Qed.
Print Assumptions C114_logical.
(* v op 5 with the literal is v op x with x = 5 *)
Theorem C114_literal : forall e w k o f v i, sane e -> exec_bin_i e w k o = Some f -> f v i = exec_bin e w k o v (num e i).
Proof.
  intros e w k o f v i (_ & N & _). destruct o; cbn; intros [= <-]; unfold op_addi, op_subi, op_gei, op_gti, op_lei, op_lti, op_add, op_sub, op_ge, op_gt, op_le, op_lt, invoke_op_i, invoke_op, eval_cmp_i, eval_cmp; rewrite N;
    destruct (kd e v); reflexivity.
Qed.
Print Assumptions C114_literal.

(* -v *)
Theorem C114_minus : forall site csite e w l v, calm site csite w -> of_class e w v l ->
  ~ In (kd e v) [KFix; KFlo; KFloat] ->
  exists calls r, eventually (fun k => op_neg e w k v = (calls, r)) /\ called e w l (get_id e "-@") v [] calls r.
Proof.
  intros site csite e w l v C O N. destruct (invoke_called site csite e w l (get_id e "-@") v [] C O) as (calls & r & E & M). exists calls, r. split; [|exact M].
  eapply ev_mono; [exact E|]. intros k <-. unfold op_neg. destruct (kd e v); try reflexivity; exfalso; apply N; cbn; auto.
Qed.
Print Assumptions C114_minus.

(* v[i], v[i] = x: the methods [] and []= are called, with a literal index too *)
Theorem C114_index : forall site csite e w l v i, calm site csite w -> sane e -> of_class e w v l -> kd e v <> KArr -> kd e v <> KHash ->
  (exists calls r, eventually (fun k => op_index e w k v i = (calls, r)) /\ called e w l (get_id e "[]") v [i] calls r) /\
  (forall n, i = num e n -> kd e v <> KFix -> kd e v <> KMeth -> exists calls r, eventually (fun k => op_index_i e w k v n = (calls, r)) /\ called e w l (get_id e "[]") v [i] calls r).
Proof.
  intros site csite e w l v i C (I & _) O N1 N2. destruct (invoke_called site csite e w l (get_id e "[]") v [i] C O) as (calls & r & E & M). split.
  - exists calls, r. split; [|exact M]. eapply ev_mono; [exact E|]. intros k <-. pid e I. unfold op_index. destruct (kd e v); try reflexivity; congruence.
  - intros n -> N3 N4. exists calls, r. split; [|exact M]. eapply ev_mono; [exact E|]. intros k <-. pid e I. unfold op_index_i. destruct (kd e v); try reflexivity; congruence.
Qed.
Print Assumptions C114_index.
Theorem C114_index_assign : forall site csite e w l v i x, calm site csite w -> sane e -> of_class e w v l -> kd e v <> KArr -> kd e v <> KHash ->
  (exists calls r, eventually (fun k => op_set_index e w k v i x = (calls, r)) /\ called e w l (get_id e "[]=") v [i; x] calls r) /\
  (forall n, i = num e n -> exists calls r, eventually (fun k => op_set_index_i e w k v n x = (calls, r)) /\ called e w l (get_id e "[]=") v [i; x] calls r).
Proof.
  intros site csite e w l v i x C (I & _) O N1 N2. destruct (invoke_called site csite e w l (get_id e "[]=") v [i; x] C O) as (calls & r & E & M). split.
  - exists calls, r. split; [|exact M]. eapply ev_mono; [exact E|]. intros k <-. pid e I. unfold op_set_index. destruct (kd e v); try reflexivity; congruence.
  - intros n ->. exists calls, r. split; [|exact M]. eapply ev_mono; [exact E|]. intros k <-. pid e I. unfold op_set_index_i. destruct (kd e v); try reflexivity; congruence.
Qed.
Print Assumptions C114_index_assign.
(* m[5] on a Method object is a call of the method *)
Theorem C114_index_method : forall e w k m r f n, kd e m = KMeth -> bound e m = (r, f) ->
  op_index_i e w k m n = ([(r, mkCall f (mkArgs [num e n] None None))], ans e r (mkCall f (mkArgs [num e n] None None))).
Proof. intros e w k m r f n K B. unfold op_index_i. rewrite K, B. reflexivity. Qed.
Print Assumptions C114_index_method.

(* v == x by the method, when it returns; v != x is the opposite; v === x is
   the same unless v is a module or a regexp *)
Lemma same_id_iff x y : same_id x y = true <-> x = y.
Proof. destruct x, y; cbn; rewrite ?Z.eqb_eq; split; congruence. Qed.
Lemma compared_eq e w k v x : compared (kd e v) (kd e x) -> v <> x -> op_eq e w k v x = match invoke e w k ID_EQ v [x] with (l, Ok y) => (l, truth e y) | (l, Err _) => (l, Ok (bool_val e false)) | (l, Panic) => (l, Panic) end.
Proof.
  intros (P1 & P2 & P3 & P4) D. unfold op_eq. assert (Sid : same_id v x = false) by (destruct (same_id v x) eqn:Q; [apply same_id_iff in Q; congruence|reflexivity]). rewrite Sid.
  destruct (kd e v) eqn:Kv; try (exfalso; apply P1; cbn; tauto); destruct (kd e x) eqn:Kx; try (exfalso; apply P2; cbn; tauto); try reflexivity;
    exfalso; first [apply P3; cbn; split; tauto|apply P4; cbn; split; [reflexivity|tauto]].
Qed.
Theorem C114_equal_partial : forall site csite e w l v x, calm site csite w -> sane e -> of_class e w v l -> compared (kd e v) (kd e x) -> v <> x ->
  exists calls r, called e w l (get_id e "==") v [x] calls r /\
  forall y, r = Ok y -> forall b : bool, (falsy (kd e y) <-> b = false) ->
    eventually (fun k => op_eq e w k v x = (calls, Ok (bool_val e b))) /\
    eventually (fun k => op_ne e w k v x = (calls, Ok (bool_val e (negb b)))) /\
    (kd e v <> KMod -> kd e v <> KRe -> eventually (fun k => op_teq e w k v x = (calls, Ok (bool_val e b)))).
Proof.
  intros site csite e w l v x C (I & _ & BT & BF) O P D. destruct (invoke_called site csite e w l (get_id e "==") v [x] C O) as (calls & r & E & M). exists calls, r. split; [exact M|].
  intros y -> b Hb. assert (Tb : to_bool e y = b).
  { unfold to_bool, falsy in *. destruct (kd e y), b; try reflexivity; exfalso; intuition (try discriminate; congruence). }
  assert (EQ : eventually (fun k => op_eq e w k v x = (calls, Ok (bool_val e b)))).
  { eapply ev_mono; [exact E|]. intros k Ek. rewrite (compared_eq e w k v x P D). revert Ek. pid e I. unfold ID_EQ. intros ->. unfold truth. rewrite Tb. reflexivity. }
  split; [exact EQ|]. split.
  - eapply ev_mono; [exact EQ|]. intros k Ek. unfold op_ne. rewrite Ek. unfold then_, not_truth, to_bool. cbn. destruct b; [rewrite BT|rewrite BF]; reflexivity.
  - intros N1 N2. eapply ev_mono; [exact EQ|]. intros k Ek. unfold op_teq. destruct (kd e v); try exact Ek; congruence.
Qed.
Print Assumptions C114_equal_partial.
(* a class or module on the left of ===: its method is called *)
Theorem C114_case : forall site csite e w l v x, calm site csite w -> sane e -> of_class e w v l -> kd e v = KMod ->
  exists calls r, eventually (fun k => op_teq e w k v x = (calls, r)) /\ called e w l (get_id e "===") v [x] calls r.
Proof.
  intros site csite e w l v x C (I & _) O K. destruct (invoke_called site csite e w l (get_id e "===") v [x] C O) as (calls & r & E & M). exists calls, r. split; [|exact M].
  eapply ev_mono; [exact E|]. intros k <-. pid e I. unfold op_teq. rewrite K. reflexivity.
Qed.
Print Assumptions C114_case.

(* ---- examples: an object 3 and an array 4 of class 12, whose methods are the
   numbers 40 and up; nil, true and false are 0, 1 and 2 ---- *)
Definition ox : list op := rx ++ [Define 12 5 40; Define 12 11 41; Define 12 12 42; Define 12 19 43; Define 12 21 44; Define 12 22 45; Define 12 16 46; Define 12 9 47; Define 12 120 48; Define 12 124 49; Define 12 125 50; Define 12 126 51].
Definition ow : world := w_of false ox.
Lemma ow_calm : calm ex_site ex_csite ow.
Proof. apply calm_of. vm_compute. reflexivity. Qed.
Definition o_kd (v : arg) : kind :=
  match v with
  | AVal 0 => KNil | AVal 1 => KTrue | AVal 2 => KFalse | AVal 3 => KObj | AVal 4 => KArr | AVal 5 => KObj | AVal 6 => KMod | AVal 7 => KMeth
  | AVal _ => KFix | ASym _ => KSym | AStr _ => KStr
  end.
Definition o_num (i : Z) : arg := AVal (if i <? 0 then i else i + 10).
Definition o_id (s : string) : Z :=
  match rt_get presets s with
  | Some n => n
  | None => match rt_get [("-@", 120); ("&", 121); ("|", 122); ("^", 123); ("!", 124); ("+@", 125); ("~", 126)]%string s with Some n => n | None => 200 end
  end.
Definition oe : env := mkEnv o_kd (fun _ => 12) (fun _ => false) o_num (fun b => if b then AVal 1 else AVal 2) (fun _ => (AVal 3, 40)) o_id
  (fun p xs => Ok (AVal 99)) (fun v k => if c_fid k =? 41 then Err OtherErr else Ok (o_num (c_fid k))).
Lemma oe_sane : sane oe.
Proof.
  split; [|split; [|split; reflexivity]].
  - intros s n H. cbn [get_id oe]. unfold presets in H. cbn [In] in H. repeat (destruct H as [H|H]; [injection H as <- <-; reflexivity|]). destruct H.
  - intros i. cbn [kd oe num]. unfold o_num. destruct (i <? 0) eqn:E; unfold o_kd.
    + apply Z.ltb_lt in E. destruct i; try lia. reflexivity.
    + apply Z.ltb_ge in E. destruct (i + 10) as [|p|p] eqn:P; [lia| |reflexivity]. destruct p as [[[p|p|]|[p|p|]|]|[[p|p|]|[p|p|]|]|]; try reflexivity; lia.
Qed.
Lemma oe_class v : of_class oe ow v [12; 9; 10; 8].
Proof. split; [vm_compute; discriminate|]. split; [apply (anc_runs _ 20); vm_compute; reflexivity|vm_compute; reflexivity]. Qed.

Example C114_binary_example : calm ex_site ex_csite ow /\ sane oe /\ of_class oe ow (AVal 3) [12; 9; 10; 8] /\
  ~ calculated OAdd (kd oe (AVal 3)) (kd oe (AVal 15)) /\ ~ (logical OAdd /\ truth_value (kd oe (AVal 3))) /\
  exec_bin oe ow 20 OAdd (AVal 3) (AVal 15) = ([(AVal 3, mkCall 40 (mkArgs [AVal 15] None None))], Ok (AVal 50)) /\
  exec_bin oe ow 20 OMul (AVal 3) (AVal 15) = ([(AVal 3, mkCall 4 (mkArgs [ASym 7; AVal 15] None None))], Ok (AVal 14)).
Proof. split; [apply ow_calm|]. split; [apply oe_sane|]. split; [apply oe_class|]. split; [cbn; unfold immediate_number; intuition discriminate|]. split; [unfold logical; intuition discriminate|]. split; vm_compute; reflexivity. Qed.
Example C114_ordering_example : ordering OLt = true /\ ~ calculated OLt (kd oe (AVal 3)) (kd oe (AVal 15)) /\
  exec_bin oe ow 20 OLt (AVal 3) (AVal 15) = ([(AVal 3, mkCall 46 (mkArgs [AVal 15] None None))], Ok (AVal 1)).
Proof. split; [reflexivity|]. split; [cbn; unfold immediate_number; intuition discriminate|]. vm_compute. reflexivity. Qed.
Example C114_calculated_example : calculated OShl (kd oe (AVal 15)) (kd oe (AVal 16)) /\ calculated OAdd (kd oe (AVal 15)) (kd oe (AVal 16)) /\ ~ calculated OShr (kd oe (AVal 4)) (kd oe (AVal 16)).
Proof. cbn. unfold immediate_number. intuition discriminate. Qed.
Example C114_logical_example : truth_value (kd oe (AVal 0)) /\ (falsy (kd oe (AVal 0)) <-> false = false) /\ (falsy (kd oe (AVal 3)) <-> true = false) /\ exec_bin oe ow 0 OXor (AVal 0) (AVal 3) = ([], Ok (AVal 1)).
Proof. cbn. unfold truth_value, falsy. intuition discriminate. Qed.
Example C114_literal_example : exists f, exec_bin_i oe ow 20 OSub = Some f /\ f (AVal 3) 7 = ([(AVal 3, mkCall 4 (mkArgs [ASym 6; AVal 17] None None))], Ok (AVal 14)).
Proof. eexists. split; [reflexivity|]. vm_compute. reflexivity. Qed.
Example C114_minus_example : ~ In (kd oe (AVal 3)) [KFix; KFlo; KFloat] /\ op_neg oe ow 20 (AVal 3) = ([(AVal 3, mkCall 48 (mkArgs [] None None))], Ok (AVal 58)).
Proof. split; [cbn; intuition discriminate|]. vm_compute. reflexivity. Qed.
Example C114_index_example : kd oe (AVal 3) = KObj /\ kd oe (AVal 7) = KMeth /\ op_index_i oe ow 20 (AVal 3) 7 = ([(AVal 3, mkCall 44 (mkArgs [AVal 17] None None))], Ok (AVal 54)) /\
  op_set_index oe ow 20 (AVal 3) (AVal 17) (AVal 5) = ([(AVal 3, mkCall 45 (mkArgs [AVal 17; AVal 5] None None))], Ok (AVal 55)) /\ op_index_i oe ow 20 (AVal 7) 7 = ([(AVal 3, mkCall 40 (mkArgs [AVal 17] None None))], Ok (AVal 50)).
Proof. repeat split; vm_compute; reflexivity. Qed.
(* the same world in an environment where the method for == returns *)
Definition oe2 : env := mkEnv o_kd (fun _ => 12) (fun _ => false) o_num (fun b => if b then AVal 1 else AVal 2) (fun _ => (AVal 3, 40)) o_id
  (fun p xs => Ok (AVal 99)) (fun v k => Ok (AVal 0)).
Example C114_equal_example : compared (kd oe2 (AVal 3)) (kd oe2 (AVal 5)) /\ op_ne oe2 ow 20 (AVal 3) (AVal 5) = ([(AVal 3, mkCall 41 (mkArgs [AVal 5] None None))], Ok (AVal 1)) /\
  op_teq oe2 ow 20 (AVal 3) (AVal 5) = ([(AVal 3, mkCall 41 (mkArgs [AVal 5] None None))], Ok (AVal 2)).
Proof. split; [cbn; unfold compared; cbn; intuition discriminate|]. split; vm_compute; reflexivity. Qed.
Example C114_case_example : kd oe (AVal 6) = KMod /\ op_teq oe ow 20 (AVal 6) (AVal 5) = ([(AVal 6, mkCall 43 (mkArgs [AVal 5] None None))], Ok (AVal 53)).
Proof. split; vm_compute; reflexivity. Qed.

(* ---- where the method is not called ---- *)
Lemma ignore (run : env -> world -> nat -> arg -> outcome) name f v : first_own ow (o_id name) [12; 9; 10; 8] = Some f -> (forall k, fst (run oe ow k v) = []) ->
  exists site csite e w l v f, calm site csite w /\ sane e /\ of_class e w v l /\ first_own w (get_id e name) l = Some f /\ forall k : nat, fst (run e w k v) = [].
Proof.
  intros F N. exists ex_site, ex_csite, oe, ow, [12; 9; 10; 8], v, f. split; [apply ow_calm|]. split; [apply oe_sane|]. split; [apply oe_class|]. split; [exact F|exact N].
Qed.
(* def ! is never called: !v and not v go by the truth of v *)
Theorem C114_not_refuted : exists site csite e w l v f, calm site csite w /\ sane e /\ of_class e w v l /\ first_own w (get_id e "!") l = Some f /\ forall k : nat, fst (op_not e v) = [].
Proof. apply (ignore (fun e w k v => op_not e v) "!" 49 (AVal 3)); [vm_compute; reflexivity|reflexivity]. Qed.
Print Assumptions C114_not_refuted.
(* def +@ is never called: +v is v *)
Theorem C114_plus_refuted : exists site csite e w l v f, calm site csite w /\ sane e /\ of_class e w v l /\ first_own w (get_id e "+@") l = Some f /\ forall k : nat, fst (op_pos v) = [].
Proof. apply (ignore (fun e w k v => op_pos v) "+@" 50 (AVal 3)); [vm_compute; reflexivity|reflexivity]. Qed.
Print Assumptions C114_plus_refuted.
(* def ~ is never called: ~v raises NoMethodError for all but integers *)
Theorem C114_tilde_refuted : exists site csite e w l v f, calm site csite w /\ sane e /\ of_class e w v l /\ first_own w (get_id e "~") l = Some f /\ forall k : nat, fst (op_bitnot e v) = [].
Proof. apply (ignore (fun e w k v => op_bitnot e v) "~" 51 (AVal 3)); [vm_compute; reflexivity|reflexivity]. Qed.
Print Assumptions C114_tilde_refuted.
(* def [] in a subclass of Array is not called by v[0] *)
Theorem C114_array_index_refuted : exists site csite e w l v f, calm site csite w /\ sane e /\ of_class e w v l /\ first_own w (get_id e "[]") l = Some f /\ forall k : nat, fst (op_index e w k v (num e 0)) = [].
Proof. apply (ignore (fun e w k v => op_index e w k v (num e 0)) "[]" 44 (AVal 4)); [vm_compute; reflexivity|reflexivity]. Qed.
Print Assumptions C114_array_index_refuted.
(* def []= in a subclass of Array is not called by v[0] = 0 *)
Theorem C114_array_set_refuted : exists site csite e w l v f, calm site csite w /\ sane e /\ of_class e w v l /\ first_own w (get_id e "[]=") l = Some f /\ forall k : nat, fst (op_set_index e w k v (num e 0) (num e 0)) = [].
Proof. apply (ignore (fun e w k v => op_set_index e w k v (num e 0) (num e 0)) "[]=" 45 (AVal 4)); [vm_compute; reflexivity|reflexivity]. Qed.
Print Assumptions C114_array_set_refuted.
(* def << in a subclass of Array is not called by v << 0 *)
Theorem C114_array_push_refuted : exists site csite e w l v f, calm site csite w /\ sane e /\ of_class e w v l /\ first_own w (get_id e "<<") l = Some f /\ forall k : nat, fst (exec_bin e w k OShl v (num e 0)) = [].
Proof. apply (ignore (fun e w k v => exec_bin e w k OShl v (num e 0)) "<<" 47 (AVal 4)); [vm_compute; reflexivity|reflexivity]. Qed.
Print Assumptions C114_array_push_refuted.
(* def + in Integer is not called by 5 + 0 *)
Theorem C114_integer_plus_refuted : exists site csite e w l v f, calm site csite w /\ sane e /\ of_class e w v l /\ first_own w (get_id e "+") l = Some f /\ forall k : nat, fst (exec_bin e w k OAdd v (num e 0)) = [].
Proof. apply (ignore (fun e w k v => exec_bin e w k OAdd v (num e 0)) "+" 40 (AVal 15)); [vm_compute; reflexivity|reflexivity]. Qed.
Print Assumptions C114_integer_plus_refuted.
(* def != is not called: v != x asks == *)
Theorem C114_not_equal_refuted : exists site csite e w l v x f g, calm site csite w /\ sane e /\ of_class e w v l /\ first_own w (get_id e "!=") l = Some f /\ f <> g /\
  op_ne e w 20 v x = ([(v, mkCall g (mkArgs [x] None None))], Ok (bool_val e true)).
Proof.
  exists ex_site, ex_csite, oe2, ow, [12; 9; 10; 8], (AVal 3), (AVal 5), 42, 41. split; [apply ow_calm|]. split; [apply oe_sane|]. split; [apply oe_class|]. split; [vm_compute; reflexivity|]. split; [discriminate|]. vm_compute. reflexivity.
Qed.
Print Assumptions C114_not_equal_refuted.
(* def === in a class of one's own is not called: v === x asks == (so does case) *)
Theorem C114_case_refuted : exists site csite e w l v x f g, calm site csite w /\ sane e /\ of_class e w v l /\ first_own w (get_id e "===") l = Some f /\ f <> g /\
  op_teq e w 20 v x = ([(v, mkCall g (mkArgs [x] None None))], Ok (bool_val e false)).
Proof.
  exists ex_site, ex_csite, oe2, ow, [12; 9; 10; 8], (AVal 3), (AVal 5), 43, 41. split; [apply ow_calm|]. split; [apply oe_sane|]. split; [apply oe_class|]. split; [vm_compute; reflexivity|]. split; [discriminate|]. vm_compute. reflexivity.
Qed.
Print Assumptions C114_case_refuted.
(* an error raised by the method for == is lost: v == x is false, v != x true *)
Theorem C114_equal_refuted : exists site csite e w l v x f, calm site csite w /\ sane e /\ of_class e w v l /\ first_own w (get_id e "==") l = Some f /\
  ans e v (mkCall f (mkArgs [x] None None)) = Err OtherErr /\ snd (op_eq e w 20 v x) = Ok (bool_val e false) /\ snd (op_ne e w 20 v x) = Ok (bool_val e true).
Proof.
  exists ex_site, ex_csite, oe, ow, [12; 9; 10; 8], (AVal 3), (AVal 5), 41. split; [apply ow_calm|]. split; [apply oe_sane|]. split; [apply oe_class|]. split; [vm_compute; reflexivity|]. repeat split; vm_compute; reflexivity.
Qed.
Print Assumptions C114_equal_refuted.
(* the value of v < x is true or false, not what the method returns *)
Theorem C114_ordering_refuted : exists site csite e w l v x f y, calm site csite w /\ sane e /\ of_class e w v l /\ first_own w (get_id e "<") l = Some f /\
  ans e v (mkCall f (mkArgs [x] None None)) = Ok y /\ snd (exec_bin e w 20 OLt v x) = Ok (bool_val e true) /\ y <> bool_val e true.
Proof.
  exists ex_site, ex_csite, oe, ow, [12; 9; 10; 8], (AVal 3), (AVal 5), 46, (AVal 56). split; [apply ow_calm|]. split; [apply oe_sane|]. split; [apply oe_class|]. split; [vm_compute; reflexivity|]. split; [vm_compute; reflexivity|]. split; [vm_compute; reflexivity|]. discriminate.
Qed.
Print Assumptions C114_ordering_refuted.
(* def == is not called when the operand is a small number, nil, true, false or a
   symbol, unless it is an integer literal: v == 5 calls it, x = 5; v == x does not *)
Theorem C114_equal_immediate_refuted : exists site csite e w l v i f, calm site csite w /\ sane e /\ of_class e w v l /\ first_own w (get_id e "==") l = Some f /\
  op_eqi e w 20 v i = ([(v, mkCall f (mkArgs [num e i] None None))], Ok (bool_val e true)) /\
  forall k x, In (kd e x) [KFix; KFlo; KTrue; KFalse; KNil; KSym] -> x <> v -> op_eq e w k v x = ([], Ok (bool_val e false)).
Proof.
  exists ex_site, ex_csite, (mkEnv o_kd (fun _ => 12) (fun _ => false) o_num (fun b => if b then AVal 1 else AVal 2) (fun _ => (AVal 3, 40)) o_id (fun p xs => Ok (AVal 99)) (fun v k => Ok (AVal 1))), ow, [12; 9; 10; 8], (AVal 3), 5, 41.
  split; [apply ow_calm|]. split; [apply oe_sane|]. split; [exact (oe_class (AVal 3))|]. split; [vm_compute; reflexivity|]. split; [vm_compute; reflexivity|].
  intros k x Hx N. unfold op_eq. cbn [kd] in *.
  assert (S0 : same_id (AVal 3) x = false) by (destruct (same_id (AVal 3) x) eqn:Q; [apply same_id_iff in Q; congruence|reflexivity]).
  rewrite S0. change (o_kd (AVal 3)) with KObj. destruct (o_kd x); try reflexivity; cbn in Hx; intuition discriminate.
Qed.
Print Assumptions C114_equal_immediate_refuted.
(* and where no method is called for small numbers, nil, true, false and symbols,
   the same values are equal and others are not; two numbers are compared *)
Theorem C114_equal_immediate : forall e w k v x,
  let imm := fun y => In (kd e y) [KFix; KFlo; KTrue; KFalse; KNil; KSym] in
  (imm v \/ imm x) -> ~ (In (kd e v) [KFix; KFlo] /\ In (kd e x) [KFix; KFlo]) ->
  (v = x -> op_eq e w k v x = ([], Ok (bool_val e true))) /\ (v <> x -> op_eq e w k v x = ([], Ok (bool_val e false))).
Proof.
  intros e w k v x imm H N. unfold op_eq.
  assert (F : fix_or_flo (kd e v) && fix_or_flo (kd e x) = false).
  { destruct (kd e v) eqn:A; try reflexivity; destruct (kd e x) eqn:B; try reflexivity; exfalso; apply N; cbn; split; tauto. }
  rewrite F. assert (P : packed (kd e x) || packed (kd e v) = true).
  { unfold imm in H. destruct H as [H|H]; cbn in H; repeat (destruct H as [H|H]; [rewrite <- H; cbn; rewrite ?orb_true_r; reflexivity|]); destruct H. }
  rewrite P. split; intros E.
  - subst x. rewrite (proj2 (same_id_iff v v) eq_refl). reflexivity.
  - destruct (same_id v x) eqn:Q; [apply same_id_iff in Q; contradiction|reflexivity].
Qed.
Print Assumptions C114_equal_immediate.
Example C114_equal_immediate_example : op_eq oe ow 20 (AVal 0) (AVal 3) = ([], Ok (AVal 2)) /\ op_eq oe ow 20 (AVal 0) (AVal 0) = ([], Ok (AVal 1)).
Proof. split; reflexivity. Qed.
