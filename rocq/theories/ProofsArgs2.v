(* Lemmas about the binding of arguments by method calls and block calls. *)
From Verif Require Import Base ModelValue ModelArray ProofsArray ModelArgs SpecArgs ProofsArgs.
From Coq Require Import Lia.

Definition pre_args (s : sig) (l : list cell) : list cell := firstn (length l - length (s_post s)) l.
Definition post_args (s : sig) (l : list cell) : list cell := skipn (length l - length (s_post s)) l.

Lemma spec_positional_vals s l : (length (s_req s) + length (s_post s) <= length l)%nat ->
  spec_positional s l =
  (if (match s_rest s with None => true | Some _ => false end) &&
      (zlen (s_req s) + zlen (s_post s) + zlen (s_opt s) <? zlen l)
   then None else Some (pos_vals s (pre_args s l) (post_args s l))).
Proof.
  intros H. unfold spec_positional. destruct (Nat.ltb_spec (length l) (length (s_req s) + length (s_post s))); [lia|].
  set (mid := firstn (length l - length (s_post s) - length (s_req s)) (skipn (length (s_req s)) l)).
  assert (Lm : length mid = (length l - length (s_post s) - length (s_req s))%nat).
  { unfold mid. rewrite firstn_length, skipn_length. lia. }
  assert (Em : skipn (length (s_req s)) (pre_args s l) = mid).
  { unfold pre_args, mid. rewrite skipn_firstn_comm. reflexivity. }
  assert (Ef : firstn (length (s_req s)) (pre_args s l) = firstn (length (s_req s)) l).
  { unfold pre_args. rewrite firstn_firstn. f_equal. lia. }
  assert (Lx : length (pre_args s l) = (length l - length (s_post s))%nat).
  { unfold pre_args. rewrite firstn_length. lia. }
  assert (EV : pos_vals s (pre_args s l) (post_args s l) =
     firstn (length (s_req s)) l ++ firstn (length (s_opt s)) mid ++ repeat cuninit (length (s_opt s) - length mid) ++
     (match s_rest s with Some (Some _) => [CArr (skipn (length (s_opt s)) mid)] | _ => [] end) ++ skipn (length l - length (s_post s)) l).
  { unfold pos_vals. rewrite Ef, Em, Lx.
    replace (length (s_req s) - (length l - length (s_post s)))%nat with O by lia. cbn [repeat app].
    replace (length l - length (s_post s) - length (s_req s))%nat with (length mid) by lia. reflexivity. }
  rewrite EV. destruct (s_rest s) as [[z|]|]; cbn [andb]; try reflexivity.
  destruct (skipn (length (s_opt s)) mid) as [|c e] eqn:Es.
  - assert (length (skipn (length (s_opt s)) mid) = O) by (rewrite Es; reflexivity). rewrite skipn_length in H1.
    destruct (Z.ltb_spec (zlen (s_req s) + zlen (s_post s) + zlen (s_opt s)) (zlen l)); [unfold zlen in *; lia|reflexivity].
  - assert (length (skipn (length (s_opt s)) mid) = S (length e)) by (rewrite Es; reflexivity). rewrite skipn_length in H1.
    destruct (Z.ltb_spec (zlen (s_req s) + zlen (s_post s) + zlen (s_opt s)) (zlen l)); [reflexivity|unfold zlen in *; lia].
Qed.

Lemma check_arity_spec s kw n : 0 <= n ->
  check_arity (sig_params s) kw n =
  (let l := n + (if kw then 1 else 0) in
   if (l <? zlen (s_req s) + zlen (s_post s)) ||
      ((match s_rest s with None => true | Some _ => false end) && (zlen (s_req s) + zlen (s_post s) + zlen (s_opt s) <? l))
   then Err ArgErr else Ok tt).
Proof.
  intros Hn. unfold check_arity, sig_params, rest_flag. cbn [ip_req ip_post ip_rest ip_delegate ip_opt].
  assert (R := zlen_nonneg (s_req s)). assert (P := zlen_nonneg (s_post s)).
  destruct (s_rest s) as [[z|]|]; cbn [andb]; rewrite ?Bool.orb_false_r; [| |reflexivity];
    destruct kw; cbn zeta;
    repeat match goal with |- context [if ?b then _ else _] => destruct b eqn:? end; try reflexivity; lia.
Qed.

(* the arguments, with the hash of keywords on top when the callee takes none *)
Lemma push_kw_ok s st args a : on_top st args -> sp st + 1 <= STACK_SIZE -> a_len a = zlen args ->
  exists st1, push_kw_hash st (sig_params s) a = Ok st1 /\
    sp st1 = sp st - zlen args + zlen (positional s args (a_kw a)) /\
    (forall j, j < sp st - zlen args -> buf st1 j = buf st j) /\
    holds (buf st1) (sp st - zlen args) (positional s args (a_kw a)).
Proof.
  intros Ht Hf Hl.
  assert (Hh : holds (buf st) (sp st - zlen args) args) by (intros i c Hi; apply (Ht i c Hi)).
  unfold push_kw_hash, positional. rewrite takes_sig. destruct (takes_kw s).
  - exists st. repeat split; auto. lia.
  - destruct (a_kw a) as [h|]; [|rewrite app_nil_r; exists st; repeat split; auto; lia].
    unfold push. destruct (Z.eqb_spec (sp st) STACK_SIZE); [lia|].
    eexists. split; [reflexivity|]. cbn [sp buf].
    assert (Z := zlen_nonneg args).
    split; [rewrite zlen_app; change (zlen [CHash h]) with 1; lia|]. split.
    + intros j Hj. unfold mset. destruct (Z.eqb_spec j (sp st)); [lia|reflexivity].
    + apply holds_app. split.
      * apply holds_mset; [lia|exact Hh].
      * apply holds_one. unfold mset. destruct (Z.eqb_spec (sp st - zlen args + zlen args) (sp st)); [reflexivity|lia].
Qed.

(* parameter lists of required parameters only *)
Definition required_only (s : sig) : bool := is_opt (sig_params s).
Lemma required_only_spec s : required_only s = true <->
  s_opt s = [] /\ s_rest s = None /\ s_post s = [] /\ s_key s = [] /\ s_kwrest s = None /\ s_block s = None.
Proof.
  unfold required_only, is_opt, sig_params, rest_flag. cbn [ip_opt ip_rest ip_post ip_block ip_keyword ip_kwrest ip_delegate].
  split.
  - intros H. repeat (apply Bool.andb_true_iff in H; destruct H as [H ?]).
    destruct (s_opt s); [|cbn in H; unfold zlen in H; cbn in H; lia].
    destruct (s_post s); [|unfold zlen in *; cbn in *; lia].
    destruct (s_rest s) as [[z|]|]; try discriminate.
    destruct (s_kwrest s); [discriminate|]. destruct (s_block s); [discriminate|].
    destruct (s_key s) as [|[k d] ks]; [repeat split|]. cbn in *.
    destruct (rev (combine (map fst ks) _)); discriminate.
  - intros (-> & -> & -> & -> & -> & ->). reflexivity.
Qed.

Lemma names_required s : required_only s = true -> names s = s_req s.
Proof.
  intros H. apply required_only_spec in H. destruct H as (H1 & H2 & H3 & H4 & H5 & H6).
  unfold names, rest_name. rewrite H1, H2, H3, H4, H5, H6. cbn. rewrite app_nil_r. reflexivity.
Qed.

Section Call.
Variables (s : sig) (iq : iseq) (ext : list Z).
Hypothesis Hp : iq_params iq = sig_params s.
Hypothesis Hv : iq_lvar iq = with_table (slots s) (names s ++ ext).
Hypothesis Hl : iq_lvars iq = zlen (names s ++ ext).
Hypothesis Hn : NoDup (names s ++ ext).
Hypothesis Ho : iq_opt_flag iq = is_opt (sig_params s).
Hypothesis Hm : iq_mularg_flag iq = (1 <? zlen (s_req s) + zlen (s_post s)).

Lemma bind_method_ok st args a :
  on_top st args -> a_len a = zlen args ->
  sp st + 1 <= STACK_SIZE -> sp st - zlen args + iq_lvars iq <= STACK_SIZE ->
  NoDup (map fst (kw_list (a_kw a))) ->
  (s_rest s = Some None -> s_key s = []) ->
  (required_only s = true -> a_kw a = None) ->
  (forall k, In (k, false) (s_key s) -> given k (kw_list (a_kw a)) <> None) ->
  match spec_call s args (a_kw a) (a_block a) with
  | None => bind_method st iq a = Err ArgErr
  | Some env => exists st', bind_method st iq a = Ok st' /\ bound iq st st' (sp st - zlen args) env
  end.
Proof.
  intros Ht Ha Hf1 Hf2 Hnd Hdis Hro Hman.
  unfold bind_method. rewrite Ha, Ho, Hp. fold (required_only s).
  assert (Z0 := zlen_nonneg args).
  destruct (required_only s) eqn:Er.
  - (* fast path *)
    assert (Er' := Er). apply required_only_spec in Er'. destruct Er' as (E1 & E2 & E3 & E4 & E5 & E6).
    specialize (Hro eq_refl). rewrite Hro. unfold spec_call, positional, takes_kw. rewrite E4, E5, E6. rewrite app_nil_r.
    cbn [app]. cbn [sig_params ip_req].
    destruct (Z.eqb_spec (zlen args) (zlen (s_req s))) as [El|El]; cbn [negb].
    + rewrite spec_positional_vals by (rewrite E3; unfold zlen in *; cbn; lia). rewrite E1, E2, E3.
      change (zlen []) with 0. cbn [andb]. destruct (Z.ltb_spec (zlen (s_req s) + 0 + 0) (zlen args)); [lia|].
      assert (Ev : pos_vals s (pre_args s args) (post_args s args) = args).
      { unfold pos_vals, pre_args, post_args. rewrite E1, E2, E3. cbn [length firstn repeat app Nat.sub].
        rewrite Nat.sub_0_r, firstn_all, skipn_all. rewrite !app_nil_r.
        replace (length (s_req s) - length args)%nat with O by (unfold zlen in *; lia). cbn. rewrite app_nil_r.
        apply firstn_all2. unfold zlen in *; lia. }
      rewrite Ev, app_nil_r.
      unfold grow. assert (Hge : zlen args <= iq_lvars iq).
      { rewrite Hl, zlen_app, (names_required s Er). assert (X := zlen_nonneg ext). lia. }
      destruct (Z.ltb_spec (iq_lvars iq - zlen args) 0); [lia|].
      destruct (Z.ltb_spec STACK_SIZE (sp st + (iq_lvars iq - zlen args))); [lia|].
      eexists. split; [reflexivity|]. eapply bound_of; eauto.
      * rewrite (names_required s Er). lia.
      * cbn [sp]. lia.
      * intros j Hj. cbn [buf]. unfold mfill. destruct ((sp st <=? j) && (j <? sp st + (iq_lvars iq - zlen args))) eqn:E; [lia|reflexivity].
      * cbn [buf]. apply holds_mfill; [right; lia|]. intros i c Hi. apply (Ht i c Hi).
      * intros j Hj. rewrite (names_required s Er) in Hj. cbn [buf]. unfold mfill.
        destruct ((sp st <=? sp st - zlen args + j) && (sp st - zlen args + j <? sp st + (iq_lvars iq - zlen args))) eqn:E; [reflexivity|lia].
    + unfold spec_positional. rewrite E1, E2, E3. cbn [length]. rewrite Nat.add_0_r, !Nat.sub_0_r.
      destruct (Nat.ltb_spec (length args) (length (s_req s))); [reflexivity|].
      destruct (skipn 0 _) as [|c e] eqn:Es; [|reflexivity]. exfalso. cbn [skipn] in Es.
      assert (Ez := f_equal (@length cell) Es). rewrite firstn_length, skipn_length in Ez. cbn in Ez.
      unfold zlen in *. lia.
  - (* slow path *)
    destruct (push_kw_ok s st args a Ht Hf1 Ha) as (st1 & E1 & Hs1 & Hl1 & Hh1). rewrite E1. cbn [rbind].
    set (al := positional s args (a_kw a)) in *.
    rewrite check_arity_spec by exact Z0. cbn zeta.
    assert (Eal : zlen args + (if negb (takes_keywords (sig_params s)) && has_kw a then 1 else 0) = zlen al).
    { unfold al, positional. rewrite takes_sig. unfold has_kw. destruct (takes_kw s); cbn [negb andb]; [lia|].
      rewrite zlen_app. destruct (a_kw a); cbn; unfold zlen; cbn [length]; lia. }
    rewrite Eal. unfold spec_call. fold al.
    destruct (Z.ltb_spec (zlen al) (zlen (s_req s) + zlen (s_post s))) as [Hlt|Hge]; cbn [orb].
    { unfold spec_positional. destruct (Nat.ltb_spec (length al) (length (s_req s) + length (s_post s))); [reflexivity|unfold zlen in *; lia]. }
    rewrite spec_positional_vals by (unfold zlen in *; lia).
    destruct (_ && (zlen (s_req s) + zlen (s_post s) + zlen (s_opt s) <? zlen al)); [reflexivity|]. cbn [rbind].
    assert (Hal : al = pre_args s al ++ post_args s al) by (symmetry; apply firstn_skipn).
    assert (HD : zlen (post_args s al) = zlen (s_post s)).
    { unfold post_args, zlen. rewrite skipn_length. unfold zlen in *. lia. }
    destruct (fill_positional_ok s iq ext Hp Hv Hl st1 (sp st - zlen args) (pre_args s al) (post_args s al)) as (st2 & E2 & Hs2 & Hl2 & Hh2 & Hk2 & Hn2);
      [rewrite <- Hal; exact Hs1|exact HD|rewrite <- Hal; exact Hh1|exact Hf2|].
    rewrite E2. cbn [rbind].
    assert (R := rest_ok s iq ext Hp Hv Hl Hn Hdis st2 st (sp st - zlen args) (pos_vals s (pre_args s al) (post_args s al)) a
                  (pos_vals_len s _ _ HD) Hs2).
    specialize (R (fun j Hj => eq_trans (Hl2 j Hj) (Hl1 j Hj)) Hh2 Hk2 Hn2 Hnd Hman).
    destruct (if takes_kw s then spec_keys s (kw_list (a_kw a)) else Some []) as [keys|].
    + destruct R as (st3 & E3 & Hb). rewrite E3. cbn [rbind]. eexists. split; [reflexivity|]. exact Hb.
    + rewrite R. reflexivity.
Qed.

(* the arguments of a block after a lone array was taken apart *)
Definition spread (args : list cell) : list cell :=
  match args with [CArr l] => if 1 <? zlen (s_req s) + zlen (s_post s) then l else args | _ => args end.
Lemma prepare_ok st base args :
  holds (buf st) base args -> sp st = base + zlen args -> base + zlen (spread args) <= STACK_SIZE ->
  exists st1, prepare_block_args st base iq = Ok st1 /\ sp st1 = base + zlen (spread args) /\
    (forall j, j < base -> buf st1 j = buf st j) /\ holds (buf st1) base (spread args).
Proof.
  intros Hh Hs Hf. unfold prepare_block_args. rewrite Hm.
  replace (sp st - base) with (zlen args) by lia.
  destruct args as [|c [|c' args]].
  - cbn. exists st. repeat split; auto.
  - unfold spread in *. change (zlen [c] =? 1) with true. cbn [andb].
    destruct (1 <? zlen (s_req s) + zlen (s_post s)).
    + assert (Ec : buf st base = c) by (apply holds_one; exact Hh). rewrite Ec.
      destruct c as [v|l|kv|id]; try (exists st; repeat split; auto; fail).
      unfold extend. cbn [sp]. change (zlen [CArr l]) with 1 in Hs.
      replace (sp st - 1) with base by lia.
      destruct (Z.ltb_spec STACK_SIZE (base + zlen l)); [lia|].
      eexists. split; [reflexivity|]. cbn [sp buf]. split; [reflexivity|]. split; [|apply holds_stored].
      intros j Hj. unfold mstore. destruct ((base <=? j) && (j <? base + zlen l)) eqn:E; [lia|reflexivity].
    + exists st. destruct c; repeat split; auto.
  - assert (El : zlen (c :: c' :: args) =? 1 = false) by (assert (H := zlen_nonneg args); rewrite !zlen_cons; lia).
    rewrite El. cbn [andb]. exists st. assert (Es : spread (c :: c' :: args) = c :: c' :: args) by (destruct c; reflexivity).
    rewrite Es. repeat split; auto.
Qed.

Definition cut (l : list cell) : list cell :=
  match s_rest s with None => firstn (length (s_req s ++ s_opt s ++ s_post s)) l | Some _ => l end.
Lemma block_args_spread args :
  (match args with [CArr _] => splats s = (1 <? zlen (s_req s) + zlen (s_post s)) | _ => True end) ->
  block_args s args =
  cut (spread args) ++ repeat cnil (length (s_req s ++ s_post s) - length (cut (spread args))).
Proof.
  intros H. unfold block_args, cut, spread. destruct args as [|[v|l|kv|id] [|c' args]]; try reflexivity.
  rewrite H. reflexivity.
Qed.

Lemma bind_block_required st args a :
  required_only s = true -> on_top st args -> a_len a = zlen args ->
  sp st - zlen args + zlen (spread args) <= STACK_SIZE -> sp st - zlen args + iq_lvars iq <= STACK_SIZE ->
  exists st' env, spec_block s args (a_block a) = Some env /\
    bind_block st iq a = Ok st' /\ bound iq st st' (sp st - zlen args) env.
Proof.
  intros Er Ht Ha Hf1 Hf2.
  assert (Er' := Er). apply required_only_spec in Er'. destruct Er' as (E1 & E2 & E3 & E4 & E5 & E6).
  unfold bind_block. rewrite Ha, Ho, Hp. fold (required_only s). rewrite Er.
  destruct (prepare_ok st (sp st - zlen args) args) as (st1 & P1 & P2 & P3 & P4); [intros i c Hi; apply (Ht i c Hi)|lia|exact Hf1|].
  rewrite P1. cbn [rbind].
  set (vals := firstn (length (s_req s)) (spread args) ++ repeat cnil (length (s_req s) - length (spread args))).
  assert (Lv : length vals = length (s_req s)).
  { unfold vals. rewrite app_length, firstn_length, repeat_length. lia. }
  assert (EB : block_args s args = vals).
  { rewrite block_args_spread.
    - unfold cut, vals. rewrite E1, E2, E3. cbn [app]. rewrite app_nil_r, firstn_length.
      f_equal. f_equal. lia.
    - unfold splats. rewrite E1, E2, E3. cbn [app andb]. rewrite app_nil_r, Bool.orb_false_r.
      change (zlen []) with 0. destruct args as [|[v|l|kv|id] [|c' args']]; auto.
      unfold zlen. destruct (Nat.ltb_spec 1 (length (s_req s))), (Z.ltb_spec 1 (Z.of_nat (length (s_req s)) + 0)); try reflexivity; lia. }
  unfold spec_block, spec_call. rewrite EB. unfold positional, takes_kw. rewrite E4, E5, E6, app_nil_r.
  assert (Ep : spec_positional s vals = Some vals).
  { rewrite spec_positional_vals by (rewrite E3; cbn; lia). rewrite E1, E2, E3. cbn [andb]. change (zlen []) with 0.
    destruct (Z.ltb_spec (zlen (s_req s) + 0 + 0) (zlen vals)); [unfold zlen in *; lia|].
    unfold pos_vals, pre_args, post_args. rewrite E1, E2, E3. cbn [length firstn repeat app Nat.sub].
    rewrite Nat.sub_0_r, firstn_all, skipn_all, Lv, Nat.sub_diag. cbn [repeat app]. rewrite !app_nil_r.
    rewrite firstn_all2 by lia. reflexivity. }
  rewrite Ep. rewrite !app_nil_r. cbn [sig_params ip_req].
  assert (Hge : zlen (s_req s) <= iq_lvars iq).
  { rewrite Hl, zlen_app, (names_required s Er). assert (X := zlen_nonneg ext). lia. }
  assert (R0 := zlen_nonneg (s_req s)). assert (S0 := zlen_nonneg (spread args)).
  set (base := sp st - zlen args) in *.
  set (st2 := if zlen (s_req s) <? sp st1 - base then {| buf := buf st1; sp := base + zlen (s_req s) |} else st1).
  assert (Hb2 : buf st2 = buf st1) by (unfold st2; destruct (zlen (s_req s) <? sp st1 - base); reflexivity).
  assert (Hs2 : sp st2 = base + Z.min (zlen (s_req s)) (zlen (spread args))).
  { unfold st2. destruct (Z.ltb_spec (zlen (s_req s)) (sp st1 - base)); cbn [sp]; lia. }
  unfold resize_to. destruct (Z.ltb_spec STACK_SIZE (base + iq_lvars iq)); [lia|].
  eexists; eexists. split; [reflexivity|]. split; [reflexivity|].
  eapply bound_of; eauto.
  - rewrite (names_required s Er). unfold zlen. lia.
  - cbn [buf]. intros j Hj. unfold mfill. rewrite Hb2.
    destruct ((sp st2 <=? j) && (j <? base + iq_lvars iq)) eqn:E; [lia|apply P3; exact Hj].
  - cbn [buf]. rewrite Hb2. unfold vals. apply holds_app. split.
    + apply holds_mfill; [right; unfold zlen in *; rewrite firstn_length; lia|].
      rewrite <- (firstn_skipn (length (s_req s)) (spread args)) in P4. apply holds_app in P4. apply P4.
    + replace (base + zlen (firstn (length (s_req s)) (spread args))) with (sp st2)
        by (unfold zlen in *; rewrite firstn_length; lia).
      intros i c Hi. assert (Hi' : (i < length (s_req s) - length (spread args))%nat).
      { assert (i < length (repeat cnil (length (s_req s) - length (spread args))))%nat by (apply nth_error_Some; congruence).
        rewrite repeat_length in H0. exact H0. }
      assert (c = cnil) by (apply nth_error_In in Hi; apply repeat_spec in Hi; exact Hi). subst c.
      unfold mfill. destruct ((sp st2 <=? sp st2 + Z.of_nat i) && (sp st2 + Z.of_nat i <? base + iq_lvars iq)) eqn:E; [reflexivity|].
      unfold zlen in *. lia.
  - intros j Hj. rewrite (names_required s Er) in Hj. cbn [buf]. unfold mfill.
    destruct ((sp st2 <=? base + j) && (base + j <? base + iq_lvars iq)) eqn:E; [reflexivity|lia].
Qed.

(* the other block parameter lists, as far as the code agrees with Ruby *)
Definition fits (l : list cell) : Prop :=
  s_post s = [] \/
  (length (s_req s) + length (s_post s) <= length l)%nat /\
  (s_rest s = None -> (length l <= length (s_req s) + length (s_opt s) + length (s_post s))%nat).
Lemma bind_block_slow st args a :
  required_only s = false -> on_top st args -> a_len a = zlen args -> a_kw a = None ->
  sp st + 1 <= STACK_SIZE ->
  sp st - zlen args + zlen (spread args) <= STACK_SIZE -> sp st - zlen args + iq_lvars iq <= STACK_SIZE ->
  (s_rest s = Some None -> s_key s = []) ->
  (forall k, ~ In (k, false) (s_key s)) ->
  (match args with [CArr _] => splats s = (1 <? zlen (s_req s) + zlen (s_post s)) | _ => True end) ->
  fits (spread args) ->
  exists st' env, spec_block s args (a_block a) = Some env /\
    bind_block st iq a = Ok st' /\ bound iq st st' (sp st - zlen args) env.
Proof.
  intros Er Ht Ha Hkw Hf0 Hf1 Hf2 Hdis Hman Hspl Hfit.
  unfold bind_block. rewrite Ha, Ho, Hp. fold (required_only s). rewrite Er.
  assert (EK : push_kw_hash st (sig_params s) a = Ok st).
  { unfold push_kw_hash. rewrite Hkw. destruct (takes_keywords (sig_params s)); reflexivity. }
  rewrite EK. cbn [rbind].
  destruct (prepare_ok st (sp st - zlen args) args) as (st1 & P1 & P2 & P3 & P4); [intros i c Hi; apply (Ht i c Hi)|lia|exact Hf1|].
  rewrite P1. cbn [rbind].
  set (l := spread args) in *. set (base := sp st - zlen args) in *.
  assert (Hal : l = pre_args s l ++ post_args s l) by (symmetry; apply firstn_skipn).
  assert (HD : zlen (post_args s l) = zlen (s_post s)).
  { unfold post_args, zlen. rewrite skipn_length. destruct Hfit as [->|Hfit]; cbn; lia. }
  destruct (fill_positional_ok s iq ext Hp Hv Hl st1 base (pre_args s l) (post_args s l)) as (st2 & Q2 & Hs2 & Hl2 & Hh2 & Hk2 & Hn2);
    [rewrite <- Hal; exact P2|exact HD|rewrite <- Hal; exact P4|exact Hf2|].
  rewrite Q2. cbn [rbind].
  assert (Hnd : NoDup (map fst (kw_list (a_kw a)))) by (rewrite Hkw; constructor).
  assert (Hman' : forall k, In (k, false) (s_key s) -> given k (kw_list (a_kw a)) <> None) by (intros k Hk; exfalso; exact (Hman k Hk)).
  assert (R := rest_ok s iq ext Hp Hv Hl Hn Hdis st2 st base (pos_vals s (pre_args s l) (post_args s l)) a
                (pos_vals_len s _ _ HD) Hs2 (fun j Hj => eq_trans (Hl2 j Hj) (P3 j Hj)) Hh2 Hk2 Hn2 Hnd Hman').
  assert (EB : spec_positional s (block_args s args) = Some (pos_vals s (pre_args s l) (post_args s l))).
  { rewrite block_args_spread by exact Hspl. fold l. destruct Hfit as [Hp0|[Hge Hle]].
    - set (c := cut l). set (pad := repeat cnil (length (s_req s ++ s_post s) - length c)).
      assert (Lp : length pad = (length (s_req s) - length c)%nat).
      { unfold pad. rewrite repeat_length, Hp0, app_nil_r. reflexivity. }
      rewrite spec_positional_vals by (rewrite Hp0, app_length, Lp; cbn; lia).
      assert (Hc : (match s_rest s with None => true | Some _ => false end) = true ->
                   c = firstn (length (s_req s) + length (s_opt s)) l).
      { unfold c, cut. destruct (s_rest s); [discriminate|]. intros _. rewrite Hp0, app_nil_r, app_length. reflexivity. }
      assert (Hbig : (match s_rest s with None => true | Some _ => false end) &&
                     (zlen (s_req s) + zlen (s_post s) + zlen (s_opt s) <? zlen (c ++ pad)) = false).
      { destruct (s_rest s) eqn:Es; [reflexivity|]. cbn [andb]. rewrite Hc in * by reflexivity.
        unfold zlen. rewrite app_length, Lp, Hp0. cbn [length]. rewrite firstn_length.
        match goal with |- (?x <? ?y) = false => destruct (Z.ltb_spec x y); [lia|reflexivity] end. }
      rewrite Hbig. f_equal. unfold pos_vals, pre_args, post_args. rewrite Hp0. cbn [length]. rewrite !Nat.sub_0_r, !firstn_all, !skipn_all, !app_nil_r.
      (* the padding only fills required parameters *)
      assert (F1 : firstn (length (s_req s)) (c ++ pad) ++ repeat cnil (length (s_req s) - length (c ++ pad)) =
                   firstn (length (s_req s)) l ++ repeat cnil (length (s_req s) - length l)).
      { rewrite app_length, Lp. replace (length (s_req s) - (length c + (length (s_req s) - length c)))%nat with O by lia.
        cbn [repeat]. rewrite app_nil_r, firstn_app.
        rewrite (firstn_all2 pad) by lia.
        assert (Hcl : firstn (length (s_req s)) c = firstn (length (s_req s)) l /\ (length (s_req s) - length c = length (s_req s) - length l)%nat).
        { destruct (s_rest s) eqn:Es.
          - unfold c, cut. rewrite Es. split; reflexivity.
          - rewrite Hc by reflexivity. rewrite firstn_firstn, firstn_length. split; [f_equal; lia|lia]. }
        destruct Hcl as [-> Hcl]. f_equal. unfold pad. rewrite Hp0, app_nil_r, Hcl. reflexivity. }
      assert (F2 : skipn (length (s_req s)) (c ++ pad) = skipn (length (s_req s)) c).
      { rewrite skipn_app. replace (skipn (length (s_req s) - length c) pad) with ([] : list cell); [apply app_nil_r|].
        symmetry. apply skipn_all2. lia. }
      assert (F3 : firstn (length (s_opt s)) (skipn (length (s_req s)) c) = firstn (length (s_opt s)) (skipn (length (s_req s)) l)).
      { destruct (s_rest s) eqn:Es.
        - unfold c, cut. rewrite Es. reflexivity.
        - rewrite Hc by reflexivity. rewrite skipn_firstn_comm, firstn_firstn. f_equal. lia. }
      assert (F4 : (length (s_opt s) - (length (c ++ pad) - length (s_req s)) = length (s_opt s) - (length l - length (s_req s)))%nat).
      { rewrite app_length, Lp. destruct (s_rest s) eqn:Es.
        - unfold c, cut. rewrite Es. lia.
        - rewrite Hc by reflexivity. rewrite firstn_length. lia. }
      rewrite app_assoc, F1, F2, F3, F4, <- app_assoc. do 4 f_equal.
      unfold c, cut. destruct (s_rest s) as [[z|]|]; reflexivity.
    - assert (Hc : cut l = l).
      { unfold cut. destruct (s_rest s) eqn:Es; [reflexivity|]. specialize (Hle eq_refl).
        apply firstn_all2. rewrite !app_length. lia. }
      rewrite Hc. replace (length (s_req s ++ s_post s) - length l)%nat with O by (rewrite app_length; lia).
      cbn [repeat]. rewrite app_nil_r. rewrite spec_positional_vals by lia.
      destruct (s_rest s) eqn:Es; [reflexivity|]. cbn [andb]. specialize (Hle eq_refl).
      destruct (Z.ltb_spec (zlen (s_req s) + zlen (s_post s) + zlen (s_opt s)) (zlen l)); [unfold zlen in *; lia|reflexivity]. }
  unfold spec_block, spec_call.
  assert (Ep : positional s (block_args s args) None = block_args s args).
  { unfold positional. destruct (takes_kw s); [reflexivity|apply app_nil_r]. }
  rewrite Ep, EB. rewrite Hkw in R. 
  destruct (if takes_kw s then spec_keys s (kw_list None) else Some []) as [keys|] eqn:Ek.
  - destruct R as (st3 & E3 & Hb). eexists; eexists. split; [reflexivity|]. rewrite E3. cbn [rbind]. split; [reflexivity|]. exact Hb.
  - exfalso. destruct (takes_kw s); [|discriminate]. unfold spec_keys in Ek. cbn [kw_list forallb negb] in Ek.
    assert (Hall : forallb (fun kd : Z * bool => snd kd || match given (fst kd) [] with Some _ => true | None => false end) (s_key s) = true).
    { apply forallb_forall. intros [k d] Hi. destruct d; [reflexivity|]. exfalso. exact (Hman k Hi). }
    rewrite Hall in Ek. destruct (s_kwrest s); discriminate.
Qed.
End Call.
